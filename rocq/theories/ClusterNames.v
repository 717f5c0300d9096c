(** ClusterNames.v — model of estimate_clusters of
    /repo/py_fcm/learning/discretization/clusters_estimation.py (CE lines 157-194) for
    any method name and with or without a clustering function; Discret.v has the three
    methods themselves. *)
From Verif Require Import Base Num Discret.

Section ClusterNames.
Context {F : Type} {N : Num F}.

(** line 159 *)
Definition method_named (name : string) : option method :=
  if String.eqb name "gap_concentration" then Some MGap
  else if String.eqb name "fuzzy_silhouette" then Some MSil
  else if String.eqb name "combined_fuzzy_entropy" then Some MCfe
  else None.
(** [has_function]: the argument function is fuzzy_cmeans (the default), else None.
    Lines 167-169 replace an unsupported name by the function object
    gap_concentration, which equals none of the names tested afterwards.  The warning
    is left out.  [None] as description is Python's None. *)
Definition estimate_clusters_named (data : list F) (max_clusters : nat) (name : string) (has_function : bool)
    (maxiter : Z) (fit : list F) (rand : nat -> list (list F)) : res (nat * option (list (list F))) :=
  match method_named name with
  | None => Ok (1, None)
  | Some m =>
      if has_function then ('(k, d) <- estimate_clusters data max_clusters m maxiter fit rand ;; Ok (k, Some d))%res
      else match m with
           | MGap =>
               if Nat.leb (length data) max_clusters then Err EUndef
               else ('(_, (xs, ys)) <- gap_concentration fit data max_clusters ;;
                     (* line 184: calling None *)
                     if Nat.ltb 1 (length ys - 1) then Err EType else Ok (1, Some [repeat n1 (length data)]))%res
           | _ => Ok (1, None)
           end
  end.
End ClusterNames.
