(** Cmeans.v — model of /repo/py_fcm/learning/discretization/fuzzy_cmeans.py (line
    numbers refer to it).  Data is one column (see LearnUtils.v).  The order in
    which BLAS adds the products of um.dot(data) is taken to be left to right.
    Numba array divisions raise nothing; scalar divisions raise on zero. *)
From Verif Require Import Base Num Functions LearnUtils.

Section Cmeans.
Context {F : Type} {N : Num F}.

(** lines 8-35 *)
Definition cmeans0 (data : list F) (u_old : list (list F)) (m : F)
  : res (list F * list (list F) * F * list (list F)) :=
  let u_old := normalize_columns u_old in
  let u_old := map (map (fun x => fmax x neps)) u_old in
  let um := map (map (fun x => npow x m)) u_old in
  let cntr := map (fun r => ndiv (nsum (zip_with nmul r data)) (nsum r)) um in
  let d := one_dimension_distance data cntr in
  let d := map (map (fun x => fmax x neps)) d in
  let jm := nsum (concat (zip_with (fun r s => zip_with (fun a b => nmul a (nmul b b)) r s) um d)) in
  (e <- pdiv (nofZ (-2)) (nsub m n1) ;;
   u <- normalize_power_columns d e ;;
   Ok (cntr, u, jm, d))%res.

(** lines 38-55: trace of u * transpose(u), divided by the number of points *)
Definition fp_coeff (u : list (list F)) : res F :=
  pdiv (nsum (map (fun r => nsum (map (fun x => nmul x x) r)) u)) (nat2F (mcols u)).

(** lines 136-146, the loop, [k] iterations left: returns the last centres and
    distances (None before the first iteration), memberships, objective history
    and number of iterations *)
Fixpoint cmeans_loop (k : nat) (data : list F) (m error : F)
    (last : option (list F * list (list F))) (u : list (list F)) (jm : list F) (p : nat)
  : res (option (list F * list (list F)) * list (list F) * list F * nat) :=
  match k with
  | O => Ok (last, u, jm, p)
  | S k =>
      ('(cntr, u', j, d) <- cmeans0 data u m ;;
       let jm := jm ++ [j] in
       if nltb (mdist u' u) error
       then Ok (Some (cntr, d), u', jm, S p)
       else cmeans_loop k data m error (Some (cntr, d)) u' jm (S p))%res
  end.

(** lines 124-130: the starting matrix [u0] is read at every position of a c x n
    matrix (reading past its end is undefined) and kept at least eps *)
Definition cmeans_start (c n : nat) (u0 : list (list F)) : res (list (list F)) :=
  rmap (fun i => r <- match nth_error u0 i with Some r => Ok r | None => Err EUndef end ;;
                 rmap (fun j => x <- nbget r j ;; Ok (if nltb x neps then neps else x)) (seq 0 n))%res
       (seq 0 c).

(** lines 58-150.  [rand] stands for np.random.rand(c, n), used when no [init] is
    given; the seed is part of that choice.  Without any iteration the centres are
    an unbound variable. *)
Definition cmeans (data : list F) (c : nat) (m error : F) (maxiter : Z)
    (init : option (list (list F))) (rand : list (list F))
  : res (list F * list (list F) * list (list F) * list (list F) * list F * nat * F) :=
  let n := length data in
  let u0 := match init with Some u => u | None => normalize_columns rand end in
  (u <- cmeans_start c n u0 ;;
   '(last, u, jm, p) <- cmeans_loop (Z.to_nat (maxiter - 1)) data m error None u [] 0 ;;
   fpc <- fp_coeff u ;;
   match last with
   | None => Err EUnbound
   | Some (cntr, d) => Ok (cntr, u, u0, d, jm, p, fpc)
   end)%res.

(** lines 153-157 *)
Definition fuzzy_cmeans (data : list F) (c : nat) (m error : F) (maxiter : Z)
    (init : option (list (list F))) (rand : list (list F)) : res (list (list F) * list F) :=
  ('(cntr, u, _, _, _, _, _) <- cmeans data c m error maxiter init rand ;; Ok (u, cntr))%res.
End Cmeans.
