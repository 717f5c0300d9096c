(** EstInput.v — model of what the estimator accepts as data
    (/repo/py_fcm/fcm_estimator.py; line numbers refer to it) and of its constructor
    with the generator's option fit_inclination
    (/repo/py_fcm/learning/association.py:30-52).

    Simplifications: the entries of an array (or of the list it is made from) are
    given column by column and are not converted to one type; ragged lists and
    arrays of more than two dimensions are left out; a Series has a text as name;
    the values of a dict are lists. *)
From Verif Require Import Base Num Functions Fcm LearnUtils Assoc Estimator.

Section EstInput.
Context {F : Type} {N : Num F}.
Inductive input : Type :=
| IFrame (d : dataset F)
| IDict (d : dataset F)
| ISeries (name : string) (c : column F)
| IArr1 (c : column F) | IArr2 (cols : list (column F))
| IList1 (c : column F) | IList2 (cols : list (column F))
| IOther.

(** lines 49-54: the column names of an array *)
Definition numbered (start : nat) (cols : list (column F)) : dataset F :=
  combine (map (fun i => str_of_Z (Z.of_nat (i + start))) (seq 0 (length cols))) cols.
(** lines 42-57; None: not a data frame.  DataFrame(dict) raises ValueError on lists
    of different lengths. *)
Definition to_data_frame (start : nat) (x : input) : res (option (dataset F)) :=
  match x with
  | IDict d => if forallb (fun c => Nat.eqb (col_length (snd c)) (frame_rows d)) d then Ok (Some d) else Err EValue
  | IArr1 c | IList1 c => Ok (Some [(str_of_Z (Z.of_nat start), c)])
  | IArr2 cols | IList2 cols => Ok (Some (numbered start cols))
  | ISeries name c => Ok (Some [(name, c)])
  | IFrame d => Ok (Some d)
  | IOther => Ok None
  end.
(** line 62: x.shape[1], after lines 60-61 turned a list into an array *)
Definition width (x : input) : res nat :=
  match x with
  | IFrame d => Ok (length d)
  | IArr2 cols | IList2 cols => Ok (length cols)
  | IArr1 _ | IList1 _ | ISeries _ _ => Err EIndex
  | IDict _ | IOther => Err EAttr
  end.
Definition bad_structure (which : string) : exn :=
  EExc (append "Cannot load provided " (append which " structure, please use a pandas DataFrame like object.")).
(** lines 59-69 *)
Definition validate_dual_input (x y : input) : res (dataset F * dataset F) :=
  (max_col <- width x ;;
   x <- to_data_frame 0 x ;;
   y <- to_data_frame max_col y ;;
   match x, y with
   | None, _ => Err (bad_structure "x")
   | _, None => Err (bad_structure "y")
   | Some x, Some y => Ok (x, y)
   end)%res.

(** lines 70-80 *)
Definition fit_input (cf : gconf F) (x y : input) (e : est F) : est F * res unit :=
  match validate_dual_input x y with Err er => (e, Err er) | Ok (x, y) => fit cf x y e end.
(** lines 82-99 *)
Definition predict_input (cf : gconf F) (x : input) (e : est F) : est F * res (dict (list (cell F))) :=
  match to_data_frame 0 x with
  | Err er => (e, Err er)
  | Ok None => (e, Err (bad_structure "x"))
  | Ok (Some x) => predict cf x e
  end.
(** lines 101-117 *)
Definition score_input (cf : gconf F) (x y : input) (e : est F) : est F * res F :=
  if e_generated e then
    match validate_dual_input x y with Err er => (e, Err er) | Ok (x, y) => score cf x y e end
  else (e, Err (EExc "There is no FCM generated, the fit method mus be called first")).

(** lines 12-40 with association.py:50-51: fit_inclination is set on the generator's
    own first map *)
Definition set_fit (v : option F) (s : fcm F) : fcm F :=
  mkFcm (m_topo s) (m_arcs s) (m_exec s) (m_stab s) (m_maxit s) (m_extra s) (m_sdiff s) (m_decision s) (m_mem s) (m_func s)
    (m_gargs s) (m_iters s) (m_weight s) (m_default s) (m_debug s) v (m_prepared s) (m_cache s) (m_oob s).
Definition init_est_fit (fit_inclination : bool) (max_it extra_steps : Z) (stability_diff : F) (decision : string) (mem : bool)
    (excitation activation : string) (kwargs : args F) (vectorized : bool) : res (est F) :=
  (e <- init_est max_it extra_steps stability_diff decision mem excitation activation kwargs vectorized ;;
   Ok (if fit_inclination
       then mkEst (e_map e) (option_map (set_fit (Some (nlit 75 100))) (e_priv e)) (e_feats e) (e_proc e) (e_generated e)
       else e))%res.
End EstInput.
Arguments input : clear implicits.
