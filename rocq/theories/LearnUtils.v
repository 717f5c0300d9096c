(** LearnUtils.v — model of /repo/py_fcm/learning/utils.py; line numbers refer to
    that file.  A matrix is the list of its rows.  Common simplification: the data
    to be clustered is one column (the only use in /repo: discretization/__init__.py
    line 78 stacks a value list), so a data point or a cluster centre is one number
    and the norm of a difference is its absolute value. *)
From Verif Require Import Base Num Functions.

Section LearnUtils.
Context {F : Type} {N : Num F}.

(** ** Array notions *)
(** column [j] of a matrix *)
Definition mcol (m : list (list F)) (j : nat) : list F := map (fun r => nth j r n0) m.
(** number of columns (shape[1]); 0 when there are no rows *)
Definition mcols (m : list (list F)) : nat := match m with [] => 0 | r :: _ => length r end.
(** the transposed matrix, of which [n] is the number of rows *)
Definition transpose (n : nat) (m : list (list F)) : list (list F) := map (mcol m) (seq 0 n).
(** apply [f] to every column *)
Definition by_columns (f : list F -> list F) (m : list (list F)) : list (list F) :=
  transpose (length m) (map f (transpose (mcols m) m)).
Definition zip_with {A B C} (f : A -> B -> C) (a : list A) (b : list B) : list C :=
  map (fun p => f (fst p) (snd p)) (combine a b).
(** np.fmax(x, y) of two numbers (which of the two NaN-handling rules is applied
    does not matter for numbers) *)
Definition fmax (x y : F) : F := if nltb x y then y else x.
(** np.linalg.norm of a vector: root of the sum of squares *)
Definition norm (v : list F) : F := nsqrt (nsum (map (fun x => nmul x x) v)).
(** norm of the difference of two matrices of the same shape (Frobenius norm) *)
Definition mdist (a b : list (list F)) : F :=
  norm (concat (zip_with (fun r s => zip_with nsub r s) a b)).
(** [np.unique]: sorted without repetitions; [leb], [eqb] compare elements *)
Fixpoint uinsert {A} (leb eqb : A -> A -> bool) (x : A) (l : list A) : list A :=
  match l with
  | [] => [x]
  | y :: t => if eqb x y then l else if leb x y then x :: l else y :: uinsert leb eqb x t
  end.
Definition unique {A} (leb eqb : A -> A -> bool) (l : list A) : list A :=
  fold_right (uinsert leb eqb) [] l.

(** lines 6-14: one row per unique value, 1 where the sample has that value.
    [eqb] is == on the elements. *)
Definition gen_discrete_feature_matrix {A} (eqb : A -> A -> bool) (val_list unique_values : list A)
  : list (list F) :=
  map (fun u => map (fun v => if eqb v u then n1 else n0) val_list) unique_values.

(** lines 17-30; None on unequal lengths *)
Definition coeffs : Type := F * F * F * F.
Definition coeff_step (acc : coeffs) (xy : F * F) : coeffs :=
  let '(a_b, a_nb, na_b, na_nb) := acc in
  let '(x, y) := xy in
  (nadd a_b (nmul x y), nadd a_nb (nmul x (nsub n1 y)),
   nadd na_b (nmul (nsub n1 x) y), nadd na_nb (nmul (nsub n1 x) (nsub n1 y))).
Definition calc_concepts_coefficient (array1 array2 : list F) : option (coeffs * coeffs) :=
  if Nat.eqb (length array1) (length array2) then
    let '(a_b, a_nb, na_b, na_nb) :=
      fold_left coeff_step (combine array1 array2) (n0, n0, n0, n0) in
    Some ((a_b, a_nb, na_b, na_nb), (a_b, na_b, a_nb, na_nb))
  else None.

(** lines 33-39; one-column data *)
Definition one_dimension_distance (data centers : list F) : list (list F) :=
  map (fun c => map (fun d => nabs (nsub d c)) data) centers.

(** lines 42-59; numpy division: no exception on a zero sum *)
Definition normalize_column (c : list F) : list F := map (fun x => ndiv x (nsum c)) c.
Definition normalize_columns (columns : list (list F)) : list (list F) :=
  by_columns normalize_column columns.

(** lines 62-108: everything happens column by column except the assertion.
    [pmax]/[pmin] of an empty column cannot happen here: a matrix with a column
    has a row.  Numpy divisions. *)
Definition scale_max (c : list F) : list F :=
  match c with [] => [] | x :: t => map (fun v => ndiv v (pmax x t)) c end.
Definition scale_min (c : list F) : list F :=
  match c with [] => [] | x :: t => map (fun v => ndiv v (pmin x t)) c end.
Definition power_column (exponent : F) (c : list F) : list F :=
  let c := map (fun v => fmax v neps) (scale_max c) in
  let c := if nltb exponent n0 then scale_min c else c in
  normalize_column (map (fun v => npow v exponent) c).
Definition normalize_power_columns (columns : list (list F)) (exponent : F) : res (list (list F)) :=
  if forallb (forallb (fun v => nleb n0 v)) columns
  then Ok (by_columns (power_column exponent) columns)
  else Err (EExc "AssertionError").
End LearnUtils.
Arguments coeffs : clear implicits.
