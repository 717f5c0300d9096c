(** VoteSpec.v — vocabulary for statements about the votes of the features for a class (C114).  Nothing here is used by the
    model. *)
From Coq Require Import Reals.
From Verif Require Import Base Num Functions Spec Fcm DynSpec LearnUtils LearnSpec Assoc AssocSpec Estimator EstSpec SepSpec.
Local Open Scope R_scope.

(** [k] of the rows 0, ..., n-1 have the property *)
Definition rows_with (n : nat) (P : nat -> Prop) (k : nat) : Prop :=
  exists js, NoDup js /\ length js = k /\ forall j, In j js <-> (j < n)%nat /\ P j.
Definition holds (c : column R) (v : cell R) (j : nat) : Prop := nth_error (col_cells c) j = Some v.
(** the vote of value [v] of column [c] for value [w] of column [cg]: the causality of [v] for [w], measured by the numbers of
    rows with both, only the first, only the second, and none; 0 if both occur together in too small a share of the rows *)
Definition vote (caus : R -> R -> R -> R -> res R) (thr : R) (n : nat) (c : column R) (v : cell R) (cg : column R) (w : cell R) (q : R) : Prop :=
  exists k m l, rows_with n (fun j => holds c v j /\ holds cg w j) k /\ rows_with n (holds c v) m /\ rows_with n (holds cg w) l /\
    (INR k <= thr * INR n /\ q = 0 \/
     thr * INR n < INR k /\ caus (INR k) (INR m - INR k) (INR l - INR k) (INR n - INR m - INR l + INR k) = Ok q).
(** the sum of the votes of the cells of row [j] of [x'] *)
Definition poll (caus : R -> R -> R -> R -> res R) (thr : R) (n : nat) (x x' : dataset R) (j : nat) (cg : column R) (w : cell R) (q : R) : Prop :=
  exists qs, Forall2 (fun fc q => exists c v, In (fst fc, c) x /\ nth_error (col_cells (snd fc)) j = Some v /\ In v (col_cells c) /\
      vote caus thr n c v cg w q) x' qs /\ q = Rsum qs.
(** class value [w] wins: its votes are positive, and every other one has fewer votes, and fewer than 1 *)
Definition elected (caus : R -> R -> R -> R -> res R) (thr : R) (n : nat) (x x' : dataset R) (cg : column R) (j : nat) (w : cell R) : Prop :=
  In w (col_cells cg) /\ exists q, poll caus thr n x x' j cg w q /\ 0 < q /\
  forall w', In w' (col_cells cg) -> w' <> w -> exists q', poll caus thr n x x' j cg w' q' /\ q' < q /\ q' < 1.
(** data with readable names, [n] rows, and only plain columns *)
Definition discrete_data (cf : gconf R) (n : nat) (x y : dataset R) : Prop :=
  readable_data cf (x ++ y) /\ (0 < n)%nat /\ forall f c, In (f, c) (x ++ y) -> col_length c = n /\ plain_column cf c.
(** relations in one direction, evaluated by support, without a sign function; concepts of one feature do not support each
    other *)
Definition one_way (cf : gconf R) : Prop :=
  c_eval cf = rel_supp /\ 0 <= c_thr cf /\ c_sign cf = None /\ c_excl cf <= 0 /\ c_double cf = false.
(** no relations among features, nor among classes *)
Definition unrelated (cf : gconf R) (x y : dataset R) : Prop := c_featrel cf = false \/ (length x <= 1 /\ length y <= 1)%nat.
(** [m] rows to classify, all of whose cells occurred in training *)
Definition known_data (m : nat) (x' x : dataset R) : Prop :=
  x' <> [] /\ NoDup (dkeys x') /\ forall f c', In (f, c') x' -> col_length c' = m /\ exists c, In (f, c) x /\ incl (col_cells c') (col_cells c).
(** [w] occurs together with [v] more often than any other value, and in a sufficient share of the rows *)
Definition most_frequent (thr : R) (n : nat) (c : column R) (v : cell R) (cg : column R) (w : cell R) : Prop :=
  exists k, rows_with n (fun j => holds c v j /\ holds cg w j) k /\ thr * INR n < INR k /\
    forall w', w' <> w -> exists k', rows_with n (fun j => holds c v j /\ holds cg w' j) k' /\ (k' < k)%nat.
