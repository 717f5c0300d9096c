(** LearnSpec.v — the notions the theorems about clustering, discretization and
    map generation are stated in.  Nothing here is used by the model. *)
From Coq Require Import Reals.
From Verif Require Import Base Num Spec.

(** number of elements with a property *)
Definition howmany {A} (p : A -> bool) (l : list A) : nat := length (filter p l).
(** 0/1 encoding of booleans *)
Definition b2R (b : bool) : R := if b then 1%R else 0%R.

(** a total order decided by [leb], with equality decided by [eqb] *)
Record total_order {A} (leb eqb : A -> A -> bool) : Prop := {
  to_eq : forall x y, eqb x y = true <-> x = y;
  to_total : forall x y, leb x y = true \/ leb y x = true;
  to_trans : forall x y z, leb x y = true -> leb y z = true -> leb x z = true;
  to_anti : forall x y, leb x y = true -> leb y x = true -> x = y
}.
(** every two entries in order, and different *)
Definition strictly_sorted {A} (leb : A -> A -> bool) (l : list A) : Prop :=
  StronglySorted (fun x y => leb x y = true /\ x <> y) l.
(** the distinct values of [l] in increasing order *)
Definition distinct_sorted {A} (leb : A -> A -> bool) (l u : list A) : Prop :=
  strictly_sorted leb u /\ (forall x, In x u <-> In x l).

(** a matrix with [r] rows and [c] columns *)
Definition shape {A} (r c : nat) (m : list (list A)) : Prop :=
  length m = r /\ Forall (fun row => length row = c) m.
(** the entry in row [i], column [j] *)
Definition entry {A} (m : list (list A)) (i j : nat) : option A :=
  match nth_error m i with Some row => nth_error row j | None => None end.
(** the entries of column [j] *)
Definition column_of {A} (m : list (list A)) (j : nat) : list A :=
  flat_map (fun row => match nth_error row j with Some x => [x] | None => [] end) m.
(** fuzzy partition of [n] points into [c] clusters (one row per cluster): every
    membership degree in (0, 1], the degrees of every point adding up to 1 *)
Definition fuzzy_partition (c n : nat) (u : list (list R)) : Prop :=
  shape c n u /\
  (forall i j x, entry u i j = Some x -> (0 < x <= 1)%R) /\
  (forall j, j < n -> Rsum (column_of u j) = 1%R).
(** the same with one row per point *)
Definition row_partition (n c : nat) (u : list (list R)) : Prop :=
  shape n c u /\ Forall (fun row => Forall (fun x => 0 < x <= 1)%R row /\ Rsum row = 1%R) u.
(** positive shares adding up to 1 *)
Definition shares (a : list R) : Prop := Forall (fun x => 0 < x)%R a /\ Rsum a = 1%R.
(** positions into a sequence of length [n], at least [gap] apart *)
Definition spaced_positions (n : nat) (gap : R) (xs : list nat) : Prop :=
  (forall i x, nth_error xs i = Some x -> x < n) /\
  (forall i x y, nth_error xs i = Some x -> nth_error xs (S i) = Some y -> x < y /\ (INR x + gap <= INR y)%R).
(** membership degrees of [n] points in [c] clusters, not necessarily adding up to 1 *)
Definition memberships (c n : nat) (u : list (list R)) : Prop :=
  shape c n u /\ (forall i j x, entry u i j = Some x -> (0 <= x <= 1)%R).
(** real numbers in strictly increasing order *)
Definition increasing (l : list R) : Prop := StronglySorted Rlt l.
