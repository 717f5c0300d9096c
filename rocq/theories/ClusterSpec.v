(** ClusterSpec.v — the geometric notions the theorems about clustering points with
    several coordinates are stated in.  Nothing here is used by the model. *)
From Coq Require Import Reals.
From Verif Require Import Base Num Spec.
Local Open Scope R_scope.

(** scalar product of two points *)
Definition dot (a b : list R) : R := Rsum (map (fun p => fst p * snd p) (combine a b)).
(** square of the distance, and the distance of two points *)
Definition gap2 (a b : list R) : R := Rsum (map (fun p => (fst p - snd p) * (fst p - snd p)) (combine a b)).
Definition euclid (a b : list R) : R := sqrt (gap2 a b).
(** [y] lies in the convex hull of the points [data] (with [k] coordinates): on the
    same side of every half space that contains all of them *)
Definition in_hull (k : nat) (data : list (list R)) (y : list R) : Prop :=
  length y = k /\
  forall w hi, length w = k -> (forall x, In x data -> dot w x <= hi) -> dot w y <= hi.
(** the affine map with matrix [a] (its rows) and shift [t] *)
Definition affine (a : list (list R)) (t x : list R) : list R :=
  map (fun p => dot (fst p) x + snd p) (combine a t).
(** [f] preserves the distances of points with [k] coordinates *)
Definition isometric (k : nat) (f : list R -> list R) : Prop :=
  forall x y, length x = k -> length y = k -> euclid (f x) (f y) = euclid x y.
(** sum of the products of the entries at the same places *)
Definition total2 (f : R -> R -> R) (a b : list (list R)) : R :=
  Rsum (map (fun rs => Rsum (map (fun p => f (fst p) (snd p)) (combine (fst rs) (snd rs)))) (combine a b)).
(** every entry at least as large as the next *)
Definition nonincreasing (l : list R) : Prop :=
  forall i x y, nth_error l i = Some x -> nth_error l (S i) = Some y -> y <= x.
