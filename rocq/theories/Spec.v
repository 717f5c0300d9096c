(** Spec.v — the notions the theorems are stated in.  Written from the documented
    behaviour, not from the model; nothing here is used by the model. *)
From Coq Require Import Reals.
From Verif Require Import Base.

(** ** Sorting *)
(** [leb] is a total preorder on the elements satisfying [P] (for doubles: P = not NaN). *)
Record total_preorder {A} (leb : A -> A -> bool) (P : A -> Prop) : Prop := {
  tp_total : forall x y, P x -> P y -> leb x y = true \/ leb y x = true;
  tp_trans : forall x y z, P x -> P y -> P z -> leb x y = true -> leb y z = true -> leb x z = true
}.

(** positions [s..e] of [l] are in non-decreasing order *)
Definition sorted_between {A} (leb : A -> A -> bool) (l : list A) (s e : Z) : Prop :=
  forall i j x y, (s <= Z.of_nat i)%Z -> i < j -> (Z.of_nat j <= e)%Z ->
    nth_error l i = Some x -> nth_error l j = Some y -> leb x y = true.

(** [(a', m')] is [(a, m)] with positions [s..e] rearranged by one common
    permutation; everything else stays where it was. *)
Definition rearranged_between {A B} (s e : Z) (a : list A) (m : list B)
    (a' : list A) (m' : list B) : Prop :=
  length a' = length a /\ length m' = length m /\
  exists p : nat -> nat,
    (forall i j, p i = p j -> i = j) /\
    (forall i, (Z.of_nat i < s)%Z \/ (e < Z.of_nat i)%Z -> p i = i) /\
    (forall i, nth_error a' i = nth_error a (p i) /\ nth_error m' i = nth_error m (p i)).

(** an element that compares with nothing, like IEEE NaN *)
Definition incomparable {A} (leb : A -> A -> bool) (x : A) : Prop :=
  forall y, leb x y = false /\ leb y x = false.

(** ** Real-valued specifications *)
(** strictly increasing list of knots *)
Definition increasing_list (xs : list R) : Prop :=
  forall i j x y, i < j -> nth_error xs i = Some x -> nth_error xs j = Some y -> (x < y)%R.
(** sorted list *)
Definition nondecreasing (l : list R) : Prop :=
  forall i j x y, i < j -> nth_error l i = Some x -> nth_error l j = Some y -> (x <= y)%R.
(** [x] limited to the interval [lo, hi] *)
Definition clamp (lo hi x : R) : R := Rmax lo (Rmin hi x).
(** straight line through (x0, y0) and (x1, y1), evaluated at x *)
Definition line (x0 y0 x1 y1 x : R) : R := (y0 + (x - x0) * ((y1 - y0) / (x1 - x0)))%R.
(** every element of the list lies in [0, 1] *)
Definition in01 (xs : list R) : Prop := Forall (fun x => 0 <= x <= 1)%R xs.
(** maximum / minimum of a non-empty list *)
Definition is_max (l : list R) (m : R) : Prop := In m l /\ forall x, In x l -> (x <= m)%R.
Definition is_min (l : list R) (m : R) : Prop := In m l /\ forall x, In x l -> (m <= x)%R.
(** mathematical sum *)
Definition Rsum (l : list R) : R := fold_right Rplus 0%R l.
(** the reading of a negative input by fuzzy concepts whose values are all in
    [0,1]: "activation against" *)
Definition negact (v : R) (xs : list R) : Prop := (v < 0)%R /\ in01 xs.
(** x/s, further divided by the amount y of contrary evidence when there is any *)
Definition share (x y s : R) : R := if Req_EM_T y 0 then (x / s)%R else (x / y / s)%R.
