(** RowSpec.v — the words used to state that the rows of a training set may be
    reordered or repeated.  Nothing here is used by the model. *)
From Coq Require Import Reals Permutation.
From Verif Require Import Base Num Assoc.

(** [l'] lists the elements of [l] at the positions [p], in that order *)
Definition taken {A} (p : list nat) (l l' : list A) : Prop :=
  length l' = length p /\ forall j i, nth_error p j = Some i -> nth_error l' j = nth_error l i.
Definition taken_column {F} (p : list nat) (c c' : column F) : Prop :=
  match c, c' with
  | ColStr l, ColStr l' => taken p l l'
  | ColBool l, ColBool l' => taken p l l'
  | ColInt l, ColInt l' => taken p l l'
  | ColFlt l, ColFlt l' => taken p l l'
  | _, _ => False
  end.
(** the frame with the rows of [x] at the positions [p] *)
Definition taken_frame {F} (p : list nat) (x x' : dataset F) : Prop :=
  Forall2 (fun a b => fst a = fst b /\ taken_column p (snd a) (snd b)) x x'.
(** every position below [n] exactly [k] times *)
Definition every (k n : nat) (p : list nat) : Prop := Permutation p (concat (repeat (seq 0 n) k)).
(** a measure that only depends on proportions *)
Definition proportional (f : R -> R -> R -> R -> res R) : Prop :=
  forall t a b c d, (0 < t)%R -> f (t * a)%R (t * b)%R (t * c)%R (t * d)%R = f a b c d.
(** a discretization that only depends on which values occur *)
Definition by_values {F} (disc : string -> list F -> res (nat * list F * list (list F))) : Prop :=
  forall name l l', (forall v, In v l <-> In v l') -> disc name l = disc name l'.
