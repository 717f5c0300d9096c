(** Num.v — the number operations the code uses.
    The model is written against this record so that the same definitions can be
    - reasoned about for every number type (no law is assumed in the record),
    - instantiated with the reals [R] (exact arithmetic) for algebraic theorems,
    - instantiated with binary64 floats and executed (Conformance.v). *)
From Coq Require Import Reals.
From Verif Require Import Base.

Class Num (F : Type) : Type := {
  nofZ : Z -> F;
  nadd : F -> F -> F;
  nsub : F -> F -> F;
  nmul : F -> F -> F;
  ndiv : F -> F -> F;      (* total operation; code that raises on 0 tests first *)
  nabs : F -> F;
  nltb : F -> F -> bool;   (* <  *)
  nleb : F -> F -> bool;   (* <= *)
  neqb : F -> F -> bool;   (* == *)
  nexp : F -> F;
  nln : F -> F;
  nsqrt : F -> F;
  npow : F -> F -> F;      (* x ** y for x > 0 *)
  neps : F                 (* np.finfo(float64).eps *)
}.

Declare Scope num_scope.
Delimit Scope num_scope with num.
Infix "+" := nadd : num_scope.
Infix "-" := nsub : num_scope.
Infix "*" := nmul : num_scope.
Infix "/" := ndiv : num_scope.
Infix "<?" := nltb : num_scope.
Infix "<=?" := nleb : num_scope.
Infix "=?" := neqb : num_scope.

Section Derived.
Context {F : Type} {N : Num F}.
Definition n0 : F := nofZ 0.
Definition n1 : F := nofZ 1.
Definition n2 : F := nofZ 2.
(** [-1 * x] and unary minus on a constant *)
Definition nm1 : F := nofZ (-1).
(** decimal literal p/q written in the source (exactly rounded on floats since
    p and q are exact) *)
Definition nlit (p q : Z) : F := ndiv (nofZ p) (nofZ q).
(** Python [a / b] on Python or njit floats: ZeroDivisionError on zero. *)
Definition pdiv (a b : F) : res F :=
  if neqb b n0 then Err EZeroDiv else Ok (ndiv a b).
(** Python [sum(l)]: left fold from 0 *)
Definition nsum (l : list F) : F := fold_left nadd l n0.
(** Python [max]/[min] of a non-empty sequence: first extremal element wins *)
Definition pmax (a : F) (l : list F) : F :=
  fold_left (fun m x => if nltb m x then x else m) l a.
Definition pmin (a : F) (l : list F) : F :=
  fold_left (fun m x => if nltb x m then x else m) l a.
Definition max_list (l : list F) : res F :=
  match l with [] => Err EValue | a :: t => Ok (pmax a t) end.
Definition min_list (l : list F) : res F :=
  match l with [] => Err EValue | a :: t => Ok (pmin a t) end.
Definition nat2F (n : nat) : F := nofZ (Z.of_nat n).
End Derived.

(** ** The real numbers *)
Definition Rltb (x y : R) : bool := if Rlt_dec x y then true else false.
Definition Rleb (x y : R) : bool := if Rle_dec x y then true else false.
Definition Reqb (x y : R) : bool := if Req_EM_T x y then true else false.
#[global] Instance RNum : Num R := {
  nofZ := IZR;
  nadd := Rplus; nsub := Rminus; nmul := Rmult; ndiv := Rdiv;
  nabs := Rabs;
  nltb := Rltb; nleb := Rleb; neqb := Reqb;
  nexp := exp; nln := ln; nsqrt := sqrt; npow := Rpower;
  neps := (/ 4503599627370496)%R
}.

Lemma Rltb_spec x y : reflect (x < y)%R (Rltb x y).
Proof. unfold Rltb; destruct (Rlt_dec x y); constructor; assumption. Qed.
Lemma Rleb_spec x y : reflect (x <= y)%R (Rleb x y).
Proof. unfold Rleb; destruct (Rle_dec x y); constructor; assumption. Qed.
Lemma Reqb_spec x y : reflect (x = y) (Reqb x y).
Proof. unfold Reqb; destruct (Req_EM_T x y); constructor; assumption. Qed.
