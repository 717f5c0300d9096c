(** SepSpec.v — vocabulary for statements about separated data (C93).  Nothing here
    is used by the model. *)
From Coq Require Import Reals.
From Verif Require Import Base Num Functions Fcm DynSpec LearnUtils LearnSpec Assoc AssocSpec Estimator EstSpec.
Local Open Scope R_scope.

(** a column of texts, or of integers with fewer than ten different values *)
Definition plain_column (cf : gconf R) (c : column R) : Prop :=
  match c with
  | ColStr _ => True
  | ColInt l => c_infer cf = true /\ exists few, (length few < 10)%nat /\ incl l few
  | _ => False
  end.
(** columns of [n] rows each, every one of which determines every other: rows that
    agree in one column agree in all *)
Definition separated {F : Type} (n : nat) (ds : dataset F) : Prop :=
  (forall f c, In (f, c) ds -> col_length c = n) /\
  forall f c f' c' i j, In (f, c) ds -> In (f', c') ds -> (i < n)%nat -> (j < n)%nat ->
    nth_error (col_cells c) i = nth_error (col_cells c) j -> nth_error (col_cells c') i = nth_error (col_cells c') j.
(** every value of a column occurs in more than the share [thr] of its rows *)
Definition frequent (thr : R) (c : column R) : Prop :=
  forall i v, nth_error (col_cells c) i = Some v ->
    exists js, NoDup js /\ (forall j, In j js -> nth_error (col_cells c) j = Some v) /\ thr * INR (col_length c) < INR (length js).
(** how large the signal of a concept with a value in [-1, 1] can get *)
Definition reach (excitation : string) : R := if String.eqb excitation "PAPAGEORGIUS" then 3 else 1.
(** activation functions that tell all inputs of a map of [k] concepts apart; the
    hyperbolic ones are constant below -500 / lambda *)
Definition telling (f : string) (a : args R) (bound : R) : Prop :=
  (f = "sigmoid" /\ 0 < parameter a "lambda_val" 1) \/
  (In f ["sigmoid_hip"; "tan_hip"] /\ 0 < parameter a "lambda_val" 2 /\ parameter a "lambda_val" 2 * bound < 500).
(** the class label as the estimator reports it: texts of digits as integers *)
Definition label (v : cell R) : cell R :=
  match v with CStr t => class_cell t | CInt z => class_cell (str_of_Z z) | _ => v end.
(** labels reported as they are: texts with something but digits, integers from 0 on *)
Definition faithful (v : cell R) : Prop :=
  match v with
  | CStr t => t = "" \/ exists a ch b, t = append a (String ch b) /\ ~ (48 <= Ascii.nat_of_ascii ch <= 57)%nat
  | CInt z => (0 <= z)%Z
  | _ => False
  end.
(** [x'] consists of some of the columns of [x], with its rows [src] (in any order, possibly repeated) *)
Definition part_of (src : list nat) (x' x : dataset R) : Prop :=
  x' <> [] /\ NoDup (dkeys x') /\
  forall f c', In (f, c') x' -> exists c, In (f, c) x /\ col_cells c' = pick src (col_cells c).
(** data that the theorem speaks about: named as the generator needs it, some rows, separated, with
    plain columns all of whose values are frequent *)
Definition separable (cf : gconf R) (n : nat) (x y : dataset R) : Prop :=
  readable_data cf (x ++ y) /\ (0 < n)%nat /\ separated n (x ++ y) /\
  forall f c, In (f, c) (x ++ y) -> plain_column cf c /\ frequent (c_thr cf) c.
(** relations evaluated by support, weighted by confidence or positive influence, without a sign function *)
Definition rates_by_share (cf : gconf R) : Prop :=
  c_eval cf = rel_supp /\ 0 <= c_thr cf /\ (c_caus cf = rel_conf \/ c_caus cf = rel_pos_inf) /\ c_sign cf = None.
(** concepts of one feature do not support each other more than a concept supports itself *)
Definition own_voice (cf : gconf R) (decision : string) (memory : bool) : Prop :=
  let own := if memory then 1 else 0 in
  (decision = "LAST" /\ c_excl cf < own) \/ (decision = "MEAN" /\ c_excl cf <= own).

(** ** For C94 *)
(** columns of [n] rows each; rows that agree in one of them agree in all classes *)
Definition determined {F : Type} (n : nat) (x y : dataset F) : Prop :=
  (forall f c, In (f, c) (x ++ y) -> col_length c = n) /\
  forall f c f' c' i j, In (f, c) (x ++ y) -> In (f', c') y -> (i < n)%nat -> (j < n)%nat ->
    nth_error (col_cells c) i = nth_error (col_cells c) j -> nth_error (col_cells c') i = nth_error (col_cells c') j.
(** activation functions that answer nothing to an input of 0 and less, and something to any other *)
Definition rectifying (f : string) (a : args R) : Prop :=
  In f ["biestate"; "saturation"] \/ (f = "relm" /\ 0 < parameter a "lambda_val" 1).
(** causality functions that are positive where the cause occurs, and never without the effect *)
Definition favours (caus : R -> R -> R -> R -> res R) : Prop :=
  forall p q r, 0 < p -> 0 <= q -> 0 <= r -> exists v, caus p 0 q r = Ok v /\ 0 < v.
(** every cell of row k of [x'] occurs in the data with the classes of its row [src_k] *)
Definition resembles (n : nat) (src : list nat) (x' x y : dataset R) : Prop :=
  x' <> [] /\ NoDup (dkeys x') /\ Forall (fun i => (i < n)%nat) src /\
  forall f c', In (f, c') x' -> exists c, In (f, c) x /\
    Forall2 (fun i v => exists j, nth_error (col_cells c) j = Some v /\
      forall g cg, In (g, cg) y -> nth_error (col_cells cg) j = nth_error (col_cells cg) i) src (col_cells c').
Definition determining (cf : gconf R) (n : nat) (x y : dataset R) : Prop :=
  readable_data cf (x ++ y) /\ (0 < n)%nat /\ determined n x y /\
  forall f c, In (f, c) (x ++ y) -> plain_column cf c /\ frequent (c_thr cf) c.
(** relations evaluated by support, weighted by a function that favours implications, without a sign
    function; concepts of one feature do not support each other *)
Definition rates_implications (cf : gconf R) : Prop :=
  c_eval cf = rel_supp /\ 0 <= c_thr cf /\ favours (c_caus cf) /\ c_sign cf = None /\ c_excl cf <= 0.
