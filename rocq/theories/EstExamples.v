(** EstExamples.v — a small data set and estimators over rational numbers, used to
    show that the hypotheses of the theorems can be met. *)
From Coq Require Import QArith.
From Verif Require Import Base Num QNum Functions Fcm FcmSpec LoaderSpec LearnUtils Assoc AssocSpec Estimator EstSpec.
Local Open Scope string_scope.

Definition qcf : gconf Q :=
  mkGconf "___" (nofZ (-1)) true true rel_conf rel_supp n0 None n0 true (fun _ => "x") (fun _ => Ok 0%Z)
    (fun l => l) (fun _ _ => Err EUndef).
Definition qx : dataset Q :=
  [("f", ColStr ["a"; "b"; "a"; "b"]); ("n", ColInt [1; 2; 1; 1]%Z); ("t", ColBool [true; false; false; true])].
Definition qy : dataset Q := [("c", ColStr ["u"; "v"; "u"; "v"])].
Definition made {A} (r : res A) : match r with Ok _ => A | Err _ => unit end :=
  match r with Ok a => a | Err _ => tt end.
(** the iterative engine *)
Definition qe0 : est Q := Eval vm_compute in
  made (init_est (F := Q) 5 2 (nlit 1 1000) "MEAN" true "KOSKO" "saturation" [] false).
Definition qe1 : est Q := Eval vm_compute in fst (fit qcf qx qy qe0).
(** the vectorized engine with one iteration *)
Definition qv0 : est Q := Eval vm_compute in
  made (init_est (F := Q) 1 2 (nlit 1 1000) "MEAN" true "KOSKO" "saturation" [] true).
Definition qv1 : est Q := Eval vm_compute in fst (fit qcf qx qy qv0).

Lemma qe_made : init_est (F := Q) 5 2 (nlit 1 1000) "MEAN" true "KOSKO" "saturation" [] false = Ok qe0.
Proof. vm_compute. reflexivity. Qed.
Lemma qe_fit : fit qcf qx qy qe0 = (qe1, Ok tt).
Proof. vm_compute. reflexivity. Qed.
Lemma qv_made : init_est (F := Q) 1 2 (nlit 1 1000) "MEAN" true "KOSKO" "saturation" [] true = Ok qv0.
Proof. vm_compute. reflexivity. Qed.
Lemma qv_fit : fit qcf qx qy qv0 = (qv1, Ok tt).
Proof. vm_compute. reflexivity. Qed.
Lemma q_orders : reorders (c_ord qcf).
Proof. intros l. apply Permutation.Permutation_refl. Qed.
Lemma q_comm : forall a b : Q, nmul a b = nmul b a.
Proof. intros a b. apply Qred_complete. ring. Qed.
Lemma qe_estimator : estimator qe0 qe0.
Proof. split; [repeat eexists; exact qe_made|now exists []]. Qed.
Lemma qe_healthy : healthy qe0 qe0.
Proof. split; [repeat eexists; exact qe_made|now exists []]. Qed.
Lemma qe_used : used qe1 qe1.
Proof. now exists []. Qed.
(** checking that a text does not occur in another *)
Fixpoint occursb (p s : string) : bool :=
  String.prefix p s || match s with EmptyString => false | String _ t => occursb p t end.
Lemma occurs_b p s : occurs p s -> occursb p s = true.
Proof.
  intros (u & v & ->). induction u as [|c u IH]; cbn [append].
  - assert (H : String.prefix p (append p v) = true) by (induction p as [|c p IH]; cbn [append String.prefix]; [now destruct v|destruct (Ascii.ascii_dec c c); congruence]).
    destruct (append p v); cbn [occursb]; now rewrite H.
  - cbn [occursb]. rewrite IH. apply Bool.orb_true_r.
Qed.
Lemma q_readable : readable_data qcf (join_frames qx qy).
Proof.
  assert (S : forall c : Ascii.ascii, c <> "_"%char -> readable (String c "")).
  { intros c Hc. split.
    - intros H. apply occurs_b in H. cbn [occursb String.prefix] in H. destruct (Ascii.ascii_dec "_" c); [congruence|discriminate].
    - intros [|c' [|c'' t]] H; try discriminate. injection H as ->. congruence. }
  split; [reflexivity|]. split.
  - cbn. repeat constructor; cbn; intuition discriminate.
  - intros f c [H|[H|[H|[H|[]]]]]; injection H as <- <-; (split; [intros H; apply occurs_b in H; discriminate|cbn; auto]);
      try exact I; repeat (apply Forall_cons; [apply S; discriminate|]); apply Forall_nil.
Qed.
