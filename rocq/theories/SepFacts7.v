(** SepFacts7.v — links towards a class that is determined by the linked concept, and the values
    of rectifying maps made of such links (C94). *)
From Coq Require Import Reals Lra Permutation.
From Verif Require Import Base BaseFacts Num Functions Spec SortFacts RealFacts FunctionsFacts RlFacts Fcm FcmSpec FcmBasics FcmInv FcmInv2 FcmRun2 FcmOrder DynSpec Dynamics2 FcmVec5 VecSpec LearnUtils LearnSpec LearnFacts Assoc Estimator EstSpec AssocSpec AssocFacts AssocFacts2 AssocFacts3 AssocFacts4 AssocUnique AssocNames AssocNames2 AssocGen AssocRow AssocPredict AssocResult EstFacts EstFacts5 EstFacts8 PropAssoc SepSpec SepFacts SepFacts2 SepFacts3 SepFacts4.
Local Open Scope R_scope.

(** ** Activation *)
Lemma rectify f a fn u y : rectifying f a -> get_function_by_name f = Some fn -> call_actv fn u a = Ok y ->
  0 <= y <= 1 /\ (u <= 0 -> y = 0) /\ (0 < u -> 0 < y).
Proof.
  intros Hf Hg. destruct Hf as [[<-|[<-|[]]]|[-> Hl]]; injection Hg as <-; cbn [call_actv]; intros E; apply rbind_ok in E as (? & _ & E).
  - apply Ok_inj in E. subst y. unfold bistate. rnum. rcase; lra.
  - apply Ok_inj in E. subst y. rewrite saturation_clamp. unfold clamp, Rmax, Rmin. repeat destruct (Rle_dec _ _); lra.
  - apply rbind_ok in E as (l & El & E). apply kw_parameter in El. unfold n1 in El. cbn [nofZ RNum] in El. rewrite <- El in Hl.
    rewrite relm_pos in E by auto. apply Ok_inj in E. subst y.
    assert (P : 0 < / l) by now apply Rinv_0_lt_compat.
    assert (A : u <= 0 -> u / l <= 0) by (intros H; unfold Rdiv; pose proof (Rmult_le_compat_r (/ l) u 0 ltac:(lra) H); lra).
    assert (B : 0 < u -> 0 < u / l) by (intros H; now apply Rdiv_lt_0_compat).
    unfold clamp, Rmax, Rmin. destruct (Rle_lt_dec u 0) as [H|H]; [specialize (A H)|specialize (B H)]; repeat destruct (Rle_dec _ _); lra.
Qed.

(** ** Causality functions *)
Lemma favours_some : favours rel_supp /\ favours rel_conf /\ favours rel_lift /\ favours rel_rodr /\ favours rel_pos_inf /\ favours rel_simple.
Proof.
  repeat split; intros p q r Hp Hq Hr.
  - unfold rel_supp. rewrite pdiv_R by (rnum; lra). eexists. split; [reflexivity|]. rnum. apply Rdiv_lt_0_compat; lra.
  - unfold rel_conf. rewrite (proj2 (Reqb_false _ _)) by (rnum; lra). rewrite pdiv_R by (rnum; lra). eexists. split; [reflexivity|]. rnum. apply Rdiv_lt_0_compat; lra.
  - unfold rel_lift. rewrite pdiv_R by (rnum; lra). cbn [rbind]. rewrite pdiv_R by (rnum; lra). cbn [rbind].
    assert (A : 0 < p / (p + 0)) by (apply Rdiv_lt_0_compat; lra).
    assert (B : 0 < (p + q) / (p + 0 + q + r)) by (apply Rdiv_lt_0_compat; lra).
    rewrite pdiv_R by (rnum; lra). eexists. split; [reflexivity|]. rnum. apply Rdiv_lt_0_compat; lra.
  - unfold rel_rodr. destruct (neqb _ n0) eqn:E; [eexists; split; [reflexivity|rnum; lra]|]. apply Reqb_false in E. assert (q <> 0) by (intros Z; apply E; rnum; lra).
    rewrite pdiv_R by (rnum; lra). eexists. split; [reflexivity|]. rnum. apply Rdiv_lt_0_compat; lra.
  - unfold rel_pos_inf.
    assert (A : exists u, (if neqb (nadd 0 q) n0 then pdiv p (nadd p 0) else (a <- pdiv p (nadd 0 q);; pdiv a (nadd p 0))%res) = Ok u /\ 0 < u).
    { destruct (neqb _ n0) eqn:E.
      - rewrite pdiv_R by (rnum; lra). eexists. split; [reflexivity|]. rnum. apply Rdiv_lt_0_compat; lra.
      - apply Reqb_false in E. assert (q <> 0) by (intros Z; apply E; rnum; lra). rewrite pdiv_R by (rnum; lra). cbn [rbind]. rewrite pdiv_R by (rnum; lra).
        eexists. split; [reflexivity|]. rnum. apply Rdiv_lt_0_compat; [apply Rdiv_lt_0_compat|]; lra. }
    destruct A as (u & -> & Hu). cbn [rbind].
    rewrite (proj2 (Reqb_false _ _)) by (rnum; lra). rewrite pdiv_R by (rnum; lra). cbn [rbind]. rewrite pdiv_R by (rnum; lra). cbn [rbind].
    rewrite (proj2 (Rltb_true _ _)); [eauto|]. rnum. unfold Rdiv. rewrite !Rmult_0_l. exact Hu.
  - unfold rel_simple. rewrite (proj2 (Reqb_false _ _)) by (rnum; lra). rewrite (proj2 (Reqb_false _ _)) by (rnum; lra). cbn [negb].
    rewrite pdiv_R by (rnum; lra). eexists. split; [reflexivity|]. rnum. apply Rdiv_lt_0_compat; lra.
Qed.

(** ** Links from a concept to one that holds wherever it does *)
Lemma tuple4 (a b c d a' b' c' d' : R) : a = a' -> b = b' -> c = c' -> d = d' -> (a, b, c, d) = (a', b', c', d').
Proof. congruence. Qed.
Definition under (ra rb : list R) : Prop := forall xy, In xy (combine ra rb) -> fst xy = 0 \/ snd xy = 1.
Lemma under_coefs n ra rb c : hit_row n ra -> hit_row n rb -> under ra rb -> coefs ra rb c ->
  c = (Rsum ra, 0, Rsum rb - Rsum ra, INR n - Rsum rb) /\ Rsum ra <= Rsum rb.
Proof.
  intros (La & _ & Fa) (Lb & _ & Fb) U (_ & ->). rewrite !nsum_Rsum. change nmul with Rmult. change nsub with Rminus. change n1 with 1.
  revert ra rb La Lb Fa Fb U. induction n as [|n IH]; intros [|x ra] [|z rb] La Lb Fa Fb U; try discriminate.
  - cbn [combine map]. rewrite !Rsum_nil. cbn [INR]. split; [apply tuple4; lra|lra].
  - cbn [combine map]. rewrite !Rsum_cons1. inversion Fa; inversion Fb; subst. cbn in La, Lb.
    destruct (IH ra rb) as [E Le]; auto; try lia; [intros xy H; apply U; now right|].
    injection E as E1 E2 E3 E4. cbn [fst snd]. rewrite E1, E2, E3, E4, S_INR.
    specialize (U (x, z) (or_introl eq_refl)). cbn in U.
    assert (C : (x = 0 /\ (z = 0 \/ z = 1)) \/ (x = 1 /\ z = 1)) by tauto.
    destruct C as [[-> [->| ->]]|[-> ->]]; (split; [apply tuple4; lra|lra]).
Qed.
Section Under.
Variable cf : gconf R.
Hypothesis Ev : c_eval cf = rel_supp.
Hypothesis Fv : favours (c_caus cf).
Hypothesis Sg : c_sign cf = None.
Lemma link_under_pos n ra rb ta tb w : hit_row n ra -> hit_row n rb -> under ra rb -> link cf ta tb ra rb w -> 0 < w.
Proof.
  intros Ha Hb U [_ (c & e & v & s & Hc & _ & _ & Hv & Hs & -> & _)]. destruct (under_coefs n ra rb c Ha Hb U Hc) as [-> Le].
  destruct (hit_pos n ra Ha) as [[P1 P2] P3]. destruct (hit_pos n rb Hb) as [[Q1 Q2] _].
  destruct (Fv (Rsum ra) (Rsum rb - Rsum ra) (INR n - Rsum rb)) as (v' & E & Pv); [lra..|]. cbn [measure] in Hv. rewrite E in Hv. apply Ok_inj in Hv. subst v'.
  unfold sign_of in Hs. rewrite Sg in Hs. subst s. rnum. lra.
Qed.
Lemma link_under n ra rb ta tb : hit_row n ra -> hit_row n rb -> under ra rb -> c_thr cf * INR n < Rsum ra ->
  c_double cf = true \/ (ta = false /\ tb = true) -> exists w, link cf ta tb ra rb w /\ 0 < w.
Proof.
  intros Ha Hb U Hf Hw. assert (Hc : exists c, coefs ra rb c).
  { destruct Ha as (La & _), Hb as (Lb & _). eexists. split; [congruence|]. cbv zeta. reflexivity. }
  destruct Hc as [c Hc]. destruct (under_coefs n ra rb c Ha Hb U Hc) as [E Le]. subst c.
  destruct (hit_pos n ra Ha) as [[P1 P2] P3]. destruct (hit_pos n rb Hb) as [[Q1 Q2] _].
  destruct (Fv (Rsum ra) (Rsum rb - Rsum ra) (INR n - Rsum rb)) as (v & Ev' & Pv); [lra..|].
  exists (1 * v). split; [|lra]. split; [destruct Hw; [now left|right; now right]|].
  exists (Rsum ra, 0, Rsum rb - Rsum ra, INR n - Rsum rb), (Rsum ra / INR n), v, 1. split; auto. split.
  { rewrite Ev. cbn [measure]. unfold rel_supp. rewrite pdiv_R by (rnum; lra). rnum. f_equal. f_equal. lra. }
  split.
  { apply Rltb_true. rnum. rewrite Rabs_pos_eq; [|apply Rmult_le_pos; [lra|left; now apply Rinv_0_lt_compat]].
    apply (Rmult_lt_reg_r (INR n)); auto. unfold Rdiv. rewrite Rmult_assoc, Rinv_l by lra. lra. }
  split; [exact Ev'|]. split; [unfold sign_of; rewrite Sg; reflexivity|]. split; [rnum; lra|]. apply Reqb_false. rnum. lra.
Qed.
End Under.
