(** Dynamics2.v — real-valued maps: monotone maps (C70), redundant relations (C71),
    contracting maps (C72). *)
From Coq Require Import Reals Lra.
From Verif Require Import Base BaseFacts Num Functions Spec SortFacts RealFacts FunctionsFacts Fcm FcmSpec DynSpec FcmInv FcmInv2 FcmInv3 FcmIter FcmRun FcmRun2 FcmRun3 FcmOrder FcmStop Dynamics.
Local Open Scope R_scope.

(** ** Activation functions *)
Lemma clamp_mono lo hi x y : x <= y -> clamp lo hi x <= clamp lo hi y.
Proof. intros H. unfold clamp, Rmax, Rmin. repeat destruct Rle_dec; lra. Qed.
Lemma clamp_lip lo hi x y : Rabs (clamp lo hi x - clamp lo hi y) <= Rabs (x - y).
Proof. unfold clamp, Rmax, Rmin. repeat destruct Rle_dec; unfold Rabs; repeat destruct Rcase_abs; lra. Qed.
Lemma Rmin_lip c x y : Rabs (Rmin c x - Rmin c y) <= Rabs (x - y).
Proof. unfold Rmin. repeat destruct Rle_dec; unfold Rabs; repeat destruct Rcase_abs; lra. Qed.
Definition logi (t : R) : R := / (1 + exp t).
Lemma logi_deriv t : derivable_pt_lim logi t (- exp t / (1 + exp t) ^ 2).
Proof.
  pose proof (exp_pos t) as P.
  assert (D : derivable_pt_lim (fun t => 1 + exp t) t (0 + exp t)).
  { apply (derivable_pt_lim_plus (fun _ => 1) exp); [apply derivable_pt_lim_const|apply derivable_pt_lim_exp]. }
  pose proof (derivable_pt_lim_div (fun _ => 1) (fun t => 1 + exp t) t 0 (0 + exp t) (derivable_pt_lim_const 1 t) D ltac:(cbv beta; lra)) as Q.
  replace (- exp t / (1 + exp t) ^ 2) with ((0 * (1 + exp t) - (0 + exp t) * 1) / Rsqr (1 + exp t)) by (unfold Rsqr; field; lra).
  intros eps He. destruct (Q eps He) as [d Hd]. exists d. intros h Hh1 Hh2. specialize (Hd h Hh1 Hh2).
  unfold div_fct in Hd. unfold logi. unfold Rdiv at 2 3 in Hd. rewrite !Rmult_1_l in Hd. exact Hd.
Qed.
Lemma logi_lip_lt a b : a < b -> Rabs (logi a - logi b) <= / 4 * Rabs (a - b).
Proof.
  intros H. destruct (MVT_cor2 logi (fun t => - exp t / (1 + exp t) ^ 2) a b H) as (c & E & _).
  { intros c _. apply logi_deriv. }
  replace (logi a - logi b) with (- (logi b - logi a)) by lra. rewrite E.
  pose proof (exp_pos c) as P.
  assert (Q : 0 <= exp c / (1 + exp c) ^ 2 <= / 4).
  { split.
    - apply Rmult_le_pos; [lra|]. left. apply Rinv_0_lt_compat. apply pow_lt. lra.
    - apply Rmult_le_reg_r with ((1 + exp c) ^ 2); [apply pow_lt; lra|].
      replace (exp c / (1 + exp c) ^ 2 * (1 + exp c) ^ 2) with (exp c) by (field; lra). pose proof (Rle_0_sqr (1 - exp c)) as Sq. unfold Rsqr in Sq. nra. }
  replace (- (- exp c / (1 + exp c) ^ 2 * (b - a))) with (exp c / (1 + exp c) ^ 2 * (b - a)) by (field; lra).
  rewrite Rabs_pos_eq by (apply Rmult_le_pos; lra). rewrite Rabs_left by lra.
  apply Rmult_le_compat; lra.
Qed.
Lemma logi_lip a b : Rabs (logi a - logi b) <= / 4 * Rabs (a - b).
Proof.
  destruct (Rtotal_order a b) as [H|[->|H]].
  - now apply logi_lip_lt.
  - replace (logi b - logi b) with 0 by lra. replace (b - b) with 0 by lra. rewrite Rabs_R0. lra.
  - rewrite (Rabs_minus_sym (logi a)), (Rabs_minus_sym a). now apply logi_lip_lt.
Qed.
Lemma sigmoid_lip x y l : Rabs (sigmoid x l - sigmoid y l) <= Rabs l / 4 * Rabs (x - y).
Proof.
  rewrite !sigmoid_eq. unfold Rdiv at 1 2. rewrite !Rmult_1_l.
  pose proof (logi_lip (- (l * x)) (- (l * y))) as H. unfold logi in H.
  replace (- (l * x) - - (l * y)) with (- l * (x - y)) in H by lra. rewrite Rabs_mult, Rabs_Ropp in H. lra.
Qed.
Lemma sigmoid_hip_lip x y l : Rabs (sigmoid_hip x l - sigmoid_hip y l) <= Rabs l / 2 * Rabs (x - y).
Proof.
  rewrite !sigmoid_hip_eq, !hip_alt. unfold Rdiv.
  pose proof (logi_lip (Rmin 500 (- (l * x))) (Rmin 500 (- (l * y)))) as H. unfold logi in H.
  pose proof (Rmin_lip 500 (- (l * x)) (- (l * y))) as H2.
  replace (- (l * x) - - (l * y)) with (- l * (x - y)) in H2 by lra. rewrite Rabs_mult, Rabs_Ropp in H2.
  match goal with |- Rabs ?t <= _ => replace t with (2 * (/ (1 + exp (Rmin 500 (- (l * x)))) - / (1 + exp (Rmin 500 (- (l * y)))))) by lra end.
  rewrite Rabs_mult, (Rabs_pos_eq 2) by lra. lra.
Qed.
Lemma kw_parameter (a : args R) k d l : kw_scal a k d = Ok l -> l = parameter a k d.
Proof. unfold parameter. intros H. apply kw_scal_inv in H as [[-> ->]| ->]; reflexivity. Qed.
Lemma increasing_call f a fn u v y z : increasing_function f a -> get_function_by_name f = Some fn -> u <= v ->
  call_actv fn u a = Ok y -> call_actv fn v a = Ok z -> y <= z.
Proof.
  intros Hf Hg Huv.
  destruct Hf as [[<-|[<-|[<-|[]]]]|[[-> Hl]|[[[<-|[<-|[]]] Hl]|[[-> Hl]|[[-> Hl]|[-> Hl]]]]]];
    injection Hg as <-; cbn [call_actv]; intros E1 E2;
    apply rbind_ok in E1 as (? & _ & E1); apply rbind_ok in E2 as (? & _ & E2);
    try (apply rbind_ok in E1 as (l & El & E1); apply rbind_ok in E2 as (l' & El' & E2);
         rewrite El in El'; injection El' as <-; apply kw_parameter in El; unfold n1, n2, nm1 in El; cbn [nofZ RNum] in El; 
         rewrite <- El in Hl).
  - apply Ok_inj in E1; apply Ok_inj in E2; subst. unfold bistate. rnum. rcase; lra.
  - apply Ok_inj in E1; apply Ok_inj in E2; subst. now apply threestate_mono.
  - apply Ok_inj in E1; apply Ok_inj in E2; subst. rewrite !saturation_clamp. now apply clamp_mono.
  - apply Ok_inj in E1; apply Ok_inj in E2; subst y z. destruct Hl as [Hl|Hl].
    + destruct Huv as [H|H]; [left; now apply sigmoid_mono|rewrite H; lra].
    + rewrite <- Hl, !sigmoid_eq, !Rmult_0_l. lra.
  - apply Ok_inj in E1; apply Ok_inj in E2; subst y z. now apply sigmoid_hip_mono.
  - apply Ok_inj in E1; apply Ok_inj in E2; subst y z. now apply sigmoid_hip_mono.
  - rewrite relm_pos in E1, E2 by auto. apply Ok_inj in E1; apply Ok_inj in E2; subst y z. apply clamp_mono.
    apply Rmult_le_compat_r; auto. left. now apply Rinv_0_lt_compat.
  - apply Ok_inj in E1; apply Ok_inj in E2; subst y z. pose proof (gceq_spec u l) as [A1 A2]. pose proof (gceq_spec v l) as [B1 B2].
    destruct (Rle_lt_dec l u), (Rle_lt_dec l v); [ | exfalso; lra | | ].
    + rewrite A1, B1 by auto. now apply clamp_mono.
    + rewrite A2, B1 by auto. unfold clamp, Rmax, Rmin. repeat destruct Rle_dec; lra.
    + rewrite A2, B2 by auto. lra.
  - apply Ok_inj in E1; apply Ok_inj in E2; subst y z. pose proof (lceq_spec u l) as [A1 A2]. pose proof (lceq_spec v l) as [B1 B2].
    destruct (Rle_lt_dec u l), (Rle_lt_dec v l); [ | | exfalso; lra | ].
    + rewrite A1, B1 by auto. now apply clamp_mono.
    + rewrite A1, B2 by auto. unfold clamp, Rmax, Rmin. repeat destruct Rle_dec; lra.
    + rewrite A2, B2 by auto. lra.
Qed.
Lemma steep_call f a fn u v y z K : steepness f a K -> get_function_by_name f = Some fn ->
  call_actv fn u a = Ok y -> call_actv fn v a = Ok z -> Rabs (y - z) <= K * Rabs (u - v).
Proof.
  intros Hf Hg.
  destruct Hf as [[-> HK]|[[-> HK]|[[[<-|[<-|[]]] HK]|[-> [Hl HK]]]]];
    injection Hg as <-; cbn [call_actv]; intros E1 E2;
    apply rbind_ok in E1 as (? & _ & E1); apply rbind_ok in E2 as (? & _ & E2);
    try (apply rbind_ok in E1 as (l & El & E1); apply rbind_ok in E2 as (l' & El' & E2);
         rewrite El in El'; injection El' as <-; apply kw_parameter in El; unfold n1, n2, nm1 in El; cbn [nofZ RNum] in El;
         rewrite <- El in HK).
  - apply Ok_inj in E1; apply Ok_inj in E2; subst y z K. rewrite !saturation_clamp, Rmult_1_l. apply clamp_lip.
  - apply Ok_inj in E1; apply Ok_inj in E2; subst y z K. apply sigmoid_lip.
  - apply Ok_inj in E1; apply Ok_inj in E2; subst y z K. apply sigmoid_hip_lip.
  - apply Ok_inj in E1; apply Ok_inj in E2; subst y z K. apply sigmoid_hip_lip.
  - rewrite <- El in Hl. rewrite relm_pos in E1, E2 by auto. apply Ok_inj in E1; apply Ok_inj in E2; subst y z K.
    eapply Rle_trans; [apply clamp_lip|]. replace (u / l - v / l) with (/ l * (u - v)) by (field; lra).
    rewrite Rabs_mult. rewrite (Rabs_pos_eq (/ l)) by (left; now apply Rinv_0_lt_compat). lra.
Qed.
Lemma steep_nonneg f a K : steepness f a K -> 0 <= K.
Proof.
  intros [[-> ->]|[[-> ->]|[[_ ->]|[_ [H ->]]]]]; try lra.
  - pose proof (Rabs_pos (parameter a "lambda_val" 1)). lra.
  - pose proof (Rabs_pos (parameter a "lambda_val" 2)). lra.
  - left. now apply Rinv_0_lt_compat.
Qed.
Lemma not_fuzzy_responds n f a u y : f <> "fuzzy" -> nd_func n = Some f -> nd_args n = Some a -> responds n u y ->
  exists fn, get_function_by_name f = Some fn /\ call_actv fn u a = Ok y.
Proof.
  intros Hf E1 E2 (f' & fn & a' & A1 & A2 & A3 & A4). rewrite E1 in A1. injection A1 as <-. rewrite E2 in A3. injection A3 as <-.
  destruct (String.eqb_spec f "fuzzy"); [contradiction|]. eauto.
Qed.
Lemma increasing_monotone n f a : nd_func n = Some f -> nd_args n = Some a -> increasing_function f a -> monotone_node n.
Proof.
  intros E1 E2 H u v y z Huv R1 R2.
  assert (f <> "fuzzy").
  { intros ->. destruct H as [[H|[H|[H|[]]]]|[[H _]|[[[H|[H|[]]] _]|[[H _]|[[H _]|[H _]]]]]]; discriminate. }
  destruct (not_fuzzy_responds n f a u y) as (fn & G & C1); auto. destruct (not_fuzzy_responds n f a v z) as (fn' & G' & C2); auto.
  rewrite G in G'. injection G' as <-. eapply increasing_call; eauto.
Qed.
Lemma steep_lipschitz n f a K : nd_func n = Some f -> nd_args n = Some a -> steepness f a K -> lipschitz_node K n.
Proof.
  intros E1 E2 H. split; [now apply (steep_nonneg f a)|]. intros u v y z R1 R2.
  assert (f <> "fuzzy").
  { intros ->. destruct H as [[H _]|[[H _]|[[[H|[H|[]]] _]|[H _]]]]; discriminate. }
  destruct (not_fuzzy_responds n f a u y) as (fn & G & C1); auto. destruct (not_fuzzy_responds n f a v z) as (fn' & G' & C2); auto.
  rewrite G in G'. injection G' as <-. eapply steep_call; eauto.
Qed.

(** ** Steps *)
Lemma total_input_R (tp : dict (node R)) arcs x c n :
  total_input tp arcs x c n = Rsum (incoming tp arcs x c) + (if match nd_mem n with Some b => b | None => false end then signal n (x c) else 0).
Proof.
  unfold total_input. change (fold_left nadd (incoming tp arcs x c) n0) with (nsum (incoming tp arcs x c)). rewrite nsum_Rsum.
  destruct (match nd_mem n with Some b => b | None => false end); cbn [nadd RNum]; lra.
Qed.
Lemma next_responds tp arcs x c (n : node R) y : next_value tp arcs x c n y -> responds n (total_input tp arcs x c n) y.
Proof.
  intros (f & fn & a & z & A1 & A2 & A3 & A4 & A5). exists f, fn, a. repeat split; auto.
  destruct (String.eqb f "fuzzy"); [destruct A4 as [_ ->]|subst z]; exact A5.
Qed.
Lemma signal_mono (n : node R) u v : u <= v -> signal n u <= signal n v.
Proof.
  intros H. unfold signal. destruct (nd_exec n) as [e|]; auto.
  repeat match goal with |- context [match ?e with _ => _ end] => destruct e end; auto; unfold n1, n2; cbn [nsub nmul nofZ RNum]; lra.
Qed.
Lemma signal_lip (n : node R) u v : Rabs (signal n u - signal n v) <= slope n * Rabs (u - v).
Proof.
  unfold signal, slope. destruct (nd_exec n) as [e|]; [|lra].
  repeat match goal with |- context [match ?e with _ => _ end] => destruct e end; try lra.
  unfold n1, n2; cbn [nsub nmul nofZ RNum]. unfold Rabs. repeat destruct Rcase_abs; lra.
Qed.
Lemma incoming_mono (tp : dict (node R)) arcs x x' c : (forall d w o, In (d, w, o) arcs -> 0 <= w /\ x o <= x' o) ->
  Rsum (incoming tp arcs x c) <= Rsum (incoming tp arcs x' c).
Proof.
  induction arcs as [|[[d w] o] arcs IH]; intros H; [cbn; lra|]. cbn [incoming].
  assert (I : Rsum (incoming tp arcs x c) <= Rsum (incoming tp arcs x' c)) by (apply IH; intros; eapply H; right; eauto).
  destruct (dget tp o) as [n|]; auto. destruct (_ && _); auto.
  destruct (H d w o (or_introl eq_refl)) as [Hw Hx]. pose proof (signal_mono n _ _ Hx) as S.
  cbn [Rsum fold_right]. fold (Rsum (incoming tp arcs x c)). fold (Rsum (incoming tp arcs x' c)). cbn [nmul RNum]. nra.
Qed.
Lemma incoming_lip (tp : dict (node R)) arcs x x' c D : (forall d w o, In (d, w, o) arcs -> Rabs (x o - x' o) <= D) ->
  Rabs (Rsum (incoming tp arcs x c) - Rsum (incoming tp arcs x' c)) <= arriving tp arcs c * D.
Proof.
  induction arcs as [|[[d w] o] arcs IH]; intros H; [cbn; rewrite Rminus_0_r, Rabs_R0; lra|]. cbn [incoming arriving].
  assert (I := IH (fun d w o Ho => H d w o (or_intror Ho))). clear IH.
  destruct (dget tp o) as [n|]; auto. destruct (_ && _); [|lra].
  pose proof (H d w o (or_introl eq_refl)) as Hx. pose proof (signal_lip n (x o) (x' o)) as S.
  cbn [Rsum fold_right]. fold (Rsum (incoming tp arcs x c)). fold (Rsum (incoming tp arcs x' c)). cbn [nmul RNum].
  match goal with |- Rabs ?t <= _ => replace t with ((signal n (x o) - signal n (x' o)) * w +
    (Rsum (incoming tp arcs x c) - Rsum (incoming tp arcs x' c))) by lra end.
  eapply Rle_trans; [apply Rabs_triang|]. rewrite Rabs_mult, Rmult_plus_distr_r.
  assert (0 <= slope n). { unfold slope. destruct (nd_exec n) as [e|]; [|lra]. repeat match goal with |- context [match ?e with _ => _ end] => destruct e end; lra. }
  pose proof (Rabs_pos w). pose proof (Rabs_pos (signal n (x o) - signal n (x' o))).
  assert (Rabs (signal n (x o) - signal n (x' o)) * Rabs w <= Rabs w * slope n * D).
  { rewrite (Rmult_comm _ (Rabs w)), Rmult_assoc. apply Rmult_le_compat_l; auto. eapply Rle_trans; [exact S|]. apply Rmult_le_compat_l; auto. }
  lra.
Qed.
Lemma slope_pos (n : node R) : 1 <= slope n.
Proof. unfold slope. destruct (nd_exec n) as [e|]; [|lra]. repeat match goal with |- context [match ?e with _ => _ end] => destruct e end; lra. Qed.
Lemma arriving_nonneg (tp : dict (node R)) arcs c : 0 <= arriving tp arcs c.
Proof.
  induction arcs as [|[[d w] o] arcs IH]; cbn [arriving]; [lra|]. destruct (dget tp o) as [n|]; auto.
  destruct (_ && _); [|lra]. pose proof (Rabs_pos w). pose proof (slope_pos n). nra.
Qed.
Lemma gain_nonneg (tp : dict (node R)) arcs c n : 0 <= gain tp arcs c n.
Proof. unfold gain. pose proof (arriving_nonneg tp arcs c). pose proof (slope_pos n). destruct (nd_mem n) as [[|]|]; lra. Qed.
Lemma input_lip (tp : dict (node R)) arcs x x' c n D : (forall d w o, In (d, w, o) arcs -> Rabs (x o - x' o) <= D) -> Rabs (x c - x' c) <= D ->
  Rabs (total_input tp arcs x c n - total_input tp arcs x' c n) <= gain tp arcs c n * D.
Proof.
  intros H Hc. rewrite !total_input_R. pose proof (incoming_lip tp arcs x x' c D H) as I. unfold gain.
  rewrite Rmult_plus_distr_r. pose proof (slope_pos n).
  destruct (nd_mem n) as [[|]|].
  - match goal with |- Rabs ?t <= _ => replace t with ((Rsum (incoming tp arcs x c) - Rsum (incoming tp arcs x' c)) + (signal n (x c) - signal n (x' c))) by lra end.
    eapply Rle_trans; [apply Rabs_triang|]. pose proof (signal_lip n (x c) (x' c)). nra.
  - match goal with |- Rabs ?t <= _ => replace t with (Rsum (incoming tp arcs x c) - Rsum (incoming tp arcs x' c)) by lra end. lra.
  - match goal with |- Rabs ?t <= _ => replace t with (Rsum (incoming tp arcs x c) - Rsum (incoming tp arcs x' c)) by lra end. lra.
Qed.
