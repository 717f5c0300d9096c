(** EstFacts6.v — when predicting succeeds (C76). *)
From Coq Require Import Permutation.
From Verif Require Import Base BaseFacts Num Functions Fcm FcmSpec DynSpec FcmInv FcmInv2 FcmInv3 FcmIter FcmRun FcmRun2 FcmRun3 FcmTotal LearnUtils LearnSpec LearnFacts Assoc AssocSpec AssocFacts AssocFacts2 AssocFacts3 AssocNames AssocNames2 Estimator EstFacts EstFacts3 EstSpec EstFacts4 AssocGen AssocPredict AssocResult AssocRow EstFacts5.

Section Success.
Context {F : Type} {N : Num F}.
Variable cf : gconf F.
Hypothesis Hsep : c_sep cf = "___".

Lemma moved_hist (g g' : gen F) : moved g g' -> m_debug (g_fcm g) = true -> hist_ne (g_fcm g) -> hist_ne (g_fcm g').
Proof.
  intros (_ & _ & ops & Ho & ->) D Hn. apply run_ops_hist_ne; auto. intros b Hb. rewrite forallb_forall in Ho. now specialize (Ho _ Hb).
Qed.
Lemma row_runs fds r g : tidy fds g -> sane (g_fcm g) -> m_debug (g_fcm g) = true -> hist_ne (g_fcm g) ->
  (forall d, In d fds -> is_fuzzy_type (fd_type d) = false) ->
  callable (dc_func (m_default (g_fcm g))) (dc_args (m_default (g_fcm g))) -> m_decision (g_fcm g) <> "EXITED" ->
  (m_decision (g_fcm g) <> "LAST" -> forall k, (0 < k)%Z -> neqb (nofZ (Num := N) k) n0 = false) ->
  (forall f str, In (f, CStr str) r -> readable str) ->
  (forall f v, In (f, v) r -> In f (map fd_feat fds) /\ exists t, cell_text cf v = Ok t) ->
  exists p, snd (predict_row cf r g) = Ok p.
Proof.
  intros T S D Hn Hz Hc He Hk Hr Hv. unfold predict_row, sthen.
  pose proof (moved_on OpClearExec g eq_refl) as M1. change (step OpClearExec) with (clear_execution (F := F)) in M1.
  assert (O1 : snd (on_fcm clear_execution g) = Ok tt).
  { unfold on_fcm. pose proof (proj1 (clear_values (g_fcm g))) as C. destruct (clear_execution (g_fcm g)); exact C. }
  destruct (on_fcm clear_execution g) as [g1 r1]. cbn [fst snd] in M1, O1. subst r1.
  pose proof (moved_wframe _ _ M1) as (_ & _ & W1). apply settings_fit in W1 as [_ W1].
  assert (Nf : dc_func (m_default (g_fcm g)) <> "fuzzy").
  { intros E. rewrite E in Hc. destruct Hc as [[H _]|[[H _]|[[H _]|[H _]]]]; cbn in H; intuition discriminate. }
  destruct (row_succeeds cf Hsep fds r g1) as (g3 & E3).
  - now apply (tidy_moved _ _ _ M1).
  - now rewrite W1.
  - exact Hr.
  - intros f v Hi. destruct (Hv f v Hi) as [Hf Ht]. split; auto. apply in_map_iff in Hf as (d & Ef & Hd). exists d. auto.
  - unfold set_row in E3. rewrite E3. pose proof (moved_set_row cf r g1) as M3. unfold set_row in M3. rewrite E3 in M3. cbn [fst] in M3.
    pose proof (moved_trans _ _ _ M1 M3) as M. pose proof (tidy_moved _ _ _ M T) as T3. pose proof (moved_sane _ _ M S) as S3.
    pose proof (moved_hist _ _ M D Hn) as Hn3. pose proof (moved_wframe _ _ M) as (_ & _ & W3).
    pose proof (settings_max _ _ W3) as (_ & _ & _ & _ & We & Wd). pose proof (settings_fit _ _ W3) as [_ Wf].
    destruct (run_succeeds (g_fcm g3)) as (s' & Er); auto; try congruence.
    + intros c Hcc. destruct (sane_parts _ S3) as (ND & _ & K & _). destruct (hist_initial _ c K Hn3 Hcc) as (v & ->). discriminate.
    + intros c n x Hnn. assert (Ic : In c (concepts (g_fcm g3))) by (unfold concepts; apply dget_Some_In; eauto).
      apply (td_concepts _ _ T3) in Ic as (d & Hd & Hcd).
      apply (callable_answers n _ _ (td_func _ _ T3 d c n Hd Hcd Hnn (Hz d Hd)) (td_args _ _ T3 d c n Hd Hcd Hnn (Hz d Hd))).
      now rewrite Wf.
    + rewrite We. exact Hk.
    + unfold get_inference_result. unfold on_fcm. rewrite Er. cbn [snd].
      set (g4 := set_fcm s' g3). assert (M4 : moved g3 g4).
      { pose proof (moved_on (OpRun true) g3 eq_refl) as X. unfold on_fcm in X. change (step (OpRun true)) with (run_inference (F := F) true) in X. rewrite Er in X. exact X. }
      pose proof (tidy_moved _ _ _ M4 T3) as T4. pose proof (moved_sane _ _ M4 S3) as S4.
      rewrite (target_values fds g4 T4 S4). cbn [rbind]. rewrite (group_spec cf Hsep fds g4 T4). cbn [rbind]. eauto.
Qed.
Lemma Forall_choice {A B} (P : A -> B -> Prop) l : (forall a, In a l -> exists b, P a b) -> exists l', Forall2 P l l'.
Proof.
  induction l as [|a l IH]; intros H; [exists []; constructor|].
  destruct (H a (or_introl eq_refl)) as [b Hb]. destruct IH as [l' Hl]; [intros; apply H; now right|]. exists (b :: l'). now constructor.
Qed.
Lemma row_cell (x : dataset F) r f v : In r (iterrows x) -> In (f, v) r ->
  exists c, In (f, c) x /\ match v with
    | CStr t => exists l, c = ColStr l /\ In t l | CBool b => exists l, c = ColBool l /\ In b l | CInt z => exists l, c = ColInt l /\ In z l
    | CFlt q => (exists l, c = ColFlt l /\ In q l) \/ exists l z, c = ColInt l /\ In z l /\ q = nofZ z end.
Proof.
  unfold iterrows. intros Hr Hf. apply in_map_iff in Hr as (i & <- & _). apply in_flat_map in Hf as ([f' c] & Hc & Hf). cbn [fst snd] in Hf.
  destruct (nth_error (col_cells c) i) as [w|] eqn:E; [|easy]. destruct Hf as [Hf|[]]. injection Hf as -> Hv. exists c. split; auto.
  apply nth_error_In in E. destruct c as [l|l|l|l]; cbn [col_cells] in E; apply in_map_iff in E as (z & <- & E); cbn [upcast] in Hv.
  - subst v. eauto.
  - subst v. eauto.
  - destruct (_ && _); subst v; eauto 10.
  - subst v. eauto.
Qed.
Lemma init_default mi ex sd de me xc ac kw vec (e0 : est F) : init_est mi ex sd de me xc ac kw vec = Ok e0 ->
  dc_func (m_default (e_map e0)) = ac /\ dc_args (m_default (e_map e0)) = kw /\ m_decision (e_map e0) = de.
Proof.
  unfold init_est. intros H. apply rbind_ok in H as (s & Hs & H). apply rbind_ok in H as (s1 & H1 & H). apply rbind_ok in H as (p & Hp & H).
  injection H as <-. cbn [e_map]. apply init_fcm_shape in Hs as (-> & _).
  unfold set_default_concept_properties, update_default in H1. cbn in H1. destruct (get_excitation_by_name xc); [|discriminate]. cbn in H1. injection H1 as <-. auto.
Qed.
Hypothesis HO : reorders (c_ord cf).
Hypothesis mul_comm : forall a b : F, nmul a b = nmul b a.
Lemma predict_succeeds mi ex sd de me xc ac kw e0 e e' e2 x y x' : init_est mi ex sd de me xc ac kw false = Ok e0 ->
  callable ac kw -> de <> "EXITED" -> (de <> "LAST" -> forall k, (0 < k)%Z -> neqb (nofZ (Num := N) k) n0 = false) ->
  healthy e0 e -> readable_data cf (join_frames x y) ->
  (forall f c, In (f, c) (join_frames x y) -> exists texts rows, levels cf c texts rows /\ is_discrete cf c texts) ->
  fit cf x y e = (e', Ok tt) -> used e' e2 ->
  (forall f c, In (f, c) x' -> In f (dkeys (join_frames x y)) /\ (forall l, c = ColStr l -> Forall readable l)) ->
  (forall r f q, In r (iterrows x') -> In (f, CFlt q) r -> exists z, c_trunc cf q = Ok z) ->
  exists out, snd (predict cf x' e2) = Ok out.
Proof.
  intros H0 Hc He Hk HH RD Ds HF HU Hx Hq.
  pose proof (healthy_estimator _ _ HH) as HE. pose proof (healthy_fit _ _ _ _ _ _ HH HF) as H1. pose proof (healthy_used _ _ _ H1 HU) as H2.
  pose proof (healthy_sane _ _ H2) as S2. pose proof (est_iterative e0 e2 _ _ _ _ _ _ _ _ H0 (healthy_trail _ _ H2)) as It.
  destruct (iterative_hist _ It) as [Hn Db].
  destruct (fit_tidy cf Hsep x y e0 e e' HO mul_comm HE RD HF) as (fds & T & D & Nn & Ln & Eg & _).
  destruct (fit_base cf x y e0 e e' HE HF) as (_ & _ & Pn). destruct (used_moved e' e2 Pn HU) as (M & P2 & G2).
  assert (g2 : g_fcm (e_gen e2) = e_map e2) by (unfold e_gen; now rewrite P2).
  pose proof (tidy_moved _ _ _ M T) as T2.
  assert (G1 : e_generated e' = true).
  { unfold fit in HF. destruct (reset (e_gen e)) as [g1 [u|er]]; [|discriminate]. destruct (build_fcm _ _ _ _ _) as [g3 [u'|er]]; [|discriminate]. now injection HF as <-. }
  destruct (estimator_state _ _ (healthy_estimator _ _ H2)) as (_ & St & _). pose proof (est_settings _ _ St) as Se.
  pose proof (settings_max _ _ Se) as (_ & _ & _ & _ & Sd & _). pose proof (settings_fit _ _ Se) as [_ Sf].
  destruct (init_default _ _ _ _ _ _ _ _ _ _ H0) as (I1 & I2 & I3).
  assert (Fz : forall d, In d fds -> is_fuzzy_type (fd_type d) = false).
  { intros d Hd. destruct (Forall2_In_r _ _ _ _ D Hd) as ([f c] & Hi & Hde). destruct (Ds f c Hi) as (texts & rows & L & Di).
    now destruct (described_discrete cf _ _ _ _ _ _ Hde L Di) as (_ & X & _). }
  assert (Fn : map fd_feat fds = dkeys (join_frames x y)).
  { clear - D. induction D as [|a b l l' Hab HD IH]; auto. cbn. rewrite IH. f_equal. inversion Hab; reflexivity. }
  assert (U : usable (g_fcm (e_gen e2))) by (rewrite g2; split; [auto|congruence]).
  destruct (Forall_choice (fun r p => snd (predict_row cf r (e_gen e2)) = Ok p) (iterrows x')) as [ps Hp].
  - intros r Hr. apply (row_runs fds); auto; try (rewrite g2; first [assumption|congruence]).
    + rewrite g2, Sd, I3. exact Hk.
    + intros f str Hf. destruct (row_cell _ _ _ _ Hr Hf) as (c & Hcx & l & -> & Hl). destruct (Hx f _ Hcx) as [_ X].
      specialize (X l eq_refl). rewrite Forall_forall in X. auto.
    + intros f v Hf. destruct (row_cell _ _ _ _ Hr Hf) as (c & Hcx & _). destruct (Hx f _ Hcx) as [X _]. split; [now rewrite Fn|].
      destruct v as [s|b|z|q]; cbn [cell_text]; eauto. destruct (Hq r f q Hr Hf) as [z ->]. cbn. eauto.
  - exists (fold_left append_all ps []). apply predict_ok; auto; [congruence|]. eauto.
Qed.
End Success.
