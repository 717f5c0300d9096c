(** PipeFacts3.v — predicting with continuous features in the vectorized engine (C101). *)
From Coq Require Import Reals Lra Lia Permutation.
From Verif Require Import Base BaseFacts Num RealFacts Functions FunctionsFacts Spec SortFacts Fcm FcmSpec FcmBasics DynSpec FcmInv FcmInv2 FcmInv3 FcmIter FcmRun FcmRun2 FcmRun3 FcmOrder FcmTotal VecSpec FcmVec6
  LearnUtils LearnSpec LearnFacts Discret DiscretFacts DiscretFacts2 Assoc AssocSpec AssocFacts AssocFacts2 AssocFacts3 AssocFacts4 AssocNames AssocNames2 LoaderFacts Estimator EstFacts EstFacts2 EstFacts3 EstSpec EstFacts4
  AssocGen AssocPredict AssocResult AssocRow EstFacts5 EstFacts6 EstFacts7 EstFacts9 AssocRange Pipeline PipeFacts PipeFacts2.
Local Open Scope R_scope.

(** histories of one value between -1 and 1 *)
Definition single (s : fcm R) : Prop := forall c h, dget (m_exec s) c = Some h -> exists v, h = [v] /\ -1 <= v <= 1.
(** every concept belongs to a cluster or has a function that always answers *)
Definition answering (s : fcm R) : Prop := forall c n, dget (m_topo s) c = Some n ->
  soft n \/ exists f a, nd_func n = Some f /\ nd_args n = Some a /\ callable f a.
Lemma soft_vec_answers (n : node R) : soft n -> forall t arcs x c, exists y, vec_next t arcs x c n y.
Proof.
  intros (memb & vals & sc & A & B & C & I1 & I2 & L1 & L2 & L3 & I3) t arcs x c.
  set (z := let norm := nd_sum n in if nltb n0 norm then ndiv (vec_input t arcs x c n) norm else vec_input t arcs x c n).
  destruct (fuzzy_range z memb sc I2) as (y & E & _); auto; try lia.
  exists y, "fuzzy"%string, FUNC_FUZZY, (scaled_args memb sc), z. split; [exact A|]. split; [reflexivity|]. split; [exact C|]. split; [reflexivity|].
  apply (dispatch_agree "fuzzy" AFuzzy FUNC_FUZZY z (scaled_args memb sc) y); auto.
  - cbn. repeat constructor; cbn; intuition discriminate.
  - intros m v Hm Hv. cbn in Hm, Hv. injection Hm as <-. injection Hv as <-. congruence.
Qed.
Lemma answering_responsive s : answering s -> vec_responsive s.
Proof.
  intros H c n x Hn. destruct (H c n Hn) as [S|(f & a & Hf & Ha & C)]; [now apply soft_vec_answers|]. now apply (vec_callable_answers n f a).
Qed.
Lemma tidy_answering fds g : tidy fds g -> soft_map (g_fcm g) -> callable (dc_func (m_default (g_fcm g))) (dc_args (m_default (g_fcm g))) -> answering (g_fcm g).
Proof.
  intros T So Hc c n Hn. assert (Ic : In c (concepts (g_fcm g))) by (unfold concepts; apply dget_Some_In; eauto).
  apply (td_concepts _ _ T) in Ic as (d & Hd & Hcd). pose proof (td_type _ _ T d c n Hd Hcd Hn) as Ht.
  destruct (is_fuzzy_type (fd_type d)) eqn:Ez; [left; exact (So c n _ Hn Ht Ez)|].
  right. exists (dc_func (m_default (g_fcm g))), (dc_args (m_default (g_fcm g))). split; [exact (td_func _ _ T d c n Hd Hcd Hn Ez)|]. split; auto. exact (td_args _ _ T d c n Hd Hcd Hn Ez).
Qed.
Lemma single_clear s : sane s -> single (fst (clear_execution s)).
Proof. intros S c h Hh. destruct (binary_clear s S c h Hh) as [->| ->]; eexists; (split; [reflexivity|]); cbn; lra. Qed.
Lemma single_init c z s : answering s -> single s -> (-1 <= z <= 1 \/ forall n, dget (m_topo s) c = Some n -> soft n) -> single (fst (init_concept (F := R) c z false s)).
Proof.
  intros P B Hz. unfold init_concept. destruct (dget (m_topo s) c) as [n|] eqn:E; [|exact B].
  assert (X : soft n \/ -1 <= z <= 1 /\ exists f, nd_func n = Some f /\ f <> "fuzzy"%string).
  { destruct (P c n E) as [So|(f & a & Hf & _ & C)]; [now left|]. destruct Hz as [Hz|Hz]; [|left; auto]. right. split; auto. exists f. split; auto. now apply callable_not_fuzzy in C. }
  destruct X as [(memb & vals & sc & A & B' & C & I1 & I2 & L1 & L2 & L3 & I3)|(Hz' & f & Hf & Hn)].
  - rewrite A, B'. cbn [oget rbind String.eqb Ascii.eqb Bool.eqb]. destruct (fuzzy_range z memb vals I1 L1 L3 I3) as (r & -> & Hr). cbn [fst].
    intros c' h. cbn [m_exec put_node put_exec set_topo set_exec]. rewrite dget_dset. destruct (String.eqb c' c); [intros [= <-]; eauto|apply B].
  - rewrite Hf. cbn [oget rbind]. destruct (String.eqb_spec f "fuzzy") as [X|_]; [contradiction|]. cbn [fst].
    intros c' h. cbn [m_exec put_node put_exec set_topo set_exec]. rewrite dget_dset. destruct (String.eqb c' c); [intros [= <-]; eauto|apply B].
Qed.

(** ** Setting a row *)
Record firm (fds : list (fdesc R)) (g : gen R) : Prop := {
  fi_tidy : tidy fds g; fi_soft : soft_map (g_fcm g); fi_call : callable (dc_func (m_default (g_fcm g))) (dc_args (m_default (g_fcm g)));
  fi_sane : sane (g_fcm g); fi_debug : m_debug (g_fcm g) = false; fi_max : (2 <= m_maxit (g_fcm g))%Z; fi_some : concepts (g_fcm g) <> [] }.
Lemma firm_moved fds g g' : moved g g' -> firm fds g -> firm fds g'.
Proof.
  intros M [T So C S D Mx Ne]. pose proof (moved_wframe _ _ M) as W. assert (W' := W). destruct W' as (W1 & _ & W3).
  pose proof (settings_max _ _ W3) as (X1 & _ & _ & _ & _ & X2). pose proof (settings_fit _ _ W3) as [_ Wf].
  constructor.
  - now apply (tidy_moved _ _ _ M).
  - now apply (soft_moved (g_fcm g)).
  - now rewrite Wf.
  - now apply (moved_sane _ _ M).
  - congruence.
  - congruence.
  - unfold concepts in *. now rewrite (statics_keys _ _ W1).
Qed.
Lemma firm_answering fds g : firm fds g -> answering (g_fcm g).
Proof. intros Fm. apply (tidy_answering fds); apply Fm. Qed.
Lemma single_clusters fds d v : In d fds -> is_fuzzy_type (fd_type d) = true -> forall names g, incl names (fd_names d) -> firm fds g -> single (g_fcm g) ->
  single (g_fcm (fst (sfold (fun name => swith (fun _ => cell_num v) (fun x => on_fcm (init_concept (F := R) name x false))) names g))).
Proof.
  intros Hd Hz. induction names as [|c names IH]; intros g Hi Fm Si; [exact Si|]. cbn [sfold]. unfold swith at 1. destruct (cell_num v) as [z|er] eqn:Ev; [|exact Si].
  unfold on_fcm at 1. pose proof (moved_on (OpInitConcept c z false) g eq_refl) as M. unfold on_fcm in M. cbn [step] in M.
  assert (X : single (fst (init_concept c z false (g_fcm g)))).
  { apply single_init; auto; [now apply (firm_answering fds)|]. right. intros n Hn. apply (fi_soft _ _ Fm c n (fd_type d)); auto.
    exact (td_type _ _ (fi_tidy _ _ Fm) d c n Hd (Hi c (or_introl eq_refl)) Hn). }
  destruct (init_concept c z false (g_fcm g)) as [s' [u|er]]; cbn [fst] in *; [|exact X].
  apply IH; auto; [intros a Ha; apply Hi; now right|now apply (firm_moved fds g)].
Qed.
Lemma single_cell cf fds f v g : firm fds g -> single (g_fcm g) -> single (g_fcm (fst (init_concept_by_feature_data cf f v g))).
Proof.
  intros Fm B. pose proof (fi_tidy _ _ Fm) as T. unfold init_concept_by_feature_data, get_type, get_names, dget_exn. unfold swith at 1.
  destruct (dget (g_feats g) f) as [d0|] eqn:E; [|exact B]. destruct (td_only _ _ T f ltac:(congruence)) as (d & Hd & Hf).
  pose proof (td_known _ _ T d Hd) as X. rewrite Hf, E in X. injection X as ->. cbn [rbind feat_of f_type oget].
  destruct (is_fuzzy_type (fd_type d)) eqn:Ez; pose proof Ez as Ez'; unfold is_fuzzy_type in Ez'; rewrite Ez'.
  - unfold swith at 1. rewrite E. cbn [rbind feat_of f_names oget].
    pose proof (single_clusters fds d v Hd Ez (fd_names d) g (fun a H => H) Fm B) as Y. destruct (sfold _ _ g) as [g1 r]. cbn [fst] in *. exact Y.
  - unfold swith. destruct (cell_text cf v) as [t|er]; [|exact B]. unfold on_fcm.
    pose proof (single_init (name_concept cf f t) n1 (g_fcm g) (firm_answering fds g Fm) B) as Y. destruct (init_concept _ _ _ _) as [s r]. cbn [fst] in Y |- *. apply Y. left. cbn. lra.
Qed.
Lemma single_row cf fds r : forall g, firm fds g -> single (g_fcm g) -> single (g_fcm (fst (set_row cf r g))).
Proof.
  unfold set_row. induction r as [|[f v] r IH]; intros g Fm B; [exact B|]. cbn [sfold fst snd].
  pose proof (single_cell cf fds f v g Fm B) as X. pose proof (moved_init cf f v g) as M.
  destruct (init_concept_by_feature_data cf f v g) as [g1 [u|er]]; cbn [fst] in *; [|exact X].
  apply IH; auto. now apply (firm_moved fds g).
Qed.
Lemma single_hist s : single s -> hist_ne s.
Proof. intros B c h Hh ->. destruct (B c _ Hh) as (v & X & _). discriminate. Qed.
Lemma single_initial s c : sane s -> single s -> In c (concepts s) -> exists v, initial s c = Some v /\ neqb v n2 = false.
Proof.
  intros S B Hc. destruct (sane_parts _ S) as (_ & _ & K & _). unfold concepts in Hc. rewrite <- K in Hc. apply dget_Some_In in Hc as [h Hh].
  unfold initial, history. rewrite Hh. destruct (B c h Hh) as (v & -> & Hv). exists v. split; auto. apply Reqb_false. cbn. lra.
Qed.

(** ** Predicting rows *)
Lemma firm_ready cf fds r g : firm fds g -> let g' := fst (sthen (on_fcm clear_execution) (set_row cf r) g) in
  moved g g' /\ single (g_fcm g') /\ exists c0 v, hd_error (concepts (g_fcm g')) = Some c0 /\ initial (g_fcm g') c0 = Some v /\ neqb v n2 = false.
Proof.
  intros Fm. unfold sthen. pose proof (moved_on OpClearExec g eq_refl) as M1. change (step OpClearExec) with (clear_execution (F := R)) in M1.
  assert (B1 : single (g_fcm (fst (on_fcm clear_execution g)))).
  { unfold on_fcm. pose proof (single_clear _ (fi_sane _ _ Fm)) as X. destruct (clear_execution (g_fcm g)). exact X. }
  assert (O1 : snd (on_fcm clear_execution g) = Ok tt).
  { unfold on_fcm. pose proof (proj1 (clear_values (g_fcm g))) as C. destruct (clear_execution (g_fcm g)); exact C. }
  destruct (on_fcm clear_execution g) as [g1 r1]. cbn [fst snd] in *. subst r1.
  pose proof (moved_trans _ _ _ M1 (moved_set_row cf r g1)) as M.
  pose proof (single_row cf fds r g1 (firm_moved _ _ _ M1 Fm) B1) as B.
  destruct (set_row cf r g1) as [g' r']. cbn [fst] in *. pose proof (firm_moved _ _ _ M Fm) as Fm'.
  split; auto. split; auto. pose proof (fi_some _ _ Fm') as Ne.
  destruct (concepts (g_fcm g')) as [|c0 cs] eqn:Ec; [congruence|]. exists c0.
  destruct (single_initial (g_fcm g') c0 (fi_sane _ _ Fm') B) as (v & Hv & Hv2); [rewrite Ec; now left|]. exists v. auto.
Qed.
Lemma firm_row_hist cf fds r g : firm fds g -> hist_ne (g_fcm (fst (predict_row cf r g))).
Proof.
  intros Fm. unfold predict_row. pose proof (firm_ready cf fds r g Fm) as X. cbv zeta in X. unfold set_row in X.
  destruct (sthen _ _ g) as [g1 [u|er]]; cbn [fst] in X.
  - destruct X as (M & B1 & c0 & v & H0 & Hv & Hv2). pose proof (firm_moved _ _ _ M Fm) as Fm1.
    assert (Y : hist_ne (fst (run_inference true (g_fcm g1)))).
    { apply (vec_run_hist (g_fcm g1) c0 v); auto; try apply Fm1; [|apply answering_responsive; now apply (firm_answering fds)].
      intros c Hcc. destruct (single_initial _ c (fi_sane _ _ Fm1) B1 Hcc) as (w & -> & _). discriminate. }
    unfold get_inference_result, on_fcm. destruct (run_inference true (g_fcm g1)) as [s' [u'|er]]; cbn [fst] in Y |- *; exact Y.
  - cbn [fst]. apply single_hist. apply X.
Qed.
Lemma firm_rows_hist cf fds rows : forall g acc, firm fds g -> hist_ne (g_fcm g) -> hist_ne (g_fcm (fst (predict_rows cf rows acc g))).
Proof.
  induction rows as [|r rows IH]; intros g acc St Hn; [exact Hn|]. cbn [predict_rows].
  pose proof (firm_row_hist cf fds r g St) as X.
  pose proof (moved_predict cf r g) as M. destruct (predict_row cf r g) as [g1 [p|er]]; cbn [fst] in *; [|exact X].
  apply IH; auto. eapply firm_moved; eauto.
Qed.
Lemma vec_row_predicts cf fds r g : c_sep cf = "___"%string -> firm fds g -> m_decision (g_fcm g) <> "EXITED"%string ->
  (forall f str, In (f, CStr str) r -> readable str) -> (forall f v, In (f, v) r -> takes cf fds f v) ->
  exists p, snd (predict_row cf r g) = Ok p.
Proof.
  intros Hsep Fm He Hr Hv. unfold predict_row. pose proof (firm_ready cf fds r g Fm) as X. cbv zeta in X. unfold sthen in *.
  pose proof (moved_on OpClearExec g eq_refl) as M1. change (step OpClearExec) with (clear_execution (F := R)) in M1.
  assert (O1 : snd (on_fcm clear_execution g) = Ok tt).
  { unfold on_fcm. pose proof (proj1 (clear_values (g_fcm g))) as C. destruct (clear_execution (g_fcm g)); exact C. }
  destruct (on_fcm clear_execution g) as [g1 r1]. cbn [fst snd] in M1, O1. subst r1. pose proof (firm_moved _ _ _ M1 Fm) as Fm1.
  destruct (row_set cf fds r Hsep g1) as (g3 & E3); auto; try apply Fm1.
  { eapply callable_not_fuzzy. apply Fm1. }
  rewrite E3 in X. unfold set_row in E3. rewrite E3. cbn [fst] in X. destruct X as (M & B3 & c0 & v & Hc0 & Hv0 & Hv2).
  pose proof (firm_moved _ _ _ M Fm) as Fm3. pose proof (moved_wframe _ _ M) as (_ & _ & W3). pose proof (settings_max _ _ W3) as (_ & _ & _ & _ & We & _).
  destruct (vec_run_succeeds (g_fcm g3) c0 v) as (s' & Er); auto; try apply Fm3; try congruence.
  - intros c Hcc. destruct (single_initial _ c (fi_sane _ _ Fm3) B3 Hcc) as (w & -> & _). discriminate.
  - apply answering_responsive. now apply (firm_answering fds).
  - intros _. split; [apply Reqb_true; reflexivity|]. intros k Hk. apply Reqb_false. apply not_0_IZR. lia.
  - unfold get_inference_result. unfold on_fcm. rewrite Er. cbn [snd].
    set (g4 := set_fcm s' g3). assert (M4 : moved g3 g4).
    { pose proof (moved_on (OpRun true) g3 eq_refl) as Y. unfold on_fcm in Y. change (step (OpRun true)) with (run_inference (F := R) true) in Y. rewrite Er in Y. exact Y. }
    pose proof (firm_moved _ _ _ M4 Fm3) as Fm4. pose proof (fi_tidy _ _ Fm4) as T4.
    rewrite (target_values fds g4 T4 (fi_sane _ _ Fm4)). cbn [rbind]. rewrite (group_spec cf Hsep fds g4 T4). cbn [rbind]. eauto.
Qed.

Lemma firm_use_hist fds l : forall e, forallb (fun c => negb (is_fit (F := R) c)) l = true -> e_priv e = None -> firm fds (e_gen e) -> hist_ne (e_map e) -> hist_ne (e_map (eruns l e)).
Proof.
  induction l as [|c l IH]; intros e Hl P St Hn; [exact Hn|]. cbn [forallb] in Hl. apply andb_true_iff in Hl as [H1 H2].
  unfold eruns. cbn [fold_left].
  assert (Q : forall cf x, hist_ne (e_map (fst (predict cf x e))) /\ moved (e_gen e) (e_gen (fst (predict cf x e))) /\ e_priv (fst (predict cf x e)) = None).
  { intros cf x. destruct (predict_moved cf x e P) as (Mv & Pv & _). split; auto. unfold predict. destruct (e_generated e); [|exact Hn].
    pose proof (firm_rows_hist cf fds (iterrows x) (e_gen e) [] St) as Y. assert (Eg : g_fcm (e_gen e) = e_map e) by (unfold e_gen; now rewrite P). rewrite Eg in Y.
    specialize (Y Hn). destruct (predict_rows _ _ _ _) as [g' r]. exact Y. }
  assert (Z : hist_ne (e_map (fst (edo c e))) /\ moved (e_gen e) (e_gen (fst (edo c e))) /\ e_priv (fst (edo c e)) = None).
  { destruct c as [cf x y|cf x|cf x y]; [discriminate| |]; cbn [edo].
    - specialize (Q cf x). destruct (predict cf x e). exact Q.
    - pose proof (score_est cf x y e) as Es. destruct (score cf x y e) as [e1 r]. cbn in Es |- *. rewrite Es.
      destruct (e_generated e); [apply Q|]. split; [exact Hn|]. split; [apply moved_refl|auto]. }
  destruct Z as (Z1 & Z2 & Z3). apply IH; auto. eapply firm_moved; eauto.
Qed.

(** ** After fitting *)
Section Fitted.
Variable cf : gconf R.
Hypothesis Hsep : c_sep cf = "___"%string.
Hypothesis HO : reorders (c_ord cf).
Hypothesis HS : sound_disc cf.
Hypothesis HN : forall f data n vals ms, c_disc cf f data = Ok (n, vals, ms) -> (0 < n)%nat.
Variables (mi ex : Z) (sd : R) (de : string) (me : bool) (xc ac : string) (kw : args R).
Variables (e0 e e' : est R) (x y : dataset R).
Hypothesis H0 : init_est mi ex sd de me xc ac kw true = Ok e0.
Hypothesis Hmi : (2 <= mi)%Z.
Hypothesis Hc : callable ac kw.
Hypothesis HH : healthy e0 e.
Hypothesis RD : readable_data cf (join_frames x y).
Hypothesis Some_row : exists f c, In (f, c) (join_frames x y) /\ (0 < col_length c)%nat.
Hypothesis HF : fit cf x y e = (e', Ok tt).
Lemma fit_firm : exists fds, firm fds (e_gen e') /\ Forall2 (described cf (dkeys y)) (join_frames x y) fds /\ g_fcm (e_gen e') = e_map e' /\
  e_priv e' = None /\ e_generated e' = true /\ m_decision (e_map e') = de.
Proof.
  pose proof (healthy_estimator _ _ HH) as HE. pose proof (healthy_fit _ _ _ _ _ _ HH HF) as H1. pose proof (healthy_sane _ _ H1) as S1.
  destruct (@fit_tidy R RNum cf Hsep x y e0 e e' HO (fun a b => Rmult_comm a b) HE RD HF) as (fds & T & D & Nn & Ln & Eg & _).
  destruct (fit_soft cf x y e0 e e' Hsep HO HS HE RD HF) as [So _].
  destruct (fit_base cf x y e0 e e' HE HF) as (_ & _ & Pn).
  assert (G1 : e_generated e' = true).
  { pose proof HF as HF'. unfold fit in HF'. destruct (reset (e_gen e)) as [g1 [u|er]]; [|discriminate]. destruct (build_fcm _ _ _ _ _) as [g3 [u'|er]]; [|discriminate]. now injection HF' as <-. }
  destruct (estimator_state _ _ (healthy_estimator _ _ H1)) as (_ & St & _). pose proof (est_settings _ _ St) as Se.
  pose proof (settings_max _ _ Se) as (Sm & _ & _ & _ & Sd & Sb). pose proof (settings_fit _ _ Se) as [_ Sf].
  destruct (init_default _ _ _ _ _ _ _ _ _ _ H0) as (I1 & I2 & I3). destruct (init_limits _ _ _ _ _ _ _ _ _ _ H0) as [Mi _].
  destruct (init_est_spec _ _ _ _ _ _ _ _ _ _ H0) as (_ & _ & _ & Db & _).
  exists fds. split; [|repeat (split; [first [assumption|congruence]|]); congruence].
  constructor; rewrite ?Eg; auto.
  - rewrite Sf, I1, I2. exact Hc.
  - rewrite Sb, Db. reflexivity.
  - rewrite Sm, Mi. exact Hmi.
  - destruct Some_row as (f & c & Hi & Hl). destruct (Forall2_In_l _ _ _ _ D Hi) as (d & Hd & Hde).
    assert (Nd : fd_names d <> []).
    { inversion Hde as [? ? texts' rows L' Di' E1 E2|f' c' texts' ind' data n vals ms rows' L' Di' Hnum Hdisc Hr Hrow E1 E2]; subst; cbn [fd_names].
      - pose proof (levels_some _ _ _ _ L' Hl) as Ne. destruct texts'; [congruence|discriminate].
      - pose proof (HN _ _ _ _ _ Hdisc) as Hp. destruct (length rows'); [lia|discriminate]. }
    destruct (fd_names d) as [|k l] eqn:Ek; [congruence|]. assert (Ic : In k (concepts (g_fcm (e_gen e')))) by (apply (td_concepts _ _ T); exists d; split; auto; rewrite Ek; now left).
    rewrite Eg in Ic. intros X. rewrite X in Ic. exact Ic.
Qed.
Lemma vec_predict_fuzzy e2 x' : used e' e2 -> de <> "EXITED"%string ->
  (forall r f v, In r (iterrows x') -> In (f, v) r -> exists c, In (f, c) (join_frames x y) /\ suits cf c v) ->
  exists out, snd (predict cf x' e2) = Ok out.
Proof.
  intros HU He Hx. destruct fit_firm as (fds & Fm & D & Eg & Pn & G1 & Dd).
  destruct (used_moved e' e2 Pn HU) as (M & P2 & G2). pose proof (firm_moved _ _ _ M Fm) as Fm2.
  pose proof (moved_wframe _ _ M) as (_ & _ & W3). rewrite Eg in W3. pose proof (settings_max _ _ W3) as (_ & _ & _ & _ & We & _).
  assert (U : usable (g_fcm (e_gen e2))) by (split; [apply Fm2|intros _; apply Fm2]).
  destruct (Forall_choice (fun r p => snd (predict_row cf r (e_gen e2)) = Ok p) (iterrows x')) as [ps Hp].
  - intros r Hr. apply (vec_row_predicts cf fds); auto; [congruence| |].
    + intros f str Hf. destruct (Hx r f _ Hr Hf) as (c & Hi & Hs). now apply (suits_takes cf y x fds f c _ D Hi Hs) || now apply (suits_takes cf x y fds f c _ D Hi Hs).
    + intros f v Hf. destruct (Hx r f _ Hr Hf) as (c & Hi & Hs). now apply (suits_takes cf y x fds f c _ D Hi Hs) || now apply (suits_takes cf x y fds f c _ D Hi Hs).
  - exists (fold_left append_all ps []). apply predict_ok; auto; [congruence|]. eauto.
Qed.
(** all calls after the fit leave nonempty histories *)
Lemma firm_used_hist e2 : used e' e2 -> sane (e_map e2) /\ hist_ne (e_map e2).
Proof.
  intros HU. destruct fit_firm as (fds & Fm & D & Eg & Pn & G1 & Dd). split.
  - exact (healthy_sane _ _ (healthy_used _ _ _ (healthy_fit _ _ _ _ _ _ HH HF) HU)).
  - destruct HU as (l & Hl & ->). apply (firm_use_hist fds); auto. exact (fit_hist cf x y e0 e e' (healthy_estimator _ _ HH) HF).
Qed.
End Fitted.
