(** SepFacts6.v — estimators trained on separated data: the rows of the data are
    classified right (C93). *)
From Coq Require Import Permutation Reals Lra.
From Verif Require Import Base BaseFacts Num Functions Spec RealFacts FunctionsFacts Fcm FcmSpec FcmBasics FcmInv FcmInv2 FcmInv3 FcmIter FcmRun FcmRun2 FcmRun3 FcmOrder DynSpec Dynamics Dynamics2 VecSpec FcmVec5 FcmVec6 FcmTotal LearnUtils LearnSpec LearnFacts Assoc AssocSpec AssocFacts AssocFacts2 AssocFacts3 AssocFacts4 AssocNames AssocNames2 Estimator EstFacts EstFacts2 EstFacts3 EstSpec EstFacts4 AssocGen AssocPredict AssocResult AssocRow EstFacts5 EstFacts6 EstFacts7 EstFacts9 SepSpec SepFacts SepFacts2 SepFacts3 SepFacts4 SepFacts5.
Local Open Scope R_scope.

(** ** The nodes of a fitted map *)
Lemma init_default2 mi ex sd de me xc ac kw vec (e0 : est R) : init_est mi ex sd de me xc ac kw vec = Ok e0 ->
  dc_mem (m_default (e_map e0)) = me /\ dc_exec (m_default (e_map e0)) = xc /\ m_maxit (e_map e0) = mi /\ m_extra (e_map e0) = (if (0 <? ex)%Z then ex else 1%Z) /\ m_debug (e_map e0) = negb vec.
Proof.
  unfold init_est. intros H. apply rbind_ok in H as (s & Hs & H). apply rbind_ok in H as (s1 & H1 & H). apply rbind_ok in H as (p & Hp & H).
  injection H as <-. cbn [e_map]. apply init_fcm_shape in Hs as (-> & _).
  unfold set_default_concept_properties, update_default in H1. cbn in H1. destruct (get_excitation_by_name xc); [|discriminate]. cbn in H1. injection H1 as <-. repeat split; auto.
Qed.
Lemma fit_common cf x y e0 e e' : reorders (c_ord cf) -> estimator e0 e -> NoDup (dkeys (join_frames x y)) -> fit cf x y e = (e', Ok tt) ->
  (forall f c d, In (f, c) (join_frames x y) -> described cf (dkeys y) (f, c) d -> is_fuzzy_type (fd_type d) = false /\ is_valid_type (fd_type d) = true) ->
  let dc := m_default (e_map e') in common (e_map e') (dc_mem dc) (dc_exec dc) (dc_func dc) (dc_args dc).
Proof.
  intros HO HE ND HF Hz. destruct (fit_plan _ _ _ _ _ _ HO HE ND HF) as (s & ops & fds & A & B & Hp & Hm & R & Hg).
  destruct (plan_build_spec cf _ _ _ _ _ _ Hp) as (rest & E & D & Dn & Rl & An & Nm & Bd & Cn & Ln). cbn in E. subst rest.
  destruct B as (B1 & B2 & B3 & B4). destruct R as (_ & R2 & _). rewrite Hg in R2. cbv zeta. intros c n Hn. rewrite Hm in Hn.
  rewrite R2.
  refine (built_node (fun n => nd_active n = Some true /\ nd_mem n = Some (dc_mem (m_default s)) /\ nd_exec n = Some (dc_exec (m_default s)) /\
    nd_func n = Some (dc_func (m_default s)) /\ nd_args n = Some (dc_args (m_default s))) c _ ops s B4 Bd _ _ n Hn).
  - intros n1 n2 En (X1 & X2 & X3 & X4 & X5). rewrite <- X1, <- X2, <- X3, <- X4, <- X5.
    repeat split; symmetry; [exact (f_equal nd_active En)|exact (f_equal nd_mem En)|exact (f_equal nd_exec En)|exact (f_equal nd_func En)|exact (f_equal nd_args En)].
  - intros ct a m xx dd f k Ho. rewrite Forall_forall in Cn. destruct (Cn _ Ho eq_refl) as (d & Hd & _ & dx & Ho' & _ & _ & Hx).
    destruct (Forall2_In_r _ _ _ _ D Hd) as ([ff cc] & Hi & Dd). destruct (Hz ff cc d Hi Dd) as [Z1 Z2].
    injection Ho' as -> -> -> -> -> -> ->. rewrite (Hx Z1). unfold build_node. rewrite Z2, Z1. cbn. auto.
  - intros n1 Hn1. rewrite B1 in Hn1. discriminate.
Qed.

(** ** After a row has been set, the concepts have been initialised with their values *)
Definition synced (s : fcm R) : Prop := forall c, In c (concepts s) -> exists v, value s c = Some v /\ history s c = Some [v].
Lemma synced_initial s c v : synced s -> In c (concepts s) -> value s c = Some v -> initial s c = Some v.
Proof. intros H Hc Hv. destruct (H c Hc) as (w & E1 & E2). unfold initial. rewrite E2. congruence. Qed.
Lemma synced_clear s : synced (fst (clear_execution s)).
Proof.
  intros c Hc. destruct (clear_values s) as [_ X]. exists n0. apply X.
  pose proof (clear_exec_frame s) as (W & _). unfold concepts in *. now rewrite <- (statics_keys _ _ W).
Qed.
Definition unfuzzy (s : fcm R) : Prop := forall c n, dget (m_topo s) c = Some n -> exists f, nd_func n = Some f /\ f <> "fuzzy".
Lemma unfuzzy_moved g g' : moved g g' -> unfuzzy (g_fcm g) -> unfuzzy (g_fcm g').
Proof.
  intros M U c n Hn. destruct (moved_wframe _ _ M) as (W & _). symmetry in W. destruct (statics_dget _ _ c n W Hn) as (n' & Hn' & En).
  destruct (U c n' Hn') as (f & Hf & Nf). exists f. pose proof (f_equal nd_func En) as E1. cbn in E1. split; congruence.
Qed.
Lemma synced_one c v s : unfuzzy s -> synced s -> synced (fst (init_concept c v false s)).
Proof.
  intros U Sy. destruct (dget (m_topo s) c) as [n|] eqn:E.
  - destruct (U c n E) as (f & Hf & Nf). destruct (init_plain c v false s n f E Hf Nf) as (_ & I2 & I3).
    destruct (init_frame c v false s) as (F1 & _ & _ & F4). intros z Hz. rewrite F1 in Hz.
    destruct (string_dec z c) as [->|Ne]; [eauto|]. destruct (F4 z Ne) as (_ & G2 & G3). rewrite G2, G3. now apply Sy.
  - unfold init_concept. rewrite E. exact Sy.
Qed.
Lemma synced_cell cf f v g : discrete_gen g -> unfuzzy (g_fcm g) -> synced (g_fcm g) -> synced (g_fcm (fst (init_concept_by_feature_data cf f v g))).
Proof.
  intros D P B. unfold init_concept_by_feature_data, swith, get_type, dget_exn.
  destruct (dget (g_feats g) f) as [d|] eqn:E; [|exact B]. cbn [rbind]. destruct (f_type d) as [t|] eqn:Et; [|exact B]. cbn [oget].
  specialize (D f d E t Et). unfold is_fuzzy_type in D. rewrite D. destruct (cell_text cf v) as [x|er]; [|exact B].
  unfold on_fcm. pose proof (synced_one (name_concept cf f x) n1 (g_fcm g) P B) as X. destruct (init_concept _ _ _ _) as [s r]. cbn [fst] in X |- *. exact X.
Qed.
Lemma synced_row cf r : forall g, discrete_gen g -> unfuzzy (g_fcm g) -> synced (g_fcm g) -> synced (g_fcm (fst (set_row cf r g))).
Proof.
  unfold set_row. induction r as [|[f v] r IH]; intros g D P B; [exact B|]. cbn [sfold fst snd].
  pose proof (synced_cell cf f v g D P B) as X. pose proof (moved_init cf f v g) as M.
  destruct (init_concept_by_feature_data cf f v g) as [g1 [u|er]]; cbn [fst] in *; [|exact X].
  apply IH; auto; [eapply discrete_moved; eauto|eapply unfuzzy_moved; eauto].
Qed.

(** ** Rows *)
Section Rows.
Variable cf : gconf R.
Hypothesis Hsep : c_sep cf = "___".
Hypothesis Ev : c_eval cf = rel_supp.
Hypothesis Th : 0 <= c_thr cf.
Hypothesis Ca : c_caus cf = rel_conf \/ c_caus cf = rel_pos_inf.
Hypothesis Sg : c_sign cf = None.
Variables (ds : dataset R) (targets : list string) (n : nat) (fds : list (fdesc R)).
Hypothesis Plain : forall f c, In (f, c) ds -> plain_column cf c.
Hypothesis Freq : forall f c, In (f, c) ds -> frequent (c_thr cf) c.
Hypothesis Sepd : separated n ds.
Hypothesis Some_rows : (0 < n)%nat.
Hypothesis Reads : readable_data cf ds.
Hypothesis D : Forall2 (described cf targets) ds fds.
Hypothesis NN : NoDup (flat_map fd_names fds).
Hypothesis Ln : Forall (fun d => length (fd_rows d) = length (fd_names d)) fds.
Variables (de : string) (b : bool) (xc ac : string) (kw : args R) (k : nat).
Hypothesis Hc : callable ac kw.
Hypothesis Tl : telling ac kw (reach xc * (1 + Rabs (c_excl cf)) * INR (S k)).
Hypothesis Own : (de = "LAST" /\ c_excl cf < memw b) \/ (de = "MEAN" /\ c_excl cf <= memw b).
Record trained (g : gen R) : Prop := {
  tr_tidy : tidy fds g;
  tr_sane : sane (g_fcm g);
  tr_common : common (g_fcm g) b xc ac kw;
  tr_size : length (concepts (g_fcm g)) = k;
  tr_nodup : NoDup (map fst (relations (g_fcm g)));
  tr_rels : forall a b w, In (a, b, w) (relations (g_fcm g)) <-> exclusion cf fds a b w \/ association cf fds a b w;
  tr_decision : m_decision (g_fcm g) = de;
  tr_func : dc_func (m_default (g_fcm g)) = ac;
  tr_engine : (m_debug (g_fcm g) = true /\ (2 <= m_extra (g_fcm g))%Z) \/ (m_debug (g_fcm g) = false /\ (3 <= m_maxit (g_fcm g))%Z)
}.
Lemma trained_moved g g' : moved g g' -> trained g -> trained g'.
Proof.
  intros M T. pose proof (moved_wframe _ _ M) as (W1 & W2 & W3). pose proof (settings_max _ _ W3) as (X1 & X2 & _ & _ & X5 & X6). pose proof (settings_fit _ _ W3) as [_ X7].
  assert (Er : relations (g_fcm g') = relations (g_fcm g)) by (unfold relations; now rewrite W2).
  constructor.
  - eapply tidy_moved; eauto. apply T.
  - eapply moved_sane; eauto. apply T.
  - eapply common_moved; eauto. apply T.
  - unfold concepts. rewrite (statics_keys _ _ W1). apply T.
  - rewrite Er. apply T.
  - intros a c w. rewrite Er. apply T.
  - rewrite X5. apply T.
  - rewrite X7. apply T.
  - rewrite X1, X2, X6. apply T.
Qed.
Lemma feats_of d : In d fds -> exists c, In (fd_feat d, c) ds.
Proof. intros H. destruct (grp_In cf Hsep ds targets fds Plain D d H) as (c & Hi & _). eauto. Qed.
Lemma feat_desc f c : In (f, c) ds -> exists d, In d fds /\ fd_feat d = f.
Proof. intros H. destruct (Forall2_In_l _ _ _ _ D H) as (d & Hd & Dd). exists d. split; auto. inversion Dd; reflexivity. Qed.
Lemma col_unique f c c' : In (f, c) ds -> In (f, c') ds -> c = c'.
Proof.
  intros H1 H2. destruct Reads as (_ & ND & _). apply In_dget in H1; auto. apply In_dget in H2; auto. congruence.
Qed.
Lemma types d : In d fds -> is_fuzzy_type (fd_type d) = false /\ fd_target d = str_mem (fd_feat d) targets /\ is_class d = str_mem (fd_feat d) targets.
Proof.
  intros H. destruct (grp_In cf Hsep ds targets fds Plain D d H) as (c & Hi & E & _). unfold fd_target, is_class. rewrite E. destruct (str_mem _ _); auto.
Qed.
Lemma text_plain v : plain_cell v -> cell_text cf v = Ok (cell_str v).
Proof. destruct v; cbn; try easy. Qed.
Lemma label_text v : plain_cell v -> label v = class_cell (cell_str v).
Proof. destruct v; cbn; try easy. Qed.
Lemma cell_read f c v : In (f, c) ds -> In v (col_cells c) -> readable (cell_str v).
Proof.
  intros Hi Hv. pose proof (Plain f c Hi) as P. destruct Reads as (_ & _ & X). destruct (X f c Hi) as [_ Y].
  destruct c as [l|l|l|l]; cbn [plain_column] in P; try easy; cbn [col_cells] in Hv; apply in_map_iff in Hv as (z & <- & Hz); cbn [cell_str].
  - cbn in Y. rewrite Forall_forall in Y. auto.
  - apply int_readable.
Qed.
(** a row holding cells of sample [i] *)
Definition row_of_sample (i : nat) (r : list (string * cell R)) : Prop :=
  (i < n)%nat /\ r <> [] /\ NoDup (map fst r) /\ forall f v, In (f, v) r -> ~ In f targets /\ exists c, In (f, c) ds /\ nth_error (col_cells c) i = Some v.
Lemma sample_block i : (i < n)%nat -> exists b1, forall f c v, In (f, c) ds -> nth_error (col_cells c) i = Some v -> ind (col_cells c) v = b1.
Proof.
  intros Hi. destruct ds as [|[f0 c0] rest] eqn:E.
  - exists []. intros f c v [].
  - rewrite <- E in *. assert (H0 : In (f0, c0) ds) by (rewrite E; now left).
    destruct (nth_error (col_cells c0) i) as [v0|] eqn:E0.
    + exists (ind (col_cells c0) v0). intros f c v Hc' Hv. apply (same_block cf ds n Plain Sepd Some_rows f c f0 c0 i v v0); auto.
    + exfalso. apply nth_error_None in E0. rewrite (cells_len ds n Sepd f0 c0 H0) in E0. lia.
Qed.
Lemma row_right i r g g' p : trained g -> row_of_sample i r -> predict_row cf r g = (g', Ok p) ->
  (de = "MEAN" -> m_debug (g_fcm g) = true \/ m_oob (g_fcm g') = false) ->
  forall f c v, In (f, c) ds -> In f targets -> nth_error (col_cells c) i = Some v ->
  labels (append_all [] p) f = [label v].
Proof.
  intros T (Hi & Rne & Rnd & Rc) HP Ho f c v Hf Hft Hv.
  pose proof (tr_tidy _ T) as Td. pose proof (tr_sane _ T) as Sn.
  unfold predict_row, sthen in HP.
  pose proof (moved_on OpClearExec g eq_refl) as M1. change (step OpClearExec) with (clear_execution (F := R)) in M1.
  assert (O1 : snd (on_fcm clear_execution g) = Ok tt).
  { unfold on_fcm. pose proof (proj1 (clear_values (g_fcm g))) as Q. destruct (clear_execution (g_fcm g)); exact Q. }
  assert (Sy1 : synced (g_fcm (fst (on_fcm clear_execution g)))).
  { unfold on_fcm. pose proof (synced_clear (g_fcm g)) as X. destruct (clear_execution (g_fcm g)). exact X. }
  assert (V1 : forall z, In z (concepts (g_fcm g)) -> value (g_fcm (fst (on_fcm clear_execution g))) z = Some 0).
  { intros z Hz. destruct (clear_values (g_fcm g)) as [_ X]. unfold on_fcm. destruct (X z Hz) as [X1 _]. destruct (clear_execution (g_fcm g)). exact X1. }
  destruct (on_fcm clear_execution g) as [g1 r1]. cbn [fst snd] in M1, O1, Sy1, V1. subst r1.
  change (sfold (fun fv : string * cell R => init_concept_by_feature_data cf (fst fv) (snd fv)) r g1) with (set_row cf r g1) in HP.
  destruct (set_row cf r g1) as [g2 [u|er]] eqn:E2; [|discriminate]. destruct u.
  pose proof (trained_moved _ _ M1 T) as T1.
  assert (M2 : moved g1 g2) by (pose proof (moved_set_row cf r g1) as M; rewrite E2 in M; exact M).
  pose proof (trained_moved _ _ M2 T1) as T2.
  assert (Dg : discrete_gen g1).
  { intros f' dd Hd t Ht. assert (K : dget (g_feats g1) f' <> None) by congruence. destruct (td_only _ _ (tr_tidy _ T1) f' K) as (d' & Hd' & Hf').
    pose proof (td_known _ _ (tr_tidy _ T1) d' Hd') as X. rewrite Hf', Hd in X. injection X as ->. cbn in Ht. injection Ht as <-. now apply types. }
  assert (Uf : unfuzzy (g_fcm g1)).
  { intros z nd Hz. destruct (tr_common _ T1 z nd Hz) as (_ & _ & _ & C4 & _). exists ac. split; auto. now apply (common_plain ac kw). }
  assert (Sy2 : synced (g_fcm g2)) by (pose proof (synced_row cf r g1 Dg Uf Sy1) as X; rewrite E2 in X; exact X).
  assert (CE1 : concepts (g_fcm g1) = concepts (g_fcm g)) by (destruct (moved_wframe _ _ M1) as (W & _); exact (statics_keys _ _ W)).
  assert (CE2 : concepts (g_fcm g2) = concepts (g_fcm g1)) by (destruct (moved_wframe _ _ M2) as (W & _); exact (statics_keys _ _ W)).
  assert (Good : good_row r).
  { split; auto. intros f' str H. destruct (Rc f' _ H) as (_ & c' & Hc' & Hn). apply nth_error_In in Hn. exact (cell_read f' c' _ Hc' Hn). }
  destruct (sample_block i Hi) as [b1 Hb1].
  (* the values the run starts from *)
  assert (NG : forall d z, In d fds -> In z (map fst (grp d)) -> In z (fd_names d)) by (intros d z Hd Hz; now rewrite (grp_names fds Ln d Hd) in Hz).
  assert (Ic : forall d z rr, In d fds -> In (z, rr) (grp d) -> In z (fd_names d)) by (intros d z rr Hd Hz; apply (NG d z Hd); apply in_map_iff; exists (z, rr); auto).
  assert (St : forall d, In d fds -> (In (fd_feat d) (map fst r) -> set_from (g_fcm g2) b1 d) /\ (~ In (fd_feat d) (map fst r) -> unset (g_fcm g2) d)).
  { intros d Hd. split.
    - intros Hr z rr Hz. pose proof (Ic d z rr Hd Hz) as Hzn. apply in_map_iff in Hr as ([f' w] & Ef & Hw). cbn in Ef. subst f'.
      destruct (Rc _ _ Hw) as (_ & c' & Hc' & Hn). destruct (grp_In cf Hsep ds targets fds Plain D d Hd) as (c2 & Hc2 & _ & X).
      assert (c2 = c') by (eapply col_unique; eauto). subst c2. pose proof (nth_error_In _ _ Hn) as Hwi.
      assert (Pw : plain_cell w) by (eapply plain_cells; eauto).
      assert (Vz : value (g_fcm g2) z = option_map (fun x => if String.eqb z (append (cell_str w) (append "___" (fd_feat d))) then n1 else x) (value (g_fcm g1) z)).
      { apply (row_sets cf Hsep fds r g1 g2 d w (cell_str w) z (tr_tidy _ T1)); auto; [rewrite (tr_func _ T1); now apply (common_plain ac kw)|now apply types|now apply text_plain]. }
      assert (Izc : In z (concepts (g_fcm g))) by (apply (td_concepts _ _ Td); eauto).
      rewrite (V1 z Izc) in Vz. cbn [option_map] in Vz. rewrite <- CE1, <- CE2 in Izc.
      assert (Rw : In (append (cell_str w) (append "___" (fd_feat d)), b1) (grp d)).
      { apply X. exists w. split; auto. split; auto. symmetry. now apply (Hb1 (fd_feat d)). }
      split; intros Er.
      + subst rr. pose proof (grp_block_inj cf Hsep ds targets fds Plain D d _ _ b1 Hd Hz Rw) as Ez. rewrite <- Ez, String.eqb_refl in Vz. now apply synced_initial.
      + destruct (String.eqb_spec z (append (cell_str w) (append "___" (fd_feat d)))) as [Ez|_]; [|now apply synced_initial].
        exfalso. apply Er. rewrite Ez in Hz. exact (row_of fds NN Ln d _ rr b1 Hd Hz Rw).
    - intros Hr z rr Hz. pose proof (Ic d z rr Hd Hz) as Hzn. assert (Izc : In z (concepts (g_fcm g))) by (apply (td_concepts _ _ Td); eauto).
      assert (Vz : value (g_fcm g2) z = value (g_fcm g1) z) by (apply (row_other cf Hsep fds r d z g1 g2 (Ok tt) (tr_tidy _ T1)); auto; apply Good).
      rewrite (V1 z Izc) in Vz. rewrite <- CE1, <- CE2 in Izc. now apply synced_initial. }
  (* the run *)
  destruct (result_spec cf Hsep fds g2 g' p (tr_tidy _ T2) (tr_sane _ T2) HP) as (Er & _ & Ep).
  pose proof (moved_result cf g2) as M3. rewrite HP in M3. cbn [fst] in M3. pose proof (trained_moved _ _ M3 T2) as T3.
  assert (Tl2 : telling ac kw (reach xc * (1 + Rabs (c_excl cf)) * INR (S (length (concepts (g_fcm g2)))))) by (rewrite (tr_size _ T2); exact Tl).
  assert (Db : m_debug (g_fcm g2) = m_debug (g_fcm g)).
  { pose proof (moved_wframe _ _ (moved_trans _ _ _ M1 M2)) as (_ & _ & W3). now apply settings_max in W3. }
  destruct r as [|[f0 v0] rest] eqn:Er0; [congruence|]. rewrite <- Er0 in *. assert (H0r : In (f0, v0) r) by (rewrite Er0; now left).
  destruct (Rc f0 v0 H0r) as (Nt0 & c0 & Hc0 & Hn0). destruct (feat_desc f0 c0 Hc0) as (d0 & Hd0 & Ef0).
  assert (S0 : set_from (g_fcm g2) b1 d0) by (apply (St d0 Hd0); rewrite Ef0; apply in_map_iff; exists (f0, v0); auto).
  assert (Td0 : fd_target d0 = false).
  { destruct (types d0 Hd0) as (_ & -> & _). rewrite Ef0. destruct (str_mem f0 targets) eqn:X; auto. apply str_mem_In in X. contradiction. }
  assert (Std : forall d, In d fds -> set_from (g_fcm g2) b1 d \/ unset (g_fcm g2) d).
  { intros d Hd. destruct (St d Hd) as [A1 A2]. destruct (in_dec string_dec (fd_feat d) (map fst r)); auto. }
  assert (Oc : exists L x k2 f2, outcome (g_fcm g2) (g_fcm g') L x k2 f2).
  { destruct (tr_engine _ T2) as [[E1 E3]|[E1 E3]].
    - apply iter_outcome; auto. apply T2.
    - apply vec_outcome; auto; try apply T2.
      + apply (common_regular _ b xc ac kw); auto; apply T2.
      + apply (common_responsive _ b xc ac kw); auto; apply T2.
      + intros X. destruct (grp_ne cf Hsep ds targets n fds Plain Sepd Some_rows D d0 Hd0) as (a & rr & Ha).
        assert (Y : In a (concepts (g_fcm g2))) by (apply (td_concepts _ _ (tr_tidy _ T2)); exists d0; split; auto; eapply Ic; eauto). rewrite X in Y. exact Y.
      + intros L x Orb Sx t z Ht Hz.
        assert (Rg : -1 <= x t z <= 1); [|lra].
        assert (Fk : In z (flat_map fd_names fds)) by (rewrite <- (td_all _ _ (tr_tidy _ T2)); exact Hz).
        destruct t as [|t].
        * apply in_flat_map in Fk as (d & Hd & Fk). rewrite <- (grp_names fds Ln d Hd) in Fk. apply in_map_iff in Fk as ([z' rr] & Ez & Hzr). cbn in Ez. subst z'.
          pose proof (Sx z Hz) as Sz. destruct (Std d Hd) as [Y|Y].
          -- destruct (Y z rr Hzr) as [Y1 Y2]. destruct (list_eq_dec Req_EM_T rr b1) as [Q|Q]; [rewrite (Y1 Q) in Sz|rewrite (Y2 Q) in Sz]; injection Sz as <-; lra.
          -- rewrite (Y z rr Hzr) in Sz. injection Sz as <-. lra.
        * unfold concepts in Hz. apply dget_Some_In in Hz as [nd Hnd]. pose proof (Orb t z nd Ht Hnd) as Nx.
          apply (common_step _ b xc ac kw (tr_sane _ T2) (tr_common _ T2) Hc (tr_nodup _ T2)) in Nx; auto. destruct Nx as (fn & F1 & F2). exact (telling_range _ _ _ _ _ _ Tl2 F1 F2). }
  destruct Oc as (L & x & k2 & f2 & Oc).
  (* the winning class *)
  destruct (feat_desc f c Hf) as (d & Hd & Ef). destruct (grp_In cf Hsep ds targets fds Plain D d Hd) as (c2 & Hc2 & _ & X).
  rewrite Ef in Hc2. assert (c2 = c) by (eapply col_unique; eauto). subst c2. pose proof (nth_error_In _ _ Hv) as Hvi.
  assert (Pv : plain_cell v) by (eapply plain_cells; eauto).
  set (wn := append (cell_str v) (append "___" (fd_feat d))) in *.
  assert (Hw : In (wn, b1) (grp d)) by (apply X; exists v; split; auto; split; auto; symmetry; now apply (Hb1 f)).
  assert (Cls : is_class d = true) by (destruct (types d Hd) as (_ & _ & ->); rewrite Ef; now apply str_mem_In).
  assert (Tgt : fd_target d = true) by (destruct (types d Hd) as (_ & -> & _); rewrite Ef; now apply str_mem_In).
  assert (Own1 : c_excl cf <= memw b) by (destruct Own as [[_ Q]|[_ Q]]; lra).
  assert (Dec : (m_decision (g_fcm g2) = "LAST" /\ c_excl cf < memw b) \/ (m_decision (g_fcm g2) = "MEAN" /\ (m_debug (g_fcm g2) = true \/ m_oob (g_fcm g') = false))).
  { rewrite (tr_decision _ T2), Db. destruct Own as [[Q1 Q2]|[Q1 Q2]]; [left; auto|right; auto]. }
  assert (Hex : (0 <= m_extra (g_fcm g2))%Z) by (destruct (sane_parts _ (tr_sane _ T2)) as (_ & _ & _ & _ & _ & Q); lia).
  pose proof (winner cf Hsep Ev Th Ca Sg ds targets n fds Plain Freq Sepd Some_rows D NN (td_feats _ _ Td) Ln (g_fcm g2) (g_fcm g') b xc ac kw (tr_sane _ T2) (tr_common _ T2) Hc Tl2
    (td_all _ _ (tr_tidy _ T2)) (tr_nodup _ T2) (tr_rels _ T2) L x k2 f2 Oc b1 Std d0 Hd0 Td0 S0 Own1 Dec Hex d wn) as Win.
  pose proof (value_bound cf n fds Some_rows Ln (g_fcm g2) (g_fcm g') b xc ac kw (tr_sane _ T2) (tr_common _ T2) Hc Tl2 (td_all _ _ (tr_tidy _ T2)) (tr_nodup _ T2) L x k2 f2 Oc b1 Std) as Vb.
  assert (Best : fst (best_class (outs_of cf (g_fcm g') d)) = cell_str v).
  { assert (Tx : text_of cf wn = cell_str v).
    { unfold text_of, wn. rewrite (info_name cf Hsep); auto; [eapply cell_read; eauto|apply (td_clean _ _ Td d Hd)]. }
    apply best_unique with (v := val (g_fcm g') wn).
    - unfold outs_of. rewrite <- Tx. apply in_map_iff. exists wn. split; auto. eapply Ic; eauto.
    - intros z Hz. unfold outs_of in Hz. apply in_map_iff in Hz as (z' & <- & Hz). cbn [snd].
      assert (Iz : In z' (concepts (g_fcm g2))) by (apply (td_concepts _ _ (tr_tidy _ T2)); eauto).
      destruct (oc_value _ _ _ _ _ _ Oc z' Iz) as (_ & w & _ & _ & Vw). unfold val. rewrite Vw. exact (Vb z' w Iz Vw).
    - intros t' v' Hin Ne. unfold outs_of in Hin. apply in_map_iff in Hin as (z & E & Hz). injection E as <- <-.
      rewrite <- (grp_names fds Ln d Hd) in Hz. apply in_map_iff in Hz as ([z' rr] & Ez & Hz). cbn in Ez. subst z'.
      assert (Nr : rr <> b1).
      { intros ->. apply Ne. rewrite <- Tx. f_equal. exact (grp_block_inj cf Hsep ds targets fds Plain D d _ _ b1 Hd Hz Hw). }
      destruct (Win z rr Hd Tgt Hw Hz Nr) as (w & w' & W1 & W2 & W3). unfold val. rewrite W1, W2. exact W3. }
  rewrite labels_row, Ep, (label_text v Pv). clear - Hd Cls Best Ef Hw Ic Td.
  pose proof (td_feats _ _ Td) as Nf. pose proof (Ic d wn b1 Hd Hw) as Hne. clear Ic Td Hw.
  induction fds as [|z l IH]; [easy|]. cbn [map] in Nf. apply NoDup_cons_iff in Nf as [Nz Nf]. cbn [flat_map]. rewrite flat_map_app.
  assert (Rest : forall (q : fdesc R) (l : list (fdesc R)), fd_feat q = f -> ~ In (fd_feat q) (map fd_feat l) -> flat_map (fun fv : string * cell R => if String.eqb f (fst fv) then [snd fv] else [])
     (flat_map (fun d1 => if is_class d1 then match fd_names d1 with [] => [] | _ :: _ => [(fd_feat d1, class_cell (fst (best_class (outs_of cf (g_fcm g') d1))))] end else []) l) = []).
  { intros q l' Eq Nq. rewrite Eq in Nq. clear IH. induction l' as [|z' l' IH]; auto. cbn [flat_map]. rewrite flat_map_app, IH by (intros Y; apply Nq; now right).
    destruct (is_class z'); auto. destruct (fd_names z'); auto. cbn [flat_map fst]. destruct (String.eqb_spec f (fd_feat z')) as [Y|_]; auto. exfalso. apply Nq. left. auto. }
  destruct Hd as [->|Hd].
  - rewrite (Rest d l Ef Nz), Cls. destruct (fd_names d); [easy|]. cbn [flat_map fst snd]. rewrite Ef, String.eqb_refl, Best. reflexivity.
  - rewrite IH by auto. assert (Ne : f <> fd_feat z) by (intros E; apply Nz; rewrite <- E, <- Ef; now apply in_map). apply String.eqb_neq in Ne.
    destruct (is_class z); auto. destruct (fd_names z); auto. cbn [flat_map fst]. now rewrite Ne.
Qed.

(** ** Tables *)
Lemma rows_right idx rows : Forall2 row_of_sample idx rows -> forall g acc g' out, trained g -> predict_rows cf rows acc g = (g', Ok out) ->
  (de = "MEAN" -> m_debug (g_fcm g) = true \/ m_oob (g_fcm g') = false) ->
  forall f c, In (f, c) ds -> In f targets -> labels out f = labels acc f ++ map label (pick idx (col_cells c)).
Proof.
  induction 1 as [|i r idx rows H1 _ IH]; intros g acc g' out T HP Ho f c Hf Ht; cbn [predict_rows] in HP.
  - injection HP as _ <-. cbn. now rewrite app_nil_r.
  - pose proof (moved_predict cf r g) as M. destruct (predict_row cf r g) as [g1 [p|er]] eqn:E; [|discriminate]. cbn [fst] in M.
    pose proof (moved_predict_rows cf rows (append_all acc p) g1) as M2. rewrite HP in M2. cbn [fst] in M2.
    assert (Db : m_debug (g_fcm g1) = m_debug (g_fcm g)) by (pose proof (moved_wframe _ _ M) as (_ & _ & W3); now apply settings_max in W3).
    assert (Hi : (i < n)%nat) by apply H1. destruct (nth_error (col_cells c) i) as [v|] eqn:Ev'.
    2: { apply nth_error_None in Ev'. rewrite (cells_len ds n Sepd f c Hf) in Ev'. lia. }
    rewrite (IH g1 (append_all acc p) g' out (trained_moved _ _ M T) HP) with (c := c); auto.
    + cbn [pick flat_map]. rewrite Ev'. cbn [app map]. rewrite labels_all, <- (labels_row p f).
      rewrite (row_right i r g g1 p T H1 E) with (c := c) (v := v); auto; [now rewrite <- app_assoc|].
      intros De. destruct (Ho De) as [Q|Q]; auto. right. now apply (moved_oob _ _ M2).
    + now rewrite Db.
Qed.
Lemma col_cells_length (c : column R) : length (col_cells c) = col_length c.
Proof. destruct c; cbn; now rewrite map_length. Qed.
Lemma pick_valid {A} src (l : list A) : pick (filter (fun i => Nat.ltb i (length l)) src) l = pick src l.
Proof.
  unfold pick. induction src as [|i src IH]; auto. cbn [filter]. destruct (Nat.ltb_spec i (length l)) as [H|H]; cbn [flat_map]; rewrite IH; auto.
  now rewrite (proj2 (nth_error_None l i)).
Qed.
Lemma pick_nth {A} idx (l : list A) : Forall (fun i => (i < length l)%nat) idx -> length (pick idx l) = length idx /\
  forall j i, nth_error idx j = Some i -> nth_error (pick idx l) j = nth_error l i.
Proof.
  unfold pick. induction 1 as [|i idx Hi _ [IH1 IH2]]; [split; auto; intros [|j] i; discriminate|]. cbn [flat_map].
  destruct (nth_error l i) as [a|] eqn:E; [|apply nth_error_None in E; lia]. cbn [app length]. split; [now rewrite IH1|].
  intros [|j] i' Hj; cbn in Hj |- *; [injection Hj as <-; now rewrite E|auto].
Qed.
Lemma Forall2_seq {A B} (P : A -> B -> Prop) idx (g : nat -> B) : (forall j i, nth_error idx j = Some i -> P i (g j)) -> Forall2 P idx (map g (seq 0 (length idx))).
Proof.
  revert g. induction idx as [|i idx IH]; intros g H; cbn [length seq map]; constructor; [now apply (H 0%nat)|].
  rewrite <- seq_shift, map_map. apply IH. intros j i' Hj. now apply (H (S j)).
Qed.
Variable x : dataset R.
Hypothesis Hx : forall f c, In (f, c) x -> In (f, c) ds /\ ~ In f targets.
Lemma part_rows src x' : part_of src x' x -> exists idx, Forall2 row_of_sample idx (iterrows x') /\ forall f c, In (f, c) ds -> pick idx (col_cells c) = pick src (col_cells c).
Proof.
  intros (Hne & Hnd & Hcol). set (idx := filter (fun i => Nat.ltb i n) src). exists idx.
  assert (Val : forall f c, In (f, c) ds -> Forall (fun i => (i < length (col_cells c))%nat) idx).
  { intros f c Hf. apply Forall_forall. intros i Hi. apply filter_In in Hi as [_ Hi]. apply Nat.ltb_lt in Hi. now rewrite (cells_len ds n Sepd f c Hf). }
  assert (Pk : forall f c, In (f, c) ds -> pick idx (col_cells c) = pick src (col_cells c)).
  { intros f c Hf. rewrite <- (pick_valid src (col_cells c)), (cells_len ds n Sepd f c Hf). reflexivity. }
  split; auto. unfold iterrows.
  assert (Len : forall f c', In (f, c') x' -> col_length c' = length idx).
  { intros f c' Hf. destruct (Hcol f c' Hf) as (c & Hc' & Ec). destruct (Hx f c Hc') as [Hd _]. rewrite <- col_cells_length, Ec, <- (Pk f c Hd).
    now apply (pick_nth idx (col_cells c) (Val f c Hd)). }
  assert (Fr : frame_rows x' = length idx).
  { destruct x' as [|[f c'] rest]; [congruence|]. cbn [frame_rows]. apply (Len f c'). now left. }
  rewrite Fr. apply Forall2_seq. intros j i Hj.
  assert (Hi : (i < n)%nat) by (apply nth_error_In in Hj; apply filter_In in Hj as [_ Hj]; now apply Nat.ltb_lt in Hj).
  assert (Cell : forall f c', In (f, c') x' -> exists c v, In (f, c) x /\ nth_error (col_cells c) i = Some v /\ nth_error (col_cells c') j = Some v /\ plain_cell v).
  { intros f c' Hf. destruct (Hcol f c' Hf) as (c & Hc' & Ec). destruct (Hx f c Hc') as [Hd _].
    destruct (nth_error (col_cells c) i) as [v|] eqn:E; [|apply nth_error_None in E; rewrite (cells_len ds n Sepd f c Hd) in E; lia].
    exists c, v. split; auto. split; auto. split; [|eapply plain_cells; eauto; now apply nth_error_In in E].
    rewrite Ec, <- (Pk f c Hd), <- E. now apply (pick_nth idx (col_cells c) (Val f c Hd)). }
  assert (NoF : existsb (fun c : string * column R => is_float_col (snd c)) x' = false).
  { destruct (existsb _ x') eqn:E; auto. apply existsb_exists in E as ([f c'] & Hf & E). cbn [snd] in E.
    destruct (Cell f c' Hf) as (c & v & _ & _ & Hv & Pv). destruct c' as [l|l|l|l]; try discriminate. cbn [col_cells] in Hv.
    apply nth_error_In in Hv. apply in_map_iff in Hv as (q & <- & _). now elim Pv. }
  rewrite NoF, andb_false_r.
  assert (Rows : forall l, incl l x' -> map fst (flat_map (fun c : string * column R => match nth_error (col_cells (snd c)) j with Some v => [(fst c, upcast false v)] | None => [] end) l) = dkeys l).
  { induction l as [|[f c'] l IH]; intros Hl; auto. cbn [flat_map]. destruct (Cell f c' (Hl _ (or_introl eq_refl))) as (c & v & _ & _ & Hv & _). cbn [snd fst]. rewrite Hv.
    cbn [app map fst dkeys]. f_equal. apply IH. intros z Hz. apply Hl. now right. }
  split; auto. split; [|split].
  - intros E. specialize (Rows x' (incl_refl _)). rewrite E in Rows. cbn in Rows. destruct x'; [congruence|discriminate].
  - rewrite Rows by apply incl_refl. exact Hnd.
  - intros f v Hv. apply in_flat_map in Hv as ([f' c'] & Hf & Hv). cbn [fst snd] in Hv. destruct (Cell f' c' Hf) as (c & w & Hcx & Hw1 & Hw2 & Pw).
    rewrite Hw2 in Hv. destruct Hv as [Hv|[]]. assert (Ew : upcast false w = w) by (destruct w; reflexivity). rewrite Ew in Hv. injection Hv as <- <-.
    destruct (Hx f' c Hcx) as [Hd Hn]. split; auto. exists c. auto.
Qed.
End Rows.
