(** EstFacts9.v — when predicting and refitting succeed with the vectorized engine (C76, C77). *)
From Coq Require Import Permutation.
From Verif Require Import Base BaseFacts Num Functions Fcm FcmSpec DynSpec FcmInv FcmInv2 FcmInv3 FcmIter FcmRun FcmRun2 FcmRun3 FcmTotal VecSpec FcmVec6 LearnUtils LearnSpec LearnFacts Assoc AssocSpec AssocFacts AssocFacts2 AssocFacts3 AssocNames AssocNames2 Estimator EstFacts EstFacts2 EstFacts3 EstSpec EstFacts4 AssocGen AssocPredict AssocResult AssocRow EstFacts5 EstFacts6 EstFacts7.

Section VecEst.
Context {F : Type} {N : Num F}.
Implicit Types (g : gen F) (s : fcm F).
Hypothesis zero_two : neqb (n0 : F) n2 = false.
Hypothesis one_two : neqb (n1 : F) n2 = false.

(** histories of one value, 0 or 1 *)
Definition binary s : Prop := forall c h, dget (m_exec s) c = Some h -> h = [n0] \/ h = [n1].
(** every concept has a function that always answers *)
Definition plain s : Prop := forall c n, dget (m_topo s) c = Some n ->
  exists f a, nd_func n = Some f /\ nd_args n = Some a /\ callable f a.
Definition discrete_gen g : Prop := forall f d, dget (g_feats g) f = Some d -> forall t, f_type d = Some t -> is_fuzzy_type t = false.

Lemma callable_plain (f : string) (a : args F) : callable f a -> f <> "fuzzy".
Proof. intros Hc E. rewrite E in Hc. destruct Hc as [[H _]|[[H _]|[[H _]|[H _]]]]; cbn in H; intuition discriminate. Qed.
Lemma plain_responsive s : plain s -> vec_responsive s.
Proof. intros H c n x Hn. destruct (H c n Hn) as (f & a & Hf & Ha & C). now apply (vec_callable_answers n f a). Qed.
Lemma plain_moved g g' : moved g g' -> plain (g_fcm g) -> plain (g_fcm g').
Proof.
  intros M P c n Hn. destruct (moved_wframe _ _ M) as (W & _). symmetry in W. destruct (statics_dget _ _ c n W Hn) as (n' & Hn' & En).
  destruct (P c n' Hn') as (f & a & Hf & Ha & C). exists f, a. 
  pose proof (f_equal nd_func En) as E1. pose proof (f_equal nd_args En) as E2. cbn in E1, E2. repeat split; congruence.
Qed.
Lemma discrete_moved g g' : moved g g' -> discrete_gen g -> discrete_gen g'.
Proof. intros (M & _) D f d. rewrite M. apply D. Qed.
Lemma binary_clear s : sane s -> binary (fst (clear_execution s)).
Proof.
  intros S c h Hh. destruct (clear_values s) as [_ C].
  assert (S' : sane (fst (clear_execution s))) by (apply (from_fresh_snoc s OpClearExec S eq_refl)).
  destruct (sane_parts _ S') as (_ & _ & K & _).
  assert (Hc : In c (concepts s)).
  { unfold concepts. pose proof (clear_exec_frame s) as (W & _). rewrite <- (statics_keys _ _ W), <- K. apply dget_Some_In. eauto. }
  destruct (C c Hc) as [_ X]. unfold history in X. rewrite X in Hh. injection Hh as <-. now left.
Qed.
Lemma binary_one c s : plain s -> binary s -> binary (fst (init_concept c n1 false s)).
Proof.
  intros P B. unfold init_concept. destruct (dget (m_topo s) c) as [n|] eqn:E; [|exact B].
  destruct (P c n E) as (f & a & Hf & _ & C). rewrite Hf. cbn [oget rbind].
  destruct (String.eqb_spec f "fuzzy") as [X|_]; [now apply callable_plain in C|]. cbn [rbind fst].
  intros c' h. cbn [m_exec put_node put_exec set_topo set_exec]. rewrite dget_dset. destruct (String.eqb c' c); [intros [= <-]; now right|apply B].
Qed.
Lemma binary_cell cf f v g : discrete_gen g -> plain (g_fcm g) -> binary (g_fcm g) -> binary (g_fcm (fst (init_concept_by_feature_data cf f v g))).
Proof.
  intros D P B. unfold init_concept_by_feature_data, swith, get_type, dget_exn.
  destruct (dget (g_feats g) f) as [d|] eqn:E; [|exact B]. cbn [rbind]. destruct (f_type d) as [t|] eqn:Et; [|exact B]. cbn [oget].
  specialize (D f d E t Et). unfold is_fuzzy_type in D. rewrite D. destruct (cell_text cf v) as [x|er]; [|exact B].
  unfold on_fcm. pose proof (binary_one (name_concept cf f x) (g_fcm g) P B) as X. destruct (init_concept _ _ _ _) as [s r]. cbn [fst] in X |- *. exact X.
Qed.
Lemma binary_row cf r : forall g, discrete_gen g -> plain (g_fcm g) -> binary (g_fcm g) -> binary (g_fcm (fst (set_row cf r g))).
Proof.
  unfold set_row. induction r as [|[f v] r IH]; intros g D P B; [exact B|]. cbn [sfold fst snd].
  pose proof (binary_cell cf f v g D P B) as X. pose proof (moved_init cf f v g) as M.
  destruct (init_concept_by_feature_data cf f v g) as [g1 [u|er]]; cbn [fst] in *; [|exact X].
  apply IH; auto; [eapply discrete_moved; eauto|eapply plain_moved; eauto].
Qed.
Lemma binary_hist s : binary s -> hist_ne s.
Proof. intros B c h Hh ->. destruct (B c _ Hh); discriminate. Qed.
Lemma binary_initial s c : sane s -> binary s -> In c (concepts s) -> exists v, initial s c = Some v /\ neqb v n2 = false.
Proof.
  intros S B Hc. destruct (sane_parts _ S) as (_ & _ & K & _). unfold concepts in Hc. rewrite <- K in Hc. apply dget_Some_In in Hc as [h Hh].
  unfold initial, history. rewrite Hh. destruct (B c h Hh) as [->| ->]; eauto.
Qed.

Section Rows.
Variables (g : gen F).
Hypothesis Hs : sane (g_fcm g).
Hypothesis Hd : m_debug (g_fcm g) = false.
Hypothesis Hm : (2 <= m_maxit (g_fcm g))%Z.
Hypothesis Hp : plain (g_fcm g).
Hypothesis Hg : discrete_gen g.
Hypothesis Hc : concepts (g_fcm g) <> [].
(** the map when a row has been set *)
Lemma row_ready cf r : let g' := fst (sthen (on_fcm clear_execution) (set_row cf r) g) in
  moved g g' /\ sane (g_fcm g') /\ m_debug (g_fcm g') = false /\ (2 <= m_maxit (g_fcm g'))%Z /\ plain (g_fcm g') /\ binary (g_fcm g') /\
  exists c0 v, hd_error (concepts (g_fcm g')) = Some c0 /\ initial (g_fcm g') c0 = Some v /\ neqb v n2 = false.
Proof.
  unfold sthen. pose proof (moved_on OpClearExec g eq_refl) as M1. change (step OpClearExec) with (clear_execution (F := F)) in M1.
  assert (B1 : binary (g_fcm (fst (on_fcm clear_execution g)))).
  { unfold on_fcm. pose proof (binary_clear _ Hs) as X. destruct (clear_execution (g_fcm g)). exact X. }
  assert (O1 : snd (on_fcm clear_execution g) = Ok tt).
  { unfold on_fcm. pose proof (proj1 (clear_values (g_fcm g))) as C. destruct (clear_execution (g_fcm g)); exact C. }
  destruct (on_fcm clear_execution g) as [g1 r1]. cbn [fst snd] in *. subst r1.
  pose proof (moved_trans _ _ _ M1 (moved_set_row cf r g1)) as M.
  pose proof (binary_row cf r g1 (discrete_moved _ _ M1 Hg) (plain_moved _ _ M1 Hp) B1) as B.
  destruct (set_row cf r g1) as [g' r']. cbn [fst] in *.
  pose proof (moved_wframe _ _ M) as (W1 & _ & W3). pose proof (settings_max _ _ W3) as (X1 & _ & _ & _ & _ & X2).
  pose proof (moved_sane _ _ M Hs) as S'.
  split; auto. split; auto. split; [congruence|]. split; [congruence|]. split; [eapply plain_moved; eauto|]. split; auto.
  assert (CE : concepts (g_fcm g') = concepts (g_fcm g)) by exact (statics_keys _ _ W1).
  destruct (concepts (g_fcm g')) as [|c0 cs] eqn:Ec; [congruence|]. exists c0.
  destruct (binary_initial (g_fcm g') c0 S' B) as (v & Hv & Hv2); [rewrite Ec; now left|]. exists v. auto.
Qed.
Lemma row_hist cf r : hist_ne (g_fcm (fst (predict_row cf r g))).
Proof.
  unfold predict_row. pose proof (row_ready cf r) as X. cbv zeta in X. unfold set_row in X.
  destruct (sthen _ _ g) as [g1 [u|er]]; cbn [fst] in X.
  - destruct X as (M & S1 & D1 & M1 & P1 & B1 & c0 & v & H0 & Hv & Hv2).
    assert (Y : hist_ne (fst (run_inference true (g_fcm g1)))).
    { apply (vec_run_hist (g_fcm g1) c0 v); auto; [|now apply plain_responsive].
      intros c Hcc. destruct (binary_initial _ c S1 B1 Hcc) as (w & -> & _). discriminate. }
    unfold get_inference_result, on_fcm. destruct (run_inference true (g_fcm g1)) as [s' [u'|er]]; cbn [fst] in Y |- *; [|exact Y].
    exact Y.
  - cbn [fst]. apply binary_hist. apply X.
Qed.
End Rows.

Definition steady g : Prop := sane (g_fcm g) /\ m_debug (g_fcm g) = false /\ (2 <= m_maxit (g_fcm g))%Z /\ plain (g_fcm g) /\ discrete_gen g /\ concepts (g_fcm g) <> [].
Lemma steady_moved g g' : moved g g' -> steady g -> steady g'.
Proof.
  intros M (S & D & Mx & P & G & C). pose proof (moved_wframe _ _ M) as (W1 & _ & W3). pose proof (settings_max _ _ W3) as (X1 & _ & _ & _ & _ & X2).
  split; [eapply moved_sane; eauto|]. split; [congruence|]. split; [congruence|]. split; [eapply plain_moved; eauto|].
  split; [eapply discrete_moved; eauto|]. unfold concepts in *. now rewrite (statics_keys _ _ W1).
Qed.
Lemma rows_hist cf rows : forall g acc, steady g -> hist_ne (g_fcm g) -> hist_ne (g_fcm (fst (predict_rows cf rows acc g))).
Proof.
  induction rows as [|r rows IH]; intros g acc St Hn; [exact Hn|]. cbn [predict_rows].
  assert (X : hist_ne (g_fcm (fst (predict_row cf r g)))) by (destruct St as (S & D & Mx & P & G & C); now apply row_hist).
  pose proof (moved_predict cf r g) as M. destruct (predict_row cf r g) as [g1 [p|er]]; cbn [fst] in *; [|exact X].
  apply IH; auto. eapply steady_moved; eauto.
Qed.
Lemma use_hist l : forall e, forallb (fun c => negb (is_fit (F := F) c)) l = true -> e_priv e = None -> steady (e_gen e) -> hist_ne (e_map e) -> hist_ne (e_map (eruns l e)).
Proof.
  induction l as [|c l IH]; intros e Hl P St Hn; [exact Hn|]. cbn [forallb] in Hl. apply andb_true_iff in Hl as [H1 H2].
  unfold eruns. cbn [fold_left].
  assert (Q : forall cf x, hist_ne (e_map (fst (predict cf x e))) /\ moved (e_gen e) (e_gen (fst (predict cf x e))) /\ e_priv (fst (predict cf x e)) = None).
  { intros cf x. destruct (predict_moved cf x e P) as (Mv & Pv & _). split; auto. unfold predict. destruct (e_generated e); [|exact Hn].
    pose proof (rows_hist cf (iterrows x) (e_gen e) [] St) as Y. assert (Eg : g_fcm (e_gen e) = e_map e) by (unfold e_gen; now rewrite P). rewrite Eg in Y.
    specialize (Y Hn). destruct (predict_rows _ _ _ _) as [g' r]. exact Y. }
  assert (Z : hist_ne (e_map (fst (edo c e))) /\ moved (e_gen e) (e_gen (fst (edo c e))) /\ e_priv (fst (edo c e)) = None).
  { destruct c as [cf x y|cf x|cf x y]; [discriminate| |]; cbn [edo].
    - specialize (Q cf x). destruct (predict cf x e). exact Q.
    - pose proof (score_est cf x y e) as Es. destruct (score cf x y e) as [e1 r]. cbn in Es |- *. rewrite Es.
      destruct (e_generated e); [apply Q|]. split; [exact Hn|]. split; [apply moved_refl|auto]. }
  destruct Z as (Z1 & Z2 & Z3). apply IH; auto. eapply steady_moved; eauto.
Qed.

(** ** After fitting *)
Lemma building_hist o s : is_building o = true -> hist_ne s -> hist_ne (fst (step o s)).
Proof.
  intros Ho H. destruct o; try discriminate; cbn [step].
  - unfold add_concept. destruct (build_node _ _ _ _ _ _ _ _) as [nd [u|e]]; [|exact H].
    intros c h Hh. cbn in Hh. rewrite dget_dset in Hh. destruct (String.eqb c name); [injection Hh as <-; discriminate|eapply H; eauto].
  - unfold add_relation. cbn [m_topo set_prepared].
    destruct (dget (m_topo s) destiny); [|exact H]. destruct (dget (m_topo s) origin); [|exact H].
    destruct (dget _ destiny); [|exact H].
    match goal with |- context [match ?m with Ok _ => _ | Err _ => _ end] => destruct m end; exact H.
Qed.
Lemma buildings_hist ops : forall s, forallb is_building ops = true -> hist_ne s -> hist_ne (run_ops ops s).
Proof.
  induction ops as [|o l IH]; intros s Ho H; [exact H|]. cbn [forallb] in Ho. apply andb_true_iff in Ho as [H1 H2].
  unfold run_ops. cbn [fold_left]. apply IH; auto. now apply building_hist.
Qed.
Lemma fit_hist cf x y e0 e e' : estimator e0 e -> fit cf x y e = (e', Ok tt) -> hist_ne (e_map e').
Proof.
  intros HE HF. destruct (fit_built cf x y e0 e e' HE HF) as (s & g' & _ & (_ & B & _) & Hb & _ & -> & _).
  destruct (build_keeps cf (join_frames x y) (dkeys y) s (mkGen [] [] s)) as (ops & Bu & E & _). rewrite Hb in E. cbn [fst] in E. rewrite E.
  apply buildings_hist; auto. intros c h. rewrite B. discriminate.
Qed.
Lemma levels_some cf c texts rows : levels cf c texts rows -> 0 < col_length c -> texts <> [].
Proof.
  intros L H. destruct L as [l us D|l us D|l us D|l us]; cbn [col_length] in H; (destruct l as [|a l]; [cbn in H; lia|]).
  - destruct D as [_ D]. intros ->. apply (proj2 (D a)). now left.
  - destruct D as [_ D]. intros E. apply map_eq_nil in E. subst. apply (proj2 (D a)). now left.
  - destruct D as [_ D]. intros E. apply map_eq_nil in E. subst. apply (proj2 (D a)). now left.
  - intros E. apply map_eq_nil in E. unfold us, unique in E. cbn [fold_right] in E. destruct (fold_right _ [] l) as [|b t]; cbn [uinsert] in E; [discriminate|].
    destruct (neqb a b); [discriminate|]. destruct (nleb a b); discriminate.
Qed.

Section Fitted.
Variable cf : gconf F.
Hypothesis Hsep : c_sep cf = "___".
Hypothesis HO : reorders (c_ord cf).
Hypothesis mul_comm : forall a b : F, nmul a b = nmul b a.
Variables (mi ex : Z) (sd : F) (de : string) (me : bool) (xc ac : string) (kw : args F) (e0 e e' : est F) (x y : dataset F).
Hypothesis H0 : init_est mi ex sd de me xc ac kw true = Ok e0.
Hypothesis Hmi : (2 <= mi)%Z.
Hypothesis Hc : callable ac kw.
Hypothesis HH : healthy e0 e.
Hypothesis RD : readable_data cf (join_frames x y).
Hypothesis Ds : forall f c, In (f, c) (join_frames x y) -> exists texts rows, levels cf c texts rows /\ is_discrete cf c texts.
Hypothesis Some_row : exists f c, In (f, c) (join_frames x y) /\ 0 < col_length c.
Hypothesis HF : fit cf x y e = (e', Ok tt).

Lemma fit_steady : exists fds, tidy fds (e_gen e') /\ (forall d, In d fds -> is_fuzzy_type (fd_type d) = false) /\
  map fd_feat fds = dkeys (join_frames x y) /\ steady (e_gen e') /\ g_fcm (e_gen e') = e_map e' /\ e_priv e' = None /\ e_generated e' = true /\
  m_decision (e_map e') = de /\ dc_func (m_default (e_map e')) = ac /\ dc_args (m_default (e_map e')) = kw.
Proof.
  pose proof (healthy_estimator _ _ HH) as HE. pose proof (healthy_fit _ _ _ _ _ _ HH HF) as H1. pose proof (healthy_sane _ _ H1) as S1.
  destruct (fit_tidy cf Hsep x y e0 e e' HO mul_comm HE RD HF) as (fds & T & D & Nn & Ln & Eg & _).
  destruct (fit_built cf x y e0 e e' HE HF) as (_ & _ & _ & _ & _ & _ & _ & Pn & G1).
  destruct (estimator_state _ _ (healthy_estimator _ _ H1)) as (_ & St & _). pose proof (est_settings _ _ St) as Se.
  pose proof (settings_max _ _ Se) as (Sm & _ & _ & _ & Sd & Sb). pose proof (settings_fit _ _ Se) as [_ Sf].
  destruct (init_default _ _ _ _ _ _ _ _ _ _ H0) as (I1 & I2 & I3).
  destruct (init_est_spec _ _ _ _ _ _ _ _ _ _ H0) as (_ & _ & _ & Db & s0 & ops & Is & Em & Eo).
  assert (Mi : m_maxit (e_map e0) = mi).
  { rewrite Em, Eo. apply init_fcm_shape in Is as (-> & _). unfold run_ops. cbn [fold_left step fst].
    unfold set_default_concept_properties. destruct (update_default _ _ _ _ _ _ _ _ _); reflexivity. }
  assert (Fz : forall d, In d fds -> is_fuzzy_type (fd_type d) = false).
  { intros d Hd. destruct (Forall2_In_r _ _ _ _ D Hd) as ([f c] & Hi & Hde). destruct (Ds f c Hi) as (texts & rows & L & Di).
    now destruct (described_discrete cf _ _ _ _ _ _ Hde L Di) as (_ & X & _). }
  assert (Fn : map fd_feat fds = dkeys (join_frames x y)).
  { clear - D. induction D as [|a b l l' Hab HD IH]; auto. cbn. rewrite IH. f_equal. inversion Hab; reflexivity. }
  exists fds. split; auto. split; auto. split; auto. split.
  - unfold steady. rewrite Eg. split; auto. split; [rewrite Sb, Db; reflexivity|]. split; [rewrite Sm, Mi; exact Hmi|]. split; [|split].
    + intros c n Hn. rewrite <- Eg in Hn. assert (Ic : In c (concepts (g_fcm (e_gen e')))) by (unfold concepts; apply dget_Some_In; eauto).
      apply (td_concepts _ _ T) in Ic as (d & Hd & Hcd). exists ac, kw.
      rewrite (td_func _ _ T d c n Hd Hcd Hn (Fz d Hd)), (td_args _ _ T d c n Hd Hcd Hn (Fz d Hd)), Eg, Sf, I1, I2. auto.
    + intros f d Hd t Ht. assert (K : dget (g_feats (e_gen e')) f <> None) by congruence.
      destruct (td_only _ _ T f K) as (d' & Hd' & Hf'). pose proof (td_known _ _ T d' Hd') as X. rewrite Hf', Hd in X. injection X as ->.
      cbn in Ht. injection Ht as <-. auto.
    + destruct Some_row as (f & c & Hi & Hl). destruct (Ds f c Hi) as (texts & rows & L & Di).
      destruct (Forall2_In_l _ _ _ _ D Hi) as (d & Hd & Dd). destruct (described_discrete _ _ _ _ _ _ _ Dd L Di) as (_ & _ & Tn).
      pose proof (levels_some _ _ _ _ L Hl) as Ne. destruct texts as [|t texts]; [congruence|]. specialize (Tn t (or_introl eq_refl)).
      assert (Ic : In (append t (append (c_sep cf) f)) (concepts (g_fcm (e_gen e')))) by (apply (td_concepts _ _ T); eauto).
      rewrite Eg in Ic. intros X. rewrite X in Ic. exact Ic.
  - repeat split; auto; congruence.
Qed.

Lemma vec_row_runs fds r g : tidy fds g -> steady g -> (forall d, In d fds -> is_fuzzy_type (fd_type d) = false) ->
  dc_func (m_default (g_fcm g)) <> "fuzzy" -> m_decision (g_fcm g) <> "EXITED" ->
  (m_decision (g_fcm g) <> "LAST" -> neqb (nofZ (Num := N) 0) n0 = true /\ forall k, (0 < k)%Z -> neqb (nofZ (Num := N) k) n0 = false) ->
  (forall f str, In (f, CStr str) r -> readable str) ->
  (forall f v, In (f, v) r -> In f (map fd_feat fds) /\ exists t, cell_text cf v = Ok t) ->
  exists p, snd (predict_row cf r g) = Ok p.
Proof.
  intros T (S & D & Mx & P & G & C) Hz Nf He Hk Hr Hv. unfold predict_row.
  pose proof (row_ready g S D Mx P G C cf r) as X. cbv zeta in X. unfold sthen in *.
  pose proof (moved_on OpClearExec g eq_refl) as M1. change (step OpClearExec) with (clear_execution (F := F)) in M1.
  assert (O1 : snd (on_fcm clear_execution g) = Ok tt).
  { unfold on_fcm. pose proof (proj1 (clear_values (g_fcm g))) as Q. destruct (clear_execution (g_fcm g)); exact Q. }
  destruct (on_fcm clear_execution g) as [g1 r1]. cbn [fst snd] in M1, O1. subst r1.
  pose proof (moved_wframe _ _ M1) as (_ & _ & W1). apply settings_fit in W1 as [_ W1].
  destruct (row_succeeds cf Hsep fds r g1) as (g3 & E3).
  - now apply (tidy_moved _ _ _ M1).
  - now rewrite W1.
  - exact Hr.
  - intros f v Hi. destruct (Hv f v Hi) as [Hf Ht]. split; auto. apply in_map_iff in Hf as (d & Ef & Hd). exists d. auto.
  - rewrite E3 in X. unfold set_row in E3. rewrite E3. cbn [fst] in X.
    destruct X as (M & S3 & D3 & Mx3 & P3 & B3 & c0 & v & Hc0 & Hv0 & Hv2).
    pose proof (tidy_moved _ _ _ M T) as T3. pose proof (moved_wframe _ _ M) as (_ & _ & W3).
    pose proof (settings_max _ _ W3) as (_ & _ & _ & _ & We & _).
    destruct (vec_run_succeeds (g_fcm g3) c0 v) as (s' & Er); auto; try congruence.
    + intros c Hcc. destruct (binary_initial _ c S3 B3 Hcc) as (w & -> & _). discriminate.
    + now apply plain_responsive.
    + rewrite We. exact Hk.
    + unfold get_inference_result. unfold on_fcm. rewrite Er. cbn [snd].
      set (g4 := set_fcm s' g3). assert (M4 : moved g3 g4).
      { pose proof (moved_on (OpRun true) g3 eq_refl) as Y. unfold on_fcm in Y. change (step (OpRun true)) with (run_inference (F := F) true) in Y. rewrite Er in Y. exact Y. }
      pose proof (tidy_moved _ _ _ M4 T3) as T4. pose proof (moved_sane _ _ M4 S3) as S4.
      rewrite (target_values fds g4 T4 S4). cbn [rbind]. rewrite (group_spec cf Hsep fds g4 T4). cbn [rbind]. eauto.
Qed.
Lemma vec_predict_succeeds e2 x' : de <> "EXITED" ->
  (de <> "LAST" -> neqb (nofZ (Num := N) 0) n0 = true /\ forall k, (0 < k)%Z -> neqb (nofZ (Num := N) k) n0 = false) ->
  used e' e2 ->
  (forall f c, In (f, c) x' -> In f (dkeys (join_frames x y)) /\ (forall l, c = ColStr l -> Forall readable l)) ->
  (forall r f q, In r (iterrows x') -> In (f, CFlt q) r -> exists z, c_trunc cf q = Ok z) ->
  exists out, snd (predict cf x' e2) = Ok out.
Proof.
  intros He Hk HU Hx Hq. destruct fit_steady as (fds & T & Fz & Fn & St & Eg & Pn & G1 & Dd & Df & Da).
  destruct (used_moved e' e2 Pn HU) as (M & P2 & G2). pose proof (tidy_moved _ _ _ M T) as T2. pose proof (steady_moved _ _ M St) as St2.
  pose proof (moved_wframe _ _ M) as (_ & _ & W3). rewrite Eg in W3. pose proof (settings_max _ _ W3) as (_ & _ & _ & _ & We & _). pose proof (settings_fit _ _ W3) as [_ Wf].
  assert (U : usable (g_fcm (e_gen e2))) by (split; [apply St2|intros _; apply St2]).
  destruct (Forall_choice (fun r p => snd (predict_row cf r (e_gen e2)) = Ok p) (iterrows x')) as [ps Hps].
  - intros r Hr. apply (vec_row_runs fds); auto.
    + rewrite Wf, Df. now apply (callable_plain ac kw).
    + congruence.
    + rewrite We, Dd. exact Hk.
    + intros f str Hf. destruct (row_cell _ _ _ _ Hr Hf) as (c & Hcx & l & -> & Hl). destruct (Hx f _ Hcx) as [_ X].
      specialize (X l eq_refl). rewrite Forall_forall in X. auto.
    + intros f v Hf. destruct (row_cell _ _ _ _ Hr Hf) as (c & Hcx & _). destruct (Hx f _ Hcx) as [X _]. split; [now rewrite Fn|].
      destruct v as [s|b|z|q]; cbn [cell_text]; eauto. destruct (Hq r f q Hr Hf) as [z ->]. cbn. eauto.
  - exists (fold_left append_all ps []). apply predict_ok; auto; [congruence|]. eauto.
Qed.
(** all calls after the fit leave nonempty histories *)
Lemma vec_used_hist e2 : used e' e2 -> sane (e_map e2) /\ hist_ne (e_map e2).
Proof.
  intros HU. destruct fit_steady as (fds & T & Fz & Fn & St & Eg & Pn & G1 & _). split.
  - exact (healthy_sane _ _ (healthy_used _ _ _ (healthy_fit _ _ _ _ _ _ HH HF) HU)).
  - destruct HU as (l & Hl & ->). apply use_hist; auto. exact (fit_hist cf x y e0 e e' (healthy_estimator _ _ HH) HF).
Qed.
End Fitted.
End VecEst.
