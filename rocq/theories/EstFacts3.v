(** EstFacts3.v — sequences of calls on an estimator. *)
From Verif Require Import Base BaseFacts Num Functions Fcm FcmSpec FcmBasics FcmInv FcmInv2 FcmInv3 FcmIter FcmRun FcmRun2 FcmRun3 VecSpec FcmVec FcmVec2 FcmVec3 FcmView LearnUtils Assoc Estimator EstSpec AssocFacts EstFacts EstFacts2.

Section EstFacts3.
Context {F : Type} {N : Num F}.
Implicit Types (g h : gen F) (s : fcm F) (e : est F).

(** ** A new estimator *)
Definition blank s : Prop := m_topo s = [] /\ m_exec s = [] /\ m_arcs s = [] /\ m_fit s = None.
Lemma init_est_spec mi ex sd de me xc ac kw vec e0 : init_est mi ex sd de me xc ac kw vec = Ok e0 ->
  (exists p, e_priv e0 = Some p /\ m_topo p = []) /\ blank (e_map e0) /\ e_generated e0 = false /\ m_debug (e_map e0) = negb vec /\
  exists s0 ops, init_fcm mi ex true sd de me ac kw = Ok s0 /\ e_map e0 = run_ops ops s0 /\
    ops = [OpSetDefault TYPE_SIMPLE (Some true) None xc None None []; OpAttrDebug (negb vec)].
Proof.
  unfold init_est. intros H. apply rbind_ok in H as (s & Hs & H). apply rbind_ok in H as (s1 & H1 & H). apply rbind_ok in H as (p & Hp & H).
  injection H as <-. cbn [e_priv e_map e_generated].
  destruct (set_default_concept_properties TYPE_SIMPLE (Some true) None xc None None [] s) as [s2 r] eqn:E. destruct r as [u|x]; [|discriminate]. injection H1 as <-.
  assert (B : blank s2).
  { unfold set_default_concept_properties in E. destruct (update_default _ _ _ _ _ _ _ _ _) as [dd rr]. injection E as <- _.
    apply init_fcm_shape in Hs as (-> & _). repeat split. }
  split; [exists p; split; auto; apply init_fcm_shape in Hp as (-> & _); reflexivity|]. split; [exact B|]. split; auto. split; auto.
  exists s. eexists. split; [exact Hs|]. split; [|reflexivity]. unfold run_ops. cbn [fold_left step fst]. now rewrite E.
Qed.

(** ** States an estimator can be in *)
Definition state_of e0 e : Prop :=
  (exists p, e_priv e = Some p /\ m_topo p = [] /\ e_map e = e_map e0) \/ (e_priv e = None /\ settings (e_map e) = settings (e_map e0)).
Lemma reset_blank g : m_topo (g_fcm g) = [] -> reset g = (mkGen [] [] (set_exec [] (set_arcs [] (set_topo [] (g_fcm g)))), Ok tt).
Proof. intros H. unfold reset, on_fcm, clear_all, reset_execution. cbn [g_fcm]. rewrite H. reflexivity. Qed.
Lemma reset_cases g : (exists x, snd (reset g) = Err x) \/
  exists s, reset g = (mkGen [] [] s, Ok tt) /\ clear_all (g_fcm g) = (s, Ok tt) /\ m_topo s = [] /\ m_exec s = [] /\ m_arcs s = [] /\ settings s = settings (g_fcm g).
Proof.
  unfold reset, on_fcm. cbn [g_fcm]. destruct (clear_all (g_fcm g)) as [s [[]|x]] eqn:E; [right|left; cbn; eauto].
  exists s. split; auto. split; auto. pose proof (clear_all_settings (g_fcm g)) as S. rewrite E in S. cbn in S.
  unfold clear_all in E. destruct (reset_execution (g_fcm g)) as [s1 [u|x]]; [|discriminate]. injection E as <-. auto.
Qed.
Lemma fit_cases cf x y e0 e : blank (e_map e0) -> state_of e0 e ->
  (exists er, snd (reset (e_gen e)) = Err er /\ snd (fit cf x y e) = Err er /\ e_priv e = None /\ settings (e_map (fst (fit cf x y e))) = settings (e_map e) /\
     e_priv (fst (fit cf x y e)) = None) \/
  exists s, alike s (e_map e0) /\ (s = e_map e \/ clear_all (e_map e) = (s, Ok tt)) /\
    let b := build_fcm cf (join_frames x y) (dkeys y) s (mkGen [] [] s) in
    snd (fit cf x y e) = snd b /\
    e_map (fst (fit cf x y e)) = g_fcm (fst b) /\ e_feats (fst (fit cf x y e)) = g_feats (fst b) /\ e_proc (fst (fit cf x y e)) = g_proc (fst b) /\
    e_priv (fst (fit cf x y e)) = None /\ (snd b = Ok tt -> e_generated (fst (fit cf x y e)) = true).
Proof.
  intros (B1 & B2 & B3 & B4) [(p & Hp & Tp & Em)|[Hp Se]].
  - right. exists (e_map e). split; [now rewrite Em|]. split; auto. unfold fit.
    rewrite reset_blank by (unfold e_gen; cbn; now rewrite Hp). rewrite Hp.
    unfold e_gen at 1. cbn [e_feats e_proc e_priv g_feats g_proc g_fcm e_map].
    unfold build_fcm. cbn [set_fcm g_feats g_proc]. cbv zeta.
    destruct (sfold _ _ _) as [g1 [[]|er]]; cbn; repeat split; auto; discriminate.
  - assert (Eg : g_fcm (e_gen e) = e_map e) by (unfold e_gen; cbn; now rewrite Hp).
    destruct (reset_cases (e_gen e)) as [[er Er]|(s & Er & Ec & S1 & S2 & S3 & S4)].
    + left. exists er. split; auto. unfold fit. rewrite Hp.
      assert (St : settings (g_fcm (fst (reset (e_gen e)))) = settings (e_map e)).
      { unfold reset, on_fcm. cbn [g_fcm]. pose proof (clear_all_settings (e_map e)) as C. rewrite Eg. destruct (clear_all (e_map e)); exact C. }
      destruct (reset (e_gen e)) as [g1 r1]. cbn in *. subst r1. cbn. auto.
    + right. exists s. rewrite Eg in *. split; [|split; [auto|]].
      { unfold alike, core. rewrite S1, S2, S3, S4, B1, B2, B3, Se. reflexivity. }
      unfold fit. rewrite Er, Hp. cbn [e_shared g_fcm g_feats g_proc e_map e_priv e_feats e_proc e_generated]. unfold e_gen. cbn [e_priv e_map e_feats e_proc e_shared g_fcm g_feats g_proc].
      unfold build_fcm. cbn [set_fcm g_feats g_proc]. cbv zeta.
      destruct (sfold _ _ _) as [g1 [[]|er]]; cbn; repeat split; auto; discriminate.
Qed.
Lemma predict_state cf x e0 e : state_of e0 e -> e_generated e = false \/ e_priv e = None ->
  state_of e0 (fst (predict cf x e)) /\ (e_priv e = None -> e_priv (fst (predict cf x e)) = None) /\ e_generated (fst (predict cf x e)) = e_generated e.
Proof.
  intros S G. unfold predict. destruct (e_generated e) eqn:Eg; [|auto].
  destruct G as [G|G]; [discriminate|].
  pose proof (moved_predict_rows cf (iterrows x) [] (e_gen e)) as M. destruct (predict_rows cf (iterrows x) [] (e_gen e)) as [g1 r]. cbn [fst] in *.
  split; [|split; auto; cbn; now rewrite Eg]. right. split; auto. destruct S as [(p & Hp & _)|[_ S]]; [congruence|].
  apply moved_wframe in M as (_ & _ & M). unfold e_gen in M. rewrite G in M. cbn [g_fcm] in M. cbn. congruence.
Qed.
Lemma score_est cf x y e : fst (score cf x y e) = if e_generated e then fst (predict cf x e) else e.
Proof. unfold score. destruct (e_generated e); auto. destruct (predict cf x e). reflexivity. Qed.
Lemma eruns_state e0 l : blank (e_map e0) -> (exists p, e_priv e0 = Some p /\ m_topo p = []) -> e_generated e0 = false ->
  state_of e0 (eruns l e0).
Proof.
  intros B (p & Hp & Tp) G.
  assert (X : forall l e, state_of e0 e -> (e_generated e = false \/ e_priv e = None) -> state_of e0 (eruns l e)).
  { clear l. induction l as [|c l IH]; intros e S Ge; auto. unfold eruns. cbn [fold_left]. apply IH.
    - destruct c; cbn [edo].
      + destruct (fit_cases cf x y e0 e B S) as [(er & _ & _ & Pn & Se & Pn')|(s & A & _ & _ & Em & _ & _ & Pn & _)].
        * right. split; auto. destruct S as [(q & Hq & _)|[_ S]]; congruence.
        * right. split; auto. rewrite Em. destruct (build_keeps cf (join_frames x y) (dkeys y) s (mkGen [] [] s)) as (ops & Bu & E & _).
          rewrite E. rewrite builds_settings by auto. clear - A. unfold alike, core in A. congruence.
      + destruct (predict_state cf x e0 e S Ge) as [P _]. destruct (predict cf x e). exact P.
      + pose proof (score_est cf x y e) as Es. destruct (score cf x y e) as [e1 r]. cbn in Es |- *. rewrite Es.
        destruct (predict_state cf x e0 e S Ge) as [P _]. destruct (e_generated e); auto.
    - destruct c; cbn [edo].
      + right. destruct (fit_cases cf x y e0 e B S) as [(er & _ & _ & _ & _ & Pn)|(s & _ & _ & _ & _ & _ & _ & Pn & _)]; auto.
      + destruct (predict_state cf x e0 e S Ge) as (_ & P1 & P2). destruct (predict cf x e) as [e1 r]. cbn in *.
        destruct Ge as [Ge|Ge]; [left; congruence|right; auto].
      + pose proof (score_est cf x y e) as Es. destruct (score cf x y e) as [e1 r]. cbn in Es |- *. rewrite Es.
        destruct (predict_state cf x e0 e S Ge) as (_ & P1 & P2). destruct (e_generated e) eqn:Eg; auto.
        destruct Ge as [Ge|Ge]; [discriminate|right; auto]. }
  apply X; auto. left. eauto.
Qed.
(** ** Fitting again *)
Theorem refit cf x y e0 e : blank (e_map e0) -> state_of e0 e -> state_of e0 e0 -> (exists p, e_priv e0 = Some p) ->
  (exists er, snd (reset (e_gen e)) = Err er /\ snd (fit cf x y e) = Err er) \/
  (snd (fit cf x y e) = snd (fit cf x y e0) /\ fitted_model (fst (fit cf x y e)) = fitted_model (fst (fit cf x y e0))).
Proof.
  intros B S S0 (p0 & Hp0). destruct (fit_cases cf x y e0 e B S) as [(er & H1 & H2 & _)|(s & A & _ & F1 & F2 & F3 & F4 & _)]; [left; eauto|right].
  destruct (fit_cases cf x y e0 e0 B S0) as [(er & _ & _ & Pn & _)|(t & A' & _ & G1 & G2 & G3 & G4 & _)]; [congruence|].
  destruct (gsame_build cf (join_frames x y) (dkeys y) s t (mkGen [] [] s) (mkGen [] [] t)) as [(R1 & R2 & R3) R]; auto.
  { eapply alike_trans; [exact A|]. now apply alike_sym. }
  cbv zeta in *. split; [congruence|]. unfold fitted_model. rewrite F2, F3, F4, G2, G3, G4, R1, R2. unfold alike, core in R3. congruence.
Qed.

(** ** Maps of estimators whose fits succeeded *)
Definition est_op (o : op F) : bool := is_building o || is_exec o || match o with OpClearAll => true | _ => false end.
Definition trail e0 e : Prop := exists ops, forallb est_op ops = true /\ e_map e = run_ops ops (e_map e0) /\ ok_when is_add_concept ops (e_map e0).
Lemma trail_app e0 s ops ops' : forallb est_op ops = true -> s = run_ops ops (e_map e0) -> ok_when is_add_concept ops (e_map e0) ->
  forallb est_op ops' = true -> ok_when is_add_concept ops' s ->
  exists o, forallb est_op o = true /\ run_ops ops' s = run_ops o (e_map e0) /\ ok_when is_add_concept o (e_map e0).
Proof.
  intros H1 -> H2 H3 H4. exists (ops ++ ops'). rewrite forallb_app, H1, H3, run_ops_app. repeat split; auto. now apply ok_when_app.
Qed.
Lemma est_op_building ops : forallb is_building ops = true -> forallb est_op ops = true.
Proof. rewrite !forallb_forall. intros H o Ho. unfold est_op. now rewrite (H o Ho). Qed.
Lemma est_op_exec ops : forallb (is_exec (F := F)) ops = true -> forallb est_op ops = true /\ forall s, ok_when is_add_concept ops s.
Proof.
  intros H. split.
  - rewrite forallb_forall in *. intros o Ho. unfold est_op. rewrite (H o Ho). now rewrite Bool.orb_true_r.
  - induction ops as [|o l IH]; intros s; cbn; auto. cbn in H. apply andb_prop in H as [H1 H2]. split; auto. destruct o; discriminate.
Qed.
Lemma fits_trail e0 l : blank (e_map e0) -> (exists p, e_priv e0 = Some p /\ m_topo p = []) -> e_generated e0 = false -> fits_ok l e0 ->
  trail e0 (eruns l e0).
Proof.
  intros B Hp0 G Ok0.
  assert (X : forall l e, state_of e0 e -> (e_generated e = false \/ e_priv e = None) -> trail e0 e -> fits_ok l e -> trail e0 (eruns l e)).
  { clear l Ok0. induction l as [|c l IH]; intros e S Ge T Ok0; auto. cbn [fits_ok] in Ok0. destruct Ok0 as [Oc Ol].
    unfold eruns. cbn [fold_left].
    assert (Y : state_of e0 (fst (edo c e)) /\ (e_generated (fst (edo c e)) = false \/ e_priv (fst (edo c e)) = None) /\ trail e0 (fst (edo c e))).
    { assert (PP : forall cf x, trail e0 (fst (predict cf x e))).
      { intros cf x. unfold predict. destruct (e_generated e) eqn:Eg; auto. destruct Ge as [Ge|Ge]; [congruence|].
        pose proof (moved_predict_rows cf (iterrows x) [] (e_gen e)) as (_ & _ & ops' & M1 & M2).
        destruct (predict_rows cf (iterrows x) [] (e_gen e)) as [g1 r]. cbn [fst e_shared e_map] in *.
        destruct T as (ops & T1 & T2 & T3). apply est_op_exec in M1 as [M1 M3].
        unfold trail. cbn [e_map e_shared]. rewrite M2. unfold e_gen. rewrite Ge. cbn [g_fcm]. apply (trail_app e0 (e_map e) ops ops'); auto. }
      destruct c; cbn [edo is_fit] in *.
      - specialize (Oc eq_refl). destruct (fit_cases cf x y e0 e B S) as [(er & _ & Er & _)|(s & A & Hs & F1 & F2 & _ & _ & F5 & F6)]; [congruence|].
        cbv zeta in *. rewrite Oc in F1. symmetry in F1.
        destruct (build_keeps cf (join_frames x y) (dkeys y) s (mkGen [] [] s)) as (ops' & Bu & Eb & Ob).
        split; [|split; [now right|]].
        + right. split; auto. rewrite F2, Eb, builds_settings by auto. clear - A. unfold alike, core in A. congruence.
        + unfold trail. rewrite F2, Eb. destruct T as (ops & T1 & T2 & T3).
          assert (Ts : exists o, forallb est_op o = true /\ s = run_ops o (e_map e0) /\ ok_when is_add_concept o (e_map e0)).
          { destruct Hs as [->|Hs]; [eauto|]. assert (Es : s = run_ops [OpClearAll] (e_map e)) by (cbn; now rewrite Hs).
            rewrite Es. apply (trail_app e0 (e_map e) ops [OpClearAll]); auto. split; [discriminate|cbn; auto]. }
          destruct Ts as (o & O1 & O2 & O3). apply (trail_app e0 s o ops'); auto; [now apply est_op_building|eauto].
      - destruct (predict_state cf x e0 e S Ge) as (P0 & P1 & P2). specialize (PP cf x). destruct (predict cf x e) as [e1 r]. cbn in *.
        split; auto. split; auto. destruct Ge as [Ge|Ge]; [left; congruence|right; auto].
      - pose proof (score_est cf x y e) as Es. destruct (score cf x y e) as [e1 r]. cbn in Es |- *. rewrite Es.
        destruct (e_generated e) eqn:Eg; auto. destruct (predict_state cf x e0 e S) as (P0 & P1 & P2).
        { destruct Ge as [Ge|Ge]; [discriminate|auto]. }
        split; auto. split; auto. destruct Ge as [Ge|Ge]; [discriminate|right; auto]. }
    destruct Y as (Y1 & Y2 & Y3). apply IH; auto. }
  apply X; auto.
  - left. destruct Hp0 as (p & H1 & H2). eauto.
  - exists []. repeat split.
Qed.
Lemma est_iterative (e0 e : est F) mi ex sd de me xc ac kw : init_est mi ex sd de me xc ac kw false = Ok e0 -> trail e0 e -> iterative_session (e_map e).
Proof.
  intros H (ops & T1 & T2 & T3). apply init_est_spec in H as (_ & _ & _ & _ & s0 & l & H1 & H2 & H3).
  exists mi, ex, true, sd, de, me, ac, kw, s0, (l ++ ops). split; auto. rewrite run_ops_app, <- H2. split; auto. split.
  - apply ok_when_app. rewrite <- H2. split; auto. rewrite H3. cbn. split; [discriminate|split; [discriminate|auto]].
  - intros b Hb. rewrite H3 in Hb. apply in_app_iff in Hb as [[Hb|[Hb|[]]]|Hb]; [discriminate|now injection Hb as <-|].
    rewrite forallb_forall in T1. specialize (T1 _ Hb). discriminate.
Qed.
Lemma est_sane (e0 e : est F) mi ex sd de me xc ac kw vec : init_est mi ex sd de me xc ac kw vec = Ok e0 -> trail e0 e -> sane (e_map e).
Proof.
  intros H (ops & T1 & T2 & T3). apply init_est_spec in H as (_ & _ & _ & _ & s0 & l & H1 & H2 & H3).
  exists mi, ex, true, sd, de, me, ac, kw, s0, (l ++ ops). split; auto. rewrite run_ops_app, <- H2. split; auto.
  apply ok_when_app. rewrite <- H2. split; auto. rewrite H3. cbn. split; [discriminate|split; [discriminate|auto]].
Qed.
Lemma est_settings (e0 e : est F) : state_of e0 e -> settings (e_map e) = settings (e_map e0).
Proof. intros [(p & _ & _ & ->)|[_ H]]; auto. Qed.
End EstFacts3.
