(** AssocOrder.v — the order in which sets are iterated does not change predictions. *)
From Coq Require Import Permutation Reals.
From Verif Require Import Base BaseFacts Num RealFacts Functions Fcm FcmSpec FcmBasics FcmInv FcmInv2 FcmInv3 FcmIter FcmRun FcmRun2 FcmRun3 FcmOrder FcmView LoaderSpec LoaderFacts JoinFacts LearnUtils LearnSpec LearnFacts Assoc Estimator EstSpec AssocSpec AssocFacts AssocFacts2 AssocFacts3 AssocFacts4 AssocFacts5 AssocNames AssocNames2 EstFacts EstFacts2 EstFacts3 AssocGen AssocPredict AssocResult.

Section Fits.
Context {F : Type} {N : Num F}.
Implicit Types (g h : gen F) (s : fcm F) (e : est F).
(** a fit is a build into the emptied map *)
Lemma fit_start cf x y e0 e e' : estimator e0 e -> fit cf x y e = (e', Ok tt) ->
  exists e1, blank (e_map e1) /\ alike (e_map e1) (e_map e0) /\ (e_map e1 = e_map e \/ clear_all (e_map e) = (e_map e1, Ok tt)) /\
    forall cf', fit cf' x y e =
      let '(g, r) := sfold (add_feature cf' (dkeys y)) (join_frames x y) (mkGen [] [] (e_map e1)) in
      let e2 := e_shared e1 g in
      match r with Err er => (e2, Err er) | Ok _ => (mkEst (e_map e2) (e_priv e2) (e_feats e2) (e_proc e2) true, Ok tt) end.
Proof.
  intros HE HF. destruct (estimator_state _ _ HE) as (B & S & P & G). destruct B as (B1 & B2 & B3 & B4).
  destruct S as [(p & Hp & Tp & Em)|[Hp Se]].
  - exists (mkEst (e_map e) (Some (set_exec [] (set_arcs [] (set_topo [] p)))) [] [] (e_generated e)). cbn [e_map]. split; [now rewrite Em|].
    split; [now rewrite Em|]. split; [auto|]. intros cf'. unfold fit.
    rewrite reset_blank by (unfold e_gen; cbn; now rewrite Hp). rewrite Hp. unfold e_gen at 1. cbn [e_feats e_proc e_priv g_feats g_proc g_fcm e_map]. reflexivity.
  - assert (Eg : g_fcm (e_gen e) = e_map e) by (unfold e_gen; cbn; now rewrite Hp).
    destruct (reset_cases (e_gen e)) as [[er Er]|(s & Er & Ec & S1 & S2 & S3 & S4)].
    + exfalso. unfold fit in HF. destruct (reset (e_gen e)) as [g1 r1]. cbn in Er. subst r1. discriminate.
    + rewrite Eg in *. exists (mkEst s None [] [] (e_generated e)). cbn [e_map].
      assert (A : alike s (e_map e0)) by (unfold alike, core; rewrite S1, S2, S3, S4, B1, B2, B3, Se; reflexivity).
      split; [apply (alike_blank _ _ A); repeat split; auto|]. split; auto. split; auto.
      intros cf'. unfold fit. rewrite Er, Hp. reflexivity.
Qed.
Lemma fit_order cf o x y e0 e e1 : reorders (c_ord cf) -> reorders o -> estimator e0 e -> NoDup (dkeys (join_frames x y)) -> fit cf x y e = (e1, Ok tt) ->
  exists e2 s ops ops' fds, fit (with_order cf o) x y e = (e2, Ok tt) /\ blank s /\ (s = e_map e \/ clear_all (e_map e) = (s, Ok tt)) /\
    e_map e1 = run_ops ops s /\ e_map e2 = run_ops ops' s /\ shuffled ops ops' /\ forallb is_building ops = true /\ forallb is_building ops' = true /\
    plan_build cf (m_default s) (dkeys y) [] (join_frames x y) = Ok (ops, fds) /\
    plan_build (with_order cf o) (m_default s) (dkeys y) [] (join_frames x y) = Ok (ops', fds) /\
    ready (m_default s) fds (e_gen e1) /\ ready (m_default s) fds (e_gen e2) /\ e_priv e1 = None /\ e_priv e2 = None /\ e_generated e1 = true /\ e_generated e2 = true.
Proof.
  intros H1 H2 HE ND HF. destruct (fit_start _ _ _ _ _ _ HE HF) as (es & B & A & Cl & U).
  assert (R : ready (m_default (e_map es)) [] (mkGen [] [] (e_map es))).
  { split; [apply B|]. split; auto. split; auto. split; [intros dd []|]. cbn. intros f Hf. now elim Hf. }
  pose proof (build_plan cf H1 (m_default (e_map es)) (dkeys y) [] (join_frames x y) _ R ND) as P.
  pose proof (build_plan (with_order cf o) H2 (m_default (e_map es)) (dkeys y) [] (join_frames x y) _ R ND) as P'.
  rewrite (U cf) in HF.
  destruct (plan_build cf _ _ _ _) as [[ops fds]|er] eqn:Ep.
  2: { destruct (sfold (add_feature cf (dkeys y)) _ _) as [g r]. cbn [snd] in P. subst r. discriminate. }
  destruct (plan_order cf o H1 H2 (m_default (e_map es)) (dkeys y) (join_frames x y) [] ops fds ND Ep) as (ops' & Ep' & Sh). rewrite Ep' in P'.
  destruct P as (g1 & E1 & F1 & R1). destruct P' as (g2 & E2 & F2 & R2). rewrite E1 in HF. injection HF as <-. cbn [g_fcm] in F1, F2.
  specialize (U (with_order cf o)). rewrite E2 in U. eexists. exists (e_map es), ops, ops', fds. split; [exact U|].
  cbn [e_map e_priv e_generated e_shared]. split; auto. split; auto. split; auto. split; auto. split; auto.
  destruct (plan_build_spec cf _ _ _ _ _ _ Ep) as (rest & _ & _ & _ & _ & _ & _ & Bd & _).
  destruct (plan_build_spec (with_order cf o) _ _ _ _ _ _ Ep') as (rest' & _ & _ & _ & _ & _ & _ & Bd' & _).
  split; auto. split; auto. split; auto. split; auto. unfold e_gen. cbn. destruct g1, g2. cbn in *. auto 10.
Qed.
End Fits.

Section Sims.
Implicit Types (g h : gen R) (s t : fcm R) (e : est R).
Variable cf : gconf R.
Definition gsim g h : Prop := (forall f, dget (g_feats g) f = dget (g_feats h) f) /\ sim (g_fcm g) (g_fcm h).
Definition gsims {X} (x y : gen R * res X) : Prop := gsim (fst x) (fst y) /\ snd x = snd y.
Lemma sim_put c n n' l s t : sim s t -> strip n' = strip n -> sim (put_node c n (put_exec c l s)) (put_node c n' (put_exec c l t)).
Proof.
  intros [A B C D X] E. constructor; auto.
  - intros k. cbn [m_topo put_node put_exec set_topo set_exec]. rewrite !dget_dset. destruct (String.eqb k c); [cbn [option_map]; now rewrite E|apply D].
  - intros k. cbn [m_exec put_node put_exec set_topo set_exec]. rewrite !dget_dset. destruct (String.eqb k c); auto.
Qed.
Lemma init_sim c x rq s t : sim s t -> sim (fst (init_concept c x rq s)) (fst (init_concept c x rq t)) /\ snd (init_concept c x rq s) = snd (init_concept c x rq t).
Proof.
  intros S. unfold init_concept. pose proof (sm_topo _ _ S c) as E. destruct (dget (m_topo s) c) as [n|], (dget (m_topo t) c) as [n'|]; cbn [option_map] in E; try discriminate.
  - apply Some_inj in E. assert (E1 : nd_func n' = nd_func n) by exact (f_equal nd_func E). assert (E2 : nd_fuzzy n' = nd_fuzzy n) by exact (f_equal nd_fuzzy E).
    rewrite E1, E2. destruct (rbind _ _) as [v|er]; cbn [fst snd]; split; auto. apply sim_put; auto.
    exact (f_equal (nd_set_value v) E).
  - destruct rq; cbn [fst snd]; auto.
Qed.
Lemma clear_one_sim c s t : sim s t -> sim (fst (clear_one c s)) (fst (clear_one c t)) /\ snd (clear_one c s) = snd (clear_one c t).
Proof.
  intros S. unfold clear_one. pose proof (sm_topo _ _ S c) as E. destruct (dget (m_topo s) c) as [n|], (dget (m_topo t) c) as [n'|]; cbn [option_map] in E; try discriminate; cbn [fst snd]; split; auto.
  apply Some_inj in E. change (sim (put_node c (nd_set_value n0 (nd_set_aux [] n)) (put_exec c [n0] s)) (put_node c (nd_set_value n0 (nd_set_aux [] n')) (put_exec c [n0] t))).
  apply sim_put; auto. exact (f_equal (nd_set_value n0) E).
Qed.
Lemma mfold_sim {A} (f : A -> fcm R -> fcm R * res unit) l : (forall a s t, sim s t -> sim (fst (f a s)) (fst (f a t)) /\ snd (f a s) = snd (f a t)) ->
  forall s t, sim s t -> sim (fst (mfold f l s)) (fst (mfold f l t)) /\ snd (mfold f l s) = snd (mfold f l t).
Proof.
  intros H. induction l as [|a l IH]; intros s t S; cbn [mfold]; auto. destruct (H a s t S) as [H1 H2].
  destruct (f a s) as [s1 [u|x]], (f a t) as [t1 [u'|x']]; cbn [fst snd] in *; try discriminate; auto.
Qed.
Lemma clear_sim s t : concepts s = concepts t -> sim s t -> sim (fst (clear_execution s)) (fst (clear_execution t)) /\ snd (clear_execution s) = snd (clear_execution t).
Proof. unfold clear_execution, concepts. intros E S. rewrite E. apply mfold_sim; auto. apply clear_one_sim. Qed.
Lemma sfold_sim {A} (f : A -> gen R -> gen R * res unit) l : (forall a g h, gsim g h -> gsims (f a g) (f a h)) ->
  forall g h, gsim g h -> gsims (sfold f l g) (sfold f l h).
Proof.
  intros H. induction l as [|a l IH]; intros g h S; cbn [sfold]; [split; auto|]. destruct (H a g h S) as [H1 H2].
  destruct (f a g) as [s1 [u|x]], (f a h) as [t1 [u'|x']]; cbn [fst snd] in *; try discriminate; auto. split; auto.
Qed.
Lemma on_sim f : (forall s t, sim s t -> sim (fst (f s)) (fst (f t)) /\ snd (f s) = snd (f t)) -> forall g h, gsim g h -> gsims (on_fcm f g) (on_fcm f h).
Proof.
  intros H g h [E S]. destruct (H _ _ S) as [H1 H2]. unfold on_fcm. destruct (f (g_fcm g)), (f (g_fcm h)); cbn [fst snd] in *. split; auto. split; auto.
Qed.
Lemma init_feature_sim f v g h : gsim g h -> gsims (init_concept_by_feature_data cf f v g) (init_concept_by_feature_data cf f v h).
Proof.
  intros S. pose proof S as [E _]. unfold init_concept_by_feature_data, swith, get_type, get_names, dget_exn. cbv beta. rewrite (E f).
  destruct (_ <- _;; _)%res as [tp|er]; [|split; auto].
  destruct (String.eqb tp TYPE_FUZZY || String.eqb tp TYPE_REGRESOR).
  - rewrite (E f). destruct (_ <- _;; _)%res as [names|er]; [|split; auto].
    match goal with |- gsims (let '(_, _) := sfold ?f ?l g in _) _ => assert (X : gsims (sfold f l g) (sfold f l h)) end.
    { apply sfold_sim; auto. intros a g1 h1 S1. destruct (cell_num v) as [x|er]; [|split; auto]. apply on_sim; auto. intros. now apply init_sim. }
    destruct X as [X1 X2]. destruct (sfold _ _ g), (sfold _ _ h). cbn [fst snd] in *. subst. split; auto.
  - destruct (cell_text cf v) as [x|er]; [|split; auto].
    assert (X : gsims (on_fcm (init_concept (name_concept cf f x) n1 false) g) (on_fcm (init_concept (name_concept cf f x) n1 false) h)) by (apply on_sim; auto; intros; now apply init_sim).
    destruct X as [X1 X2]. destruct (on_fcm _ g), (on_fcm _ h). cbn [fst snd] in *. subst. split; auto.
Qed.
Lemma final_sim s t ct : sane s -> sane t -> concepts s = concepts t -> (forall c, value t c = value s c) ->
  (forall c, option_map nd_type (dget (m_topo t) c) = option_map nd_type (dget (m_topo s) c)) ->
  get_final_state ct [] s = get_final_state ct [] t.
Proof.
  intros Ss St Ec Ev Et. rewrite (final_state_type ct s Ss), (final_state_type ct t St). f_equal.
  destruct (sane_parts _ Ss) as (Ns & _). destruct (sane_parts _ St) as (Nt & _). rewrite !select_flat by auto. unfold concepts in Ec. rewrite Ec.
  apply flat_map_ext. intros c. specialize (Ev c). specialize (Et c). unfold value, get_concept_value in Ev.
  destruct (dget (m_topo s) c) as [n|], (dget (m_topo t) c) as [n'|]; cbn [option_map] in *; try discriminate; auto.
  injection Ev as Ev. apply Some_inj in Et. unfold FcmRun2.wanted. rewrite Ev, Et. reflexivity.
Qed.
Lemma predict_sim r g h p : (forall f, dget (g_feats g) f = dget (g_feats h) f) -> sim (g_fcm g) (g_fcm h) -> sane (g_fcm g) -> sane (g_fcm h) ->
  concepts (g_fcm g) = concepts (g_fcm h) -> m_debug (g_fcm g) = true ->
  snd (predict_row cf r g) = Ok p -> snd (predict_row cf r h) = Ok p.
Proof.
  intros Ef S Sg Sh Ec Db. unfold predict_row, sthen.
  destruct (clear_sim _ _ Ec S) as [C1 C2]. 
  assert (G1 : gsims (on_fcm clear_execution g) (on_fcm clear_execution h)).
  { unfold on_fcm. destruct (clear_execution (g_fcm g)), (clear_execution (g_fcm h)). cbn [fst snd] in *. split; auto. split; auto. }
  destruct G1 as [G1 G2]. pose proof (moved_on OpClearExec g eq_refl) as M1. pose proof (moved_on OpClearExec h eq_refl) as M1'. cbn [step] in M1, M1'.
  change (step OpClearExec) with (clear_execution (F := R)) in M1, M1'.
  destruct (on_fcm clear_execution g) as [g1 r1], (on_fcm clear_execution h) as [h1 r1']. cbn [fst snd] in *. subst r1'.
  destruct r1 as [u|er]; [|discriminate].
  assert (G3 := sfold_sim (fun fv => init_concept_by_feature_data cf (fst fv) (snd fv)) r (fun a => init_feature_sim (fst a) (snd a)) g1 h1 G1).
  pose proof (moved_set_row cf r g1) as M2. pose proof (moved_set_row cf r h1) as M2'. unfold set_row in M2, M2'.
  destruct G3 as [G3 G4]. destruct (sfold _ r g1) as [g2 r2], (sfold _ r h1) as [h2 r2']. cbn [fst snd] in *. subst r2'. destruct r2 as [u2|er]; [|discriminate].
  assert (M3 : moved g g2) by (eapply moved_trans; eauto). assert (M3' : moved h h2) by (eapply moved_trans; eauto).
  pose proof (moved_sane _ _ M3 Sg) as Sg2. pose proof (moved_sane _ _ M3' Sh) as Sh2.
  pose proof (moved_wframe _ _ M3) as (W1 & _ & W3). pose proof (moved_wframe _ _ M3') as (W1' & _ & W3').
  assert (Db2 : m_debug (g_fcm g2) = true) by (apply settings_max in W3; rewrite <- Db; apply W3).
  unfold get_inference_result, on_fcm. destruct G3 as [Ef2 S2].
  destruct (run_inference true (g_fcm g2)) as [s3 [u3|er]] eqn:Er; [|discriminate]. destruct u3.
  destruct (sim_run_sane true _ _ _ Sg2 Sh2 ltac:(discriminate) Db2 S2 Er) as (t3 & Er' & V). rewrite Er'. cbn [fst snd g_fcm set_fcm].
  pose proof (moved_on (OpRun true) g2 eq_refl) as M4. pose proof (moved_on (OpRun true) h2 eq_refl) as M4'.
  change (step (F := R) (OpRun true)) with (run_inference (F := R) true) in M4, M4'. unfold on_fcm in M4, M4'. rewrite Er in M4. rewrite Er' in M4'. cbn [fst] in M4, M4'.
  pose proof (moved_sane _ _ M4 Sg2) as Sg3. pose proof (moved_sane _ _ M4' Sh2) as Sh3. cbn [g_fcm set_fcm] in Sg3, Sh3.
  pose proof (moved_wframe _ _ M4) as (X1 & _ & X3). pose proof (moved_wframe _ _ M4') as (X1' & _ & X3'). cbn [g_fcm set_fcm] in *.
  assert (Fin : get_final_state "target" [] s3 = get_final_state "target" [] t3).
  { apply final_sim; auto.
    - unfold concepts in *. rewrite (statics_keys _ _ X1), (statics_keys _ _ X1'), (statics_keys _ _ W1), (statics_keys _ _ W1'). exact Ec.
    - apply V.
    - assert (Ty : forall a b, statics a = statics b -> forall c, option_map nd_type (dget (m_topo a) c) = option_map nd_type (dget (m_topo b) c)).
      { clear. intros a b E c. apply (f_equal (fun d => dget d c)) in E. unfold statics in E. rewrite !dget_dmap in E.
        destruct (dget (m_topo a) c), (dget (m_topo b) c); try discriminate; auto. cbn [option_map]. apply Some_inj in E. f_equal. exact (f_equal nd_type E). }
      intros c. rewrite (Ty _ _ X1), (Ty _ _ X1'). pose proof (sm_topo _ _ S2 c) as E. 
      destruct (dget (m_topo (g_fcm g2)) c), (dget (m_topo (g_fcm h2)) c); try discriminate; auto. cbn [option_map] in *. apply Some_inj in E. f_equal. exact (f_equal nd_type E). }
  rewrite Fin. assert (Gr : forall st, group_results cf (set_fcm s3 g2) st = group_results cf (set_fcm t3 h2) st).
  { intros st. unfold group_results, get_type, dget_exn. cbn [g_feats set_fcm]. generalize (@nil (string * list (string * R))) as acc.
    induction st as [|[c v] st IH]; intros acc; cbn [rfold]; [reflexivity|]. destruct (get_feature_and_info cf c) as [[f i]|er]; cbn [rbind]; [|reflexivity].
    rewrite (Ef2 f). match goal with |- context [rbind ?m _] => destruct m as [x|er] end; cbn [rbind]; [|reflexivity]. 
    apply IH. }
  destruct (get_final_state _ _ t3) as [st|er]; cbn [rbind]; [|auto]. now rewrite Gr.
Qed.
End Sims.
