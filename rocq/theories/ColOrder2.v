(** ColOrder2.v — the order of the columns of the training data does not matter. *)
From Coq Require Import Permutation Reals Lra.
From Verif Require Import Base BaseFacts Num Functions Spec SortFacts RealFacts FunctionsFacts Fcm FcmSpec VecSpec DynSpec FcmBasics FcmInv FcmInv2 FcmInv3 FcmIter FcmRun FcmRun2 FcmRun3 FcmOrder FcmView
  LoaderSpec LoaderFacts JoinFacts LearnUtils LearnSpec LearnFacts Assoc Estimator EstSpec AssocSpec AssocFacts AssocFacts2 AssocFacts3 AssocFacts4 AssocFacts5 AssocNames AssocNames2
  EstFacts EstFacts2 EstFacts3 EstFacts4 AssocGen AssocPredict AssocResult AssocOrder EstFacts5 AssocRange PipeFacts PipeFacts2 PipeFacts3 SepFacts4 ColOrder VecOrder.

Section Joining.
Context {F : Type} {N : Num F}.
Implicit Types (x y : dataset F) (e : est F).
Lemma str_mem_perm f (l l' : list string) : Permutation l l' -> str_mem f l = str_mem f l'.
Proof.
  intros P. destruct (str_mem f l) eqn:E, (str_mem f l') eqn:E'; auto.
  - apply str_mem_In in E. apply (Permutation_in _ P) in E. apply str_mem_In in E. congruence.
  - apply str_mem_In in E'. apply (Permutation_in _ (Permutation_sym P)) in E'. apply str_mem_In in E'. congruence.
Qed.
Lemma keys_perm {A} (d d' : dict A) : Permutation d d' -> Permutation (dkeys d) (dkeys d').
Proof. apply Permutation_map. Qed.
Lemma join_perm x x' y y' : Permutation x x' -> Permutation y y' -> Permutation (join_frames x y) (join_frames x' y').
Proof.
  intros Px Py. unfold join_frames. apply Permutation_app; auto.
  erewrite map_ext; [apply Permutation_map; exact Py|]. intros [f c]. cbn [fst snd]. now rewrite (str_mem_perm f (dkeys x) (dkeys x')) by now apply keys_perm.
Qed.
Lemma fit_start' cf x y e0 e e' : estimator e0 e -> fit cf x y e = (e', Ok tt) ->
  exists e1, blank (e_map e1) /\ alike (e_map e1) (e_map e0) /\
    forall cf' x' y', fit cf' x' y' e =
      let '(g, r) := sfold (add_feature cf' (dkeys y')) (join_frames x' y') (mkGen [] [] (e_map e1)) in
      let e2 := e_shared e1 g in
      match r with Err er => (e2, Err er) | Ok _ => (mkEst (e_map e2) (e_priv e2) (e_feats e2) (e_proc e2) true, Ok tt) end.
Proof.
  intros HE HF. destruct (estimator_state _ _ HE) as (B & S & P & G). destruct B as (B1 & B2 & B3 & B4).
  destruct S as [(p & Hp & Tp & Em)|[Hp Se]].
  - exists (mkEst (e_map e) (Some (set_exec [] (set_arcs [] (set_topo [] p)))) [] [] (e_generated e)). cbn [e_map]. split; [now rewrite Em|].
    split; [now rewrite Em|]. intros cf' x' y'. unfold fit.
    rewrite reset_blank by (unfold e_gen; cbn; now rewrite Hp). rewrite Hp. unfold e_gen at 1. cbn [e_feats e_proc e_priv g_feats g_proc g_fcm e_map]. reflexivity.
  - assert (Eg : g_fcm (e_gen e) = e_map e) by (unfold e_gen; cbn; now rewrite Hp).
    destruct (reset_cases (e_gen e)) as [[er Er]|(s & Er & Ec & S1 & S2 & S3 & S4)].
    + exfalso. unfold fit in HF. destruct (reset (e_gen e)) as [g1 r1]. cbn in Er. subst r1. discriminate.
    + rewrite Eg in *. exists (mkEst s None [] [] (e_generated e)). cbn [e_map].
      assert (A : alike s (e_map e0)) by (unfold alike, core; rewrite S1, S2, S3, S4, B1, B2, B3, Se; reflexivity).
      split; [apply (alike_blank _ _ A); repeat split; auto|]. split; auto.
      intros cf' x' y'. unfold fit. rewrite Er, Hp. reflexivity.
Qed.
Lemma readable_perm cf (ds ds' : dataset F) : Permutation ds ds' -> readable_data cf ds -> readable_data cf ds'.
Proof.
  intros P (A & B & C). split; auto. split; [eapply Permutation_NoDup; [apply keys_perm, P|exact B]|].
  intros f c H. apply C. eapply Permutation_in; [apply Permutation_sym, P|exact H].
Qed.
End Joining.

Section Fitting.
Variable cf : gconf R.
Hypothesis HO : reorders (c_ord cf).
Lemma fit_columns x x' y y' e0 e e1 : estimator e0 e -> readable_data cf (join_frames x y) -> Permutation x x' -> Permutation y y' -> fit cf x y e = (e1, Ok tt) ->
  exists e2, fit cf x' y' e = (e2, Ok tt) /\ sim (e_map e1) (e_map e2) /\ Permutation (relations (e_map e1)) (relations (e_map e2)) /\
    Permutation (concepts (e_map e1)) (concepts (e_map e2)) /\
    (forall f, dget (e_feats e2) f = dget (e_feats e1) f) /\ e_priv e1 = None /\ e_priv e2 = None /\ e_generated e1 = true /\ e_generated e2 = true.
Proof.
  intros HE RD Px Py HF. pose proof (join_perm x x' y y' Px Py) as PJ. pose proof (readable_perm cf _ _ PJ RD) as RD'.
  pose proof RD as (Hsep & ND & HR). pose proof RD' as (_ & ND' & HR').
  destruct (fit_start' _ _ _ _ _ _ HE HF) as (es & B & A & U).
  assert (Rd : ready (m_default (e_map es)) [] (mkGen [] [] (e_map es))).
  { split; [apply B|]. split; auto. split; auto. split; [intros dd []|]. cbn. intros f Hf. now elim Hf. }
  pose proof (build_plan cf HO (m_default (e_map es)) (dkeys y) [] (join_frames x y) _ Rd ND) as P.
  pose proof (build_plan cf HO (m_default (e_map es)) (dkeys y') [] (join_frames x' y') _ Rd ND') as P'.
  rewrite (U cf x y) in HF.
  destruct (plan_build cf (m_default (e_map es)) (dkeys y) [] (join_frames x y)) as [[ops fds]|er] eqn:Ep.
  2: { destruct (sfold (add_feature cf (dkeys y)) _ _) as [g r]. cbn [snd] in P. subst r. discriminate. }
  assert (Cm : forall a b : R, nmul a b = nmul b a) by exact Rmult_comm.
  destruct (plan_columns cf HO Cm (m_default (e_map es)) (dkeys y) (dkeys y') (join_frames x y) (join_frames x' y') ops fds ND PJ) as (ops' & fds' & Ep' & Pf & Po); auto.
  { intros f. apply str_mem_perm. now apply keys_perm. }
  rewrite Ep' in P'.
  destruct P as (g1 & E1 & F1 & R1). destruct P' as (g2 & E2 & F2 & R2). rewrite E1 in HF. injection HF as <-. cbn [g_fcm] in F1, F2.
  pose proof (U cf x' y') as U'. rewrite E2 in U'. eexists. split; [exact U'|]. cbn [e_map e_priv e_feats e_generated e_shared].
  destruct (plan_build_spec cf _ _ _ _ _ _ Ep) as (rest & Er & D & Dn & Rl & An & Nm & Bd & Cn & Ln). cbn [app] in Er. subst rest.
  destruct (plan_build_spec cf _ _ _ _ _ _ Ep') as (rest & Er & D' & Dn' & Rl' & An' & Nm' & Bd' & Cn' & Ln'). cbn [app] in Er. subst rest.
  destruct (names_NoDup cf Hsep (dkeys y) _ fds ND HR D) as [N1 _].
  destruct B as (B1 & B2 & B3 & B4).
  assert (Si : sim (g_fcm g1) (g_fcm g2)).
  { rewrite F1, F2. apply calls_perm; auto. change (flat_map added ops) with (flat_map (fun o : op R => match o with OpAddConcept n _ _ _ _ _ _ _ => [n] | _ => [] end) ops). now rewrite Nm. }
  assert (Pr : Permutation (relations (g_fcm g1)) (relations (g_fcm g2))) by (unfold relations; apply Permutation_map, Si).
  assert (Pc : Permutation (concepts (g_fcm g1)) (concepts (g_fcm g2))).
  { destruct (run_building (m_default (e_map es)) [] ops (e_map es) B4 eq_refl Bd) as (_ & Q2 & _); auto.
    { apply Forall_forall. intros q Hq Hc. rewrite Forall_forall in Cn. destruct (Cn q Hq Hc) as (d & _ & _ & Hd). eauto. }
    { intros z []. }
    destruct (run_building (m_default (e_map es)) [] ops' (e_map es) B4 eq_refl Bd') as (_ & Q2' & _); auto.
    { apply Forall_forall. intros q Hq Hc. rewrite Forall_forall in Cn'. destruct (Cn' q Hq Hc) as (d & _ & _ & Hd). eauto. }
    { intros z []. }
    rewrite F1, F2, Q2, Q2'. change (flat_map added ?o) with (flat_map (fun o : op R => match o with OpAddConcept n _ _ _ _ _ _ _ => [n] | _ => [] end) o). rewrite Nm, Nm'.
    unfold concepts. rewrite B1. cbn [dkeys map].
    assert (N2 : NoDup (flat_map fd_names fds')) by (eapply Permutation_NoDup; [apply Permutation_flat_map; exact Pf|exact N1]).
    rewrite !inserts_NoDup by auto. now apply Permutation_flat_map. }
  split; auto. split; auto. split; auto. split; [|auto].
  intros f. destruct R1 as (_ & _ & _ & R1 & R1'), R2 as (_ & _ & _ & R2 & R2').
  assert (K : forall d, In d fds -> dget (g_feats g2) (fd_feat d) = dget (g_feats g1) (fd_feat d)).
  { intros d Hd. destruct (R1 d Hd) as [-> _]. now destruct (R2 d (Permutation_in _ Pf Hd)) as [-> _]. }
  destruct (dget (g_feats g2) f) as [x2|] eqn:X2.
  - assert (Hf : In f (map fd_feat fds')) by (apply R2'; congruence). apply in_map_iff in Hf as (d & <- & Hd). rewrite <- K, X2; auto. eapply Permutation_in; [apply Permutation_sym, Pf|exact Hd].
  - destruct (dget (g_feats g1) f) as [x1|] eqn:X1; auto. assert (Hf : In f (map fd_feat fds)) by (apply R1'; congruence). apply in_map_iff in Hf as (d & <- & Hd).
    rewrite K in X2; congruence.
Qed.
End Fitting.

(** ** Clearing maps that agree in their fixed parts *)
Definition wiped (n : node R) : node R := nd_set_value n0 (nd_set_aux [] n).
Lemma clear_shape (s : fcm R) : sane s ->
  (forall c, dget (m_topo (fst (clear_execution s))) c = option_map wiped (dget (m_topo s) c)) /\
  (forall c, dget (m_exec (fst (clear_execution s))) c = if str_mem c (concepts s) then Some [n0] else None).
Proof.
  intros S. destruct (sane_parts _ S) as (_ & _ & K & _).
  assert (G : forall l t, (forall c, In c l -> In c (dkeys (m_topo t))) ->
    (forall c, dget (m_topo (fst (mfold clear_one l t))) c = if str_mem c l then option_map wiped (dget (m_topo t) c) else dget (m_topo t) c) /\
    (forall c, dget (m_exec (fst (mfold clear_one l t))) c = if str_mem c l then Some [n0] else dget (m_exec t) c)).
  { clear. induction l as [|a l IH]; intros t Hl; [cbn; auto|]. cbn [mfold]. unfold clear_one at 1 3.
    destruct (proj2 (dget_Some_In (m_topo t) a) (Hl a (or_introl eq_refl))) as [n Hn]. rewrite Hn.
    set (t2 := put_exec a [n0] (put_node a (nd_set_value n0 (nd_set_aux [] n)) t)).
    assert (T2 : forall c, dget (m_topo t2) c = if String.eqb c a then Some (wiped n) else dget (m_topo t) c) by (intros c; unfold t2, put_exec, put_node; cbn [m_topo set_exec set_topo]; now rewrite dget_dset).
    assert (X2 : forall c, dget (m_exec t2) c = if String.eqb c a then Some [n0] else dget (m_exec t) c) by (intros c; unfold t2, put_exec, put_node; cbn [m_exec set_exec set_topo]; now rewrite dget_dset).
    destruct (IH t2) as [I1 I2]. { intros c Hc. apply dget_Some_In. rewrite T2. destruct (String.eqb c a); eauto. apply dget_Some_In. apply Hl. now right. }
    split; intros c; rewrite ?I1, ?I2, ?T2, ?X2; cbn [str_mem existsb]; fold (str_mem c l).
    - destruct (String.eqb_spec c a) as [->|]; cbn [orb]; [|reflexivity]. rewrite Hn. cbn [option_map]. destruct (str_mem a l); reflexivity.
    - destruct (String.eqb_spec c a) as [->|]; cbn [orb]; [|reflexivity]. now destruct (str_mem a l). }
  destruct (G (dkeys (m_topo s)) s (fun c H => H)) as [G1 G2]. unfold clear_execution. fold (concepts s) in *. split; intros c.
  - rewrite G1. destruct (str_mem c (concepts s)) eqn:E; auto. assert (X : dget (m_topo s) c = None). { apply dget_None. intros X. apply str_mem_In in X. unfold concepts in E. congruence. } now rewrite X.
  - rewrite G2. destruct (str_mem c (concepts s)) eqn:E; auto. apply dget_None. rewrite K. intros X. apply str_mem_In in X. unfold concepts in E. congruence.
Qed.
(** the fixed parts *)
Record twin (s t : fcm R) : Prop := {
  tw_set : settings t = settings s; tw_it : m_iters t = m_iters s; tw_arcs : Permutation (m_arcs s) (m_arcs t);
  tw_topo : forall c, option_map (fun n => strip (nd_static n)) (dget (m_topo t) c) = option_map (fun n => strip (nd_static n)) (dget (m_topo s) c) }.
Lemma sim_twin s t : sim s t -> twin s t.
Proof.
  intros [A B C D E]. constructor; auto. intros c. specialize (D c). destruct (dget (m_topo s) c) as [n|], (dget (m_topo t) c) as [m|]; try discriminate; auto.
  cbn [option_map] in *. apply Some_inj in D. f_equal. exact (f_equal (nd_set_value n0) D).
Qed.
Lemma twin_static (s t s' t' : fcm R) : wframe s s' -> wframe t t' -> m_iters s' = m_iters s -> m_iters t' = m_iters t -> twin s t -> twin s' t'.
Proof.
  intros (A1 & A2 & A3) (B1 & B2 & B3) I1 I2 [T1 T2 T3 T4]. constructor; try congruence.
  intros c. assert (X : forall a b : fcm R, statics a = statics b -> option_map (fun n => strip (nd_static n)) (dget (m_topo a) c) = option_map (fun n => strip (nd_static n)) (dget (m_topo b) c)).
  { intros a b E. apply (f_equal (fun d => dget d c)) in E. unfold statics in E. rewrite !dget_dmap in E. destruct (dget (m_topo a) c), (dget (m_topo b) c); try discriminate; auto. cbn [option_map] in *. congruence. }
  rewrite (X _ _ A1), (X _ _ B1). apply T4.
Qed.
Lemma clear_twin (s t : fcm R) : sane s -> sane t -> twin s t -> sim (fst (clear_execution s)) (fst (clear_execution t)) /\ m_iters (fst (clear_execution s)) = m_iters s.
Proof.
  intros Ss St [T1 T2 T3 T4]. destruct (clear_shape s Ss) as [A1 A2]. destruct (clear_shape t St) as [B1 B2].
  pose proof (clear_exec_frame s) as (F1 & F2 & F3 & _). pose proof (clear_exec_frame t) as (G1 & G2 & G3 & _).
  assert (It : forall u : fcm R, m_iters (fst (clear_execution u)) = m_iters u).
  { intros u. unfold clear_execution. generalize (dkeys (m_topo u)). intros l. revert u. induction l as [|a l IH]; intros u; [reflexivity|]. cbn [mfold]. unfold clear_one at 1.
    destruct (dget (m_topo u) a); [|reflexivity]. now rewrite IH. }
  split; auto. constructor.
  - congruence.
  - now rewrite !It.
  - now rewrite F2, G2.
  - intros c. rewrite A1, B1. specialize (T4 c). destruct (dget (m_topo s) c), (dget (m_topo t) c); try discriminate; auto.
  - intros c. rewrite A2, B2. assert (X : str_mem c (concepts t) = str_mem c (concepts s)); [|now rewrite X].
    apply Bool.eq_iff_eq_true. rewrite !str_mem_In. unfold concepts. rewrite <- !dget_Some_In. specialize (T4 c).
    destruct (dget (m_topo s) c), (dget (m_topo t) c); try discriminate; split; intros [z Hz]; try discriminate; eauto.
Qed.

(** ** One row *)
Section Row.
Variable cf : gconf R.
Hypothesis Hsep : c_sep cf = "___"%string.
Lemma dget_classes (X : fdesc R -> cell R) fds f : NoDup (map fd_feat fds) ->
  dget (flat_map (fun d => if is_class d then match fd_names d with [] => [] | _ => [(fd_feat d, X d)] end else []) fds) f =
  match find (fun d => String.eqb (fd_feat d) f) fds with
  | Some d => if is_class d then match fd_names d with [] => None | _ => Some (X d) end else None
  | None => None end.
Proof.
  induction fds as [|d fds IH]; [reflexivity|]. cbn [map flat_map find]. intros ND. apply NoDup_cons_iff in ND as [Nd ND]. specialize (IH ND).
  destruct (String.eqb_spec (fd_feat d) f) as [E|E].
  - assert (Z : find (fun d => String.eqb (fd_feat d) f) fds = None).
    { destruct (find _ fds) as [d'|] eqn:Ef; auto. apply find_some in Ef as [Hd' Ef]. apply String.eqb_eq in Ef. exfalso. apply Nd. rewrite E, <- Ef. now apply in_map. }
    rewrite Z in IH. destruct (is_class d); [|exact IH]. destruct (fd_names d); [exact IH|]. cbn [app dget]. rewrite E, String.eqb_refl. reflexivity.
  - destruct (is_class d); [|exact IH]. destruct (fd_names d); [exact IH|]. cbn [app dget]. destruct (String.eqb_spec f (fd_feat d)); [congruence|exact IH].
Qed.
Lemma classes_keys (X : fdesc R -> cell R) fds : NoDup (map fd_feat fds) ->
  NoDup (dkeys (flat_map (fun d => if is_class d then match fd_names d with [] => [] | _ => [(fd_feat d, X d)] end else []) fds)).
Proof.
  intros ND. assert (E : exists p : fdesc R -> bool, dkeys (flat_map (fun d => if is_class d then match fd_names d with [] => [] | _ => [(fd_feat d, X d)] end else []) fds) = map fd_feat (filter p fds)).
  { exists (fun d => is_class d && match fd_names d with [] => false | _ => true end)%bool. clear ND. induction fds as [|d fds IH]; [reflexivity|]. cbn [flat_map filter]. unfold dkeys in *. rewrite map_app, IH.
    destruct (is_class d); [|reflexivity]. now destruct (fd_names d). }
  destruct E as [p ->]. now apply NoDup_map_filter.
Qed.
Lemma same_labels fds fds' g h (s t : fcm R) f : tidy fds g -> tidy fds' h -> (forall f, dget (g_feats h) f = dget (g_feats g) f) -> (forall c, value t c = value s c) ->
  dget (flat_map (fun d => if is_class d then match fd_names d with [] => [] | _ => [(fd_feat d, class_cell (fst (best_class (outs_of cf t d))))] end else []) fds') f =
  dget (flat_map (fun d => if is_class d then match fd_names d with [] => [] | _ => [(fd_feat d, class_cell (F := R) (fst (best_class (outs_of cf s d))))] end else []) fds) f.
Proof.
  intros T T' Hf Hv. rewrite !dget_classes by (now apply (td_feats _ _ T) || now apply (td_feats _ _ T')).
  assert (K : forall d d', In d fds -> In d' fds' -> fd_feat d = fd_feat d' -> fd_type d' = fd_type d /\ fd_names d' = fd_names d).
  { intros d d' Hd Hd' E. pose proof (td_known _ _ T d Hd) as A. pose proof (td_known _ _ T' d' Hd') as B. rewrite <- E, Hf, A in B. injection B as B1 B2 _. auto. }
  destruct (find _ fds') as [d'|] eqn:E'; destruct (find _ fds) as [d|] eqn:E; auto.
  - apply find_some in E as [Hd E]. apply find_some in E' as [Hd' E']. apply String.eqb_eq in E, E'. destruct (K d d' Hd Hd' ltac:(congruence)) as [K1 K2].
    unfold is_class, outs_of, val. rewrite K1, K2. destruct (String.eqb _ _); auto. destruct (fd_names d) as [|k l]; auto. f_equal. f_equal. f_equal. f_equal. apply map_ext. intros c. now rewrite Hv.
  - apply find_some in E' as [Hd' E']. apply String.eqb_eq in E'. pose proof (td_known _ _ T' d' Hd') as B. rewrite Hf in B.
    destruct (td_only _ _ T (fd_feat d') ltac:(congruence)) as (d & Hd & X). exfalso. pose proof (find_none _ _ E d Hd) as Y. cbv beta in Y. rewrite X, E', String.eqb_refl in Y. discriminate.
  - apply find_some in E as [Hd E]. apply String.eqb_eq in E. pose proof (td_known _ _ T d Hd) as B. rewrite <- Hf in B.
    destruct (td_only _ _ T' (fd_feat d) ltac:(congruence)) as (d' & Hd' & X). exfalso. pose proof (find_none _ _ E' d' Hd') as Y. cbv beta in Y. rewrite X, E, String.eqb_refl in Y. discriminate.
Qed.
(** a row is set in the same way *)
Lemma ready_twin r g h g1 : sane (g_fcm g) -> sane (g_fcm h) -> twin (g_fcm g) (g_fcm h) -> (forall f, dget (g_feats h) f = dget (g_feats g) f) ->
  sthen (on_fcm clear_execution) (set_row cf r) g = (g1, Ok tt) ->
  exists h1, sthen (on_fcm clear_execution) (set_row cf r) h = (h1, Ok tt) /\ sim (g_fcm g1) (g_fcm h1) /\ (forall f, dget (g_feats h1) f = dget (g_feats g1) f) /\ moved g g1 /\ moved h h1.
Proof.
  intros Sg Sh Tw Hf. unfold sthen. destruct (clear_twin _ _ Sg Sh Tw) as [C1 _].
  pose proof (proj1 (clear_values (g_fcm g))) as O1. pose proof (proj1 (clear_values (g_fcm h))) as O2.
  pose proof (moved_on OpClearExec g eq_refl) as M1. pose proof (moved_on OpClearExec h eq_refl) as M1'. change (step OpClearExec) with (clear_execution (F := R)) in M1, M1'.
  unfold on_fcm in *. destruct (clear_execution (g_fcm g)) as [s1 r1], (clear_execution (g_fcm h)) as [t1 r1']. cbn [fst snd] in *. subst r1 r1'.
  assert (G : gsim (set_fcm s1 g) (set_fcm t1 h)) by (split; auto; intros f; symmetry; apply Hf).
  pose proof (sfold_sim (fun fv => init_concept_by_feature_data cf (fst fv) (snd fv)) r (fun a => init_feature_sim cf (fst a) (snd a)) _ _ G) as [[G1 G2] G3].
  pose proof (moved_set_row cf r (set_fcm s1 g)) as M2. pose proof (moved_set_row cf r (set_fcm t1 h)) as M2'.
  unfold set_row in *. destruct (sfold _ r (set_fcm s1 g)) as [g2 r2], (sfold _ r (set_fcm t1 h)) as [h2 r2']. cbn [fst snd] in *. subst r2'. intros [= <- ->].
  exists h2. split; auto. split; auto. split; [intros f; symmetry; apply G1|]. split; eapply moved_trans; eauto.
Qed.
Lemma result_sim fds fds' g h g' p : tidy fds g -> tidy fds' h -> sane (g_fcm g) -> sane (g_fcm h) -> (forall f, dget (g_feats h) f = dget (g_feats g) f) ->
  get_inference_result cf g = (g', Ok p) -> forall t', run_inference true (g_fcm h) = (t', Ok tt) -> (forall c, value t' c = value (g_fcm g') c) ->
  exists h' p', get_inference_result cf h = (h', Ok p') /\ g_fcm h' = t' /\ (forall f, dget p' f = dget p f) /\ NoDup (dkeys p) /\ NoDup (dkeys p').
Proof.
  intros T T' Sg Sh Hf Hr t' Et Hv. destruct (result_spec cf Hsep fds g g' p T Sg Hr) as (_ & _ & ->).
  assert (M : moved h (set_fcm t' h)).
  { pose proof (moved_on (OpRun true) h eq_refl) as Y. unfold on_fcm in Y. change (step (OpRun true)) with (run_inference (F := R) true) in Y. rewrite Et in Y. exact Y. }
  assert (Ok' : exists p', get_inference_result cf h = (set_fcm t' h, Ok p')).
  { pose proof (tidy_moved fds' _ _ M T') as T2. pose proof (moved_sane _ _ M Sh) as S2. unfold get_inference_result, on_fcm. rewrite Et. 
    rewrite (target_values fds' (set_fcm t' h) T2 S2). cbn [rbind]. rewrite (group_spec cf Hsep fds' (set_fcm t' h) T2). cbn [rbind]. eauto. }
  destruct Ok' as [p' Hp']. exists (set_fcm t' h), p'. split; auto. split; auto.
  destruct (result_spec cf Hsep fds' h _ p' T' Sh Hp') as (_ & _ & ->). split; [|split; apply classes_keys; [apply (td_feats _ _ T)|apply (td_feats _ _ T')]].
  intros f. apply (same_labels fds fds' g h); auto.
Qed.
End Row.

(** ** All rows *)
Lemma dget_append_all (acc : dict (list (cell R))) p f : NoDup (dkeys p) ->
  dget (append_all acc p) f = match dget p f with Some v => Some (match dget acc f with Some l => l | None => [] end ++ [v]) | None => dget acc f end.
Proof.
  unfold append_all. revert acc. induction p as [|[k v] p IH]; intros acc ND; [reflexivity|]. cbn [fold_left fst snd dget]. apply NoDup_cons_iff in ND as [Nk ND]. rewrite IH by auto.
  assert (E : dget (dappend acc k v) f = if String.eqb f k then Some (match dget acc f with Some l => l | None => [] end ++ [v]) else dget acc f).
  { unfold dappend. destruct (String.eqb_spec f k) as [->|]; destruct (dget acc k); rewrite ?dget_dset_same, ?dget_dset_other; auto. }
  rewrite E. destruct (String.eqb_spec f k) as [->|]; auto. replace (dget p k) with (@None (cell R)); auto. symmetry. now apply dget_None.
Qed.
Lemma append_same (acc acc' : dict (list (cell R))) p p' : NoDup (dkeys p) -> NoDup (dkeys p') -> (forall f, dget p' f = dget p f) -> (forall f, dget acc' f = dget acc f) ->
  forall f, dget (append_all acc' p') f = dget (append_all acc p) f.
Proof. intros A B C D f. rewrite !dget_append_all by auto. now rewrite C, D. Qed.

Section Rows.
Variable cf : gconf R.
Hypothesis Hsep : c_sep cf = "___"%string.
Lemma row_iter r fds fds' g h g' p : tidy fds g -> tidy fds' h -> sane (g_fcm g) -> sane (g_fcm h) -> (forall f, dget (g_feats h) f = dget (g_feats g) f) -> twin (g_fcm g) (g_fcm h) ->
  m_debug (g_fcm g) = true -> predict_row cf r g = (g', Ok p) ->
  exists h' p', predict_row cf r h = (h', Ok p') /\ (forall f, dget p' f = dget p f) /\ NoDup (dkeys p) /\ NoDup (dkeys p').
Proof.
  intros T T' Sg Sh Hf Tw Db. unfold predict_row. change (sfold _ r) with (set_row cf r).
  destruct (sthen (on_fcm clear_execution) (set_row cf r) g) as [g1 [[]|er]] eqn:E1; [|discriminate].
  destruct (ready_twin cf r g h g1 Sg Sh Tw Hf E1) as (h1 & E2 & Si & Hf1 & M & M'). rewrite E2. intros Hr.
  pose proof (moved_sane _ _ M Sg) as Sg1. pose proof (moved_sane _ _ M' Sh) as Sh1. pose proof (tidy_moved fds _ _ M T) as T1. pose proof (tidy_moved fds' _ _ M' T') as T1'.
  pose proof (moved_wframe _ _ M) as (_ & _ & W3). pose proof (settings_max _ _ W3) as (_ & _ & _ & _ & _ & Wd).
  destruct (result_spec cf Hsep fds g1 g' p T1 Sg1 Hr) as (Er & _ & _).
  destruct (sim_run_sane true _ _ _ Sg1 Sh1 ltac:(discriminate) ltac:(congruence) Si Er) as (t' & Et & V).
  destruct (result_sim cf Hsep fds fds' g1 h1 g' p T1 T1' Sg1 Sh1 Hf1 Hr t' Et) as (h' & p' & A & _ & B); [intros c; apply V|]. eauto.
Qed.
Lemma answering_unmarked s : answering s -> unmarked s.
Proof.
  intros An c n f id a z y Hn Hf Hid Ha E. assert (X : (-1 <= y <= 1)%R \/ (y <= 1)%R); [|lra].
  destruct (An c n Hn) as [(memb & vals & sc & A & B & C & I1 & I2 & L1 & L2 & L3 & I3)|(f' & a' & Hf' & Ha' & Cb)].
  - left. rewrite Hf in A. injection A as ->. injection Hid as <-. rewrite Ha in C. injection C as ->.
    destruct (fuzzy_range z memb sc I2) as (y' & E' & Hy); auto; try lia.
    assert (E2 : exec_actv_function FUNC_FUZZY z (process_function_args (scaled_args memb sc)) = Ok y').
    { apply (dispatch_agree "fuzzy" AFuzzy FUNC_FUZZY z (scaled_args memb sc) y'); auto.
      - cbn. repeat constructor; cbn; intuition discriminate.
      - intros m v Hm Hv. cbn in Hm, Hv. injection Hm as <-. injection Hv as <-. congruence. }
    rewrite E in E2. injection E2 as ->. exact Hy.
  - rewrite Hf in Hf'. injection Hf' as <-. rewrite Ha in Ha'. injection Ha' as <-.
    assert (G : forall fn, get_function_by_name f = Some fn -> call_actv fn z a = Ok y -> bipolar_function f a -> (-1 <= y <= 1)%R) by (intros fn G1 G2 G3; exact (bipolar_range f a fn z y G3 G1 G2)).
    destruct Cb as [[Hi ->]|[[Hi Cb]|[[Hi Cb]|(-> & l & Hl & Cb)]]].
    + left. cbn in Hi. destruct Hi as [<-|[<-|[<-|[]]]]; injection Hid as <-; (eapply G; [reflexivity|exact E|]); unfold bipolar_function, unit_function; auto 10.
    + left. cbn in Hi. destruct Hi as [<-|[<-|[<-|[]]]]; injection Hid as <-; destruct Cb as [->|[l ->]]; (eapply G; [reflexivity|exact E|]); unfold bipolar_function, unit_function; auto 10.
    + left. cbn in Hi. destruct Hi as [<-|[<-|[]]]; injection Hid as <-; destruct Cb as [->|[l ->]]; (eapply G; [reflexivity|exact E|]); unfold bipolar_function, unit_function; auto 10.
    + right. injection Hid as <-. assert (Re : forall l0, relm z l0 = Ok y -> (y <= 1)%R).
      { intros l0. unfold relm, pdiv. rnum. destruct (Rltb_spec z 0); [intros [= <-]; lra|]. destruct (Reqb l0 0); [discriminate|]. cbn [rbind]. destruct (Rltb_spec 1 (z / l0)); intros [= <-]; lra. }
      destruct Cb as [->|[-> ->]]; eapply Re; exact E.
Qed.
Ltac by_parts := repeat (match goal with |- context [match ?x with _ => _ end] => match type of x with prod _ _ => destruct x | _ => destruct x end end; cbn [fst snd]).
Lemma run_iters (s : fcm R) : m_debug s = false -> m_iters (fst (run_inference true s)) = m_iters s.
Proof.
  intros D. unfold run_inference.
  assert (R1 : m_iters (fst (reset_execution s)) = m_iters s /\ m_debug (fst (reset_execution s)) = false).
  { unfold reset_execution. generalize (dkeys (m_topo s)). intros l. revert s D. induction l as [|a l IH]; intros s D; [cbn; auto|]. cbn [mfold].
    assert (X : m_iters (fst (reset_one a s)) = m_iters s /\ m_debug (fst (reset_one a s)) = false) by (unfold reset_one; by_parts; cbn; auto).
    destruct (reset_one a s) as [s1 [u|er]]; cbn [fst] in *; [|exact X]. destruct X as [X1 X2]. destruct (IH s1 X2) as [I1 I2]. rewrite I1, I2. auto. }
  destruct (reset_execution s) as [s1 [u|er]]; cbn [fst] in R1; [|apply R1]. destruct R1 as [R1 R2]. rewrite R2, <- R1. clear.
  assert (V : m_iters (fst (vectorized_inference s1)) = m_iters s1) by (unfold vectorized_inference; destruct (m_prepared s1); [destruct (m_cache s1)|destruct (prepare s1)]; by_parts; reflexivity).
  destruct (vectorized_inference s1) as [s2 [u|er]]; cbn [fst] in V; [|exact V]. rewrite <- V. clear.
  generalize (dkeys (m_topo s2)). intros l. revert s2. induction l as [|a l IH]; intros s; [reflexivity|]. cbn [mfold].
  assert (X : m_iters (fst (finalize_one a s)) = m_iters s) by (unfold finalize_one; by_parts; reflexivity).
  destruct (finalize_one a s) as [s3 [u|er]]; cbn [fst] in *; [|exact X]. now rewrite IH.
Qed.
Lemma row_vec r fds fds' g h g' h' p p' : firm fds g -> firm fds' h -> (forall f, dget (g_feats h) f = dget (g_feats g) f) -> twin (g_fcm g) (g_fcm h) ->
  NoDup (map fst (relations (g_fcm g))) -> m_oob (g_fcm g') = false -> predict_row cf r g = (g', Ok p) -> predict_row cf r h = (h', Ok p') ->
  (forall f, dget p' f = dget p f) /\ NoDup (dkeys p) /\ NoDup (dkeys p') /\ twin (g_fcm g') (g_fcm h').
Proof.
  intros Fg Fh Hf Tw Nr Ob. unfold predict_row. change (sfold _ r) with (set_row cf r).
  pose proof (firm_ready cf fds r g Fg) as Y. cbv zeta in Y.
  destruct (sthen (on_fcm clear_execution) (set_row cf r) g) as [g1 [[]|er]] eqn:E1; [|discriminate]. cbn [fst] in Y. destruct Y as (_ & Sing & _).
  destruct (ready_twin cf r g h g1 (fi_sane _ _ Fg) (fi_sane _ _ Fh) Tw Hf E1) as (h1 & E2 & Si & Hf1 & M & M'). rewrite E2. intros Hr Hr'.
  pose proof (firm_moved _ _ _ M Fg) as Fg1. pose proof (firm_moved _ _ _ M' Fh) as Fh1.
  destruct (result_spec cf Hsep fds g1 g' p (fi_tidy _ _ Fg1) (fi_sane _ _ Fg1) Hr) as (Er & _ & _).
  destruct (result_spec cf Hsep fds' h1 h' p' (fi_tidy _ _ Fh1) (fi_sane _ _ Fh1) Hr') as (Er' & _ & _).
  pose proof (moved_wframe _ _ M) as (_ & Wa & _).
  destruct (vec_run_sim true (g_fcm g1) (g_fcm h1) (g_fcm g') (g_fcm h')) as [_ V]; auto; try apply Fg1; try apply Fh1.
  - pose proof (fi_max _ _ Fg1). lia.
  - unfold relations in *. now rewrite Wa.
  - apply answering_unmarked. now apply (firm_answering fds).
  - intros c Hc. destruct (single_initial _ c (fi_sane _ _ Fg1) Sing Hc) as (v & -> & Hv). intros [= ->]. apply Reqb_false in Hv. now apply Hv.
  - destruct (result_sim cf Hsep fds fds' g1 h1 g' p (fi_tidy _ _ Fg1) (fi_tidy _ _ Fh1) (fi_sane _ _ Fg1) (fi_sane _ _ Fh1) Hf1 Hr (g_fcm h') Er') as (h2 & p2 & A & A2 & B1 & B2 & B3); [intros c; apply V|].
    rewrite Hr' in A. injection A as <- <-. split; auto. split; auto. split; auto.
    pose proof (run_wframe true (g_fcm g1)) as U1. pose proof (run_wframe true (g_fcm h1)) as U2. pose proof (run_iters _ (fi_debug _ _ Fg1)) as I1. pose proof (run_iters _ (fi_debug _ _ Fh1)) as I2.
    rewrite Er in U1, I1. rewrite Er' in U2, I2. apply (twin_static (g_fcm g1) (g_fcm h1)); auto. now apply sim_twin.
Qed.
Lemma rows_vec rows : forall fds fds' g h acc acc' g' h' out out', firm fds g -> firm fds' h -> (forall f, dget (g_feats h) f = dget (g_feats g) f) -> twin (g_fcm g) (g_fcm h) ->
  NoDup (map fst (relations (g_fcm g))) -> m_oob (g_fcm g') = false -> (forall f, dget acc' f = dget acc f) ->
  predict_rows cf rows acc g = (g', Ok out) -> predict_rows cf rows acc' h = (h', Ok out') -> forall f, dget out' f = dget out f.
Proof.
  induction rows as [|r rows IH]; intros fds fds' g h acc acc' g' h' out out' Fg Fh Hf Tw Nr Ob Ha; cbn [predict_rows]; [intros [= <- <-] [= <- <-]; exact Ha|].
  pose proof (moved_predict cf r g) as M. pose proof (moved_predict cf r h) as M'.
  destruct (predict_row cf r g) as [g1 [p|er]] eqn:E1; [|discriminate]. destruct (predict_row cf r h) as [h1 [p'|er]] eqn:E2; [|discriminate]. cbn [fst] in M, M'. intros Hg Hh.
  assert (Ob1 : m_oob (g_fcm g1) = false).
  { apply (moved_oob g1 g'); auto. clear - Hg. revert g1 g' out Hg. generalize (append_all acc p). induction rows as [|r rows IH]; intros a g1 g' out; cbn [predict_rows]; [intros [= <- _]; apply moved_refl|].
    pose proof (moved_predict cf r g1) as M. destruct (predict_row cf r g1) as [g2 [q|er]]; [|discriminate]. intros H. eapply moved_trans; [exact M|]. eapply IH, H. }
  destruct (row_vec r fds fds' g h g1 h1 p p' Fg Fh Hf Tw Nr Ob1 E1 E2) as (A & B & C & Tw1).
  pose proof (firm_moved _ _ _ M Fg) as Fg1. pose proof (firm_moved _ _ _ M' Fh) as Fh1. pose proof (moved_wframe _ _ M) as (_ & Wa & _).
  assert (Hf1 : forall f, dget (g_feats h1) f = dget (g_feats g1) f) by (destruct M as (-> & _), M' as (-> & _); exact Hf).
  assert (Nr1 : NoDup (map fst (relations (g_fcm g1)))) by (unfold relations in *; now rewrite Wa).
  exact (IH fds fds' g1 h1 (append_all acc p) (append_all acc' p') g' h' out out' Fg1 Fh1 Hf1 Tw1 Nr1 Ob (append_same acc acc' p p' B C A Ha) Hg Hh).
Qed.
End Rows.
