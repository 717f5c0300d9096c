(** AssocGen.v — the map an estimator generates when fitted. *)
From Coq Require Import Permutation Reals.
From Verif Require Import Base BaseFacts Num Functions Fcm FcmSpec FcmBasics FcmInv FcmInv2 FcmInv3 FcmIter FcmRun FcmRun2 FcmRun3 FcmOrder VecSpec FcmVec FcmVec2 FcmVec3 FcmView LoaderSpec JoinFacts LearnUtils LearnSpec LearnFacts Assoc Estimator EstSpec AssocSpec AssocFacts AssocFacts2 AssocFacts3 AssocFacts4 AssocFacts5 AssocNames EstFacts EstFacts2 EstFacts3.

Section AssocGen.
Context {F : Type} {N : Num F}.
Implicit Types (g h : gen F) (s : fcm F) (e : est F).

Lemma estimator_state e0 e : estimator e0 e -> blank (e_map e0) /\ state_of e0 e /\ (exists p, e_priv e0 = Some p /\ m_topo p = []) /\ e_generated e0 = false.
Proof.
  intros [(mi & ex & sd & de & me & xc & ac & kw & vec & H0) [l ->]]. apply init_est_spec in H0 as (P & B & G & _).
  split; [auto|]. split; [now apply eruns_state|]. split; auto.
Qed.
Lemma estimator_debug e0 e : estimator e0 e -> m_debug (e_map e) = m_debug (e_map e0).
Proof. intros H. apply estimator_state in H as (_ & H & _). apply est_settings in H. apply settings_max in H. apply H. Qed.
Lemma alike_blank s t : alike s t -> blank t -> blank s.
Proof. unfold alike, core, blank. intros H (B1 & B2 & B3 & B4). injection H. intros H1 H2 H3 H4. repeat split; try congruence. Qed.
Lemma fit_built cf x y e0 e e' : estimator e0 e -> fit cf x y e = (e', Ok tt) ->
  exists s g', alike s (e_map e0) /\ blank s /\ build_fcm cf (join_frames x y) (dkeys y) s (mkGen [] [] s) = (g', Ok tt) /\
    e_gen e' = g' /\ e_map e' = g_fcm g' /\ e_priv e' = None /\ e_generated e' = true.
Proof.
  intros HE HF. apply estimator_state in HE as (B & S & P & G).
  destruct (fit_cases cf x y e0 e B S) as [(er & _ & H & _)|(s & A & _ & H)].
  - rewrite HF in H. discriminate.
  - cbv zeta in H. rewrite HF in H. cbn [fst snd] in H. destruct (build_fcm _ _ _ _ _) as [g' r] eqn:Eb. cbn [fst snd] in H.
    destruct H as (<- & H1 & H2 & H3 & H4 & H5). exists s, g'. split; auto. split; [now apply (alike_blank _ _ A)|]. split; auto.
    split; [|auto]. unfold e_gen. rewrite H4, H1, H2, H3. now destruct g'.
Qed.
Lemma fit_plan cf x y e0 e e' : reorders (c_ord cf) -> estimator e0 e -> NoDup (dkeys (join_frames x y)) -> fit cf x y e = (e', Ok tt) ->
  exists s ops fds, alike s (e_map e0) /\ blank s /\
    plan_build cf (m_default s) (dkeys y) [] (join_frames x y) = Ok (ops, fds) /\
    e_map e' = run_ops ops s /\ ready (m_default s) fds (e_gen e') /\ g_fcm (e_gen e') = e_map e'.
Proof.
  intros HO HE ND HF. destruct (fit_built _ _ _ _ _ _ HE HF) as (s & g' & A & B & Hb & Hg & Hm & _).
  assert (R : ready (m_default s) [] (mkGen [] [] s)).
  { split; [apply B|]. split; auto. split; auto. split; [intros dd []|]. cbn. intros f Hf. now elim Hf. }
  pose proof (build_plan cf HO (m_default s) (dkeys y) [] (join_frames x y) _ R ND) as P. change (build_fcm cf (join_frames x y) (dkeys y) s (mkGen [] [] s)) with (sfold (add_feature cf (dkeys y)) (join_frames x y) (mkGen [] [] s)) in Hb.
  destruct (plan_build _ _ _ _ _) as [[ops fds]|er] eqn:Ep.
  - destruct P as (g2 & E2 & F2 & R2). rewrite Hb in E2. injection E2 as <-. exists s, ops, fds. cbn [g_fcm] in F2.
    rewrite Hg, Hm. split; auto.
  - rewrite Hb in P. discriminate.
Qed.
(** concepts and relations of the generated map *)
Lemma generated cf x y e0 e e' : reorders (c_ord cf) -> (forall a b : F, nmul a b = nmul b a) ->
  estimator e0 e -> NoDup (dkeys (join_frames x y)) -> fit cf x y e = (e', Ok tt) ->
  exists fds, ready (m_default (e_map e')) fds (e_gen e') /\ Forall2 (described cf (dkeys y)) (join_frames x y) fds /\ map fd_feat fds = dkeys (join_frames x y) /\
    Forall (fun d => length (fd_rows d) = length (fd_names d)) fds /\
    concepts (e_map e') = fold_left insert_name (flat_map fd_names fds) [] /\
    (forall a b w, In (a, b, w) (relations (e_map e')) <-> exclusion cf fds a b w \/ association cf fds a b w).
Proof.
  intros HO comm HE ND HF. destruct (fit_plan _ _ _ _ _ _ HO HE ND HF) as (s & ops & fds & A & B & Hp & Hm & R & Hg).
  pose proof (all_rels_In cf HO comm _ _ _ _ _ ND Hp) as AR.
  destruct (plan_build_spec cf _ _ _ _ _ _ Hp) as (rest & E & D & Dn & Rl & An & Nm & Bd & Cn & Ln). cbn in E. subst rest.
  destruct B as (B1 & B2 & B3 & B4).
  destruct (run_building (m_default s) [] ops s B4 eq_refl Bd) as (Q1 & Q2 & _); auto.
  { apply Forall_forall. intros o Ho Hc. rewrite Forall_forall in Cn. destruct (Cn o Ho Hc) as (d & _ & _ & Hd). eauto. }
  { intros z []. }
  exists fds. split.
  { destruct R as (R1 & R2 & R3). split; auto. split; auto. destruct (e_gen e') eqn:Eg. cbn in *. now subst. }
  split; auto. split; auto. split; auto. rewrite Hm. split.
  - rewrite Q2. unfold concepts. rewrite B1. cbn [dkeys map]. f_equal. exact Nm.
  - intros a b w. rewrite Q1. unfold relations at 1. rewrite B3. apply AR.
Qed.
End AssocGen.
