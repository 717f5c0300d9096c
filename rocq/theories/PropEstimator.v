(** PropEstimator.v — properties C49 to C51: predicting, scoring and fitting again. *)
From Coq Require Import QArith Reals Lra.
From Verif Require Import Base BaseFacts Num RealFacts QNum Functions Fcm FcmSpec FcmRun FcmRun3 LearnUtils Assoc AssocSpec AssocGen Estimator EstFacts EstFacts3 EstSpec EstFacts4 EstExamples.
Local Open Scope nat_scope.

Section General.
Context {F : Type} {N : Num F}.
(** an estimator fitted and used without a failing fit; the vectorized engine needs
    a concept *)
Definition ready (e : est F) : Prop :=
  (exists e0, healthy e0 e) /\ e_generated e = true /\ (m_debug (e_map e) = false -> concepts (e_map e) <> []).
Lemma ready_usable e : ready e -> usable (g_fcm (e_gen e)) /\ e_priv e = None.
Proof.
  intros ((e0 & H) & G & D). pose proof (healthy_priv _ _ (healthy_estimator _ _ H) G) as P. split; auto. unfold e_gen. rewrite P.
  split; auto. exact (healthy_sane _ _ H).
Qed.

(** ** C49 *)
(** any rows in any order, also repeated: predicting them together succeeds if and
    only if predicting each alone does, and gives the same labels *)
Theorem C49_rows_independent : forall (cf : gconf F) n x is e, ready e -> table n x -> Forall (fun i => i < n) is ->
  ((exists out, snd (predict cf (pick_rows is x) e) = Ok out) <->
   exists os, Forall2 (fun i o => snd (predict cf (pick_rows [i] x) e) = Ok o) is os) /\
  forall out os, snd (predict cf (pick_rows is x) e) = Ok out -> Forall2 (fun i o => snd (predict cf (pick_rows [i] x) e) = Ok o) is os ->
    forall f, labels out f = flat_map (fun o => labels o f) os.
Proof. intros cf n x is e H Ht Hi. destruct (ready_usable e H) as [U _]. apply (predict_many cf n); auto. apply H. Qed.
(** the whole table *)
Theorem C49_all_rows : forall (cf : gconf F) n x e out os, ready e -> table n x -> snd (predict cf x e) = Ok out ->
  Forall2 (fun i o => snd (predict cf (pick_rows [i] x) e) = Ok o) (seq 0 n) os ->
  forall f, labels out f = flat_map (fun o => labels o f) os.
Proof.
  intros cf n x e out os H Ht Ho Hs. destruct (C49_rows_independent cf n x (seq 0 n) e H Ht) as [_ K].
  { apply Forall_forall. intros i Hi. apply in_seq in Hi. lia. }
  apply K; auto. now rewrite (pick_rows_all n).
Qed.
(** nothing remains of earlier predictions or scores *)
Theorem C49_no_memory : forall (cf : gconf F) x e e' out, ready e -> used e e' ->
  snd (predict cf x e') = Ok out <-> snd (predict cf x e) = Ok out.
Proof.
  intros cf x e e' out H HU. destruct (ready_usable e H) as [U P]. destruct (used_moved e e' P HU) as (M & P' & G).
  assert (G0 : e_generated e = true) by apply H. pose proof (usable_moved _ _ M U) as U'.
  rewrite !predict_ok by (auto; congruence).
  split; intros (ps & Hp & ->); exists ps; (split; [|auto]); (eapply Forall2_impl'; [|exact Hp]); cbv beta; intros r p; apply (predict_again cf r _ _ p M U).
Qed.

(** ** C50 *)
Theorem C50_not_fitted : forall (cf : gconf F) x y e, e_generated e = false ->
  score cf x y e = (e, Err (EExc "There is no FCM generated, the fit method mus be called first")).
Proof. intros cf x y e H. unfold score. now rewrite H. Qed.
Theorem C50_fraction : forall (cf : gconf F) x y e v, snd (score cf x y e) = Ok v <->
  e_generated e = true /\ exists out, snd (predict cf x e) = Ok out /\ covered out y /\
    pdiv (nat2F (hits out y)) (nat2F (label_count y)) = Ok v.
Proof. intros. apply score_ok. Qed.

(** ** C51 *)
(** whatever happened before, a fit that succeeds gives what a new estimator gives *)
Theorem C51_refit : forall (cf : gconf F) x y e0 e e', estimator e0 e -> fit cf x y e = (e', Ok tt) ->
  snd (fit cf x y e0) = Ok tt /\ fitted_model e' = fitted_model (fst (fit cf x y e0)).
Proof.
  intros cf x y e0 e e' HE HF. destruct (estimator_state _ _ HE) as (B & S & P & G).
  assert (S0 : state_of e0 e0) by (left; destruct P as (p & P1 & P2); eauto).
  assert (P0 : exists p, e_priv e0 = Some p) by (destruct P as (p & P1 & P2); exists p; exact P1).
  destruct (refit cf x y e0 e B S S0 P0) as [(er & _ & H)|[H1 H2]]; [rewrite HF in H; discriminate|].
  rewrite HF in H1, H2. cbn [fst snd] in H1, H2. auto.
Qed.
Theorem C51_twice : forall (cf : gconf F) x y e0 e e1 e2, estimator e0 e -> fit cf x y e = (e1, Ok tt) -> fit cf x y e1 = (e2, Ok tt) ->
  fitted_model e2 = fitted_model e1.
Proof.
  intros cf x y e0 e e1 e2 HE H1 H2. destruct (C51_refit cf x y e0 e e1 HE H1) as [_ ->].
  assert (HE1 : estimator e0 e1).
  { destruct HE as [K (l & ->)]. split; auto. exists (l ++ [EFit cf x y]). rewrite eruns_app. unfold eruns at 1. cbn [fold_left edo]. now rewrite H1. }
  now destruct (C51_refit cf x y e0 e1 e2 HE1 H2) as [_ ->].
Qed.
(** with the iterative engine the outcome is the same too, exceptions included *)
Theorem C51_iterative : forall (cf : gconf F) x y e0 e, healthy e0 e -> m_debug (e_map e0) = true ->
  snd (fit cf x y e) = snd (fit cf x y e0) /\ fitted_model (fst (fit cf x y e)) = fitted_model (fst (fit cf x y e0)).
Proof.
  intros cf x y e0 e HH D. pose proof (healthy_trail _ _ HH) as T. pose proof (healthy_estimator _ _ HH) as HE.
  destruct (estimator_state _ _ HE) as (B & S & P & G).
  assert (S0 : state_of e0 e0) by (left; destruct P as (p & P1 & P2); eauto).
  assert (P0 : exists p, e_priv e0 = Some p) by (destruct P as (p & P1 & P2); exists p; exact P1).
  destruct (refit cf x y e0 e B S S0 P0) as [(er & H & _)|H]; auto. exfalso.
  destruct HH as [(mi & ex & sd & de & me & xc & ac & kw & vec & H0) _].
  assert (vec = false) as -> by (apply init_est_spec in H0 as (_ & _ & _ & Hd & _); rewrite D in Hd; now destruct vec).
  pose proof (est_iterative e0 e _ _ _ _ _ _ _ _ H0 T) as It. destruct S as [(p & Hp & Tp & _)|[Hp _]].
  - rewrite reset_blank in H; [discriminate|]. unfold e_gen. rewrite Hp. exact Tp.
  - unfold reset, on_fcm, e_gen in H. rewrite Hp in H. cbn [g_fcm] in H. pose proof (clear_all_ok _ It) as C.
    destruct (clear_all (e_map e)) as [s r]. cbn in C, H. subst r. discriminate.
Qed.
End General.

(** in exact arithmetic the score is the fraction of right labels *)
Theorem C50_range : forall (cf : gconf R) x y e v, snd (score cf x y e) = Ok v ->
  exists out, snd (predict cf x e) = Ok out /\ (hits out y <= label_count y)%nat /\ (0 < label_count y)%nat /\
    v = (INR (hits out y) / INR (label_count y))%R /\ (0 <= v <= 1)%R.
Proof.
  intros cf x y e v H. apply C50_fraction in H as (_ & out & Ho & Hc & Hv). exists out. split; auto. pose proof (hits_le out y Hc) as L. split; auto.
  unfold nat2F in Hv. cbn [nofZ RNum] in Hv. rewrite <- !INR_IZR_INZ in Hv. unfold pdiv in Hv.
  destruct (neqb (INR (label_count y)) n0) eqn:E; [discriminate|]. injection Hv as <-.
  assert (Pz : (0 < label_count y)%nat).
  { destruct (label_count y); [|lia]. exfalso. apply Bool.not_true_iff_false in E. apply E. apply Reqb_true. reflexivity. }
  split; auto. assert (P1 : (0 < INR (label_count y))%R) by (now apply lt_0_INR). apply le_INR in L. pose proof (pos_INR (hits out y)).
  split; [reflexivity|]. cbn. split.
  - apply Rmult_le_pos; auto. left. now apply Rinv_0_lt_compat.
  - apply (Rmult_le_reg_r (INR (label_count y))); auto. unfold Rdiv. rewrite Rmult_assoc, Rinv_l by lra. lra.
Qed.

(** With the vectorized engine and one iteration (the constructor accepts it) a
    prediction leaves the map in a state from which the next fit raises. *)
Theorem C51_vectorized_refuted : exists e0 e1 e2 (cf : gconf Q) x y,
  (exists mi ex sd de me xc ac kw, init_est mi ex sd de me xc ac kw true = Ok e0) /\
  fit cf x y e0 = (e1, Ok tt) /\ e2 = fst (predict cf x e1) /\ snd (fit cf x y e2) = Err EIndex.
Proof.
  exists qv0, qv1, (fst (predict qcf qx qv1)), qcf, qx, qy. split; [repeat eexists; exact qv_made|]. split; [exact qv_fit|].
  split; [reflexivity|]. vm_compute. reflexivity.
Qed.

Print Assumptions C49_rows_independent.
Print Assumptions C49_all_rows.
Print Assumptions C49_no_memory.
Print Assumptions C50_not_fitted.
Print Assumptions C50_fraction.
Print Assumptions C50_range.
Print Assumptions C51_refit.
Print Assumptions C51_twice.
Print Assumptions C51_iterative.
Print Assumptions C51_vectorized_refuted.

(** ** The hypotheses can be met *)
Lemma qe1_ready : ready qe1.
Proof.
  split; [exists qe0; exact (healthy_fit _ _ _ _ _ _ qe_healthy qe_fit)|]. split; [reflexivity|discriminate].
Qed.
Example C49_example : ready qe1 /\ table 4 qx /\
  snd (predict qcf (pick_rows [3; 0; 3] qx) qe1) = Ok [("c"%string, [CStr "v"; CStr "u"; CStr "v"])] /\
  used qe1 (fst (predict qcf qx qe1)).
Proof.
  split; [exact qe1_ready|]. split.
  - split; [discriminate|]. intros f c [H|[H|[H|[]]]]; now injection H as <- <-.
  - split; [vm_compute; reflexivity|]. exists [EPredict qcf qx]. split; [reflexivity|]. unfold eruns. cbn [fold_left]. unfold edo. destruct (predict qcf qx qe1) as [e r]. reflexivity.
Qed.
Example C50_example : snd (score qcf qx [("c"%string, ColStr ["u"; "u"; "u"; "v"]%string)] qe1) = Ok (3 # 4)%Q /\
  snd (score qcf qx qy qe0) = Err (EExc "There is no FCM generated, the fit method mus be called first").
Proof. split; vm_compute; reflexivity. Qed.
Example C51_example : snd (fit qcf qx qy (fst (predict qcf qx qe1))) = Ok tt /\ snd (fit qcf (tl qx) qy qe1) = Ok tt /\
  fitted_model (fst (fit qcf qx qy (fst (fit qcf (tl qx) qy qe1)))) = fitted_model qe1.
Proof. split; [vm_compute; reflexivity|]. split; vm_compute; reflexivity. Qed.
