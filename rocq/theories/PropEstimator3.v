(** PropEstimator3.v — fitting and predicting with the vectorized engine (C76, C77). *)
From Coq Require Import Reals QArith Permutation.
From Verif Require Import Base BaseFacts Num QNum Functions Fcm FcmSpec DynSpec FcmInv FcmInv2 FcmRun LearnUtils LearnSpec LearnFacts Assoc AssocSpec AssocFacts AssocFacts2 AssocNames Estimator EstFacts EstFacts2 EstSpec EstFacts4 AssocGen EstFacts5 EstFacts6 EstFacts7 EstFacts9 EstExamples PropEstimator2.
Local Close Scope Q_scope.
Local Close Scope R_scope.

Section Vectorized.
Context {F : Type} {N : Num F}.
(** ** C76 *)
(** As C76_predict_succeeds, with the vectorized engine: at least two iterations must
    be allowed, the data fitted must not be empty, and 0 and 1 must not equal 2. *)
Theorem C76_vectorized : forall cf mi ex sd de me xc ac kw e0 e1 e2 e x y x',
  neqb (Num := N) n0 n2 = false -> neqb (Num := N) n1 n2 = false ->
  c_sep cf = "___" -> reorders (c_ord cf) -> (forall a b : F, nmul a b = nmul b a) ->
  init_est mi ex sd de me xc ac kw true = Ok e0 -> (2 <= mi)%Z -> callable ac kw -> de <> "EXITED" ->
  (de <> "LAST" -> neqb (nofZ (Num := N) 0) n0 = true /\ forall k, (0 < k)%Z -> neqb (nofZ (Num := N) k) n0 = false) ->
  healthy e0 e1 -> fit cf x y e1 = (e2, Ok tt) -> used e2 e ->
  readable_data cf (join_frames x y) -> (exists f c, In (f, c) (join_frames x y) /\ 0 < col_length c) ->
  (forall f c, In (f, c) (join_frames x y) -> exists texts rows, levels cf c texts rows /\ is_discrete cf c texts) ->
  (forall f c, In (f, c) x' -> In f (dkeys (join_frames x y)) /\ (forall l, c = ColStr l -> Forall readable l)) ->
  (forall q, exists z, c_trunc cf q = Ok z) ->
  exists out, snd (predict cf x' e) = Ok out.
Proof. intros. eapply (vec_predict_succeeds); eauto. Qed.

(** ** C77 *)
(** A vectorized estimator that was fitted and used can be fitted again (C51: not
    with one iteration only). *)
Theorem C77_vectorized_refit : forall cf mi ex sd de me xc ac kw e0 e1 e2 e x y n x2 y2,
  neqb (Num := N) n0 n2 = false -> neqb (Num := N) n1 n2 = false ->
  c_sep cf = "___" -> reorders (c_ord cf) -> (forall a b : F, nmul a b = nmul b a) ->
  (forall c, (exists v, measure (c_eval cf) c v) /\ (exists v, measure (c_caus cf) c v) /\
     forall f, c_sign cf = Some f -> exists v, measure f c v) ->
  init_est mi ex sd de me xc ac kw true = Ok e0 -> (2 <= mi)%Z -> callable ac kw ->
  healthy e0 e1 -> fit cf x y e1 = (e2, Ok tt) -> used e2 e ->
  readable_data cf (join_frames x y) -> (exists f c, In (f, c) (join_frames x y) /\ 0 < col_length c) ->
  (forall f c, In (f, c) (join_frames x y) -> exists texts rows, levels cf c texts rows /\ is_discrete cf c texts) ->
  NoDup (dkeys (join_frames x2 y2)) ->
  (forall f c, In (f, c) (join_frames x2 y2) -> col_length c = n /\ exists texts rows, levels cf c texts rows /\ is_discrete cf c texts) ->
  exists e', fit cf x2 y2 e = (e', Ok tt).
Proof.
  intros cf mi ex sd de me xc ac kw e0 e1 e2 e x y n x2 y2 Z2 O2 Hs HO HM Hm H0 Hmi Hc HH HF HU RD SR Ds ND Hcol.
  pose proof (vec_used_hist Z2 O2 cf Hs HO HM mi ex sd de me xc ac kw e0 e1 e2 x y H0 Hmi Hc HH RD Ds SR HF e HU) as SH.
  apply (fit_succeeds cf HM HO (fun r => length r = n)) with (e0 := e0); auto.
  - intros ra rb H1 H2. destruct (same_length_coefs ra rb) as [c Hcc]; [congruence|]. exists c. split; auto. apply Hm.
  - exact (healthy_estimator _ _ (healthy_used _ _ _ (healthy_fit _ _ _ _ _ _ HH HF) HU)).
  - intros f c Hi. destruct (Hcol f c Hi) as [<- Hl]. split; auto. intros r. apply desc_length.
Qed.
End Vectorized.
Print Assumptions C76_vectorized.
Print Assumptions C77_vectorized_refit.

(** ** Non-vacuity *)
Definition qw0 : est Q := Eval vm_compute in
  made (init_est (F := Q) 5 2 (nlit 1 1000) "MEAN" true "KOSKO" "saturation" [] true).
Definition qw1 : est Q := Eval vm_compute in fst (fit qcf_total qx qy qw0).
Lemma qw_made : init_est (F := Q) 5 2 (nlit 1 1000) "MEAN" true "KOSKO" "saturation" [] true = Ok qw0.
Proof. vm_compute. reflexivity. Qed.
Lemma qw_fit : fit qcf_total qx qy qw0 = (qw1, Ok tt).
Proof. vm_compute. reflexivity. Qed.
Lemma qw_healthy : healthy qw0 qw0.
Proof. split; [repeat eexists; exact qw_made|now exists []]. Qed.
Lemma qw_readable : readable_data qcf_total (join_frames qx qy).
Proof. exact q_readable. Qed.
Lemma qw_discrete : forall f c, In (f, c) (join_frames qx qy) -> exists texts rows, levels qcf_total c texts rows /\ is_discrete qcf_total c texts.
Proof.
  intros f c H. exists (fst (discrete_desc qcf_total c)), (snd (discrete_desc qcf_total c)). split; [apply levels_desc|].
  destruct H as [H|[H|[H|[H|[]]]]]; injection H as <- <-; cbn; auto. split; [reflexivity|]. repeat constructor.
Qed.
Example C76_vectorized_nonvacuous : exists out, snd (predict qcf_total qx qw1) = Ok out.
Proof.
  apply (C76_vectorized qcf_total 5 2 (nlit 1 1000) "MEAN" true "KOSKO" "saturation" [] qw0 qw0 qw1 qw1 qx qy qx); [reflexivity|reflexivity|reflexivity|..].
  - apply q_orders.
  - apply q_comm.
  - exact qw_made.
  - discriminate.
  - left. split; auto. cbn. auto.
  - discriminate.
  - intros _. split; [reflexivity|]. intros k Hk. destruct k; try discriminate; reflexivity.
  - exact qw_healthy.
  - exact qw_fit.
  - apply used_self.
  - exact qw_readable.
  - exists "f", (ColStr ["a"; "b"; "a"; "b"]). split; [now left|]. cbn. auto with arith.
  - exact qw_discrete.
  - intros f c [H|[H|[H|[]]]]; injection H as <- <-; (split; [cbn; auto|]); intros l [= <-].
    repeat (apply Forall_cons; [apply one_readable; discriminate|]); apply Forall_nil.
  - intros q. now exists 0%Z.
Qed.
Lemma qw_total : forall c, (exists v, measure (c_eval qcf_total) c v) /\ (exists v, measure (c_caus qcf_total) c v) /\
  forall f, c_sign qcf_total = Some f -> exists v, measure f c v.
Proof.
  intros [[[p q] r] t]. split; [eexists; reflexivity|]. split; [|discriminate]. cbn [measure c_caus qcf_total]. unfold rel_conf.
  destruct (neqb (nadd p q) n0) eqn:E; [eauto|]. unfold pdiv. rewrite E. eauto.
Qed.
Example C77_vectorized_nonvacuous : forall x, exists e', fit qcf_total qx qy (fst (predict qcf_total x qw1)) = (e', Ok tt).
Proof.
  intros x. apply (C77_vectorized_refit qcf_total 5 2 (nlit 1 1000) "MEAN" true "KOSKO" "saturation" [] qw0 qw0 qw1 _ qx qy 4 qx qy); [reflexivity|reflexivity|reflexivity|..].
  - apply q_orders.
  - apply q_comm.
  - exact qw_total.
  - exact qw_made.
  - discriminate.
  - left. split; auto. cbn. auto.
  - exact qw_healthy.
  - exact qw_fit.
  - exists [EPredict qcf_total x]. split; [reflexivity|]. unfold eruns. cbn [fold_left edo]. now destruct (predict qcf_total x qw1).
  - exact qw_readable.
  - exists "f", (ColStr ["a"; "b"; "a"; "b"]). split; [now left|]. cbn. auto with arith.
  - exact qw_discrete.
  - apply q_readable.
  - intros f c H. split; [|now apply qw_discrete with f]. destruct H as [H|[H|[H|[H|[]]]]]; injection H as <- <-; reflexivity.
Qed.
