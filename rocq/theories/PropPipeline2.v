(** PropPipeline2.v — predicting with continuous features (C101). *)
From Coq Require Import Reals Lra Lia Permutation.
From Verif Require Import Base BaseFacts Num RealFacts RlFacts Functions FunctionsFacts Spec Fcm FcmSpec DynSpec FcmInv FcmInv2 FcmInv3 LearnUtils LearnSpec LearnFacts Discret DiscretFacts DiscretFacts2
  Assoc AssocSpec AssocFacts AssocFacts2 AssocFacts4 AssocNames AssocRange AssocRow Estimator EstSpec EstFacts EstFacts4 EstFacts5 EstFacts6 EstFacts7 EstFacts8 AssocGen AssocPredict Pipeline PipeFacts PipeFacts2 PipeFacts3 LoaderSpec JoinFacts EstExamples PropAssoc PropEstimator2 PropRows PropPipeline.
Local Open Scope R_scope.

(** ** C101 *)
(** After fitting with the discretization of the code, the iterative engine
    predicts every frame of known columns (numbers for the continuous ones), if no
    cluster has incoming weights that cancel. *)
Theorem C101_iterative : forall (cf : gconf R) strategy curve rand mi ex sd de me xc ac kw e0 e e' e2 x y x',
  c_sep cf = "___"%string -> reorders (c_ord cf) -> c_disc cf = generator_disc strategy curve rand ->
  In strategy ["cmeans-gap"; "cmeans-sil"; "cmeans-cfe"; "rl-cmeans"]%string -> sampled curve rand ->
  init_est mi ex sd de me xc ac kw false = Ok e0 -> callable ac kw -> de <> "EXITED"%string ->
  healthy e0 e -> readable_data cf (join_frames x y) -> fit cf x y e = (e', Ok tt) -> used e' e2 ->
  (forall f c', In (f, c') x' -> exists c, In (f, c) (join_frames x y) /\ forall texts rows l, levels cf c texts rows -> c' = ColStr l ->
     is_discrete cf c texts /\ Forall readable l) ->
  (forall r f q, In r (iterrows x') -> In (f, CFlt q) r -> exists z, c_trunc cf q = Ok z) ->
  (forall c n t, dget (m_topo (e_map e')) c = Some n -> nd_type n = Some t -> t = TYPE_FUZZY \/ t = TYPE_REGRESOR ->
     Rsum (incoming_weights (relations (e_map e')) c) <> 0) ->
  exists out, snd (predict cf x' e2) = Ok out.
Proof.
  intros cf st curve rand mi ex sd de me xc ac kw e0 e e' e2 x y x' Hsep HO Hd Hst Hs H0 Hc He HH RD HF HU Hx Hq Hw.
  eapply (predict_fuzzy cf Hsep HO (gen_disc_sound cf st curve rand Hd Hst Hs)); eauto.
  - intros c n t Hn Ht Hz. apply (Hw c n t Hn Ht). now apply fuzzy_types.
  - intros r f v Hr Hf. destruct (row_cell _ _ _ _ Hr Hf) as (c' & Hcx & Hv). destruct (Hx f c' Hcx) as (c & Hi & X). exists c. split; auto.
    intros texts rows L. split.
    + intros _. split.
      * destruct v as [s|b|z|q]; cbn [cell_text]; eauto. destruct (Hq r f q Hr Hf) as [z ->]. cbn. eauto.
      * intros str ->. destruct Hv as (l & -> & Hl). destruct (X texts rows l L eq_refl) as [_ Y]. rewrite Forall_forall in Y. auto.
    + intros Nd str ->. destruct Hv as (l & -> & Hl). destruct (X texts rows l L eq_refl) as [Y _]. auto.
Qed.
(** It cannot predict anything otherwise (extra_steps above 1, as by default): the
    step divides by that sum. *)
Theorem C101_iterative_only_if : forall (cf : gconf R) strategy curve rand mi ex sd de me xc ac kw e0 e e' e2 x y x' out,
  c_sep cf = "___"%string -> reorders (c_ord cf) -> c_disc cf = generator_disc strategy curve rand ->
  In strategy ["cmeans-gap"; "cmeans-sil"; "cmeans-cfe"; "rl-cmeans"]%string -> sampled curve rand ->
  init_est mi ex sd de me xc ac kw false = Ok e0 -> (2 <= ex)%Z -> (1 <= mi)%Z ->
  healthy e0 e -> readable_data cf (join_frames x y) -> fit cf x y e = (e', Ok tt) -> used e' e2 ->
  iterrows x' <> [] -> snd (predict cf x' e2) = Ok out ->
  forall c n t, dget (m_topo (e_map e')) c = Some n -> nd_type n = Some t -> t = TYPE_FUZZY \/ t = TYPE_REGRESOR ->
     Rsum (incoming_weights (relations (e_map e')) c) <> 0.
Proof.
  intros cf st curve rand mi ex sd de me xc ac kw e0 e e' e2 x y x' out Hsep HO Hd Hst Hs H0 Hx Hm HH RD HF HU Hr Hp c n t Hn Ht Hz.
  apply (predict_weighted cf Hsep HO (gen_disc_sound cf st curve rand Hd Hst Hs) _ _ _ _ _ _ _ _ _ _ _ _ _ _ H0 HH RD HF HU x' out Hx Hm Hr Hp c n t Hn Ht).
  now apply fuzzy_types.
Qed.
(** With an exclusion value, no double relations and no relations between features,
    the weights never cancel, so predicting never fails (targets not continuous). *)
Theorem C101_excluding : forall (cf : gconf R) strategy curve rand mi ex sd de me xc ac kw e0 e e' e2 x y x',
  c_sep cf = "___"%string -> reorders (c_ord cf) -> c_disc cf = generator_disc strategy curve rand ->
  In strategy ["cmeans-gap"; "cmeans-sil"; "cmeans-cfe"; "rl-cmeans"]%string -> sampled curve rand ->
  c_excl cf <> 0 -> c_double cf = false -> c_featrel cf = false ->
  init_est mi ex sd de me xc ac kw false = Ok e0 -> callable ac kw -> de <> "EXITED"%string ->
  healthy e0 e -> readable_data cf (join_frames x y) -> fit cf x y e = (e', Ok tt) -> used e' e2 ->
  (forall f c texts rows, In (f, c) (join_frames x y) -> In f (dkeys y) -> levels cf c texts rows -> is_discrete cf c texts) ->
  (forall f c', In (f, c') x' -> exists c, In (f, c) (join_frames x y) /\ forall texts rows l, levels cf c texts rows -> c' = ColStr l ->
     is_discrete cf c texts /\ Forall readable l) ->
  (forall r f q, In r (iterrows x') -> In (f, CFlt q) r -> exists z, c_trunc cf q = Ok z) ->
  exists out, snd (predict cf x' e2) = Ok out.
Proof.
  intros cf st curve rand mi ex sd de me xc ac kw e0 e e' e2 x y x' Hsep HO Hd Hst Hs X0 Xd Xf H0 Hc He HH RD HF HU Hy Hx Hq.
  apply (C101_iterative cf st curve rand mi ex sd de me xc ac kw e0 e e' e2 x y x'); auto.
  intros c n t Hn Ht Hz. apply (excluded_weighted cf x y e0 e e') with (c := c) (n := n) (t := t); auto.
  - now apply healthy_estimator.
  - intros f data n' vals ms E. rewrite Hd in E. now apply (gen_disc_many st curve rand f data n' vals ms).
  - now apply fuzzy_types.
Qed.
(** A trained estimator should be able to predict.  Without an exclusion value it
    cannot: with the other settings as above and a continuous feature, every
    prediction in the iterative engine raises (extra_steps above 1). *)
Theorem C101_not_excluding_refuted : forall (cf : gconf R) strategy curve rand mi ex sd de me xc ac kw e0 e e' e2 x y x' f c texts rows,
  c_sep cf = "___"%string -> reorders (c_ord cf) -> c_disc cf = generator_disc strategy curve rand ->
  In strategy ["cmeans-gap"; "cmeans-sil"; "cmeans-cfe"; "rl-cmeans"]%string -> sampled curve rand ->
  c_excl cf = 0 -> c_double cf = false -> c_featrel cf = false ->
  init_est mi ex sd de me xc ac kw false = Ok e0 -> (2 <= ex)%Z -> (1 <= mi)%Z ->
  healthy e0 e -> readable_data cf (join_frames x y) -> fit cf x y e = (e', Ok tt) -> used e' e2 ->
  In (f, c) (join_frames x y) -> ~ In f (dkeys y) -> levels cf c texts rows -> ~ is_discrete cf c texts ->
  iterrows x' <> [] -> exists er, snd (predict cf x' e2) = Err er.
Proof.
  intros cf st curve rand mi ex sd de me xc ac kw e0 e e' e2 x y x' f c texts rows Hsep HO Hd Hst Hs X0 Xd Xf H0 Hx Hm HH RD HF HU Hi Hy Lv Nd Hr.
  destruct (snd (predict cf x' e2)) as [out|er] eqn:Ep; [|eauto]. exfalso.
  destruct (no_incoming cf x y e0 e e' f c texts rows Hsep HO (healthy_estimator _ _ HH) RD HF X0 Xd Xf) as (k & n & Hn & Ht & Hw); auto.
  - intros data n vals ms E. rewrite Hd in E. pose proof (gen_disc_many st curve rand f data n vals ms Hst Hs E). lia.
  - apply (C101_iterative_only_if cf st curve rand mi ex sd de me xc ac kw e0 e e' e2 x y x' out Hsep HO Hd Hst Hs H0 Hx Hm HH RD HF HU Hr Ep k n TYPE_FUZZY Hn Ht); auto.
    rewrite Hw. reflexivity.
Qed.
(** The vectorized engine (the default) divides by positive sums only, so there
    predicting succeeds whatever the weights are, from any state the estimator can
    be in after fitting data with at least one row. *)
Theorem C101_vectorized : forall (cf : gconf R) strategy curve rand mi ex sd de me xc ac kw e0 e e' e2 x y x',
  c_sep cf = "___"%string -> reorders (c_ord cf) -> c_disc cf = generator_disc strategy curve rand ->
  In strategy ["cmeans-gap"; "cmeans-sil"; "cmeans-cfe"; "rl-cmeans"]%string -> sampled curve rand ->
  init_est mi ex sd de me xc ac kw true = Ok e0 -> (2 <= mi)%Z -> callable ac kw -> de <> "EXITED"%string ->
  healthy e0 e -> readable_data cf (join_frames x y) -> (exists f c, In (f, c) (join_frames x y) /\ (0 < col_length c)%nat) ->
  fit cf x y e = (e', Ok tt) -> used e' e2 ->
  (forall f c', In (f, c') x' -> exists c, In (f, c) (join_frames x y) /\ forall texts rows l, levels cf c texts rows -> c' = ColStr l ->
     is_discrete cf c texts /\ Forall readable l) ->
  (forall r f q, In r (iterrows x') -> In (f, CFlt q) r -> exists z, c_trunc cf q = Ok z) ->
  exists out, snd (predict cf x' e2) = Ok out.
Proof.
  intros cf st curve rand mi ex sd de me xc ac kw e0 e e' e2 x y x' Hsep HO Hd Hst Hs H0 Hmi Hc He HH RD Sr HF HU Hx Hq.
  eapply (vec_predict_fuzzy cf Hsep HO (gen_disc_sound cf st curve rand Hd Hst Hs)); eauto.
  - intros f data n vals ms E. rewrite Hd in E. pose proof (gen_disc_many st curve rand f data n vals ms Hst Hs E). lia.
  - intros r f v Hr Hf. destruct (row_cell _ _ _ _ Hr Hf) as (c' & Hcx & Hv). destruct (Hx f c' Hcx) as (c & Hi & X). exists c. split; auto.
    intros texts rows L. split.
    + intros _. split.
      * destruct v as [s|b|z|q]; cbn [cell_text]; eauto. destruct (Hq r f q Hr Hf) as [z ->]. cbn. eauto.
      * intros str ->. destruct Hv as (l & -> & Hl). destruct (X texts rows l L eq_refl) as [_ Y]. rewrite Forall_forall in Y. auto.
    + intros Nd str ->. destruct Hv as (l & -> & Hl). destruct (X texts rows l L eq_refl) as [Y _]. auto.
Qed.
(** ** C100, vectorized *)
(** A vectorized estimator that was fitted and used can be fitted again, also with
    continuous columns, and exactly when a new one could be. *)
Theorem C100_vectorized_refit : forall (cf : gconf R) strategy curve rand mi ex sd de me xc ac kw e0 e1 e2 e x y n x2 y2,
  c_sep cf = "___"%string -> reorders (c_ord cf) -> c_disc cf = generator_disc strategy curve rand ->
  In strategy ["cmeans-gap"; "cmeans-sil"; "cmeans-cfe"; "rl-cmeans"]%string -> sampled curve rand ->
  In (c_eval cf) named_measures -> In (c_caus cf) named_measures -> (forall f, c_sign cf = Some f -> In f named_measures) ->
  init_est mi ex sd de me xc ac kw true = Ok e0 -> (2 <= mi)%Z -> callable ac kw ->
  healthy e0 e1 -> readable_data cf (join_frames x y) -> (exists f c, In (f, c) (join_frames x y) /\ (0 < col_length c)%nat) ->
  fit cf x y e1 = (e2, Ok tt) -> used e2 e ->
  NoDup (dkeys (join_frames x2 y2)) -> (forall f c, In (f, c) (join_frames x2 y2) -> col_length c = n) ->
  (exists e', fit cf x2 y2 e = (e', Ok tt)) <->
  (forall f l, In (f, ColInt l) (join_frames x2 y2) -> c_infer cf = true \/ varied (map IZR l)) /\
  (forall f l, In (f, ColFlt l) (join_frames x2 y2) -> c_infer cf = true \/ varied l).
Proof.
  intros cf st curve rand mi ex sd de me xc ac kw e0 e1 e2 e x y n x2 y2 Hsep HO Hd Hst Hs M1 M2 M3 H0 Hmi Hc HH RD SR HF HU ND Hl.
  assert (SH : sane (e_map e) /\ hist_ne (e_map e)).
  { apply (firm_used_hist cf Hsep HO (gen_disc_sound cf st curve rand Hd Hst Hs)) with (mi := mi) (ex := ex) (sd := sd) (de := de) (me := me) (xc := xc) (ac := ac) (kw := kw) (e0 := e0) (e := e1) (e' := e2) (x := x) (y := y); auto.
    intros f data k vals ms E. rewrite Hd in E. pose proof (gen_disc_many st curve rand f data k vals ms Hst Hs E). lia. }
  rewrite (fit_exactly cf st curve rand n x2 y2 e0 e); auto.
  - split; [intros H; split; intros f l Hi; exact (H _ _ Hi)|]. intros [Hi Hf] f c Hcc. destruct c; cbn; eauto.
  - now split.
  - exact (healthy_estimator _ _ (healthy_used _ _ _ (healthy_fit _ _ _ _ _ _ HH HF) HU)).
Qed.
Print Assumptions C100_vectorized_refit.
Print Assumptions C101_iterative.
Print Assumptions C101_vectorized.
Print Assumptions C101_iterative_only_if.
Print Assumptions C101_excluding.
Print Assumptions C101_not_excluding_refuted.

(** ** Non-vacuity *)
(** one continuous feature, one class; settings with exclusion value [ev] *)
Definition ox : dataset R := [("i"%string, ColInt (map Z.of_nat (seq 3 10)))].
Definition ocf (ev : R) : gconf R :=
  with_disc "cmeans-cfe" flat_curve even_rand
    (mkGconf "___" ev false false rel_pos_inf rel_supp 0 None 0 true (fun _ => "x"%string) (fun _ => Ok 0%Z) (fun l => l) (fun _ _ => Err EUndef)).
Lemma o_fit ev : exists e', fit (ocf ev) ox ly re0 = (e', Ok tt).
Proof.
  eapply (C100_fit_never_fails (ocf ev) "cmeans-cfe" flat_curve even_rand 10 ox ly re0 re0); auto; try (cbn; auto 10).
  - exact C100_sampled.
  - intros l. apply Permutation_refl.
  - discriminate.
  - exact l_healthy.
  - cbn. repeat constructor; cbn; intuition discriminate.
  - intros f c [H|[H|[]]]; injection H as <- <-; reflexivity.
Qed.
Lemma o_readable ev : readable_data (ocf ev) (join_frames ox ly).
Proof.
  split; [reflexivity|]. split; [cbn; repeat constructor; cbn; intuition discriminate|]. intros f c [H|[H|[]]]; injection H as <- <-; (split; [intros H; apply occurs_b in H; discriminate|]); cbn; auto.
  repeat (apply Forall_cons; [apply one_readable; discriminate|]); apply Forall_nil.
Qed.
Lemma o_continuous ev texts rows : levels (ocf ev) (ColInt (map Z.of_nat (seq 3 10))) texts rows -> ~ is_discrete (ocf ev) (ColInt (map Z.of_nat (seq 3 10))) texts.
Proof.
  intros L [_ H]. assert (L0 : levels (ocf ev) (ColInt (map Z.of_nat (seq 3 10))) (fst (discrete_desc (ocf ev) (ColInt (map Z.of_nat (seq 3 10))))) (snd (discrete_desc (ocf ev) (ColInt (map Z.of_nat (seq 3 10)))))) by apply levels_desc.
  rewrite (Permutation_length (levels_perm (ocf ev) _ _ _ _ _ L L0)) in H. cbv in H. lia.
Qed.
Lemma o_init : init_est (F := R) 5 2 (nlit 1 1000) "MEAN" true "KOSKO" "saturation" [] false = Ok re0.
Proof. reflexivity. Qed.
Lemma o_used (e : est R) : used e e.
Proof. now exists []. Qed.
Example C101_nonvacuous : exists e' out, fit (ocf (-1)) ox ly re0 = (e', Ok tt) /\ snd (predict (ocf (-1)) ox e') = Ok out.
Proof.
  destruct (o_fit (-1)) as [e' HF]. exists e'. destruct (C101_excluding (ocf (-1)) "cmeans-cfe" flat_curve even_rand 5 2 (nlit 1 1000) "MEAN" true "KOSKO" "saturation" [] re0 re0 e' e' ox ly ox) as [out H]; auto; try (cbn; auto 10; fail).
  - intros l. apply Permutation_refl.
  - exact C100_sampled.
  - cbn. lra.
  - left. cbn. auto.
  - discriminate.
  - exact l_healthy.
  - apply o_readable.
  - apply o_used.
  - intros f c texts rows [H|[H|[]]]; injection H as <- <-; cbn; intuition discriminate.
  - intros f c' [H|[]]. injection H as <- <-. eexists. split; [now left|]. intros texts rows l _ E. discriminate.
  - intros r f q _ _. now exists 0%Z.
  - eauto.
Qed.
Example C101_refuted_nonvacuous : exists e' er, fit (ocf 0) ox ly re0 = (e', Ok tt) /\ snd (predict (ocf 0) ox e') = Err er.
Proof.
  destruct (o_fit 0) as [e' HF]. exists e'.
  destruct (discrete_desc (ocf 0) (ColInt (map Z.of_nat (seq 3 10)))) as [texts rows] eqn:E.
  assert (L : levels (ocf 0) (ColInt (map Z.of_nat (seq 3 10))) texts rows) by (pose proof (levels_desc (ocf 0) (ColInt (map Z.of_nat (seq 3 10)))) as X; now rewrite E in X).
  destruct (C101_not_excluding_refuted (ocf 0) "cmeans-cfe" flat_curve even_rand 5 2 (nlit 1 1000) "MEAN" true "KOSKO" "saturation" [] re0 re0 e' e' ox ly ox "i" (ColInt (map Z.of_nat (seq 3 10))) texts rows) as [er H]; auto; try (cbn; auto 10; fail).
  - intros l. apply Permutation_refl.
  - exact C100_sampled.
  - lia.
  - lia.
  - exact l_healthy.
  - apply o_readable.
  - apply o_used.
  - cbn. intuition discriminate.
  - now apply (o_continuous 0 texts rows).
  - discriminate.
  - eauto.
Qed.
(** the settings of the refutation, in the vectorized engine *)
Definition ve0 : est R := match init_est (F := R) 5 2 (nlit 1 1000) "MEAN" true "KOSKO" "saturation" [] true with Ok e => e | Err _ => re0 end.
Lemma v_made : init_est (F := R) 5 2 (nlit 1 1000) "MEAN" true "KOSKO" "saturation" [] true = Ok ve0.
Proof. reflexivity. Qed.
Lemma v_healthy : healthy ve0 ve0.
Proof. split; [repeat eexists; exact v_made|now exists []]. Qed.
Lemma v_fit : exists e', fit (ocf 0) ox ly ve0 = (e', Ok tt).
Proof.
  eapply (C100_fit_never_fails (ocf 0) "cmeans-cfe" flat_curve even_rand 10 ox ly ve0 ve0); auto; try (cbn; auto 10).
  - exact C100_sampled.
  - intros l. apply Permutation_refl.
  - discriminate.
  - exact v_healthy.
  - cbn. repeat constructor; cbn; intuition discriminate.
  - intros f c [H|[H|[]]]; injection H as <- <-; reflexivity.
Qed.
Example C101_vectorized_nonvacuous : exists e' out, fit (ocf 0) ox ly ve0 = (e', Ok tt) /\ snd (predict (ocf 0) ox e') = Ok out.
Proof.
  destruct v_fit as [e' HF]. exists e'.
  destruct (C101_vectorized (ocf 0) "cmeans-cfe" flat_curve even_rand 5 2 (nlit 1 1000) "MEAN" true "KOSKO" "saturation" [] ve0 ve0 e' e' ox ly ox) as [out H]; auto; try (cbn; auto 10; fail).
  - intros l. apply Permutation_refl.
  - exact C100_sampled.
  - lia.
  - left. cbn. auto.
  - discriminate.
  - exact v_healthy.
  - apply o_readable.
  - eexists. eexists. split; [now left|]. cbn. lia.
  - apply o_used.
  - intros f c' [H|[]]. injection H as <- <-. eexists. split; [now left|]. intros texts rows l _ E. discriminate.
  - intros r f q _ _. now exists 0%Z.
  - eauto.
Qed.
(** fitted, used and fitted again *)
Example C100_vectorized_refit_nonvacuous : exists e1 e2, fit (ocf 0) ox ly ve0 = (e1, Ok tt) /\ fit (ocf 0) ox ly (fst (predict (ocf 0) ox e1)) = (e2, Ok tt).
Proof.
  destruct v_fit as [e1 HF]. exists e1.
  destruct (proj2 (C100_vectorized_refit (ocf 0) "cmeans-cfe" flat_curve even_rand 5 2 (nlit 1 1000) "MEAN" true "KOSKO" "saturation" [] ve0 ve0 e1 (fst (predict (ocf 0) ox e1)) ox ly 10 ox ly
    eq_refl (fun l => Permutation_refl l) eq_refl ltac:(cbn; auto) C100_sampled ltac:(cbn; auto 10) ltac:(cbn; auto 10) ltac:(discriminate) v_made ltac:(lia) ltac:(left; cbn; auto)
    v_healthy (o_readable 0) ltac:(eexists; eexists; split; [now left|]; cbn; lia) HF ltac:(exists [EPredict (ocf 0) ox]; split; [reflexivity|]; unfold eruns; cbn [fold_left edo]; destruct (predict _ _ _); reflexivity)
    ltac:(cbn; repeat constructor; cbn; intuition discriminate) ltac:(intros f c [H|[H|[]]]; injection H as <- <-; reflexivity))) as [e2 H].
  - split; intros; left; reflexivity.
  - eauto.
Qed.
