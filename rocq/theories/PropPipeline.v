(** PropPipeline.v — continuous columns from the data to the trained map (C100). *)
From Coq Require Import Reals Lra Lia Permutation.
From Verif Require Import Base BaseFacts Num RealFacts RlFacts Functions FunctionsFacts Spec Fcm FcmSpec LearnUtils LearnSpec LearnFacts Discret DiscretFacts DiscretFacts2
  Assoc AssocSpec AssocFacts AssocFacts2 AssocFacts4 AssocRange Estimator EstSpec EstFacts EstFacts4 EstFacts7 EstFacts8 RowSpec RowFacts2 Pipeline PipeFacts PropAssoc PropEstimator2 PropRows.
Local Open Scope R_scope.

(** ** C100 *)
(** A column with at least ten different numbers is cut, by each of the four
    strategies: at least two clusters (at most seven unless the robust algorithm
    chose), increasing stored values among which all the data, one row of degrees
    in [0, 1] per cluster.  Read back at the training data, no cluster is empty,
    the degrees of a value add up to at most 1, and to 1 unless there are three
    clusters. *)
Theorem C100_cut : forall strategy curve rand f data,
  In strategy ["cmeans-gap"; "cmeans-sil"; "cmeans-cfe"; "rl-cmeans"]%string ->
  sampled curve rand -> varied data ->
  exists n vals ms, generator_disc strategy curve rand f data = Ok (n, vals, ms) /\
    (2 <= n)%nat /\ (strategy <> "rl-cmeans"%string -> n <= 7)%nat /\ length ms = n /\
    increasing_list vals /\ (forall x, In x data -> In x vals) /\
    (forall memb, In memb ms -> length memb = length vals /\ in01 memb /\
       exists row, Forall2 (fun x y => fuzzy_set x memb vals = Ok y) data row /\ in01 row /\ 0 < Rsum row) /\
    forall x, In x data -> exists us, Forall2 (fun memb u => fuzzy_set x memb vals = Ok u) ms us /\
      Rsum us <= 1 /\ (n <> 3%nat -> Rsum us = 1).
Proof.
  intros st curve rand f data Hst Hs Hv. destruct (gen_disc_ok st curve rand f data Hst Hs Hv) as (n & vals & ms & E & H2 & H7 & A & B & C & D & G).
  exists n, vals, ms. auto 10.
Qed.
(** Fewer numbers, or another strategy, and there is an error. *)
Theorem C100_not_cut : forall strategy curve rand f data,
  ~ varied data \/ ~ In strategy ["cmeans-gap"; "cmeans-sil"; "cmeans-cfe"; "rl-cmeans"]%string ->
  exists er, generator_disc strategy curve rand f data = Err er.
Proof.
  intros st curve rand f data [Hv|Hs]; [now apply gen_disc_few|].
  destruct (Nat.lt_ge_cases (length (unique nleb neqb data)) 10) as [L|L].
  - apply gen_disc_few. rewrite varied_iff. lia.
  - unfold generator_disc. rewrite (discretization_unknown _ _ _ _ _ _ _ _ (unique_spec _ _ R_total_order data) L Hs). eauto.
Qed.
(** Fitting columns of the same length succeeds exactly when every column of
    numbers is taken as levels or has ten different numbers: with the measures of
    the code, any strategy and whatever numpy supplies.  (A new estimator, or a
    used one with the iterative engine.) *)
Theorem C100_fit_succeeds_iff : forall (cf : gconf R) strategy curve rand n x y e0 e,
  c_disc cf = generator_disc strategy curve rand ->
  In strategy ["cmeans-gap"; "cmeans-sil"; "cmeans-cfe"; "rl-cmeans"]%string -> sampled curve rand ->
  reorders (c_ord cf) -> In (c_eval cf) named_measures -> In (c_caus cf) named_measures -> (forall f, c_sign cf = Some f -> In f named_measures) ->
  healthy e0 e -> (e = e0 \/ m_debug (e_map e0) = true) -> NoDup (dkeys (join_frames x y)) ->
  (forall f c, In (f, c) (join_frames x y) -> col_length c = n) ->
  (exists e', fit cf x y e = (e', Ok tt)) <->
  (forall f l, In (f, ColInt l) (join_frames x y) -> c_infer cf = true \/ varied (map IZR l)) /\
  (forall f l, In (f, ColFlt l) (join_frames x y) -> c_infer cf = true \/ varied l).
Proof.
  intros cf st curve rand n x y e0 e Hd Hst Hs HO H1 H2 H3 HH Hw ND Hl.
  rewrite (fit_exactly cf st curve rand n x y e0 e); auto.
  - split; [intros H; split; intros f l Hi; exact (H _ _ Hi)|]. intros [Hi Hf] f c Hc. destruct c; cbn; eauto.
  - now split.
  - now apply healthy_estimator.
  - destruct Hw as [->|D]; auto.
Qed.
(** Hence, when levels are recognised (the default), it never fails. *)
Theorem C100_fit_never_fails : forall (cf : gconf R) strategy curve rand n x y e0 e,
  c_disc cf = generator_disc strategy curve rand ->
  In strategy ["cmeans-gap"; "cmeans-sil"; "cmeans-cfe"; "rl-cmeans"]%string -> sampled curve rand ->
  reorders (c_ord cf) -> In (c_eval cf) named_measures -> In (c_caus cf) named_measures -> (forall f, c_sign cf = Some f -> In f named_measures) ->
  healthy e0 e -> (e = e0 \/ m_debug (e_map e0) = true) -> NoDup (dkeys (join_frames x y)) ->
  (forall f c, In (f, c) (join_frames x y) -> col_length c = n) -> c_infer cf = true ->
  exists e', fit cf x y e = (e', Ok tt).
Proof.
  intros cf st curve rand n x y e0 e Hd Hst Hs HO H1 H2 H3 HH Hw ND Hl Hi. eapply C100_fit_succeeds_iff; eauto.
Qed.
(** The weights of the trained map then lie in [-1, 1] (C44 asks the
    discretization to be fair: this one is), whatever the strategy. *)
Theorem C100_weights : forall (cf : gconf R) strategy curve rand x y (e0 e e' : est R) a b w,
  c_disc cf = generator_disc strategy curve rand -> sampled curve rand ->
  reorders (c_ord cf) -> estimator e0 e -> NoDup (dkeys (join_frames x y)) -> fit cf x y e = (e', Ok tt) ->
  c_caus cf = rel_conf -> -1 <= c_excl cf <= 1 ->
  In (a, b, w) (relations (e_map e')) -> -1 <= w <= 1.
Proof.
  intros cf st curve rand x y e0 e e' a b w Hd Hs HO HE ND HF Hc He H. apply (C44_range cf x y e0 e e' a b w); auto.
  now apply (gen_disc_fair st curve rand).
Qed.
(** The order of the training rows does not matter either. *)
Theorem C100_row_order : forall (cf : gconf R) strategy curve rand n p x y x' y' e e1,
  c_disc cf = generator_disc strategy curve rand ->
  Permutation p (seq 0 n) -> (forall f c, In (f, c) (x ++ y) -> col_length c = n) ->
  taken_frame p x x' -> taken_frame p y y' -> fit cf x y e = (e1, Ok tt) ->
  exists e1', fit cf x' y' e = (e1', Ok tt) /\ e_map e1' = e_map e1.
Proof.
  intros cf st curve rand n p x y x' y' e e1 Hd Hp Hn Hx Hy Hf.
  destruct (C91_row_order cf n p x y x' y' e e1 Hp Hn Hx Hy) as (e1' & A & B & _); auto; [|eauto].
  rewrite Hd. intros name l l' H. unfold generator_disc. rewrite (unique_same _ _ R_total_order l l' H). now apply C91_discretization.
Qed.
Print Assumptions C100_cut.
Print Assumptions C100_not_cut.
Print Assumptions C100_fit_succeeds_iff.
Print Assumptions C100_fit_never_fails.
Print Assumptions C100_weights.
Print Assumptions C100_row_order.

(** ** Non-vacuity *)
Definition flat_curve (f : string) (us : list R) : list R := us.
Definition even_rand (f : string) (us : list R) (c : nat) : list (list R) := repeat (repeat 1 (length us)) c.
Example C100_sampled : sampled flat_curve even_rand.
Proof.
  intros f us. split; [reflexivity|]. intros c _. split; [apply repeat_length|]. apply Forall_forall. intros r Hr. apply repeat_spec in Hr. subst r. apply repeat_length.
Qed.
Definition ten : list R := map INR (seq 0 10).
Lemma ten_varied : varied ten.
Proof.
  exists ten. split; [|split; [unfold ten; now rewrite map_length|apply incl_refl]]. apply FinFun.Injective_map_NoDup; [intros a b; apply INR_eq|apply seq_NoDup].
Qed.
Example C100_cut_nonvacuous : forall strategy, In strategy ["cmeans-gap"; "cmeans-sil"; "cmeans-cfe"; "rl-cmeans"]%string ->
  exists n vals ms, generator_disc strategy flat_curve even_rand "f" ten = Ok (n, vals, ms) /\ (2 <= n)%nat.
Proof. intros st H. destruct (C100_cut st flat_curve even_rand "f" ten H C100_sampled ten_varied) as (n & vals & ms & A & B & _). eauto. Qed.
Definition lx : dataset R := [("f", ColFlt ten); ("i", ColInt (map Z.of_nat (seq 3 10)))].
Definition ly : dataset R := [("c", ColStr (repeat "u" 5 ++ repeat "v" 5))].
Definition lcf (infer : bool) : gconf R :=
  with_disc "cmeans-cfe" flat_curve even_rand
    (mkGconf "___" (-1) true true rel_pos_inf rel_supp 0 None 0 infer (fun _ => "x") (fun _ => Ok 0%Z) (fun l => l) (fun _ _ => Err EUndef)).
Lemma l_healthy : healthy re0 re0.
Proof.
  assert (M : init_est (F := R) 5 2 (nlit 1 1000) "MEAN" true "KOSKO" "saturation" [] false = Ok re0) by reflexivity.
  split; [repeat eexists; exact M|now exists []].
Qed.
Lemma l_names : NoDup (dkeys (join_frames lx ly)).
Proof. cbn. repeat constructor; cbn; intuition discriminate. Qed.
Lemma l_rows : forall f c, In (f, c) (join_frames lx ly) -> col_length c = 10%nat.
Proof. intros f c [H|[H|[H|[]]]]; injection H as <- <-; reflexivity. Qed.
Example C100_fit_nonvacuous : forall infer, exists e', fit (lcf infer) lx ly re0 = (e', Ok tt).
Proof.
  intros infer. eapply (C100_fit_succeeds_iff (lcf infer) "cmeans-cfe" flat_curve even_rand 10 lx ly re0 re0); auto.
  - cbn; auto.
  - exact C100_sampled.
  - intros l. apply Permutation_refl.
  - cbn; auto.
  - cbn; auto 10.
  - discriminate.
  - exact l_healthy.
  - exact l_names.
  - exact l_rows.
  - split; intros f l [H|[H|[H|[]]]]; inversion H; subst; right; [|exact ten_varied].
    exists (map IZR (map Z.of_nat (seq 3 10))). split; [|split; [rewrite !map_length; cbn; lia|apply incl_refl]].
    apply FinFun.Injective_map_NoDup; [intros a b; apply eq_IZR|]. apply FinFun.Injective_map_NoDup; [intros a b; lia|apply seq_NoDup].
Qed.
(** a column of equal numbers, not taken as levels *)
Definition mx : dataset R := [("f", ColFlt (repeat 0 10))].
Example C100_fit_fails : ~ (exists e', fit (lcf false) mx ly re0 = (e', Ok tt)) /\ exists e', fit (lcf true) mx ly re0 = (e', Ok tt).
Proof.
  assert (X : forall infer, (exists e', fit (lcf infer) mx ly re0 = (e', Ok tt)) <->
    (forall f l, In (f, ColInt l) (join_frames mx ly) -> c_infer (lcf infer) = true \/ varied (map IZR l)) /\
    (forall f l, In (f, ColFlt l) (join_frames mx ly) -> c_infer (lcf infer) = true \/ varied l)).
  { intros infer. apply (C100_fit_succeeds_iff (lcf infer) "cmeans-cfe" flat_curve even_rand 10 mx ly re0 re0); auto; try (cbn; auto 10).
    - exact C100_sampled.
    - intros l. apply Permutation_refl.
    - discriminate.
    - exact l_healthy.
    - cbn. repeat constructor; cbn; intuition discriminate.
    - intros f c [H|[H|[]]]; injection H as <- <-; reflexivity. }
  split.
  - rewrite X. intros [_ H]. destruct (H "f"%string (repeat 0 10) (or_introl eq_refl)) as [C|(us & ND & L & I)]; [discriminate|].
    destruct us as [|a [|b us]]; try (cbn in L; lia).
    pose proof (repeat_spec _ _ _ (I a (or_introl eq_refl))). pose proof (repeat_spec _ _ _ (I b (or_intror (or_introl eq_refl)))). subst.
    inversion ND as [|? ? N _]. apply N. now left.
  - rewrite X. split; intros; left; reflexivity.
Qed.
