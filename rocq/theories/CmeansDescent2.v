(** CmeansDescent2.v — c-means: the centres are best for the weights, and the
    objective goes down from step to step. *)
From Coq Require Import Reals Lra.
From Verif Require Import Base BaseFacts Num Spec RealFacts Functions LearnUtils LearnSpec LearnFacts Cmeans CmeansFacts
  RlFacts ClusterSpec CmeansN CmeansNFacts CmeansDescent.
Local Open Scope R_scope.

(** ** Centres *)
Lemma dot_comm a b : dot a b = dot b a.
Proof.
  unfold dot. revert b. induction a as [|x a IH]; intros [|y b]; try reflexivity.
  cbn [combine map Rsum fold_right fst snd]. f_equal; [lra|apply IH].
Qed.
Lemma gap2_expand a b : length a = length b -> gap2 a b = dot a a - 2 * dot b a + dot b b.
Proof.
  revert b. induction a as [|x a IH]; intros [|y b] H; try discriminate; [unfold gap2, dot; simpl; lra|].
  rewrite !dot_cons. change (gap2 (x :: a) (y :: b)) with ((x - y) * (x - y) + gap2 a b).
  rewrite IH by (simpl in H; lia). ring.
Qed.
Lemma gap2_sym a b : gap2 a b = gap2 b a.
Proof.
  unfold gap2. revert b. induction a as [|x a IH]; intros [|y b]; try reflexivity.
  cbn [combine map Rsum fold_right fst snd]. f_equal; [ring|apply IH].
Qed.
Definition spread (r : list R) (data : list (list R)) (y : list R) : R :=
  Rsum (map (fun p => fst p * gap2 (snd p) y) (combine r data)).
Lemma spread_expand k y (data : list (list R)) : length y = k -> forall r, Forall (fun x => length x = k) data ->
  length r = length data ->
  spread r data y = Rsum (map (fun p => fst p * dot (snd p) (snd p)) (combine r data))
    - 2 * Rsum (zip_with Rmult r (map (dot y) data)) + Rsum r * dot y y.
Proof.
  intros Hy. unfold spread. induction data as [|x data IH]; intros [|a r] Hd Hr; try discriminate; [simpl; lra|].
  inversion Hd; subst. cbn [combine map]. rewrite zip_cons. cbn [Rsum fold_right fst snd].
  fold (Rsum r) (Rsum (zip_with Rmult r (map (dot y) data)))
    (Rsum (map (fun p => fst p * dot (snd p) (snd p)) (combine r data)))
    (Rsum (map (fun p => fst p * gap2 (snd p) y) (combine r data))).
  rewrite IH by (auto; simpl in Hr; lia). rewrite (gap2_expand x y) by auto. ring.
Qed.
Lemma center_length k data (r : list R) : data <> [] -> shape (length data) k data -> length (centerN data r) = k.
Proof.
  intros Hne Hd. rewrite centerN_length. apply (mcols_shape data _ k Hd). destruct data; [congruence|simpl; lia].
Qed.
(** the mean of a cluster and any other point *)
Lemma spread_center k data r y : data <> [] -> shape (length data) k data -> length r = length data ->
  0 < Rsum r -> length y = k ->
  spread r data y = spread r data (centerN data r) + Rsum r * gap2 y (centerN data r).
Proof.
  intros Hne Hd Hr HS Hy. set (c := centerN data r).
  assert (Hc : length c = k) by (apply center_length; auto).
  assert (E : forall w, length w = k -> Rsum (zip_with Rmult r (map (dot w) data)) = Rsum r * dot w c).
  { intros w Hw. unfold c. rewrite (dot_center w k) by auto. field. lra. }
  rewrite (spread_expand k y), (spread_expand k c) by (auto; apply Hd). rewrite !E by auto.
  rewrite (gap2_expand y c) by congruence. rewrite (dot_comm y c). ring.
Qed.
Lemma center_best k data r y : data <> [] -> shape (length data) k data -> length r = length data ->
  0 < Rsum r -> length y = k -> spread r data (centerN data r) <= spread r data y.
Proof.
  intros Hne Hd Hr HS Hy. rewrite (spread_center k data r y) by auto.
  pose proof (Rmult_le_pos _ _ (Rlt_le _ _ HS) (gap2_pos y (centerN data r))). lra.
Qed.
Lemma spread_le r data y B : length r = length data -> Forall (fun w => 0 < w) r ->
  (forall x, In x data -> gap2 x y <= B) -> spread r data y <= Rsum r * B.
Proof.
  unfold spread. intros Hl Hr. revert data Hl. induction Hr as [|w r Hw Hr IH]; intros [|x data] Hl H; try discriminate.
  - simpl. lra.
  - cbn [combine map Rsum fold_right fst snd]. fold (Rsum r) (Rsum (map (fun p => fst p * gap2 (snd p) y) (combine r data))).
    specialize (IH data ltac:(simpl in Hl; lia) ltac:(intros; apply H; simpl; auto)).
    assert (w * gap2 x y <= w * B) by (apply Rmult_le_compat_l; [lra|apply H; simpl; auto]). lra.
Qed.
Lemma spread_pos r data y : Forall (fun w => 0 < w) r -> 0 <= spread r data y.
Proof.
  intros Hr. apply Rsum_nonneg, Forall_forall. intros z Hz. apply in_map_iff in Hz as ((w, x) & <- & Hin).
  cbn [fst snd]. apply Rmult_le_pos; [|apply gap2_pos]. rewrite Forall_forall in Hr. left. apply Hr. eapply in_combine_l; eauto.
Qed.
(** the mean is no farther from a point than the farthest data point *)
Lemma center_near k data r y D : data <> [] -> shape (length data) k data -> length r = length data ->
  Forall (fun w => 0 < w) r -> length y = k -> 0 <= D -> (forall x, In x data -> euclid x y <= D) ->
  euclid y (centerN data r) <= D.
Proof.
  intros Hne Hd Hr Hp Hy HD H.
  assert (HS : 0 < Rsum r). { apply Rsum_pos; auto. destruct data; [congruence|]. destruct r; discriminate. }
  assert (B : spread r data y <= Rsum r * (D * D)).
  { apply spread_le; auto. intros x Hx. rewrite <- euclid_sqr. pose proof (euclid_pos x y). pose proof (H x Hx).
    apply Rmult_le_compat; lra. }
  rewrite (spread_center k data r y) in B by auto. pose proof (spread_pos r data (centerN data r) Hp) as P.
  assert (G : gap2 y (centerN data r) <= D * D).
  { apply Rmult_le_reg_l with (Rsum r); [auto|]. lra. }
  unfold euclid. rewrite <- (sqrt_square D) by auto. apply sqrt_le_1_alt. exact G.
Qed.

(** ** The weights of a step *)
Definition floored (u : list (list R)) : list (list R) := map (map (fun x => fmax x neps)) (normalize_columns u).
Lemma umN_floored u m : umN u m = map (map (fun x => Rpower x m)) (floored u).
Proof. reflexivity. Qed.
Lemma floored_shape u c n : shape c n u -> shape c n (floored u).
Proof. intros. apply map_map_shape, by_columns_shape; auto using normalize_column_length. Qed.
Lemma mcol_map_map (g : R -> R) u c n j : shape c n u -> (j < n)%nat -> mcol (map (map g) u) j = map g (mcol u j).
Proof.
  intros [_ H] Hj. unfold mcol. rewrite !map_map. apply map_ext_in. intros r Hr. rewrite Forall_forall in H.
  rewrite (nth_indep _ n0 (g n0)) by (rewrite map_length, (H r Hr); auto). now rewrite map_nth.
Qed.
Lemma mcol_normalize u c n j : shape c n u -> (0 < c)%nat -> (j < n)%nat ->
  mcol (normalize_columns u) j = normalize_column (mcol u j).
Proof.
  intros Hd Hc Hj.
  assert (Hs : shape c n (normalize_columns u)) by (apply by_columns_shape; auto using normalize_column_length).
  rewrite (mcol_column_of _ c n j Hs Hj), (mcol_column_of u c n j Hd Hj).
  apply (by_columns_column normalize_column u c n j); auto using normalize_column_length.
Qed.
Lemma mcol_In u c n r x : shape c n u -> In r u -> In x r -> exists j, (j < n)%nat /\ In x (mcol u j).
Proof.
  intros [_ H] Hr Hx. apply In_nth_error in Hx as [j Hj]. exists j. rewrite Forall_forall in H.
  assert (j < length r)%nat by (apply nth_error_Some; congruence). split; [rewrite <- (H r Hr); auto|].
  unfold mcol. apply in_map_iff. exists r. split; [|auto]. now apply nth_error_nth.
Qed.
Lemma floored_column u c n j : shape c n u -> (0 < c)%nat -> (j < n)%nat -> (forall r x, In r u -> In x r -> 0 < x) ->
  Forall (fun x => 0 < x <= 1) (mcol (floored u) j) /\ 1 <= Rsum (mcol (floored u) j).
Proof.
  intros Hs Hc Hj Hp.
  assert (Hs1 : shape c n (normalize_columns u)) by (apply by_columns_shape; auto using normalize_column_length).
  unfold floored. rewrite (mcol_map_map _ _ c n) by auto. rewrite (mcol_normalize u c n) by auto.
  destruct (normalize_column_spec (mcol u j)) as [H1 H2].
  - intros Q. apply (f_equal (@length R)) in Q. rewrite (mcol_shape_len u c n j Hs) in Q. simpl in Q. lia.
  - eapply mcol_Forall; eauto.
  - split.
    + apply Forall_forall. intros y Hy. apply in_map_iff in Hy as (x & <- & Hx). rewrite fmax_Rmax.
      rewrite Forall_forall in H1. specialize (H1 x Hx). split; [eapply Rlt_le_trans; [apply H1|apply Rmax_l]|].
      apply Rmax_lub; [lra|]. cbn [neps RNum]. lra.
    + rewrite <- H2. rewrite <- (map_id (normalize_column (mcol u j))) at 1. apply Rsum_le. intros x _.
      rewrite fmax_Rmax. apply Rmax_l.
Qed.
Lemma floored_range u c n : shape c n u -> (0 < c)%nat -> (forall r x, In r u -> In x r -> 0 < x) ->
  forall r x, In r (floored u) -> In x r -> 0 < x <= 1.
Proof.
  intros Hs Hc Hp r x Hr Hx. destruct (mcol_In (floored u) c n r x (floored_shape u c n Hs) Hr Hx) as (j & Hj & Hin).
  destruct (floored_column u c n j Hs Hc Hj Hp) as [H _]. rewrite Forall_forall in H. auto.
Qed.
Lemma partition_pos c n u : fuzzy_partition c n u -> forall r x, In r u -> In x r -> 0 < x <= 1.
Proof.
  intros (_ & H & _) r x Hr Hx. apply In_nth_error in Hr as [i Hi]. apply In_nth_error in Hx as [j Hj].
  apply (H i j). unfold entry. now rewrite Hi.
Qed.
Lemma nth_eq (a b : list R) : length a = length b -> (forall j, (j < length a)%nat -> nth j a 0 = nth j b 0) -> a = b.
Proof.
  revert b. induction a as [|x a IH]; intros [|y b] Hl H; try discriminate; [reflexivity|]. f_equal.
  - apply (H 0%nat). simpl. lia.
  - apply IH; [simpl in Hl; lia|]. intros j Hj. apply (H (S j)). simpl. lia.
Qed.
Lemma matrix_eq c n (a b : list (list R)) : shape c n a -> shape c n b ->
  (forall j, (j < n)%nat -> mcol a j = mcol b j) -> a = b.
Proof.
  intros [Ha1 Ha2] [Hb1 Hb2] H. assert (Hl : length a = length b) by congruence. clear Ha1 Hb1.
  revert b Hl Hb2 H. induction Ha2 as [|r a Hr Ha IH]; intros [|s b] Hl Hb H; try discriminate; [reflexivity|].
  inversion Hb; subst. f_equal.
  - apply nth_eq; [auto|]. intros j Hj. specialize (H j ltac:(lia)). unfold mcol in H. cbn [map] in H. now injection H.
  - apply IH; auto. intros j Hj. specialize (H j Hj). unfold mcol in H. cbn [map] in H. now injection H.
Qed.
(** normalising a partition changes nothing *)
Lemma normalize_partition c n u : (0 < c)%nat -> fuzzy_partition c n u -> normalize_columns u = u.
Proof.
  intros Hc Hu. pose proof Hu as (Hs & _ & H1). apply (matrix_eq c n); auto.
  - apply by_columns_shape; auto using normalize_column_length.
  - intros j Hj. rewrite (mcol_normalize u c n) by auto. unfold normalize_column.
    rewrite nsum_Rsum, (mcol_column_of u c n j Hs Hj), (H1 j Hj). rewrite <- map_id. apply map_ext. intros x. rnum. field.
Qed.
Lemma floored_partition c n u : (0 < c)%nat -> fuzzy_partition c n u -> floored u = map (map (fun x => Rmax x neps)) u.
Proof.
  intros Hc Hu. unfold floored. rewrite (normalize_partition c n u Hc Hu). apply map_ext. intros r. apply map_ext.
  intros x. apply fmax_Rmax.
Qed.
Lemma floored_same c n u : (0 < c)%nat -> fuzzy_partition c n u -> (forall r x, In r u -> In x r -> neps <= x) -> floored u = u.
Proof.
  intros Hc Hu He. rewrite (floored_partition c n) by auto. rewrite <- (map_id u) at 2. apply map_ext_in. intros r Hr.
  rewrite <- (map_id r) at 2. apply map_ext_in. intros x Hx. apply Rmax_left. eauto.
Qed.
