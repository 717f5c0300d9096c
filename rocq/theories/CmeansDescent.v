(** CmeansDescent.v — what one step of c-means optimises, over the reals. *)
From Coq Require Import Reals Lra.
From Verif Require Import Base BaseFacts Num Spec RealFacts Functions LearnUtils LearnSpec LearnFacts Cmeans CmeansFacts
  RlFacts ClusterSpec CmeansN CmeansNFacts.
Local Open Scope R_scope.

(** ** Convexity of powers *)
Lemma exp_ge1 x : 1 + x <= exp x.
Proof. destruct (Req_dec x 0) as [->|H]; [rewrite exp_0; lra|left; now apply exp_ineq1]. Qed.
Lemma bernoulli m t : 1 < m -> 0 < t -> 1 + m * (t - 1) <= Rpower t m.
Proof.
  intros Hm Ht. unfold Rpower. set (s := ln t). replace t with (exp s) by (apply exp_ln; auto).
  replace (m * s) with (s + (m - 1) * s) by ring. rewrite exp_plus.
  assert (H1 : exp s * (1 + (m - 1) * s) <= exp s * exp ((m - 1) * s)).
  { apply Rmult_le_compat_l; [left; apply exp_pos|apply exp_ge1]. }
  assert (H2 : exp s * (1 - s) <= 1).
  { replace 1 with (exp s * exp (- s)) at 2 by (rewrite <- exp_plus, Rplus_opp_r; apply exp_0).
    apply Rmult_le_compat_l; [left; apply exp_pos|]. pose proof (exp_ge1 (- s)). lra. }
  assert (H3 : (m - 1) * (exp s * (1 - s)) <= (m - 1) * 1) by (apply Rmult_le_compat_l; lra).
  lra.
Qed.
Lemma Rpower_mult_l x y z : 0 < x -> 0 < y -> Rpower (x * y) z = Rpower x z * Rpower y z.
Proof. intros. symmetry. apply Rpower_mult_distr; auto. Qed.
Lemma tangent m u v : 1 < m -> 0 < u -> 0 < v -> Rpower v m + m * Rpower v (m - 1) * (u - v) <= Rpower u m.
Proof.
  intros Hm Hu Hv. replace u with (v * (u / v)) at 2 by (field; lra).
  assert (Hq : 0 < u / v) by (apply Rdiv_lt_0_compat; auto).
  rewrite Rpower_mult_l by auto. pose proof (bernoulli m (u / v) Hm Hq) as B.
  assert (E : Rpower v m = Rpower v (m - 1) * v).
  { rewrite <- (Rpower_1 v) at 3 by auto. rewrite <- Rpower_plus. f_equal. lra. }
  apply Rle_trans with (Rpower v m * (1 + m * (u / v - 1))).
  - right. rewrite E. field. lra.
  - apply Rmult_le_compat_l; [left; apply Rpower_pos|auto].
Qed.
Lemma Rpower_le1 x m : 0 < x <= 1 -> 0 < m -> Rpower x m <= 1.
Proof.
  intros [H0 H1] Hm. unfold Rpower. rewrite <- exp_0. destruct H1 as [H1|H1].
  - left. apply exp_increasing. assert (ln x < 0) by (apply ln_neg; lra).
    rewrite <- (Rmult_0_r m). apply Rmult_lt_compat_l; auto.
  - subst. rewrite ln_1, Rmult_0_r. lra.
Qed.
Lemma Rpower_le x y m : 0 < x <= y -> 0 < m -> Rpower x m <= Rpower y m.
Proof.
  intros [H0 H1] Hm. unfold Rpower. destruct H1 as [H1|H1]; [|subst; lra]. left. apply exp_increasing.
  apply Rmult_lt_compat_l; auto. apply ln_increasing; auto.
Qed.

(** ** Sums of products *)
Definition energy (m : R) (a x : R) : R := Rpower a m * (x * x).
Definition sum2 (f : R -> R -> R) (a b : list R) : R := Rsum (map (fun p => f (fst p) (snd p)) (combine a b)).
Lemma sum2_cons f x a y b : sum2 f (x :: a) (y :: b) = f x y + sum2 f a b.
Proof. reflexivity. Qed.

(** ** The memberships of one point *)
Section Point.
Variable m : R.
Hypothesis Hm : 1 < m.
Let e := -2 / (m - 1).
Lemma exponent_neg : e < 0.
Proof.
  unfold e, Rdiv. rewrite <- (Rmult_0_l (/ (m - 1))). apply Rmult_lt_compat_r; [apply Rinv_0_lt_compat; lra|lra].
Qed.
Lemma balance x S : 0 < x -> 0 < S -> Rpower (Rpower x e / S) (m - 1) * (x * x) = Rpower (/ S) (m - 1).
Proof.
  intros Hx HS. unfold Rdiv. rewrite Rpower_mult_l by (try apply Rpower_pos; apply Rinv_0_lt_compat; auto).
  rewrite Rpower_mult. replace (e * (m - 1)) with (-2) by (unfold e; field; lra).
  replace (x * x) with (Rpower x 2).
  - rewrite (Rmult_comm (Rpower x (-2))), Rmult_assoc, <- Rpower_plus. replace (-2 + 2) with 0 by lra.
    rewrite Rpower_O by auto. lra.
  - replace 2 with (1 + 1) by lra. rewrite Rpower_plus, Rpower_1; auto.
Qed.
Lemma column_best_aux S (d : list R) : 0 < S -> Forall (fun x => 0 < x) d -> forall v, Forall (fun x => 0 < x) v ->
  length v = length d ->
  sum2 (energy m) (map (fun x => Rpower x e / S) d) d
    + m * Rpower (/ S) (m - 1) * (Rsum v - Rsum (map (fun x => Rpower x e / S) d))
  <= sum2 (energy m) v d.
Proof.
  intros HS. induction 1 as [|x d Hx Hd IH]; intros [|a v] Hv Hl; try discriminate.
  - unfold sum2. simpl. lra.
  - inversion Hv; subst. cbn [map]. rewrite !sum2_cons. cbn [Rsum fold_right].
    fold (Rsum v) (Rsum (map (fun x => Rpower x e / S) d)).
    specialize (IH v H2 ltac:(simpl in Hl; lia)).
    assert (Hp : 0 < Rpower x e / S) by (apply Rdiv_lt_0_compat; [apply Rpower_pos|auto]).
    pose proof (tangent m a (Rpower x e / S) Hm H1 Hp) as T.
    assert (T2 : energy m (Rpower x e / S) x + m * Rpower (/ S) (m - 1) * (a - Rpower x e / S) <= energy m a x).
    { unfold energy. rewrite <- (balance x S Hx HS).
      apply Rmult_le_compat_r with (r := x * x) in T; [|nra]. eapply Rle_trans; [|exact T]. right. ring. }
    lra.
Qed.
Lemma column_best (d v : list R) : d <> [] -> Forall (fun x => 0 < x) d -> Forall (fun x => 0 < x) v ->
  length v = length d -> 1 <= Rsum v ->
  sum2 (energy m) (map (fun x => Rpower x e / Rsum (map (fun y => Rpower y e) d)) d) d <= sum2 (energy m) v d.
Proof.
  intros Hne Hd Hv Hl H1. set (S := Rsum (map (fun y => Rpower y e) d)).
  assert (HS : 0 < S).
  { apply Rsum_pos; [intros Q; apply map_eq_nil in Q; congruence|]. apply Forall_forall. intros y Hy.
    apply in_map_iff in Hy as (z & <- & _). apply Rpower_pos. }
  pose proof (column_best_aux S d HS Hd v Hv Hl) as B.
  assert (E : Rsum (map (fun x => Rpower x e / S) d) = 1).
  { rewrite <- (map_map (fun x => Rpower x e) (fun y => y / S)), Rsum_div. fold S. field. lra. }
  rewrite E in B.
  assert (0 <= m * Rpower (/ S) (m - 1) * (Rsum v - 1)).
  { apply Rmult_le_pos; [|lra]. apply Rmult_le_pos; [lra|left; apply Rpower_pos]. }
  lra.
Qed.

(** what normalize_power_columns makes of a column: distances much smaller than the
    largest one are first raised *)
Lemma power_column_eq (l : list R) : l <> [] -> Forall (fun x => 0 < x) l ->
  exists mx, In mx l /\ (forall x, In x l -> x <= mx) /\
    let l' := map (fun x => Rmax x (neps * mx)) l in
    power_column e l = map (fun x => Rpower x e / Rsum (map (fun y => Rpower y e) l')) l'.
Proof.
  intros Hne Hp. destruct l as [|x0 l]; [congruence|]. clear Hne.
  destruct (pmax_spec l x0) as [Hin Hle]. set (mx := pmax x0 l) in *. exists mx. split; [auto|].
  split; [intros x Hx; apply Hle; auto|]. cbv zeta. set (L := x0 :: l) in *.
  assert (Hmx : 0 < mx) by (rewrite Forall_forall in Hp; auto).
  pose proof eps_pos as Heps.
  unfold power_column.
  assert (Hlt : nltb e n0 = true) by (rnum; apply Rltb_true, exponent_neg). rewrite Hlt.
  set (l' := map (fun x => Rmax x (neps * mx)) L).
  assert (E1 : map (fun v => fmax v neps) (scale_max L) = map (fun x => x / mx) l').
  { unfold scale_max, L, l'. fold mx. rewrite !map_map. apply map_ext. intros x. rewrite fmax_Rmax.
    change (ndiv x mx) with (x * / mx). unfold Rdiv. rewrite !(Rmult_comm _ (/ mx)), <- RmaxRmult by (left; now apply Rinv_0_lt_compat).
    replace (/ mx * (neps * mx)) with (neps (F := R)) by (field; lra). reflexivity. }
  rewrite E1.
  assert (Hl' : Forall (fun x => 0 < x) l').
  { apply Forall_forall. intros y Hy. apply in_map_iff in Hy as (z & <- & Hz). rewrite Forall_forall in Hp.
    eapply Rlt_le_trans; [apply (Hp z Hz)|apply Rmax_l]. }
  assert (E2 : exists mn, 0 < mn /\ scale_min (map (fun x => x / mx) l') = map (fun x => x / mn) (map (fun x => x / mx) l')).
  { unfold l', L. cbn [map]. eexists. split; [|reflexivity].
    match goal with |- 0 < pmin ?a ?b => destruct (pmin_spec b a) as [Hi _]; set (q := pmin a b) in * end.
    assert (Hi' : In q (map (fun x => x / mx) l')) by exact Hi.
    apply in_map_iff in Hi' as (z & <- & Hz). rewrite Forall_forall in Hl'. apply Rdiv_lt_0_compat; auto. }
  destruct E2 as (mn & Hmn & E2). rewrite E2, !map_map.
  set (K := Rpower (/ mx * / mn) e). assert (HK : 0 < K) by apply Rpower_pos.
  assert (E3 : map (fun x => npow (x / mx / mn) e) l' = map (fun x => K * Rpower x e) l').
  { apply map_ext_in. intros x Hx. rnum. rewrite Forall_forall in Hl'. specialize (Hl' x Hx). unfold K.
    rewrite <- Rpower_mult_l; auto.
    - f_equal. field. lra.
    - apply Rmult_lt_0_compat; now apply Rinv_0_lt_compat. }
  rewrite E3. unfold normalize_column. rewrite nsum_Rsum, Rsum_map_scal, map_map. apply map_ext. intros x.
  assert (HS : 0 < Rsum (map (fun y => Rpower y e) l')).
  { apply Rsum_pos; [unfold l', L; discriminate|]. apply Forall_forall. intros y Hy.
    apply in_map_iff in Hy as (z & <- & _). apply Rpower_pos. }
  rnum. field. lra.
Qed.

Lemma sum2_le f g (a b : list R) :
  (forall x y, In (x, y) (combine a b) -> f x y <= g x y) -> sum2 f a b <= sum2 g a b.
Proof.
  revert b. induction a as [|x a IH]; intros [|y b] H; try (unfold sum2; simpl; lra).
  rewrite !sum2_cons. apply Rplus_le_compat; [apply H; simpl; auto|apply IH; intros; apply H; simpl; auto].
Qed.
Lemma sum2_map_r f (g : R -> R) (a b : list R) : sum2 f a (map g b) = sum2 (fun x y => f x (g y)) a b.
Proof.
  revert b. induction a as [|x a IH]; intros [|y b]; try reflexivity. cbn [map]. rewrite !sum2_cons. now rewrite IH.
Qed.
Lemma sum2_plus_const f c (a b : list R) : length a = length b ->
  sum2 (fun x y => f x y + c) a b = sum2 f a b + INR (length b) * c.
Proof.
  revert b. induction a as [|x a IH]; intros [|y b] H; try discriminate; [unfold sum2; simpl; lra|].
  rewrite !sum2_cons, IH by (simpl in H; lia). cbn [length]. rewrite S_INR. lra.
Qed.
(** the memberships computed from the distances of one point cost at most as much as
    any others, up to the distances that had to be raised *)
Lemma column_descent (d v : list R) D : d <> [] -> Forall (fun x => 0 < x <= D) d -> Forall (fun x => 0 < x <= 1) v ->
  length v = length d -> 1 <= Rsum v ->
  sum2 (energy m) (power_column e d) d <= sum2 (energy m) v d + INR (length d) * ((neps * D) * (neps * D)).
Proof.
  intros Hne Hd Hv Hl H1. pose proof eps_pos as Heps.
  assert (Hp : Forall (fun x => 0 < x) d) by (eapply Forall_impl; [|exact Hd]; cbv beta; intros; lra).
  destruct (power_column_eq d Hne Hp) as (mx & Hin & Hmx & E). cbv zeta in E. rewrite E.
  set (g := fun x => Rmax x (neps * mx)) in *.
  assert (Hm0 : 0 < mx <= D) by (rewrite Forall_forall in Hd; auto).
  assert (Hg : forall x, x <= g x) by (intros; apply Rmax_l).
  assert (B : sum2 (energy m) (map (fun x => Rpower x e / Rsum (map (fun y => Rpower y e) (map g d))) (map g d)) (map g d)
              <= sum2 (energy m) v (map g d)).
  { apply column_best.
    - intros Q. apply map_eq_nil in Q. congruence.
    - apply Forall_forall. intros y Hy. apply in_map_iff in Hy as (x & <- & Hx). rewrite Forall_forall in Hp.
      eapply Rlt_le_trans; [apply (Hp x Hx)|apply Hg].
    - eapply Forall_impl; [|exact Hv]; cbv beta; intros; lra.
    - now rewrite map_length.
    - auto. }
  eapply Rle_trans; [|eapply Rle_trans; [exact B|]].
  - rewrite (sum2_map_r (energy m) g). apply sum2_le. intros x y Hxy. unfold energy.
    apply Rmult_le_compat_l; [left; apply Rpower_pos|].
    assert (0 < y) by (rewrite Forall_forall in Hp; apply Hp; eapply in_combine_r; eauto).
    specialize (Hg y). apply Rmult_le_compat; lra.
  - rewrite sum2_map_r, <- sum2_plus_const by auto. apply sum2_le. intros x y Hxy. unfold energy.
    assert (0 < y) by (rewrite Forall_forall in Hp; apply Hp; eapply in_combine_r; eauto).
    assert (Hx : 0 < x <= 1) by (rewrite Forall_forall in Hv; apply Hv; eapply in_combine_l; eauto).
    pose proof (Rpower_le1 x m Hx ltac:(lra)) as P1. pose proof (Rpower_pos x m) as P0.
    assert (Hq : 0 < neps * mx) by (apply Rmult_lt_0_compat; lra).
    assert (Hq2 : neps * mx <= neps * D) by (apply Rmult_le_compat_l; lra).
    assert (Hq3 : neps * mx * (neps * mx) <= neps * D * (neps * D)) by (apply Rmult_le_compat; lra).
    assert (Hy2 : 0 <= y * y) by nra.
    assert (Hw : 0 <= Rpower x m * (y * y)) by (apply Rmult_le_pos; lra).
    unfold g. unfold Rmax. destruct (Rle_dec y (neps * mx)); [|nra].
    apply Rle_trans with (1 * (neps * mx * (neps * mx))); [apply Rmult_le_compat_r; nra|lra].
Qed.
Lemma column_descent_exact (d v : list R) : d <> [] -> Forall (fun x => 0 < x) d -> Forall (fun x => 0 < x) v ->
  length v = length d -> 1 <= Rsum v -> (forall x y, In x d -> In y d -> neps * x <= y) ->
  sum2 (energy m) (power_column e d) d <= sum2 (energy m) v d.
Proof.
  intros Hne Hp Hv Hl H1 Hr.
  destruct (power_column_eq d Hne Hp) as (mx & Hin & Hmx & E). cbv zeta in E. rewrite E.
  assert (Ed : map (fun x => Rmax x (neps * mx)) d = d).
  { rewrite <- (map_id d) at 2. apply map_ext_in. intros x Hx. apply Rmax_left. auto. }
  rewrite Ed. apply column_best; auto.
Qed.
End Point.

(** ** Whole matrices *)
Definition map2 (f : R -> R -> R) (a b : list R) : list R := map (fun p => f (fst p) (snd p)) (combine a b).
Definition mmap2 (f : R -> R -> R) (a b : list (list R)) : list (list R) :=
  map (fun rs => map2 f (fst rs) (snd rs)) (combine a b).
Lemma nth_map2 f a : forall b j, length a = length b -> (j < length a)%nat ->
  nth j (map2 f a b) 0 = f (nth j a 0) (nth j b 0).
Proof.
  induction a as [|x a IH]; intros [|y b] j H Hj; simpl in *; try lia. destruct j; [reflexivity|].
  apply IH; lia.
Qed.
Lemma mcol_mmap2 f n a b j : shape (length b) n a -> shape (length b) n b -> (j < n)%nat ->
  map (fun r => nth j r 0) (mmap2 f a b) = map2 f (mcol a j) (mcol b j).
Proof.
  intros [Ha1 Ha2] [_ Hb2] Hj. revert b Ha1 Hb2. induction Ha2 as [|r a Hr Ha IH]; intros [|s b] Hl Hb; try discriminate; [reflexivity|].
  inversion Hb; subst. cbn [mcol mmap2 combine map map2 fst snd]. f_equal.
  - change (nth j (map2 f r s) 0 = f (nth j r n0) (nth j s n0)). rewrite nth_map2 by lia. reflexivity.
  - apply IH; [simpl in Hl; lia|auto].
Qed.
Lemma total2_columns f c n a b : shape c n a -> shape c n b ->
  total2 f a b = Rsum (map (fun j => sum2 f (mcol a j) (mcol b j)) (seq 0 n)).
Proof.
  intros Ha Hb. transitivity (Rsum (map Rsum (mmap2 f a b))).
  { unfold total2, mmap2. rewrite map_map. reflexivity. }
  rewrite <- (Rsum_double (mmap2 f a b) n).
  - f_equal. apply map_ext_in. intros j Hj. apply in_seq in Hj. destruct Hb as [Hb1 Hb2].
    subst c. rewrite (mcol_mmap2 f n); [reflexivity|exact Ha|now split|lia].
  - destruct Ha as [Ha1 Ha2], Hb as [Hb1 Hb2]. unfold mmap2. apply Forall_forall. intros r Hr.
    apply in_map_iff in Hr as ((x, y) & <- & Hxy). unfold map2. rewrite map_length, combine_length. cbn [fst snd].
    rewrite Forall_forall in Ha2, Hb2. rewrite (Ha2 x), (Hb2 y); [lia|eapply in_combine_r; eauto|eapply in_combine_l; eauto].
Qed.
Lemma objective_total2 f (um d : list (list R)) :
  nsum (concat (zip_with (fun r s => zip_with f r s) um d)) = total2 f um d.
Proof.
  rewrite nsum_Rsum. revert d. induction um as [|r um IH]; intros [|s d]; try reflexivity.
  rewrite zip_cons. cbn [concat]. rewrite Rsum_app, IH. reflexivity.
Qed.
Lemma total2_map_l f (g : R -> R) a b : total2 f (map (map g) a) b = total2 (fun x y => f (g x) y) a b.
Proof.
  unfold total2. revert b. induction a as [|r a IH]; intros [|s b]; try reflexivity. cbn [map combine Rsum fold_right fst snd].
  f_equal; [|apply IH]. clear. revert s. induction r as [|x r IH]; intros [|y s]; try reflexivity.
  cbn [map combine Rsum fold_right fst snd]. f_equal. apply IH.
Qed.
Lemma mcol_shape_len a c n j : shape c n a -> length (mcol a j) = c.
Proof. intros [H _]. now rewrite mcol_length. Qed.
Lemma mcol_power e d c n j : shape c n d -> (0 < c)%nat -> (j < n)%nat ->
  mcol (by_columns (power_column e) d) j = power_column e (mcol d j).
Proof.
  intros Hd Hc Hj.
  assert (Hs : shape c n (by_columns (power_column e) d)) by (apply by_columns_shape; auto using power_column_length).
  rewrite (mcol_column_of _ c n j Hs Hj), (mcol_column_of d c n j Hd Hj).
  apply (by_columns_column (power_column e) d c n j); auto using power_column_length.
Qed.
Lemma mcol_Forall (P : R -> Prop) a c n j : shape c n a -> (j < n)%nat -> (forall r x, In r a -> In x r -> P x) ->
  Forall P (mcol a j).
Proof.
  intros [_ H2] Hj H. apply Forall_forall. intros x Hx. unfold mcol in Hx. apply in_map_iff in Hx as (r & <- & Hr).
  apply (H r); auto. apply nth_In. rewrite Forall_forall in H2. rewrite (H2 r Hr). auto.
Qed.
Lemma Rsum_le {A} (f g : A -> R) l : (forall x, In x l -> f x <= g x) -> Rsum (map f l) <= Rsum (map g l).
Proof.
  induction l as [|x l IH]; intros H; [simpl; lra|]. cbn [map Rsum fold_right].
  apply Rplus_le_compat; [apply H; simpl; auto|apply IH; intros; apply H; simpl; auto].
Qed.
Lemma matrix_descent m c n d v D : 1 < m -> (0 < c)%nat -> shape c n d -> shape c n v ->
  (forall r x, In r d -> In x r -> 0 < x <= D) -> (forall r x, In r v -> In x r -> 0 < x <= 1) ->
  (forall j, (j < n)%nat -> 1 <= Rsum (mcol v j)) ->
  total2 (energy m) (by_columns (power_column (-2 / (m - 1))) d) d
  <= total2 (energy m) v d + INR n * (INR c * ((neps * D) * (neps * D))).
Proof.
  intros Hm Hc Hd Hv Pd Pv Hs.
  assert (Hu : shape c n (by_columns (power_column (-2 / (m - 1))) d)) by (apply by_columns_shape; auto using power_column_length).
  rewrite (total2_columns _ c n _ _ Hu Hd), (total2_columns _ c n _ _ Hv Hd).
  eapply Rle_trans; [apply Rsum_le with (g := fun j => sum2 (energy m) (mcol v j) (mcol d j) + INR c * ((neps * D) * (neps * D)))|].
  - intros j Hj. apply in_seq in Hj. rewrite (mcol_power _ _ c n) by (auto; lia).
    rewrite <- (mcol_shape_len d c n j Hd) at 1. apply column_descent; auto.
    + intros Q. apply (f_equal (@length R)) in Q. rewrite (mcol_shape_len d c n j Hd) in Q. simpl in Q. lia.
    + eapply mcol_Forall; eauto; lia.
    + eapply mcol_Forall; eauto; lia.
    + now rewrite (mcol_shape_len d c n j Hd), (mcol_shape_len v c n j Hv).
    + apply Hs; lia.
  - rewrite Rsum_map_plus. apply Rplus_le_compat_l. right. rewrite (Rsum_map_const _ (INR c * ((neps * D) * (neps * D)))) by auto.
    now rewrite seq_length.
Qed.
Lemma matrix_descent_exact m c n d v : 1 < m -> (0 < c)%nat -> shape c n d -> shape c n v ->
  (forall r x, In r d -> In x r -> 0 < x) -> (forall r x, In r v -> In x r -> 0 < x) ->
  (forall j, (j < n)%nat -> 1 <= Rsum (mcol v j)) ->
  (forall j x y, (j < n)%nat -> In x (mcol d j) -> In y (mcol d j) -> neps * x <= y) ->
  total2 (energy m) (by_columns (power_column (-2 / (m - 1))) d) d <= total2 (energy m) v d.
Proof.
  intros Hm Hc Hd Hv Pd Pv Hs Hr.
  assert (Hu : shape c n (by_columns (power_column (-2 / (m - 1))) d)) by (apply by_columns_shape; auto using power_column_length).
  rewrite (total2_columns _ c n _ _ Hu Hd), (total2_columns _ c n _ _ Hv Hd). apply Rsum_le.
  intros j Hj. apply in_seq in Hj. rewrite (mcol_power _ _ c n) by (auto; lia). apply column_descent_exact; auto.
  - intros Q. apply (f_equal (@length R)) in Q. rewrite (mcol_shape_len d c n j Hd) in Q. simpl in Q. lia.
  - eapply mcol_Forall; eauto; lia.
  - eapply mcol_Forall; eauto; lia.
  - now rewrite (mcol_shape_len d c n j Hd), (mcol_shape_len v c n j Hv).
  - apply Hs; lia.
  - intros x y. apply Hr; lia.
Qed.
