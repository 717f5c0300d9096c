(** CmeansFacts.v — matrices, normalisation and the c-means model. *)
From Coq Require Import Reals Lra.
From Verif Require Import Base BaseFacts Num Spec RealFacts Functions LearnUtils LearnSpec LearnFacts Cmeans.

Section Any.
Context {F : Type} {N : Num F}.
Implicit Types (m : list (list F)).

Lemma mcol_length m j : length (mcol m j) = length m.
Proof. apply map_length. Qed.
Lemma transpose_shape n m : shape n (length m) (transpose n m).
Proof.
  unfold transpose. split; [now rewrite map_length, seq_length|].
  apply Forall_forall. intros r Hr. apply in_map_iff in Hr as (j & <- & _). apply mcol_length.
Qed.
Lemma mcol_column_of m r c j : shape r c m -> j < c -> mcol m j = column_of m j.
Proof.
  intros [_ H] Hj. unfold mcol, column_of. induction H as [|x m Hx H IH]; [reflexivity|].
  cbn [map flat_map]. rewrite IH. rewrite (nth_error_nth' x n0) by lia. reflexivity.
Qed.
Lemma mcols_shape m r c : shape r c m -> 0 < r -> mcols m = c.
Proof. intros [H1 H2] Hr. destruct H2; simpl in *; [lia|auto]. Qed.
Lemma nth_error_transpose n m j : j < n -> nth_error (transpose n m) j = Some (mcol m j).
Proof.
  intros H. unfold transpose. rewrite nth_error_map. rewrite (nth_error_nth' _ 0) by now rewrite seq_length.
  rewrite seq_nth by auto. reflexivity.
Qed.
Lemma mcol_transpose n m i c : shape (length m) n m -> i < length m ->
  nth_error m i = Some c -> mcol (transpose n m) i = c.
Proof.
  intros [_ H] Hi Hc. unfold mcol, transpose. rewrite map_map.
  assert (Hl : length c = n). { rewrite Forall_forall in H. apply H. eapply nth_error_In; eauto. }
  subst n. transitivity (map (fun j => nth j c n0) (seq 0 (length c))).
  - apply map_ext_in. intros j Hj. unfold mcol.
    apply nth_error_nth. rewrite nth_error_map, Hc. reflexivity.
  - clear. induction c as [|x c IH]; [reflexivity|]. cbn [length seq map nth]. f_equal.
    rewrite <- seq_shift, map_map. exact IH.
Qed.
Lemma by_columns_shape f m r c : (forall l, length (f l) = length l) ->
  shape r c m -> shape r c (by_columns f m).
Proof.
  intros Hf Hs. unfold by_columns. destruct r.
  - destruct Hs as [H1 H2]. destruct m; [|discriminate]. split; [reflexivity|constructor].
  - rewrite (mcols_shape m (S r) c Hs) by lia.
    destruct (transpose_shape (length m) (map f (transpose c m))) as [E1 E2].
    destruct Hs as [Hr _]. rewrite Hr in *. split; [auto|].
    rewrite map_length in E2. destruct (transpose_shape c m) as [E3 _]. now rewrite E3 in E2.
Qed.
Lemma nth_error_ext' {A} (l l' : list A) : length l = length l' ->
  (forall i, i < length l -> nth_error l i = nth_error l' i) -> l = l'.
Proof.
  revert l'. induction l as [|x l IH]; intros [|y l'] E H; try discriminate; auto.
  f_equal; [specialize (H 0 ltac:(simpl; lia)); simpl in H; congruence|].
  apply IH; [simpl in E; lia|]. intros i Hi. apply (H (S i)). simpl. lia.
Qed.
Lemma column_of_transpose n m j c : shape (length m) n m -> nth_error m j = Some c ->
  column_of (transpose n m) j = c.
Proof.
  intros Hs Hc. assert (Hj : j < length m) by (apply nth_error_Some; congruence).
  rewrite <- (mcol_column_of _ n (length m) j (transpose_shape n m) Hj).
  now apply mcol_transpose.
Qed.
Lemma by_columns_column f m r c j : (forall l, length (f l) = length l) ->
  shape r c m -> 0 < r -> j < c -> column_of (by_columns f m) j = f (column_of m j).
Proof.
  intros Hf Hs Hr Hj. unfold by_columns. rewrite (mcols_shape m r c Hs Hr).
  assert (Hs' : shape (length (map f (transpose c m))) (length m) (map f (transpose c m))).
  { split; [reflexivity|]. destruct (transpose_shape c m) as [_ H]. rewrite Forall_forall in *.
    intros l Hl. apply in_map_iff in Hl as (l' & <- & Hl). rewrite Hf. auto. }
  apply column_of_transpose; [exact Hs'|].
  rewrite nth_error_map, nth_error_transpose by auto. simpl. f_equal. f_equal.
  now apply mcol_column_of with (r := r) (c := c).
Qed.
Lemma entry_column m r c i j x : shape r c m -> j < c ->
  (nth_error (column_of m j) i = Some x <-> entry m i j = Some x).
Proof.
  intros Hs Hj. rewrite <- (mcol_column_of m r c j Hs Hj). unfold mcol, entry.
  rewrite nth_error_map. destruct (nth_error m i) as [row|] eqn:E; simpl; [|tauto].
  destruct Hs as [_ H]. rewrite Forall_forall in H. specialize (H row (nth_error_In _ _ E)).
  rewrite (nth_error_nth' row n0) by lia. tauto.
Qed.
Lemma entry_lt m r c i j x : shape r c m -> entry m i j = Some x -> i < r /\ j < c.
Proof.
  intros [H1 H2] H. unfold entry in H. destruct (nth_error m i) as [row|] eqn:E; [|discriminate].
  rewrite Forall_forall in H2. specialize (H2 row (nth_error_In _ _ E)).
  split; [rewrite <- H1; apply nth_error_Some; congruence|rewrite <- H2; apply nth_error_Some; congruence].
Qed.
Lemma column_In m r c j x : shape r c m -> j < c -> In x (column_of m j) -> exists i, entry m i j = Some x.
Proof.
  intros Hs Hj H. apply In_nth_error in H as (i & Hi). exists i. now apply (entry_column m r c i j x Hs Hj).
Qed.
Lemma column_length m r c j : shape r c m -> j < c -> length (column_of m j) = r.
Proof. intros Hs Hj. rewrite <- (mcol_column_of m r c j Hs Hj), mcol_length. apply Hs. Qed.
Lemma map_map_shape (g : F -> F) m r c : shape r c m -> shape r c (map (map g) m).
Proof.
  intros [H1 H2]. split; [now rewrite map_length|]. rewrite Forall_forall in *.
  intros l Hl. apply in_map_iff in Hl as (l' & <- & Hl). rewrite map_length. auto.
Qed.
Lemma distance_shape (data centers : list F) :
  shape (length centers) (length data) (one_dimension_distance data centers).
Proof.
  unfold one_dimension_distance. split; [apply map_length|]. apply Forall_forall. intros r Hr.
  apply in_map_iff in Hr as (c & <- & _). apply map_length.
Qed.
Lemma normalize_column_length (l : list F) : length (normalize_column l) = length l.
Proof. apply map_length. Qed.
Lemma scale_max_length (l : list F) : length (scale_max l) = length l.
Proof. destruct l; [reflexivity|apply map_length]. Qed.
Lemma scale_min_length (l : list F) : length (scale_min l) = length l.
Proof. destruct l; [reflexivity|apply map_length]. Qed.
Lemma power_column_length e (l : list F) : length (power_column e l) = length l.
Proof.
  unfold power_column. rewrite normalize_column_length, map_length.
  destruct (nltb e n0); rewrite ?scale_min_length, ?map_length; apply scale_max_length.
Qed.

(** ** Shapes along the algorithm, for every number type *)
Lemma cmeans0_shape data u (m : F) cntr u' j d c n :
  cmeans0 data u m = Ok (cntr, u', j, d) -> shape c n u -> length data = n ->
  shape c n u' /\ length cntr = c /\ shape c n d.
Proof.
  intros H Hs Hd. unfold cmeans0 in H.
  set (um := map (map (fun x => npow x m)) (map (map (fun x => fmax x neps)) (normalize_columns u))) in *.
  assert (Hum : shape c n um).
  { apply map_map_shape, map_map_shape, by_columns_shape; auto using normalize_column_length. }
  set (ctr := map _ um) in *.
  assert (Hc : length ctr = c) by (unfold ctr; rewrite map_length; apply Hum).
  set (dd := map _ (one_dimension_distance data ctr)) in *.
  assert (Hdd : shape c n dd).
  { apply map_map_shape. rewrite <- Hc, <- Hd. apply distance_shape. }
  destruct (pdiv (nofZ (-2)) (nsub m n1)) as [e|]; [|discriminate]. cbn [rbind] in H.
  unfold normalize_power_columns in H. destruct (forallb _ dd); [|discriminate]. cbn [rbind] in H.
  inversion H; subst. split; [|split; auto].
  apply by_columns_shape; auto using power_column_length.
Qed.
Lemma cmeans_loop_shape c n k : forall data (m : F) err last u jm p last' u' jm' p',
  cmeans_loop k data m err last u jm p = Ok (last', u', jm', p') ->
  shape c n u -> length data = n ->
  (forall cn d, last = Some (cn, d) -> length cn = c) ->
  shape c n u' /\ (forall cn d, last' = Some (cn, d) -> length cn = c) /\
  p <= p' <= p + k /\ length jm' + p = length jm + p' /\
  (last' = None -> last = None /\ k = 0) /\ (0 < k -> p < p').
Proof.
  induction k as [|k IH]; intros data m err last u jm p last' u' jm' p' H Hs Hd Hl.
  - simpl in H. inversion H; subst. split; [auto|]. split; [auto|]. split; [lia|]. split; [lia|]. split; [auto|lia].
  - cbn [cmeans_loop] in H. destruct (cmeans0 data u m) as [[[[cn u1] j] d]|] eqn:E; [|discriminate].
    cbn [rbind] in H. destruct (cmeans0_shape _ _ _ _ _ _ _ c n E Hs Hd) as (S1 & S2 & S3).
    destruct (nltb (mdist u1 u) err).
    + inversion H; subst. split; [auto|]. split; [intros cn0 d0 H0; inversion H0; subst; auto|].
      split; [lia|]. rewrite app_length. simpl. split; [lia|]. split; [discriminate|lia].
    + apply IH in H; auto; [|intros cn0 d0 H0; inversion H0; subst; auto].
      destruct H as (A1 & A2 & A3 & A4 & A5 & A6). rewrite app_length in A4. simpl in A4.
      split; [auto|]. split; [auto|]. split; [lia|]. split; [lia|]. split; [|lia].
      intros Hn. apply A5 in Hn as [Hn _]. discriminate.
Qed.
Lemma cmeans_start_shape c n u0 u : cmeans_start c n u0 = Ok u -> shape c n u.
Proof.
  unfold cmeans_start. intros H. split; [apply rmap_ok_length in H; now rewrite seq_length in H|].
  apply rmap_ok_Forall2 in H.
  - clear -H. remember (seq 0 c) as s eqn:Es. clear Es. induction H as [|i row s u Hi H IH]; constructor; auto.
    destruct (nth_error u0 i) as [r|]; [|discriminate]. cbn [rbind] in Hi.
    apply rmap_ok_length in Hi. now rewrite seq_length in Hi.
Qed.
Lemma cmeans_shape data c (m : F) err maxiter init rand cntr u u0 d jm p fpc :
  cmeans data c m err maxiter init rand = Ok (cntr, u, u0, d, jm, p, fpc) ->
  shape c (length data) u /\ length cntr = c /\ 1 <= p /\ (Z.of_nat p <= maxiter - 1)%Z /\ length jm = p.
Proof.
  unfold cmeans. intros H.
  destruct (cmeans_start c (length data) _) as [us|] eqn:Es; [|discriminate]. cbn [rbind] in H.
  apply cmeans_start_shape in Es.
  destruct (cmeans_loop _ _ _ _ _ _ _ _) as [[[[l u1] j1] p1]|] eqn:El; [|discriminate]. cbn [rbind] in H.
  destruct (fp_coeff u1) as [f|]; [|discriminate]. cbn [rbind] in H.
  destruct (cmeans_loop_shape c (length data) _ _ _ _ _ _ _ _ _ _ _ _ El Es eq_refl ltac:(discriminate))
    as (A1 & A2 & A3 & A4 & A5 & A6).
  destruct l as [[cn dd]|]; [|discriminate]. inversion H; subst. cbn [length] in A4.
  split; [auto|]. split; [eapply A2; eauto|].
  destruct (Z.to_nat (maxiter - 1)) as [|k] eqn:Ek; [simpl in El; inversion El|].
  split; [lia|]. split; [|lia]. lia.
Qed.
Lemma cmeans_few_iter data c (m : F) err maxiter init rand r : (maxiter <= 1)%Z ->
  cmeans data c m err maxiter init rand <> Ok r.
Proof.
  intros Hm H. unfold cmeans in H. replace (Z.to_nat (maxiter - 1)) with 0 in H by lia.
  destruct (cmeans_start c (length data) _) as [us|] eqn:Es; [|discriminate]. cbn [rbind cmeans_loop] in H.
  destruct (fp_coeff us); discriminate.
Qed.
End Any.
Local Open Scope R_scope.

(** ** Normalisation over the reals *)
Lemma Rsum_pos l : l <> [] -> Forall (fun x => 0 < x) l -> 0 < Rsum l.
Proof.
  intros Hn H. destruct H as [|x l Hx H]; [congruence|]. cbn [Rsum fold_right].
  assert (0 <= Rsum l). { apply Rsum_nonneg. eapply Forall_impl; [|exact H]. simpl; intros; lra. }
  unfold Rsum in *. lra.
Qed.
Lemma Rsum_In_le l x : Forall (fun x => 0 <= x) l -> In x l -> x <= Rsum l.
Proof.
  induction 1 as [|y l Hy H IH]; [contradiction|]. cbn [Rsum fold_right]. apply Rsum_nonneg in H.
  intros [->|Hin]; [unfold Rsum in *; lra|]. specialize (IH Hin). unfold Rsum in *. lra.
Qed.
Lemma Rsum_div l s : Rsum (map (fun x => x / s) l) = Rsum l / s.
Proof. induction l as [|x l IH]; cbn [map Rsum fold_right]; [unfold Rdiv; lra|]. unfold Rsum in *. rewrite IH. unfold Rdiv. lra. Qed.
Lemma normalize_column_spec (l : list R) : l <> [] -> Forall (fun x => 0 < x) l ->
  Forall (fun x => 0 < x <= 1) (normalize_column l) /\ Rsum (normalize_column l) = 1.
Proof.
  intros Hn H. pose proof (Rsum_pos l Hn H) as Hp. unfold normalize_column. rnum. rewrite nsum_Rsum. split.
  - apply Forall_forall. intros y Hy. apply in_map_iff in Hy as (x & <- & Hx).
    rewrite Forall_forall in H. pose proof (H x Hx).
    assert (x <= Rsum l). { apply Rsum_In_le; auto. apply Forall_forall. intros z Hz. specialize (H z Hz). lra. }
    split; [apply Rdiv_lt_0_compat; lra|]. apply Rmult_le_reg_r with (Rsum l); [lra|].
    unfold Rdiv. rewrite Rmult_assoc, Rinv_l by lra. lra.
  - rewrite Rsum_div. field. lra.
Qed.
Lemma Rpower_pos x y : 0 < Rpower x y.
Proof. apply exp_pos. Qed.
Lemma power_column_spec e (l : list R) : l <> [] ->
  Forall (fun x => 0 < x <= 1) (power_column e l) /\ Rsum (power_column e l) = 1.
Proof.
  intros Hn. unfold power_column. apply normalize_column_spec.
  - intros E. apply (f_equal (@length R)) in E. rewrite map_length in E.
    destruct (nltb e n0); rewrite ?scale_min_length, map_length, scale_max_length in E; destruct l; simpl in E; congruence.
  - apply Forall_forall. intros x Hx. apply in_map_iff in Hx as (y & <- & _). apply Rpower_pos.
Qed.
Lemma eps_pos : 0 < neps (F := R).
Proof. cbn [neps RNum]. apply Rinv_0_lt_compat. lra. Qed.

(** the partition computed by [normalize_power_columns], whatever the distances *)
Lemma power_partition c n d e : (0 < c)%nat -> shape c n d ->
  fuzzy_partition c n (by_columns (power_column e) d).
Proof.
  intros Hc Hs. pose proof (by_columns_shape (power_column e) d c n (power_column_length e) Hs) as Hs'.
  assert (Hcol : forall j, (j < n)%nat ->
    Forall (fun x => 0 < x <= 1) (column_of (by_columns (power_column e) d) j) /\
    Rsum (column_of (by_columns (power_column e) d) j) = 1).
  { intros j Hj. rewrite (by_columns_column (power_column e) d c n j (power_column_length e) Hs Hc Hj).
    apply power_column_spec. intros E. apply (f_equal (@length R)) in E.
    rewrite (column_length d c n j Hs Hj) in E. simpl in E. lia. }
  split; [exact Hs'|]. split.
  - intros i j x Hx. destruct (entry_lt _ _ _ _ _ _ Hs' Hx) as [_ Hj]. destruct (Hcol j Hj) as [H _].
    rewrite Forall_forall in H. apply H. apply (entry_column _ _ _ i j x Hs' Hj) in Hx. eapply nth_error_In; eauto.
  - intros j Hj. apply Hcol; auto.
Qed.
(** weighted means lie between the extreme values *)
Lemma weighted_mean_bounds lo hi (ws xs : list R) : length ws = length xs -> ws <> [] ->
  Forall (fun w => 0 < w) ws -> Forall (fun x => lo <= x <= hi) xs ->
  lo <= nsum (zip_with nmul ws xs) / nsum ws <= hi.
Proof.
  intros El Hn Hw Hx. pose proof (Rsum_pos ws Hn Hw) as Hp. rewrite !nsum_Rsum.
  assert (G : lo * Rsum ws <= Rsum (zip_with nmul ws xs) <= hi * Rsum ws).
  { clear Hn Hp. revert xs El Hx. induction Hw as [|w ws Hw' Hw IH]; intros [|x xs] El Hx; try discriminate.
    - unfold Rsum, zip_with; simpl; lra.
    - inversion Hx; subst. specialize (IH xs ltac:(simpl in El; lia) H2).
      unfold zip_with in *. cbn [combine map Rsum fold_right fst snd]. unfold Rsum in *. rnum.
      assert (lo * w <= w * x <= hi * w). { split; [rewrite (Rmult_comm w x)|rewrite (Rmult_comm w x)]; apply Rmult_le_compat_r; lra. }
      lra. }
  split.
  - apply Rmult_le_reg_r with (Rsum ws); [lra|]. unfold Rdiv. rewrite Rmult_assoc, Rinv_l by lra. lra.
  - apply Rmult_le_reg_r with (Rsum ws); [lra|]. unfold Rdiv. rewrite Rmult_assoc, Rinv_l by lra. lra.
Qed.

Lemma cmeans0_real data u m c n : (0 < c)%nat -> (0 < n)%nat -> m <> 1 -> shape c n u -> length data = n ->
  exists cntr u' j d, cmeans0 data u m = Ok (cntr, u', j, d) /\
    fuzzy_partition c n u' /\
    (forall lo hi, Forall (fun x => lo <= x <= hi) data -> Forall (fun x => lo <= x <= hi) cntr) /\
    d = map (fun ctr => map (fun x => Rmax (Rabs (x - ctr)) neps) data) cntr /\
    u' = by_columns (power_column (-2 / (m - 1))) d.
Proof.
  intros Hc Hn Hm Hs Hd.
  assert (Hs1 : shape c n (normalize_columns u)) by (apply by_columns_shape; auto using normalize_column_length).
  unfold cmeans0.
  set (um := map (map (fun x => npow x m)) (map (map (fun x => fmax x neps)) (normalize_columns u))) in *.
  assert (Hum : shape c n um) by (apply map_map_shape, map_map_shape; auto).
  set (ctr := map (fun r => ndiv (nsum (zip_with nmul r data)) (nsum r)) um) in *.
  assert (Hctr : length ctr = c) by (unfold ctr; rewrite map_length; apply Hum).
  set (dd := map (map (fun x => fmax x neps)) (one_dimension_distance data ctr)) in *.
  assert (Hdd : shape c n dd).
  { apply map_map_shape. rewrite <- Hctr, <- Hd. apply distance_shape. }
  assert (Edd : dd = map (fun ct => map (fun x => Rmax (Rabs (x - ct)) neps) data) ctr).
  { unfold dd, one_dimension_distance. rewrite map_map. apply map_ext. intros ct. rewrite map_map. apply map_ext.
    intros x. unfold fmax. rnum. unfold Rmax. rcase; destruct (Rle_dec (Rabs (x - ct)) (/ 4503599627370496)); lra. }
  unfold pdiv. rnum. destruct (Reqb_spec (m - 1) 0) as [E|E]; [lra|]. cbn [rbind].
  unfold normalize_power_columns. 
  assert (Ha : forallb (forallb (fun v => nleb n0 v)) dd = true).
  { apply forallb_forall. intros r Hr. apply forallb_forall. intros x Hx. rewrite Edd in Hr.
    apply in_map_iff in Hr as (ct & <- & _). apply in_map_iff in Hx as (y & <- & _). rnum.
    apply Rleb_true. pose proof eps_pos. pose proof (Rmax_r (Rabs (y - ct)) (neps (F:=R))). cbn [neps RNum] in *. lra. }
  rnum. rewrite Ha. cbn [rbind]. do 4 eexists. split; [reflexivity|].
  split; [apply power_partition; auto|].
  split; [|split; [exact Edd|reflexivity]].
  intros lo hi Hx. apply Forall_forall. intros y Hy. unfold ctr in Hy. apply in_map_iff in Hy as (r & <- & Hr).
  assert (Hlr : length r = n). { destruct Hum as [_ H]. rewrite Forall_forall in H. auto. }
  apply weighted_mean_bounds; auto.
  - congruence.
  - intros ->. simpl in Hlr. lia.
  - apply Forall_forall. intros w Hw. unfold um in Hr. apply in_map_iff in Hr as (r' & <- & _).
    apply in_map_iff in Hw as (z & <- & _). apply Rpower_pos.
Qed.

(** ** The whole algorithm *)
Lemma cmeans_start_ok c n (u0 : list (list R)) : shape c n u0 -> exists u, cmeans_start c n u0 = Ok u.
Proof.
  intros [H1 H2]. unfold cmeans_start.
  assert (G : forall (A B : Type) (f : A -> res B) l, (forall a, In a l -> exists b, f a = Ok b) -> exists bs, rmap f l = Ok bs).
  { intros A B f l. induction l as [|a l IH]; intros H; [eexists; reflexivity|]. cbn [rmap].
    destruct (H a (or_introl eq_refl)) as [b ->]. destruct IH as [bs ->]; [intros; apply H; simpl; auto|].
    eexists; reflexivity. }
  apply G. intros i Hi. apply in_seq in Hi.
  destruct (nth_error u0 i) as [r|] eqn:Er; [|apply nth_error_None in Er; lia]. cbn [rbind].
  apply G. intros j Hj. apply in_seq in Hj. rewrite Forall_forall in H2. specialize (H2 r (nth_error_In _ _ Er)).
  unfold nbget. destruct (nth_error r j) eqn:Ex; [|apply nth_error_None in Ex; lia]. eexists; reflexivity.
Qed.
Lemma fp_coeff_ok c n (u : list (list R)) : (0 < c)%nat -> (0 < n)%nat -> shape c n u -> exists x, fp_coeff u = Ok x.
Proof.
  intros Hc Hn Hs. unfold fp_coeff. rewrite (mcols_shape u c n Hs Hc). rnum.
  destruct (Reqb_spec (IZR (Z.of_nat n)) 0) as [E|E]; [|eexists; reflexivity].
  rewrite <- INR_IZR_INZ in E. apply lt_0_INR in Hn. lra.
Qed.
(** what is known of the outcome of at least one step *)
Definition step_outcome (data : list R) (m : R) (c : nat) (cntr : list R) (u d prev : list (list R)) : Prop :=
  shape c (length data) prev /\
  (exists j, cmeans0 data prev m = Ok (cntr, u, j, d)) /\
  fuzzy_partition c (length data) u.
Lemma cmeans_loop_real k : forall data m err last (u : list (list R)) jm p c,
  (0 < c)%nat -> (0 < length data)%nat -> m <> 1 -> shape c (length data) u ->
  (forall cn d, last = Some (cn, d) -> exists prev, step_outcome data m c cn u d prev) ->
  exists last' u' jm' p', cmeans_loop k data m err last u jm p = Ok (last', u', jm', p') /\
    (last = None -> k = 0%nat -> last' = None) /\
    ((0 < k)%nat -> exists cn d prev, last' = Some (cn, d) /\ step_outcome data m c cn u' d prev /\
        (mdist u' prev < err \/ p' = (p + k)%nat)).
Proof.
  induction k as [|k IH]; intros data m err last u jm p c Hc Hd Hm Hs Hl.
  - do 4 eexists. split; [reflexivity|]. split; [auto|]. lia.
  - destruct (cmeans0_real data u m c _ Hc Hd Hm Hs eq_refl) as (cn & u1 & j & d & E & HP & _).
    cbn [cmeans_loop]. rewrite E. cbn [rbind]. rnum. destruct (Rltb_spec (mdist u1 u) err) as [L|L].
    + do 4 eexists. split; [reflexivity|]. split; [lia|]. intros _. exists cn, d, u.
      split; [reflexivity|]. split; [split; [auto|]; split; [eauto|auto]|auto].
    + destruct (IH data m err (Some (cn, d)) u1 (jm ++ [j]) (S p) c) as (l' & u' & jm' & p' & E' & _ & H2); auto.
      { apply HP. }
      { intros cn0 d0 H0. inversion H0; subst. exists u. split; [auto|]. split; [eauto|auto]. }
      do 4 eexists. split; [exact E'|]. split; [lia|]. intros _. destruct k as [|k].
      * simpl in E'. inversion E'; subst. exists cn, d, u.
        split; [reflexivity|]. split; [split; [auto|]; split; [eauto|auto]|right; lia].
      * destruct H2 as (cn' & d' & prev & Q1 & Q2 & Q3); [lia|]. exists cn', d', prev.
        split; [auto|]. split; [auto|]. destruct Q3; [auto|right; lia].
Qed.
Lemma cmeans_real data c m err maxiter init rand : (0 < c)%nat -> data <> [] -> m <> 1 -> (2 <= maxiter)%Z ->
  shape c (length data) (match init with Some u0 => u0 | None => rand end) ->
  exists cntr u u0 d jm p fpc prev,
    cmeans data c m err maxiter init rand = Ok (cntr, u, u0, d, jm, p, fpc) /\
    step_outcome data m c cntr u d prev /\
    (mdist u prev < err \/ (Z.of_nat p = maxiter - 1)%Z).
Proof.
  intros Hc Hd Hm Hi Hs.
  assert (Hd' : (0 < length data)%nat) by (destruct data; [congruence|simpl; lia]).
  unfold cmeans.
  set (u0 := match init with Some u => u | None => normalize_columns rand end).
  assert (Hs0 : shape c (length data) u0).
  { unfold u0. destruct init; auto. apply by_columns_shape; auto using normalize_column_length. }
  destruct (cmeans_start_ok c _ u0 Hs0) as [us Es]. rewrite Es. cbn [rbind].
  destruct (cmeans_loop_real (Z.to_nat (maxiter - 1)) data m err None us [] 0 c) as (l & u & jm & p & E & _ & H); auto.
  { eapply cmeans_start_shape; eauto. }
  { discriminate. }
  rewrite E. cbn [rbind]. destruct H as (cn & d & prev & -> & H2 & H3); [lia|].
  destruct (fp_coeff_ok c (length data) u Hc Hd') as [f Ef]; [apply H2|]. rewrite Ef. cbn [rbind].
  do 7 eexists. exists prev. split; [reflexivity|]. split; [auto|]. destruct H3; [auto|right; lia].
Qed.

(** ** Nearer centres get larger memberships *)
Lemma fmax_mono a b : a <= b -> fmax a neps <= fmax b (neps (F := R)).
Proof. intros H. unfold fmax. rnum. rcase; lra. Qed.
Lemma power_column_anti e (l : list R) i k a b a' b' : e < 0 -> Forall (fun x => 0 < x) l ->
  nth_error l i = Some a -> nth_error l k = Some b -> a <= b ->
  nth_error (power_column e l) i = Some a' -> nth_error (power_column e l) k = Some b' -> b' <= a'.
Proof.
  intros He Hp Hi Hk Hab Ha Hb. unfold power_column in Ha, Hb.
  assert (Hlt : nltb e n0 = true) by (rnum; apply Rltb_true; auto). rewrite Hlt in Ha, Hb.
  destruct l as [|x l]; [destruct i; discriminate|].
  set (mx := pmax x l) in *.
  assert (Hmx : 0 < mx). { destruct (pmax_spec l x) as [Hin _]. rewrite Forall_forall in Hp. auto. }
  set (c1 := map (fun v => fmax v neps) (scale_max (x :: l))) in *.
  assert (Hc1 : Forall (fun x => 0 < x) c1).
  { apply Forall_forall. intros y Hy. unfold c1 in Hy. apply in_map_iff in Hy as (z & <- & _).
    unfold fmax. rnum. pose proof eps_pos as Q. cbn [neps RNum] in Q. rcase; lra. }
  assert (N1 : forall i a, nth_error (x :: l) i = Some a -> nth_error c1 i = Some (fmax (a / mx) neps)).
  { intros i0 a0 H0. unfold c1. unfold scale_max. rewrite !nth_error_map, H0. reflexivity. }
  destruct c1 as [|y c2] eqn:Ec1; [specialize (N1 _ _ Hi); destruct i; discriminate|].
  set (mn := pmin y c2) in *.
  assert (Hmn : 0 < mn). { destruct (pmin_spec c2 y) as [Hin _]. rewrite Forall_forall in Hc1. auto. }
  set (c3 := map (fun v => npow v e) (scale_min (y :: c2))) in *.
  assert (Hc3 : 0 < Rsum c3).
  { apply Rsum_pos; [unfold c3, scale_min; discriminate|]. apply Forall_forall. intros z Hz.
    apply in_map_iff in Hz as (w & <- & _). apply Rpower_pos. }
  assert (N2 : forall i a, nth_error (x :: l) i = Some a ->
      nth_error (normalize_column c3) i = Some (Rpower (fmax (a / mx) neps / mn) e / Rsum c3)).
  { intros i0 a0 H0. unfold normalize_column. rewrite nth_error_map.
    assert (Q : nth_error c3 i0 = Some (Rpower (fmax (a0 / mx) neps / mn) e)).
    { unfold c3, scale_min. rewrite !nth_error_map, (N1 _ _ H0). reflexivity. }
    rewrite Q. cbn [option_map]. rewrite nsum_Rsum. reflexivity. }
  rewrite (N2 _ _ Hi) in Ha. rewrite (N2 _ _ Hk) in Hb. inversion Ha; inversion Hb; subst a' b'. clear Ha Hb N1 N2.
  apply Rmult_le_compat_r; [left; apply Rinv_0_lt_compat; auto|].
  assert (Ga : fmax (a / mx) neps <= fmax (b / mx) neps).
  { apply fmax_mono. apply Rmult_le_compat_r; [left; apply Rinv_0_lt_compat; auto|auto]. }
  assert (Gp : 0 < fmax (a / mx) neps). { unfold fmax. rnum. pose proof eps_pos as Q. cbn [neps RNum] in Q. rcase; lra. }
  unfold Rpower.
  assert (Gl : ln (fmax (a / mx) neps / mn) <= ln (fmax (b / mx) neps / mn)).
  { assert (Q : fmax (a / mx) neps / mn <= fmax (b / mx) neps / mn)
      by (apply Rmult_le_compat_r; [left; apply Rinv_0_lt_compat; auto|auto]).
    destruct Q as [Q|Q]; [|rewrite Q; lra]. left. apply ln_increasing; auto.
    apply Rdiv_lt_0_compat; auto. }
  assert (Ge : e * ln (fmax (b / mx) neps / mn) <= e * ln (fmax (a / mx) neps / mn)).
  { apply Rmult_le_compat_neg_l; lra. }
  destruct Ge as [Ge|Ge]; [left; now apply exp_increasing|right; f_equal; exact Ge].
Qed.
Lemma by_columns_entry f (m : list (list R)) r c i j : (forall l, length (f l) = length l) ->
  shape r c m -> (0 < r)%nat -> (j < c)%nat -> entry (by_columns f m) i j = nth_error (f (column_of m j)) i.
Proof.
  intros Hf Hs Hr Hj. pose proof (by_columns_shape f m r c Hf Hs) as Hs'.
  rewrite <- (by_columns_column f m r c j Hf Hs Hr Hj).
  destruct (nth_error (column_of (by_columns f m) j) i) as [x|] eqn:E.
  - apply (entry_column _ _ _ i j x Hs' Hj) in E. auto.
  - destruct (entry (by_columns f m) i j) as [x|] eqn:E'; auto.
    apply (entry_column _ _ _ i j x Hs' Hj) in E'. congruence.
Qed.
Lemma cmeans0_nearest data u m cntr u' jm d c i k j x ci ck a b : (0 < c)%nat -> 1 < m ->
  shape c (length data) u -> cmeans0 data u m = Ok (cntr, u', jm, d) ->
  nth_error data j = Some x -> nth_error cntr i = Some ci -> nth_error cntr k = Some ck ->
  entry u' i j = Some a -> entry u' k j = Some b ->
  Rabs (x - ci) <= Rabs (x - ck) -> b <= a.
Proof.
  intros Hc Hm Hs E Hx Hi Hk Ha Hb Hle.
  assert (Hj : (j < length data)%nat) by (apply nth_error_Some; congruence).
  destruct (cmeans0_real data u m c (length data) Hc ltac:(lia) ltac:(lra) Hs eq_refl) as (cn & u1 & j1 & d1 & E1 & HP & _ & Ed & Eu).
  rewrite E in E1. revert HP Ed Eu. inversion E1; subst cn u1 j1 d1. clear E1. intros HP Ed Eu.
  destruct (cmeans0_shape _ _ _ _ _ _ _ c _ E Hs eq_refl) as (_ & _ & Hsd).
  rewrite Eu in Ha, Hb.
  rewrite (by_columns_entry _ d c (length data)) in Ha, Hb; auto using power_column_length.
  assert (Hent : forall i0 c0, nth_error cntr i0 = Some c0 -> nth_error (column_of d j) i0 = Some (Rmax (Rabs (x - c0)) neps)).
  { intros i0 c0 H0. apply (entry_column d c (length data) i0 j _ Hsd Hj). rewrite Ed. unfold entry.
    rewrite nth_error_map, H0. cbn [option_map]. rewrite nth_error_map, Hx. reflexivity. }
  eapply (power_column_anti (-2 / (m - 1)) (column_of d j) i k); eauto.
  - unfold Rdiv. rewrite <- (Rmult_0_l (/ (m - 1))). apply Rmult_lt_compat_r; [apply Rinv_0_lt_compat; lra|lra].
  - apply Forall_forall. intros z Hz. destruct (column_In d c (length data) j z Hsd Hj Hz) as [i0 H0].
    rewrite Ed in H0. unfold entry in H0. rewrite nth_error_map in H0.
    destruct (nth_error cntr i0); [|discriminate]. cbn [option_map] in H0. rewrite nth_error_map, Hx in H0.
    cbn [option_map] in H0. injection H0 as <-. pose proof eps_pos as Q. eapply Rlt_le_trans; [exact Q|apply Rmax_r].
  - apply Rle_max_compat_r. exact Hle.
Qed.
