(** CmeansNFacts.v — facts about c-means on data with several columns. *)
From Coq Require Import Reals Lra.
From Verif Require Import Base BaseFacts Num Spec RealFacts Functions LearnUtils LearnSpec LearnFacts Cmeans CmeansFacts
  RlCmeans ClusterSpec CmeansN.

Section Any.
Context {F : Type} {N : Num F}.
Lemma distancesN_shape (data centers : list (list F)) :
  shape (length centers) (length data) (distancesN data centers).
Proof.
  split; [apply map_length|]. apply Forall_forall. intros r Hr. apply in_map_iff in Hr as (c & <- & _). apply map_length.
Qed.
Lemma centerN_length (data : list (list F)) r : length (centerN data r) = mcols data.
Proof. unfold centerN. now rewrite map_length, seq_length. Qed.
Lemma cmeans0N_shape data u (m : F) cntr u' j d c n k :
  cmeans0N data u m = Ok (cntr, u', j, d) -> shape c n u -> shape n k data -> 0 < n ->
  shape c n u' /\ shape c k cntr /\ shape c n d.
Proof.
  intros H Hs Hd Hn. unfold cmeans0N in H.
  set (um := map (map (fun x => npow x m)) (map (map (fun x => fmax x neps)) (normalize_columns u))) in *.
  assert (Hum : shape c n um).
  { apply map_map_shape, map_map_shape, by_columns_shape; auto using normalize_column_length. }
  set (ctr := map _ um) in *.
  assert (Hc : length ctr = c) by (unfold ctr; rewrite map_length; apply Hum).
  set (dd := map _ (distancesN data ctr)) in *.
  assert (Hdd : shape c n dd).
  { apply map_map_shape. rewrite <- Hc. destruct Hd as [<- _]. apply distancesN_shape. }
  destruct (pdiv (nofZ (-2)) (nsub m n1)) as [e|]; [|discriminate]. cbn [rbind] in H.
  unfold normalize_power_columns in H. destruct (forallb _ dd); [|discriminate]. cbn [rbind] in H.
  injection H as <- <- <- <-. split; [|split; auto].
  - apply by_columns_shape; auto using power_column_length.
  - split; [exact Hc|]. apply Forall_forall. intros x Hx. unfold ctr in Hx. apply in_map_iff in Hx as (r & <- & _).
    rewrite centerN_length. apply (mcols_shape data n k); auto.
Qed.
Lemma cmeans_loopN_shape c n cols k : forall data (m : F) err last u jm p last' u' jm' p',
  cmeans_loopN k data m err last u jm p = Ok (last', u', jm', p') ->
  shape c n u -> shape n cols data -> 0 < n ->
  (forall cn d, last = Some (cn, d) -> shape c cols cn) ->
  shape c n u' /\ (forall cn d, last' = Some (cn, d) -> shape c cols cn) /\
  p <= p' <= p + k /\ length jm' + p = length jm + p' /\
  (last' = None -> last = None /\ k = 0) /\ (0 < k -> p < p').
Proof.
  induction k as [|k IH]; intros data m err last u jm p last' u' jm' p' H Hs Hd Hn Hl.
  - simpl in H. inversion H; subst. split; [auto|]. split; [auto|]. split; [lia|]. split; [lia|]. split; [auto|lia].
  - cbn [cmeans_loopN] in H. destruct (cmeans0N data u m) as [[[[cn u1] j] d]|] eqn:E; [|discriminate].
    cbn [rbind] in H. destruct (cmeans0N_shape _ _ _ _ _ _ _ c n cols E Hs Hd Hn) as (S1 & S2 & S3).
    destruct (nltb (mdist u1 u) err).
    + inversion H; subst. split; [auto|]. split; [intros cn0 d0 H0; inversion H0; subst; auto|].
      split; [lia|]. rewrite app_length. simpl. split; [lia|]. split; [discriminate|lia].
    + apply IH in H; auto; [|intros cn0 d0 H0; inversion H0; subst; auto].
      destruct H as (A1 & A2 & A3 & A4 & A5 & A6). rewrite app_length in A4. simpl in A4.
      split; [auto|]. split; [auto|]. split; [lia|]. split; [lia|]. split; [|lia].
      intros Hx. apply A5 in Hx as [Hx _]. discriminate.
Qed.
Lemma cmeansN_shape data cols c (m : F) err maxiter init rand cntr u u0 d jm p fpc :
  shape (length data) cols data -> data <> [] ->
  cmeansN data c m err maxiter init rand = Ok (cntr, u, u0, d, jm, p, fpc) ->
  shape c (length data) u /\ shape c cols cntr /\ 1 <= p /\ (Z.of_nat p <= maxiter - 1)%Z /\ length jm = p.
Proof.
  intros Hd Hne. unfold cmeansN. intros H.
  assert (Hn : 0 < length data) by (destruct data; [congruence|simpl; lia]).
  destruct (cmeans_start c (length data) _) as [us|] eqn:Es; [|discriminate]. cbn [rbind] in H.
  apply cmeans_start_shape in Es.
  destruct (cmeans_loopN _ _ _ _ _ _ _ _) as [[[[l u1] j1] p1]|] eqn:El; [|discriminate]. cbn [rbind] in H.
  destruct (fp_coeff u1) as [f|]; [|discriminate]. cbn [rbind] in H.
  destruct (cmeans_loopN_shape c (length data) cols _ _ _ _ _ _ _ _ _ _ _ _ El Es Hd Hn ltac:(discriminate))
    as (A1 & A2 & A3 & A4 & A5 & A6).
  destruct l as [[cn dd]|]; [|discriminate]. inversion H; subst. cbn [length] in A4.
  split; [auto|]. split; [eapply A2; eauto|].
  destruct (Z.to_nat (maxiter - 1)) as [|k] eqn:Ek; [simpl in El; inversion El|].
  split; [lia|]. split; [|lia]. lia.
Qed.
End Any.
Local Open Scope R_scope.

(** ** Distances and scalar products *)
Lemma pdist_euclid (a b : list R) : pdist a b = euclid a b.
Proof. unfold pdist, norm, euclid, gap2. rewrite nsum_Rsum. unfold zip_with. rewrite map_map. reflexivity. Qed.
Lemma gap2_pos a b : 0 <= gap2 a b.
Proof.
  apply Rsum_nonneg, Forall_forall. intros x Hx. apply in_map_iff in Hx as (p & <- & _). apply Rle_0_sqr.
Qed.
Lemma euclid_pos a b : 0 <= euclid a b.
Proof. apply sqrt_pos. Qed.
Lemma euclid_sqr a b : euclid a b * euclid a b = gap2 a b.
Proof. apply sqrt_sqrt, gap2_pos. Qed.
Lemma dot_nil_r w : dot w [] = 0.
Proof. unfold dot. destruct w; reflexivity. Qed.
Lemma dot_cons a w b x : dot (a :: w) (b :: x) = a * b + dot w x.
Proof. reflexivity. Qed.
(** a point given by its coordinates *)
Lemma dot_plus w f g l : length w = length l ->
  dot w (map (fun s => f s + g s) l) = dot w (map f l) + dot w (map (g : nat -> R) l).
Proof.
  revert l. induction w as [|a w IH]; intros [|s l] H; try discriminate; cbn [map]; rewrite ?dot_cons.
  - unfold dot. simpl. lra.
  - rewrite IH by (simpl in H; lia). lra.
Qed.
Lemma dot_scal w c (f : nat -> R) l : dot w (map (fun s => c * f s) l) = c * dot w (map f l).
Proof.
  revert l. induction w as [|a w IH]; intros [|s l]; cbn [map]; rewrite ?dot_nil_r; try (unfold dot; simpl; lra).
  rewrite !dot_cons, IH. lra.
Qed.
Lemma coords (x : list R) : map (fun s => nth s x n0) (seq 0 (length x)) = x.
Proof.
  induction x as [|a x IH]; [reflexivity|]. cbn [length seq map nth]. f_equal. rewrite <- seq_shift, map_map. exact IH.
Qed.
Lemma zip_cons {A B C} (f : A -> B -> C) a l b l' : zip_with f (a :: l) (b :: l') = f a b :: zip_with f l l'.
Proof. reflexivity. Qed.
Lemma dot_sums w k (data : list (list R)) : length w = k -> forall r, Forall (fun x => length x = k) data ->
  length r = length data ->
  dot w (map (fun s => Rsum (zip_with Rmult r (mcol data s))) (seq 0 k)) = Rsum (zip_with Rmult r (map (dot w) data)).
Proof.
  intros Hw. induction data as [|x data IH]; intros [|a r] Hd Hr; try discriminate.
  - cbn [mcol map zip_with combine]. change (Rsum []) with 0. transitivity (dot w (map (fun s => 0 * INR s) (seq 0 k))).
    + f_equal. apply map_ext. intros s. rnum. lra.
    + rewrite dot_scal. lra.
  - inversion Hd; subst.
    transitivity (dot w (map (fun s => a * nth s x n0 + Rsum (zip_with Rmult r (mcol data s))) (seq 0 (length w)))).
    { f_equal. }
    rewrite dot_plus by now rewrite seq_length. rewrite dot_scal. rewrite IH by (auto; simpl in Hr; lia).
    replace (length w) with (length x) by auto. rewrite coords. reflexivity.
Qed.
Lemma center_coords k (data : list (list R)) r : data <> [] -> shape (length data) k data ->
  centerN data r = map (fun s => / Rsum r * Rsum (zip_with Rmult r (mcol data s))) (seq 0 k).
Proof.
  intros Hne Hd. unfold centerN. rewrite (mcols_shape data _ k Hd) by (destruct data; [congruence|simpl; lia]).
  apply map_ext. intros s. rewrite !nsum_Rsum. rnum. unfold Rdiv. rewrite Rmult_comm. reflexivity.
Qed.
Lemma dot_center w k (data : list (list R)) r : data <> [] -> shape (length data) k data ->
  length w = k -> length r = length data ->
  dot w (centerN data r) = Rsum (zip_with Rmult r (map (dot w) data)) / Rsum r.
Proof.
  intros Hne Hd Hw Hr. rewrite (center_coords k) by auto. rewrite dot_scal.
  rewrite (dot_sums w k) by (auto; apply Hd). unfold Rdiv. lra.
Qed.

(** ** Weighted means lie in the hull *)
Lemma weighted_le hi (ws xs : list R) : length ws = length xs -> ws <> [] ->
  Forall (fun w => 0 < w) ws -> Forall (fun x => x <= hi) xs ->
  Rsum (zip_with Rmult ws xs) / Rsum ws <= hi.
Proof.
  intros Hl Hne Hw Hx. assert (P : 0 < Rsum ws) by (apply Rsum_pos; auto).
  apply Rmult_le_reg_r with (Rsum ws); [auto|]. unfold Rdiv. rewrite Rmult_assoc, Rinv_l, Rmult_1_r by lra.
  clear Hne P. revert xs Hl Hx. induction Hw as [|w ws Hw Hws IH]; intros [|x xs] Hl Hx; try discriminate.
  - unfold Rsum; simpl; lra.
  - inversion Hx; subst. rewrite zip_cons. cbn [Rsum fold_right]. fold (Rsum ws) (Rsum (zip_with Rmult ws xs)).
    specialize (IH xs ltac:(simpl in Hl; lia) H2).
    assert (w * x <= hi * w) by (rewrite (Rmult_comm w x); apply Rmult_le_compat_r; lra). lra.
Qed.
Lemma center_hull k (data : list (list R)) r : data <> [] -> shape (length data) k data ->
  length r = length data -> Forall (fun w => 0 < w) r -> in_hull k data (centerN data r).
Proof.
  intros Hne Hd Hr Hp. split.
  - rewrite (center_coords k) by auto. now rewrite map_length, seq_length.
  - intros w hi Hw Hx. rewrite (dot_center w k) by auto. apply weighted_le; auto.
    + now rewrite map_length.
    + destruct data; [congruence|]. destruct r; [discriminate|discriminate].
    + apply Forall_forall. intros y Hy. apply in_map_iff in Hy as (x & <- & Hx'). auto.
Qed.

(** ** One step *)
Definition umN (u : list (list R)) (m : R) : list (list R) :=
  map (map (fun x => Rpower x m)) (map (map (fun x => fmax x neps)) (normalize_columns u)).
Lemma umN_shape u m c n : shape c n u -> shape c n (umN u m).
Proof. intros Hs. apply map_map_shape, map_map_shape, by_columns_shape; auto using normalize_column_length. Qed.
Lemma umN_pos u m r : In r (umN u m) -> Forall (fun w => 0 < w) r.
Proof.
  intros Hr. apply Forall_forall. intros w Hw. unfold umN in Hr. apply in_map_iff in Hr as (r' & <- & _).
  apply in_map_iff in Hw as (z & <- & _). apply Rpower_pos.
Qed.
Lemma fmax_Rmax (x : R) : fmax x neps = Rmax x neps.
Proof. unfold fmax. rnum. unfold Rmax. rcase; destruct (Rle_dec x (/ 4503599627370496)); lra. Qed.
Lemma cmeans0N_eq data u m : m <> 1 ->
  let cntr := map (centerN data) (umN u m) in
  let d := map (fun ct => map (fun x => Rmax (euclid x ct) neps) data) cntr in
  cmeans0N data u m = Ok (cntr, by_columns (power_column (-2 / (m - 1))) d,
    nsum (concat (zip_with (fun r s => zip_with (fun a b => nmul a (nmul b b)) r s) (umN u m) d)), d).
Proof.
  intros Hm cntr d. unfold cmeans0N. fold (umN u m).
  change (map (map (fun x => npow x m)) (map (map (fun x => fmax x neps)) (normalize_columns u))) with (umN u m).
  fold cntr.
  assert (Edd : map (map (fun x => fmax x neps)) (distancesN data cntr) = d).
  { unfold d, distancesN. rewrite map_map. apply map_ext. intros ct. rewrite map_map. apply map_ext.
    intros x. rewrite pdist_euclid. apply fmax_Rmax. }
  rewrite Edd. unfold pdiv. rnum. destruct (Reqb_spec (m - 1) 0) as [E|E]; [lra|]. cbn [rbind].
  unfold normalize_power_columns.
  assert (Ha : forallb (forallb (fun v => nleb n0 v)) d = true).
  { apply forallb_forall. intros r Hr. apply forallb_forall. intros x Hx. unfold d in Hr.
    apply in_map_iff in Hr as (ct & <- & _). apply in_map_iff in Hx as (y & <- & _). rnum.
    apply Rleb_true. pose proof eps_pos. pose proof (Rmax_r (euclid y ct) (neps (F:=R))). cbn [neps RNum] in *. lra. }
  rnum. rewrite Ha. cbn [rbind]. reflexivity.
Qed.
Lemma cmeans0N_real data u m c n k : (0 < c)%nat -> (0 < n)%nat -> m <> 1 -> shape c n u -> shape n k data ->
  exists cntr u' j d, cmeans0N data u m = Ok (cntr, u', j, d) /\
    fuzzy_partition c n u' /\ Forall (in_hull k data) cntr /\
    d = map (fun ctr => map (fun x => Rmax (euclid x ctr) neps) data) cntr /\
    u' = by_columns (power_column (-2 / (m - 1))) d.
Proof.
  intros Hc Hn Hm Hs Hd. rewrite (cmeans0N_eq data u m Hm). cbv zeta.
  do 4 eexists. split; [reflexivity|].
  pose proof (umN_shape u m c n Hs) as Hum. destruct Hd as [Hd1 Hd2].
  split; [apply power_partition; auto|].
  - split; [rewrite !map_length; apply Hum|]. apply Forall_forall. intros r Hr. apply in_map_iff in Hr as (ct & <- & _).
    now rewrite map_length.
  - split; [|split; reflexivity].
    apply Forall_forall. intros y Hy. apply in_map_iff in Hy as (r & <- & Hr).
    assert (Hlr : length r = n). { destruct Hum as [_ H]. rewrite Forall_forall in H. auto. }
    apply center_hull.
    + destruct data; [simpl in Hd1; lia|discriminate].
    + now split.
    + congruence.
    + eapply umN_pos; eauto.
Qed.

(** ** The whole algorithm *)
Definition step_outcomeN (data : list (list R)) (m : R) (c : nat) (cntr : list (list R)) (u d prev : list (list R)) : Prop :=
  shape c (length data) prev /\
  (exists j, cmeans0N data prev m = Ok (cntr, u, j, d)) /\
  fuzzy_partition c (length data) u.
Lemma cmeans_loopN_real cols k : forall data m err last (u : list (list R)) jm p c,
  (0 < c)%nat -> (0 < length data)%nat -> m <> 1 -> shape c (length data) u -> shape (length data) cols data ->
  (forall cn d, last = Some (cn, d) -> exists prev, step_outcomeN data m c cn u d prev) ->
  exists last' u' jm' p', cmeans_loopN k data m err last u jm p = Ok (last', u', jm', p') /\
    (last = None -> k = 0%nat -> last' = None) /\
    ((0 < k)%nat -> exists cn d prev, last' = Some (cn, d) /\ step_outcomeN data m c cn u' d prev /\
        (mdist u' prev < err \/ p' = (p + k)%nat)).
Proof.
  induction k as [|k IH]; intros data m err last u jm p c Hc Hd Hm Hs Hsd Hl.
  - do 4 eexists. split; [reflexivity|]. split; [auto|]. lia.
  - destruct (cmeans0N_real data u m c _ cols Hc Hd Hm Hs Hsd) as (cn & u1 & j & d & E & HP & _).
    cbn [cmeans_loopN]. rewrite E. cbn [rbind]. rnum. destruct (Rltb_spec (mdist u1 u) err) as [L|L].
    + do 4 eexists. split; [reflexivity|]. split; [lia|]. intros _. exists cn, d, u.
      split; [reflexivity|]. split; [split; [auto|]; split; [eauto|auto]|auto].
    + destruct (IH data m err (Some (cn, d)) u1 (jm ++ [j]) (S p) c) as (l' & u' & jm' & p' & E' & _ & H2); auto.
      { apply HP. }
      { intros cn0 d0 H0. inversion H0; subst. exists u. split; [auto|]. split; [eauto|auto]. }
      do 4 eexists. split; [exact E'|]. split; [lia|]. intros _. destruct k as [|k].
      * simpl in E'. inversion E'; subst. exists cn, d, u.
        split; [reflexivity|]. split; [split; [auto|]; split; [eauto|auto]|right; lia].
      * destruct H2 as (cn' & d' & prev & Q1 & Q2 & Q3); [lia|]. exists cn', d', prev.
        split; [auto|]. split; [auto|]. destruct Q3; [auto|right; lia].
Qed.
Lemma cmeansN_real data cols c m err maxiter init rand : (0 < c)%nat -> data <> [] -> m <> 1 -> (2 <= maxiter)%Z ->
  shape (length data) cols data ->
  shape c (length data) (match init with Some u0 => u0 | None => rand end) ->
  exists cntr u u0 d jm p fpc prev,
    cmeansN data c m err maxiter init rand = Ok (cntr, u, u0, d, jm, p, fpc) /\
    step_outcomeN data m c cntr u d prev /\
    (mdist u prev < err \/ (Z.of_nat p = maxiter - 1)%Z).
Proof.
  intros Hc Hd Hm Hi Hsd Hs.
  assert (Hd' : (0 < length data)%nat) by (destruct data; [congruence|simpl; lia]).
  unfold cmeansN.
  set (u0 := match init with Some u => u | None => normalize_columns rand end).
  assert (Hs0 : shape c (length data) u0).
  { unfold u0. destruct init; auto. apply by_columns_shape; auto using normalize_column_length. }
  destruct (cmeans_start_ok c _ u0 Hs0) as [us Es]. rewrite Es. cbn [rbind].
  destruct (cmeans_loopN_real cols (Z.to_nat (maxiter - 1)) data m err None us [] 0 c) as (l & u & jm & p & E & _ & H); auto.
  { eapply cmeans_start_shape; eauto. }
  { discriminate. }
  rewrite E. cbn [rbind]. destruct H as (cn & d & prev & -> & H2 & H3); [lia|].
  destruct (fp_coeff_ok c (length data) u Hc Hd') as [f Ef]; [apply H2|]. rewrite Ef. cbn [rbind].
  do 7 eexists. exists prev. split; [reflexivity|]. split; [auto|]. destruct H3; [auto|right; lia].
Qed.

(** ** Nearer centres get larger memberships *)
Lemma cmeans0N_nearest data u m cntr u' jm d c cols i k j x ci ck a b : (0 < c)%nat -> 1 < m ->
  shape c (length data) u -> shape (length data) cols data -> cmeans0N data u m = Ok (cntr, u', jm, d) ->
  nth_error data j = Some x -> nth_error cntr i = Some ci -> nth_error cntr k = Some ck ->
  entry u' i j = Some a -> entry u' k j = Some b ->
  euclid x ci <= euclid x ck -> b <= a.
Proof.
  intros Hc Hm Hs Hsd E Hx Hi Hk Ha Hb Hle.
  assert (Hj : (j < length data)%nat) by (apply nth_error_Some; congruence).
  destruct (cmeans0N_real data u m c (length data) cols Hc ltac:(lia) ltac:(lra) Hs Hsd) as (cn & u1 & j1 & d1 & E1 & HP & _ & Ed & Eu).
  rewrite E in E1. revert HP Ed Eu. inversion E1; subst cn u1 j1 d1. clear E1. intros HP Ed Eu.
  destruct (cmeans0N_shape _ _ _ _ _ _ _ c _ cols E Hs Hsd ltac:(lia)) as (_ & _ & Hsd').
  rewrite Eu in Ha, Hb.
  rewrite (by_columns_entry _ d c (length data)) in Ha, Hb; auto using power_column_length.
  assert (Hent : forall i0 c0, nth_error cntr i0 = Some c0 -> nth_error (column_of d j) i0 = Some (Rmax (euclid x c0) neps)).
  { intros i0 c0 H0. apply (entry_column d c (length data) i0 j _ Hsd' Hj). rewrite Ed. unfold entry.
    rewrite nth_error_map, H0. cbn [option_map]. rewrite nth_error_map, Hx. reflexivity. }
  eapply (power_column_anti (-2 / (m - 1)) (column_of d j) i k); eauto.
  - unfold Rdiv. rewrite <- (Rmult_0_l (/ (m - 1))). apply Rmult_lt_compat_r; [apply Rinv_0_lt_compat; lra|lra].
  - apply Forall_forall. intros z Hz. destruct (column_In d c (length data) j z Hsd' Hj Hz) as [i0 H0].
    rewrite Ed in H0. unfold entry in H0. rewrite nth_error_map in H0.
    destruct (nth_error cntr i0); [|discriminate]. cbn [option_map] in H0. rewrite nth_error_map, Hx in H0.
    cbn [option_map] in H0. injection H0 as <-. pose proof eps_pos as Q. eapply Rlt_le_trans; [exact Q|apply Rmax_r].
  - apply Rle_max_compat_r. exact Hle.
Qed.
