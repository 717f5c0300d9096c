(** PropClusterN.v — clustering points with any number of coordinates (C95–C98). *)
From Coq Require Import Reals Lra QArith.
From Verif Require Import Base BaseFacts Num Functions Spec RealFacts QNum LearnUtils LearnSpec LearnFacts
  Cmeans CmeansFacts RlCmeans RlFacts ClusterSpec CmeansN CmeansNFacts CmeansNOne RlNFacts
  CmeansDescent CmeansDescent2 CmeansDescent3 CmeansIso.
Local Close Scope Q_scope.
Local Open Scope R_scope.

(** two points on a line, equally in both clusters: used as an example below *)
Definition ex_data : list (list R) := [[0]; [1]].
Definition ex_u : list (list R) := [[1 / 2; 1 / 2]; [1 / 2; 1 / 2]].
Lemma ex_shapes : (0 < 2)%nat /\ ex_data <> [] /\ shape 2 1 ex_data /\ shape 2 2 ex_u.
Proof. split; [lia|]. split; [discriminate|]. split; split; repeat constructor. Qed.
Lemma ex_partition : fuzzy_partition 2 2 ex_u.
Proof.
  split; [apply ex_shapes|]. split.
  - intros i j x. destruct i as [|[|[|i]]]; destruct j as [|[|[|j]]]; cbn; intros E; try discriminate; injection E as <-; lra.
  - intros [|[|j]] H; [cbn; lra|cbn; lra|lia].
Qed.
Lemma ex_eps : forall r x, In r ex_u -> In x r -> neps <= x.
Proof.
  intros r x Hr Hx. cbn [neps RNum]. cbn in Hr. destruct Hr as [<-|[<-|[]]]; cbn in Hx; destruct Hx as [<-|[<-|[]]]; lra.
Qed.
Lemma ex_step : exists j, cmeans0N ex_data ex_u 2 = Ok ([[1 / 2]; [1 / 2]], ex_u, j, [[1 / 2; 1 / 2]; [1 / 2; 1 / 2]]).
Proof.
  pose proof (cmeans0N_eq ex_data ex_u 2 ltac:(lra)) as E. cbv zeta in E.
  set (w := Rpower (1 / 2) 2). assert (Hw : 0 < w) by apply Rpower_pos.
  assert (Eu : umN ex_u 2 = [[w; w]; [w; w]]).
  { rewrite umN_floored, (floored_same 2 2 ex_u); [reflexivity|lia|exact ex_partition|exact ex_eps]. }
  assert (Ec : map (centerN ex_data) [[w; w]; [w; w]] = [[1 / 2]; [1 / 2]]).
  { assert (Q : centerN ex_data [w; w] = [1 / 2]).
    { rewrite (center_coords 1); [|discriminate|apply ex_shapes]. cbn. f_equal. field. lra. }
    cbn [map]. now rewrite Q. }
  assert (Ed : map (fun ct => map (fun x => Rmax (euclid x ct) neps) ex_data) [[1 / 2]; [1 / 2]] = [[1 / 2; 1 / 2]; [1 / 2; 1 / 2]]).
  { assert (Q1 : euclid [0] [1 / 2] = 1 / 2).
    { unfold euclid, gap2. cbn. replace ((0 - 1 / 2) * (0 - 1 / 2) + 0) with ((1 / 2) * (1 / 2)) by field. apply sqrt_square. lra. }
    assert (Q2 : euclid [1] [1 / 2] = 1 / 2).
    { unfold euclid, gap2. cbn. replace ((1 - 1 / 2) * (1 - 1 / 2) + 0) with ((1 / 2) * (1 / 2)) by field. apply sqrt_square. lra. }
    unfold ex_data. cbn [map]. rewrite Q1, Q2. rewrite Rmax_left by (cbn; lra). reflexivity. }
  rewrite Eu, Ec, Ed in E. eexists. rewrite E. f_equal. f_equal. f_equal. f_equal.
  assert (Q : power_column (-2 / (2 - 1)) [1 / 2; 1 / 2] = [1 / 2; 1 / 2]).
  { destruct (power_column_eq 2 ltac:(lra) [1 / 2; 1 / 2]) as (mx & Hin & _ & P); [discriminate|repeat constructor; lra|].
    assert (mx = 1 / 2) by (cbn in Hin; destruct Hin as [<-|[<-|[]]]; reflexivity). subst mx.
    cbv zeta in P. rewrite P. cbn [map]. rewrite Rmax_left by (cbn; lra). set (q := Rpower (1 / 2) (-2 / (2 - 1))).
    assert (0 < q) by apply Rpower_pos. cbn. f_equal; [field; lra|]. f_equal. field. lra. }
  unfold by_columns. cbn [mcols length transpose map seq].
  change (mcol [[1 / 2; 1 / 2]; [1 / 2; 1 / 2]] 0) with [1 / 2; 1 / 2].
  change (mcol [[1 / 2; 1 / 2]; [1 / 2; 1 / 2]] 1) with [1 / 2; 1 / 2]. rewrite Q. reflexivity.
Qed.

(** ** C95: c-means *)
(** on one column the general algorithms are the ones of the other theorems *)
Theorem C95_one_column_step : forall (data : list R) u m, data <> [] ->
  cmeans0N (map (fun x => [x]) data) u m =
  match cmeans0 data u m with
  | Ok (centers, u', j, d) => Ok (map (fun x => [x]) centers, u', j, d)
  | Err e => Err e
  end.
Proof.
  intros data u m H. change (map (fun x => [x]) data) with (col data). rewrite cmeans0_col by auto.
  destruct (cmeans0 data u m) as [[[[a b] c] d]|e]; reflexivity.
Qed.
Print Assumptions C95_one_column_step.
Theorem C95_one_column : forall (data : list R) c m err maxiter init rand, data <> [] ->
  cmeansN (map (fun x => [x]) data) c m err maxiter init rand =
  match cmeans data c m err maxiter init rand with
  | Ok (centers, u, u0, d, jm, p, fpc) => Ok (map (fun x => [x]) centers, u, u0, d, jm, p, fpc)
  | Err e => Err e
  end.
Proof.
  intros data c m err maxiter init rand H. change (map (fun x => [x]) data) with (col data). rewrite cmeans_col by auto.
  destruct (cmeans data c m err maxiter init rand) as [[[[[[[a b] d] f] g] h] i]|e]; reflexivity.
Qed.
Print Assumptions C95_one_column.
Theorem C95_one_column_fuzzy : forall (data : list R) c m err maxiter init rand, data <> [] ->
  fuzzy_cmeansN (map (fun x => [x]) data) c m err maxiter init rand =
  match fuzzy_cmeans data c m err maxiter init rand with
  | Ok (u, centers) => Ok (u, map (fun x => [x]) centers)
  | Err e => Err e
  end.
Proof.
  intros data c m err maxiter init rand H. change (map (fun x => [x]) data) with (col data). rewrite fuzzy_cmeans_col by auto.
  destruct (fuzzy_cmeans data c m err maxiter init rand) as [[a b]|e]; reflexivity.
Qed.
Print Assumptions C95_one_column_fuzzy.
Theorem C95_one_column_robust : forall (data : list R) err max_iter, data <> [] ->
  rl_fuzzy_cmeansN (map (fun x => [x]) data) err max_iter =
  match rl_fuzzy_cmeans data err max_iter with
  | Ok (v, u, alpha, t) => Ok (map (fun x => [x]) v, u, alpha, t)
  | Err e => Err e
  end.
Proof.
  intros data err mi H. change (map (fun x => [x]) data) with (col data). rewrite rl_fuzzy_cmeans_col by auto.
  destruct (rl_fuzzy_cmeans data err mi) as [[[[a b] c] d]|e]; reflexivity.
Qed.
Print Assumptions C95_one_column_robust.
Theorem C95_one_column_predict : forall data centers : list R,
  rlc_predict (Some (map (fun x => [x]) centers)) (map (fun x => [x]) data) = rl_predict data centers.
Proof. exact rl_predict_col. Qed.
Print Assumptions C95_one_column_predict.
(** one step, any number [k] of coordinates: a partition, centres in the hull *)
Theorem C95_step : forall (data : list (list R)) (u : list (list R)) (m : R) c k,
  (0 < c)%nat -> data <> [] -> m <> 1 -> shape (length data) k data -> shape c (length data) u ->
  exists centers u' j d, cmeans0N data u m = Ok (centers, u', j, d) /\ length centers = c /\
    fuzzy_partition c (length data) u' /\ Forall (in_hull k data) centers.
Proof.
  intros data u m c k Hc Hd Hm Hsd Hs.
  pose proof (nonempty_length data Hd) as Hn.
  destruct (cmeans0N_real data u m c (length data) k Hc Hn Hm Hs Hsd) as (cn & u' & j & d & E & P & H & _).
  exists cn, u', j, d. split; [exact E|]. split; [|auto].
  apply (cmeans0N_shape _ _ _ _ _ _ _ c _ k E Hs Hsd Hn).
Qed.
Print Assumptions C95_step.
Theorem C95_run : forall (data : list (list R)) c k (m err : R) maxiter init rand,
  (0 < c)%nat -> data <> [] -> m <> 1 -> (2 <= maxiter)%Z -> shape (length data) k data ->
  shape c (length data) (match init with Some u0 => u0 | None => rand end) ->
  exists centers u u0 d jm p fpc prev,
    cmeansN data c m err maxiter init rand = Ok (centers, u, u0, d, jm, p, fpc) /\
    fuzzy_partition c (length data) u /\ shape c k centers /\ Forall (in_hull k data) centers /\
    (1 <= p)%nat /\ (Z.of_nat p <= maxiter - 1)%Z /\ length jm = p /\
    (exists j, cmeans0N data prev m = Ok (centers, u, j, d)) /\
    (mdist u prev < err \/ (Z.of_nat p = maxiter - 1)%Z).
Proof.
  intros data c k m err maxiter init rand Hc Hd Hm Hi Hsd Hs.
  destruct (cmeansN_real data k c m err maxiter init rand Hc Hd Hm Hi Hsd Hs)
    as (cn & u & u0 & d & jm & p & fpc & prev & E & (O1 & (j & O2) & O3) & St).
  destruct (cmeansN_shape data k _ _ _ _ _ _ _ _ _ _ _ _ _ Hsd Hd E) as (_ & S2 & S3 & S4 & S5).
  exists cn, u, u0, d, jm, p, fpc, prev. split; [exact E|]. split; [exact O3|]. split; [exact S2|].
  split; [|eauto 10].
  destruct (cmeans0N_real data prev m c (length data) k Hc (nonempty_length data Hd) Hm O1 Hsd) as (cn' & u' & j' & d' & E' & _ & H & _).
  rewrite O2 in E'. injection E' as <- _ _ _. exact H.
Qed.
Print Assumptions C95_run.
Theorem C95_nearer_is_larger : forall (data : list (list R)) (u : list (list R)) (m : R) centers u' jm d c cols i k j x ci ck a b,
  (0 < c)%nat -> 1 < m -> shape c (length data) u -> shape (length data) cols data ->
  cmeans0N data u m = Ok (centers, u', jm, d) ->
  nth_error data j = Some x -> nth_error centers i = Some ci -> nth_error centers k = Some ck ->
  entry u' i j = Some a -> entry u' k j = Some b ->
  euclid x ci <= euclid x ck -> b <= a.
Proof. intros data u m cn u' jm d c cols i k j x ci ck a b. apply cmeans0N_nearest. Qed.
Print Assumptions C95_nearer_is_larger.
Example C95_nonvacuous : (0 < 2)%nat /\ ex_data <> [] /\ shape 2 1 ex_data /\ shape 2 2 ex_u /\
  (exists j, cmeans0N ex_data ex_u 2 = Ok ([[1 / 2]; [1 / 2]], ex_u, j, [[1 / 2; 1 / 2]; [1 / 2; 1 / 2]])) /\
  shape 3 2 [[0; 0]; [1; 0]; [0; 1]] /\ in_hull 2 [[0; 0]; [1; 0]; [0; 1]] [1 / 3; 1 / 3] /\
  ~ in_hull 2 [[0; 0]; [1; 0]; [0; 1]] [1; 1].
Proof.
  split; [lia|]. split; [discriminate|]. split; [apply ex_shapes|]. split; [apply ex_shapes|]. split; [exact ex_step|].
  split; [split; repeat constructor|]. split.
  - split; [reflexivity|]. intros w hi Hw H. destruct w as [|a [|b [|]]]; try discriminate.
    pose proof (H [0; 0] ltac:(cbn; auto)) as H1. pose proof (H [1; 0] ltac:(cbn; auto)) as H2.
    pose proof (H [0; 1] ltac:(cbn; auto)) as H3. unfold dot in *. cbn in *. lra.
  - intros [_ H]. specialize (H [1; 1] 1 eq_refl).
    assert (Q : dot [1; 1] [1; 1] <= 1).
    { apply H. intros x [<-|[<-|[<-|[]]]]; unfold dot; cbn; lra. }
    unfold dot in Q. cbn in Q. lra.
Qed.

(** ** C96: robust c-means and class RlFuzzyCmeans *)
Theorem C96_run : forall (data : list (list R)) k err max_iter,
  (2 <= length data)%nat -> (2 <= max_iter)%Z -> shape (length data) k data ->
  exists v u alpha t, rl_fuzzy_cmeansN data err max_iter = Ok (v, Some u, alpha, t) /\
    length v = length alpha /\ (1 <= length alpha <= length data)%nat /\ shares alpha /\
    row_partition (length data) (length alpha) u /\ Forall (in_hull k data) v /\ (1 <= t <= max_iter)%Z.
Proof.
  intros data k err mi Hd Hm Hs.
  destruct (rl_fuzzy_cmeansN_ok k data err mi Hd Hm Hs) as (v & u & al & t & E & (G1 & G2 & G3 & G4 & G5) & T).
  exists v, u, al, t. auto 10.
Qed.
Print Assumptions C96_run.
Theorem C96_succeeds_iff : forall (data : list (list R)) k (err : R) max_iter,
  (2 <= max_iter)%Z -> shape (length data) k data ->
  ((exists r, rl_fuzzy_cmeansN data err max_iter = Ok r) <-> (2 <= length data)%nat) /\
  ((length data < 2)%nat -> rl_fuzzy_cmeansN data err max_iter = Err EZeroDiv).
Proof.
  intros data k err mi Hm Hs.
  assert (F : (length data < 2)%nat -> rl_fuzzy_cmeansN data err mi = Err EZeroDiv).
  { intros H. destruct data as [|x [|y data]]; [apply rl_no_pointN|now apply rl_one_pointN|simpl in H; lia]. }
  split; [|exact F]. split.
  - intros (r & E). destruct (Nat.lt_ge_cases (length data) 2) as [H|H]; [|auto]. rewrite F in E by auto. discriminate.
  - intros Hd. destruct (rl_fuzzy_cmeansN_ok k data err mi Hd Hm Hs) as (v & u & al & t & E & _). eauto.
Qed.
Print Assumptions C96_succeeds_iff.
(** fitting keeps the centres in the hull of the data; it fails on fewer than two
    points and then leaves the object as it was *)
Theorem C96_fit : forall (st : option (list (list R))) (data : list (list R)) k, shape (length data) k data ->
  ((2 <= length data)%nat -> exists v, rlc_fit st data = (Some v, Ok tt) /\
     (1 <= length v <= length data)%nat /\ Forall (in_hull k data) v) /\
  ((length data < 2)%nat -> rlc_fit st data = (st, Err EZeroDiv)).
Proof.
  intros st data k Hs. split; intros H.
  - destruct (C96_run data k (nlit 5 10000) 110 H ltac:(lia) Hs) as (v & u & al & t & E & L & B & _ & _ & Hh & _).
    exists v. unfold rlc_fit. rewrite E. split; [reflexivity|]. split; [lia|exact Hh].
  - unfold rlc_fit. destruct (C96_succeeds_iff data k (nlit 5 10000) 110 ltac:(lia) Hs) as [_ F]. now rewrite F.
Qed.
Print Assumptions C96_fit.
(** they are the ones robust c-means finds with its default arguments *)
Theorem C96_fit_centres : forall {F} {N : Num F} st (data : list (list F)) v u alpha t,
  rl_fuzzy_cmeansN data (nlit 5 10000) 110 = Ok (v, u, alpha, t) -> rlc_fit st data = (Some v, Ok tt).
Proof. intros F N st data v u alpha t E. unfold rlc_fit. now rewrite E. Qed.
Print Assumptions C96_fit_centres.
Theorem C96_predict : forall (data centers : list (list R)), centers <> [] ->
  exists labels, rlc_predict (Some centers) data = Ok labels /\ length labels = length data /\
    forall j x k, nth_error data j = Some x -> nth_error labels j = Some k ->
      exists ck, nth_error centers k = Some ck /\
        (forall i ci, nth_error centers i = Some ci -> euclid ck x <= euclid ci x) /\
        (forall i ci, (i < k)%nat -> nth_error centers i = Some ci -> euclid ck x < euclid ci x).
Proof. exact rlc_predict_nearest. Qed.
Print Assumptions C96_predict.
Theorem C96_predict_unfitted : forall {F} {N : Num F} (x : list F) data, rlc_predict None (x :: data) = Err EType.
Proof. reflexivity. Qed.
Print Assumptions C96_predict_unfitted.
Example C96_nonvacuous : shape 3 2 [[0; 0]; [1; 0]; [0; 1]] /\
  rlc_predict (F := Q) None [] = Ok [] /\
  rlc_predict (F := Q) (Some []) [[1]]%Q = Err EIndex /\
  rlc_predict (Some [[0]; [4]]) [[1]; [5]] = Ok [0%nat; 1%nat].
Proof.
  split; [split; repeat constructor|]. split; [reflexivity|]. split; [reflexivity|].
  change (rlc_predict (Some (map (fun x => [x]) [0; 4])) (map (fun x => [x]) [1; 5]) = Ok [0%nat; 1%nat]).
  rewrite C95_one_column_predict. unfold rl_predict, rl_nearest. cbn [rmap length seq combine fold_left]. cbn [nabs nsub nltb RNum].
  replace (Rabs (4 - 1)) with 3 by (rewrite Rabs_right; lra). replace (Rabs (0 - 1)) with 1 by (rewrite Rabs_left; lra).
  replace (Rabs (4 - 5)) with 1 by (rewrite Rabs_left; lra). replace (Rabs (0 - 5)) with 5 by (rewrite Rabs_left; lra).
  destruct (Rltb_spec 3 1); [lra|]. destruct (Rltb_spec 1 5); [|lra]. reflexivity.
Qed.

(** ** C97: what the steps of c-means optimise *)
(** the centre of a cluster is the best one for the memberships it was computed from *)
Theorem C97_centres_best : forall (data : list (list R)) (u : list (list R)) (m : R) c k centers u' jm d i row ct y,
  (0 < c)%nat -> data <> [] -> m <> 1 -> shape (length data) k data ->
  fuzzy_partition c (length data) u -> (forall r x, In r u -> In x r -> neps <= x) ->
  cmeans0N data u m = Ok (centers, u', jm, d) ->
  nth_error u i = Some row -> nth_error centers i = Some ct -> length y = k ->
  Rsum (map (fun p => Rpower (fst p) m * gap2 (snd p) ct) (combine row data))
  <= Rsum (map (fun p => Rpower (fst p) m * gap2 (snd p) y) (combine row data)).
Proof.
  intros data u m c k cn u' jm d i row ct y Hc Hd Hm Hsd Hu He E Hrow Hct Hy.
  pose proof (cmeans0N_eq data u m Hm) as E'. cbv zeta in E'. rewrite E in E'. injection E' as Ecn _ _ _.
  rewrite umN_floored, (floored_same c (length data) u Hc Hu He) in Ecn.
  rewrite Ecn, !nth_error_map, Hrow in Hct. cbn [option_map] in Hct. injection Hct as <-.
  assert (G : forall z, Rsum (map (fun p => Rpower (fst p) m * gap2 (snd p) z) (combine row data))
                        = spread (map (fun x => Rpower x m) row) data z).
  { intros z. unfold spread. f_equal. clear. revert data. induction row as [|a row IH]; intros [|x data]; try reflexivity.
    cbn. f_equal. apply IH. }
  rewrite !G.
  assert (Lr : length row = length data).
  { destruct Hu as ((_ & H) & _). rewrite Forall_forall in H. apply H. eapply nth_error_In; eauto. }
  apply center_best with k; auto.
  - now rewrite map_length.
  - apply Rsum_pos.
    + intros Q. apply map_eq_nil in Q. subst row. destruct data; [congruence|discriminate].
    + apply Forall_forall. intros w Hw. apply in_map_iff in Hw as (x & <- & _). apply Rpower_pos.
Qed.
Print Assumptions C97_centres_best.
(** the memberships of a point are the best ones for the distances they were computed
    from (provided none of those is too small in proportion) *)
Theorem C97_memberships_best : forall (data : list (list R)) (u : list (list R)) (m : R) c k centers u' jm d j v,
  (0 < c)%nat -> 1 < m -> shape (length data) k data -> shape c (length data) u ->
  cmeans0N data u m = Ok (centers, u', jm, d) -> (j < length data)%nat ->
  (forall x y, In x (column_of d j) -> In y (column_of d j) -> neps * x <= y) ->
  length v = c -> Forall (fun x => 0 < x) v -> Rsum v = 1 ->
  Rsum (map (fun p => Rpower (fst p) m * (snd p * snd p)) (combine (column_of u' j) (column_of d j)))
  <= Rsum (map (fun p => Rpower (fst p) m * (snd p * snd p)) (combine v (column_of d j))).
Proof.
  intros data u m c k cn u' jm d j v Hc Hm Hsd Hu E Hj Hr Hv Pv Sv.
  destruct (cmeans0N_shape _ _ _ _ _ _ _ c _ k E Hu Hsd ltac:(lia)) as (Su' & _ & Sd).
  destruct (cmeans0N_real data u m c (length data) k Hc ltac:(lia) ltac:(lra) Hu Hsd) as (cn' & u2 & j' & d' & E' & _ & _ & Ed & Eu).
  rewrite E in E'. injection E' as <- <- <- <-.
  rewrite Eu. rewrite (by_columns_column (power_column (-2 / (m - 1))) d c (length data) j); auto using power_column_length.
  assert (Ld : length (column_of d j) = c) by (eapply column_length; eauto).
  apply (column_descent_exact m Hm); auto; try congruence; try lra.
  - intros Q. rewrite Q in Ld. simpl in Ld. lia.
  - apply Forall_forall. intros z Hz. destruct (column_In d c (length data) j z Sd Hj Hz) as [i0 H0].
    rewrite Ed in H0. unfold entry in H0. rewrite nth_error_map in H0.
    destruct (nth_error cn i0); [|discriminate]. cbn [option_map] in H0. rewrite nth_error_map in H0.
    destruct (nth_error data j); [|discriminate]. cbn [option_map] in H0. injection H0 as <-.
    eapply Rlt_le_trans; [|apply Rmax_r]. lra.
  - intros l. apply power_column_length.
Qed.
Print Assumptions C97_memberships_best.
(** so the objective does not grow from one step to the next when the lower limits
    (machine epsilon) on distances and memberships play no part *)
Theorem C97_descent : forall (data : list (list R)) (u : list (list R)) (m : R) c k c1 u1 j1 d1 c2 u2 j2 d2,
  (0 < c)%nat -> data <> [] -> 1 < m -> shape (length data) k data -> shape c (length data) u ->
  (forall r x, In r u -> In x r -> 0 < x) ->
  cmeans0N data u m = Ok (c1, u1, j1, d1) -> cmeans0N data u1 m = Ok (c2, u2, j2, d2) ->
  (forall x y, In x data -> In y c2 -> neps <= euclid x y) ->
  (forall r x, In r u1 -> In x r -> neps <= x) ->
  (forall j x y, In x (column_of d1 j) -> In y (column_of d1 j) -> neps * x <= y) ->
  j2 <= j1.
Proof.
  intros data u m c k c1 u1 j1 d1 c2 u2 j2 d2 Hc Hd Hm Hsd Hu Hp E1 E2 H1 H2 H3.
  destruct (cmeans0N_shape _ _ _ _ _ _ _ c _ k E1 Hu Hsd (nonempty_length data Hd)) as (_ & _ & Sd).
  apply (two_steps_exact data k Hd Hsd m Hm u c c1 u1 j1 d1 c2 u2 j2 d2); auto.
  intros j x y Hj Hx Hy. rewrite (mcol_column_of d1 c (length data) j Sd Hj) in Hx, Hy. eauto.
Qed.
Print Assumptions C97_descent.
(** in every run the objective grows from one step to the next by less than
    c·n·(eps² + (eps² + eps^m)·D²), D being the largest distance of two data points *)
Theorem C97_history : forall (data : list (list R)) c k (m err : R) maxiter init rand centers u u0 d jm p fpc D,
  (0 < c)%nat -> data <> [] -> 1 < m -> shape (length data) k data ->
  cmeansN data c m err maxiter init rand = Ok (centers, u, u0, d, jm, p, fpc) ->
  neps <= D -> (forall x y, In x data -> In y data -> euclid x y <= D) ->
  forall i a b, nth_error jm i = Some a -> nth_error jm (S i) = Some b ->
    b <= a + INR c * INR (length data) * (neps * neps + (neps * neps + Rpower neps m) * (D * D)).
Proof.
  intros data c k m err maxiter init rand cn u u0 d jm p fpc D Hc Hd Hm Hsd E HD Hdiam i a b Ha Hb.
  pose proof (run_descent data k Hd Hsd m Hm c err maxiter init rand cn u u0 d jm p fpc D Hc E HD Hdiam i a b Ha Hb) as H.
  unfold slack in H. lra.
Qed.
Print Assumptions C97_history.
Example C97_nonvacuous :
  (0 < 2)%nat /\ ex_data <> [] /\ 1 < 2 /\ shape 2 1 ex_data /\ fuzzy_partition 2 2 ex_u /\
  (forall r x, In r ex_u -> In x r -> neps <= x) /\
  (exists j, cmeans0N ex_data ex_u 2 = Ok ([[1 / 2]; [1 / 2]], ex_u, j, [[1 / 2; 1 / 2]; [1 / 2; 1 / 2]])) /\
  (forall x y, In x ex_data -> In y [[1 / 2]; [1 / 2]] -> neps <= euclid x y) /\
  (forall j x y, In x (column_of [[1 / 2; 1 / 2]; [1 / 2; 1 / 2]] j) -> In y (column_of [[1 / 2; 1 / 2]; [1 / 2; 1 / 2]] j) -> neps * x <= y) /\
  (forall x y, In x ex_data -> In y ex_data -> euclid x y <= 1).
Proof.
  split; [lia|]. split; [discriminate|]. split; [lra|]. split; [apply ex_shapes|]. split; [exact ex_partition|].
  split; [exact ex_eps|]. split; [exact ex_step|]. split; [|split].
  - intros x y Hx Hy. assert (y = [1 / 2]) by (cbn in Hy; destruct Hy as [<-|[<-|[]]]; reflexivity). subst y.
    assert (Q : euclid x [1 / 2] = 1 / 2).
    { cbn in Hx. unfold euclid, gap2. destruct Hx as [<-|[<-|[]]]; cbn.
      - replace ((0 - 1 / 2) * (0 - 1 / 2) + 0) with ((1 / 2) * (1 / 2)) by field. apply sqrt_square. lra.
      - replace ((1 - 1 / 2) * (1 - 1 / 2) + 0) with ((1 / 2) * (1 / 2)) by field. apply sqrt_square. lra. }
    rewrite Q. cbn. lra.
  - intros j x y Hx Hy.
    assert (G : forall z, In z (column_of [[1 / 2; 1 / 2]; [1 / 2; 1 / 2]] j) -> z = 1 / 2).
    { intros z. destruct j as [|[|[|j]]]; cbn; intros Q; repeat destruct Q as [Q|Q]; congruence || contradiction. }
    rewrite (G x Hx), (G y Hy). cbn. lra.
  - intros x y Hx Hy. cbn in Hx, Hy. unfold euclid, gap2. rewrite <- sqrt_1. apply sqrt_le_1_alt.
    destruct Hx as [<-|[<-|[]]]; destruct Hy as [<-|[<-|[]]]; cbn; lra.
Qed.

(** ** C98: moving or rotating the data *)
Theorem C98_cmeans : forall (data : list (list R)) c k k' a t m err maxiter init rand,
  data <> [] -> shape (length data) k data -> shape k' k a -> length t = k' -> isometric k (affine a t) ->
  cmeansN (map (affine a t) data) c m err maxiter init rand =
  match cmeansN data c m err maxiter init rand with
  | Ok (centers, u, u0, d, jm, p, fpc) => Ok (map (affine a t) centers, u, u0, d, jm, p, fpc)
  | Err e => Err e
  end.
Proof.
  intros data c k k' a t m err maxiter init rand Hd Hs Ha Ht HT. rewrite (cmeansN_affine k k' a t Ha Ht HT) by auto.
  destruct (cmeansN data c m err maxiter init rand) as [[[[[[[x1 x2] x3] x4] x5] x6] x7]|e]; reflexivity.
Qed.
Print Assumptions C98_cmeans.
Theorem C98_robust : forall (data : list (list R)) k k' a t err max_iter,
  shape (length data) k data -> (2 <= max_iter)%Z -> shape k' k a -> length t = k' -> isometric k (affine a t) ->
  rl_fuzzy_cmeansN (map (affine a t) data) err max_iter =
  match rl_fuzzy_cmeansN data err max_iter with
  | Ok (v, u, alpha, n) => Ok (map (affine a t) v, u, alpha, n)
  | Err e => Err e
  end.
Proof.
  intros data k k' a t err mi Hs Hm Ha Ht HT. rewrite (rl_fuzzy_cmeansN_affine k k' a t Ha Ht HT) by auto.
  destruct (rl_fuzzy_cmeansN data err mi) as [[[[x1 x2] x3] x4]|e]; reflexivity.
Qed.
Print Assumptions C98_robust.
(** fit and predict together: the labels do not change *)
Theorem C98_fit_predict : forall (data test : list (list R)) k k' a t st,
  shape (length data) k data -> (2 <= length data)%nat -> Forall (fun x => length x = k) test ->
  shape k' k a -> length t = k' -> isometric k (affine a t) ->
  rlc_predict (fst (rlc_fit st (map (affine a t) data))) (map (affine a t) test)
  = rlc_predict (fst (rlc_fit st data)) test.
Proof.
  intros data test k k' a t st Hs Hd Ht' Ha Ht HT.
  pose proof (C98_robust data k k' a t (nlit 5 10000) 110 Hs ltac:(lia) Ha Ht HT) as E.
  destruct (C96_run data k (nlit 5 10000) 110 Hd ltac:(lia) Hs) as (v & u & al & n & E0 & _ & _ & _ & _ & Hh & _).
  rewrite E0 in E. unfold rlc_fit. rewrite E, E0. cbn [fst].
  apply (rlc_predict_affine k a t HT); auto. eapply hull_lengths; eauto.
Qed.
Print Assumptions C98_fit_predict.
(** a quarter turn followed by a shift is such a map *)
Example C98_nonvacuous :
  shape 2 2 [[0; -1]; [1; 0]] /\ isometric 2 (affine [[0; -1]; [1; 0]] [3; 4]) /\
  affine [[0; -1]; [1; 0]] [3; 4] [1; 2] = [1; 5] /\ ~ isometric 2 (affine [[2; 0]; [0; 1]] [0; 0]).
Proof.
  split; [split; repeat constructor|]. split; [|split].
  - intros x y Hx Hy. destruct x as [|x1 [|x2 [|]]]; try discriminate. destruct y as [|y1 [|y2 [|]]]; try discriminate.
    unfold euclid, gap2, affine, dot. cbn. f_equal. ring.
  - unfold affine, dot. cbn. f_equal; [ring|]. f_equal. ring.
  - intros H. specialize (H [1; 0] [0; 0] eq_refl eq_refl). unfold euclid, gap2, affine, dot in H. cbn in H.
    apply sqrt_inj in H; lra.
Qed.
