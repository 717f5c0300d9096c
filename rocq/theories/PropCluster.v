(** PropCluster.v — properties of the learning utilities, the clustering algorithms
    and the discretization of features (C40, C42, C52–C56, C64–C67). *)
From Coq Require Import Reals Lra QArith.
From Verif Require Import Base BaseFacts Num Functions Spec RealFacts QNum LearnUtils LearnSpec LearnFacts
  Cmeans CmeansFacts RlCmeans RlFacts Discret DiscretFacts DiscretFacts2.
Local Close Scope Q_scope.
Local Open Scope R_scope.

(** ** C40 *)
Theorem C40_none : forall {F} {N : Num F} (a b : list F),
  calc_concepts_coefficient a b = None <-> length a <> length b.
Proof. exact @calc_none_iff. Qed.
Print Assumptions C40_none.
Theorem C40_counts : forall a b : list bool, length a = length b ->
  calc_concepts_coefficient (map b2R a) (map b2R b) =
  let n p := INR (howmany p (combine a b)) in
  Some ((n (fun xy => fst xy && snd xy)%bool, n (fun xy => fst xy && negb (snd xy))%bool,
         n (fun xy => negb (fst xy) && snd xy)%bool, n (fun xy => negb (fst xy) && negb (snd xy))%bool),
        (n (fun xy => fst xy && snd xy)%bool, n (fun xy => negb (fst xy) && snd xy)%bool,
         n (fun xy => fst xy && negb (snd xy))%bool, n (fun xy => negb (fst xy) && negb (snd xy))%bool)).
Proof. exact calc_counts. Qed.
Print Assumptions C40_counts.
Theorem C40_degrees : forall (a b : list R) ab anb nab nanb q,
  calc_concepts_coefficient a b = Some ((ab, anb, nab, nanb), q) -> in01 a -> in01 b ->
  0 <= ab /\ 0 <= anb /\ 0 <= nab /\ 0 <= nanb /\ ab + anb + nab + nanb = INR (length a).
Proof. exact calc_degrees. Qed.
Print Assumptions C40_degrees.
Theorem C40_exchange : forall (a b : list R) p q,
  calc_concepts_coefficient a b = Some (p, q) -> calc_concepts_coefficient b a = Some (q, p).
Proof. exact calc_swap. Qed.
Print Assumptions C40_exchange.
(** one sample in both, one only in the first, two only in the second, none in neither *)
Example C40_nonvacuous :
  calc_concepts_coefficient [1; 1; 0; 0]%Q [1; 0; 1; 1]%Q = Some ((1, 1, 2, 0)%Q, (1, 2, 1, 0)%Q) /\
  calc_concepts_coefficient [1]%Q [] = None /\
  exists p q, calc_concepts_coefficient [1; 1 / 2] [0; 1] = Some (p, q).
Proof.
  split; [vm_compute; reflexivity|]. split; [reflexivity|]. rewrite calc_R by reflexivity. cbv zeta. eauto.
Qed.

(** ** C42 *)
Theorem C42_one_hot : forall {F} {N : Num F} {A} (leb eqb : A -> A -> bool) vals j v,
  total_order leb eqb -> nth_error vals j = Some v ->
  let us := unique leb eqb vals in
  let m := gen_discrete_feature_matrix (F := F) eqb vals us in
  distinct_sorted leb vals us /\ shape (length us) (length vals) m /\
  exists i, nth_error us i = Some v /\ entry m i j = Some n1 /\
    forall k x, k <> i -> entry m k j = Some x -> x = n0.
Proof.
  intros F N A leb eqb vals j v T Hv us m. split; [apply unique_spec; auto|]. split; [apply feature_shape|].
  apply (one_hot leb eqb T); [apply unique_spec; auto|auto].
Qed.
Print Assumptions C42_one_hot.
Lemma Zle_total_order : total_order Z.leb Z.eqb.
Proof. split; intros; rewrite ?Z.eqb_eq, ?Z.leb_le in *; lia. Qed.
Example C42_nonvacuous :
  total_order Z.leb Z.eqb /\ unique Z.leb Z.eqb [3; 1; 3]%Z = [1; 3]%Z /\
  gen_discrete_feature_matrix (F := Q) Z.eqb [3; 1; 3]%Z [1; 3]%Z = [[0; 1; 0]; [1; 0; 1]]%Q.
Proof. split; [exact Zle_total_order|]. split; reflexivity. Qed.

(** ** C52: c-means.  [neps] is the machine epsilon, a positive number. *)
Theorem C52_step : forall (data : list R) (u : list (list R)) (m : R) c,
  (0 < c)%nat -> data <> [] -> m <> 1 -> shape c (length data) u ->
  exists centers u' j d, cmeans0 data u m = Ok (centers, u', j, d) /\ length centers = c /\
    fuzzy_partition c (length data) u'.
Proof.
  intros data u m c Hc Hd Hm Hs.
  destruct (cmeans0_real data u m c (length data) Hc ltac:(destruct data; [congruence|simpl; lia]) Hm Hs eq_refl)
    as (cn & u' & j & d & E & P & _).
  exists cn, u', j, d. split; [exact E|]. split; [|exact P].
  apply (cmeans0_shape _ _ _ _ _ _ _ c _ E Hs eq_refl).
Qed.
Print Assumptions C52_step.
(** any starting matrix, any threshold: the run succeeds with a partition and stops
    because the last change was below the threshold or the steps ran out *)
Theorem C52_run : forall (data : list R) c (m err : R) maxiter init rand,
  (0 < c)%nat -> data <> [] -> m <> 1 -> (2 <= maxiter)%Z ->
  shape c (length data) (match init with Some u0 => u0 | None => rand end) ->
  exists centers u u0 d jm p fpc prev,
    cmeans data c m err maxiter init rand = Ok (centers, u, u0, d, jm, p, fpc) /\
    fuzzy_partition c (length data) u /\ length centers = c /\
    (1 <= p)%nat /\ (Z.of_nat p <= maxiter - 1)%Z /\ length jm = p /\
    (exists j, cmeans0 data prev m = Ok (centers, u, j, d)) /\
    (mdist u prev < err \/ (Z.of_nat p = maxiter - 1)%Z).
Proof.
  intros data c m err maxiter init rand Hc Hd Hm Hi Hs.
  destruct (cmeans_real data c m err maxiter init rand Hc Hd Hm Hi Hs)
    as (cn & u & u0 & d & jm & p & fpc & prev & E & (_ & O2 & O3) & St).
  destruct (cmeans_shape _ _ _ _ _ _ _ _ _ _ _ _ _ _ E) as (_ & S2 & S3 & S4 & S5).
  exists cn, u, u0, d, jm, p, fpc, prev. auto 10.
Qed.
Print Assumptions C52_run.
Theorem C52_too_few_iterations : forall {F} {N : Num F} data c (m : F) err maxiter init rand r, (maxiter <= 1)%Z ->
  cmeans data c m err maxiter init rand <> Ok r.
Proof. exact @cmeans_few_iter. Qed.
Print Assumptions C52_too_few_iterations.
Example C52_nonvacuous :
  (0 < 2)%nat /\ [0; 1; 5] <> ([] : list R) /\ 2 <> 1 /\ shape 2 3 [[1; 1; 0]; [0; 0; 1]].
Proof. split; [lia|]. split; [discriminate|]. split; [lra|]. split; [reflexivity|repeat constructor]. Qed.

(** ** C53: robust c-means, one row of memberships per data point *)
Theorem C53_run : forall (data : list R) err max_iter, (2 <= length data)%nat -> (2 <= max_iter)%Z ->
  exists v u alpha t, rl_fuzzy_cmeans data err max_iter = Ok (v, Some u, alpha, t) /\
    length v = length alpha /\ (1 <= length alpha <= length data)%nat /\ shares alpha /\
    row_partition (length data) (length alpha) u /\ (1 <= t <= max_iter)%Z.
Proof.
  intros data err mi Hd Hm. destruct (rl_fuzzy_cmeans_ok data err mi Hd Hm) as (v & u & al & t & E & (G1 & G2 & G3 & G4 & _) & T).
  exists v, u, al, t. auto 10.
Qed.
Print Assumptions C53_run.
(** one removal of weak clusters *)
Theorem C53_resize : forall n (alpha : list R) (u : list (list R)), (0 < length alpha <= n)%nat -> Rsum alpha = 1 ->
  row_partition n (length alpha) u ->
  exists alpha' u', resize_references alpha u = Ok (alpha', u') /\
    (1 <= length alpha' <= length alpha)%nat /\ shares alpha' /\ row_partition n (length alpha') u'.
Proof. exact resize_ok. Qed.
Print Assumptions C53_resize.
Example C53_nonvacuous : (0 < length [1 / 2; 1 / 2] <= 2)%nat /\ Rsum [1 / 2; 1 / 2] = 1 /\
  row_partition 2 2 [[1 / 4; 3 / 4]; [1 / 2; 1 / 2]].
Proof.
  split; [simpl; lia|]. split; [simpl; lra|]. split; [split; [reflexivity|repeat constructor]|].
  repeat constructor; simpl; lra.
Qed.

(** ** C54: the three-cluster fallback *)
Theorem C54_fallback : forall l : list R, (2 <= length l)%nat -> increasing l ->
  exists vals d0 d1 d2, create_three_clusters l = Ok (vals, [d0; d1; d2]) /\
    increasing vals /\ incl l vals /\ (length vals <= S (length l))%nat /\ Nat.odd (length vals) = true /\
    memberships 3 (length vals) [d0; d1; d2] /\
    (forall j, (j < length vals)%nat -> Rsum (column_of [d0; d1; d2] j) <= 1) /\
    column_of [d0; d1; d2] 0 = [1; 0; 0] /\ column_of [d0; d1; d2] (length vals - 1) = [0; 0; 1] /\
    ((4 <= length vals)%nat -> column_of [d0; d1; d2] (Nat.div2 (length vals) + 1) = [0; 1; 0]).
Proof.
  intros l Hl Hs. destruct (create_three_real l Hl Hs) as (vals & d0 & d1 & d2 & H).
  exists vals, d0, d1, d2. tauto.
Qed.
Print Assumptions C54_fallback.
(** the memberships of the middle value never add up to 1, whatever the list *)
Theorem C54_partition_refuted : forall l : list R, (2 <= length l)%nat -> increasing l ->
  exists vals desc, create_three_clusters l = Ok (vals, desc) /\
    Rsum (column_of desc (Nat.div2 (length vals))) < 1.
Proof.
  intros l Hl Hs. destruct (create_three_real l Hl Hs) as (vals & d0 & d1 & d2 & E & _ & _ & _ & _ & _ & _ & _ & _ & _ & H).
  exists vals, [d0; d1; d2]. split; [exact E|]. cbv zeta in H. rewrite H.
  set (k := Nat.div2 (length vals)). assert (0 < INR (k + 1)) by (apply lt_0_INR; lia).
  assert (INR k < INR (k + 1)) by (apply lt_INR; lia).
  assert (INR k / INR (k + 1) < 1). { apply Rmult_lt_reg_r with (INR (k + 1)); [auto|]. unfold Rdiv. field_simplify; lra. }
  simpl. lra.
Qed.
Print Assumptions C54_partition_refuted.
Example C54_nonvacuous : increasing [1; 2; 4] /\
  create_three_clusters [1; 2; 4; 8]%Q = Ok ([1; 2; 3; 4; 8]%Q, [[1; 2 # 3; 0; 0; 0]; [0; 1 # 3; 2 # 3; 1; 0]; [0; 0; 0; 0; 1]]%Q).
Proof. split; [repeat constructor; lra|vm_compute; reflexivity]. Qed.

(** ** C55: change points of a curve *)
Theorem C55_change_points : forall (values : list R) mc, (0 < mc)%nat ->
  exists xs ys, estimate_change_points values mc = Ok (xs, ys) /\
    spaced_positions (length values) (INR (length values) / INR mc) xs /\
    length ys = length xs /\ (forall i x, nth_error xs i = Some x -> nth_error ys i = nth_error values x) /\
    (length xs <= mc)%nat.
Proof. exact change_points_ok. Qed.
Print Assumptions C55_change_points.
Example C55_nonvacuous :
  estimate_change_points [0; 1; 2; 8; 8; 8; 8; 16; 16; 17]%Q 5 = Ok ([0%nat; 3%nat; 6%nat; 9%nat], [0; 8; 8; 17]%Q).
Proof. vm_compute. reflexivity. Qed.

(** ** C56: discretization of a feature *)
Definition known_strategies : list string := ["cmeans-gap"; "cmeans-sil"; "cmeans-cfe"; "rl-cmeans"]%string.
Theorem C56_too_few : forall (l us : list R) mc maxiter st att fit rand,
  distinct_sorted nleb l us -> (length us < 10)%nat ->
  fuzzy_feature_discretization l mc maxiter st att fit rand
  = Err (EExc (append "Too few variations for fuzzy clustering on feature: " att)).
Proof. intros l us mc maxiter st att fit rand. apply discretization_few. Qed.
Print Assumptions C56_too_few.
Theorem C56_unknown_strategy : forall (l us : list R) mc maxiter st att fit rand,
  distinct_sorted nleb l us -> (10 <= length us)%nat -> ~ In st known_strategies ->
  fuzzy_feature_discretization l mc maxiter st att fit rand
  = Err (EExc (append "Unsupported clustering method: " st)).
Proof. intros l us mc maxiter st att fit rand. apply discretization_unknown. Qed.
Print Assumptions C56_unknown_strategy.
(** in every other case (7 clusters and 150 iterations are what the callers use):
    a fuzzy partition of the distinct values, or the three-cluster fallback *)
Theorem C56_otherwise : forall (l us : list R) mc maxiter st att fit rand,
  distinct_sorted nleb l us -> (10 <= length us)%nat -> In st known_strategies ->
  (2 <= mc < 10)%nat -> (2 <= maxiter)%Z ->
  length fit = length us -> (forall c, (2 <= c <= mc)%nat -> shape c (length us) (rand c)) ->
  exists nc vals desc, fuzzy_feature_discretization l mc maxiter st att fit rand = Ok (nc, vals, desc) /\
    (2 <= nc)%nat /\ (st <> "rl-cmeans"%string -> nc <= Nat.max 3 mc)%nat /\
    memberships nc (length vals) desc /\
    (vals = us /\ fuzzy_partition nc (length us) desc \/
     nc = 3%nat /\ create_three_clusters us = Ok (vals, desc)).
Proof. intros l us mc maxiter st att fit rand. apply discretization_ok. Qed.
Print Assumptions C56_otherwise.
Example C56_nonvacuous : let us := map INR (seq 0 10) in
  distinct_sorted nleb us us /\ (10 <= length us)%nat /\ In "rl-cmeans"%string known_strategies /\
  (forall c, (2 <= c <= 7)%nat -> shape c (length us) (repeat (repeat 1 10) c)).
Proof.
  split; [|split; [simpl; lia|split; [unfold known_strategies; simpl; auto|]]].
  - split; [|tauto]. apply strictly_sorted_increasing.
    assert (H : forall n a, increasing (map INR (seq a n))).
    { induction n as [|n IH]; intros a; [constructor|]. constructor; [apply IH|]. apply Forall_forall.
      intros x Hx. apply in_map_iff in Hx as (y & <- & Hy). apply in_seq in Hy. apply lt_INR. lia. }
    apply H.
  - intros c Hc. split; [apply repeat_length|]. apply Forall_forall. intros x Hx. apply repeat_spec in Hx. now subst.
Qed.

(** ** C64: cluster centres stay inside the range of the data *)
Theorem C64_cmeans_centres : forall (data : list R) (u : list (list R)) (m : R) c centers u' j d lo hi,
  (0 < c)%nat -> data <> [] -> m <> 1 -> shape c (length data) u ->
  cmeans0 data u m = Ok (centers, u', j, d) ->
  Forall (fun x => lo <= x <= hi) data -> Forall (fun x => lo <= x <= hi) centers.
Proof.
  intros data u m c cn u' j d lo hi Hc Hd Hm Hs E.
  destruct (cmeans0_real data u m c (length data) Hc ltac:(destruct data; [congruence|simpl; lia]) Hm Hs eq_refl)
    as (cn' & u'' & j' & d' & E' & _ & H & _).
  rewrite E in E'. injection E' as <- <- <- <-. apply H.
Qed.
Print Assumptions C64_cmeans_centres.
Theorem C64_robust_centres : forall (data : list R) err max_iter v u alpha t lo hi,
  (2 <= length data)%nat -> (2 <= max_iter)%Z ->
  rl_fuzzy_cmeans data err max_iter = Ok (v, u, alpha, t) ->
  Forall (fun x => lo <= x <= hi) data -> Forall (fun x => lo <= x <= hi) v.
Proof.
  intros data err mi v u al t lo hi Hd Hm E.
  destruct (rl_fuzzy_cmeans_ok data err mi Hd Hm) as (v' & u' & al' & t' & E' & (_ & _ & _ & _ & G) & _).
  rewrite E in E'. injection E' as <- _ _ _. apply G.
Qed.
Print Assumptions C64_robust_centres.
Example C64_nonvacuous : Forall (fun x => 0 <= x <= 5) [0; 1; 5] /\ (2 <= length [0; 1; 5])%nat /\
  exists r, cmeans0 [0; 1; 5] [[1; 1; 0]; [0; 0; 1]] 2 = Ok r.
Proof.
  split; [repeat constructor; lra|]. split; [simpl; lia|].
  destruct (C52_step [0; 1; 5] [[1; 1; 0]; [0; 0; 1]] 2 2) as (a & b & c & d & E & _);
    [apply C52_nonvacuous..|]. eauto.
Qed.

(** ** C65: the nearer centre gets at least as much membership *)
Theorem C65_nearer_is_larger : forall (data : list R) (u : list (list R)) (m : R) centers u' jm d c i k j x ci ck a b,
  (0 < c)%nat -> 1 < m -> shape c (length data) u -> cmeans0 data u m = Ok (centers, u', jm, d) ->
  nth_error data j = Some x -> nth_error centers i = Some ci -> nth_error centers k = Some ck ->
  entry u' i j = Some a -> entry u' k j = Some b ->
  Rabs (x - ci) <= Rabs (x - ck) -> b <= a.
Proof. intros data u m cn u' jm d c i k j x ci ck a b. apply cmeans0_nearest. Qed.
Print Assumptions C65_nearer_is_larger.
Example C65_nonvacuous : exists centers u' jm d ci ck a b,
  cmeans0 [0; 1; 5] [[1; 1; 0]; [0; 0; 1]] 2 = Ok (centers, u', jm, d) /\
  nth_error centers 0 = Some ci /\ nth_error centers 1 = Some ck /\ entry u' 0 0 = Some a /\ entry u' 1 0 = Some b.
Proof.
  destruct (C52_step [0; 1; 5] [[1; 1; 0]; [0; 0; 1]] 2 2) as (cn & u' & jm & d & E & L & (S1 & S2) & _); [apply C52_nonvacuous..|].
  destruct cn as [|ci [|ck [|]]]; try discriminate. destruct u' as [|r1 [|r2 [|]]]; try discriminate.
  inversion S2; subst. inversion H2; subst. destruct r1; [discriminate|]. destruct r2; [discriminate|].
  do 8 eexists. split; [exact E|]. repeat (split; [reflexivity|]). reflexivity.
Qed.

(** ** C66: robust c-means fails exactly on one data point *)
Theorem C66_one_point : forall (x err : R) max_iter, (2 <= max_iter)%Z ->
  rl_fuzzy_cmeans [x] err max_iter = Err EZeroDiv.
Proof. exact rl_one_point. Qed.
Print Assumptions C66_one_point.
Theorem C66_no_point : forall (err : R) max_iter, rl_fuzzy_cmeans [] err max_iter = Err EZeroDiv.
Proof.
  intros err mi. unfold rl_fuzzy_cmeans, pdiv. cbn [length]. rewrite nat2F_INR. rnum.
  destruct (Reqb_spec (INR 0) 0) as [_|H]; [reflexivity|]. exfalso. apply H. reflexivity.
Qed.
Print Assumptions C66_no_point.
Theorem C66_succeeds_iff : forall (data : list R) (err : R) max_iter, (2 <= max_iter)%Z ->
  (exists r, rl_fuzzy_cmeans data err max_iter = Ok r) <-> (2 <= length data)%nat.
Proof.
  intros data err mi Hm. split.
  - intros (r & E). destruct data as [|x [|y data]].
    + rewrite C66_no_point in E. discriminate.
    + rewrite rl_one_point in E by auto. discriminate.
    + simpl. lia.
  - intros Hd. destruct (rl_fuzzy_cmeans_ok data err mi Hd Hm) as (v & u & al & t & E & _). eauto.
Qed.
Print Assumptions C66_succeeds_iff.
Example C66_nonvacuous : (2 <= 150)%Z /\ (2 <= length [0; 1])%nat.
Proof. split; simpl; lia. Qed.

(** ** C67: the label predicted for a point is that of the nearest centre, the
    first one if there are several *)
Theorem C67_nearest : forall (data centers : list R), centers <> [] ->
  exists labels, rl_predict data centers = Ok labels /\ length labels = length data /\
    forall j x k, nth_error data j = Some x -> nth_error labels j = Some k ->
      exists ck, nth_error centers k = Some ck /\
        (forall i ci, nth_error centers i = Some ci -> Rabs (ck - x) <= Rabs (ci - x)) /\
        (forall i ci, (i < k)%nat -> nth_error centers i = Some ci -> Rabs (ck - x) < Rabs (ci - x)).
Proof. exact rl_predict_nearest. Qed.
Print Assumptions C67_nearest.
Example C67_nonvacuous : rl_predict [1; 5; 3]%Q [0; 4; 6]%Q = Ok [0%nat; 1%nat; 1%nat].
Proof. vm_compute. reflexivity. Qed.
