(** RlNFacts.v — facts about robust c-means on data with several columns. *)
From Coq Require Import Reals Lra.
From Verif Require Import Base BaseFacts Num Spec RealFacts Functions LearnUtils LearnSpec LearnFacts CmeansFacts
  RlCmeans RlFacts ClusterSpec CmeansN CmeansNFacts.
Local Open Scope R_scope.

Lemma compute_uN_ok (data v : list (list R)) (alpha : list R) r1 r2 : r2 <> 0 -> length v = length alpha -> alpha <> [] ->
  exists u, compute_uN data v alpha r1 r2 = Ok u /\ row_partition (length data) (length alpha) u.
Proof.
  intros Hr Hl Ha. unfold compute_uN.
  set (term := fun (x : list R) (va : list R * R) =>
     exp ((- (pdist x (fst va) * pdist x (fst va)) + r1 * ln (snd va)) / r2)).
  assert (T : forall x, rmap (fun va => compute_uN_term x (fst va) (snd va) r1 r2) (combine v alpha)
                    = Ok (map (term x) (combine v alpha))).
  { intros x. apply rmap_const. intros va _. unfold compute_uN_term, nopp. rewrite pdiv_R by auto. cbn [rbind].
    unfold term. rnum. do 2 f_equal. f_equal. f_equal. lra. }
  assert (Hne : combine v alpha <> []).
  { destruct v, alpha; try discriminate; try congruence. }
  assert (P : forall x, 0 < Rsum (map (term x) (combine v alpha))).
  { intros x. apply Rsum_pos; [intros E; apply map_eq_nil in E; congruence|].
    apply Forall_forall. intros y Hy. apply in_map_iff in Hy as (z & <- & _). apply exp_pos. }
  rewrite (rmap_const _ (fun x => normalize_column (map (term x) (combine v alpha)))).
  - eexists. split; [reflexivity|]. split.
    + split; [apply map_length|]. apply Forall_forall. intros row Hrow. apply in_map_iff in Hrow as (x & <- & _).
      rewrite normalize_column_length, map_length, combine_length. lia.
    + apply Forall_forall. intros row Hrow. apply in_map_iff in Hrow as (x & <- & _).
      apply normalize_column_spec; [intros E; apply map_eq_nil in E; congruence|].
      apply Forall_forall. intros y Hy. apply in_map_iff in Hy as (z & <- & _). apply exp_pos.
  - intros x _. rewrite T. cbn [rbind]. unfold normalize_column. apply rmap_const. intros t _.
    rewrite nsum_Rsum, pdiv_R by (specialize (P x); lra). reflexivity.
Qed.
Lemma zip_comm (a b : list R) : zip_with Rmult a b = zip_with Rmult b a.
Proof.
  revert b. induction a as [|x a IH]; intros [|y b]; try reflexivity. rewrite !zip_cons, IH. f_equal. lra.
Qed.
Lemma update_v1_center (data : list (list R)) us : update_v1 data us = centerN data us.
Proof.
  unfold update_v1, centerN. apply map_ext. intros s. do 2 f_equal. apply zip_comm.
Qed.
Lemma update_vN_hull k n (data : list (list R)) (u : list (list R)) c : (0 < n)%nat -> shape n k data ->
  row_partition n c u -> Forall (in_hull k data) (update_vN data u c).
Proof.
  intros Hn Hd ((Hu & Hc) & Hrow). unfold update_vN. apply Forall_forall. intros y Hy.
  apply in_map_iff in Hy as (s & <- & Hk). apply in_seq in Hk. rewrite update_v1_center. destruct Hd as [Hd1 Hd2].
  apply center_hull.
  - intros ->. simpl in Hd1. lia.
  - now split.
  - rewrite mcol_length. lia.
  - apply Forall_forall. intros w Hw. unfold mcol in Hw. apply in_map_iff in Hw as (r & <- & Hr).
    rewrite Forall_forall in Hc, Hrow. destruct (Hrow r Hr) as [H1 _]. rewrite Forall_forall in H1.
    apply H1. apply nth_In. rewrite (Hc r Hr). lia.
Qed.

(** ** The loop *)
Definition rlN_good (k : nat) (data v : list (list R)) (alpha : list R) (u : list (list R)) : Prop :=
  length v = length alpha /\ (1 <= length alpha <= length data)%nat /\ shares alpha /\
  row_partition (length data) (length alpha) u /\ Forall (in_hull k data) v.
Lemma rl_loopN_ok cols k : forall data err t r1 r2 r3 (v : list (list R)) (alpha : list R) ou,
  shape (length data) cols data ->
  r2 <> 0 -> length v = length alpha -> (2 <= length alpha <= length data)%nat -> shares alpha ->
  (forall u, ou = Some u -> rlN_good cols data v alpha u) ->
  exists v' ou' alpha' t', rl_loopN k data err t r1 r2 r3 v alpha ou = Ok (v', ou', alpha', t') /\
    (t <= t' <= t + Z.of_nat k)%Z /\ (k = 0%nat -> ou' = ou) /\
    ((0 < k)%nat -> exists u', ou' = Some u' /\ rlN_good cols data v' alpha' u').
Proof.
  induction k as [|k IH]; intros data err t r1 r2 r3 v alpha ou Hsd Hr2 Hv Hl Hsh Hou.
  - do 4 eexists. split; [reflexivity|]. split; [lia|]. split; [auto|lia].
  - cbn [rl_loopN].
    destruct (compute_uN_ok data v alpha r1 r2 Hr2 Hv) as (u & Eu & Hu); [destruct alpha; [simpl in Hl; lia|discriminate]|].
    rewrite Eu. cbn [rbind].
    set (r1' := nexp (ndiv (nofZ (- t)) (nofZ 10))). set (r2' := nexp (ndiv (nofZ (- t)) (nofZ 100))).
    assert (P1 : 0 < r1') by apply exp_pos. assert (P2 : 0 < r2') by apply exp_pos.
    destruct (update_alpha_ok (length data) u alpha r1' r3) as (na & Ena & Lna & Sna); auto; try lia; try lra.
    { apply Hsh. }
    rewrite Ena. cbn [rbind].
    destruct (update_r3_ok (length data) u alpha na) as (r3' & Er3); auto; try lia.
    { apply Hu. }
    rewrite Er3. cbn [rbind].
    destruct (resize_ok (length data) na u) as (a' & u' & Er & La' & Sa' & Hu'); auto; try lia.
    { rewrite Lna. auto. }
    rewrite Er. cbn [rbind].
    generalize (if ((100 <=? t)%Z && Nat.eqb (length alpha) (length a'))%bool then n0 else r3'). intros r3''.
    assert (Hlv : length (update_vN data u' (length a')) = length a') by (unfold update_vN; now rewrite map_length, seq_length).
    assert (G : rlN_good cols data (update_vN data u' (length a')) a' u').
    { split; [auto|]. split; [lia|]. split; [auto|]. split; [auto|].
      eapply update_vN_hull with (n := length data); auto; lia. }
    destruct (Nat.eqb (length a') 1 || _)%bool eqn:Estop.
    + do 4 eexists. split; [reflexivity|]. split; [lia|]. split; [lia|]. intros _. eauto.
    + apply orb_false_iff in Estop as [E1 _]. apply Nat.eqb_neq in E1.
      destruct (IH data err (t + 1)%Z r1' r2' r3'' (update_vN data u' (length a')) a' (Some u'))
        as (v2 & ou2 & a2 & t2 & E2 & B1 & B2 & B3); auto; try lia; try lra.
      { intros u0 Q. inversion Q; subst. auto. }
      do 4 eexists. split; [exact E2|]. split; [lia|]. split; [lia|]. intros _.
      destruct k as [|k]; [|apply B3; lia].
      rewrite (B2 eq_refl). exists u'. split; [auto|]. simpl in E2. inversion E2; subst. auto.
Qed.
Lemma rl_fuzzy_cmeansN_ok cols (data : list (list R)) err max_iter : (2 <= length data)%nat -> (2 <= max_iter)%Z ->
  shape (length data) cols data ->
  exists v u alpha t, rl_fuzzy_cmeansN data err max_iter = Ok (v, Some u, alpha, t) /\
    rlN_good cols data v alpha u /\ (1 <= t <= max_iter)%Z.
Proof.
  intros Hd Hm Hs. unfold rl_fuzzy_cmeansN. rewrite nat2F_INR.
  assert (HnR : 0 < INR (length data)) by (apply lt_0_INR; lia).
  rewrite pdiv_R by lra. cbn [rbind].
  destruct (rl_loopN_ok cols (Z.to_nat (max_iter - 1)) data err 1 n1 n1 n1 data (repeat (1 / INR (length data)) (length data)) None)
    as (v & ou & alpha & t & E & B1 & _ & B3).
  - auto.
  - rnum. lra.
  - now rewrite repeat_length.
  - rewrite repeat_length. lia.
  - split.
    + apply Forall_forall. intros x Hx. apply repeat_spec in Hx. subst x. apply Rdiv_lt_0_compat; lra.
    + rewrite Rsum_repeat. field. lra.
  - discriminate.
  - destruct B3 as (u & -> & G); [lia|]. exists v, u, alpha, t. split; [exact E|]. split; [auto|lia].
Qed.
Lemma rl_one_pointN (x : list R) err max_iter : (2 <= max_iter)%Z ->
  rl_fuzzy_cmeansN [x] err max_iter = Err EZeroDiv.
Proof.
  intros Hm. unfold rl_fuzzy_cmeansN. rewrite nat2F_INR. cbn [length]. rewrite pdiv_R by (simpl; lra). cbn [rbind repeat].
  destruct (Z.to_nat (max_iter - 1)) as [|k] eqn:Ek; [lia|]. cbn [rl_loopN].
  change (INR 1) with 1. replace (n1 / 1) with 1 by (rnum; lra).
  destruct (compute_uN_ok [x] [x] [1] n1 n1) as (u & Eu & Hu); [rnum; lra|auto|discriminate|]. rewrite Eu. cbn [rbind].
  destruct (update_alpha_ok 1 u [1] (nexp (ndiv (nofZ (- (1))) (nofZ 10))) n1) as (na & Ena & Lna & Sna); auto.
  { pose proof (exp_pos (IZR (-1) / IZR 10)). cbn [nexp ndiv nofZ RNum]. simpl. lra. }
  { simpl. lra. }
  rewrite Ena. cbn [rbind]. unfold update_r3.
  destruct Hu as ((Hu & _) & _). cbn [length] in Hu. rewrite Hu. cbn [length seq rmap].
  rewrite !nat2F_INR. cbn [INR]. rewrite pdiv_R by lra. cbn [rbind]. rewrite pdiv_R by lra. cbn [rbind max_list map pmax fold_left].
  unfold pdiv, nopp. unfold nsum. cbn [map fold_left]. rnum. rewrite ln_1.
  destruct (Reqb_spec (0 - 1 * (0 + 1 * 0)) 0) as [Q|Q]; [reflexivity|lra].
Qed.
Lemma rl_no_pointN (err : R) max_iter : rl_fuzzy_cmeansN [] err max_iter = Err EZeroDiv.
Proof.
  unfold rl_fuzzy_cmeansN, pdiv. cbn [length]. rewrite nat2F_INR. rnum.
  destruct (Reqb_spec (INR 0) 0) as [_|H]; [reflexivity|]. exfalso. apply H. reflexivity.
Qed.

(** ** RlFuzzyCmeans *)
Lemma rlc_nearest_fold (x : list R) centers : forall rest p best md,
  centers <> [] -> (0 < p)%nat -> (best < p)%nat ->
  (forall i c, nth_error rest i = Some c -> nth_error centers (p + i) = Some c) ->
  length centers = (p + length rest)%nat ->
  (exists cb, nth_error centers best = Some cb /\ md = pdist cb x) ->
  (forall i c, (i < p)%nat -> nth_error centers i = Some c -> md <= pdist c x) ->
  (forall i c, (i < best)%nat -> nth_error centers i = Some c -> md < pdist c x) ->
  let r := fold_left (fun (acc : R * nat) pc => let '(min_dist, best) := acc in
                       let '(pos, c) := pc in
                       let d := pdist c x in
                       if nltb d min_dist then (d, pos) else (min_dist, best))
        (combine (seq p (length rest)) rest) (md, best) in
  (exists cb, nth_error centers (snd r) = Some cb /\ fst r = pdist cb x) /\
  (forall i c, nth_error centers i = Some c -> fst r <= pdist c x) /\
  (forall i c, (i < snd r)%nat -> nth_error centers i = Some c -> fst r < pdist c x).
Proof.
  induction rest as [|c rest IH]; intros p best md Hc Hp Hb Hr Hl H1 H2 H3.
  - cbn. split; [auto|]. split; [|auto]. intros i c Hi. apply (H2 i c); auto.
    assert (i < length centers)%nat by (apply nth_error_Some; congruence). simpl in Hl. lia.
  - cbn [length seq combine fold_left]. rnum.
    assert (Ec : nth_error centers p = Some c) by (rewrite <- (Nat.add_0_r p); apply Hr; reflexivity).
    assert (Hr' : forall i c0, nth_error rest i = Some c0 -> nth_error centers (S p + i) = Some c0).
    { intros i c0 Hi. rewrite Nat.add_succ_comm. apply Hr. exact Hi. }
    destruct (Rltb_spec (pdist c x) md) as [Hlt|Hge].
    + apply IH; auto; try lia.
      * simpl in Hl. lia.
      * exists c. auto.
      * intros i c0 Hi E. destruct (Nat.eq_dec i p) as [->|]; [rewrite Ec in E; injection E as <-; lra|].
        assert (md <= pdist c0 x) by (apply (H2 i); [lia|auto]). lra.
      * intros i c0 Hi E. assert (md <= pdist c0 x) by (apply (H2 i); auto). lra.
    + apply IH; auto; try lia.
      * simpl in Hl. lia.
      * intros i c0 Hi E. destruct (Nat.eq_dec i p) as [->|]; [rewrite Ec in E; injection E as <-; lra|].
        apply (H2 i); [lia|auto].
Qed.
Lemma rlc_predict_nearest (data centers : list (list R)) : centers <> [] ->
  exists labels, rlc_predict (Some centers) data = Ok labels /\ length labels = length data /\
    forall j x k, nth_error data j = Some x -> nth_error labels j = Some k ->
      exists ck, nth_error centers k = Some ck /\
        (forall i ci, nth_error centers i = Some ci -> euclid ck x <= euclid ci x) /\
        (forall i ci, (i < k)%nat -> nth_error centers i = Some ci -> euclid ck x < euclid ci x).
Proof.
  intros Hc.
  assert (One : forall x, exists k, rlc_nearest x centers = Ok k /\ exists ck, nth_error centers k = Some ck /\
        (forall i ci, nth_error centers i = Some ci -> euclid ck x <= euclid ci x) /\
        (forall i ci, (i < k)%nat -> nth_error centers i = Some ci -> euclid ck x < euclid ci x)).
  { intros x. destruct centers as [|c0 rest] eqn:E0; [congruence|]. unfold rlc_nearest. eexists. split; [reflexivity|].
    destruct (rlc_nearest_fold x (c0 :: rest) rest 1 0 (pdist c0 x)) as ((cb & A1 & A2) & A3 & A4); auto; try lia.
    { exists c0. auto. }
    { intros i ci Hi E. destruct i; [|lia]. injection E as <-. lra. }
    exists cb. rewrite <- pdist_euclid, <- A2. split; [exact A1|].
    split; intros; rewrite <- pdist_euclid; [eapply A3; eauto|eapply A4; eauto]. }
  unfold rlc_predict. induction data as [|x data IH].
  - exists []. split; [reflexivity|]. split; [reflexivity|]. intros [|j] x k H; discriminate.
  - destruct IH as (ls & E & L & H). destruct (One x) as (k & Ek & Hk). exists (k :: ls). cbn [rmap]. rewrite Ek. cbn [rbind]. rewrite E.
    split; [reflexivity|]. split; [simpl; lia|]. intros [|j] y ky Hj Hl.
    + injection Hj as <-. injection Hl as <-. exact Hk.
    + apply (H j y ky Hj Hl).
Qed.
