(** PropCfe.v — the combined fuzzy entropy of a clustering and the number of clusters it selects (C116). *)
From Coq Require Import Reals Lra Permutation.
From Verif Require Import Base BaseFacts Num Spec RealFacts Functions LearnUtils LearnSpec LearnFacts
  Cmeans CmeansFacts RlCmeans RlFacts Discret DiscretFacts DiscretFacts2 SilFacts CfeSpec CfeFacts.
Local Open Scope R_scope.

(** ** The parts of the score *)
(** Two rows of memberships are at least 0 and at most one per point apart, and not apart from themselves. *)
Theorem C116_cross_entropy : forall r s : list R, (forall u, In u r -> 0 < u < 1) -> (forall u, In u s -> 0 < u < 1) ->
  cross_entropy r s = rows_apart r s /\ 0 <= cross_entropy r s <= INR (length r) /\ cross_entropy r r = 0.
Proof. intros r s Hr Hs. rewrite !cross_apart. split; [reflexivity|]. split; [now apply rows_apart_bounds|now apply rows_apart_self]. Qed.
Print Assumptions C116_cross_entropy.

(** ** The score of a clustering *)
(** It is never negative. The part meant to compare the distances between and within the clusters is below 1 / (c - 1). *)
Theorem C116_score : forall (data : list R) maxiter rand c, (2 <= c <= length data)%nat -> (2 <= maxiter)%Z -> shape c (length data) (rand c) ->
  exists desc centres, est_cmeans data c maxiter None rand = Ok (desc, centres) /\ fuzzy_partition c (length data) desc /\ length centres = c /\
    let l := combine desc centres in
    cfe_score data maxiter rand c = Ok (desc, combined data l) /\ 0 <= combined data l /\ 0 < undecidedness data l <= 1 /\
    ((exists x y, In x data /\ In y data /\ x <> y) -> 0 <= grouping data l < 1 / (INR c - 1)).
Proof.
  intros data maxiter rand c [Hc Hn] Hm Hr. assert (Hd : data <> []) by (intros ->; cbn in Hn; lia).
  assert (Es : exists desc centres, est_cmeans data c maxiter None rand = Ok (desc, centres) /\ fuzzy_partition c (length data) desc /\ length centres = c).
  { unfold est_cmeans, fuzzy_cmeans.
    destruct (cmeans_real data c (nlit 5 2) (nlit 1 10000) maxiter None (rand c)) as (cntr & u & u0 & d & jm & p & fpc & prev & E & (Sh & (j & E0) & P) & _); auto; try lia.
    { unfold nlit. rnum. lra. }
    rewrite E. cbn [rbind]. exists u, cntr. split; [reflexivity|]. split; [exact P|].
    apply (cmeans0_shape data prev (nlit 5 2) cntr u j d c _ E0 Sh eq_refl). }
  destruct Es as (desc & centres & E & P & L). exists desc, centres. split; auto. split; auto. split; auto. cbv zeta. set (l := combine desc centres).
  assert (I : inner (length data) l) by (now apply inner_partition with (c := c)).
  assert (Ll : length l = c) by (unfold l; rewrite combine_length; destruct P as ((-> & _) & _); lia).
  assert (Pc : 2 <= INR c) by (apply le_INR in Hc; cbn in Hc; lra). assert (Pn : INR c <= INR (length data)) by now apply le_INR.
  assert (U : 0 < undecidedness data l <= 1) by (apply undecidedness_bounds; auto; destruct l; [cbn in Ll; lia|discriminate]).
  assert (B : 0 <= between data l) by (apply between_ge0; intros cl u Hcl Hu; apply (I cl Hcl); auto). pose proof (spread_ge0 data) as S.
  assert (G : 0 <= grouping data l).
  { unfold grouping. rewrite Ll. apply Rmult_le_pos.
    - apply Rmult_le_pos; auto. left. apply Rinv_0_lt_compat. lra.
    - apply Rmult_le_pos; [lra|]. destruct (Req_dec (spread data + between data l) 0) as [->|N]; [rewrite Rmult_0_r, Rinv_0; lra|].
      left. apply Rinv_0_lt_compat, Rmult_lt_0_compat; lra. }
  split; [now apply cfe_combined|]. split.
  - unfold combined. assert (0 <= separation l / undecidedness data l); [|lra]. apply Rmult_le_pos; [apply separation_ge0 with (n := length data); auto; lia|].
    left. apply Rinv_0_lt_compat. lra.
  - split; auto. intros V. apply spread_pos in V. split; auto. unfold grouping. rewrite Ll. set (b := between data l) in *. set (q := spread data) in *.
    set (n := INR (length data)) in *. set (k := INR c) in *.
    replace (b / (k - 1) * ((n - k) / (n * (q + b)))) with (1 / (k - 1) * ((b / (q + b)) * ((n - k) / n))) by (field; lra).
    rewrite <- (Rmult_1_r (1 / (k - 1))) at 2. apply Rmult_lt_compat_l; [apply Rdiv_lt_0_compat; lra|].
    assert (X : 0 <= b / (q + b) <= 1).
    { split; [apply Rmult_le_pos; auto; left; apply Rinv_0_lt_compat; lra|]. apply (Rmult_le_reg_r (q + b)); [lra|]. unfold Rdiv. rewrite Rmult_assoc, Rinv_l by lra. lra. }
    assert (Y : 0 <= (n - k) / n < 1).
    { split; [apply Rmult_le_pos; [lra|]; left; apply Rinv_0_lt_compat; lra|]. apply (Rmult_lt_reg_r n); [lra|]. unfold Rdiv. rewrite Rmult_assoc, Rinv_l by lra. lra. }
    nra.
Qed.
Print Assumptions C116_score.

(** ** The number of clusters *)
(** The smallest number of clusters with the highest score is chosen if that score is positive, else none. *)
Theorem C116_choice : forall (data : list R) mc maxiter rand k d b, cfe data mc maxiter rand = Ok (k, d, b) ->
  (k = 0%nat /\ b = 0 \/ (2 <= k <= mc)%nat /\ cfe_score data maxiter rand k = Ok (d, b) /\ 0 < b) /\
  (forall c, (2 <= c <= mc)%nat -> exists d' v, cfe_score data maxiter rand c = Ok (d', v) /\ v <= b /\ ((c < k)%nat -> v < b)).
Proof. intros data mc maxiter rand k d b E. exact (best_of_choice _ mc k d b E). Qed.
Print Assumptions C116_choice.

(** ** The numbering of the clusters *)
Theorem C116_numbering : forall data l l', Permutation l l' -> combined data l' = combined data l.
Proof.
  intros data l l' P. assert (B : between data l' = between data l) by (symmetry; now apply sum_perm).
  assert (S : separation l' = separation l).
  { unfold separation. rewrite <- (Permutation_length P). do 2 f_equal. symmetry. rewrite (sum_perm l l' _ P). apply sum_ext. intros c _. now apply sum_perm. }
  assert (U : undecidedness data l' = undecidedness data l) by (unfold undecidedness; rewrite <- (Permutation_length P); f_equal; symmetry; now apply sum_perm).
  unfold combined, grouping. now rewrite B, S, U, (Permutation_length P).
Qed.
Print Assumptions C116_numbering.

(** ** Tight clusters *)
(** The score should be higher when the points are closer to the centres of the clusters they belong to. It does not notice:
    here the points of two groups belong to their own group's cluster or to the other one. *)
Definition groups : list R := [0; 1; 10; 11].
Definition own : clustering := [([9 / 10; 9 / 10; 1 / 10; 1 / 10], 1 / 2); ([1 / 10; 1 / 10; 9 / 10; 9 / 10], 21 / 2)].
Definition other : clustering := [([1 / 10; 1 / 10; 9 / 10; 9 / 10], 1 / 2); ([9 / 10; 9 / 10; 1 / 10; 1 / 10], 21 / 2)].
Theorem C116_tightness_refuted : fuzzy_partition 2 (length groups) (map fst own) /\ fuzzy_partition 2 (length groups) (map fst other) /\
  within groups own < within groups other / 8 /\ combined groups own = combined groups other.
Proof.
  assert (Q : forall a b, 0 < a <= 1 -> 0 < b <= 1 -> a + b = 1 -> fuzzy_partition 2 4 [[a; a; b; b]; [b; b; a; a]]).
  { intros a b Ha Hb E. split; [split; [reflexivity|repeat constructor]|]. split.
    - intros i j x H. unfold entry in H. destruct (nth_error _ i) as [r|] eqn:Er in H; [|discriminate H]. apply nth_error_In in Er. apply nth_error_In in H.
      destruct Er as [<-|[<-|[]]]; destruct H as [<-|[<-|[<-|[<-|[]]]]]; assumption.
    - intros [|[|[|[|j]]]] Hj; cbn; try lra. lia. }
  split; [apply Q; lra|]. split; [apply (Q (1 / 10) (9 / 10)); lra|]. split; [unfold within, sum_over, square; cbn; lra|].
  assert (B : between groups own = between groups other) by (unfold between, sum_over; cbn; unfold square; lra).
  assert (S : separation own = separation other) by (unfold separation, sum_over, rows_apart; cbn; ring).
  assert (U : undecidedness groups own = undecidedness groups other) by (unfold undecidedness, sum_over; cbn; f_equal; ring).
  unfold combined, grouping. now rewrite B, S, U.
Qed.
Print Assumptions C116_tightness_refuted.

(** ** Non-vacuity *)
Example C116_nonvacuous :
  let rand := fun c => repeat [1; 2; 3; 4] c in
  (forall c, shape c (length groups) (rand c)) /\ (exists x y, In x groups /\ In y groups /\ x <> y) /\ (exists v d, cfe_score groups 1000 rand 3 = Ok (d, v) /\ 0 <= v) /\
  exists k d b, cfe groups 3 1000 rand = Ok (k, d, b).
Proof.
  cbv zeta. assert (H : forall c, shape c (length groups) (repeat [1; 2; 3; 4] c)).
  { intros c. split; [now rewrite repeat_length|]. apply Forall_forall. intros r Hr. apply repeat_spec in Hr. now subst. }
  split; [exact H|]. split; [exists 0, 1; cbn; repeat split; auto; lra|]. split.
  - destruct (C116_score groups 1000 (fun c => repeat [1; 2; 3; 4] c) 3) as (d & z & _ & _ & _ & E & P & _); [cbn; lia|lia|apply H|]. eauto.
  - unfold cfe. destruct (best_of_ok (fun c d => True) (cfe_score groups 1000 (fun c => repeat [1; 2; 3; 4] c)) 3) as (k & d & b & E & _); [|eauto].
    intros c Hc. destruct (cfe_score_ok groups 1000 (fun c => repeat [1; 2; 3; 4] c) c) as (d & v & E & _); [lia|discriminate|lia|apply H|eauto].
Qed.
