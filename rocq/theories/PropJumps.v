(** PropJumps.v — where change points are seen (C55). *)
From Coq Require Import Reals Lra.
From Verif Require Import Base BaseFacts Num RealFacts QNum Functions LearnUtils LearnSpec LearnFacts CmeansFacts RlFacts Discret.
Local Open Scope R_scope.

Section Jumps.
Variables (values : list R) (n : nat) (mi : R) (k : nat).
Let v i := nth i values 0.
Hypothesis Hk : (k + 1 < length values)%nat.
Hypothesis Flat : forall i, (i <= k)%nat -> v i = v k.
Hypothesis Jump : v k <> v (k + 1)%nat.
Hypothesis Grow : forall i, (i + 2 < length values)%nat -> Rabs (v i - v (i + 1)%nat) <= Rabs (v (i + 1)%nat - v (i + 2)%nat).
Lemma nbget_v i : (i < length values)%nat -> nbget values i = Ok (v i).
Proof using. intros H. unfold nbget, v. now rewrite (nth_error_nth' values 0 H). Qed.
Lemma before_jump s : (s < k)%nat -> cp_step values n mi (mkCP [] false 0) s = Ok (mkCP [] false 0).
Proof using Hk Flat.
  intros H. unfold cp_step. rewrite !nbget_v by lia. cbn [rbind]. cbv zeta. rewrite (Flat s), (Flat (s + 1)%nat) by lia.
  replace (nabs (nsub (v k) (v k))) with 0 by (rnum; rewrite Rminus_diag_eq, Rabs_R0; auto).
  assert (X : nltb (nabs 0) 0 = false) by (rnum; rewrite Rabs_R0; rcase; lra).
  unfold cp_rise, cp_fall. cbn [cp_mean cp_grow cp_pts]. rewrite X. cbn [andb negb cp_mean cp_grow cp_pts cp_prune]. rewrite Bool.andb_false_r. cbn [cp_mean cp_grow cp_pts cp_prune].
  replace (ndiv (nadd 0 0) n2) with 0; [reflexivity|]. rnum. lra.
Qed.
Lemma at_jump : exists q, cp_step values n mi (mkCP [] false 0) k = Ok (mkCP [(k, v k)] true q) /\ 0 <= q <= Rabs (v k - v (k + 1)%nat).
Proof using Hk Jump.
  unfold cp_step. rewrite !nbget_v by lia. cbn [rbind]. cbv zeta. assert (P : 0 < Rabs (v k - v (k + 1)%nat)) by (apply Rabs_pos_lt; lra).
  replace (nabs (nsub (v k) (v (k + 1)%nat))) with (Rabs (v k - v (k + 1)%nat)) by now rnum. set (j := Rabs (v k - v (k + 1)%nat)) in *.
  assert (X : nltb (nabs 0) j = true) by (rnum; rewrite Rabs_R0; rcase; lra). assert (Y : nltb j (nabs 0) = false) by (rnum; rewrite Rabs_R0; rcase; lra).
  unfold cp_rise. cbn [cp_mean cp_grow cp_pts]. rewrite X. cbn [andb negb]. unfold cp_fall. cbn [cp_mean cp_grow cp_pts]. rewrite Y. cbn [andb cp_mean cp_grow cp_pts cp_prune].
  eexists. split; [reflexivity|]. rnum. lra.
Qed.
Lemma after_jump s q pts : (k <= s)%nat -> (s + 2 < length values)%nat -> pts = [(k, v k)] -> 0 <= q <= Rabs (v s - v (s + 1)%nat) ->
  exists q', cp_step values n mi (mkCP pts true q) (s + 1) = Ok (mkCP pts true q') /\ 0 <= q' <= Rabs (v (s + 1)%nat - v (s + 2)%nat).
Proof using Hk Grow.
  intros Hs Hl -> Hq. pose proof (Grow s Hl) as G. unfold cp_step. rewrite !nbget_v by lia. cbn [rbind]. cbv zeta. replace (s + 1 + 1)%nat with (s + 2)%nat by lia.
  replace (nabs (nsub (v (s + 1)%nat) (v (s + 2)%nat))) with (Rabs (v (s + 1)%nat - v (s + 2)%nat)) by now rnum. set (j := Rabs (v (s + 1)%nat - v (s + 2)%nat)) in *.
  assert (Y : nltb j (nabs q) = false) by (rnum; rewrite (Rabs_pos_eq q) by lra; rcase; lra).
  unfold cp_rise. cbn [cp_mean cp_grow cp_pts negb]. rewrite Bool.andb_false_r. unfold cp_fall. cbn [cp_mean cp_grow cp_pts]. rewrite Y. cbn [andb cp_mean cp_grow cp_pts cp_prune].
  eexists. split; [reflexivity|]. rnum. lra.
Qed.
Lemma loop_before m s : (s + m = k)%nat -> rfold (cp_step values n mi) (seq s m) (mkCP [] false 0) = Ok (mkCP [] false 0).
Proof using Hk Flat. revert s. induction m as [|m IH]; intros s H; [reflexivity|]. cbn [seq rfold]. rewrite before_jump by lia. cbn [rbind]. apply IH. lia. Qed.
Lemma loop_after m s q : (k <= s)%nat -> (s + m + 1 < length values)%nat -> 0 <= q <= Rabs (v s - v (s + 1)%nat) ->
  exists q', rfold (cp_step values n mi) (seq (s + 1) m) (mkCP [(k, v k)] true q) = Ok (mkCP [(k, v k)] true q').
Proof using Hk Grow.
  revert s q. induction m as [|m IH]; intros s q Hs Hl Hq; [eexists; reflexivity|]. cbn [seq rfold].
  destruct (after_jump s q _ Hs ltac:(lia) eq_refl Hq) as (q' & -> & Hq'). cbn [rbind]. replace (Datatypes.S (s + 1)) with ((s + 1) + 1)%nat by lia. apply IH; try lia. now replace (s + 1 + 1)%nat with (s + 2)%nat by lia.
Qed.
End Jumps.
Lemma rfold_app' {A B} (f : B -> A -> res B) l l' b : rfold f (l ++ l') b = (b' <- rfold f l b ;; rfold f l' b')%res.
Proof. revert b. induction l as [|x l IH]; intros b; [reflexivity|]. cbn [app rfold]. destruct (f b x); [|reflexivity]. cbn [rbind]. apply IH. Qed.

(** Values that stay the same up to position k and from there on change by more and more (or just as much) have one
    change point, at k. The change may be the last one. *)
Theorem C55_growing_jumps : forall (values : list R) mc k, (0 < mc)%nat -> (k + 1 < length values)%nat ->
  let v i := nth i values 0 in
  (forall i, (i <= k)%nat -> v i = v k) -> v k <> v (k + 1)%nat ->
  (forall i, (i + 2 < length values)%nat -> Rabs (v i - v (i + 1)%nat) <= Rabs (v (i + 1)%nat - v (i + 2)%nat)) ->
  estimate_change_points values mc = Ok ([k], [v k]).
Proof.
  intros values mc k Hmc Hk v Flat Jump Grow. apply lt_0_INR in Hmc as Hr. unfold estimate_change_points. rewrite nat2F_INR, pdiv_R by lra. cbn [rbind]. set (mi := n1 / INR mc).
  replace (length values - 1)%nat with (k + (1 + (length values - 2 - k)))%nat by lia. rewrite seq_app, rfold_app'. change (@n0 R _) with 0.
  rewrite (loop_before values (length values) mi k Hk Flat k 0) by lia. cbn [rbind plus seq rfold].
  destruct (at_jump values (length values) mi k Hk Jump) as (q & -> & Hq). cbn [rbind]. replace (Datatypes.S k) with (k + 1)%nat by lia.
  destruct (loop_after values (length values) mi k Hk Grow (length values - 2 - k) k q) as (q' & ->); auto; try lia.
Qed.
Print Assumptions C55_growing_jumps.
(** Non-vacuity: the last of the changes, and growing changes *)
Example C55_growing_jumps_nonvacuous : estimate_change_points [3; 3; 3; 5] 7 = Ok ([2%nat], [3]) /\ estimate_change_points [0; 1; 3; 6; 10; 15] 5 = Ok ([0%nat], [0]).
Proof.
  split; [apply (C55_growing_jumps [3; 3; 3; 5] 7 2)|apply (C55_growing_jumps [0; 1; 3; 6; 10; 15] 5 0)]; try (cbn; lia); try (cbn; lra).
  - intros [|[|[|i]]] H; try reflexivity. lia.
  - intros [|[|i]] H; cbn in *; try lia; unfold Rabs; repeat destruct (Rcase_abs _); lra.
  - intros [|i] H; [reflexivity|lia].
  - intros [|[|[|[|i]]]] H; cbn in *; try lia; unfold Rabs; repeat destruct (Rcase_abs _); lra.
Qed.
