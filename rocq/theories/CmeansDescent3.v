(** CmeansDescent3.v — the objective of c-means from one step to the next. *)
From Coq Require Import Reals Lra.
From Verif Require Import Base BaseFacts Num Spec RealFacts Functions LearnUtils LearnSpec LearnFacts Cmeans CmeansFacts
  RlFacts ClusterSpec CmeansN CmeansNFacts CmeansDescent CmeansDescent2.
Local Open Scope R_scope.

Lemma total2_cons f r a s b : total2 f (r :: a) (s :: b) = sum2 f r s + total2 f a b.
Proof. reflexivity. Qed.
Lemma sum2_le_const f g k (r s : list R) : length r = length s ->
  (forall x y, In x r -> In y s -> f x y <= g x y + k) -> sum2 f r s <= sum2 g r s + INR (length s) * k.
Proof.
  intros Hl H. rewrite <- sum2_plus_const by auto. apply sum2_le. intros x y Hxy.
  apply H; [eapply in_combine_l|eapply in_combine_r]; eauto.
Qed.
Lemma total2_le_const f g k c n (a b : list (list R)) : shape c n a -> shape c n b ->
  (forall r s x y, In r a -> In s b -> In x r -> In y s -> f x y <= g x y + k) ->
  total2 f a b <= total2 g a b + INR c * (INR n * k).
Proof.
  intros [Ha1 Ha2] [Hb1 Hb2]. subst c. revert b Hb1 Hb2. induction Ha2 as [|r a Hr Ha IH]; intros [|s b] Hl Hb H; try discriminate.
  - unfold total2. simpl. lra.
  - inversion Hb; subst. rewrite !total2_cons.
    assert (sum2 f r s <= sum2 g r s + INR (length s) * k).
    { apply sum2_le_const; auto. intros x y Hx Hy. apply (H r s); simpl; auto. }
    specialize (IH b ltac:(simpl in Hl; lia) H3 ltac:(intros r' s' x y ? ?; apply (H r' s'); simpl; auto)).
    rewrite H2 in H0. cbn [length]. rewrite S_INR. lra.
Qed.

Lemma nonempty_length {A} (l : list A) : l <> [] -> (0 < length l)%nat.
Proof. destruct l; [congruence|simpl; lia]. Qed.

Section Data.
Variable data : list (list R).
Variable k : nat.
Hypothesis Hne : data <> [].
Hypothesis Hd : shape (length data) k data.
Let n := length data.

Definition sq (a b : R) : R := a * (b * b).
Definition cost (w cs : list (list R)) : R := Rsum (map (fun rc => spread (fst rc) data (snd rc)) (combine w cs)).
Definition clipped (cs : list (list R)) : list (list R) := map (fun ct => map (fun x => Rmax (euclid x ct) neps) data) cs.
Lemma cost_cons r w c cs : cost (r :: w) (c :: cs) = spread r data c + cost w cs.
Proof. reflexivity. Qed.

Lemma row_clipped_le (r : list R) ct l : Forall (fun w => 0 < w <= 1) r -> length r = length l ->
  sum2 sq r (map (fun x => Rmax (euclid x ct) neps) l)
  <= Rsum (map (fun p => fst p * gap2 (snd p) ct) (combine r l)) + INR (length l) * (neps * neps).
Proof.
  intros Hr. revert l. induction Hr as [|w r Hw Hr IH]; intros [|x l] Hl; try discriminate; [unfold sum2; simpl; lra|].
  cbn [map combine]. rewrite sum2_cons. cbn [Rsum fold_right fst snd length]. rewrite S_INR.
  specialize (IH l ltac:(simpl in Hl; lia)). fold (Rsum (map (fun p => fst p * gap2 (snd p) ct) (combine r l))).
  assert (sq w (Rmax (euclid x ct) neps) <= w * gap2 x ct + neps * neps).
  { unfold sq. rewrite <- euclid_sqr. pose proof (euclid_pos x ct) as P. pose proof eps_pos as Q.
    unfold Rmax. destruct (Rle_dec (euclid x ct) neps); nra. }
  lra.
Qed.
Lemma row_clipped_ge (r : list R) ct l : Forall (fun w => 0 < w) r -> length r = length l ->
  Rsum (map (fun p => fst p * gap2 (snd p) ct) (combine r l)) <= sum2 sq r (map (fun x => Rmax (euclid x ct) neps) l).
Proof.
  intros Hr. revert l. induction Hr as [|w r Hw Hr IH]; intros [|x l] Hl; try discriminate; [unfold sum2; simpl; lra|].
  cbn [map combine]. rewrite sum2_cons. cbn [Rsum fold_right fst snd length].
  specialize (IH l ltac:(simpl in Hl; lia)). fold (Rsum (map (fun p => fst p * gap2 (snd p) ct) (combine r l))).
  assert (w * gap2 x ct <= sq w (Rmax (euclid x ct) neps)).
  { unfold sq. rewrite <- euclid_sqr. pose proof (euclid_pos x ct) as P. pose proof (Rmax_l (euclid x ct) neps) as Q.
    apply Rmult_le_compat_l; [lra|]. apply Rmult_le_compat; lra. }
  lra.
Qed.
Lemma row_clipped_eq (r : list R) ct l : length r = length l -> (forall x, In x l -> neps <= euclid x ct) ->
  sum2 sq r (map (fun x => Rmax (euclid x ct) neps) l) = Rsum (map (fun p => fst p * gap2 (snd p) ct) (combine r l)).
Proof.
  revert l. induction r as [|w r IH]; intros [|x l] Hl H; try discriminate; [reflexivity|].
  cbn [map combine]. rewrite sum2_cons. cbn [Rsum fold_right fst snd].
  rewrite IH by (simpl in *; auto; lia). unfold sq. rewrite Rmax_left by (apply H; simpl; auto). rewrite euclid_sqr. reflexivity.
Qed.
Lemma cost_clipped_le w cs : length w = length cs ->
  (forall r, In r w -> length r = n /\ Forall (fun w => 0 < w <= 1) r) ->
  total2 sq w (clipped cs) <= cost w cs + INR (length cs) * (INR n * (neps * neps)).
Proof.
  revert cs. induction w as [|r w IH]; intros [|c cs] Hl H; try discriminate; [unfold total2, cost; simpl; lra|].
  cbn [clipped map]. rewrite total2_cons, cost_cons. fold (clipped cs).
  destruct (H r (or_introl eq_refl)) as [H1 H2].
  pose proof (row_clipped_le r c data H2 H1) as B. specialize (IH cs ltac:(simpl in Hl; lia) ltac:(intros; apply H; simpl; auto)).
  cbn [length]. rewrite S_INR. fold n in B. unfold spread. lra.
Qed.
Lemma cost_clipped_ge w cs : length w = length cs ->
  (forall r, In r w -> length r = n /\ Forall (fun w => 0 < w) r) -> cost w cs <= total2 sq w (clipped cs).
Proof.
  revert cs. induction w as [|r w IH]; intros [|c cs] Hl H; try discriminate; [unfold total2, cost; simpl; lra|].
  cbn [clipped map]. rewrite total2_cons, cost_cons. fold (clipped cs).
  destruct (H r (or_introl eq_refl)) as [H1 H2].
  pose proof (row_clipped_ge r c data H2 H1) as B. specialize (IH cs ltac:(simpl in Hl; lia) ltac:(intros; apply H; simpl; auto)).
  unfold spread. lra.
Qed.
Lemma cost_clipped_eq w cs : length w = length cs -> (forall r, In r w -> length r = n) ->
  (forall x ct, In x data -> In ct cs -> neps <= euclid x ct) -> total2 sq w (clipped cs) = cost w cs.
Proof.
  revert cs. induction w as [|r w IH]; intros [|c cs] Hl H H2; try discriminate; [reflexivity|].
  cbn [clipped map]. rewrite total2_cons, cost_cons. fold (clipped cs).
  rewrite row_clipped_eq.
  - rewrite IH; auto; [intros; apply H; simpl; auto|intros; apply H2; simpl; auto].
  - apply H; simpl; auto.
  - intros x Hx. apply H2; simpl; auto.
Qed.
Lemma cost_center_best w cs : length w = length cs -> Forall (fun y => length y = k) cs ->
  (forall r, In r w -> length r = n /\ Forall (fun w => 0 < w) r) -> cost w (map (centerN data) w) <= cost w cs.
Proof.
  revert cs. induction w as [|r w IH]; intros [|c cs] Hl Hc H; try discriminate; [unfold cost; simpl; lra|].
  inversion Hc; subst. cbn [map]. rewrite !cost_cons. destruct (H r (or_introl eq_refl)) as [Q3 Q4].
  apply Rplus_le_compat; [|apply IH; auto; intros; apply H; simpl; auto].
  apply center_best with (length c); auto. apply Rsum_pos; auto. unfold n in Q3. destruct data; [congruence|]. destruct r; discriminate.
Qed.

(** ** Two steps *)
Variable m : R.
Hypothesis Hm : 1 < m.
Lemma step_objective u : exists c1 u1 j1 d1, cmeans0N data u m = Ok (c1, u1, j1, d1) /\
  c1 = map (centerN data) (umN u m) /\ d1 = clipped c1 /\ u1 = by_columns (power_column (-2 / (m - 1))) d1 /\
  j1 = total2 (energy m) (floored u) d1.
Proof.
  pose proof (cmeans0N_eq data u m ltac:(lra)) as E. cbv zeta in E. do 4 eexists. split; [exact E|].
  split; [reflexivity|]. split; [reflexivity|]. split; [reflexivity|].
  rewrite (objective_total2 (fun a b => nmul a (nmul b b))). rewrite umN_floored at 1.
  rewrite total2_map_l. reflexivity.
Qed.
Lemma two_steps u c c1 u1 j1 d1 c2 u2 j2 d2 D : (0 < c)%nat -> shape c n u -> (forall r x, In r u -> In x r -> 0 < x) ->
  cmeans0N data u m = Ok (c1, u1, j1, d1) -> cmeans0N data u1 m = Ok (c2, u2, j2, d2) ->
  neps <= D -> (forall x y, In x data -> In y data -> euclid x y <= D) ->
  j2 <= j1 + INR c * (INR n * (neps * neps + neps * neps * (D * D) + Rpower neps m * (D * D))).
Proof.
  intros Hc Hu Hp E1 E2 HD Hdiam. pose proof eps_pos as Heps.
  assert (Hn : (0 < n)%nat) by exact (nonempty_length data Hne).
  destruct (cmeans0N_real data u m c n k Hc Hn ltac:(lra) Hu Hd) as (c1' & u1' & j1' & d1' & E1' & Part & _).
  rewrite E1 in E1'. injection E1' as <- <- <- <-.
  destruct (cmeans0N_shape _ _ _ _ _ _ _ c n k E1 Hu Hd Hn) as (Su1 & Sc1 & Sd1).
  destruct (step_objective u) as (c1' & u1' & j1' & d1' & E1' & Ec1 & Ed1 & Eu1 & Ej1).
  rewrite E1 in E1'. injection E1' as <- <- <- <-.
  destruct (step_objective u1) as (c2' & u2' & j2' & d2' & E2' & Ec2 & Ed2 & Eu2 & Ej2).
  rewrite E2 in E2'. injection E2' as <- <- <- <-.
  pose proof (partition_pos c n u1 Part) as Pos1.
  set (W := umN u1 m) in *.
  assert (SW : shape c n W) by (apply umN_shape; auto).
  assert (PW : forall r, In r W -> length r = n /\ Forall (fun w => 0 < w <= 1) r).
  { intros r Hr. split; [destruct SW as [_ H]; rewrite Forall_forall in H; auto|].
    unfold W in Hr. rewrite umN_floored in Hr. apply in_map_iff in Hr as (s & <- & Hs). apply Forall_forall. intros w Hw.
    apply in_map_iff in Hw as (x & <- & Hx). split; [apply Rpower_pos|]. apply Rpower_le1; [|lra].
    eapply (floored_range u1 c n); eauto. intros r0 x0 Hr0 Hx0. apply (Pos1 r0 x0 Hr0 Hx0). }
  assert (PW' : forall r, In r W -> length r = n /\ Forall (fun w => 0 < w) r).
  { intros r Hr. destruct (PW r Hr) as [Q1 Q2]. split; [auto|]. eapply Forall_impl; [|exact Q2]. cbv beta. intros; lra. }
  assert (Lc2 : length W = length c2) by (rewrite Ec2, map_length; reflexivity).
  assert (Lc1 : length W = length c1) by (destruct SW, Sc1; congruence).
  (* the new distances and centres *)
  assert (S1 : total2 sq W d2 <= total2 sq W d1 + INR c * (INR n * (neps * neps))).
  { rewrite Ed2. eapply Rle_trans; [apply cost_clipped_le; auto|]. rewrite <- Lc2. destruct SW as [-> _].
    apply Rplus_le_compat_r. rewrite Ec2. eapply Rle_trans; [apply cost_center_best with (cs := c1); auto; apply Sc1|].
    rewrite Ed1. apply cost_clipped_ge; auto. }
  assert (J2 : j2 = total2 sq W d2).
  { rewrite Ej2. unfold W. rewrite umN_floored, total2_map_l. reflexivity. }
  (* the distances of the first step *)
  assert (Rd1 : forall r x, In r d1 -> In x r -> 0 < x <= D).
  { intros r x Hr Hx. rewrite Ed1 in Hr. apply in_map_iff in Hr as (ct & <- & Hct). apply in_map_iff in Hx as (y & <- & Hy).
    split; [eapply Rlt_le_trans; [exact Heps|apply Rmax_r]|]. apply Rmax_lub; [|auto].
    rewrite Ec1 in Hct. apply in_map_iff in Hct as (r & <- & Hr).
    apply center_near with k; auto.
    - assert (SU := umN_shape u m c n Hu). destruct SU as [_ H]. rewrite Forall_forall in H. apply (H r Hr).
    - eapply umN_pos; eauto.
    - destruct Hd as [_ H]. rewrite Forall_forall in H. auto.
    - lra. }
  (* floors of the memberships *)
  assert (S2 : total2 sq W d1 <= total2 (energy m) u1 d1 + INR c * (INR n * (Rpower neps m * (D * D)))).
  { unfold W. rewrite umN_floored, total2_map_l. rewrite (floored_partition c n u1 Hc Part), total2_map_l.
    apply total2_le_const; auto. intros r s x y Hr Hs Hx Hy. unfold sq, energy.
    specialize (Pos1 r x Hr Hx). specialize (Rd1 s y Hs Hy).
    assert (Hy2 : y * y <= D * D) by (apply Rmult_le_compat; lra). assert (0 <= y * y) by nra.
    pose proof (Rpower_pos x m). pose proof (Rpower_pos neps m).
    unfold Rmax. destruct (Rle_dec x neps).
    - assert (0 <= Rpower x m * (y * y)) by (apply Rmult_le_pos; lra).
      assert (Rpower neps m * (y * y) <= Rpower neps m * (D * D)) by (apply Rmult_le_compat_l; lra). lra.
    - assert (0 <= Rpower neps m * (D * D)) by (apply Rmult_le_pos; lra). lra. }
  assert (S3 : total2 (energy m) u1 d1 <= total2 (energy m) (floored u) d1 + INR n * (INR c * ((neps * D) * (neps * D)))).
  { rewrite Eu1. apply matrix_descent; auto.
    - apply floored_shape; auto.
    - eapply floored_range; eauto.
    - intros j Hj. apply (floored_column u c n); auto. }
  rewrite <- Ej1 in S3. rewrite J2. lra.
Qed.
(** the floors and limits out of play, the objective cannot grow at all *)
Lemma two_steps_exact u c c1 u1 j1 d1 c2 u2 j2 d2 : (0 < c)%nat -> shape c n u -> (forall r x, In r u -> In x r -> 0 < x) ->
  cmeans0N data u m = Ok (c1, u1, j1, d1) -> cmeans0N data u1 m = Ok (c2, u2, j2, d2) ->
  (forall x y, In x data -> In y c2 -> neps <= euclid x y) ->
  (forall r x, In r u1 -> In x r -> neps <= x) ->
  (forall j x y, (j < n)%nat -> In x (mcol d1 j) -> In y (mcol d1 j) -> neps * x <= y) ->
  j2 <= j1.
Proof.
  intros Hc Hu Hp E1 E2 H1 H2 H3. pose proof eps_pos as Heps.
  assert (Hn : (0 < n)%nat) by exact (nonempty_length data Hne).
  destruct (cmeans0N_real data u m c n k Hc Hn ltac:(lra) Hu Hd) as (c1' & u1' & j1' & d1' & E1' & Part & _).
  rewrite E1 in E1'. injection E1' as <- <- <- <-.
  destruct (cmeans0N_shape _ _ _ _ _ _ _ c n k E1 Hu Hd Hn) as (Su1 & Sc1 & Sd1).
  destruct (step_objective u) as (c1' & u1' & j1' & d1' & E1' & Ec1 & Ed1 & Eu1 & Ej1).
  rewrite E1 in E1'. injection E1' as <- <- <- <-.
  destruct (step_objective u1) as (c2' & u2' & j2' & d2' & E2' & Ec2 & Ed2 & Eu2 & Ej2).
  rewrite E2 in E2'. injection E2' as <- <- <- <-.
  set (W := umN u1 m) in *.
  assert (SW : shape c n W) by (apply umN_shape; auto).
  assert (PW' : forall r, In r W -> length r = n /\ Forall (fun w => 0 < w) r).
  { intros r Hr. split; [destruct SW as [_ H]; rewrite Forall_forall in H; auto|]. eapply umN_pos; eauto. }
  assert (Lc2 : length W = length c2) by (rewrite Ec2, map_length; reflexivity).
  assert (Lc1 : length W = length c1) by (destruct SW, Sc1; congruence).
  assert (J2 : j2 = total2 sq W d2).
  { rewrite Ej2. unfold W. rewrite umN_floored, total2_map_l. reflexivity. }
  assert (S1 : total2 sq W d2 <= total2 sq W d1).
  { rewrite Ed2, cost_clipped_eq; auto; [|intros r Hr; apply (PW' r Hr)]. rewrite Ec2.
    eapply Rle_trans; [apply cost_center_best with (cs := c1); auto; apply Sc1|].
    rewrite Ed1. apply cost_clipped_ge; auto. }
  assert (S2 : total2 sq W d1 = total2 (energy m) u1 d1).
  { unfold W. rewrite umN_floored, total2_map_l, (floored_same c n u1 Hc Part H2). reflexivity. }
  rewrite J2, Ej1. eapply Rle_trans; [exact S1|]. rewrite S2, Eu1. apply matrix_descent_exact with (c := c) (n := n); auto.
  - apply floored_shape; auto.
  - intros r x Hr Hx. rewrite Ed1 in Hr. apply in_map_iff in Hr as (ct & <- & Hct). apply in_map_iff in Hx as (y & <- & Hy).
    eapply Rlt_le_trans; [exact Heps|apply Rmax_r].
  - intros r x Hr Hx. apply (floored_range u c n Hu Hc Hp r x Hr Hx).
  - intros j Hj. apply (floored_column u c n); auto.
Qed.

(** ** The whole run *)
Definition slack (c : nat) (D : R) : R :=
  INR c * (INR n * (neps * neps + neps * neps * (D * D) + Rpower neps m * (D * D))).
Definition slow (s : R) (l : list R) : Prop := forall i x y, nth_error l i = Some x -> nth_error l (S i) = Some y -> y <= x + s.
Lemma slow_snoc s l a : slow s l -> (forall z, nth_error l (length l - 1) = Some z -> a <= z + s) -> slow s (l ++ [a]).
Proof.
  intros H Ha i x y Hx Hy.
  assert (S i < length (l ++ [a]))%nat by (apply nth_error_Some; congruence). rewrite app_length in H0. simpl in H0.
  destruct (Nat.eq_dec (S i) (length l)) as [E|E].
  - rewrite nth_error_app2 in Hy by lia. replace (S i - length l)%nat with 0%nat in Hy by lia. injection Hy as <-.
    apply Ha. rewrite nth_error_app1 in Hx by lia. replace (length l - 1)%nat with i by lia. auto.
  - rewrite nth_error_app1 in Hx, Hy by lia. eapply H; eauto.
Qed.
Lemma loop_descent c D kk : forall err last u jm p last' u' jm' p', (0 < c)%nat -> shape c n u ->
  (forall r x, In r u -> In x r -> 0 < x) ->
  neps <= D -> (forall x y, In x data -> In y data -> euclid x y <= D) ->
  slow (slack c D) jm ->
  (forall z, nth_error jm (length jm - 1) = Some z -> exists u0 c0 d0, shape c n u0 /\
      (forall r x, In r u0 -> In x r -> 0 < x) /\ cmeans0N data u0 m = Ok (c0, u, z, d0)) ->
  cmeans_loopN kk data m err last u jm p = Ok (last', u', jm', p') -> slow (slack c D) jm'.
Proof.
  induction kk as [|kk IH]; intros err last u jm p last' u' jm' p' Hc Hu Hp HD Hdiam Hs Hz E.
  - simpl in E. injection E as _ _ <- _. auto.
  - cbn [cmeans_loopN] in E. destruct (cmeans0N data u m) as [[[[cn u1] j] d]|] eqn:E1; [|discriminate]. cbn [rbind] in E.
    assert (Hs1 : slow (slack c D) (jm ++ [j])).
    { apply slow_snoc; auto. intros z Hz'. destruct (Hz z Hz') as (u0 & c0 & d0 & Su & Pu & E0).
      eapply (two_steps u0 c); eauto. }
    destruct (nltb (mdist u1 u) err).
    + injection E as _ _ <- _. auto.
    + assert (Hn : (0 < n)%nat) by exact (nonempty_length data Hne).
      destruct (cmeans0N_real data u m c n k Hc Hn ltac:(lra) Hu Hd) as (c1' & u1' & j1' & d1' & E1' & Part & _).
      rewrite E1 in E1'. injection E1' as <- <- <- <-.
      eapply IH; [exact Hc| | |exact HD|exact Hdiam|exact Hs1| |exact E].
      * apply Part.
      * intros r x Hr Hx. apply (partition_pos c n u1 Part r x Hr Hx).
      * intros z Hz'. rewrite app_length in Hz'. cbn [length] in Hz'. rewrite nth_error_app2 in Hz' by lia.
        replace (length jm + 1 - 1 - length jm)%nat with 0%nat in Hz' by lia. injection Hz' as <-.
        exists u, cn, d. auto.
Qed.
Lemma start_pos c u0 us : cmeans_start c n u0 = Ok us -> forall r x, In r us -> In x r -> 0 < x.
Proof.
  intros H r x Hr Hx. unfold cmeans_start in H. pose proof eps_pos as Heps.
  apply rmap_ok_Forall2 in H. apply In_nth_error in Hr as [i Hi].
  assert (G : forall (A B : Type) (P : A -> B -> Prop) l l' i b, Forall2 P l l' -> nth_error l' i = Some b ->
      exists a, nth_error l i = Some a /\ P a b).
  { clear. intros A B P l l' i b H. revert i. induction H; intros [|i] Hi; try discriminate.
    - injection Hi as <-. eexists; split; [reflexivity|auto].
    - apply IHForall2 in Hi. exact Hi. }
  destruct (G _ _ _ _ _ _ _ H Hi) as (a & _ & Ha). destruct (nth_error u0 a) as [row|]; [|discriminate]. cbn [rbind] in Ha.
  apply rmap_ok_Forall2 in Ha. apply In_nth_error in Hx as [jx Hj].
  destruct (G _ _ _ _ _ _ _ Ha Hj) as (b & _ & Hb). destruct (nbget row b) as [z|]; [|discriminate]. cbn [rbind] in Hb.
  injection Hb as <-. rnum. destruct (Rltb_spec z (/ 4503599627370496)); cbn [neps RNum] in *; lra.
Qed.
Lemma run_descent c err maxiter init rand cntr u u0 d jm p fpc D : (0 < c)%nat ->
  cmeansN data c m err maxiter init rand = Ok (cntr, u, u0, d, jm, p, fpc) ->
  neps <= D -> (forall x y, In x data -> In y data -> euclid x y <= D) -> slow (slack c D) jm.
Proof.
  intros Hc E HD Hdiam. unfold cmeansN in E. fold n in E.
  destruct (cmeans_start c n _) as [us|] eqn:Es; [|discriminate]. cbn [rbind] in E.
  destruct (cmeans_loopN _ _ _ _ _ _ _ _) as [[[[l u1] j1] p1]|] eqn:El; [|discriminate]. cbn [rbind] in E.
  destruct (fp_coeff u1); [|discriminate]. cbn [rbind] in E. destruct l as [[cn dd]|]; [|discriminate].
  injection E as _ _ _ _ <- _ _.
  eapply loop_descent; [exact Hc| | |exact HD|exact Hdiam| | |exact El].
  - eapply cmeans_start_shape; eauto.
  - eapply start_pos; eauto.
  - intros [|i] x y Hx; discriminate.
  - intros z Hz. discriminate.
Qed.
End Data.
