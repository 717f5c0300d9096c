(** SilFacts.v — the fuzzy silhouette over the reals: the two clusters a point is compared with, and the choice of the best
    number of clusters. *)
From Coq Require Import Reals Lra Permutation.
From Verif Require Import Base BaseFacts Num Spec RealFacts Functions LearnUtils LearnSpec LearnFacts
  Cmeans CmeansFacts RlCmeans RlFacts Discret DiscretFacts DiscretFacts2.
Local Open Scope R_scope.

(** the entries at two different positions are the largest one and the largest one among those that differ from it *)
Definition two_largest (l : list R) (p q : nat) : Prop :=
  p <> q /\
  (forall a b, nth_error l p = Some a -> nth_error l q = Some b -> b <= a) /\
  (forall a x, nth_error l p = Some a -> In x l -> x <= a) /\
  (forall a b x, nth_error l p = Some a -> nth_error l q = Some b -> In x l -> x <> a -> x <= b).
(** mean distance (over the other points) from the point [x] to the points, weighted by their membership in a cluster *)
Definition mean_gap (data : list R) (x : R) (row : list R) : R :=
  Rsum (map (fun yu => Rabs (x - fst yu) * snd yu) (combine data row)) / (INR (length data) - 1).

Definition tops (l : list R) (t : top2 (F := R)) : Prop :=
  nth_error l (t_mpos t) = Some (t_max t) /\ nth_error l (t_spos t) = Some (t_sec t) /\ t_mpos t <> t_spos t /\
  t_sec t <= t_max t /\ (forall x, In x l -> x <= t_max t) /\ (forall x, In x l -> x <> t_max t -> x <= t_sec t).
Lemma tops_step l x t : tops l t -> tops (l ++ [x]) (top2_step t (length l, x)).
Proof.
  intros (A & B & C & D & E & G).
  assert (La : (t_mpos t < length l)%nat) by (apply nth_error_Some; congruence).
  assert (Lb : (t_spos t < length l)%nat) by (apply nth_error_Some; congruence).
  assert (Lx : nth_error (l ++ [x]) (length l) = Some x) by (rewrite nth_error_app2, Nat.sub_diag by lia; reflexivity).
  assert (I : forall y, In y (l ++ [x]) -> In y l \/ y = x).
  { intros y Hy. apply in_app_or in Hy as [Hy|[<-|[]]]; auto. }
  unfold top2_step, tops. rnum. destruct (Rltb_spec (t_max t) x) as [H|H]; cbn [t_max t_mpos t_sec t_spos].
  - rewrite Lx, nth_error_app1 by lia. repeat split; auto; try lia; try lra.
    + intros y Hy. apply I in Hy as [Hy| ->]; [|lra]. specialize (E y Hy). lra.
    + intros y Hy Hn. apply I in Hy as [Hy| ->]; [|congruence]. apply E, Hy.
  - destruct (Rltb_spec (t_sec t) x) as [H1|H1]; destruct (Reqb_spec x (t_max t)) as [H2|H2]; cbn [andb negb t_max t_mpos t_sec t_spos];
      rewrite ?Lx, ?nth_error_app1 by lia; repeat split; auto; try lia; try lra;
      intros y Hy; apply I in Hy as [Hy| ->]; auto; try lra.
    all: intros Hn; try (specialize (G y Hy Hn)); try lra; congruence.
Qed.
Lemma tops_fold r : forall l t, tops l t -> tops (l ++ r) (fold_left top2_step (combine (seq (length l) (length r)) r) t).
Proof.
  induction r as [|x r IH]; intros l t H; [now rewrite app_nil_r|].
  cbn [length seq combine fold_left]. rewrite (app_assoc l [x] r : l ++ x :: r = (l ++ [x]) ++ r).
  replace (S (length l)) with (length (l ++ [x])) by (rewrite app_length; simpl; lia). apply IH. now apply tops_step.
Qed.
Lemma top2_tops l t : top2_of l = Ok t -> tops l t.
Proof.
  unfold top2_of, lget. destruct l as [|x0 [|x1 r]]; try discriminate. cbn [nth_error rbind length skipn Nat.sub].
  rewrite Nat.sub_0_r. intros E. injection E as <-.
  change (x0 :: x1 :: r) with ([x0; x1] ++ r). change 2%nat with (length [x0; x1]) at 1. apply tops_fold.
  unfold tops. rnum. destruct (Rltb_spec x1 x0) as [H|H]; cbn [t_max t_mpos t_sec t_spos nth_error]; repeat split; auto; try lra;
    intros x [<-|[<-|[]]]; lra.
Qed.
Lemma tops_two l t : tops l t -> two_largest l (t_mpos t) (t_spos t).
Proof.
  intros (A & B & C & D & E & G). unfold two_largest. rewrite A, B. split; [auto|]. split; [|split].
  - intros a b Ha Hb. injection Ha as <-. injection Hb as <-. auto.
  - intros a x Ha. injection Ha as <-. auto.
  - intros a b x Ha Hb. injection Ha as <-. injection Hb as <-. auto.
Qed.

Lemma zip_map_mean (x : R) data row :
  zip_with nmul (map (fun y => nabs (nsub x y)) data) row = map (fun yu => Rabs (x - fst yu) * snd yu) (combine data row).
Proof. revert row. induction data as [|y d IH]; intros [|u r]; try reflexivity. cbn [map combine fst snd]. rewrite <- IH. reflexivity. Qed.

Lemma sil_point_spec data desc c i w s : (1 < length data)%nat -> shape c (length data) desc -> (i < length data)%nat ->
  sil_point data desc i = Ok (w, s) ->
  exists p q rp rq up uq x, two_largest (column_of desc i) p q /\ nth_error data i = Some x /\
    nth_error desc p = Some rp /\ nth_error desc q = Some rq /\ nth_error rp i = Some up /\ nth_error rq i = Some uq /\
    w = (up - uq) ^ 2 /\
    s = (mean_gap data x rq - mean_gap data x rp) / Rmax (mean_gap data x rq) (mean_gap data x rp).
Proof.
  intros Hn Hs Hi E. unfold sil_point in E. rewrite (mcol_column_of desc c (length data) i Hs Hi) in E.
  destruct (top2_of (column_of desc i)) as [t|] eqn:Et; [|discriminate]. apply top2_tops in Et. cbn [rbind] in E.
  unfold lget in E. destruct (nth_error data i) as [x|] eqn:Ex; [|discriminate].
  destruct (nth_error desc (t_mpos t)) as [rp|] eqn:Ep; [|discriminate].
  destruct (nth_error desc (t_spos t)) as [rq|] eqn:Eq; [|discriminate]. cbn [rbind] in E. injection E as <- <-.
  pose proof (tops_two _ _ Et) as Tt. destruct Et as (A & B & _).
  assert (G : forall k r v, nth_error desc k = Some r -> nth_error (column_of desc i) k = Some v -> nth_error r i = Some v).
  { intros k r v Hk Hv. apply (entry_column desc c (length data) k i v Hs Hi) in Hv. unfold entry in Hv. now rewrite Hk in Hv. }
  exists (t_mpos t), (t_spos t), rp, rq, (t_max t), (t_sec t), x.
  split; [exact Tt|]. split; [reflexivity|]. split; [exact Ep|]. split; [exact Eq|].
  split; [now apply (G _ _ _ Ep)|]. split; [now apply (G _ _ _ Eq)|]. split; [rnum; ring|].
  assert (M : forall row, ndiv (nsum (zip_with nmul (map (fun y => nabs (nsub x y)) data) row)) (nat2F (length data - 1)) = mean_gap data x row).
  { intros row. rewrite zip_map_mean, nsum_Rsum. unfold mean_gap. rewrite nat2F_INR, minus_INR by lia. reflexivity. }
  rewrite !M. rnum. unfold Rmax. destruct (Rltb_spec (mean_gap data x rq) (mean_gap data x rp)) as [H|H];
    destruct (Rle_dec (mean_gap data x rq) (mean_gap data x rp)); try lra; try reflexivity.
  all: replace (mean_gap data x rq) with (mean_gap data x rp) by lra; reflexivity.
Qed.

(** ** Bounds *)
Lemma Rsum_ge0 l : (forall x, In x l -> 0 <= x) -> 0 <= Rsum l.
Proof. induction l as [|a l IH]; intros H; cbn; [lra|]. specialize (H a (or_introl eq_refl)) as Ha. assert (0 <= Rsum l) by (apply IH; intros; apply H; now right). unfold Rsum in *. lra. Qed.
Lemma Rsum_gt0 l : (forall x, In x l -> 0 <= x) -> (exists x, In x l /\ 0 < x) -> 0 < Rsum l.
Proof.
  induction l as [|a l IH]; intros H (x & Hx & Hp); [destruct Hx|]. pose proof (H a (or_introl eq_refl)) as Ha.
  assert (Hl : 0 <= Rsum l) by (apply Rsum_ge0; intros; apply H; now right).
  change (0 < a + Rsum l). destruct Hx as [->|Hx]; [lra|].
  assert (0 < Rsum l) by (apply IH; [intros; apply H; now right|eauto]). lra.
Qed.
Lemma mean_gap_pos data x row : (1 < length data)%nat -> length row = length data -> (forall u, In u row -> 0 < u) ->
  (exists y, In y data /\ y <> x) -> 0 < mean_gap data x row.
Proof.
  intros Hn Hl Hp (y & Hy & Hd). unfold mean_gap. assert (1 < INR (length data)) by (apply (lt_INR 1); lia).
  apply Rdiv_lt_0_compat; [|lra]. apply Rsum_gt0.
  - intros z Hz. apply in_map_iff in Hz as ((a & u) & <- & Hin). cbn [fst snd].
    apply Rmult_le_pos; [apply Rabs_pos|]. left. apply Hp. eapply in_combine_r; eauto.
  - apply In_nth_error in Hy as (k & Hk). assert (Lk : (k < length row)%nat) by (rewrite Hl; apply nth_error_Some; congruence).
    destruct (nth_error row k) as [u|] eqn:Eu; [|apply nth_error_None in Eu; lia].
    exists (Rabs (x - y) * u). split.
    + apply in_map_iff. exists (y, u). split; [reflexivity|].
      clear - Hk Eu. revert data row Hk Eu. induction k as [|k IH]; intros [|a d] [|b r] H1 H2; try discriminate; cbn in *.
      * left. congruence.
      * right. eauto.
    + apply Rmult_lt_0_compat; [apply Rabs_pos_lt; lra|]. apply Hp. eapply nth_error_In; eauto.
Qed.
Lemma ratio_bound a b : 0 < a -> 0 < b -> -1 < (b - a) / Rmax b a < 1.
Proof.
  intros Ha Hb. assert (Hm : 0 < Rmax b a) by (unfold Rmax; destruct (Rle_dec b a); lra).
  assert (b <= Rmax b a) by apply Rmax_l. assert (a <= Rmax b a) by apply Rmax_r.
  split.
  - apply Rmult_lt_reg_r with (Rmax b a); [lra|]. unfold Rdiv. rewrite Rmult_assoc, Rinv_l by lra. lra.
  - apply Rmult_lt_reg_r with (Rmax b a); [lra|]. unfold Rdiv. rewrite Rmult_assoc, Rinv_l by lra. lra.
Qed.
Lemma weighted_bound (ws : list (R * R)) : (forall w s, In (w, s) ws -> 0 <= w /\ -1 < s < 1) -> 0 < Rsum (map fst ws) ->
  -1 < Rsum (map (fun p => fst p * snd p) ws) / Rsum (map fst ws) < 1.
Proof.
  intros H Hp.
  assert (G : - Rsum (map fst ws) < Rsum (map (fun p => fst p * snd p) ws) < Rsum (map fst ws)).
  { revert H Hp. generalize ws. clear ws. induction ws as [|[w s] ws IH]; intros H Hp; [cbn in Hp; lra|].
    change (- (w + Rsum (map fst ws)) < w * s + Rsum (map (fun p => fst p * snd p) ws) < w + Rsum (map fst ws)).
    change (0 < w + Rsum (map fst ws)) in Hp.
    destruct (H w s (or_introl eq_refl)) as [Hw Hs].
    assert (H' : forall w s, In (w, s) ws -> 0 <= w /\ -1 < s < 1) by (intros; apply H; now right).
    assert (Hge : 0 <= Rsum (map fst ws)).
    { apply Rsum_ge0. intros x Hx. apply in_map_iff in Hx as ((a & b) & <- & Hin). apply (H' a b Hin). }
    destruct (Req_dec (Rsum (map fst ws)) 0) as [Hz|Hz].
    - assert (Z : Rsum (map (fun p => fst p * snd p) ws) = 0).
      { clear - H' Hz. induction ws as [|[a b] ws IH]; [reflexivity|].
        change (a + Rsum (map fst ws) = 0) in Hz. change (a * b + Rsum (map (fun p => fst p * snd p) ws) = 0).
        assert (0 <= Rsum (map fst ws)).
        { apply Rsum_ge0. intros x Hx. apply in_map_iff in Hx as ((a' & b') & <- & Hin). apply (H' a' b'). now right. }
        destruct (H' a b (or_introl eq_refl)). assert (a = 0) by lra. subst. rewrite IH; [lra| |lra]. intros. apply H'. now right. }
      rewrite Z, Hz in *. nra.
    - specialize (IH H' ltac:(lra)). nra. }
  split; apply Rmult_lt_reg_r with (Rsum (map fst ws)); try lra; unfold Rdiv; rewrite Rmult_assoc, Rinv_l by lra; lra.
Qed.

(** ** The best number of clusters *)
Lemma best_of_choice (score : nat -> res (list (list R) * R)) mc k d b : best_of score mc = Ok (k, d, b) ->
  (k = 0%nat /\ b = 0 \/ (2 <= k <= mc)%nat /\ score k = Ok (d, b) /\ 0 < b) /\
  (forall c, (2 <= c <= mc)%nat -> exists d' v, score c = Ok (d', v) /\ v <= b /\ ((c < k)%nat -> v < b)).
Proof.
  unfold best_of.
  assert (G : forall n m acc r, let st := fun acc : nat * list (list R) * R => let '(k, d, b) := acc in
      (k = 0%nat /\ b = 0 \/ (2 <= k < m)%nat /\ score k = Ok (d, b) /\ 0 < b) /\
      (forall c, (2 <= c < m)%nat -> exists d' v, score c = Ok (d', v) /\ v <= b /\ ((c < k)%nat -> v < b)) in
    let st' := fun acc : nat * list (list R) * R => let '(k, d, b) := acc in
      (k = 0%nat /\ b = 0 \/ (2 <= k < m + n)%nat /\ score k = Ok (d, b) /\ 0 < b) /\
      (forall c, (2 <= c < m + n)%nat -> exists d' v, score c = Ok (d', v) /\ v <= b /\ ((c < k)%nat -> v < b)) in
    (2 <= m)%nat -> st acc ->
    rfold (fun acc n_clusters =>
    ('(desc, v) <- score n_clusters ;;
     let '(_, _, best) := acc in
     Ok (if nltb best v then (n_clusters, desc, v) else acc))%res) (seq m n) acc = Ok r -> st' r).
  { induction n as [|n IH]; intros m acc r; cbv zeta.
    - cbn [seq rfold]. intros _ H E. injection E as <-. destruct acc as [[k0 d0] b0]. rewrite Nat.add_0_r. exact H.
    - cbn [seq rfold]. intros Hm H E. destruct (score m) as [[d1 v]|] eqn:Es; [|discriminate]. cbn [rbind] in E.
      destruct acc as [[k0 d0] b0]. cbn [rbind] in E.
      replace (m + S n)%nat with (S m + n)%nat by lia.
      refine (IH (S m) _ r _ _ E); [lia|]. destruct H as [H1 H2]. rnum. destruct (Rltb_spec b0 v) as [Hv|Hv].
      + assert (0 <= b0) by (destruct H1 as [[_ ->]|(_ & _ & ?)]; lra). split.
        * right. split; [lia|]. split; [exact Es|lra].
        * intros c Hc. destruct (Nat.eq_dec c m) as [->|Hn]; [exists d1, v; split; [exact Es|split; [lra|lia]]|].
          destruct (H2 c ltac:(lia)) as (d' & v' & A & B & C). exists d', v'. split; [exact A|]. split; [lra|]. intros; lra.
      + split.
        * destruct H1 as [H1|(A & B & C)]; [left; exact H1|right; split; [lia|auto]].
        * intros c Hc. destruct (Nat.eq_dec c m) as [->|Hn].
          -- exists d1, v. split; [exact Es|]. split; [lra|]. intros Hk. destruct H1 as [[-> _]|(? & _)]; lia.
          -- apply H2. lia. }
  intros E. specialize (G (mc - 1)%nat 2%nat (0%nat, [], n0) (k, d, b)). cbv zeta in G.
  destruct G as [G1 G2]; [lia| |exact E|].
  - split; [left; split; reflexivity|]. intros c Hc. lia.
  - split.
    + destruct G1 as [G1|(A & B & C)]; [left; exact G1|right; split; [lia|auto]].
    + intros c Hc. apply G2. lia.
Qed.
