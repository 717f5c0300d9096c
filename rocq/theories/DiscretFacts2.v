(** DiscretFacts2.v — the three-cluster fallback and the whole discretization over
    the reals. *)
From Coq Require Import Reals Lra.
From Verif Require Import Base BaseFacts Num Spec RealFacts Functions LearnUtils LearnSpec LearnFacts
  Cmeans CmeansFacts RlCmeans RlFacts Discret DiscretFacts.
Local Open Scope R_scope.

(** ** The order of the reals *)
Lemma R_total_order : total_order (A := R) nleb neqb.
Proof.
  split; intros; rnum.
  - destruct (Reqb_spec x y); split; congruence.
  - destruct (Rle_or_lt x y); [left|right]; [destruct (Rleb_spec x y)|destruct (Rleb_spec y x)]; auto; lra.
  - destruct (Rleb_spec x y), (Rleb_spec y z), (Rleb_spec x z); auto; lra || discriminate.
  - destruct (Rleb_spec x y), (Rleb_spec y x); try discriminate. lra.
Qed.
Lemma strictly_sorted_increasing l : strictly_sorted (A := R) nleb l <-> increasing l.
Proof.
  assert (E : forall x y : R, (nleb x y = true /\ x <> y) <-> x < y).
  { intros. rnum. destruct (Rleb_spec x y) as [H|H]; split.
    - intros [_ H1]. lra.
    - intros H1. split; [reflexivity|lra].
    - intros [H1 _]. discriminate.
    - lra. }
  split; induction 1 as [|a l Hs IH Hf]; constructor; auto;
    rewrite Forall_forall in *; intros y Hy; apply E; auto.
Qed.

(** ** Making the list odd *)
Lemma increasing_app l1 l2 : increasing (l1 ++ l2) <->
  increasing l1 /\ increasing l2 /\ forall x y, In x l1 -> In y l2 -> x < y.
Proof.
  unfold increasing. induction l1 as [|a l1 IH]; simpl.
  - split; [intros; repeat split; auto; [constructor|tauto]|tauto].
  - split.
    + intros H. inversion H; subst. apply IH in H2 as (A & B & C). rewrite Forall_app in H3. destruct H3 as [H3 H4].
      split; [constructor; auto|]. split; [auto|]. intros x y [<-|Hx] Hy; [rewrite Forall_forall in H4; auto|auto].
    + intros (A & B & C). inversion A; subst. constructor; [apply IH; auto|].
      rewrite Forall_app. split; [auto|]. apply Forall_forall. auto.
Qed.
Lemma middle_between a b : a < b -> a < middle_value a b < b.
Proof. intros H. unfold middle_value. rnum. rewrite Rabs_left by lra. simpl. lra. Qed.
Lemma make_odd_increasing l vals : (2 <= length l)%nat -> increasing l -> make_odd l = Ok vals ->
  increasing vals /\ incl l vals /\ (length vals <= S (length l))%nat /\
  (exists a b, hd_error vals = Some a /\ hd_error l = Some a /\ hd_error (rev vals) = Some b /\ hd_error (rev l) = Some b).
Proof.
  intros Hl Hs E. destruct (make_odd_spec l Hl) as (v & Ev & H).
  rewrite E in Ev. apply (f_equal (fun r => match r with Ok x => x | Err _ => [] end)) in Ev. cbv beta iota in Ev. subst v.
  destruct H as [[_ ->]|(pre & a & b & post & E1 & E2 & ->)].
  - split; [auto|]. split; [apply incl_refl|]. split; [lia|].
    destruct l as [|a l]; [simpl in Hl; lia|]. exists a.
    destruct (rev (a :: l)) as [|b r] eqn:Er; [apply (f_equal (@length R)) in Er; rewrite rev_length in Er; simpl in Er; lia|].
    exists b. auto.
  - subst l. apply increasing_app in Hs as (A & B & C).
    assert (Hab : a < b). { inversion B; subst. inversion H2; auto. }
    pose proof (middle_between a b Hab) as Hm.
    assert (Hb : increasing (b :: post)) by (inversion B; auto).
    assert (Hbp : Forall (Rlt b) post) by (inversion Hb; auto).
    split; [|split; [|split]].
    + apply increasing_app. split; [auto|]. split.
      * constructor; [constructor; [auto|]|].
        -- constructor; [lra|]. eapply Forall_impl; [|exact Hbp]. intros; simpl in *; lra.
        -- constructor; [lra|]. constructor; [lra|]. eapply Forall_impl; [|exact Hbp]. intros; simpl in *; lra.
      * intros x y Hx [<-|[<-|Hy]].
        -- apply C; [auto|left; auto].
        -- assert (x < a) by (apply C; [auto|left; auto]). lra.
        -- apply C; [auto|right; auto].
    + intros x. rewrite !in_app_iff. simpl. tauto.
    + rewrite !app_length. simpl. lia.
    + assert (R1 : forall z : list R, rev (pre ++ z ++ b :: post) = rev post ++ b :: rev z ++ rev pre).
      { intros z. rewrite !rev_app_distr. simpl. rewrite <- !app_assoc. reflexivity. }
      exists (hd a pre), (hd b (rev post)).
      change (pre ++ a :: middle_value a b :: b :: post) with (pre ++ [a; middle_value a b] ++ b :: post).
      change (pre ++ a :: b :: post) with (pre ++ [a] ++ b :: post). rewrite !R1.
      destruct pre, (rev post); simpl; auto.
Qed.

(** ** The memberships *)
Lemma three_row_bounds k i x y z : (1 <= k)%nat -> (i <= 2 * k)%nat -> three_row (F := R) k i = (x, y, z) ->
  0 <= x <= 1 /\ 0 <= y <= 1 /\ 0 <= z <= 1 /\ x + y + z <= 1.
Proof.
  intros Hk Hi E. unfold three_row in E.
  assert (U : forall j, (j <= k)%nat -> 0 <= INR j / INR (k + 1) <= 1).
  { intros j Hj. assert (0 < INR (k + 1)) by (apply lt_0_INR; lia).
    assert (INR j <= INR (k + 1)) by (apply le_INR; lia). pose proof (pos_INR j).
    split; [apply Rle_mult_inv_pos; auto|]. apply Rmult_le_reg_r with (INR (k + 1)); [auto|]. unfold Rdiv. field_simplify; lra. }
  rewrite !nat2F_INR in E. 
  destruct (Nat.eqb_spec i 0); [inversion E; rnum; lra|].
  destruct (Nat.eqb_spec i (2 * k)); [inversion E; rnum; lra|].
  destruct (Nat.eqb_spec i (k + 1)); [inversion E; rnum; lra|].
  destruct (Nat.eqb_spec i k); [specialize (U k ltac:(lia)); inversion E; rnum; lra|].
  destruct (Nat.ltb_spec i k).
  - specialize (U i ltac:(lia)). inversion E. rnum. lra.
  - specialize (U (2 * k - i)%nat ltac:(lia)). generalize dependent (2 * k - i)%nat. intros j E U. inversion E. rnum. lra.
Qed.
Lemma create_three_real l : (2 <= length l)%nat -> increasing l ->
  exists vals d0 d1 d2, create_three_clusters l = Ok (vals, [d0; d1; d2]) /\
    increasing vals /\ incl l vals /\ (length vals <= S (length l))%nat /\ Nat.odd (length vals) = true /\
    memberships 3 (length vals) [d0; d1; d2] /\
    (forall j, (j < length vals)%nat -> Rsum (column_of [d0; d1; d2] j) <= 1) /\
    column_of [d0; d1; d2] 0 = [1; 0; 0] /\ column_of [d0; d1; d2] (length vals - 1) = [0; 0; 1] /\
    ((4 <= length vals)%nat -> column_of [d0; d1; d2] (Nat.div2 (length vals) + 1) = [0; 1; 0]) /\
    let k := Nat.div2 (length vals) in
    column_of [d0; d1; d2] k = [0; INR k / INR (k + 1); 0].
Proof.
  intros Hl Hs. destruct (create_three_spec l Hl) as (vals & k & Em & Hk & Lk & E).
  cbv zeta in E. set (m := map (three_row k) (seq 0 (2 * k + 1))) in *.
  exists vals, (map (fun c => fst (fst c)) m), (map (fun c => snd (fst c)) m), (map snd m).
  destruct (make_odd_increasing l vals Hl Hs Em) as (A1 & A2 & A3 & _).
  assert (Lm : length m = (2 * k + 1)%nat) by (unfold m; now rewrite map_length, seq_length).
  assert (Hm : forall j, (j < 2 * k + 1)%nat -> nth_error m j = Some (three_row k j)).
  { intros j Hj. unfold m. rewrite nth_error_map, (nth_error_nth' _ 0%nat) by (rewrite seq_length; lia).
    rewrite seq_nth by lia. reflexivity. }
  assert (Hcol : forall j, (j < 2 * k + 1)%nat ->
    column_of [map (fun c => fst (fst c)) m; map (fun c => snd (fst c)) m; map snd m] j
    = let '(x, y, z) := three_row k j in [x; y; z]).
  { intros j Hj. unfold column_of. cbn [flat_map]. rewrite !nth_error_map, (Hm j Hj).
    destruct (three_row k j) as [[x y] z]. reflexivity. }
  assert (Hdiv : Nat.div2 (2 * k + 1) = k) by (rewrite Nat.add_1_r; apply Nat.div2_succ_double).
  split; [exact E|]. split; [auto|]. split; [auto|]. split; [auto|].
  split; [rewrite Lk; apply Nat.odd_spec; exists k; lia|]. rewrite Lk.
  assert (Hsh : shape 3 (2 * k + 1) [map (fun c => fst (fst c)) m; map (fun c => snd (fst c)) m; map snd m]).
  { split; [reflexivity|]. repeat constructor; now rewrite map_length. }
  split; [split; [exact Hsh|]|].
  { intros i j x Hx. assert (Hj : (j < 2 * k + 1)%nat).
    { unfold entry in Hx. destruct (nth_error _ i) as [row|] eqn:Er; [|discriminate].
      destruct Hsh as [_ Hrow]. rewrite Forall_forall in Hrow. rewrite <- (Hrow row (nth_error_In _ _ Er)).
      apply nth_error_Some. congruence. }
    apply (entry_column _ _ _ i j x Hsh Hj) in Hx. rewrite Hcol in Hx by auto.
    destruct (three_row k j) as [[a b] c] eqn:Et. destruct (three_row_bounds k j a b c Hk ltac:(lia) Et) as (B1 & B2 & B3 & _).
    apply nth_error_In in Hx. simpl in Hx. destruct Hx as [<-|[<-|[<-|[]]]]; auto. }
  split; [|split; [|split; [|split]]].
  - intros j Hj. rewrite Hcol by auto. destruct (three_row k j) as [[a b] c] eqn:Et.
    destruct (three_row_bounds k j a b c Hk ltac:(lia) Et) as (_ & _ & _ & B). simpl. lra.
  - rewrite Hcol by lia. reflexivity.
  - rewrite Hcol by lia. replace (2 * k + 1 - 1)%nat with (2 * k)%nat by lia. unfold three_row.
    destruct (Nat.eqb_spec (2 * k) 0); [lia|]. rewrite Nat.eqb_refl. reflexivity.
  - intros H4. rewrite Hdiv, Hcol by lia. unfold three_row.
    destruct (Nat.eqb_spec (k + 1) 0); [lia|]. destruct (Nat.eqb_spec (k + 1) (2 * k)); [lia|]. rewrite Nat.eqb_refl. reflexivity.
  - cbv zeta. rewrite Hdiv, Hcol by lia. unfold three_row.
    destruct (Nat.eqb_spec k 0); [lia|]. destruct (Nat.eqb_spec k (2 * k)); [lia|].
    destruct (Nat.eqb_spec k (k + 1)); [lia|]. rewrite Nat.eqb_refl, !nat2F_INR. reflexivity.
Qed.

(** ** The estimators *)
Definition rand_ok (n mc : nat) (rand : nat -> list (list R)) : Prop :=
  forall c, (2 <= c <= mc)%nat -> shape c n (rand c).
Lemma est_cmeans_ok data c maxiter init rand : (0 < c)%nat -> data <> [] -> (2 <= maxiter)%Z ->
  shape c (length data) (match init with Some u0 => u0 | None => rand c end) ->
  exists u cntr, est_cmeans data c maxiter init rand = Ok (u, cntr) /\ fuzzy_partition c (length data) u.
Proof.
  intros Hc Hd Hm Hs. unfold est_cmeans, fuzzy_cmeans.
  destruct (cmeans_real data c (nlit 5 2) (nlit 1 10000) maxiter init (rand c)) as (cntr & u & u0 & d & jm & p & fpc & prev & E & H & _); auto.
  { unfold nlit. rnum. lra. }
  rewrite E. cbn [rbind]. exists u, cntr. split; [reflexivity|]. apply H.
Qed.
Definition tops_in (c : nat) (t : top2 (F := R)) : Prop := (t_mpos t < c)%nat /\ (t_spos t < c)%nat.
Lemma top2_ok (memb : list R) : (2 <= length memb)%nat -> exists t, top2_of memb = Ok t /\ tops_in (length memb) t.
Proof.
  intros H. destruct memb as [|x0 [|x1 r]]; [simpl in H; lia..|]. unfold top2_of, lget. cbn [nth_error rbind].
  eexists. split; [reflexivity|].
  assert (G : forall l t, Forall (fun jx => (fst jx < length (x0 :: x1 :: r))%nat) l ->
    tops_in (length (x0 :: x1 :: r)) t -> tops_in (length (x0 :: x1 :: r)) (fold_left top2_step l t)).
  { induction l as [|[j x] l IH]; intros t Hf Ht; [exact Ht|]. inversion Hf; subst. cbn [fold_left]. apply IH; [auto|].
    cbn [fst] in H2. destruct Ht as [T1 T2]. unfold top2_step.
    destruct (nltb (t_max t) x); [split; auto|]. destruct (_ && _); split; auto. }
  apply G.
  - apply Forall_forall. intros [j x] Hj. apply in_combine_l in Hj. apply in_seq in Hj. simpl in *. lia.
  - destruct (nltb x1 x0); split; simpl; lia.
Qed.
Lemma sil_point_ok data desc c i : (2 <= c)%nat -> shape c (length data) desc -> (i < length data)%nat ->
  exists r, sil_point data desc i = Ok r.
Proof.
  intros Hc Hs Hi. unfold sil_point.
  assert (Lc : length (mcol desc i) = c) by (rewrite mcol_length; apply Hs).
  destruct (top2_ok (mcol desc i) ltac:(lia)) as (t & Et & T1 & T2). rewrite Et. cbn [rbind]. rewrite Lc in *.
  destruct Hs as [Hl _].
  unfold lget. destruct (nth_error data i) eqn:E1; [|apply nth_error_None in E1; lia]. cbn [rbind].
  destruct (nth_error desc (t_mpos t)) eqn:E2; [|apply nth_error_None in E2; lia]. cbn [rbind].
  destruct (nth_error desc (t_spos t)) eqn:E3; [|apply nth_error_None in E3; lia]. cbn [rbind]. eauto.
Qed.
Lemma rmap_seq_ok {A B} (f : A -> res B) l : (forall x, In x l -> exists y, f x = Ok y) -> exists ys, rmap f l = Ok ys.
Proof.
  induction l as [|a l IH]; intros H; [exists []; reflexivity|]. cbn [rmap].
  destruct (H a (or_introl eq_refl)) as (y & ->). destruct IH as (ys & ->); [intros; apply H; right; auto|]. eexists; reflexivity.
Qed.
Lemma sil_score_ok data maxiter rand c : (2 <= c)%nat -> data <> [] -> (2 <= maxiter)%Z -> shape c (length data) (rand c) ->
  exists d v, sil_score data maxiter rand c = Ok (d, v) /\ fuzzy_partition c (length data) d.
Proof.
  intros Hc Hd Hm Hr. unfold sil_score.
  destruct (est_cmeans_ok data c maxiter None rand ltac:(lia) Hd Hm Hr) as (u & cn & E & P). rewrite E. cbn [rbind].
  destruct (rmap_seq_ok (sil_point data u) (seq 0 (length data))) as (ws & Ew).
  { intros i Hi. apply in_seq in Hi. apply sil_point_ok with (c := c); [auto|apply P|lia]. }
  rewrite Ew. cbn [rbind]. eauto.
Qed.
Lemma cfe_score_ok data maxiter rand c : (2 <= c)%nat -> data <> [] -> (2 <= maxiter)%Z -> shape c (length data) (rand c) ->
  exists d v, cfe_score data maxiter rand c = Ok (d, v) /\ fuzzy_partition c (length data) d.
Proof.
  intros Hc Hd Hm Hr. unfold cfe_score.
  destruct (est_cmeans_ok data c maxiter None rand ltac:(lia) Hd Hm Hr) as (u & cn & E & P). rewrite E. cbn [rbind].
  cbv zeta. eauto.
Qed.
Lemma best_of_ok (P : nat -> list (list R) -> Prop) score mc :
  (forall c, (2 <= c <= mc)%nat -> exists d v, score c = Ok (d, v) /\ P c d) ->
  exists k d b, best_of score mc = Ok (k, d, b) /\ (k = 0%nat \/ (2 <= k <= mc)%nat /\ P k d).
Proof.
  intros H. unfold best_of.
  assert (G : forall l acc, (forall c, In c l -> (2 <= c <= mc)%nat) ->
    (let '(k, d, b) := acc in k = 0%nat \/ (2 <= k <= mc)%nat /\ P k d) ->
    exists k d b, rfold (fun acc n_clusters =>
    ('(desc, v) <- score n_clusters ;;
     let '(_, _, best) := acc in
     Ok (if nltb best v then (n_clusters, desc, v) else acc))%res) l acc = Ok (k, d, b) /\ (k = 0%nat \/ (2 <= k <= mc)%nat /\ P k d)).
  { induction l as [|c l IH]; intros [[k0 d0] b0] Hl Ha.
    - exists k0, d0, b0. split; [reflexivity|exact Ha].
    - cbn [rfold]. destruct (H c (Hl c (or_introl eq_refl))) as (d & v & E & Pd). rewrite E. cbn [rbind].
      apply IH; [intros; apply Hl; right; auto|]. destruct (nltb b0 v); [right; split; [apply Hl; left; auto|auto]|exact Ha]. }
  apply G; [|left; reflexivity]. intros c Hc. apply in_seq in Hc. lia.
Qed.
Lemma ones_or_partition mth data mc maxiter fit rand : (2 <= mc < length data)%nat -> (2 <= maxiter)%Z ->
  length fit = length data -> rand_ok (length data) mc rand ->
  exists k d, estimate_clusters data mc mth maxiter fit rand = Ok (k, d) /\
    ((k < 2)%nat \/ (2 <= k <= mc)%nat /\ fuzzy_partition k (length data) d).
Proof.
  intros Hmc Hm Hf Hr. unfold estimate_clusters.
  assert (Hd : data <> []) by (intros ->; simpl in Hmc; lia).
  destruct (Nat.leb_spec (length data) mc); [lia|].
  destruct mth.
  - unfold gap_concentration. destruct (change_points_ok fit mc ltac:(lia)) as (xs & ys & E & _ & Ly & _ & Lx).
    rewrite E. cbn [rbind].
    destruct (Nat.ltb_spec 1 (length ys - 1)) as [Hy|Hy].
    + destruct (Nat.ltb_spec 2 (length ys)) as [_|]; [|lia].
      destruct (est_cmeans_ok data (length ys - 1) maxiter (Some (one_dimension_distance data (removelast ys))) rand)
        as (u & cn & E2 & P); auto; try lia.
      { assert (Lr : length (removelast ys) = (length ys - 1)%nat).
        { rewrite removelast_firstn_len, firstn_length. lia. }
        rewrite <- Lr. unfold one_dimension_distance. split; [now rewrite map_length|].
        apply Forall_forall. intros r Hin. apply in_map_iff in Hin as (x & <- & _). now rewrite map_length. }
      rewrite E2. cbn [rbind]. do 2 eexists. split; [reflexivity|]. right. split; [lia|auto].
    + do 2 eexists. split; [reflexivity|]. left. lia.
  - unfold fuzzy_silhouette.
    destruct (best_of_ok (fun c d => fuzzy_partition c (length data) d) (sil_score data maxiter rand) mc) as (k & d & b & E & H1).
    { intros c Hc. apply sil_score_ok; auto; lia. }
    rewrite E. cbn [rbind]. do 2 eexists. split; [reflexivity|]. destruct H1 as [->|H1]; [left; lia|right; auto].
  - unfold cfe.
    destruct (best_of_ok (fun c d => fuzzy_partition c (length data) d) (cfe_score data maxiter rand) mc) as (k & d & b & E & H1).
    { intros c Hc. apply cfe_score_ok; auto; lia. }
    rewrite E. cbn [rbind]. do 2 eexists. split; [reflexivity|]. destruct H1 as [->|H1]; [left; lia|right; auto].
Qed.
Lemma transpose_partition n c u : row_partition n c u -> fuzzy_partition c n (transpose c u).
Proof.
  intros ((Lu & Hc) & Hr).
  assert (Hsh : shape c n (transpose c u)) by (rewrite <- Lu; apply transpose_shape).
  assert (Hcol : forall j row, nth_error u j = Some row -> column_of (transpose c u) j = row).
  { intros j row Hj. apply column_of_transpose; [split; [reflexivity|exact Hc]|exact Hj]. }
  split; [exact Hsh|]. rewrite Forall_forall in Hr. split.
  - intros i j x Hx. assert (Hj : (j < n)%nat) by (eapply entry_lt; eauto).
    apply (entry_column _ c n i j x Hsh Hj) in Hx.
    destruct (nth_error u j) as [row|] eqn:Er; [|apply nth_error_None in Er; lia].
    rewrite (Hcol j row Er) in Hx. destruct (Hr row (nth_error_In _ _ Er)) as [Hb _]. rewrite Forall_forall in Hb.
    apply Hb. eapply nth_error_In; eauto.
  - intros j Hj. destruct (nth_error u j) as [row|] eqn:Er; [|apply nth_error_None in Er; lia].
    rewrite (Hcol j row Er). apply (Hr row (nth_error_In _ _ Er)).
Qed.

(** ** fuzzy_feature_discretization *)
Lemma increasing_same l1 l2 : increasing l1 -> increasing l2 -> (forall x, In x l1 <-> In x l2) -> l1 = l2.
Proof.
  intros H1. revert l2. induction H1 as [|a l1 Hs IH Hf]; intros l2 H2 Hx.
  - destruct l2 as [|b l2]; [auto|]. exfalso. apply (Hx b). left; auto.
  - destruct l2 as [|b l2]; [exfalso; apply (Hx a); left; auto|].
    inversion H2 as [|b' l2' Hs2 Hf2]; subst. rewrite Forall_forall in *.
    assert (Eab : a = b).
    { destruct (proj1 (Hx a) (or_introl eq_refl)) as [E|E]; [auto|].
      destruct (proj2 (Hx b) (or_introl eq_refl)) as [E'|E']; [auto|]. specialize (Hf _ E'). specialize (Hf2 _ E). lra. }
    subst b. f_equal. apply IH; [auto|]. intros x. split; intros Hin.
    + destruct (proj1 (Hx x) (or_intror Hin)) as [E|E]; [subst; specialize (Hf _ Hin); lra|auto].
    + destruct (proj2 (Hx x) (or_intror Hin)) as [E|E]; [subst; specialize (Hf2 _ Hin); lra|auto].
Qed.
Lemma distinct_sorted_unique l us : distinct_sorted (A := R) nleb l us -> unique nleb neqb l = us.
Proof.
  intros [U1 U2]. destruct (unique_spec _ _ R_total_order l) as [V1 V2].
  apply increasing_same; [now apply strictly_sorted_increasing..|]. intros x. rewrite U2, V2. tauto.
Qed.
Lemma discretization_few l mc maxiter st att fit rand us :
  distinct_sorted (A := R) nleb l us -> (length us < 10)%nat ->
  fuzzy_feature_discretization l mc maxiter st att fit rand
  = Err (EExc (append "Too few variations for fuzzy clustering on feature: " att)).
Proof.
  intros Hu Hl. unfold fuzzy_feature_discretization.
  rewrite (distinct_sorted_unique l us Hu). destruct (Nat.ltb_spec (length us) 10); [reflexivity|lia].
Qed.
Lemma discretization_unknown l mc maxiter st att fit rand us :
  distinct_sorted (A := R) nleb l us -> (10 <= length us)%nat ->
  ~ In st ["cmeans-gap"; "cmeans-sil"; "cmeans-cfe"; "rl-cmeans"]%string ->
  fuzzy_feature_discretization l mc maxiter st att fit rand
  = Err (EExc (append "Unsupported clustering method: " st)).
Proof.
  intros Hu Hl Hs. unfold fuzzy_feature_discretization.
  rewrite (distinct_sorted_unique l us Hu). destruct (Nat.ltb_spec (length us) 10); [lia|].
  unfold dist_strategy.
  destruct (String.eqb_spec st "cmeans-gap") as [->|_]; [exfalso; apply Hs; simpl; auto|].
  destruct (String.eqb_spec st "cmeans-sil") as [->|_]; [exfalso; apply Hs; simpl; auto|].
  destruct (String.eqb_spec st "cmeans-cfe") as [->|_]; [exfalso; apply Hs; simpl; auto|].
  destruct (String.eqb_spec st "rl-cmeans") as [->|_]; [exfalso; apply Hs; simpl; auto 6|].
  reflexivity.
Qed.
Lemma partition_memberships c n u : fuzzy_partition c n u -> memberships c n u.
Proof. intros (A & B & _). split; [auto|]. intros i j x Hx. specialize (B i j x Hx). lra. Qed.
Lemma discretization_ok l mc maxiter st att fit rand us :
  distinct_sorted (A := R) nleb l us -> (10 <= length us)%nat ->
  In st ["cmeans-gap"; "cmeans-sil"; "cmeans-cfe"; "rl-cmeans"]%string ->
  (2 <= mc < 10)%nat -> (2 <= maxiter)%Z -> length fit = length us -> rand_ok (length us) mc rand ->
  exists nc vals desc, fuzzy_feature_discretization l mc maxiter st att fit rand = Ok (nc, vals, desc) /\
    (2 <= nc)%nat /\ (st <> "rl-cmeans"%string -> nc <= Nat.max 3 mc)%nat /\
    memberships nc (length vals) desc /\
    (vals = us /\ fuzzy_partition nc (length us) desc \/
     nc = 3%nat /\ create_three_clusters us = Ok (vals, desc)).
Proof.
  intros Hu Hl Hs Hmc Hm Hf Hr. unfold fuzzy_feature_discretization.
  rewrite (distinct_sorted_unique l us Hu). destruct (Nat.ltb_spec (length us) 10); [lia|].
  assert (G : exists k d, match dist_strategy st with
       | Some (Some m) => estimate_clusters us mc m maxiter fit rand
       | Some None =>
           ('(_, u, alpha, _) <- rl_fuzzy_cmeans us (nlit 1 2000) maxiter ;;
           match u with
           | None => Err EType
           | Some u => Ok (length alpha, transpose (length alpha) u)
           end)%res
       | None => Err (EExc (append "Unsupported clustering method: " st))
       end = Ok (k, d) /\
    ((k < 2)%nat \/ (2 <= k)%nat /\ (st <> "rl-cmeans"%string -> k <= mc)%nat /\ fuzzy_partition k (length us) d)).
  { assert (GE : forall m, exists k d, estimate_clusters us mc m maxiter fit rand = Ok (k, d) /\
      ((k < 2)%nat \/ (2 <= k)%nat /\ (st <> "rl-cmeans"%string -> k <= mc)%nat /\ fuzzy_partition k (length us) d)).
    { intros m. destruct (ones_or_partition m us mc maxiter fit rand ltac:(lia) Hm Hf Hr) as (k & d & E & H1).
      exists k, d. split; [exact E|]. destruct H1 as [H1|[H1 H2]]; [left; auto|right]. split; [lia|]. split; [lia|auto]. }
    destruct Hs as [<-|[<-|[<-|[<-|[]]]]]; [apply (GE MGap)|apply (GE MSil)|apply (GE MCfe)|].
    change (dist_strategy "rl-cmeans") with (Some (@None method)). cbv iota.
    destruct (rl_fuzzy_cmeans_ok us (nlit 1 2000) maxiter ltac:(lia) Hm) as (v & u & alpha & t & E & (_ & _ & _ & P & _) & _).
    rewrite E. cbn [rbind]. do 2 eexists. split; [reflexivity|].
    destruct (Nat.lt_ge_cases (length alpha) 2); [left; auto|right].
    split; [lia|]. split; [congruence|]. now apply transpose_partition. }
  destruct G as (k & d & E & HP). rewrite E. cbn [rbind].
  destruct (Nat.ltb_spec k 2) as [Hk|Hk].
  - destruct (create_three_real us) as (vals & d0 & d1 & d2 & E3 & _ & _ & _ & _ & M & _); [lia| |].
    { apply strictly_sorted_increasing. apply Hu. }
    rewrite E3. cbn [rbind]. do 3 eexists. split; [reflexivity|]. split; [lia|]. split; [lia|]. split; [exact M|]. right. auto.
  - destruct HP as [HP|(_ & H1 & H2)]; [lia|]. do 3 eexists. split; [reflexivity|]. split; [auto|].
    split; [intros Hn; specialize (H1 Hn); lia|]. split; [now apply partition_memberships|]. left. auto.
Qed.
