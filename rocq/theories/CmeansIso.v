(** CmeansIso.v — clustering moved or rotated data: affine maps that preserve
    distances commute with the algorithms, over the reals. *)
From Coq Require Import Reals Lra.
From Verif Require Import Base BaseFacts Num Spec RealFacts Functions LearnUtils LearnSpec LearnFacts Cmeans CmeansFacts
  RlCmeans RlFacts ClusterSpec CmeansN CmeansNFacts RlNFacts CmeansDescent CmeansDescent2 CmeansDescent3.
Local Open Scope R_scope.

Section Iso.
Variables (k k' : nat) (a : list (list R)) (t : list R).
Hypothesis Ha : shape k' k a.
Hypothesis Ht : length t = k'.
Let T := affine a t.
Hypothesis HT : isometric k T.

Lemma affine_length x : length (T x) = k'.
Proof. unfold T, affine. destruct Ha as [Ha1 _]. rewrite map_length, combine_length. lia. Qed.
Lemma affine_nth x s : (s < k')%nat -> nth s (T x) 0 = dot (nth s a []) x + nth s t 0.
Proof.
  intros Hs. unfold T, affine. destruct Ha as [Ha1 _].
  set (g := fun p : list R * R => dot (fst p) x + snd p).
  rewrite (nth_indep _ 0 (g ([], 0))) by (rewrite map_length, combine_length; lia).
  rewrite map_nth, combine_nth by congruence. reflexivity.
Qed.
Lemma affine_shape data n : shape n k data -> shape n k' (map T data).
Proof.
  intros [H _]. split; [now rewrite map_length|]. apply Forall_forall. intros y Hy. apply in_map_iff in Hy as (x & <- & _).
  apply affine_length.
Qed.
Lemma row_length s : (s < k')%nat -> length (nth s a []) = k.
Proof. intros Hs. destruct Ha as [Ha1 Ha2]. rewrite Forall_forall in Ha2. apply Ha2, nth_In. lia. Qed.
Lemma sum_shift c (r xs : list R) : length r = length xs ->
  Rsum (zip_with Rmult r (map (fun x => x + c) xs)) = Rsum (zip_with Rmult r xs) + Rsum r * c.
Proof.
  revert xs. induction r as [|w r IH]; intros [|x xs] H; try discriminate; [simpl; lra|].
  cbn [map]. rewrite !zip_cons. cbn [Rsum fold_right]. fold (Rsum r) (Rsum (zip_with Rmult r xs)).
  change (fold_right Rplus 0 (zip_with Rmult r (map (fun x => x + c) xs))) with (Rsum (zip_with Rmult r (map (fun x => x + c) xs))).
  rewrite IH by (simpl in H; lia). ring.
Qed.
Lemma center_affine data r : data <> [] -> shape (length data) k data -> length r = length data -> 0 < Rsum r ->
  centerN (map T data) r = T (centerN data r).
Proof.
  intros Hne Hd Hr HS.
  assert (Hne' : map T data <> []) by (intros Q; apply map_eq_nil in Q; congruence).
  assert (Hd' : shape (length (map T data)) k' (map T data)) by (apply affine_shape; rewrite map_length; auto).
  apply nth_eq.
  - rewrite (center_length k') by auto. now rewrite affine_length.
  - intros s Hs. rewrite (center_length k') in Hs by auto. rewrite affine_nth by auto.
    rewrite (dot_center _ k) by (auto using row_length).
    rewrite (center_coords k') by auto.
    set (g := fun s => / Rsum r * Rsum (zip_with Rmult r (mcol (map T data) s))).
    rewrite (nth_indep _ 0 (g 0%nat)) by (rewrite map_length, seq_length; auto).
    rewrite map_nth, seq_nth by auto. cbn [Nat.add]. unfold g.
    assert (E : mcol (map T data) s = map (fun x => x + nth s t 0) (map (dot (nth s a [])) data)).
    { unfold mcol. rewrite !map_map. apply map_ext. intros x. change (nth s (T x) n0) with (nth s (T x) 0).
      now apply affine_nth. }
    rewrite E, sum_shift by now rewrite map_length. field. lra.
Qed.
Lemma pdist_affine x y : length x = k -> length y = k -> pdist (T x) (T y) = pdist x y.
Proof. intros. rewrite !pdist_euclid. now apply HT. Qed.
Lemma gap2_affine x y : length x = k -> length y = k -> gap2 (T x) (T y) = gap2 x y.
Proof. intros. rewrite <- !euclid_sqr. now rewrite HT. Qed.

(** ** c-means *)
Lemma cmeans0N_affine data u m c : data <> [] -> shape (length data) k data -> shape c (length data) u ->
  cmeans0N (map T data) u m = ('(cntr, u', j, d) <- cmeans0N data u m ;; Ok (map T cntr, u', j, d))%res.
Proof.
  intros Hne Hd Hu. unfold cmeans0N.
  change (map (map (fun x => npow x m)) (map (map (fun x => fmax x neps)) (normalize_columns u))) with (umN u m).
  pose proof (umN_shape u m c _ Hu) as SW.
  assert (PW : forall r, In r (umN u m) -> length r = length data /\ 0 < Rsum r).
  { intros r Hr. destruct SW as [_ H]. rewrite Forall_forall in H. split; [auto|]. apply Rsum_pos; [|eapply umN_pos; eauto].
    specialize (H r Hr). destruct data; [congruence|]. destruct r; discriminate. }
  assert (E : map (centerN (map T data)) (umN u m) = map T (map (centerN data) (umN u m))).
  { rewrite map_map. apply map_ext_in. intros r Hr. destruct (PW r Hr). now apply center_affine. }
  rewrite E.
  assert (E2 : distancesN (map T data) (map T (map (centerN data) (umN u m))) = distancesN data (map (centerN data) (umN u m))).
  { unfold distancesN. rewrite (map_map T). apply map_ext_in. intros ct Hct. rewrite map_map. apply map_ext_in.
    intros x Hx. apply pdist_affine.
    - destruct Hd as [_ H]. rewrite Forall_forall in H. auto.
    - apply in_map_iff in Hct as (r & <- & _). now apply center_length. }
  rewrite E2. destruct (pdiv (nofZ (-2)) (nsub m n1)) as [e|x]; [|reflexivity]. cbn [rbind].
  destruct (normalize_power_columns _ e); reflexivity.
Qed.
Definition last_affine (l : option (list (list R) * list (list R))) : option (list (list R) * list (list R)) :=
  match l with Some (c, d) => Some (map T c, d) | None => None end.
Lemma cmeans_loopN_affine kk : forall data m err last u jm p c, data <> [] -> shape (length data) k data ->
  shape c (length data) u ->
  cmeans_loopN kk (map T data) m err (last_affine last) u jm p =
  ('(l, u', jm', p') <- cmeans_loopN kk data m err last u jm p ;; Ok (last_affine l, u', jm', p'))%res.
Proof.
  induction kk as [|kk IH]; intros data m err last u jm p c Hne Hd Hu; [reflexivity|].
  cbn [cmeans_loopN]. rewrite (cmeans0N_affine data u m c) by auto.
  destruct (cmeans0N data u m) as [[[[cn u1] j] d]|e] eqn:E; [|reflexivity]. cbn [rbind].
  destruct (nltb (mdist u1 u) err); [reflexivity|]. apply (IH data m err (Some (cn, d)) u1 _ _ c); auto.
  apply (cmeans0N_shape _ _ _ _ _ _ _ c _ k E Hu Hd (nonempty_length data Hne)).
Qed.
Lemma cmeansN_affine data c m err maxiter init rand : data <> [] -> shape (length data) k data ->
  cmeansN (map T data) c m err maxiter init rand =
  ('(cntr, u, u0, d, jm, p, fpc) <- cmeansN data c m err maxiter init rand ;; Ok (map T cntr, u, u0, d, jm, p, fpc))%res.
Proof.
  intros Hne Hd. unfold cmeansN. rewrite map_length.
  destruct (cmeans_start c (length data) _) as [us|e] eqn:Es; [|reflexivity]. cbn [rbind].
  apply cmeans_start_shape in Es.
  rewrite (cmeans_loopN_affine _ data m err None us [] 0 c Hne Hd Es).
  destruct (cmeans_loopN _ data m err None us [] 0) as [[[[l u] jm] p]|e]; [|reflexivity]. cbn [rbind].
  destruct (fp_coeff u); [|reflexivity]. cbn [rbind]. destruct l as [[cn d]|]; reflexivity.
Qed.

(** ** Robust c-means *)
Lemma rmap_map' {A B C} (f : B -> res C) (g : A -> B) l : rmap f (map g l) = rmap (fun a => f (g a)) l.
Proof. induction l as [|x l IH]; [reflexivity|]. cbn [map rmap]. now rewrite IH. Qed.
Lemma rmap_ext_in {A B} (f g : A -> res B) l : (forall a, In a l -> f a = g a) -> rmap f l = rmap g l.
Proof.
  induction l as [|x l IH]; intros H; [reflexivity|]. cbn [rmap]. rewrite H by (simpl; auto).
  rewrite IH by (intros; apply H; simpl; auto). reflexivity.
Qed.
Lemma combine_map_l {A B C} (f : A -> B) (v : list A) (al : list C) :
  combine (map f v) al = map (fun p => (f (fst p), snd p)) (combine v al).
Proof. revert al. induction v as [|x v IH]; intros [|y al]; try reflexivity. cbn. f_equal. apply IH. Qed.
Lemma compute_uN_affine data v alpha r1 r2 : Forall (fun x => length x = k) data -> Forall (fun x => length x = k) v ->
  compute_uN (map T data) (map T v) alpha r1 r2 = compute_uN data v alpha r1 r2.
Proof.
  intros Hd Hv. unfold compute_uN. rewrite rmap_map'. apply rmap_ext_in. intros x Hx.
  rewrite combine_map_l, rmap_map'. cbn [fst snd].
  replace (rmap (fun p => compute_uN_term (T x) (T (fst p)) (snd p) r1 r2) (combine v alpha))
    with (rmap (fun p => compute_uN_term x (fst p) (snd p) r1 r2) (combine v alpha)); [reflexivity|].
  apply rmap_ext_in. intros [y al] Hin. unfold compute_uN_term. cbn [fst snd]. rewrite pdist_affine; [reflexivity| |].
  - rewrite Forall_forall in Hd. auto.
  - rewrite Forall_forall in Hv. apply Hv. eapply in_combine_l; eauto.
Qed.
Lemma update_vN_affine n data u c : (0 < n)%nat -> shape n k data -> row_partition n c u ->
  update_vN (map T data) u c = map T (update_vN data u c).
Proof.
  intros Hn Hd ((Hu & Hc) & Hrow). unfold update_vN. rewrite map_map. apply map_ext_in. intros s Hs. apply in_seq in Hs.
  rewrite !update_v1_center. destruct Hd as [Hd1 Hd2]. apply center_affine.
  - intros ->. simpl in Hd1. lia.
  - now split.
  - rewrite mcol_length. lia.
  - apply Rsum_pos.
    + intros Q. apply (f_equal (@length R)) in Q. rewrite mcol_length in Q. simpl in Q. lia.
    + apply Forall_forall. intros w Hw. unfold mcol in Hw. apply in_map_iff in Hw as (r & <- & Hr).
      rewrite Forall_forall in Hc, Hrow. destruct (Hrow r Hr) as [H1 _]. rewrite Forall_forall in H1.
      apply H1. apply nth_In. rewrite (Hc r Hr). lia.
Qed.
Lemma mdist_gap2 (x y : list (list R)) : mdist x y = sqrt (Rsum (map (fun p => gap2 (fst p) (snd p)) (combine x y))).
Proof.
  unfold mdist, norm. rewrite nsum_Rsum. change (nsqrt (F := R)) with sqrt. f_equal.
  revert y. induction x as [|r x IH]; intros [|s y]; try reflexivity.
  rewrite zip_cons. cbn [concat combine map]. rewrite map_app, Rsum_app, IH. cbn [Rsum fold_right fst snd]. f_equal.
  unfold gap2, zip_with. rewrite map_map. reflexivity.
Qed.
Lemma mdist_affine x y : Forall (fun x => length x = k) x -> Forall (fun x => length x = k) y ->
  mdist (map T x) (map T y) = mdist x y.
Proof.
  intros Hx Hy. rewrite !mdist_gap2. f_equal. revert y Hy. induction Hx as [|r x Hr Hx IH]; intros [|s y] Hy; try reflexivity.
  apply Forall_cons_iff in Hy as [Hs Hy]. cbn [map combine fst snd Rsum fold_right]. f_equal; [apply gap2_affine; auto|now apply IH].
Qed.
Lemma hull_lengths data v : Forall (in_hull k data) v -> Forall (fun x => length x = k) v.
Proof. apply Forall_impl. intros x [H _]. exact H. Qed.
Lemma rl_loopN_affine kk : forall data err tt r1 r2 r3 v alpha ou, shape (length data) k data ->
  Forall (fun x => length x = k) v -> r2 <> 0 -> length v = length alpha ->
  (2 <= length alpha <= length data)%nat -> shares alpha ->
  rl_loopN kk (map T data) err tt r1 r2 r3 (map T v) alpha ou =
  ('(v', u', a', t') <- rl_loopN kk data err tt r1 r2 r3 v alpha ou ;; Ok (map T v', u', a', t'))%res.
Proof.
  induction kk as [|kk IH]; intros data err tt r1 r2 r3 v alpha ou Hsd Hvk Hr2 Hv Hl Hsh; [reflexivity|].
  cbn [rl_loopN]. rewrite compute_uN_affine by (auto; apply Hsd).
  destruct (compute_uN_ok data v alpha r1 r2 Hr2 Hv) as (u & Eu & Hu); [destruct alpha; [simpl in Hl; lia|discriminate]|].
  rewrite Eu. cbn [rbind].
  set (r1' := nexp (ndiv (nofZ (- tt)) (nofZ 10))). set (r2' := nexp (ndiv (nofZ (- tt)) (nofZ 100))).
  assert (P1 : 0 < r1') by apply exp_pos. assert (P2 : 0 < r2') by apply exp_pos.
  destruct (update_alpha_ok (length data) u alpha r1' r3) as (na & Ena & Lna & Sna); auto; try lia; try lra.
  { apply Hsh. }
  rewrite Ena. cbn [rbind].
  destruct (update_r3_ok (length data) u alpha na) as (r3' & Er3); auto; try lia.
  { apply Hu. }
  rewrite Er3. cbn [rbind].
  destruct (resize_ok (length data) na u) as (a' & u' & Er & La' & Sa' & Hu'); auto; try lia.
  { rewrite Lna. auto. }
  rewrite Er. cbn [rbind].
  generalize (if ((100 <=? tt)%Z && Nat.eqb (length alpha) (length a'))%bool then n0 else r3'). intros r3''.
  rewrite (update_vN_affine (length data)) by (auto; lia).
  assert (Hlv : length (update_vN data u' (length a')) = length a') by (unfold update_vN; now rewrite map_length, seq_length).
  assert (Hhull : Forall (fun x => length x = k) (update_vN data u' (length a'))).
  { apply hull_lengths with data. apply update_vN_hull with (length data); auto; lia. }
  rewrite !map_length, mdist_affine by auto.
  destruct (Nat.eqb (length a') 1 || _)%bool eqn:Estop; [reflexivity|].
  apply orb_false_iff in Estop as [E1 _]. apply Nat.eqb_neq in E1. apply IH; auto; try lia; try lra.
Qed.
Lemma rl_fuzzy_cmeansN_affine data err max_iter : shape (length data) k data -> (2 <= max_iter)%Z ->
  rl_fuzzy_cmeansN (map T data) err max_iter =
  ('(v, u, a, t) <- rl_fuzzy_cmeansN data err max_iter ;; Ok (map T v, u, a, t))%res.
Proof.
  intros Hs Hm. destruct data as [|x [|y data]].
  - cbn [map]. rewrite rl_no_pointN. reflexivity.
  - cbn [map]. rewrite !rl_one_pointN by auto. reflexivity.
  - set (dd := x :: y :: data) in *. assert (Hd : (2 <= length dd)%nat) by (simpl; lia).
    unfold rl_fuzzy_cmeansN. rewrite map_length, nat2F_INR.
    assert (HnR : 0 < INR (length dd)) by (apply lt_0_INR; lia).
    rewrite pdiv_R by lra. cbn [rbind]. apply rl_loopN_affine; auto.
    + apply Hs.
    + rnum. lra.
    + now rewrite repeat_length.
    + rewrite repeat_length. lia.
    + split.
      * apply Forall_forall. intros z Hz. apply repeat_spec in Hz. subst z. apply Rdiv_lt_0_compat; [cbn; lra|auto].
      * rewrite Rsum_repeat. rnum. field. lra.
Qed.
Lemma rlc_predict_affine v data : Forall (fun x => length x = k) v -> Forall (fun x => length x = k) data ->
  rlc_predict (Some (map T v)) (map T data) = rlc_predict (Some v) data.
Proof.
  intros Hv Hd. unfold rlc_predict. rewrite rmap_map'. apply rmap_ext_in. intros x Hx.
  assert (Hxk : length x = k) by (rewrite Forall_forall in Hd; auto).
  destruct Hv as [|c0 rest Hc0 Hrest]; [reflexivity|]. cbn [map]. unfold rlc_nearest. rewrite map_length, pdist_affine by auto.
  do 2 f_equal. generalize (pdist c0 x, 0%nat). generalize 1%nat as s.
  induction Hrest as [|c rest Hc Hrest IH]; intros s [md b]; [reflexivity|]. cbn [length seq map combine fold_left].
  rewrite pdist_affine by auto. apply IH.
Qed.
End Iso.
