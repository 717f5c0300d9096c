(** ShiftFacts.v — discretizing a column moved by a constant, over the reals (C103). *)
From Coq Require Import Reals Lra Lia.
From Verif Require Import Base BaseFacts Num Spec RealFacts Functions LearnUtils LearnSpec LearnFacts
  Cmeans CmeansFacts RlCmeans RlFacts ClusterSpec CmeansN CmeansNFacts CmeansNOne RlNFacts CmeansIso Discret DiscretFacts DiscretFacts2 Pipeline.
Local Open Scope R_scope.

Section Shift.
Variable b : R.
Definition sh (l : list R) : list R := map (fun x => x + b) l.
Lemma sh_length l : length (sh l) = length l.
Proof. apply map_length. Qed.
Lemma sh_nil l : l <> [] -> sh l <> [].
Proof. destruct l; [congruence|discriminate]. Qed.
Lemma sh_nth l i : nth_error (sh l) i = option_map (fun x => x + b) (nth_error l i).
Proof. unfold sh. rewrite nth_error_map. reflexivity. Qed.
Lemma sh_nbget l i : nbget (sh l) i = rbind (nbget l i) (fun x => Ok (x + b)).
Proof. unfold nbget. rewrite sh_nth. now destruct (nth_error l i). Qed.
Lemma sh_lget l i : lget (sh l) i = rbind (lget l i) (fun x => Ok (x + b)).
Proof. unfold lget. rewrite sh_nth. now destruct (nth_error l i). Qed.
Lemma aff_one x : affine [[1]] [b] [x] = [x + b].
Proof. unfold affine, dot. cbn. f_equal. unfold Rsum. cbn. lra. Qed.
Lemma aff_col l : map (affine [[1]] [b]) (col l) = col (sh l).
Proof. unfold col, sh. rewrite !map_map. apply map_ext. intros x. apply aff_one. Qed.
Lemma aff_iso : isometric 1 (affine [[1]] [b]).
Proof.
  intros x y Hx Hy. destruct x as [|x [|]]; try discriminate. destruct y as [|y [|]]; try discriminate. rewrite !aff_one.
  unfold euclid, gap2. f_equal. unfold Rsum. cbn. lra.
Qed.
Lemma one_shape : shape 1 1 [[1]].
Proof. split; [reflexivity|]. repeat constructor. Qed.
Lemma col_shape l : shape (length (col l)) 1 (col l).
Proof. split; [reflexivity|]. apply Forall_forall. intros x H. unfold col in H. apply in_map_iff in H. destruct H as (y & <- & _). reflexivity. Qed.
Lemma col_inj l l' : col l = col l' -> l = l'.
Proof. revert l'. induction l as [|x l IH]; intros [|y l'] H; cbn in H; try discriminate; [reflexivity|]. inversion H. f_equal. now apply IH. Qed.
Lemma cmeans_shift data c m err maxiter init rand : data <> [] ->
  fuzzy_cmeans (sh data) c m err maxiter init rand = ('(u, cs) <- fuzzy_cmeans data c m err maxiter init rand ;; Ok (u, sh cs))%res.
Proof.
  intros Hd. pose proof (fuzzy_cmeans_col (sh data) c m err maxiter init rand (sh_nil _ Hd)) as A.
  pose proof (fuzzy_cmeans_col data c m err maxiter init rand Hd) as B.
  pose proof (cmeansN_affine 1 1 [[1]] [b] one_shape eq_refl aff_iso (col data) c m err maxiter init rand) as C.
  rewrite aff_col in C. unfold fuzzy_cmeansN in A, B. rewrite C in A; [|destruct data; [congruence|discriminate]|apply col_shape].
  destruct (cmeansN (col data) c m err maxiter init rand) as [[[[[[[cn u] u0] d] jm] p] f]|e]; cbn [rbind] in *.
  - destruct (fuzzy_cmeans data c m err maxiter init rand) as [[u1 c1]|]; [|discriminate]. destruct (fuzzy_cmeans (sh data) c m err maxiter init rand) as [[u2 c2]|]; [|discriminate].
    cbn [rbind] in *. inversion B. subst. inversion A as [[E1 E2]]. subst. rewrite aff_col in E2. apply col_inj in E2. now subst.
  - destruct (fuzzy_cmeans data c m err maxiter init rand) as [[u1 c1]|]; [discriminate|]. destruct (fuzzy_cmeans (sh data) c m err maxiter init rand) as [[u2 c2]|]; [discriminate|].
    cbn [rbind] in *. congruence.
Qed.
Lemma est_cmeans_shift data c maxiter init rand : data <> [] ->
  est_cmeans (sh data) c maxiter init rand = ('(u, cs) <- est_cmeans data c maxiter init rand ;; Ok (u, sh cs))%res.
Proof. intros Hd. unfold est_cmeans. now apply cmeans_shift. Qed.
Lemma robust_shift data err max_iter : data <> [] -> (2 <= max_iter)%Z ->
  rl_fuzzy_cmeans (sh data) err max_iter = ('(v, u, a, t) <- rl_fuzzy_cmeans data err max_iter ;; Ok (sh v, u, a, t))%res.
Proof.
  intros Hd Hm. pose proof (rl_fuzzy_cmeans_col (sh data) err max_iter (sh_nil _ Hd)) as A. pose proof (rl_fuzzy_cmeans_col data err max_iter Hd) as B.
  pose proof (rl_fuzzy_cmeansN_affine 1 1 [[1]] [b] one_shape eq_refl aff_iso (col data) err max_iter (col_shape _) Hm) as C.
  rewrite aff_col in C. rewrite C, B in A. clear B C.
  destruct (rl_fuzzy_cmeans data err max_iter) as [[[[v u] a] t]|e]; cbn [rbind] in A |- *.
  - destruct (rl_fuzzy_cmeans (sh data) err max_iter) as [[[[v' u'] a'] t']|]; [|discriminate]. cbn [rbind] in A. rewrite aff_col in A. inversion A as [[E1 E2 E3 E4]]. apply col_inj in E1. now subst.
  - destruct (rl_fuzzy_cmeans (sh data) err max_iter) as [[[[v' u'] a'] t']|]; [discriminate|]. cbn [rbind] in A. congruence.
Qed.

(** ** Scores *)
Lemma dist_shift x l : map (fun y => nabs (nsub (x + b) y)) (sh l) = map (fun y => nabs (nsub x y)) l.
Proof. unfold sh. rewrite map_map. apply map_ext. intros y. rnum. f_equal. lra. Qed.
Lemma sil_point_shift data desc i : sil_point (sh data) desc i = sil_point data desc i.
Proof.
  unfold sil_point. destruct (top2_of _) as [t|]; [|reflexivity]. cbn [rbind]. rewrite sh_lget. destruct (lget data i) as [x|]; [|reflexivity]. cbn [rbind].
  rewrite dist_shift, sh_length. reflexivity.
Qed.
Lemma rmap_ext' {A B} (f g : A -> res B) l : (forall a, f a = g a) -> rmap f l = rmap g l.
Proof. intros E. induction l as [|a l IH]; [reflexivity|]. cbn. now rewrite E, IH. Qed.
Lemma sil_score_shift data maxiter rand c : data <> [] -> sil_score (sh data) maxiter rand c = sil_score data maxiter rand c.
Proof.
  intros Hd. unfold sil_score. rewrite est_cmeans_shift by auto. destruct (est_cmeans data c maxiter None rand) as [[u cs]|]; [|reflexivity]. cbn [rbind].
  rewrite sh_length. rewrite (rmap_ext' (sil_point (sh data) u) (sil_point data u)) by (intros; apply sil_point_shift). reflexivity.
Qed.
Lemma Rsum_sh l : Rsum (sh l) = Rsum l + INR (length l) * b.
Proof. unfold Rsum. induction l as [|x l IH]; [cbn; lra|]. cbn [sh map fold_right length]. rewrite S_INR. fold (sh l). rewrite IH. lra. Qed.
Lemma cfe_score_shift data maxiter rand c : data <> [] -> cfe_score (sh data) maxiter rand c = cfe_score data maxiter rand c.
Proof.
  intros Hd. unfold cfe_score. rewrite est_cmeans_shift by auto. destruct (est_cmeans data c maxiter None rand) as [[u cs]|]; [|reflexivity]. cbn [rbind].
  rewrite sh_length.
  assert (C : ndiv (nsum (sh data)) (nat2F (length data)) = ndiv (nsum data) (nat2F (length data)) + b).
  { rewrite !nsum_Rsum, Rsum_sh, nat2F_INR. rnum. field. apply not_0_INR. destruct data; [congruence|discriminate]. }
  rewrite C. set (center := ndiv (nsum data) (nat2F (length data))). clearbody center.
  assert (K : combine u (sh cs) = map (fun rc => (fst rc, snd rc + b)) (combine u cs)).
  { revert cs. induction u as [|r u IH]; intros [|y cs]; cbn; try reflexivity. f_equal. apply IH. }
  rewrite K, !map_map. cbn [fst snd].
  assert (E1 : forall rc : list R * R, map (fun d => nsub d (snd rc + b)) (sh data) = map (fun d => nsub d (snd rc)) data).
  { intros rc. unfold sh. rewrite map_map. apply map_ext. intros y. rnum. lra. }
  assert (E2 : forall rc : list R * R, nsub (snd rc + b) (center + b) = nsub (snd rc) center) by (intros rc; rnum; lra).
  assert (X : forall (f g : list R * R -> R), (forall rc, f rc = g rc) -> nsum (map f (combine u cs)) = nsum (map g (combine u cs))) by (intros f g E; f_equal; now apply map_ext).
  cbv zeta.
  match goal with |- context [nsum (map ?f (combine u cs))] =>
    match f with context [norm] =>
      match goal with |- context [nsum (map ?g (combine u cs))] =>
        match g with context [center + b] => fail 1 | context [sh] => fail 1 | context [norm] => rewrite (X f g) by (intros rc; cbv beta; rewrite E1; reflexivity) end end end end.
  match goal with |- context [nsum (map ?f (combine u cs))] =>
    match f with context [center + b] => erewrite (X f) by (intros rc; cbv beta; rewrite E2; reflexivity) end end.
  reflexivity.
Qed.
Lemma rfold_ext' {A S} (f g : S -> A -> res S) l : (forall s a, f s a = g s a) -> forall s, rfold f l s = rfold g l s.
Proof. intros E. induction l as [|a l IH]; intros s; [reflexivity|]. cbn. rewrite E. destruct (g s a); [apply IH|reflexivity]. Qed.
Lemma best_of_ext (s1 s2 : nat -> res (list (list R) * R)) mc : (forall c, s1 c = s2 c) -> best_of s1 mc = best_of s2 mc.
Proof. intros E. unfold best_of. apply rfold_ext'. intros acc c. now rewrite E. Qed.

(** ** Change points *)
Definition shp (pts : list (nat * R)) : list (nat * R) := map (fun p => (fst p, snd p + b)) pts.
Definition shc (st : cp_state (F := R)) : cp_state := mkCP (shp (cp_pts st)) (cp_grow st) (cp_mean st).
Lemma cp_rise_shift v a j st : cp_rise v (a + b) j (shc st) = shc (cp_rise v a j st).
Proof. unfold cp_rise. cbn [shc cp_mean cp_grow cp_pts]. now destruct (_ && _). Qed.
Lemma cp_fall_shift v a j st : cp_fall v (a + b) j (shc st) = shc (cp_fall v a j st).
Proof. unfold cp_fall. cbn [shc cp_mean cp_grow cp_pts]. now destruct (_ && _). Qed.
Lemma cp_prune_shift n mi v pts : cp_prune n mi v (shp pts) = shp (cp_prune n mi v pts).
Proof. destruct pts as [|p [|q t]]; try reflexivity. cbn [shp map cp_prune fst]. destruct (too_close n mi (fst q) v); reflexivity. Qed.
Lemma cp_step_shift values n mi st v : cp_step (sh values) n mi (shc st) v = rbind (cp_step values n mi st v) (fun s => Ok (shc s)).
Proof.
  unfold cp_step. rewrite !sh_nbget. destruct (nbget values v) as [x|]; [|reflexivity]. cbn [rbind]. destruct (nbget values (v + 1)) as [y|]; [|reflexivity]. cbn [rbind].
  replace (nabs (nsub (x + b) (y + b))) with (nabs (nsub x y)) by (rnum; f_equal; lra).
  rewrite cp_rise_shift, cp_fall_shift. cbn [shc cp_pts cp_grow cp_mean]. now rewrite cp_prune_shift.
Qed.
Lemma cp_loop_shift values n mi l : forall st, rfold (cp_step (sh values) n mi) l (shc st) = rbind (rfold (cp_step values n mi) l st) (fun s => Ok (shc s)).
Proof.
  induction l as [|v l IH]; intros st; [reflexivity|]. cbn [rfold]. rewrite cp_step_shift. destruct (cp_step values n mi st v) as [s|]; [|reflexivity]. cbn [rbind]. apply IH.
Qed.
Lemma cp_finish_shift values n mi pts : cp_finish (sh values) n mi (shp pts) = rbind (cp_finish values n mi pts) (fun l => Ok (shp l)).
Proof.
  destruct pts as [|p [|q t]]; try reflexivity. cbn [cp_finish shp map fst snd]. rewrite sh_nbget. destruct (nbget values (n - 1)); [|reflexivity]. cbn [rbind].
  now destruct (too_close n mi (fst p) (n - 1)).
Qed.
Lemma change_points_shift values mc : estimate_change_points (sh values) mc = ('(xs, ys) <- estimate_change_points values mc ;; Ok (xs, sh ys))%res.
Proof.
  unfold estimate_change_points. rewrite sh_length. destruct (pdiv n1 (nat2F mc)) as [mi|]; [|reflexivity]. cbn [rbind].
  change (mkCP [] false n0) with (shc (mkCP [] false n0)) at 1. rewrite cp_loop_shift. destruct (rfold (cp_step values _ mi) _ _) as [st|]; [|reflexivity]. cbn [rbind shc cp_pts].
  rewrite cp_finish_shift. destruct (cp_finish values _ mi (cp_pts st)) as [pts|]; [|reflexivity]. cbn [rbind]. do 2 f_equal.
  - unfold shp. rewrite <- map_rev, map_map. reflexivity.
  - unfold shp, sh. rewrite <- map_rev, !map_map. reflexivity.
Qed.
Lemma distance_shift data cs : one_dimension_distance (sh data) (sh cs) = one_dimension_distance data cs.
Proof. unfold one_dimension_distance, sh. rewrite map_map. apply map_ext. intros c. rewrite map_map. apply map_ext. intros d. rnum. f_equal. lra. Qed.
Lemma removelast_sh l : removelast (sh l) = sh (removelast l).
Proof. induction l as [|x [|y l] IH]; try reflexivity. cbn [sh map removelast] in *. f_equal. exact IH. Qed.
Lemma estimate_shift data mc mth maxiter fit rand : data <> [] ->
  estimate_clusters (sh data) mc mth maxiter (sh fit) rand = estimate_clusters data mc mth maxiter fit rand.
Proof.
  intros Hd. unfold estimate_clusters. rewrite sh_length. destruct (Nat.leb (length data) mc); [reflexivity|]. destruct mth.
  - unfold gap_concentration. rewrite change_points_shift. destruct (estimate_change_points fit mc) as [[xs ys]|]; [|reflexivity]. cbn [rbind]. cbv zeta.
    rewrite sh_length. replace (if Nat.ltb 2 (length ys) then removelast (sh ys) else sh ys) with (sh (if Nat.ltb 2 (length ys) then removelast ys else ys))
      by (destruct (Nat.ltb 2 (length ys)); [now rewrite removelast_sh|reflexivity]).
    rewrite distance_shift. destruct (Nat.ltb 1 (length ys - 1)); [|reflexivity]. rewrite est_cmeans_shift by auto. destruct (est_cmeans data _ _ _ _) as [[u cs]|]; reflexivity.
  - unfold fuzzy_silhouette. rewrite (best_of_ext _ (sil_score data maxiter rand)); [reflexivity|]. intros c. now apply sil_score_shift.
  - unfold cfe. rewrite (best_of_ext _ (cfe_score data maxiter rand)); [reflexivity|]. intros c. now apply cfe_score_shift.
Qed.

(** ** Three clusters, and the whole *)
Lemma make_odd_shift l : make_odd (sh l) = rbind (make_odd l) (fun v => Ok (sh v)).
Proof.
  unfold make_odd. rewrite sh_length. destruct (Nat.even (length l)); [|reflexivity]. destruct (length l); [reflexivity|]. rewrite !sh_lget.
  destruct (lget l _) as [x|]; [|reflexivity]. cbn [rbind]. destruct (lget l (_ + 1)) as [y|]; [|reflexivity]. cbn [rbind]. unfold sh.
  rewrite !map_app. cbn [map]. rewrite firstn_map, skipn_map. do 3 f_equal. unfold middle_value. rnum. replace (x + b - (y + b)) with (x - y) by lra. f_equal. lra.
Qed.
Lemma three_shift l : create_three_clusters (sh l) = ('(vals, d) <- create_three_clusters l ;; Ok (sh vals, d))%res.
Proof.
  unfold create_three_clusters. rewrite make_odd_shift. destruct (make_odd l) as [v|]; [|reflexivity]. cbn [rbind]. cbv zeta. rewrite sh_length.
  destruct (rfold _ _ _) as [m|]; [|reflexivity]. cbn [rbind]. destruct (zset m 0 _) as [m1|]; [|reflexivity]. cbn [rbind].
  destruct (zset m1 _ _) as [m2|]; [|reflexivity]. cbn [rbind]. destruct (zset m2 _ _) as [m3|]; reflexivity.
Qed.
Lemma increasing_sh l : increasing l -> increasing (sh l).
Proof.
  unfold increasing. induction 1 as [|x l H IH F]; [constructor|]. cbn. constructor; [exact IH|]. apply Forall_map. eapply Forall_impl; [|exact F]. cbv beta. intros y Hy. lra.
Qed.
Lemma unique_increasing (l : list R) : increasing (unique nleb neqb l) /\ forall x, In x (unique nleb neqb l) <-> In x l.
Proof. destruct (unique_spec _ _ R_total_order l) as [A B]. split; [now apply strictly_sorted_increasing|exact B]. Qed.
Lemma unique_shift l : unique nleb neqb (sh l) = sh (unique nleb neqb l).
Proof.
  destruct (unique_increasing l) as [A B]. destruct (unique_increasing (sh l)) as [C D]. apply increasing_same; auto using increasing_sh.
  intros x. rewrite D. unfold sh. rewrite !in_map_iff. split; intros (y & E & Hy); exists y; split; auto; now apply B.
Qed.
Lemma disc_shift l mc maxiter st att fit rand : (2 <= maxiter)%Z ->
  fuzzy_feature_discretization (sh l) mc maxiter st att (sh fit) rand =
  ('(n, vals, d) <- fuzzy_feature_discretization l mc maxiter st att fit rand ;; Ok (n, sh vals, d))%res.
Proof.
  intros Hm. unfold fuzzy_feature_discretization. rewrite unique_shift. cbv zeta. set (us := unique nleb neqb l). rewrite sh_length. destruct (Nat.ltb_spec (length us) 10) as [|Hl]; [reflexivity|].
  assert (Hne : us <> []) by (intros E; rewrite E in Hl; cbn in Hl; lia).
  destruct (dist_strategy st) as [[m|]|]; [| |reflexivity].
  - rewrite estimate_shift by auto. destruct (estimate_clusters us mc m maxiter fit rand) as [[k d]|]; [|reflexivity]. cbn [rbind]. destruct (Nat.ltb k 2); [|reflexivity].
    rewrite three_shift. destruct (create_three_clusters us) as [[vals d']|]; reflexivity.
  - rewrite robust_shift by auto. destruct (rl_fuzzy_cmeans us _ maxiter) as [[[[v u] a] t]|]; [|reflexivity]. cbn [rbind]. destruct u as [u|]; [|reflexivity]. cbn [rbind].
    destruct (Nat.ltb (length a) 2); [|reflexivity]. rewrite three_shift. destruct (create_three_clusters us) as [[vals d']|]; reflexivity.
Qed.
End Shift.
