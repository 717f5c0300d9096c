(** ScaleFacts.v — discretizing a column measured in another unit, over the reals (C107). *)
From Coq Require Import Reals Lra Lia.
From Verif Require Import Base BaseFacts Num Spec RealFacts Functions LearnUtils LearnSpec LearnFacts
  Cmeans CmeansFacts RlCmeans ClusterSpec Discret DiscretFacts DiscretFacts2 Pipeline.
Local Open Scope R_scope.

Section Scale.
Variable a : R.
Hypothesis Ha : 0 < a.
Definition sx (l : list R) : list R := map (fun x => a * x) l.
Lemma sx_length l : length (sx l) = length l.
Proof. apply map_length. Qed.
Lemma sx_nil l : l <> [] -> sx l <> [].
Proof. destruct l; [congruence|discriminate]. Qed.
Lemma sx_nth l i : nth_error (sx l) i = option_map (fun x => a * x) (nth_error l i).
Proof. unfold sx. rewrite nth_error_map. reflexivity. Qed.
Lemma sx_nbget l i : nbget (sx l) i = rbind (nbget l i) (fun x => Ok (a * x)).
Proof. unfold nbget. rewrite sx_nth. now destruct (nth_error l i). Qed.
Lemma sx_lget l i : lget (sx l) i = rbind (lget l i) (fun x => Ok (a * x)).
Proof. unfold lget. rewrite sx_nth. now destruct (nth_error l i). Qed.
Lemma div_sx p q : (a * p) / (a * q) = p / q.
Proof. unfold Rdiv. rewrite Rinv_mult. replace (a * p * (/ a * / q)) with (a * / a * (p * / q)) by ring. rewrite Rinv_r by lra. ring. Qed.
Lemma ltb_sx x y : Rltb (a * x) (a * y) = Rltb x y.
Proof.
  destruct (Rltb x y) eqn:E; [apply Rltb_true in E; apply Rltb_true; now apply Rmult_lt_compat_l|apply Rltb_false in E; apply Rltb_false; now apply Rmult_le_compat_l; [lra|]].
Qed.
Lemma leb_sx x y : Rleb (a * x) (a * y) = Rleb x y.
Proof.
  destruct (Rleb x y) eqn:E; [apply Rleb_true in E; apply Rleb_true; now apply Rmult_le_compat_l; [lra|]|apply Rleb_false in E; apply Rleb_false; now apply Rmult_lt_compat_l].
Qed.
Lemma eqb_sx x y : Reqb (a * x) (a * y) = Reqb x y.
Proof.
  destruct (Reqb x y) eqn:E; [apply Reqb_true in E; apply Reqb_true; congruence|apply Reqb_false in E; apply Reqb_false; intros H; apply E; apply Rmult_eq_reg_l with a; lra].
Qed.
Lemma abs_sx x : Rabs (a * x) = a * Rabs x.
Proof. rewrite Rabs_mult, (Rabs_right a) by lra. reflexivity. Qed.
Lemma Rsum_sx l : Rsum (sx l) = a * Rsum l.
Proof. unfold Rsum. induction l as [|x l IH]; [cbn; lra|]. cbn [sx map fold_right]. fold (sx l). rewrite IH. lra. Qed.
Lemma zip_sx_r (r l : list R) : zip_with nmul r (sx l) = sx (zip_with nmul r l).
Proof. unfold zip_with, sx. revert l. induction r as [|x r IH]; intros [|y l]; try reflexivity. cbn [map combine fst snd]. rewrite IH. f_equal. rnum. ring. Qed.
Lemma zip_sx_l (r l : list R) : zip_with nmul (sx l) r = sx (zip_with nmul l r).
Proof. unfold zip_with, sx. revert l. induction r as [|x r IH]; intros [|y l]; try reflexivity. cbn [map combine fst snd]. rewrite IH. f_equal. rnum. ring. Qed.
Lemma pmax_sx x l : pmax (a * x) (sx l) = a * pmax x l.
Proof. unfold pmax. revert x. induction l as [|y l IH]; intros x; [reflexivity|]. cbn [sx map fold_left]. change (nltb (a * x) (a * y)) with (Rltb (a * x) (a * y)). rewrite ltb_sx. change (nltb x y) with (Rltb x y). destruct (Rltb x y); apply IH. Qed.
Lemma pmin_sx x l : pmin (a * x) (sx l) = a * pmin x l.
Proof. unfold pmin. revert x. induction l as [|y l IH]; intros x; [reflexivity|]. cbn [sx map fold_left]. change (nltb (a * y) (a * x)) with (Rltb (a * y) (a * x)). rewrite ltb_sx. change (nltb y x) with (Rltb y x). destruct (Rltb y x); apply IH. Qed.

(** ** One step of c-means *)
Definition sxm (m : list (list R)) : list (list R) := map sx m.
Lemma distance_sx data cs : one_dimension_distance (sx data) (sx cs) = sxm (one_dimension_distance data cs).
Proof. unfold one_dimension_distance, sxm, sx. rewrite !map_map. apply map_ext. intros c. rewrite !map_map. apply map_ext. intros d. rnum. rewrite <- abs_sx. f_equal. ring. Qed.
Lemma mcol_sxm m j : mcol (sxm m) j = sx (mcol m j).
Proof. unfold mcol, sxm, sx. rewrite !map_map. apply map_ext. intros r. change (n0 : R) with 0. rewrite <- (Rmult_0_r a) at 1. apply (map_nth (fun x => a * x)). Qed.
Lemma mcols_sxm m : mcols (sxm m) = mcols m.
Proof. destruct m as [|r m]; [reflexivity|]. cbn. apply sx_length. Qed.
Lemma by_columns_sxm (f : list R -> list R) m : (forall l, f (sx l) = f l) -> by_columns f (sxm m) = by_columns f m.
Proof.
  intros H. unfold by_columns. rewrite mcols_sxm. unfold sxm at 1. rewrite map_length. fold (sxm m). f_equal. unfold transpose. rewrite !map_map. apply map_ext. intros j. now rewrite mcol_sxm, H.
Qed.
Lemma scale_max_sx l : scale_max (sx l) = scale_max l.
Proof. destruct l as [|x l]; [reflexivity|]. cbn [sx map scale_max]. fold (sx l). rewrite pmax_sx. set (mx := pmax x l). assert (E : forall w, ndiv (a * w) (a * mx) = ndiv w mx) by (intros w; rnum; apply div_sx). cbn [map]. rewrite E. f_equal. unfold sx. rewrite map_map. apply map_ext. exact E. Qed.
Lemma power_sx e l : power_column e (sx l) = power_column e l.
Proof. unfold power_column. now rewrite scale_max_sx. Qed.
Lemma nonneg_sxm m : forallb (forallb (fun v => nleb n0 v)) (sxm m) = forallb (forallb (fun v => nleb n0 v)) m.
Proof.
  unfold sxm. induction m as [|r m IH]; [reflexivity|]. cbn [map forallb]. rewrite IH. f_equal. clear IH. unfold sx. induction r as [|x r IH]; [reflexivity|]. cbn [map forallb]. rewrite IH. f_equal.
  change (nleb n0 (a * x)) with (Rleb 0 (a * x)). rewrite <- (Rmult_0_r a). apply leb_sx.
Qed.
Lemma powers_sx m e : normalize_power_columns (sxm m) e = normalize_power_columns m e.
Proof. unfold normalize_power_columns. rewrite nonneg_sxm, by_columns_sxm; [reflexivity|]. apply power_sx. Qed.
Lemma normalize_sx m : normalize_columns (sxm m) = normalize_columns m.
Proof.
  apply by_columns_sxm. intros l. unfold normalize_column. rewrite !nsum_Rsum, Rsum_sx. unfold sx. rewrite map_map. apply map_ext. intros x. rnum. apply div_sx.
Qed.
(** no centre is closer to a value than eps, in either unit *)
Definition far (data cs : list R) : Prop := forall x c, In x data -> In c cs -> neps <= Rabs (x - c) /\ neps <= a * Rabs (x - c).
Lemma floor_id x : neps <= x -> fmax x neps = x.
Proof. intros H. unfold fmax. rnum. destruct (Rltb x _) eqn:E; [apply Rltb_true in E; lra|reflexivity]. Qed.
Lemma floor_far data cs : far data cs -> map (map (fun x => fmax x neps)) (sxm (one_dimension_distance data cs)) = sxm (map (map (fun x => fmax x neps)) (one_dimension_distance data cs)).
Proof.
  intros H. unfold one_dimension_distance, sxm, sx. rewrite !map_map. apply map_ext_in. intros c Hc. rewrite !map_map. apply map_ext_in. intros x Hx. destruct (H x c Hx Hc) as [H1 H2].
  change (nabs (nsub x c)) with (Rabs (x - c)). now rewrite !floor_id.
Qed.
Definition step_of (data : list R) u m : res (list R * list (list R)) := ('(cs, u', _, _) <- cmeans0 data u m ;; Ok (cs, u'))%res.
Definition centres (data : list R) (u : list (list R)) (m : R) : list R :=
  map (fun r => ndiv (nsum (zip_with nmul r data)) (nsum r)) (map (map (fun x => npow x m)) (map (map (fun x => fmax x neps)) (normalize_columns u))).
Lemma centres_sx data u m : centres (sx data) u m = sx (centres data u m).
Proof. unfold centres. set (um := map (map (fun x => npow x m)) _). unfold sx at 2. rewrite map_map. apply map_ext. intros r. rewrite zip_sx_r, !nsum_Rsum, Rsum_sx. rnum. unfold Rdiv. ring. Qed.
Lemma step_sx data u m : far data (centres data u m) -> step_of (sx data) u m = ('(cs, u') <- step_of data u m ;; Ok (sx cs, u'))%res.
Proof.
  intros H. unfold step_of, cmeans0. cbv zeta. fold (centres (sx data) u m). fold (centres data u m). rewrite centres_sx, distance_sx, (floor_far _ _ H).
  destruct (pdiv _ _) as [e|]; [|reflexivity]. cbn [rbind]. rewrite powers_sx. destruct (normalize_power_columns _ e) as [u'|]; reflexivity.
Qed.
Lemma step_centres data u m cs u' : step_of data u m = Ok (cs, u') -> cs = centres data u m.
Proof.
  unfold step_of, cmeans0. cbv zeta. fold (centres data u m). destruct (pdiv _ _) as [e|]; [|discriminate]. cbn [rbind]. destruct (normalize_power_columns _ e) as [w|]; [|discriminate]. cbn. congruence.
Qed.
Lemma step_norm data u v m : normalize_columns u = normalize_columns v -> cmeans0 data u m = cmeans0 data v m.
Proof. intros H. unfold cmeans0. now rewrite H. Qed.

(** ** The run: [u] in the first unit and [v] in the second, of which [v] differs at the start only *)
Fixpoint steady (k : nat) (data : list R) (m err : R) (u v : list (list R)) : Prop :=
  match k with
  | O => u = v
  | S k => far data (centres data u m) /\
      match cmeans0 data u m with
      | Ok (_, u', _, _) => nltb (mdist u' v) err = nltb (mdist u' u) err /\ (nltb (mdist u' u) err = false -> steady k data m err u' u')
      | Err _ => True
      end
  end.
Definition two_of {A B C} (r : res (option (list R * A) * list (list R) * B * C)) : res (option (list R) * list (list R)) :=
  ('(last, u, _, _) <- r ;; Ok (option_map fst last, u))%res.
Definition scaled (r : res (option (list R) * list (list R))) : res (option (list R) * list (list R)) := ('(last, u) <- r ;; Ok (option_map sx last, u))%res.
Lemma loop_sx k : forall data m err last last' u v jm jm' p p', normalize_columns u = normalize_columns v -> steady k data m err u v -> option_map fst last' = option_map (fun q => sx (fst q)) last ->
  two_of (cmeans_loop k (sx data) m err last' v jm' p') = scaled (two_of (cmeans_loop k data m err last u jm p)).
Proof.
  induction k as [|k IH]; intros data m err last last' u v jm jm' p p' Hn Hs Hl; cbn [cmeans_loop].
  - cbn in Hs. subst v. unfold two_of, scaled. cbn [rbind]. rewrite Hl. destruct last as [[? ?]|]; reflexivity.
  - cbn [steady] in Hs. destruct Hs as [Hf Hs]. pose proof (step_sx data u m Hf) as E. unfold step_of in E. rewrite (step_norm (sx data) v u m) by auto.
    destruct (cmeans0 data u m) as [[[[cs u'] j] d]|e] eqn:E0, (cmeans0 (sx data) u m) as [[[[cs2 u2] j2] d2]|e2]; cbn [rbind] in E |- *; try discriminate; [|injection E as <-; reflexivity].
    injection E as -> ->. destruct Hs as [H1 H2]. rewrite H1. destruct (nltb (mdist u' u) err); [reflexivity|]. apply IH; auto.
Qed.
Lemma cmeans_sx data c m err maxiter init init' rand u v :
  cmeans_start c (length data) (match init with Some u => u | None => normalize_columns rand end) = Ok u ->
  cmeans_start c (length data) (match init' with Some u => u | None => normalize_columns rand end) = Ok v ->
  normalize_columns u = normalize_columns v -> steady (Z.to_nat (maxiter - 1)) data m err u v ->
  fuzzy_cmeans (sx data) c m err maxiter init' rand = ('(u, cs) <- fuzzy_cmeans data c m err maxiter init rand ;; Ok (u, sx cs))%res.
Proof.
  intros Hu Hv Hn Hs. unfold fuzzy_cmeans, cmeans. cbv zeta. rewrite sx_length, Hu, Hv. cbn [rbind].
  pose proof (loop_sx _ data m err None None u v [] [] 0%nat 0%nat Hn Hs eq_refl) as L.
  destruct (cmeans_loop _ data m err None u [] 0) as [[[[last w] jm] p]|e], (cmeans_loop _ (sx data) m err None v [] 0) as [[[[last' w'] jm'] p']|e']; cbn [two_of scaled rbind] in L |- *; try discriminate; [|injection L as <-; reflexivity].
  injection L as E1 E2. subst w'. destruct (fp_coeff w); [|reflexivity]. cbn [rbind]. destruct last as [[cs d]|], last' as [[cs' d']|]; cbn in E1; try discriminate; [|reflexivity].
  injection E1 as ->. reflexivity.
Qed.

(** ** The condition, in terms of what c-means returns *)
Lemma floored_nonneg (d : list (list R)) : forallb (forallb (fun v => nleb n0 v)) (map (map (fun x => fmax x neps)) d) = true.
Proof.
  apply forallb_forall. intros r Hr. apply in_map_iff in Hr as (r0 & <- & _). apply forallb_forall. intros v Hv. apply in_map_iff in Hv as (x & <- & _).
  apply Rleb_true. unfold fmax. rnum. destruct (Rltb x _) eqn:E; [left; apply Rinv_0_lt_compat; lra|]. apply Rltb_false in E. eapply Rle_trans; [|exact E]. left. apply Rinv_0_lt_compat. lra.
Qed.
Lemma step_ok data u m : m <> 1 -> exists u' j d, cmeans0 data u m = Ok (centres data u m, u', j, d).
Proof.
  intros Hm. unfold cmeans0. cbv zeta. fold (centres data u m). unfold pdiv at 1. rnum. destruct (Reqb (m - 1) 0) eqn:E; [apply Reqb_true in E; lra|]. cbn [rbind].
  unfold normalize_power_columns. rewrite floored_nonneg. cbn [rbind]. eauto.
Qed.
(** [k] steps of c-means from [u]: the centres of the last *)
Definition after (k : nat) (data : list R) (m err : R) (u : list (list R)) : option (list R * list (list R)) :=
  match cmeans_loop k data m err None u [] 0 with Ok (Some (cs, _), w, _, _) => Some (cs, w) | _ => None end.
Lemma loop_any k : forall data m err last last' u jm jm' p p', (0 < k)%nat -> two_of (cmeans_loop k data m err last u jm p) = two_of (cmeans_loop k data m err last' u jm' p').
Proof.
  induction k as [|k IH]; intros data m err last last' u jm jm' p p' Hk; [lia|]. cbn [cmeans_loop]. destruct (cmeans0 data u m) as [[[[cs u'] j] d]|e]; [|reflexivity]. cbn [rbind].
  destruct (nltb (mdist u' u) err); [reflexivity|]. destruct k as [|k]; [reflexivity|]. apply IH. lia.
Qed.
Lemma after_two k data m err u cs w : after k data m err u = Some (cs, w) <-> two_of (cmeans_loop k data m err None u [] 0) = Ok (Some cs, w).
Proof. unfold after, two_of. destruct (cmeans_loop k data m err None u [] 0) as [[[[[[cs' d]|] w'] j] p]|e]; cbn; split; intros H; try discriminate; congruence. Qed.
Lemma steady_same k : forall data m err u, m <> 1 -> (forall j cs w, (1 <= j <= k)%nat -> after j data m err u = Some (cs, w) -> far data cs) -> steady k data m err u u.
Proof.
  induction k as [|k IH]; intros data m err u Hm H; [reflexivity|]. cbn [steady]. destruct (step_ok data u m Hm) as (u' & j & d & E). split.
  - apply (H 1%nat (centres data u m) u'); [lia|]. unfold after. cbn [cmeans_loop]. rewrite E. cbn [rbind]. now destruct (nltb (mdist u' u) err).
  - rewrite E. split; [reflexivity|]. intros Hs. apply IH; [exact Hm|]. intros i cs w Hi Hw. apply (H (S i) cs w); [lia|]. apply after_two. apply after_two in Hw. cbn [cmeans_loop]. rewrite E. cbn [rbind]. rewrite Hs.
    rewrite <- Hw. apply loop_any. lia.
Qed.
Lemma steady_from k data m err u v : m <> 1 -> (forall j cs w, (1 <= j <= k)%nat -> after j data m err u = Some (cs, w) -> far data cs) ->
  (k = 0%nat -> u = v) -> (forall cs w, after 1 data m err u = Some (cs, w) -> nltb (mdist w v) err = nltb (mdist w u) err) -> steady k data m err u v.
Proof.
  intros Hm H H0 H1. pose proof (steady_same k data m err u Hm H) as K. destruct k as [|k]; [now apply H0|]. cbn [steady] in K |- *. destruct K as [K1 K2]. split; [exact K1|].
  destruct (step_ok data u m Hm) as (u' & j & d & E). rewrite E in K2 |- *. split; [|apply K2]. apply (H1 (centres data u m) u'). unfold after. cbn [cmeans_loop]. rewrite E. cbn [rbind]. now destruct (nltb (mdist u' u) err).
Qed.

Lemma rmap_seq {A B} (f : nat -> res B) (g : A -> B) (l : list A) : (forall i x, nth_error l i = Some x -> f i = Ok (g x)) -> rmap f (seq 0 (length l)) = Ok (map g l).
Proof.
  assert (G : forall (l : list A) k, (forall i x, nth_error l i = Some x -> f (k + i)%nat = Ok (g x)) -> rmap f (seq k (length l)) = Ok (map g l)).
  { clear l. induction l as [|x l IH]; intros k H; [reflexivity|]. cbn [length seq rmap map]. specialize (H 0%nat x eq_refl) as H0. rewrite Nat.add_0_r in H0. rewrite H0. cbn [rbind].
    rewrite (IH (S k)); [reflexivity|]. intros i y Hy. specialize (H (S i) y Hy). now rewrite Nat.add_succ_r in H. }
  intros H. now apply G.
Qed.
Definition high (u : list (list R)) : Prop := forall r x, In r u -> In x r -> neps <= x.
Lemma start_high c n u : shape c n u -> high u -> cmeans_start c n u = Ok u.
Proof.
  intros [<- H] Hh. unfold cmeans_start. rewrite (rmap_seq _ (fun r => r) u); [now rewrite map_id|]. intros i r Hr. rewrite Hr. cbn [rbind]. pose proof (nth_error_In _ _ Hr) as Ir.
  rewrite Forall_forall in H. rewrite <- (H r Ir). rewrite (rmap_seq _ (fun x => x) r); [now rewrite map_id|]. intros j x Hx. unfold nbget. rewrite Hx. cbn [rbind].
  specialize (Hh r x Ir (nth_error_In _ _ Hx)). destruct (nltb x neps) eqn:E; [apply Rltb_true in E; lra|reflexivity].
Qed.
Lemma after_runs data c m err j init rand u cs w : (0 < c)%nat -> data <> [] -> m <> 1 -> (1 <= j)%nat -> shape c (length data) u ->
  cmeans_start c (length data) (match init with Some u => u | None => normalize_columns rand end) = Ok u ->
  after j data m err u = Some (cs, w) -> fuzzy_cmeans data c m err (Z.of_nat j + 1) init rand = Ok (w, cs).
Proof.
  intros Hc Hd Hm Hj Hs Hu H. assert (Hd' : (0 < length data)%nat) by (destruct data; [congruence|cbn; lia]).
  destruct (cmeans_loop_real j data m err None u [] 0 c) as (l & w' & jm & p & E & _ & K); auto; [discriminate|]. destruct K as (cn & d & prev & -> & H2 & _); [lia|].
  unfold after in H. rewrite E in H. injection H as -> ->. unfold fuzzy_cmeans, cmeans. cbv zeta. rewrite Hu. cbn [rbind]. replace (Z.to_nat (Z.of_nat j + 1 - 1)) with j by lia. rewrite E. cbn [rbind].
  destruct (fp_coeff_ok c (length data) w Hc Hd') as [f Ef]; [apply H2|]. rewrite Ef. reflexivity.
Qed.
Lemma clusters_sx data c m err maxiter init rand : (0 < c)%nat -> data <> [] -> m <> 1 -> shape c (length data) (match init with Some u => u | None => rand end) ->
  (forall k u cs, (2 <= k <= maxiter)%Z -> fuzzy_cmeans data c m err k init rand = Ok (u, cs) -> far data cs) ->
  fuzzy_cmeans (sx data) c m err maxiter init rand = ('(u, cs) <- fuzzy_cmeans data c m err maxiter init rand ;; Ok (u, sx cs))%res.
Proof.
  intros Hc Hd Hm Hs H. set (u0 := match init with Some u => u | None => normalize_columns rand end).
  assert (Hd' : (0 < length data)%nat) by (destruct data; [congruence|cbn; lia]).
  assert (Hs0 : shape c (length data) u0) by (unfold u0; destruct init; auto; apply by_columns_shape; auto using normalize_column_length).
  destruct (cmeans_start_ok c _ u0 Hs0) as [us Es].
  apply (cmeans_sx data c m err maxiter init init rand us us); auto. apply steady_same; [exact Hm|]. intros j cs w Hj Hw.
  apply (H (Z.of_nat j + 1)%Z w cs); [lia|]. apply (after_runs data c m err j init rand us cs w); auto; try lia. eapply cmeans_start_shape; eauto.
Qed.
Lemma sxm_shape c n u : shape c n u -> shape c n (sxm u).
Proof. intros [H1 H2]. split; [unfold sxm; now rewrite map_length|]. apply Forall_map. eapply Forall_impl; [|exact H2]. cbv beta. intros r <-. apply sx_length. Qed.
Lemma started_sx data c m err maxiter u0 rand : (0 < c)%nat -> data <> [] -> m <> 1 -> (2 <= maxiter)%Z -> shape c (length data) u0 -> high u0 -> high (sxm u0) ->
  (forall k u cs, (2 <= k <= maxiter)%Z -> fuzzy_cmeans data c m err k (Some u0) rand = Ok (u, cs) -> far data cs) ->
  (forall u cs, fuzzy_cmeans data c m err 2 (Some u0) rand = Ok (u, cs) -> nltb (mdist u (sxm u0)) err = nltb (mdist u u0) err) ->
  fuzzy_cmeans (sx data) c m err maxiter (Some (sxm u0)) rand = ('(u, cs) <- fuzzy_cmeans data c m err maxiter (Some u0) rand ;; Ok (u, sx cs))%res.
Proof.
  intros Hc Hd Hm Hi Hs Hh Hh' H H1.
  assert (A : cmeans_start c (length data) u0 = Ok u0) by now apply start_high.
  assert (B : cmeans_start c (length data) (sxm u0) = Ok (sxm u0)) by (apply start_high; auto using sxm_shape).
  apply (cmeans_sx data c m err maxiter (Some u0) (Some (sxm u0)) rand u0 (sxm u0)); auto; [symmetry; apply normalize_sx|]. apply steady_from; [exact Hm| |lia|].
  - intros j cs w Hj Hw. apply (H (Z.of_nat j + 1)%Z w cs); [lia|]. apply (after_runs data c m err j (Some u0) rand u0 cs w); auto; lia.
  - intros cs w Hw. apply (H1 w cs). change 2%Z with (Z.of_nat 1 + 1)%Z. apply (after_runs data c m err 1 (Some u0) rand u0 cs w); auto.
Qed.

(** ** Scores *)
Lemma dist_sx x l : map (fun y => nabs (nsub (a * x) y)) (sx l) = sx (map (fun y => nabs (nsub x y)) l).
Proof. unfold sx. rewrite !map_map. apply map_ext. intros y. rnum. rewrite <- abs_sx. f_equal. ring. Qed.
Lemma sil_point_sx data desc i : sil_point (sx data) desc i = sil_point data desc i.
Proof.
  unfold sil_point. destruct (top2_of _) as [t|]; [|reflexivity]. cbn [rbind]. rewrite sx_lget. destruct (lget data i) as [x|]; [|reflexivity]. cbn [rbind].
  destruct (lget desc (t_mpos t)) as [rm|]; [|reflexivity]. cbn [rbind]. destruct (lget desc (t_spos t)) as [rs|]; [|reflexivity]. cbn [rbind].
  rewrite dist_sx, sx_length, !zip_sx_l. cbv zeta. rewrite !nsum_Rsum, !Rsum_sx. set (p := Rsum (zip_with nmul _ rm)). set (q := Rsum (zip_with nmul _ rs)). do 2 f_equal.
  set (den := nat2F _). assert (E : forall z, ndiv (a * z) den = a * ndiv z den) by (intros z; rnum; unfold Rdiv; ring). rewrite !E.
  change (nltb (a * ndiv q den) (a * ndiv p den)) with (Rltb (a * ndiv q den) (a * ndiv p den)). rewrite ltb_sx. change (nltb (ndiv q den) (ndiv p den)) with (Rltb (ndiv q den) (ndiv p den)).
  assert (E2 : forall x y z, ndiv (nsub (a * x) (a * y)) (a * z) = ndiv (nsub x y) z) by (intros x1 y1 z1; rnum; rewrite <- Rmult_minus_distr_l; apply div_sx).
  destruct (Rltb (ndiv q den) (ndiv p den)); apply E2.
Qed.
Lemma norm_sx l : norm (sx l) = a * norm l.
Proof.
  unfold norm. rewrite !nsum_Rsum. rnum. replace (Rsum (map (fun x => x * x) (sx l))) with (a * a * Rsum (map (fun x => x * x) l)).
  - rewrite sqrt_mult_alt by nra. now rewrite sqrt_square by lra.
  - unfold Rsum, sx. induction l as [|x l IH]; [cbn; ring|]. cbn [map fold_right]. rewrite <- IH. ring.
Qed.
Definition same_runs (data : list R) (maxiter : Z) (rand : nat -> list (list R)) (c : nat) : Prop :=
  est_cmeans (sx data) c maxiter None rand = ('(u, cs) <- est_cmeans data c maxiter None rand ;; Ok (u, sx cs))%res.
Lemma rmap_ext2 {A B} (f g : A -> res B) l : (forall x, f x = g x) -> rmap f l = rmap g l.
Proof. intros E. induction l as [|x l IH]; [reflexivity|]. cbn. now rewrite E, IH. Qed.
Lemma sil_score_sx data maxiter rand c : same_runs data maxiter rand c -> sil_score (sx data) maxiter rand c = sil_score data maxiter rand c.
Proof.
  intros Hd. unfold sil_score. rewrite Hd. destruct (est_cmeans data c maxiter None rand) as [[u cs]|]; [|reflexivity]. cbn [rbind].
  rewrite sx_length. rewrite (rmap_ext2 (sil_point (sx data) u) (sil_point data u)) by (intros; apply sil_point_sx). reflexivity.
Qed.
Lemma nsum_scale {A} (f g : A -> R) k l : (forall x, f x = k * g x) -> nsum (map f l) = k * nsum (map g l).
Proof. intros E. rewrite !nsum_Rsum. unfold Rsum. induction l as [|x l IH]; [cbn; ring|]. cbn [map fold_right]. rewrite IH, E. ring. Qed.
Lemma cfe_score_sx data maxiter rand c : same_runs data maxiter rand c -> cfe_score (sx data) maxiter rand c = cfe_score data maxiter rand c.
Proof.
  intros Hd. unfold cfe_score. rewrite Hd. destruct (est_cmeans data c maxiter None rand) as [[u cs]|]; [|reflexivity]. cbn [rbind].
  rewrite sx_length. cbv zeta.
  assert (C : ndiv (nsum (sx data)) (nat2F (length data)) = a * ndiv (nsum data) (nat2F (length data))) by (rewrite !nsum_Rsum, Rsum_sx; rnum; unfold Rdiv; ring).
  rewrite C. set (center := ndiv (nsum data) (nat2F (length data))). clearbody center.
  assert (K : combine u (sx cs) = map (fun rc => (fst rc, a * snd rc)) (combine u cs)).
  { clear. revert cs. induction u as [|r u IH]; intros [|y cs]; cbn; try reflexivity. f_equal. apply IH. }
  rewrite K, !map_map. cbn [fst snd].
  match goal with |- Ok (_, ndiv (nadd _ (nmul (ndiv ?b' ?k) (ndiv ?n ?w'))) _) = Ok (_, ndiv (nadd _ (nmul (ndiv ?b _) (ndiv _ ?w))) _) =>
    assert (E1 : b' = a * a * b); [|assert (E2 : w' = a * a * w); [|rewrite E1, E2; do 4 f_equal; set (B := b); set (W := w); set (kk := k); set (nn := n)]] end.
  - apply nsum_scale. intros [r x]. cbn [fst snd]. rnum. rewrite <- Rmult_minus_distr_l, abs_sx. ring.
  - apply nsum_scale. intros [r x]. cbn [fst snd]. apply nsum_scale. intros y.
    replace (map (fun d => nsub d (a * x)) (sx data)) with (sx (map (fun d => nsub d x) data)) by (unfold sx; rewrite !map_map; apply map_ext; intros d; rnum; ring).
    rewrite norm_sx. rnum. ring.
  - clearbody B W kk nn. rnum. unfold Rdiv. rewrite !Rinv_mult. replace (a * a * B * / kk * (nn * (/ a * / a * / W))) with (a * / a * (a * / a) * (B * / kk * (nn * / W))) by ring. rewrite Rinv_r by lra. ring.
Qed.
Lemma best_of_in (s1 s2 : nat -> res (list (list R) * R)) mc : (forall c, (2 <= c <= mc)%nat -> s1 c = s2 c) -> best_of s1 mc = best_of s2 mc.
Proof.
  intros E. unfold best_of. assert (G : forall l (acc : nat * list (list R) * R), (forall c, In c l -> s1 c = s2 c) -> forall f, rfold (fun acc n => rbind (s1 n) (f acc n)) l acc = rfold (fun acc n => rbind (s2 n) (f acc n)) l acc).
  { induction l as [|c l IH]; intros acc H f; [reflexivity|]. cbn [rfold]. rewrite (H c (or_introl eq_refl)). destruct (rbind (s2 c) (f acc c)); [|reflexivity]. apply IH. intros c' Hc. apply H. now right. }
  apply G. intros c Hc. apply in_seq in Hc. apply E. lia.
Qed.

(** ** Change points *)
Definition sxp (pts : list (nat * R)) : list (nat * R) := map (fun p => (fst p, a * snd p)) pts.
Definition sxc (st : cp_state (F := R)) : cp_state := mkCP (sxp (cp_pts st)) (cp_grow st) (a * cp_mean st).
Lemma cp_rise_sx v x j st : cp_rise v (a * x) (a * j) (sxc st) = sxc (cp_rise v x j st).
Proof. unfold cp_rise. cbn [sxc cp_mean cp_grow cp_pts]. replace (nltb (nabs (a * cp_mean st)) (a * j)) with (nltb (nabs (cp_mean st)) j) by (rnum; now rewrite abs_sx, ltb_sx). now destruct (_ && _). Qed.
Lemma cp_fall_sx v x j st : cp_fall v (a * x) (a * j) (sxc st) = sxc (cp_fall v x j st).
Proof. unfold cp_fall. cbn [sxc cp_mean cp_grow cp_pts]. replace (nltb (a * j) (nabs (a * cp_mean st))) with (nltb j (nabs (cp_mean st))) by (rnum; now rewrite abs_sx, ltb_sx). now destruct (_ && _). Qed.
Lemma cp_prune_sx n mi v pts : cp_prune n mi v (sxp pts) = sxp (cp_prune n mi v pts).
Proof. destruct pts as [|p [|q t]]; try reflexivity. cbn [sxp map cp_prune fst]. destruct (too_close n mi (fst q) v); reflexivity. Qed.
Lemma cp_step_sx values n mi st v : cp_step (sx values) n mi (sxc st) v = rbind (cp_step values n mi st v) (fun s => Ok (sxc s)).
Proof.
  unfold cp_step. rewrite !sx_nbget. destruct (nbget values v) as [x|]; [|reflexivity]. cbn [rbind]. destruct (nbget values (v + 1)) as [y|]; [|reflexivity]. cbn [rbind].
  replace (nabs (nsub (a * x) (a * y))) with (a * nabs (nsub x y)) by (rnum; rewrite <- abs_sx; f_equal; ring).
  rewrite cp_rise_sx, cp_fall_sx. cbn [sxc cp_pts cp_grow cp_mean]. rewrite cp_prune_sx. apply f_equal. unfold sxc. cbn [cp_pts cp_grow cp_mean]. f_equal. rnum. unfold Rdiv. ring.
Qed.
Lemma cp_loop_sx values n mi l : forall st, rfold (cp_step (sx values) n mi) l (sxc st) = rbind (rfold (cp_step values n mi) l st) (fun s => Ok (sxc s)).
Proof.
  induction l as [|v l IH]; intros st; [reflexivity|]. cbn [rfold]. rewrite cp_step_sx. destruct (cp_step values n mi st v) as [s|]; [|reflexivity]. cbn [rbind]. apply IH.
Qed.
Lemma cp_finish_sx values n mi pts : cp_finish (sx values) n mi (sxp pts) = rbind (cp_finish values n mi pts) (fun l => Ok (sxp l)).
Proof.
  destruct pts as [|p [|q t]]; try reflexivity. cbn [cp_finish sxp map fst snd]. rewrite sx_nbget. destruct (nbget values (n - 1)); [|reflexivity]. cbn [rbind].
  now destruct (too_close n mi (fst p) (n - 1)).
Qed.
Lemma change_points_sx values mc : estimate_change_points (sx values) mc = ('(xs, ys) <- estimate_change_points values mc ;; Ok (xs, sx ys))%res.
Proof.
  unfold estimate_change_points. rewrite sx_length. destruct (pdiv n1 (nat2F mc)) as [mi|]; [|reflexivity]. cbn [rbind].
  replace (mkCP [] false n0) with (sxc (mkCP [] false n0)) at 1 by (unfold sxc; cbn [sxp map cp_pts cp_grow cp_mean]; f_equal; apply Rmult_0_r).
  rewrite cp_loop_sx. destruct (rfold (cp_step values _ mi) _ _) as [st|]; [|reflexivity]. cbn [rbind sxc cp_pts].
  rewrite cp_finish_sx. destruct (cp_finish values _ mi (cp_pts st)) as [pts|]; [|reflexivity]. cbn [rbind]. do 2 f_equal.
  - unfold sxp. rewrite <- map_rev, map_map. reflexivity.
  - unfold sxp, sx. rewrite <- map_rev, !map_map. reflexivity.
Qed.
Lemma removelast_sx l : removelast (sx l) = sx (removelast l).
Proof. induction l as [|x [|y l] IH]; try reflexivity. cbn [sx map removelast] in *. f_equal. exact IH. Qed.

(** ** The choice of the clusters *)
(** the condition: in no run of c-means does a centre come closer to a value than
    eps, in either unit; the start of the strategy "gap" is not taken for the end *)
Definition apart (data : list R) (mc : nat) (mth : method) (maxiter : Z) (fit : list R) (rand : nat -> list (list R)) : Prop :=
  match mth with
  | MGap => forall xs ys, estimate_change_points fit mc = Ok (xs, ys) -> (2 < length ys)%nat ->
      far data (removelast ys) /\
      forall k u cs, (2 <= k <= maxiter)%Z -> est_cmeans data (length ys - 1) k (Some (one_dimension_distance data (removelast ys))) rand = Ok (u, cs) ->
        far data cs /\ (k = 2%Z -> nlit 1 10000 <= mdist u (one_dimension_distance data (removelast ys)) /\ nlit 1 10000 <= mdist u (one_dimension_distance (sx data) (removelast (sx ys))))
  | _ => forall c, (2 <= c <= mc)%nat -> shape c (length data) (rand c) /\ forall k u cs, (2 <= k <= maxiter)%Z -> est_cmeans data c k None rand = Ok (u, cs) -> far data cs
  end.
Lemma m_not_1 : nlit 5 2 <> (1 : R).
Proof. unfold nlit. rnum. lra. Qed.
Lemma distance_shape data (cs : list R) : shape (length cs) (length data) (one_dimension_distance data cs).
Proof. unfold one_dimension_distance. split; [apply map_length|]. apply Forall_map. apply Forall_forall. intros c _. apply map_length. Qed.
Lemma distance_high data cs : far data cs -> high (one_dimension_distance data cs) /\ high (sxm (one_dimension_distance data cs)).
Proof.
  intros H. split; intros r x Hr Hx.
  - unfold one_dimension_distance in Hr. apply in_map_iff in Hr as (c & <- & Hc). apply in_map_iff in Hx as (y & <- & Hy). now apply H.
  - unfold sxm, one_dimension_distance in Hr. rewrite map_map in Hr. apply in_map_iff in Hr as (c & <- & Hc). unfold sx in Hx. rewrite map_map in Hx. apply in_map_iff in Hx as (y & <- & Hy). now apply H.
Qed.
Lemma removelast_length {A} (l : list A) : length (removelast l) = (length l - 1)%nat.
Proof. induction l as [|x [|y l] IH]; try reflexivity. cbn [removelast length] in *. rewrite IH. lia. Qed.
Lemma estimate_sx data mc mth maxiter fit rand : data <> [] -> (2 <= maxiter)%Z -> apart data mc mth maxiter fit rand ->
  estimate_clusters (sx data) mc mth maxiter (sx fit) rand = estimate_clusters data mc mth maxiter fit rand.
Proof.
  intros Hd Hi H. unfold estimate_clusters. rewrite sx_length. destruct (Nat.leb (length data) mc); [reflexivity|].
  assert (Q : forall c, shape c (length data) (rand c) -> (0 < c)%nat -> (forall k u cs, (2 <= k <= maxiter)%Z -> est_cmeans data c k None rand = Ok (u, cs) -> far data cs) -> same_runs data maxiter rand c).
  { intros c Hs Hc K. unfold same_runs, est_cmeans. apply clusters_sx; auto using m_not_1. }
  destruct mth; cbn [apart] in H.
  - unfold gap_concentration. rewrite change_points_sx. destruct (estimate_change_points fit mc) as [[xs ys]|]; [|reflexivity]. cbn [rbind]. cbv zeta.
    rewrite sx_length. destruct (Nat.ltb_spec 2 (length ys)) as [L|L].
    + destruct (H xs ys eq_refl L) as [F K]. destruct (distance_high _ _ F) as [G1 G2]. rewrite removelast_sx, distance_sx.
      destruct (Nat.ltb 1 (length ys - 1)); [|reflexivity]. unfold est_cmeans. rewrite started_sx; auto using m_not_1.
      * destruct (fuzzy_cmeans data _ _ _ _ _ _) as [[u cs]|]; reflexivity.
      * lia.
      * rewrite <- removelast_length. apply distance_shape.
      * intros k u cs Hk E. now apply (K k u cs).
      * intros u cs E. destruct (K 2%Z u cs ltac:(lia) E) as [_ T]. destruct (T eq_refl) as [T1 T2]. rewrite removelast_sx, distance_sx in T2.
        transitivity false; [apply Rltb_false; exact T2|symmetry; apply Rltb_false; exact T1].
    + destruct (Nat.ltb_spec 1 (length ys - 1)); [lia|reflexivity].
  - unfold fuzzy_silhouette. rewrite (best_of_in _ (sil_score data maxiter rand)); [reflexivity|]. intros c Hc. apply sil_score_sx. destruct (H c Hc). apply Q; auto. lia.
  - unfold cfe. rewrite (best_of_in _ (cfe_score data maxiter rand)); [reflexivity|]. intros c Hc. apply cfe_score_sx. destruct (H c Hc). apply Q; auto. lia.
Qed.

(** ** Three clusters, and the whole *)
Lemma make_odd_sx l : make_odd (sx l) = rbind (make_odd l) (fun v => Ok (sx v)).
Proof.
  unfold make_odd. rewrite sx_length. destruct (Nat.even (length l)); [|reflexivity]. destruct (length l); [reflexivity|]. rewrite !sx_lget.
  destruct (lget l _) as [x|]; [|reflexivity]. cbn [rbind]. destruct (lget l (_ + 1)) as [y|]; [|reflexivity]. cbn [rbind]. unfold sx.
  rewrite !map_app. cbn [map]. rewrite firstn_map, skipn_map. do 3 f_equal. unfold middle_value. rnum. f_equal. rewrite <- Rmult_minus_distr_l, abs_sx. unfold Rdiv. ring.
Qed.
Lemma three_sx l : create_three_clusters (sx l) = ('(vals, d) <- create_three_clusters l ;; Ok (sx vals, d))%res.
Proof.
  unfold create_three_clusters. rewrite make_odd_sx. destruct (make_odd l) as [v|]; [|reflexivity]. cbn [rbind]. cbv zeta. rewrite sx_length.
  destruct (rfold _ _ _) as [m|]; [|reflexivity]. cbn [rbind]. destruct (zset m 0 _) as [m1|]; [|reflexivity]. cbn [rbind].
  destruct (zset m1 _ _) as [m2|]; [|reflexivity]. cbn [rbind]. destruct (zset m2 _ _) as [m3|]; reflexivity.
Qed.
Lemma increasing_sx l : increasing l -> increasing (sx l).
Proof.
  unfold increasing. induction 1 as [|x l H IH F]; [constructor|]. cbn. constructor; [exact IH|]. apply Forall_map. eapply Forall_impl; [|exact F]. cbv beta. intros y Hy. now apply Rmult_lt_compat_l.
Qed.
Lemma unique_up (l : list R) : increasing (unique nleb neqb l) /\ forall x, In x (unique nleb neqb l) <-> In x l.
Proof. destruct (unique_spec _ _ R_total_order l) as [A B]. split; [now apply strictly_sorted_increasing|exact B]. Qed.
Lemma unique_sx l : unique nleb neqb (sx l) = sx (unique nleb neqb l).
Proof.
  destruct (unique_up l) as [A B]. destruct (unique_up (sx l)) as [C D]. apply increasing_same; auto using increasing_sx.
  intros x. rewrite D. unfold sx. rewrite !in_map_iff. split; intros (y & E & Hy); exists y; split; auto; now apply B.
Qed.
Lemma disc_sx l mc maxiter st mth att fit rand : (2 <= maxiter)%Z -> dist_strategy st = Some (Some mth) -> apart (unique nleb neqb l) mc mth maxiter fit rand ->
  fuzzy_feature_discretization (sx l) mc maxiter st att (sx fit) rand =
  ('(n, vals, d) <- fuzzy_feature_discretization l mc maxiter st att fit rand ;; Ok (n, sx vals, d))%res.
Proof.
  intros Hm Hst H. unfold fuzzy_feature_discretization. rewrite unique_sx. cbv zeta. set (us := unique nleb neqb l) in *. rewrite sx_length. destruct (Nat.ltb_spec (length us) 10) as [|Hl]; [reflexivity|].
  assert (Hne : us <> []) by (intros E; rewrite E in Hl; cbn in Hl; lia). rewrite Hst.
  rewrite estimate_sx by auto. destruct (estimate_clusters us mc mth maxiter fit rand) as [[k d]|]; [|reflexivity]. cbn [rbind]. destruct (Nat.ltb k 2); [|reflexivity].
  rewrite three_sx. destruct (create_three_clusters us) as [[vals d']|]; reflexivity.
Qed.
End Scale.
