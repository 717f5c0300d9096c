(** FunctionsFacts.v — proofs about the activation, decision and relation functions. *)
From Verif Require Import Base BaseFacts Num Functions Spec RealFacts.
Local Open Scope R_scope.

Lemma saturation_clamp x : saturation x = clamp 0 1 x.
Proof.
  unfold saturation, clamp. rnum. rcase; unfold Rmax, Rmin;
  repeat destruct Rle_dec; lra.
Qed.
Lemma bistate_spec x : (bistate x = 1 <-> 0 < x) /\ (bistate x = 0 <-> x <= 0).
Proof. unfold bistate. rnum. rcase; lra. Qed.
Lemma threestate_spec x :
  (x <= 1/3 -> threestate x = 0) /\ (1/3 < x <= 2/3 -> threestate x = 1/2) /\ (2/3 < x -> threestate x = 1).
Proof. unfold threestate. rnum. rcase; lra. Qed.
Lemma threestate_mono x y : x <= y -> threestate x <= threestate y.
Proof. unfold threestate. rnum. rcase; lra. Qed.

Lemma sigmoid_eq x l : sigmoid x l = 1 / (1 + exp (- (l * x))).
Proof. unfold sigmoid. rnum. replace (-1 * l * x) with (- (l * x)) by lra. reflexivity. Qed.
Lemma sigmoid_range x l : 0 < sigmoid x l < 1.
Proof.
  rewrite sigmoid_eq. pose proof (exp_pos (- (l * x))) as H. split.
  - apply Rdiv_lt_0_compat; lra.
  - apply Rmult_lt_reg_r with (1 + exp (- (l * x))); [lra|]. unfold Rdiv.
    rewrite Rmult_assoc, Rinv_l by lra. lra.
Qed.
Lemma sigmoid_mono x y l : 0 < l -> x < y -> sigmoid x l < sigmoid y l.
Proof.
  intros Hl Hxy. rewrite !sigmoid_eq.
  pose proof (exp_pos (- (l * x))) as Hx. pose proof (exp_pos (- (l * y))) as Hy.
  assert (exp (- (l * y)) < exp (- (l * x))) by (apply exp_increasing; nra).
  unfold Rdiv. rewrite !Rmult_1_l. apply Rinv_lt_contravar; [|lra].
  apply Rmult_lt_0_compat; lra.
Qed.
Lemma sigmoid_sym x l : sigmoid (- x) l = 1 - sigmoid x l.
Proof.
  rewrite !sigmoid_eq. replace (- (l * - x)) with (l * x) by lra. rewrite exp_Ropp.
  pose proof (exp_pos (l * x)) as H. field. lra.
Qed.

(** hyperbolic sigmoid as a function of the (capped) exponent *)
Definition hip (t : R) : R := (1 - exp t) / (1 + exp t).
Lemma hip_alt t : hip t = 2 / (1 + exp t) - 1.
Proof. unfold hip. pose proof (exp_pos t). field. lra. Qed.
Lemma hip_range t : -1 < hip t < 1.
Proof.
  rewrite hip_alt. pose proof (exp_pos t) as H.
  assert (0 < 2 / (1 + exp t)) by (apply Rdiv_lt_0_compat; lra).
  assert (2 / (1 + exp t) < 2).
  { apply Rmult_lt_reg_r with (1 + exp t); [lra|]. unfold Rdiv. rewrite Rmult_assoc, Rinv_l by lra. lra. }
  lra.
Qed.
Lemma hip_dec t u : t <= u -> hip u <= hip t.
Proof.
  intros H. rewrite !hip_alt. pose proof (exp_pos t). pose proof (exp_pos u).
  assert (exp t <= exp u). { destruct H; [left; now apply exp_increasing|right; congruence]. }
  assert (/ (1 + exp u) <= / (1 + exp t)) by (apply Rinv_le_contravar; lra).
  unfold Rdiv. lra.
Qed.
Lemma hip_odd t : hip (- t) = - hip t.
Proof. rewrite !hip_alt, exp_Ropp. pose proof (exp_pos t). field. lra. Qed.
Lemma sigmoid_hip_eq x l : sigmoid_hip x l = hip (Rmin 500 (- (l * x))).
Proof.
  unfold sigmoid_hip, hip, Rmin. rnum. replace (-1 * l * x) with (- (l * x)) by lra.
  destruct (Rle_dec 500 (- (l * x))), (Rltb_spec 500 (- (l * x))); try lra; auto.
  assert (- (l * x) = 500) as -> by lra. reflexivity.
Qed.
Lemma hip_tanh t : hip (- t) = tanh (t / 2).
Proof.
  unfold hip, tanh, sinh, cosh.
  assert (E : exp (- t) = exp (- (t/2)) * exp (- (t/2))). { rewrite <- exp_plus. f_equal. lra. }
  rewrite E, exp_Ropp. pose proof (exp_pos (t/2)) as H.
  assert (exp (t/2) * exp (t/2) + 1 <> 0) by nra. field. repeat split; try lra; nra.
Qed.
Lemma sigmoid_hip_range x l : -1 < sigmoid_hip x l < 1.
Proof. rewrite sigmoid_hip_eq. apply hip_range. Qed.
Lemma sigmoid_hip_mono x y l : 0 <= l -> x <= y -> sigmoid_hip x l <= sigmoid_hip y l.
Proof.
  intros Hl Hxy. rewrite !sigmoid_hip_eq. apply hip_dec.
  assert (- (l * y) <= - (l * x)) by nra. unfold Rmin; repeat destruct Rle_dec; lra.
Qed.
Lemma sigmoid_hip_tanh x l : - (l * x) <= 500 -> sigmoid_hip x l = tanh (l * x / 2).
Proof.
  intros H. rewrite sigmoid_hip_eq. rewrite Rmin_right by lra. now rewrite hip_tanh.
Qed.
Lemma sigmoid_hip_odd x l : Rabs (l * x) <= 500 -> sigmoid_hip (- x) l = - sigmoid_hip x l.
Proof.
  intros H. assert (-500 <= l * x <= 500) by (revert H; unfold Rabs; destruct Rcase_abs; lra).
  rewrite !sigmoid_hip_eq. rewrite !Rmin_right by lra. rewrite <- hip_odd. f_equal. lra.
Qed.
Lemma sigmoid_hip_cut x l : 500 <= - (l * x) -> sigmoid_hip x l = - tanh 250.
Proof.
  intros H. rewrite sigmoid_hip_eq. rewrite Rmin_left by lra.
  replace 500 with (- (-500)) by lra. rewrite hip_tanh.
  replace (-500 / 2) with (- (250)) by lra.
  unfold tanh, sinh, cosh. rewrite Ropp_involutive. unfold Rdiv.
  rewrite (Rplus_comm (exp (- (250)))).
  rewrite <- !Ropp_mult_distr_l_reverse. f_equal. lra.
Qed.

Lemma relm_pos x l : 0 < l -> relm x l = Ok (clamp 0 1 (x / l)).
Proof.
  intros Hl. unfold relm, clamp. rnum. destruct (Rltb_spec x 0) as [H|H].
  - f_equal. assert (x / l < 0). { unfold Rdiv. pose proof (Rinv_0_lt_compat l Hl). nra. }
    unfold Rmax, Rmin; repeat destruct Rle_dec; lra.
  - destruct (Reqb_spec l 0); [lra|]. cbn [rbind].
    assert (0 <= x / l). { unfold Rdiv. pose proof (Rinv_0_lt_compat l Hl). nra. }
    destruct (Rltb_spec 1 (x / l)); apply f_equal; unfold Rmax, Rmin; repeat destruct Rle_dec; lra.
Qed.
Lemma relm_neg x l : x < 0 -> relm x l = Ok 0.
Proof. intros H. unfold relm. rnum. destruct (Rltb_spec x 0); [reflexivity|lra]. Qed.
Lemma relm_zero x : 0 <= x -> relm x 0 = Err EZeroDiv.
Proof. intros H. unfold relm. rnum. destruct (Rltb_spec x 0); [lra|]. destruct (Reqb_spec 0 0); [reflexivity|lra]. Qed.

Lemma gceq_spec x w :
  (w <= x -> greater_cond_equality x w = clamp (-1) 1 x) /\ (x < w -> greater_cond_equality x w = 0).
Proof. unfold greater_cond_equality, clamp, Rmax, Rmin. rnum. split; intros H; rcase; repeat destruct Rle_dec; lra. Qed.
Lemma lceq_spec x w :
  (x <= w -> lower_cond_equality x w = clamp (-1) 1 x) /\ (w < x -> lower_cond_equality x w = 0).
Proof. unfold lower_cond_equality, clamp, Rmax, Rmin. rnum. split; intros H; rcase; repeat destruct Rle_dec; lra. Qed.
Lemma cond_eq_range x w : -1 <= greater_cond_equality x w <= 1 /\ -1 <= lower_cond_equality x w <= 1.
Proof. unfold greater_cond_equality, lower_cond_equality. rnum. split; rcase; lra. Qed.

Lemma sigmoid_lambda_inv x y : x <> 0 -> 0 < y < 1 ->
  exists l, sigmoid_lambda x y = Ok l /\ sigmoid x l = y.
Proof.
  intros Hx Hy. unfold sigmoid_lambda. rnum.
  destruct (Reqb_spec y 0); [lra|]. cbn [rbind]. destruct (Reqb_spec x 0); [lra|]. cbn [rbind].
  eexists; split; [reflexivity|]. rewrite sigmoid_eq.
  replace (- (-1 * (ln (1 / y - 1) / x) * x)) with (ln (1 / y - 1)) by (field; auto).
  assert (1 < 1 / y).
  { apply Rmult_lt_reg_r with y; [lra|]. unfold Rdiv. rewrite Rmult_assoc, Rinv_l by lra. lra. }
  rewrite exp_ln by lra. field. lra.
Qed.
Lemma sigmoid_hip_lambda_inv x y : x <> 0 -> -1 < y < 1 -> (1 - y) / (1 + y) <= exp 500 ->
  exists l, sigmoid_hip_lambda x y = Ok l /\ sigmoid_hip x l = y.
Proof.
  intros Hx Hy Hc. unfold sigmoid_hip_lambda. rnum.
  destruct (Reqb_spec (1 + y) 0); [lra|]. cbn [rbind]. destruct (Reqb_spec x 0); [lra|]. cbn [rbind].
  eexists; split; [reflexivity|]. rewrite sigmoid_hip_eq.
  replace (- (-1 * (ln ((1 - y) / (1 + y)) / x) * x)) with (ln ((1 - y) / (1 + y))) by (field; repeat split; auto; lra).
  assert (Hp : 0 < (1 - y) / (1 + y)) by (apply Rdiv_lt_0_compat; lra).
  rewrite Rmin_right.
  - unfold hip. rewrite exp_ln by auto. field. lra.
  - rewrite <- (ln_exp 500). destruct Hc as [Hc|Hc]; [left; now apply ln_increasing|right; congruence].
Qed.

(** ** fuzzy_set *)
Lemma searchsorted_le (xs : list R) v : (searchsorted xs v <= length xs)%nat.
Proof. induction xs; simpl; auto. rnum. destruct (Rltb a v); simpl; lia. Qed.
Lemma searchsorted_below (xs : list R) v j x :
  (j < searchsorted xs v)%nat -> nth_error xs j = Some x -> x < v.
Proof.
  revert j; induction xs as [|a xs IH]; intros j; simpl; [intros; lia|]. rnum.
  destruct (Rltb_spec a v); [|lia]. destruct j; simpl; [intros _ [= <-]; auto|].
  intros H. apply IH. lia.
Qed.
Lemma searchsorted_at (xs : list R) v x :
  nth_error xs (searchsorted xs v) = Some x -> v <= x.
Proof.
  induction xs as [|a xs IH]; simpl; [discriminate|]. rnum.
  destruct (Rltb_spec a v); simpl; auto. intros [= <-]. lra.
Qed.
Lemma searchsorted_is (xs : list R) v i :
  (forall j x, (j < i)%nat -> nth_error xs j = Some x -> x < v) ->
  (i <= length xs)%nat -> (forall x, nth_error xs i = Some x -> v <= x) ->
  searchsorted xs v = i.
Proof.
  revert i; induction xs as [|a xs IH]; intros i H1 H2 H3; simpl in *.
  - lia.
  - rnum. destruct i as [|i].
    + destruct (Rltb_spec a v); auto. specialize (H3 a eq_refl). lra.
    + destruct (Rltb_spec a v) as [|Hn].
      * f_equal. apply IH; [|lia|auto]. intros j x Hj Hx. apply (H1 (S j)); auto. lia.
      * exfalso. apply Hn. apply (H1 O a); auto. lia.
Qed.

Definition negactb (mn mx v : R) : bool :=
  Rleb 0 mn && Rleb mn 1 && Rleb 0 mx && Rleb mx 1 && Rltb v 0.
Lemma negactb_spec xs mn mx v : is_min xs mn -> is_max xs mx ->
  negactb mn mx v = true <-> negact v xs.
Proof.
  intros [Hm1 Hm2] [Hx1 Hx2]. unfold negactb, negact, in01.
  rewrite !Bool.andb_true_iff, !Rleb_true, Rltb_true. rewrite Forall_forall. split.
  - intros H. split; [tauto|]. intros x Hx. specialize (Hm2 _ Hx). specialize (Hx2 _ Hx). lra.
  - intros [H1 H2]. pose proof (H2 _ Hm1). pose proof (H2 _ Hx1). lra.
Qed.

(** The computation once min/max are known. *)
Definition fz_neg (neg : bool) (m : R) : R := if neg then -1 * (1 - m) else m.


Lemma fuzzy_set_hit v (ms xs : list R) i m (neg : bool) x :
  (if neg then negact v xs else ~ negact v xs) ->
  let v' := if neg then Rabs v else v in
  (* index chosen by the code *)
  (let i0 := searchsorted xs v' in (if Nat.eqb i0 (length xs) then (i0 - 1)%nat else i0) = i) ->
  nth_error xs i = Some x -> nth_error ms i = Some m ->
  (x = v' \/ (i = O /\ v' < x) \/ (i = (length xs - 1)%nat /\ (0 < i)%nat /\ x < v')) ->
  fuzzy_set v ms xs = Ok (fz_neg neg m).
Proof.
  intros Hneg v' Hi Hx Hm Hc. unfold fuzzy_set.
  assert (Hne : xs <> []) by (intros ->; destruct i; discriminate).
  destruct (min_list_spec xs Hne) as (mn & Emn & Smn). destruct (max_list_spec xs Hne) as (mx & Emx & Smx).
  rewrite Emn, Emx. cbn [rbind].
  assert (Hb : negactb mn mx v = neg).
  { pose proof (negactb_spec xs mn mx v Smn Smx) as Hs. destruct neg.
    - now apply Hs.
    - destruct (negactb mn mx v); auto. exfalso. apply Hneg. now apply Hs. }
  rnum. fold (negactb mn mx v). rewrite Hb. fold v'.
  cbv zeta in Hi. cbv zeta. rewrite Hi. unfold nbget at 1. rewrite Hx. cbn [rbind].
  replace (nbget ms i) with (@Ok R m) by (unfold nbget; now rewrite Hm). cbn [rbind]. unfold fz_neg.
  destruct (Reqb_spec x v') as [E|E]; [destruct neg; reflexivity|].
  destruct Hc as [Hc|[[Hi0 Hc]|[Hi1 [Hi2 Hc]]]]; [congruence| |].
  - rewrite Hi0. cbn [Nat.eqb]. destruct (Rltb_spec v' x); [|lra]. destruct neg; reflexivity.
  - destruct (Nat.eqb_spec i 0) as [E0|E0]; [lia|].
    rewrite <- Hi1, Nat.eqb_refl. destruct (Rltb_spec x v'); [|lra]. destruct neg; reflexivity.
Qed.

Definition rsign (v : R) : R := if Reqb v 0 then 1 else v / Rabs v.
Lemma fuzzy_set_between v (ms xs : list R) i m0 m1 (neg : bool) x0 x1 :
  (if neg then negact v xs else ~ negact v xs) ->
  let v' := if neg then Rabs v else v in
  searchsorted xs v' = S i ->
  nth_error xs i = Some x0 -> nth_error xs (S i) = Some x1 ->
  nth_error ms i = Some m0 -> nth_error ms (S i) = Some m1 ->
  x0 < v' < x1 ->
  let est := rsign v' * line x0 m0 x1 m1 (Rabs v') in
  fuzzy_set v ms xs = Ok (if neg then -1 * (1 - est) else clamp (-1) 1 est).
Proof.
  intros Hneg v' Hi Hx0 Hx1 Hm0 Hm1 Hb est. unfold fuzzy_set.
  assert (Hne : xs <> []) by (intros ->; destruct i; discriminate).
  assert (Hlt : (S i < length xs)%nat) by (apply nth_error_Some; congruence).
  destruct (min_list_spec xs Hne) as (mn & Emn & Smn). destruct (max_list_spec xs Hne) as (mx & Emx & Smx).
  rewrite Emn, Emx. cbn [rbind].
  assert (Hnb : negactb mn mx v = neg).
  { pose proof (negactb_spec xs mn mx v Smn Smx) as Hs. destruct neg.
    - now apply Hs.
    - destruct (negactb mn mx v); auto. exfalso. apply Hneg. now apply Hs. }
  rnum. fold (negactb mn mx v). rewrite Hnb. fold v'. cbv zeta. rewrite Hi.
  destruct (Nat.eqb_spec (S i) (length xs)); [lia|].
  replace (nbget xs (S i)) with (@Ok R x1) by (unfold nbget; now rewrite Hx1). cbn [rbind].
  destruct (Reqb_spec x1 v') as [E|_]; [lra|]. cbn [Nat.eqb].
  match goal with |- match ?s with inl _ => _ | inr _ => _ end = _ => assert (Hsel : s = inr (i, S i)) end.
  { match goal with |- (if ?c then _ else _) = _ => destruct c end.
    - destruct (Rltb_spec x1 v'); [lra|]. replace (S i - 1)%nat with i by lia; reflexivity.
    - destruct (Rltb_spec 0 (v' - x1)); [lra|]. replace (S i - 1)%nat with i by lia; reflexivity. }
  rewrite Hsel. clear Hsel.
  assert (Hsign : (if Reqb v' 0 then Ok 1 else if Reqb (Rabs v') 0 then Err EZeroDiv else Ok (v' / Rabs v'))
                  = Ok (rsign v')).
  { unfold rsign. destruct (Reqb_spec v' 0); auto. destruct (Reqb_spec (Rabs v') 0) as [E|]; auto.
    exfalso. revert E. now apply Rabs_no_R0. }
  rewrite Hsign. cbn [rbind].
  replace (nbget ms i) with (@Ok R m0) by (unfold nbget; now rewrite Hm0). cbn [rbind].
  replace (nbget ms (S i)) with (@Ok R m1) by (unfold nbget; now rewrite Hm1). cbn [rbind].
  replace (nbget xs (S i)) with (@Ok R x1) by (unfold nbget; now rewrite Hx1). cbn [rbind].
  replace (nbget xs i) with (@Ok R x0) by (unfold nbget; now rewrite Hx0). cbn [rbind].
  destruct (Reqb_spec (x1 - x0) 0) as [E|E]; [lra|]. cbn [rbind].
  replace (rsign v' * ((1 - (Rabs v' - x0) / (x1 - x0)) * m0 + (1 - (x1 - Rabs v') / (x1 - x0)) * m1))
    with est by (unfold est, line; field; lra).
  destruct neg; [reflexivity|]. apply f_equal. unfold clamp, Rmax, Rmin.
  generalize est as e. intros e. destruct (Rltb_spec 1 e); rcase; repeat destruct Rle_dec; lra.
Qed.

(** ** Consequences for strictly increasing value lists *)
Lemma increasing_searchsorted_at xs i v : increasing_list xs -> nth_error xs i = Some v -> searchsorted xs v = i.
Proof.
  intros Hi Hx. apply searchsorted_is.
  - intros j x Hj Hjx. eapply Hi; eauto.
  - apply Nat.lt_le_incl. apply nth_error_Some. congruence.
  - intros x Hx'. rewrite Hx in Hx'. injection Hx' as <-. lra.
Qed.
Lemma increasing_searchsorted_between xs i v x0 x1 : increasing_list xs ->
  nth_error xs i = Some x0 -> nth_error xs (S i) = Some x1 -> x0 < v < x1 -> searchsorted xs v = S i.
Proof.
  intros Hi H0 H1 Hb. apply searchsorted_is.
  - intros j x Hj Hx. destruct (Nat.eq_dec j i) as [->|].
    + rewrite H0 in Hx. injection Hx as <-. lra.
    + apply Rlt_trans with x0; [|lra]. apply (Hi j i x x0); auto. lia.
  - apply Nat.lt_le_incl. apply nth_error_Some. congruence.
  - intros x Hx. rewrite H1 in Hx. injection Hx as <-. lra.
Qed.

Lemma fuzzy_at_knot v ms xs i m : increasing_list xs -> ~ negact v xs ->
  nth_error xs i = Some v -> nth_error ms i = Some m -> fuzzy_set v ms xs = Ok m.
Proof.
  intros Hi Hn Hx Hm. apply (fuzzy_set_hit v ms xs i m false v); auto.
  cbv zeta. rewrite (increasing_searchsorted_at xs i v); auto.
  assert ((i < length xs)%nat) by (apply nth_error_Some; congruence).
  destruct (Nat.eqb_spec i (length xs)); lia.
Qed.
Lemma fuzzy_below v ms xs x0 m0 : ~ negact v xs ->
  nth_error xs 0 = Some x0 -> nth_error ms 0 = Some m0 -> v < x0 -> fuzzy_set v ms xs = Ok m0.
Proof.
  intros Hn Hx Hm Hv. apply (fuzzy_set_hit v ms xs 0 m0 false x0); auto.
  cbv zeta. rewrite (searchsorted_is xs v 0); [|intros; lia|lia|].
  - destruct xs; [discriminate|]. reflexivity.
  - intros x Hx'. rewrite Hx in Hx'. injection Hx' as <-. lra.
Qed.
Lemma fuzzy_above v ms xs x1 m1 : increasing_list xs -> (2 <= length xs)%nat -> ~ negact v xs ->
  nth_error xs (length xs - 1) = Some x1 -> nth_error ms (length xs - 1) = Some m1 -> x1 < v ->
  fuzzy_set v ms xs = Ok m1.
Proof.
  intros Hi Hl Hn Hx Hm Hv. apply (fuzzy_set_hit v ms xs (length xs - 1) m1 false x1); auto.
  - cbv zeta. rewrite (searchsorted_is xs v (length xs)).
    + now rewrite Nat.eqb_refl.
    + intros j x Hj Hjx. destruct (Nat.eq_dec j (length xs - 1)) as [->|].
      * rewrite Hx in Hjx. injection Hjx as <-. auto.
      * apply Rlt_trans with x1; auto. apply (Hi j (length xs - 1)%nat); auto. lia.
    + lia.
    + intros x Hx'. assert (length xs < length xs)%nat by (apply nth_error_Some; congruence). lia.
  - right; right. repeat split; auto. lia.
Qed.
Lemma fuzzy_between_nonneg v ms xs i x0 x1 m0 m1 : increasing_list xs -> 0 <= v ->
  nth_error xs i = Some x0 -> nth_error xs (S i) = Some x1 ->
  nth_error ms i = Some m0 -> nth_error ms (S i) = Some m1 -> x0 < v < x1 ->
  fuzzy_set v ms xs = Ok (clamp (-1) 1 (line x0 m0 x1 m1 v)).
Proof.
  intros Hi Hv Hx0 Hx1 Hm0 Hm1 Hb.
  rewrite (fuzzy_set_between v ms xs i m0 m1 false x0 x1); auto.
  - cbv zeta. rewrite Rabs_pos_eq by lra.
    assert (rsign v = 1) as ->.
    { unfold rsign. destruct (Reqb_spec v 0); auto. rewrite Rabs_pos_eq by lra. field. auto. }
    now rewrite Rmult_1_l.
  - intros [H _]. lra.
  - eapply increasing_searchsorted_between; eauto.
Qed.
Lemma fuzzy_between_neg v ms xs i x0 x1 m0 m1 : increasing_list xs -> v < 0 -> ~ negact v xs ->
  nth_error xs i = Some x0 -> nth_error xs (S i) = Some x1 ->
  nth_error ms i = Some m0 -> nth_error ms (S i) = Some m1 -> x0 < v < x1 ->
  fuzzy_set v ms xs = Ok (clamp (-1) 1 (- line x0 m0 x1 m1 (- v))).
Proof.
  intros Hi Hv Hn Hx0 Hx1 Hm0 Hm1 Hb.
  rewrite (fuzzy_set_between v ms xs i m0 m1 false x0 x1); auto.
  - cbv zeta. rewrite Rabs_left by lra.
    assert (rsign v = -1) as ->.
    { unfold rsign. destruct (Reqb_spec v 0); [lra|]. rewrite Rabs_left by lra. field. auto. }
    do 2 f_equal. lra.
  - eapply increasing_searchsorted_between; eauto.
Qed.
Lemma line_range x0 y0 x1 y1 v : x0 < v < x1 -> 0 <= y0 <= 1 -> 0 <= y1 <= 1 ->
  0 <= line x0 y0 x1 y1 v <= 1.
Proof.
  intros Hb H0 H1. unfold line.
  set (t := (v - x0) / (x1 - x0)).
  assert (Ht : 0 < t < 1).
  { unfold t. split; [apply Rdiv_lt_0_compat; lra|].
    apply Rmult_lt_reg_r with (x1 - x0); [lra|]. unfold Rdiv. rewrite Rmult_assoc, Rinv_l by lra. lra. }
  replace (y0 + (v - x0) * ((y1 - y0) / (x1 - x0))) with ((1 - t) * y0 + t * y1)
    by (unfold t; field; lra).
  nra.
Qed.
Lemma clamp_id lo hi x : lo <= x <= hi -> clamp lo hi x = x.
Proof. unfold clamp, Rmax, Rmin. intros. repeat destruct Rle_dec; lra. Qed.
Lemma clamp_range lo hi x : lo <= hi -> lo <= clamp lo hi x <= hi.
Proof. unfold clamp, Rmax, Rmin. intros. repeat destruct Rle_dec; lra. Qed.

(** Where a value can be relative to the knots. *)
Lemma knot_cases xs v : xs <> [] ->
  (exists i, nth_error xs i = Some v /\ searchsorted xs v = i) \/
  (exists x0, nth_error xs 0 = Some x0 /\ v < x0 /\ searchsorted xs v = O) \/
  (exists x1, nth_error xs (length xs - 1) = Some x1 /\ x1 < v /\ searchsorted xs v = length xs) \/
  (exists i x0 x1, nth_error xs i = Some x0 /\ nth_error xs (S i) = Some x1 /\ x0 < v < x1 /\
     searchsorted xs v = S i).
Proof.
  intros Hne. set (k := searchsorted xs v).
  assert (Hk : (k <= length xs)%nat) by apply searchsorted_le.
  destruct (nth_error xs k) as [x|] eqn:Ex.
  - pose proof (searchsorted_at xs v x Ex) as Hge.
    destruct (Req_EM_T x v) as [->|Hnv]; [left; exists k; auto|].
    destruct k as [|i] eqn:Ek.
    + right; left. exists x. repeat split; auto. lra.
    + right; right; right.
      destruct (nth_error xs i) as [x0|] eqn:E0.
      2:{ apply nth_error_None in E0. assert (S i < length xs)%nat by (apply nth_error_Some; congruence). lia. }
      exists i, x0, x. repeat split; auto; [|lra].
      eapply searchsorted_below; [|exact E0]. fold k. lia.
  - apply nth_error_None in Ex. right; right; left.
    assert (Hl : (0 < length xs)%nat) by (destruct xs; [congruence|simpl; lia]).
    destruct (nth_error xs (length xs - 1)) as [x1|] eqn:E1; [|apply nth_error_None in E1; lia].
    exists x1. repeat split; auto; [|lia].
    eapply searchsorted_below; [|exact E1]. fold k. lia.
Qed.

(** The negative branch: |v| is looked up and 1 subtracted. *)
Lemma fuzzy_neg_shift v ms xs : increasing_list xs -> (2 <= length xs)%nat -> length ms = length xs ->
  in01 ms -> in01 xs -> v < 0 ->
  exists r, fuzzy_set (- v) ms xs = Ok r /\ 0 <= r <= 1 /\ fuzzy_set v ms xs = Ok (r - 1).
Proof.
  intros Hi Hl2 Hlen Hms Hxs Hv.
  assert (Hne : xs <> []) by (intros ->; simpl in *; lia).
  assert (Hn : negact v xs) by (split; auto).
  assert (Hnn : ~ negact (- v) xs) by (intros [H _]; lra).
  assert (Habs : Rabs v = - v) by (apply Rabs_left; auto).
  assert (Hget : forall i x, nth_error xs i = Some x -> exists m, nth_error ms i = Some m /\ 0 <= m <= 1).
  { intros i x Hx. destruct (nth_error ms i) as [m|] eqn:E.
    - exists m. split; auto. unfold in01 in Hms. rewrite Forall_forall in Hms. apply Hms. eapply nth_error_In; eauto.
    - apply nth_error_None in E. assert (i < length xs)%nat by (apply nth_error_Some; congruence). lia. }
  destruct (knot_cases xs (- v) Hne) as [(i & Hx & Hs)|[(x0 & Hx & Hlt & Hs)|[(x1 & Hx & Hlt & Hs)|(i & x0 & x1 & Hx0 & Hx1 & Hb & Hs)]]].
  - destruct (Hget _ _ Hx) as (m & Hm & Hr). exists m. split; [apply (fuzzy_at_knot _ _ _ i); auto|].
    split; auto. rewrite (fuzzy_set_hit v ms xs i m true (- v)); auto.
    + unfold fz_neg. f_equal. lra.
    + cbv zeta. rewrite Habs, Hs. assert (i < length xs)%nat by (apply nth_error_Some; congruence).
      destruct (Nat.eqb_spec i (length xs)); lia.
  - destruct (Hget _ _ Hx) as (m & Hm & Hr). exists m. split; [eapply fuzzy_below; eauto|].
    split; auto. rewrite (fuzzy_set_hit v ms xs 0 m true x0); auto.
    + unfold fz_neg. f_equal. lra.
    + cbv zeta. rewrite Habs, Hs. destruct xs; [congruence|reflexivity].
    + right; left. rewrite Habs. auto.
  - destruct (Hget _ _ Hx) as (m & Hm & Hr). exists m. split; [eapply fuzzy_above; eauto|].
    split; auto. rewrite (fuzzy_set_hit v ms xs (length xs - 1) m true x1); auto.
    + unfold fz_neg. f_equal. lra.
    + cbv zeta. rewrite Habs, Hs. now rewrite Nat.eqb_refl.
    + right; right. rewrite Habs. repeat split; auto; lia.
  - destruct (Hget _ _ Hx0) as (m0 & Hm0 & Hr0). destruct (Hget _ _ Hx1) as (m1 & Hm1 & Hr1).
    pose proof (line_range x0 m0 x1 m1 (- v) Hb Hr0 Hr1) as Hr.
    exists (line x0 m0 x1 m1 (- v)). split.
    + rewrite (fuzzy_between_nonneg (- v) ms xs i x0 x1 m0 m1); auto; [|lra].
      rewrite clamp_id; auto; lra.
    + split; auto. rewrite (fuzzy_set_between v ms xs i m0 m1 true x0 x1); auto.
      * cbv zeta. rewrite Habs, Rabs_pos_eq by lra.
        assert (rsign (- v) = 1) as ->.
        { unfold rsign. destruct (Reqb_spec (- v) 0); auto. rewrite Rabs_pos_eq by lra. field. lra. }
        f_equal. lra.
      * cbv zeta. now rewrite Habs.
      * now rewrite Habs.
Qed.
Lemma fuzzy_range v ms xs : increasing_list xs -> (2 <= length xs)%nat -> length ms = length xs -> in01 ms ->
  exists r, fuzzy_set v ms xs = Ok r /\ -1 <= r <= 1.
Proof.
  intros Hi Hl2 Hlen Hms.
  assert (Hdec : negact v xs \/ ~ negact v xs).
  { destruct (Rlt_dec v 0); [|right; intros [H _]; lra].
    destruct (Forall_dec (fun x => 0 <= x <= 1)) with (l := xs) as [H|H].
    - intros x. destruct (Rle_dec 0 x); [destruct (Rle_dec x 1)|]; [left|right|right]; lra.
    - left; split; auto.
    - right. intros [_ H1]. apply H. exact H1. }
  destruct Hdec as [[Hv Hx]|Hn].
  - destruct (fuzzy_neg_shift v ms xs) as (r & _ & Hr & E); auto. exists (r - 1). split; auto. lra.
  - assert (Hne : xs <> []) by (intros ->; simpl in *; lia).
    assert (Hget : forall i x, nth_error xs i = Some x -> exists m, nth_error ms i = Some m /\ 0 <= m <= 1).
    { intros i x Hx. destruct (nth_error ms i) as [m|] eqn:E.
      - exists m. split; auto. unfold in01 in Hms. rewrite Forall_forall in Hms. apply Hms. eapply nth_error_In; eauto.
      - apply nth_error_None in E. assert (i < length xs)%nat by (apply nth_error_Some; congruence). lia. }
    destruct (knot_cases xs v Hne) as [(i & Hx & Hs)|[(x0 & Hx & Hlt & Hs)|[(x1 & Hx & Hlt & Hs)|(i & x0 & x1 & Hx0 & Hx1 & Hb & Hs)]]].
    + destruct (Hget _ _ Hx) as (m & Hm & Hr). exists m. split; [eapply fuzzy_at_knot; eauto|lra].
    + destruct (Hget _ _ Hx) as (m & Hm & Hr). exists m. split; [eapply fuzzy_below; eauto|lra].
    + destruct (Hget _ _ Hx) as (m & Hm & Hr). exists m. split; [eapply fuzzy_above; eauto|lra].
    + destruct (Hget _ _ Hx0) as (m0 & Hm0 & Hr0). destruct (Hget _ _ Hx1) as (m1 & Hm1 & Hr1).
      eexists. split; [apply (fuzzy_set_between v ms xs i m0 m1 false x0 x1); auto|].
      cbv zeta. apply clamp_range. lra.
Qed.
(** A one-point description read above its only point leaves the array. *)
Lemma fuzzy_single_above v x m : ~ negact v [x] -> x < v -> fuzzy_set v [m] [x] = Err EUndef.
Proof.
  intros Hn Hv. unfold fuzzy_set. cbn [min_list max_list pmin pmax fold_left rbind].
  assert (Hb : negactb x x v = false).
  { destruct (negactb x x v) eqn:E; auto. exfalso. apply Hn. apply (negactb_spec [x] x x v); auto.
    - split; simpl; auto. intros y [->|[]]; lra.
    - split; simpl; auto. intros y [->|[]]; lra. }
  rnum. fold (negactb x x v). rewrite Hb. cbv zeta. cbn [searchsorted length]. rnum.
  destruct (Rltb_spec x v); [|lra]. cbn [Nat.eqb Nat.sub]. cbn [nbget nth_error rbind].
  destruct (Reqb_spec x v); [lra|]. destruct (Rltb_spec v x); [lra|].
  assert (Hs : exists sg, (if Reqb v 0 then Ok 1 else if Reqb (Rabs v) 0 then Err EZeroDiv else Ok (v / Rabs v))
                  = @Ok R sg).
  { destruct (Reqb_spec v 0); eauto. destruct (Reqb_spec (Rabs v) 0) as [E|]; eauto.
    exfalso. revert E. now apply Rabs_no_R0. }
  destruct Hs as [sg ->]. reflexivity.
Qed.

(** ** Decision functions *)
Section Dec.
Context {F : Type} {N : Num F}.
Lemma decision_last_pos (l : list F) p x : (0 < p)%Z -> nth_error l (Z.to_nat p) = Some x ->
  decision_last l p = Ok x.
Proof.
  intros Hp Hx. unfold decision_last. destruct (Z.ltb_spec 0 p); [|lia].
  unfold zget, lget. destruct (Z.ltb_spec p 0); [lia|]. now rewrite Hx.
Qed.
Lemma decision_last_nonpos (l : list F) p x : (p <= 0)%Z -> decision_last (l ++ [x]) p = Ok x.
Proof.
  intros Hp. unfold decision_last. destruct (Z.ltb_spec 0 p); [lia|].
  now rewrite rev_app_distr.
Qed.
End Dec.
Lemma rmap_lget_firstn {A} (l : list A) n : (n <= length l)%nat ->
  rmap (fun i => lget l i) (seq 0 n) = Ok (firstn n l).
Proof.
  intros H. destruct l as [|d l0] eqn:El; [simpl in *; replace n with O by lia; reflexivity|].
  rewrite <- El in *. clear El.
  rewrite (rmap_all_ok _ (fun i => nth i l d)).
  - f_equal. apply (list_eq_nth d); [rewrite map_length, seq_length, firstn_length; lia|].
    intros i Hi. rewrite map_length, seq_length in Hi.
    rewrite (nth_indep _ d (nth 0 l d)) by (rewrite map_length, seq_length; auto).
    rewrite (map_nth (fun i => nth i l d) (seq 0 n) 0%nat i), seq_nth by auto.
    simpl. rewrite <- (firstn_skipn n l) at 1. rewrite app_nth1; auto. rewrite firstn_length; lia.
  - intros i Hi. apply in_seq in Hi. apply lget_ok. lia.
Qed.
Lemma decision_mean_pos (l : list R) p : (0 < p < Z.of_nat (length l))%Z ->
  decision_mean l p = Ok (Rsum (firstn (Z.to_nat p + 1) l) / (IZR p + 1)).
Proof.
  intros H. unfold decision_mean. destruct (Z.leb_spec p 0); [lia|].
  rewrite rmap_lget_firstn by lia. cbn [rbind]. rewrite nsum_Rsum. rnum.
  destruct (Reqb_spec (IZR (p + 1)) 0) as [E|E].
  - apply eq_IZR in E. lia.
  - rewrite plus_IZR. replace (Z.to_nat (p + 1)) with (Z.to_nat p + 1)%nat by lia; reflexivity.
Qed.
Lemma decision_mean_nonpos (l : list R) p : (p <= 0)%Z -> l <> [] ->
  decision_mean l p = Ok (Rsum l / INR (length l)).
Proof.
  intros Hp Hl. unfold decision_mean. destruct (Z.leb_spec p 0); [|lia].
  assert (length l > 0)%nat by (destruct l; [congruence|simpl; lia]).
  rewrite rmap_lget_firstn by lia. cbn [rbind]. rewrite nsum_Rsum. rnum.
  replace (Z.of_nat (length l) - 1 + 1)%Z with (Z.of_nat (length l)) by lia.
  rewrite Nat2Z.id, firstn_all, <- INR_IZR_INZ.
  destruct (Reqb_spec (INR (length l)) 0) as [E|E]; auto.
  apply INR_eq with (m := O) in E. lia.
Qed.
Lemma decision_exited_pos (l : list R) p : (0 < p)%Z -> l <> [] ->
  exists m, decision_exited l p = Ok m /\ is_max (firstn (Z.to_nat p) l) m.
Proof.
  intros Hp Hl. unfold decision_exited. destruct (Z.leb_spec 0 p); [|lia].
  apply max_list_spec. destruct l; [congruence|]. destruct (Z.to_nat p) eqn:E; [lia|]. discriminate.
Qed.
Lemma decision_exited_neg (l : list R) p : (p < 0)%Z -> l <> [] ->
  exists m, decision_exited l p = Ok m /\ is_max l m.
Proof.
  intros Hp Hl. unfold decision_exited. destruct (Z.leb_spec 0 p); [lia|]. now apply max_list_spec.
Qed.
Lemma decision_exited_zero {F} {N : Num F} (l : list F) : decision_exited l 0 = Err EValue.
Proof. reflexivity. Qed.

(** ** Relation measures *)
Section Rel.
Variables a b c d : R.     (* p_q p_nq np_q np_nq *)
Hypothesis Ha : 0 <= a.
Hypothesis Hb : 0 <= b.
Hypothesis Hc : 0 <= c.
Hypothesis Hd : 0 <= d.
Lemma frac_range x y : 0 <= x <= y -> 0 < y -> 0 <= x / y <= 1.
Proof.
  intros H1 H2. split.
  - unfold Rdiv. apply Rmult_le_pos; [lra|]. left. now apply Rinv_0_lt_compat.
  - apply Rmult_le_reg_r with y; auto. unfold Rdiv. rewrite Rmult_assoc, Rinv_l by lra. lra.
Qed.
Lemma rel_supp_spec :
  (a + b + c + d = 0 -> rel_supp a b c d = Err EZeroDiv) /\
  (0 < a + b + c + d -> exists r, rel_supp a b c d = Ok r /\ r = a / (a + b + c + d) /\ 0 <= r <= 1).
Proof.
  unfold rel_supp. rnum. split; intros H; destruct (Reqb_spec (a + b + c + d) 0); try lra; auto.
  eexists. split; [reflexivity|]. split; auto. apply frac_range; lra.
Qed.
Lemma rel_conf_spec :
  exists r, rel_conf a b c d = Ok r /\ 0 <= r <= 1 /\
    (a + b = 0 -> r = 0) /\ (a + b <> 0 -> r = a / (a + b)).
Proof.
  unfold rel_conf. rnum. destruct (Reqb_spec (a + b) 0).
  - exists 0. repeat split; auto; lra.
  - eexists; split; [reflexivity|]. split; [apply frac_range; lra|]. split; intros; auto. lra.
Qed.
Lemma rel_lift_spec :
  (rel_lift a b c d = Err EZeroDiv <-> a + b = 0 \/ a + c = 0) /\
  (a + b <> 0 -> a + c <> 0 -> exists r, rel_lift a b c d = Ok r /\ 0 <= r /\
     r = (a * (a + b + c + d)) / ((a + b) * (a + c))).
Proof.
  unfold rel_lift. rnum. destruct (Reqb_spec (a + b) 0) as [E|E]; cbn [rbind].
  - split; [split; auto|]. intros; lra.
  - destruct (Reqb_spec (a + b + c + d) 0) as [E2|E2]; [lra|]. cbn [rbind].
    destruct (Reqb_spec ((a + c) / (a + b + c + d)) 0) as [E3|E3].
    + assert (a + c = 0).
      { replace (a + c) with ((a + c) / (a + b + c + d) * (a + b + c + d)) by (field; auto). rewrite E3. lra. }
      split; [split; auto|]. intros; lra.
    + assert (a + c <> 0). { intros E4. apply E3. rewrite E4. unfold Rdiv. lra. }
      split; [split; [discriminate|intros [?|?]; lra]|].
      intros _ _. eexists. split; [reflexivity|].
      assert (X : a / (a + b) / ((a + c) / (a + b + c + d)) = a * (a + b + c + d) / ((a + b) * (a + c)))
        by (field; auto).
      split; auto. rewrite X. unfold Rdiv. apply Rmult_le_pos; [nra|].
      left. apply Rinv_0_lt_compat. assert (0 < a + b) by lra. assert (0 < a + c) by lra. nra.
Qed.
Lemma rel_bayes_spec :
  (rel_bayes a b c d = Err EZeroDiv <-> a + b + c + d = 0) /\
  (a + b + c + d <> 0 -> c < a ->
     rel_bayes a b c d = Ok ((a - c) * (a + c) / ((a + b) * (a + b + c + d))) /\
     0 <= (a - c) * (a + c) / ((a + b) * (a + b + c + d))) /\
  (a + b + c + d <> 0 -> a <= c -> rel_bayes a b c d = Ok 0).
Proof.
  unfold rel_bayes. rnum. destruct (Reqb_spec (a + b + c + d) 0) as [E|E]; cbn [rbind].
  - split; [split; auto|]. split; intros; lra.
  - destruct (Reqb_spec (a + b + c + d) 0) as [E'|_]; [lra|]. cbn [rbind].
    destruct (Rltb_spec c a) as [L|L].
    + cbn [rbind]. assert (Ht : 0 < a + b + c + d) by lra.
      pose proof (Rinv_0_lt_compat _ Ht) as Hi.
      assert (Hab : (a + b) / (a + b + c + d) <> 0).
      { unfold Rdiv. apply Rmult_integral_contrapositive_currified; lra. }
      destruct (Reqb_spec ((a + b) / (a + b + c + d)) 0); [lra|].
      split; [split; [discriminate|lra]|]. split; [|intros; lra]. intros _ _. split.
      * apply f_equal. field. split; lra.
      * unfold Rdiv. apply Rmult_le_pos; [nra|]. left. apply Rinv_0_lt_compat. nra.
    + split; [split; [discriminate|lra]|]. split; [intros; lra|]. intros. reflexivity.
Qed.
Lemma rel_simple_spec :
  (a = b -> rel_simple a b c d = Ok 0) /\
  (a <> b -> rel_simple a b c d = Ok ((a - b + c + d) / (a + b + c + d)) /\
     -1 <= (a - b + c + d) / (a + b + c + d) <= 1).
Proof.
  unfold rel_simple. rnum. destruct (Reqb_spec a b) as [E|E].
  - split; intros; [reflexivity|lra].
  - split; [intros; lra|intros _].
    destruct (Reqb_spec (a - b) 0) as [E1|E1]; [lra|]. cbn [negb].
    destruct (Reqb_spec (a + b + c + d) 0); [lra|].
    assert (Ht : 0 < a + b + c + d) by lra. pose proof (Rinv_0_lt_compat _ Ht) as Hi.
    split.
    + apply f_equal. replace (a - b + (d + c)) with (a - b + c + d) by lra. reflexivity.
    + split.
      * apply Rmult_le_reg_r with (a + b + c + d); auto. unfold Rdiv. rewrite Rmult_assoc, Rinv_l by lra. lra.
      * apply Rmult_le_reg_r with (a + b + c + d); auto. unfold Rdiv. rewrite Rmult_assoc, Rinv_l by lra. lra.
Qed.
Lemma rel_odr_spec :
  (b * c = 0 -> rel_odr a b c d = Ok (a * d)) /\
  (b * c <> 0 -> rel_odr a b c d = Ok (a * d / (b * c)) /\ 0 <= a * d / (b * c)).
Proof.
  unfold rel_odr. rnum. destruct (Reqb_spec (b * c) 0).
  - split; intros; [reflexivity|lra].
  - split; [intros; lra|]. intros _. split; [reflexivity|].
    unfold Rdiv. apply Rmult_le_pos; [nra|]. left. apply Rinv_0_lt_compat. nra.
Qed.
Lemma rel_rodr_spec :
  (b + c = 0 -> rel_rodr a b c d = Ok (a + d)) /\
  (b + c <> 0 -> rel_rodr a b c d = Ok ((a + d) / (b + c)) /\ 0 <= (a + d) / (b + c)).
Proof.
  unfold rel_rodr. rnum. destruct (Reqb_spec (b + c) 0).
  - split; intros; [reflexivity|lra].
  - split; [intros; lra|]. intros _. split; [reflexivity|].
    unfold Rdiv. apply Rmult_le_pos; [lra|]. left. apply Rinv_0_lt_compat. lra.
Qed.
(** one of the two influence terms of pos_inf *)
Lemma inf_term x y s : 0 <= x -> x <= s -> 0 < s -> (y = 0 \/ 1 <= y) ->
  0 <= (if Reqb y 0 then x / s else x / y / s) <= 1.
Proof.
  intros H1 H2 H3 H4. destruct (Reqb_spec y 0).
  - apply frac_range; lra.
  - assert (1 <= y) by (destruct H4; lra).
    assert (0 <= x / y <= x).
    { split.
      - unfold Rdiv. apply Rmult_le_pos; [lra|]. left. apply Rinv_0_lt_compat. lra.
      - apply Rmult_le_reg_r with y; [lra|]. unfold Rdiv. rewrite Rmult_assoc, Rinv_l by lra. nra. }
    apply frac_range; lra.
Qed.
(** [share x y s]: x/s damped by the contrary evidence y (if any) *)
Lemma rel_pos_inf_spec :
  (rel_pos_inf a b c d = Err EZeroDiv <-> a + b = 0) /\
  (a + b <> 0 ->
   let pos := share a (b + c) (a + b) in let neg := share b (a + d) (a + b) in
   (neg < pos -> rel_pos_inf a b c d = Ok pos) /\
   (pos < neg -> rel_pos_inf a b c d = Ok (- neg)) /\
   (pos = neg -> rel_pos_inf a b c d = Ok 0) /\
   ((b + c = 0 \/ 1 <= b + c) -> (a + d = 0 \/ 1 <= a + d) ->
    exists r, rel_pos_inf a b c d = Ok r /\ -1 <= r <= 1)).
Proof.
  set (p := share a (b + c) (a + b)).
  set (n := share b (a + d) (a + b)).
  assert (Sh : forall x y s, share x y s = if Reqb y 0 then x / s else x / y / s).
  { intros. unfold share, Reqb. destruct (Req_EM_T y 0); reflexivity. }
  assert (X : a + b <> 0 -> rel_pos_inf a b c d = if Rltb n p then Ok p else if Rltb p n then Ok (-1 * n) else Ok 0).
  { intros H. unfold rel_pos_inf, p, n. rewrite !Sh. rnum.
    destruct (Reqb_spec (b + c) 0); destruct (Reqb_spec (a + d) 0); cbn [rbind];
    destruct (Reqb_spec (a + b) 0); try lra; reflexivity. }
  split.
  - split.
    + intros H. destruct (Req_EM_T (a + b) 0); auto. rewrite X in H by auto.
      destruct (Rltb n p); [discriminate|]. destruct (Rltb p n); discriminate.
    + intros H. unfold rel_pos_inf. rnum. destruct (Reqb_spec (b + c) 0); cbn [rbind];
      destruct (Reqb_spec (a + b) 0); try lra; reflexivity.
  - intros H. cbv zeta. fold p n. rewrite X by auto.
    repeat split; intros.
    + destruct (Rltb_spec n p); [reflexivity|lra].
    + destruct (Rltb_spec n p); [lra|]. destruct (Rltb_spec p n); [|lra]. apply f_equal. lra.
    + destruct (Rltb_spec n p); [lra|]. destruct (Rltb_spec p n); [lra|]. reflexivity.
    + assert (0 <= p <= 1) by (unfold p; rewrite Sh; apply inf_term; lra).
      assert (0 <= n <= 1) by (unfold n; rewrite Sh; apply inf_term; lra).
      destruct (Rltb_spec n p); [exists p; split; auto; lra|].
      destruct (Rltb_spec p n); [exists (-1 * n); split; auto; lra|exists 0; split; auto; lra].
Qed.
End Rel.

(** ** witnesses and name tables *)
Lemma fuzzy_negative_wrong_sign :
  exists v ms xs x0 x1 m0 m1, increasing_list xs /\ in01 ms /\
    nth_error xs 0 = Some x0 /\ nth_error xs 1 = Some x1 /\
    nth_error ms 0 = Some m0 /\ nth_error ms 1 = Some m1 /\ x0 < v < x1 /\
    0 < line x0 m0 x1 m1 v /\ fuzzy_set v ms xs = Ok (-1).
Proof.
  exists (-5), [0; 1], [-10; 0], (-10), 0, 0, 1.
  assert (I : increasing_list [-10; 0]).
  { intros [|[|i]] [|[|j]] x y H Hx Hy; simpl in *; try lia; try discriminate;
      try (injection Hx as <-; injection Hy as <-; lra);
      try (destruct i; discriminate); try (destruct j; discriminate). }
  assert (M : in01 [0; 1]) by (repeat constructor; lra).
  repeat (split; [solve [auto | reflexivity | lra | unfold line; lra]|]).
  rewrite (fuzzy_between_neg (-5) [0; 1] [-10; 0] 0 (-10) 0 0 1); auto; try lra.
  - apply f_equal. unfold line, clamp, Rmax, Rmin.
    repeat destruct (Rle_dec _ _); lra.
  - intros [_ H]. inversion H; lra.
Qed.
Lemma decision_names :
  get_decision_by_name "LAST" = Some DLast /\ get_decision_by_name "MEAN" = Some DMean /\
  get_decision_by_name "EXITED" = Some DExited /\
  forall n, n <> "LAST"%string -> n <> "MEAN"%string -> n <> "EXITED"%string -> get_decision_by_name n = None.
Proof.
  repeat split. intros n H1 H2 H3. unfold get_decision_by_name.
  apply String.eqb_neq in H1, H2, H3. now rewrite H1, H2, H3.
Qed.
Lemma pos_inf_out_of_range : exists a b c d r : R,
  0 <= a /\ 0 <= b /\ 0 <= c /\ 0 <= d /\ rel_pos_inf a b c d = Ok r /\ 1 < r.
Proof.
  exists (1/2), 0, (1/4), 0, 4.
  destruct (rel_pos_inf_spec (1/2) 0 (1/4) 0) as [_ H]; try lra.
  destruct H as [H _]; [lra|].
  assert (E1 : share (1/2) (0 + 1/4) (1/2 + 0) = 4).
  { unfold share. destruct (Req_EM_T (0 + 1/4) 0); [lra|]. field. }
  assert (E2 : share 0 (1/2 + 0) (1/2 + 0) = 0).
  { unfold share. destruct (Req_EM_T (1/2 + 0) 0); [lra|]. lra. }
  rewrite E1, E2 in H. rewrite H by lra. repeat split; lra.
Qed.
