(** PropFunctions.v — properties of the numeric kernels (C01, C03–C12, C14, C41, C61, C62). *)
From Coq Require Import Reals Lra.
From Verif Require Import Base Num Functions Spec SortFacts RealFacts FunctionsFacts.
Local Open Scope R_scope.

(** ** C01 *)
Theorem C01_dual_quick_sort :
  forall {A B : Type} (leb : A -> A -> bool) (P : A -> Prop), total_preorder leb P ->
  forall (a : list A) (m : list B) (s e : Z),
  Forall P a -> (0 <= s)%Z -> (e < Z.of_nat (length a))%Z -> (e < Z.of_nat (length m))%Z ->
  exists a' m', dual_quick_sort leb a s e m = Ok (a', m') /\
    rearranged_between s e a m a' m' /\ sorted_between leb a' s e.
Proof. exact @dual_quick_sort_spec. Qed.
Print Assumptions C01_dual_quick_sort.
Example C01_nonvacuous :
  total_preorder Z.leb (fun _ => True) /\
  dual_quick_sort Z.leb [9;3;1;3;2]%Z 1 4 ["a";"b";"c";"d";"e"] = Ok ([9;1;2;3;3]%Z, ["a";"c";"e";"d";"b"]).
Proof.
  split; [|reflexivity]. split.
  - intros x y _ _. rewrite !Z.leb_le. lia.
  - intros x y z _ _ _. rewrite !Z.leb_le. lia.
Qed.

(** The pairs (value, companion) of a whole-array sort are a permutation of the original pairs. *)
Theorem C01_pairs_permuted :
  forall {A B : Type} (leb : A -> A -> bool) (s e : Z) (a : list A) (m : list B) a' m',
  length a = length m -> rearranged_between s e a m a' m' ->
  Permutation (combine a' m') (combine a m).
Proof. intros A B leb. exact (@rearr_Permutation A B). Qed.
Print Assumptions C01_pairs_permuted.

(** ** C61: the sort does not terminate when a value compares with nothing (NaN) *)
Theorem C61_nan_partition_diverges :
  forall {A B : Type} (leb : A -> A -> bool) (a : list A) (m : list B) (pivot : A) (low high : Z),
  (0 <= low <= high)%Z -> (high < Z.of_nat (length a))%Z -> (high < Z.of_nat (length m))%Z ->
  (incomparable leb pivot \/
   exists k x, (low <= k <= high)%Z /\ nth_error a (Z.to_nat k) = Some x /\ incomparable leb x) ->
  forall fuel : nat, partition_loop leb fuel a m pivot low high = Err EFuel.
Proof. intros A B leb a m pivot low high H1 H2 H3 H4 fuel. exact (partition_loop_nan leb fuel a m pivot low high H1 H2 H3 H4). Qed.
Print Assumptions C61_nan_partition_diverges.

Theorem C61_nan_sort_diverges :
  forall {A B : Type} (leb : A -> A -> bool) (a : list A) (m : list B) (s e k : Z) (x : A),
  (0 <= s < e)%Z -> (e < Z.of_nat (length a))%Z -> (e < Z.of_nat (length m))%Z ->
  (s <= k <= e)%Z -> nth_error a (Z.to_nat k) = Some x -> incomparable leb x ->
  dual_quick_sort leb a s e m = Err EFuel.
Proof. exact @dual_quick_sort_nan. Qed.
Print Assumptions C61_nan_sort_diverges.
Example C61_nonvacuous :
  let leb (x y : option Z) := match x, y with Some a, Some b => Z.leb a b | _, _ => false end in
  incomparable leb None /\ nth_error [Some 3; None; Some 1]%Z (Z.to_nat 1) = Some None.
Proof. split; [|reflexivity]. intros [y|]; split; reflexivity. Qed.

(** ** C03 *)
Theorem C03_saturation : forall x : R, saturation x = clamp 0 1 x.
Proof. exact saturation_clamp. Qed.
Print Assumptions C03_saturation.
Example C03_nonvacuous : saturation 2 = 1 /\ saturation (-3) = 0 /\ saturation (1/4) = 1/4.
Proof. rewrite !C03_saturation. unfold clamp, Rmax, Rmin. repeat split; repeat destruct (Rle_dec _ _); lra. Qed.

(** ** C04 *)
Theorem C04_bistate : forall x : R, (bistate x = 1 <-> 0 < x) /\ (bistate x = 0 <-> x <= 0).
Proof. exact bistate_spec. Qed.
Print Assumptions C04_bistate.
Theorem C04_threestate : forall x : R,
  (x <= 1/3 -> threestate x = 0) /\ (1/3 < x <= 2/3 -> threestate x = 1/2) /\ (2/3 < x -> threestate x = 1).
Proof. exact threestate_spec. Qed.
Print Assumptions C04_threestate.
Theorem C04_threestate_monotone : forall x y : R, x <= y -> threestate x <= threestate y.
Proof. exact threestate_mono. Qed.
Print Assumptions C04_threestate_monotone.
(** the documented thresholds (0.5 from 0.25 to 0.75) are not the implemented ones *)
Theorem C04_documented_thresholds_refuted :
  exists x : R, 1/4 <= x <= 3/4 /\ threestate x <> 1/2.
Proof. exists (3/10). split; [lra|]. destruct (threestate_spec (3/10)) as [H _]. rewrite H; lra. Qed.
Print Assumptions C04_documented_thresholds_refuted.
Example C04_nonvacuous : bistate (1/2 : R) = 1 /\ bistate (0 : R) = 0 /\ threestate (1/2 : R) = 1/2 /\ threestate (3/4 : R) = 1.
Proof.
  split; [apply C04_bistate; lra|]. split; [apply C04_bistate; lra|].
  split; [apply C04_threestate; lra|apply C04_threestate; lra].
Qed.

(** ** C05 *)
Theorem C05_sigmoid : forall x l : R,
  sigmoid x l = 1 / (1 + exp (- (l * x))) /\ 0 < sigmoid x l < 1 /\ sigmoid (- x) l = 1 - sigmoid x l.
Proof. intros x l. exact (conj (sigmoid_eq x l) (conj (sigmoid_range x l) (sigmoid_sym x l))). Qed.
Print Assumptions C05_sigmoid.
Theorem C05_sigmoid_increasing : forall x y l : R, 0 < l -> x < y -> sigmoid x l < sigmoid y l.
Proof. exact sigmoid_mono. Qed.
Print Assumptions C05_sigmoid_increasing.
Example C05_nonvacuous : sigmoid 0 1 = 1 / 2 /\ 0 < 1 /\ sigmoid 0 1 < sigmoid 2 1.
Proof.
  split; [|split; [lra|apply C05_sigmoid_increasing; lra]].
  destruct (C05_sigmoid 0 1) as [-> _]. rewrite Rmult_0_r, Ropp_0, exp_0. lra.
Qed.

(** ** C06 *)
Theorem C06_sigmoid_hip_range : forall x l : R, -1 < sigmoid_hip x l < 1.
Proof. exact sigmoid_hip_range. Qed.
Print Assumptions C06_sigmoid_hip_range.
Theorem C06_sigmoid_hip_monotone : forall x y l : R, 0 <= l -> x <= y -> sigmoid_hip x l <= sigmoid_hip y l.
Proof. exact sigmoid_hip_mono. Qed.
Print Assumptions C06_sigmoid_hip_monotone.
Theorem C06_sigmoid_hip_tanh : forall x l : R, - (l * x) <= 500 -> sigmoid_hip x l = tanh (l * x / 2).
Proof. exact sigmoid_hip_tanh. Qed.
Print Assumptions C06_sigmoid_hip_tanh.
Theorem C06_sigmoid_hip_cutoff : forall x l : R, 500 <= - (l * x) -> sigmoid_hip x l = - tanh 250.
Proof. exact sigmoid_hip_cut. Qed.
Print Assumptions C06_sigmoid_hip_cutoff.
Theorem C06_sigmoid_hip_odd : forall x l : R, Rabs (l * x) <= 500 -> sigmoid_hip (- x) l = - sigmoid_hip x l.
Proof. exact sigmoid_hip_odd. Qed.
Print Assumptions C06_sigmoid_hip_odd.
Example C06_nonvacuous : - (2 * 1) <= 500 /\ 500 <= - (2 * -300) /\ Rabs (2 * 1) <= 500.
Proof. unfold Rabs. destruct (Rcase_abs (2 * 1)); lra. Qed.

(** ** C07 *)
Theorem C07_relm_positive_lambda : forall x l : R, 0 < l -> relm x l = Ok (clamp 0 1 (x / l)).
Proof. exact relm_pos. Qed.
Print Assumptions C07_relm_positive_lambda.
Theorem C07_relm_negative_input : forall x l : R, x < 0 -> relm x l = Ok 0.
Proof. exact relm_neg. Qed.
Print Assumptions C07_relm_negative_input.
Theorem C07_relm_zero_lambda : forall x : R, 0 <= x -> relm x 0 = Err EZeroDiv.
Proof. exact relm_zero. Qed.
Print Assumptions C07_relm_zero_lambda.
Example C07_nonvacuous : relm 1 2 = Ok (1/2) /\ relm 3 2 = Ok 1 /\ relm (-1) 0 = Ok 0 /\ relm 1 0 = Err EZeroDiv.
Proof.
  split; [rewrite C07_relm_positive_lambda by lra|split; [rewrite C07_relm_positive_lambda by lra|split; [apply C07_relm_negative_input; lra|apply C07_relm_zero_lambda; lra]]];
    f_equal; unfold clamp, Rmax, Rmin; repeat destruct (Rle_dec _ _); lra.
Qed.

(** ** C08 *)
Theorem C08_gceq : forall x w : R,
  (w <= x -> greater_cond_equality x w = clamp (-1) 1 x) /\ (x < w -> greater_cond_equality x w = 0).
Proof. exact gceq_spec. Qed.
Print Assumptions C08_gceq.
Theorem C08_lceq : forall x w : R,
  (x <= w -> lower_cond_equality x w = clamp (-1) 1 x) /\ (w < x -> lower_cond_equality x w = 0).
Proof. exact lceq_spec. Qed.
Print Assumptions C08_lceq.
Theorem C08_range : forall x w : R,
  -1 <= greater_cond_equality x w <= 1 /\ -1 <= lower_cond_equality x w <= 1.
Proof. exact cond_eq_range. Qed.
Print Assumptions C08_range.
Example C08_nonvacuous : greater_cond_equality 3 2 = 1 /\ greater_cond_equality 1 2 = 0 /\
  lower_cond_equality (1/2) 2 = 1/2 /\ lower_cond_equality 3 2 = 0.
Proof.
  destruct (C08_gceq 3 2) as [-> _]; [|lra]. destruct (C08_gceq 1 2) as [_ ->]; [|lra].
  destruct (C08_lceq (1/2) 2) as [-> _]; [|lra]. destruct (C08_lceq 3 2) as [_ ->]; [|lra].
  unfold clamp, Rmax, Rmin. repeat split; repeat destruct (Rle_dec _ _); lra.
Qed.

(** ** C09 *)
Theorem C09_sigmoid_lambda_inverts : forall x y : R, x <> 0 -> 0 < y < 1 ->
  exists l, sigmoid_lambda x y = Ok l /\ sigmoid x l = y.
Proof. exact sigmoid_lambda_inv. Qed.
Print Assumptions C09_sigmoid_lambda_inverts.
Theorem C09_sigmoid_hip_lambda_inverts : forall x y : R, x <> 0 -> -1 < y < 1 ->
  (1 - y) / (1 + y) <= exp 500 ->
  exists l, sigmoid_hip_lambda x y = Ok l /\ sigmoid_hip x l = y.
Proof. exact sigmoid_hip_lambda_inv. Qed.
Print Assumptions C09_sigmoid_hip_lambda_inverts.
Example C09_nonvacuous : -1 < 1/2 < 1 /\ (1 - 1/2) / (1 + 1/2) <= exp 500.
Proof.
  split; [lra|]. apply Rle_trans with (1 + 500); [lra|]. left. apply exp_ineq1. lra.
Qed.

(** ** C10 *)
Theorem C10_fuzzy_at_stored_value : forall (v : R) (ms xs : list R) (i : nat) (m : R),
  increasing_list xs -> ~ negact v xs ->
  nth_error xs i = Some v -> nth_error ms i = Some m -> fuzzy_set v ms xs = Ok m.
Proof. exact fuzzy_at_knot. Qed.
Print Assumptions C10_fuzzy_at_stored_value.
Theorem C10_fuzzy_below_all : forall (v : R) (ms xs : list R) (x0 m0 : R),
  ~ negact v xs -> nth_error xs 0 = Some x0 -> nth_error ms 0 = Some m0 -> v < x0 ->
  fuzzy_set v ms xs = Ok m0.
Proof. exact fuzzy_below. Qed.
Print Assumptions C10_fuzzy_below_all.
Theorem C10_fuzzy_above_all : forall (v : R) (ms xs : list R) (x1 m1 : R),
  increasing_list xs -> (2 <= length xs)%nat -> ~ negact v xs ->
  nth_error xs (length xs - 1) = Some x1 -> nth_error ms (length xs - 1) = Some m1 -> x1 < v ->
  fuzzy_set v ms xs = Ok m1.
Proof. exact fuzzy_above. Qed.
Print Assumptions C10_fuzzy_above_all.
Example C10_nonvacuous : increasing_list [-10; 0; 5] /\ ~ negact (-20) [-10; 0; 5].
Proof.
  split.
  - intros [|[|[|i]]] [|[|[|j]]] x y H Hx Hy; simpl in *; try lia; try discriminate;
      try (injection Hx as <-; injection Hy as <-; lra); try (rewrite nth_error_nil in Hy; discriminate);
      destruct j; discriminate.
  - intros [_ H]. inversion H; lra.
Qed.

(** ** C11 *)
Theorem C11_fuzzy_interpolates : forall (v : R) (ms xs : list R) (i : nat) (x0 x1 m0 m1 : R),
  increasing_list xs -> 0 <= v ->
  nth_error xs i = Some x0 -> nth_error xs (S i) = Some x1 ->
  nth_error ms i = Some m0 -> nth_error ms (S i) = Some m1 -> x0 < v < x1 ->
  fuzzy_set v ms xs = Ok (clamp (-1) 1 (line x0 m0 x1 m1 v)).
Proof. exact fuzzy_between_nonneg. Qed.
Print Assumptions C11_fuzzy_interpolates.
(** what negative inputs between two stored values give instead: the line read at
    |v|, negated *)
Theorem C11_fuzzy_negative_between : forall (v : R) (ms xs : list R) (i : nat) (x0 x1 m0 m1 : R),
  increasing_list xs -> v < 0 -> ~ negact v xs ->
  nth_error xs i = Some x0 -> nth_error xs (S i) = Some x1 ->
  nth_error ms i = Some m0 -> nth_error ms (S i) = Some m1 -> x0 < v < x1 ->
  fuzzy_set v ms xs = Ok (clamp (-1) 1 (- line x0 m0 x1 m1 (- v))).
Proof. exact fuzzy_between_neg. Qed.
Print Assumptions C11_fuzzy_negative_between.
Theorem C11_negative_interpolation_refuted :
  exists v ms xs x0 x1 m0 m1, increasing_list xs /\ in01 ms /\
    nth_error xs 0 = Some x0 /\ nth_error xs 1 = Some x1 /\
    nth_error ms 0 = Some m0 /\ nth_error ms 1 = Some m1 /\ x0 < v < x1 /\
    0 < line x0 m0 x1 m1 v /\ fuzzy_set v ms xs = Ok (-1).
Proof. exact fuzzy_negative_wrong_sign. Qed.
Print Assumptions C11_negative_interpolation_refuted.
Example C11_nonvacuous : increasing_list [-10; 0; 5] /\ fuzzy_set 1 [0; 1; 0] [-10; 0; 5] = Ok (4/5).
Proof.
  split; [apply C10_nonvacuous|].
  rewrite (C11_fuzzy_interpolates 1 _ _ 1 0 5 1 0) by (reflexivity || lra || apply C10_nonvacuous).
  f_equal. unfold line, clamp, Rmax, Rmin. repeat destruct (Rle_dec _ _); lra.
Qed.

(** ** C12 *)
Theorem C12_fuzzy_range : forall (v : R) (ms xs : list R),
  increasing_list xs -> (2 <= length xs)%nat -> length ms = length xs -> in01 ms ->
  exists r, fuzzy_set v ms xs = Ok r /\ -1 <= r <= 1.
Proof. exact fuzzy_range. Qed.
Print Assumptions C12_fuzzy_range.
Theorem C12_fuzzy_negative_unit_input : forall (v : R) (ms xs : list R),
  increasing_list xs -> (2 <= length xs)%nat -> length ms = length xs ->
  in01 ms -> in01 xs -> v < 0 ->
  exists r, fuzzy_set (- v) ms xs = Ok r /\ 0 <= r <= 1 /\ fuzzy_set v ms xs = Ok (r - 1).
Proof. exact fuzzy_neg_shift. Qed.
Print Assumptions C12_fuzzy_negative_unit_input.
Example C12_nonvacuous : increasing_list [0; 1] /\ in01 [0; 1] /\ in01 [1; 0] /\
  fuzzy_set (1/4) [1; 0] [0; 1] = Ok (3/4) /\ fuzzy_set (-1/4) [1; 0] [0; 1] = Ok (-1/4).
Proof.
  assert (H : increasing_list [0; 1]).
  { intros [|[|i]] [|[|j]] x y Hij Hx Hy; simpl in *; try lia; try discriminate;
      try (injection Hx as <-; injection Hy as <-; lra); destruct j; discriminate. }
  assert (I0 : in01 [0; 1]) by (repeat constructor; lra). assert (I1 : in01 [1; 0]) by (repeat constructor; lra).
  assert (E : fuzzy_set (1/4) [1; 0] [0; 1] = Ok (3/4)).
  { rewrite (C11_fuzzy_interpolates (1/4) _ _ 0 0 1 1 0) by (reflexivity || lra || exact H).
    f_equal. unfold line, clamp, Rmax, Rmin. repeat destruct (Rle_dec _ _); lra. }
  repeat split; auto.
  destruct (C12_fuzzy_negative_unit_input (-1/4) [1; 0] [0; 1]) as (r & Er & _ & E2); auto; [lra|].
  replace (- (-1/4)) with (1/4) in Er by lra. rewrite E in Er. injection Er as <-. rewrite E2. f_equal. lra.
Qed.

(** ** C62: a one-point description read above its point is an out-of-bounds read *)
Theorem C62_single_point_above_undefined : forall v x m : R,
  ~ negact v [x] -> x < v -> fuzzy_set v [m] [x] = Err EUndef.
Proof. exact fuzzy_single_above. Qed.
Print Assumptions C62_single_point_above_undefined.
Example C62_nonvacuous : ~ negact 3 [2] /\ 2 < 3.
Proof. split; [intros [H _]; lra|lra]. Qed.

(** ** C14 *)
Theorem C14_last : forall {F} {N : Num F} (l : list F) (p : Z) (x : F),
  ((0 < p)%Z -> nth_error l (Z.to_nat p) = Some x -> exec_decision DLast l p = Ok x) /\
  ((p <= 0)%Z -> exec_decision DLast (l ++ [x]) p = Ok x).
Proof. intros F N l p x. exact (conj (fun H => decision_last_pos l p x H) (decision_last_nonpos l p x)). Qed.
Print Assumptions C14_last.
Theorem C14_mean : forall (l : list R) (p : Z),
  ((0 < p < Z.of_nat (length l))%Z ->
     exec_decision DMean l p = Ok (Rsum (firstn (Z.to_nat p + 1) l) / (IZR p + 1))) /\
  ((p <= 0)%Z -> l <> [] -> exec_decision DMean l p = Ok (Rsum l / INR (length l))).
Proof. intros l p. exact (conj (decision_mean_pos l p) (decision_mean_nonpos l p)). Qed.
Print Assumptions C14_mean.
Theorem C14_exited : forall (l : list R) (p : Z), l <> [] ->
  ((0 < p)%Z -> exists m, exec_decision DExited l p = Ok m /\ is_max (firstn (Z.to_nat p) l) m) /\
  ((p < 0)%Z -> exists m, exec_decision DExited l p = Ok m /\ is_max l m) /\
  exec_decision DExited l 0 = Err EValue.
Proof.
  intros l p H.
  exact (conj (fun Hp => decision_exited_pos l p Hp H)
        (conj (fun Hp => decision_exited_neg l p Hp H) (decision_exited_zero l))).
Qed.
Print Assumptions C14_exited.
Theorem C14_names :
  get_decision_by_name "LAST" = Some DLast /\ get_decision_by_name "MEAN" = Some DMean /\
  get_decision_by_name "EXITED" = Some DExited /\
  forall n, n <> "LAST" -> n <> "MEAN" -> n <> "EXITED" -> get_decision_by_name n = None.
Proof. exact decision_names. Qed.
Print Assumptions C14_names.
Example C14_nonvacuous : exec_decision DLast [1; 2; 6] 1 = Ok 2 /\ exec_decision DMean [1; 2; 6] 1 = Ok (3/2) /\
  exec_decision DMean [1; 2; 6] 0 = Ok 3.
Proof.
  split; [now apply C14_last|].
  split.
  - rewrite (proj1 (C14_mean [1; 2; 6] 1)) by (cbn; lia). change (Z.to_nat 1 + 1)%nat with 2%nat. cbn. f_equal. lra.
  - rewrite (proj2 (C14_mean [1; 2; 6] 0)) by (lia || discriminate). cbn. f_equal. lra.
Qed.

(** ** C41 *)
Theorem C41_supp_conf : forall a b c d : R, 0 <= a -> 0 <= b -> 0 <= c -> 0 <= d ->
  (a + b + c + d = 0 -> rel_supp a b c d = Err EZeroDiv) /\
  (0 < a + b + c + d ->
     exists r, rel_supp a b c d = Ok r /\ r = a / (a + b + c + d) /\ 0 <= r <= 1) /\
  (exists r, rel_conf a b c d = Ok r /\ 0 <= r <= 1 /\
    (a + b = 0 -> r = 0) /\ (a + b <> 0 -> r = a / (a + b))).
Proof.
  intros a b c d Ha Hb Hc Hd.
  exact (conj (proj1 (rel_supp_spec a b c d Ha Hb Hc Hd))
        (conj (proj2 (rel_supp_spec a b c d Ha Hb Hc Hd)) (rel_conf_spec a b c d Ha Hb))).
Qed.
Print Assumptions C41_supp_conf.
Theorem C41_lift : forall a b c d : R, 0 <= a -> 0 <= b -> 0 <= c -> 0 <= d ->
  (rel_lift a b c d = Err EZeroDiv <-> a + b = 0 \/ a + c = 0) /\
  (a + b <> 0 -> a + c <> 0 -> exists r, rel_lift a b c d = Ok r /\ 0 <= r /\
     r = (a * (a + b + c + d)) / ((a + b) * (a + c))).
Proof. exact rel_lift_spec. Qed.
Print Assumptions C41_lift.
Theorem C41_bayes : forall a b c d : R, 0 <= a -> 0 <= b -> 0 <= c -> 0 <= d ->
  (rel_bayes a b c d = Err EZeroDiv <-> a + b + c + d = 0) /\
  (a + b + c + d <> 0 -> c < a ->
     rel_bayes a b c d = Ok ((a - c) * (a + c) / ((a + b) * (a + b + c + d))) /\
     0 <= (a - c) * (a + c) / ((a + b) * (a + b + c + d))) /\
  (a + b + c + d <> 0 -> a <= c -> rel_bayes a b c d = Ok 0).
Proof. exact rel_bayes_spec. Qed.
Print Assumptions C41_bayes.
Theorem C41_simple : forall a b c d : R, 0 <= a -> 0 <= b -> 0 <= c -> 0 <= d ->
  (a = b -> rel_simple a b c d = Ok 0) /\
  (a <> b -> rel_simple a b c d = Ok ((a - b + c + d) / (a + b + c + d)) /\
     -1 <= (a - b + c + d) / (a + b + c + d) <= 1).
Proof. exact rel_simple_spec. Qed.
Print Assumptions C41_simple.
Theorem C41_odds : forall a b c d : R, 0 <= a -> 0 <= b -> 0 <= c -> 0 <= d ->
  ((b * c = 0 -> rel_odr a b c d = Ok (a * d)) /\
   (b * c <> 0 -> rel_odr a b c d = Ok (a * d / (b * c)) /\ 0 <= a * d / (b * c))) /\
  ((b + c = 0 -> rel_rodr a b c d = Ok (a + d)) /\
   (b + c <> 0 -> rel_rodr a b c d = Ok ((a + d) / (b + c)) /\ 0 <= (a + d) / (b + c))).
Proof.
  intros a b c d Ha Hb Hc Hd.
  exact (conj (rel_odr_spec a b c d Ha Hb Hc Hd) (rel_rodr_spec a b c d Ha Hb Hc Hd)).
Qed.
Print Assumptions C41_odds.
Theorem C41_pos_inf : forall a b c d : R, 0 <= a -> 0 <= b -> 0 <= c -> 0 <= d ->
  (rel_pos_inf a b c d = Err EZeroDiv <-> a + b = 0) /\
  (a + b <> 0 ->
   let pos := share a (b + c) (a + b) in let neg := share b (a + d) (a + b) in
   (neg < pos -> rel_pos_inf a b c d = Ok pos) /\
   (pos < neg -> rel_pos_inf a b c d = Ok (- neg)) /\
   (pos = neg -> rel_pos_inf a b c d = Ok 0) /\
   ((b + c = 0 \/ 1 <= b + c) -> (a + d = 0 \/ 1 <= a + d) ->
    exists r, rel_pos_inf a b c d = Ok r /\ -1 <= r <= 1)).
Proof. exact rel_pos_inf_spec. Qed.
Print Assumptions C41_pos_inf.
(** with fractional coefficients (fuzzy memberships) pos_inf leaves [-1,1] *)
Theorem C41_pos_inf_range_refuted : exists a b c d r : R,
  0 <= a /\ 0 <= b /\ 0 <= c /\ 0 <= d /\ rel_pos_inf a b c d = Ok r /\ 1 < r.
Proof. exact pos_inf_out_of_range. Qed.
Print Assumptions C41_pos_inf_range_refuted.
Example C41_nonvacuous : rel_supp 2 1 1 0 = Ok (1/2) /\ rel_conf 3 1 0 0 = Ok (3/4) /\
  rel_lift 1 0 0 1 = Ok 2 /\ rel_lift 0 0 1 1 = Err EZeroDiv /\ rel_pos_inf 1 0 0 1 = Ok 1.
Proof.
  destruct (C41_supp_conf 2 1 1 0) as (_ & H1 & _); try lra. destruct H1 as (r1 & -> & -> & _); [lra|].
  destruct (C41_supp_conf 3 1 0 0) as (_ & _ & (r2 & -> & _ & _ & H2)); try lra. rewrite H2 by lra.
  destruct (C41_lift 1 0 0 1) as (_ & H3); try lra. destruct H3 as (r3 & -> & _ & ->); try lra.
  destruct (C41_lift 0 0 1 1) as (H4 & _); try lra. replace (rel_lift 0 0 1 1) with (Err (A := R) EZeroDiv) by (symmetry; apply H4; lra).
  destruct (C41_pos_inf 1 0 0 1) as (_ & H5); try lra. destruct H5 as (H5 & _); [lra|]. rewrite H5.
  - unfold share. repeat destruct (Req_EM_T _ _); repeat split; f_equal; lra.
  - unfold share. repeat destruct (Req_EM_T _ _); lra.
Qed.
