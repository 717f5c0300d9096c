(** PropRows.v — the order of the training rows (C91) and repeating them (C92). *)
From Coq Require Import Reals Lra Lia QArith Permutation.
From Verif Require Import Base BaseFacts Num QNum RealFacts RlFacts Functions FunctionsFacts Fcm LearnUtils LearnSpec LearnFacts Discret DiscretFacts2 Assoc AssocSpec AssocFacts2 Estimator EstSpec EstExamples EstFacts8 RowSpec RowFacts RowFacts2 PropEstimator2.
Local Close Scope Q_scope.
Local Close Scope R_scope.

(** ** C91 *)
(** In exact arithmetic the order of the training rows does not matter: a fit that
    succeeds also succeeds on the reordered rows, makes the same map, and every
    later prediction and score is the same. *)
Theorem C91_row_order : forall (cf : gconf R) n p x y x' y' e e1,
  Permutation p (seq 0 n) -> (forall f c, In (f, c) (x ++ y) -> col_length c = n) ->
  taken_frame p x x' -> taken_frame p y y' -> by_values (c_disc cf) ->
  fit cf x y e = (e1, Ok tt) ->
  exists e1', fit cf x' y' e = (e1', Ok tt) /\ e_map e1' = e_map e1 /\
    forall xt yt, snd (predict cf xt e1') = snd (predict cf xt e1) /\ snd (score cf xt yt e1') = snd (score cf xt yt e1).
Proof.
  intros cf n p x y x' y' e e1 Hp Hn Hx Hy Hd Hf.
  apply (taken_fit cf 1 n p) with (x := x) (y := y); auto.
  unfold every. cbn. now rewrite app_nil_r.
Qed.
(** The discretization the generator calls only looks at which values occur. *)
Theorem C91_discretization : forall max_clusters max_iter strategy (fits : list R) rand,
  by_values (fun name l => fuzzy_feature_discretization l max_clusters max_iter strategy name fits rand).
Proof.
  intros mc mi st fits rand name l l' H. unfold fuzzy_feature_discretization.
  now rewrite (unique_same _ _ R_total_order l l' H).
Qed.
Print Assumptions C91_row_order.
Print Assumptions C91_discretization.

(** ** C92 *)
(** With measures that only depend on proportions, training on every row [k] times
    (in any order) is training on every row once. *)
Theorem C92_repeated_rows : forall (cf : gconf R) k n p x y x' y' e e1,
  0 < k -> every k n p -> (forall f c, In (f, c) (x ++ y) -> col_length c = n) ->
  taken_frame p x x' -> taken_frame p y y' -> by_values (c_disc cf) ->
  proportional (c_eval cf) -> proportional (c_caus cf) -> (forall f, c_sign cf = Some f -> proportional f) ->
  fit cf x y e = (e1, Ok tt) ->
  exists e1', fit cf x' y' e = (e1', Ok tt) /\ e_map e1' = e_map e1 /\
    forall xt yt, snd (predict cf xt e1') = snd (predict cf xt e1) /\ snd (score cf xt yt e1') = snd (score cf xt yt e1).
Proof.
  intros cf k n p x y x' y' e e1 Hk Hp Hn Hx Hy Hd H1 H2 H3 Hf.
  apply (taken_fit cf k n p) with (x := x) (y := y); auto.
Qed.
(** These five measures depend on proportions only. *)
Local Open Scope R_scope.
Lemma scale_zero t y : 0 < t -> neqb (Num := RNum) (t * y) n0 = neqb y n0.
Proof.
  intros H. change (Reqb (t * y) 0 = Reqb y 0). destruct (Reqb_spec y 0) as [->|n]; [rewrite Rmult_0_r; now destruct (Reqb_spec 0 0)|].
  destruct (Reqb_spec (t * y) 0) as [E|E]; [|reflexivity]. apply Rmult_integral in E. lra.
Qed.
Lemma pdiv_scale t x y : 0 < t -> pdiv (t * x) (t * y) = pdiv x y.
Proof.
  intros H. unfold pdiv. rewrite scale_zero by auto. destruct (neqb y n0) eqn:E; [reflexivity|]. f_equal.
  change (Reqb y 0 = false) in E. destruct (Reqb_spec y 0); [discriminate|]. change (t * x / (t * y) = x / y). field. split; lra.
Qed.
Lemma scale_less t x y : 0 < t -> nltb (Num := RNum) (t * x) (t * y) = nltb x y.
Proof.
  intros H. change (Rltb (t * x) (t * y) = Rltb x y). destruct (Rltb_spec x y) as [L|L], (Rltb_spec (t * x) (t * y)) as [K|K]; auto.
  - exfalso. apply K. now apply Rmult_lt_compat_l.
  - exfalso. apply L. now apply Rmult_lt_reg_l with t.
Qed.
Lemma scale_equal t x y : 0 < t -> neqb (Num := RNum) (t * x) (t * y) = neqb x y.
Proof.
  intros H. change (Reqb (t * x) (t * y) = Reqb x y). destruct (Reqb_spec x y) as [->|L], (Reqb_spec (t * y) (t * y)) as [K|K]; try congruence.
  - destruct (Reqb_spec (t * x) (t * y)) as [E|E]; auto. exfalso. apply L. now apply Rmult_eq_reg_l in E; [|lra].
Qed.
Theorem C92_proportional_measures : forall f, In f [rel_supp; rel_conf; rel_lift; rel_bayes; rel_simple] -> proportional f.
Proof.
  intros f Hf t a b c d Ht.
  destruct Hf as [<-|[<-|[<-|[<-|[<-|[]]]]]];
    unfold rel_supp, rel_conf, rel_lift, rel_bayes, rel_simple; change nadd with Rplus; change nsub with Rminus; cbv zeta;
    rewrite <- ?Rmult_plus_distr_l, <- ?Rmult_minus_distr_l, <- ?Rmult_plus_distr_l;
    repeat first [rewrite scale_zero by auto|rewrite scale_less by auto|rewrite scale_equal by auto|rewrite pdiv_scale by auto]; try reflexivity.
Qed.
Print Assumptions C92_repeated_rows.
Print Assumptions C92_proportional_measures.
(** The others do not, among them [rel_pos_inf], the estimator's default. *)
Theorem C92_other_measures_refuted : ~ proportional rel_rodr /\ ~ proportional rel_odr /\ ~ proportional rel_pos_inf.
Proof.
  assert (S : forall x, pdiv x 1 = Ok x).
  { intros x. rewrite pdiv_R by lra. f_equal. lra. }
  split; [|split]; intros H.
  - specialize (H 2 1 0 0 0 ltac:(lra)). unfold rel_rodr in H. change nadd with Rplus in H. change neqb with Reqb in H. change n0 with 0 in H.
    destruct (Reqb_spec (0 + 0) 0); [|lra]. destruct (Reqb_spec (2 * 0 + 2 * 0) 0); [|lra]. injection H as H. lra.
  - specialize (H 2 1 0 0 1 ltac:(lra)). unfold rel_odr in H. change nmul with Rmult in H. change neqb with Reqb in H. change n0 with 0 in H.
    destruct (Reqb_spec (0 * 0) 0); [|lra]. destruct (Reqb_spec (2 * 0 * (2 * 0)) 0); [|lra]. injection H as H. lra.
  - specialize (H 2 1 0 1 0 ltac:(lra)). unfold rel_pos_inf in H. change nadd with Rplus in H. change neqb with Reqb in H. change n0 with 0 in H. change nltb with Rltb in H.
    destruct (Reqb_spec (0 + 1) 0); [lra|]. destruct (Reqb_spec (1 + 0) 0); [lra|].
    destruct (Reqb_spec (2 * 0 + 2 * 1) 0); [lra|]. destruct (Reqb_spec (2 * 1 + 2 * 0) 0); [lra|].
    repeat (rewrite pdiv_R in H by lra; cbn [rbind] in H).
    destruct (Rltb_spec (0 / (1 + 0) / (1 + 0)) (1 / (0 + 1) / (1 + 0))); [|lra].
    destruct (Rltb_spec (2 * 0 / (2 * 1 + 2 * 0) / (2 * 1 + 2 * 0)) (2 * 1 / (2 * 0 + 2 * 1) / (2 * 1 + 2 * 0))); [|lra].
    injection H as H. lra.
Qed.
Print Assumptions C92_other_measures_refuted.
Local Close Scope R_scope.

Definition pcf : gconf Q :=
  mkGconf "___" (nofZ (-1)) true true rel_pos_inf rel_supp n0 None n0 true (fun _ => "x") (fun _ => Ok 0%Z)
    (fun l => l) (fun _ _ => Err EUndef).
Definition px : dataset Q :=
  [("f", ColStr ["b"; "b"; "b"; "a"]); ("g", ColStr ["b"; "a"; "a"; "a"]); ("h", ColStr ["a"; "a"; "b"; "b"])].
Definition py : dataset Q := [("c", ColStr ["v"; "v"; "v"; "u"])].
Definition px2 : dataset Q :=
  [("f", ColStr ["b"; "b"; "b"; "a"; "b"; "b"; "b"; "a"]); ("g", ColStr ["b"; "a"; "a"; "a"; "b"; "a"; "a"; "a"]);
   ("h", ColStr ["a"; "a"; "b"; "b"; "a"; "a"; "b"; "b"])].
Definition py2 : dataset Q := [("c", ColStr ["v"; "v"; "v"; "u"; "v"; "v"; "v"; "u"])].
Definition pt : dataset Q := [("f", ColStr ["a"]); ("g", ColStr ["a"]); ("h", ColStr ["a"])].
Lemma taken_tables {A} (l l' : list A) p : l' = pick p l -> length l' = length p -> Forall (fun i => i < length l) p -> taken p l l'.
Proof.
  intros -> H Hp. split; [exact H|]. clear H. induction Hp as [|i p Hi Hp IH]; intros j k Hj; [now destruct j|].
  cbn [pick flat_map]. destruct (nth_error l i) as [a|] eqn:E; [|apply nth_error_None in E; lia]. destruct j; cbn in *; [injection Hj as <-; auto|].
  now apply IH.
Qed.
Ltac take := unfold taken_frame; repeat (apply Forall2_cons; [split; [reflexivity|]; cbn [taken_column snd];
  apply taken_tables; [reflexivity..|]; cbn [length]; repeat (apply Forall_cons; [lia|]); apply Forall_nil|]); apply Forall2_nil.
(** With the estimator's default measures, training on every row twice changes a
    predicted label. *)
Theorem C92_default_refuted : exists (cf : gconf Q) p x y x' y' e e1 e1' xt,
  c_eval cf = rel_supp /\ c_caus cf = rel_pos_inf /\ c_sign cf = None /\
  every 2 4 p /\ taken_frame p x x' /\ taken_frame p y y' /\
  fit cf x y e = (e1, Ok tt) /\ fit cf x' y' e = (e1', Ok tt) /\
  snd (predict cf xt e1) = Ok [("c", [CStr "v"])] /\ snd (predict cf xt e1') = Ok [("c", [CStr "u"])].
Proof.
  exists pcf, [0; 1; 2; 3; 0; 1; 2; 3], px, py, px2, py2, qe0, (fst (fit pcf px py qe0)), (fst (fit pcf px2 py2 qe0)), pt.
  split; [reflexivity|]. split; [reflexivity|]. split; [reflexivity|].
  split; [apply Permutation_refl|]. split; [take|]. split; [take|].
  split; [vm_compute; reflexivity|]. split; [vm_compute; reflexivity|]. split; vm_compute; reflexivity.
Qed.
Print Assumptions C92_default_refuted.

(** ** Non-vacuity *)
Definition rcf' : gconf R :=
  mkGconf "___" (-1)%R true true rel_conf rel_supp 0%R (Some rel_lift) 0%R true (fun _ => "x") (fun _ => Ok 0%Z) (fun l => l) (fun _ _ => Err EUndef).
Definition re0 : est R :=
  match init_est (F := R) 5 2 (nlit 1 1000) "MEAN" true "KOSKO" "saturation" [] false with
  | Ok e => e
  | Err _ => mkEst (mkFcm [] [] [] true 0%Z 0%Z 0%R "" true "" [] 0%Z 0%R dummy_default true None false None false) None [] [] false
  end.
Lemma re0_fits : exists e', fit rcf' rx ry re0 = (e', Ok tt).
Proof.
  assert (M : init_est (F := R) 5 2 (nlit 1 1000) "MEAN" true "KOSKO" "saturation" [] false = Ok re0) by reflexivity.
  apply (C77_discrete_never_fails rcf' 2 rx ry re0 re0); auto; try (cbn; tauto).
  - intros l. apply Permutation_refl.
  - intros f [= <-]. cbn. tauto.
  - split; [repeat eexists; exact M|now exists []].
  - cbn. repeat constructor; cbn; intuition discriminate.
  - intros f c H. split; [|exists (fst (discrete_desc rcf' c)), (snd (discrete_desc rcf' c)); split; [apply levels_desc|]];
      destruct H as [H|[H|[H|[]]]]; injection H as <- <-; cbn; auto.
Qed.
Lemma rows_two : forall f c, In (f, c) (rx ++ ry) -> col_length c = 2.
Proof. intros f c [H|[H|[H|[]]]]; injection H as <- <-; reflexivity. Qed.
Example C91_nonvacuous : exists e1 e1',
  fit rcf' rx ry re0 = (e1, Ok tt) /\
  fit rcf' [("f", ColStr ["b"; "a"]); ("t", ColBool [false; true])] [("c", ColStr ["v"; "u"])] re0 = (e1', Ok tt) /\
  e_map e1' = e_map e1.
Proof.
  destruct re0_fits as [e1 H].
  destruct (C91_row_order rcf' 2 [1; 0] rx ry [("f", ColStr ["b"; "a"]); ("t", ColBool [false; true])] [("c", ColStr ["v"; "u"])] re0 e1) as (e1' & H1 & H2 & _);
    [apply perm_swap|exact rows_two|take|take|intros name l l' _; reflexivity|exact H|].
  exists e1, e1'. auto.
Qed.
Example C91_discretization_nonvacuous : exists name l l' (fits : list R) rand, l <> l' /\
  fuzzy_feature_discretization l 5 100 "cmeans-gap" name fits rand = fuzzy_feature_discretization l' 5 100 "cmeans-gap" name fits rand.
Proof.
  exists "f", [1; 2]%R, [2; 1; 2]%R, [], (fun _ => []). split; [discriminate|].
  apply (C91_discretization 5 100 "cmeans-gap" [] (fun _ => []) "f"). intros v. cbn. tauto.
Qed.
Example C92_nonvacuous : exists e1 e1',
  fit rcf' rx ry re0 = (e1, Ok tt) /\
  fit rcf' [("f", ColStr ["b"; "a"; "a"; "b"]); ("t", ColBool [false; true; true; false])] [("c", ColStr ["v"; "u"; "u"; "v"])] re0 = (e1', Ok tt) /\
  e_map e1' = e_map e1.
Proof.
  destruct re0_fits as [e1 H].
  destruct (C92_repeated_rows rcf' 2 2 [1; 0; 0; 1] rx ry
    [("f", ColStr ["b"; "a"; "a"; "b"]); ("t", ColBool [false; true; true; false])] [("c", ColStr ["v"; "u"; "u"; "v"])] re0 e1) as (e1' & H1 & H2 & _);
    [lia|apply perm_swap|exact rows_two|take|take|intros name l l' _; reflexivity|apply C92_proportional_measures; cbn; tauto|apply C92_proportional_measures; cbn; tauto|
     intros f [= <-]; apply C92_proportional_measures; cbn; tauto|exact H|].
  exists e1, e1'. auto.
Qed.
