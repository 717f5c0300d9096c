(** PropUnknown.v — rows in which no value is known from training (C110). *)
From Coq Require Import Permutation Reals Lra Lia QArith DecimalString.
From Verif Require Import Base BaseFacts Num QNum Functions Spec SortFacts RealFacts FunctionsFacts Fcm FcmSpec DynSpec LearnUtils LearnSpec LearnFacts Assoc AssocSpec AssocLabel
  Estimator EstFacts EstSpec EstFacts4 EstFacts5 OddFacts UnknownFacts.
From Verif Require Import FcmOrder RlFacts AssocNames AssocNames2 AssocFacts2 EstFacts9 EstExamples AssocFacts.
From Verif Require PropAssoc PropEstimator2 PropEstimator3 PropSeparated.
Local Close Scope Q_scope.
Local Open Scope R_scope.

(** ** C110 *)
(** A discrete model whose functions answer 0 with 0: rows in which no value is known are
    all given the first class (the least value of the target's training column). *)
Theorem C110_first_class :
  forall cf mi ex sd de me xc ac kw vec (e0 e e' e2 : est R) x y x' out,
  init_est mi ex sd de me xc ac kw vec = Ok e0 -> (vec = true -> (1 <= mi)%Z) -> xc <> "PAPAGEORGIUS" -> callable ac kw -> silent_function ac kw ->
  reorders (c_ord cf) -> healthy e0 e -> readable_data cf (join_frames x y) ->
  (forall f c, In (f, c) (join_frames x y) -> exists texts rows, levels cf c texts rows /\ is_discrete cf c texts) ->
  fit cf x y e = (e', Ok tt) -> used e' e2 -> Forall (unknown_row cf (join_frames x y)) (iterrows x') -> snd (predict cf x' e2) = Ok out ->
  forall f c, In (f, c) (join_frames x y) -> In f (dkeys y) -> (0 < col_length c)%nat ->
  exists t, first_value cf c t /\ labels out f = repeat (class_cell t) (frame_rows x').
Proof. exact unknown_labels. Qed.
Print Assumptions C110_first_class.
(** The functions that answer 0 with 0 are all but sigmoid and fuzzy; sigmoid answers 1/2. *)
Theorem C110_functions : forall (a : args R),
  (forall f, In f ["biestate"; "threestate"; "saturation"; "sigmoid_hip"; "tan_hip"; "gceq"; "lceq"; "relm"] -> silent_function f a) /\
  (forall y, call_actv ASigmoid 0 a = Ok y -> y = 1 / 2).
Proof.
  intros a. split.
  - intros f Hf fn y E1 E2. cbn [In] in Hf. repeat destruct Hf as [<-|Hf]; [..|easy]; cbn in E1; injection E1 as <-; cbn [call_actv] in E2;
      (destruct (kw_only _ a); cbn [rbind] in E2; [|discriminate]);
      try (destruct (kw_scal a _ _) as [w|]; cbn [rbind] in E2; [|discriminate]); try (apply Ok_inj in E2; subst y).
    + unfold bistate. rnum. now rewrite (proj2 (Rleb_true 0 0)) by lra.
    + unfold threestate. rnum. now rewrite (proj2 (Rleb_true 0 _)) by lra.
    + unfold saturation. rnum. now rewrite !(proj2 (Rltb_false _ _)) by lra.
    + pose proof (sigmoid_hip_odd 0 w) as Q. rewrite Ropp_0, Rmult_0_r, Rabs_R0 in Q. lra.
    + pose proof (sigmoid_hip_odd 0 w) as Q. rewrite Ropp_0, Rmult_0_r, Rabs_R0 in Q. lra.
    + unfold greater_cond_equality. rnum. destruct (Rleb _ 0); auto. now rewrite !(proj2 (Rltb_false _ _)) by lra.
    + unfold lower_cond_equality. rnum. destruct (Rleb 0 _); auto. now rewrite !(proj2 (Rltb_false _ _)) by lra.
    + unfold relm in E2. rewrite (proj2 (Rltb_false _ _)) in E2 by (rnum; lra). unfold pdiv in E2. destruct (neqb w n0); [discriminate|]. cbn [rbind] in E2.
      rewrite (proj2 (Rltb_false _ _)) in E2 by (rnum; unfold Rdiv; rewrite Rmult_0_l; lra). apply Ok_inj in E2. subst y. rnum. unfold Rdiv. now rewrite Rmult_0_l.
  - intros y E2. cbn [call_actv] in E2. destruct (kw_only _ a); cbn [rbind] in E2; [|discriminate]. destruct (kw_scal a _ _) as [w|]; cbn [rbind] in E2; [|discriminate].
    apply Ok_inj in E2. subst y. unfold sigmoid. rnum. rewrite Rmult_0_r, exp_0. lra.
Qed.
Print Assumptions C110_functions.

(** A number is never written like a boolean. *)
Lemma not_bool z (b : bool) : str_of_Z z <> if b then "True" else "False".
Proof.
  assert (U : forall d t, NilEmpty.string_of_uint d <> String "T" t /\ NilEmpty.string_of_uint d <> String "F" t) by (intros [] t; split; discriminate).
  unfold str_of_Z, NilZero.string_of_int, NilZero.string_of_uint. destruct (Z.to_int z) as [d|d]; destruct b; try discriminate; destruct d; try discriminate; apply U.
Qed.
(** the columns whose values are not found again: booleans, and floats taken as discrete values,
    whose texts are not those of integers (Python writes 1.0, not 1) *)
Definition never_found (cf : gconf R) (c : column R) : Prop :=
  match c with ColBool _ => True | ColFlt _ => forall q z, c_fstr cf q <> str_of_Z z | _ => False end.
Definition not_text (c : column R) : Prop := match c with ColStr _ => False | _ => True end.
Lemma row_cells (x : dataset R) r f v : In r (iterrows x) -> In (f, v) r -> exists c w b, In (f, c) x /\ In w (col_cells c) /\ v = upcast b w.
Proof.
  unfold iterrows. intros Hr Hv. apply in_map_iff in Hr as (i & <- & _). apply in_flat_map in Hv as ([f' c] & Hc & Hv). cbn [fst snd] in Hv.
  destruct (nth_error (col_cells c) i) as [w|] eqn:E; [|destruct Hv]. destruct Hv as [Hv|[]]. injection Hv as <- <-. apply nth_error_In in E. eauto 7.
Qed.
Lemma row_keys (x : dataset R) r : NoDup (dkeys x) -> In r (iterrows x) -> NoDup (map fst r).
Proof.
  unfold iterrows. intros ND Hr. apply in_map_iff in Hr as (i & <- & _). set (b := _ && _). clearbody b.
  induction x as [|[f c] x IH]; [constructor|]. cbn [dkeys map fst] in ND. apply NoDup_cons_iff in ND as [Nf ND]. cbn [flat_map fst snd].
  rewrite map_app. destruct (nth_error (col_cells c) i) as [w|]; [|exact (IH ND)]. cbn [map app fst]. constructor; [|exact (IH ND)].
  intros H. apply Nf. apply in_map_iff in H as ([f' v] & E & H). cbn [fst] in E. subst f'. apply in_flat_map in H as ([f' c'] & Hc & H). cbn [fst snd] in H.
  destruct (nth_error (col_cells c') i); [|destruct H]. destruct H as [H|[]]. injection H as -> _. apply in_map_iff. exists (f, c'). auto.
Qed.
Lemma never_unknown cf ds (x' : dataset R) : NoDup (dkeys x') ->
  (forall f c', In (f, c') x' -> not_text c' /\ forall c, In (f, c) ds -> never_found cf c) -> Forall (unknown_row cf ds) (iterrows x').
Proof.
  intros ND H. apply Forall_forall. intros r Hr. split; [eapply row_keys; eauto|].
  assert (Tx : forall f v, In (f, v) r -> (forall t, v <> CStr t) /\ forall t, cell_text cf v = Ok t -> exists z, t = str_of_Z z).
  { intros f v Hv. destruct (row_cells x' r f v Hr Hv) as (c & w & b & Hc & Hw & ->). destruct (H f c Hc) as [Nt _].
    assert (K : forall t, w <> CStr t) by (intros t ->; destruct c; cbn in Hw, Nt; try contradiction; apply in_map_iff in Hw as (u & E & _); discriminate).
    assert (K' : forall t, upcast b w <> CStr t) by (intros t; specialize (K t); destruct w; cbn; try destruct b; congruence).
    split; auto. intros t. destruct (upcast b w) as [u|u|u|u]; cbn [cell_text]; intros E; [now elim (K' u)| | |].
    - apply Ok_inj in E. eauto.
    - apply Ok_inj in E. eauto.
    - destruct (c_trunc cf u); cbn [rbind] in E; [|discriminate]. apply Ok_inj in E. eauto. }
  split.
  - intros f t Hv. now elim (proj1 (Tx f _ Hv) t).
  - intros f v c texts rows t Hv Hc L Ht Hin. destruct (Tx f v Hv) as [_ Z]. destruct (Z t Ht) as [z ->].
    destruct (row_cells x' r f v Hr Hv) as (c' & _ & _ & Hc' & _). pose proof (proj2 (H f c' Hc') c Hc) as Nf.
    inversion L as [l us S E1|l us S E1 E2|l us S E1 E2|l us E1 E2]; subst; cbn [never_found] in Nf; try contradiction.
    + apply in_map_iff in Hin as (b & E & _). exact (not_bool z b (eq_sym E)).
    + apply in_map_iff in Hin as (q & E & _). exact (Nf q z E).
Qed.
(** Such features have no effect: whatever was trained, and whatever the rows to predict are, all
    are given the first class. *)
Theorem C110_no_effect :
  forall cf mi ex sd de me xc ac kw vec (e0 e e' e2 : est R) x y x' out,
  init_est mi ex sd de me xc ac kw vec = Ok e0 -> (vec = true -> (1 <= mi)%Z) -> xc <> "PAPAGEORGIUS" -> callable ac kw -> silent_function ac kw ->
  reorders (c_ord cf) -> healthy e0 e -> readable_data cf (join_frames x y) ->
  (forall f c, In (f, c) (join_frames x y) -> exists texts rows, levels cf c texts rows /\ is_discrete cf c texts) ->
  fit cf x y e = (e', Ok tt) -> used e' e2 ->
  NoDup (dkeys x') -> (forall f c', In (f, c') x' -> not_text c' /\ forall c, In (f, c) (join_frames x y) -> never_found cf c) -> snd (predict cf x' e2) = Ok out ->
  forall f c, In (f, c) (join_frames x y) -> In f (dkeys y) -> (0 < col_length c)%nat ->
  exists t, first_value cf c t /\ labels out f = repeat (class_cell t) (frame_rows x').
Proof. intros. eapply unknown_labels; eauto. now apply never_unknown. Qed.
Print Assumptions C110_no_effect.

(** ** Refuted: a boolean feature that determines the class is learned *)
Definition bools : list bool := [true; false; true; false].
Definition bright : list (cell Q) := [CStr "v"; CStr "u"; CStr "v"; CStr "u"].
Definition blearn (c : column Q) (vec : bool) : res (list (cell Q)) :=
  (e0 <- init_est 20 5 (nlit 1 1000) "MEAN" true "KOSKO" "saturation" [] vec ;;
   match fit (PropSeparated.scf n0 (nofZ (-1))) [("f", c)] [("c", ColStr ["v"; "u"; "v"; "u"])] e0 with
   | (e1, Ok _) => (out <- snd (predict (PropSeparated.scf n0 (nofZ (-1))) [("f", c)] e1) ;; Ok (labels out "c"))
   | (_, Err e) => Err e
   end)%res.
Theorem C110_boolean_feature_refuted : forall vec,
  (** as texts or as integers: every row of the training data is right *)
  blearn (ColStr (map (fun b : bool => if b then "yes" else "no") bools)) vec = Ok bright /\
  blearn (ColInt (map (fun b : bool => if b then 1 else 0)%Z bools)) vec = Ok bright /\
  (** as booleans or as floats: every row is given the first class *)
  blearn (ColBool bools) vec = Ok (repeat (CStr "u") 4) /\
  blearn (ColFlt (map (fun b : bool => if b then 1%Q else (1 # 2)%Q) bools)) vec = Ok (repeat (CStr "u") 4).
Proof. intros []; repeat split; vm_compute; reflexivity. Qed.
Print Assumptions C110_boolean_feature_refuted.

(** ** Non-vacuity *)
Definition ux : dataset R := [("f", ColBool [true; false; true]); ("g", ColStr ["a"; "b"; "a"])].
Definition uy : dataset R := [("c", ColStr ["v"; "u"; "v"])].
Definition ux' : dataset R := [("f", ColBool [true; true; false])].
Lemma u_readable : readable_data PropSeparated.rscf (join_frames ux uy).
Proof.
  assert (S : forall c : Ascii.ascii, c <> "_"%char -> readable (String c "")).
  { intros c Hc. split.
    - intros H. apply occurs_b in H. cbn [occursb String.prefix] in H. destruct (Ascii.ascii_dec "_" c); [congruence|discriminate].
    - intros [|c' [|c'' t]] H; try discriminate. injection H as ->. congruence. }
  split; [reflexivity|]. split.
  - cbn. repeat constructor; cbn; intuition discriminate.
  - intros f c [H|[H|[H|[]]]]; injection H as <- <-; (split; [intros H; apply occurs_b in H; discriminate|cbn; auto]);
      try exact I; repeat (apply Forall_cons; [apply S; discriminate|]); apply Forall_nil.
Qed.
Lemma u_discrete f c : In (f, c) (join_frames ux uy) -> col_length c = 3%nat /\ exists texts rows, levels PropSeparated.rscf c texts rows /\ is_discrete PropSeparated.rscf c texts.
Proof.
  intros H. split; [|exists (fst (discrete_desc PropSeparated.rscf c)), (snd (discrete_desc PropSeparated.rscf c)); split; [apply levels_desc|]];
    destruct H as [H|[H|[H|[]]]]; injection H as <- <-; cbn; auto.
Qed.
Example C110_nonvacuous : forall vec, exists e0 e1, init_est 20 5 (1 / 1000) "MEAN" true "KOSKO" "sigmoid_hip" [] vec = Ok e0 /\ fit PropSeparated.rscf ux uy e0 = (e1, Ok tt) /\
  exists out, snd (predict PropSeparated.rscf ux' e1) = Ok out /\ labels out "c" = [CStr "u"; CStr "u"; CStr "u"].
Proof.
  intros vec. eexists. assert (HI : init_est 20 5 (1 / 1000) "MEAN" true "KOSKO" "sigmoid_hip" [] vec = Ok _) by reflexivity.
  assert (HO : reorders (c_ord PropSeparated.rscf)) by (intros l; apply Permutation_refl).
  match type of HI with _ = Ok ?e => set (e0 := e) in * end.
  assert (HH : healthy e0 e0) by (split; [repeat eexists; exact HI|now exists []]).
  destruct (PropEstimator2.C77_discrete_never_fails PropSeparated.rscf 3 ux uy e0 e0 HO) as [e1 HF]; auto; try (cbn; tauto).
  { intros f E. discriminate. }
  { apply u_readable. }
  { apply u_discrete. }
  exists e1. split; [reflexivity|]. split; [exact HF|].
  assert (Ca : callable "sigmoid_hip" ([] : args R)) by (right; left; cbn; tauto).
  assert (Ks : forall f c, In (f, c) ux' -> In f (dkeys (join_frames ux uy)) /\ (forall l, c = ColStr l -> Forall readable l)).
  { intros f c [H|[]]. injection H as <- <-. split; [cbn; tauto|discriminate]. }
  assert (Ne : forall k : Z, (0 < k)%Z -> @neqb R RNum (nofZ k) n0 = false).
  { intros k Hk. rnum. destruct (Reqb_spec (IZR k) 0) as [e|]; auto. apply eq_IZR in e. lia. }
  assert (Tr : forall q, exists z, c_trunc PropSeparated.rscf q = Ok z) by (intros q; now exists 0%Z).
  assert (exists out, snd (predict PropSeparated.rscf ux' e1) = Ok out) as [out Ho].
  { destruct vec.
    - apply (@PropEstimator3.C76_vectorized R RNum PropSeparated.rscf 20 5 (1/1000) "MEAN" true "KOSKO" "sigmoid_hip" [] e0 e0 e1 e1 ux uy ux'); auto; try discriminate.
      + rnum. destruct (Reqb_spec 0 2); auto. lra.
      + rnum. destruct (Reqb_spec 1 2); auto. lra.
      + intros a b. apply Rmult_comm.
      + intros _. split; auto. rnum. destruct (Reqb_spec 0 0); auto.
      + now exists [].
      + apply u_readable.
      + exists "f", (ColBool [true; false; true]). split; [now left|cbn; lia].
      + intros f c H. now apply u_discrete in H.
    - apply (@PropEstimator2.C76_predict_succeeds R RNum PropSeparated.rscf 20 5 (1/1000) "MEAN" true "KOSKO" "sigmoid_hip" [] e0 e0 e1 e1 ux uy ux'); auto; try discriminate.
      + intros a b. apply Rmult_comm.
      + now exists [].
      + apply u_readable.
      + intros f c H. now apply u_discrete in H. }
  exists out. split; auto.
  destruct (C110_no_effect PropSeparated.rscf 20 5 (1/1000) "MEAN" true "KOSKO" "sigmoid_hip" [] vec e0 e0 e1 e1 ux uy ux' out) with (f := "c") (c := ColStr (F := R) ["v"; "u"; "v"]) as (t & Ft & ->); auto.
  - intros _. lia.
  - discriminate.
  - apply C110_functions. cbn. tauto.
  - apply u_readable.
  - intros f c H. now apply u_discrete in H.
  - now exists [].
  - repeat constructor. easy.
  - intros f c' [H|[]]. injection H as <- <-. split; [exact I|]. intros c [H|[H|[H|[]]]]; try discriminate. injection H as <-. exact I.
  - cbn. tauto.
  - cbn. tauto.
  - cbn. lia.
  - assert (t = "u") as ->; [|reflexivity]. destruct Ft as [Hi Hm]. specialize (Hm "u" ltac:(cbn; tauto)). destruct Hi as [<-|[<-|[<-|[]]]]; try reflexivity; discriminate.
Qed.
