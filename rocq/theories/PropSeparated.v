(** PropSeparated.v — C93: perfectly separated data is learned.  If every column of the training
    data determines every other column, then with support as evaluation function and
    confidence or positive influence as causality function (the defaults of the estimator)
    any monotone activation function gives a map that predicts the class of every training
    row correctly, from all feature columns or only some of them, in either engine. *)
From Coq Require Import Permutation Reals Lra Lia QArith.
From Verif Require Import Base BaseFacts Num QNum Functions Spec RealFacts RlFacts FunctionsFacts Fcm FcmSpec FcmBasics FcmInv FcmInv2 FcmInv3 FcmIter FcmRun FcmRun2 FcmRun3 FcmOrder DynSpec Dynamics Dynamics2 VecSpec FcmVec5 FcmVec6 FcmTotal LearnUtils LearnSpec LearnFacts Assoc AssocSpec AssocFacts AssocFacts2 AssocFacts3 AssocFacts4 AssocUnique AssocNames AssocNames2 AssocLabel Estimator EstExamples EstFacts EstFacts2 EstFacts3 EstSpec EstFacts4 AssocGen AssocPredict AssocResult AssocRow AssocLabel EstFacts5 EstFacts6 EstFacts7 EstFacts9 SepSpec SepFacts SepFacts2 SepFacts3 SepFacts4 SepFacts5 SepFacts6.
From Verif Require PropAssoc PropEstimator2.
Local Close Scope Q_scope.
Local Open Scope R_scope.

Lemma join_apart (x y : dataset R) : NoDup (dkeys (x ++ y)) -> join_frames x y = x ++ y.
Proof.
  intros ND. unfold join_frames. f_equal. unfold dkeys in ND. rewrite map_app in ND. rewrite <- (map_id y) at 2. apply map_ext_in. intros [f c] H.
  cbn [fst snd]. destruct (str_mem f (dkeys x)) eqn:M; auto. apply str_mem_In in M. exfalso.
  apply (NoDup_app_disj _ _ ND f M). apply in_map_iff. exists (f, c). auto.
Qed.
Lemma plain_discrete cf c : plain_column cf c -> exists texts rows, levels cf c texts rows /\ is_discrete cf c texts.
Proof.
  intros P. exists (fst (discrete_desc cf c)), (snd (discrete_desc cf c)). split; [apply levels_desc|].
  destruct c as [l|l|l|l]; cbn; auto; try contradiction. destruct P as (P & few & Hf & Hi). split; auto. rewrite map_length.
  pose proof (unique_NoDup _ _ Z_total_order l) as ND. pose proof (NoDup_incl_length ND (l' := few)) as X. eapply Nat.le_lt_trans; [apply X|apply Hf].
  intros z Hz. apply Hi. now apply unique_In in Hz.
Qed.

Section Separated.
Variables (cf : gconf R) (n : nat) (x y : dataset R).
Hypothesis HO : reorders (c_ord cf).
Hypothesis HS : separable cf n x y.

Lemma sep_join : join_frames x y = x ++ y.
Proof. apply join_apart. apply HS. Qed.

Theorem C93_fit : forall e0 e, rates_by_share cf -> healthy e0 e -> (e = e0 \/ m_debug (e_map e0) = true) ->
  exists e', fit cf x y e = (e', Ok tt).
Proof.
  intros e0 e (Ev & _ & Ca & Sg) HH Hd. destruct HS as (RD & _ & (Ln & _) & Pl). apply (PropEstimator2.C77_discrete_never_fails cf n x y e0 e HO).
  - rewrite Ev. cbn. tauto.
  - destruct Ca as [-> | ->]; cbn; tauto.
  - intros f E. rewrite Sg in E. discriminate.
  - exact HH.
  - exact Hd.
  - rewrite sep_join. apply RD.
  - intros f c H. rewrite sep_join in H. split; [eapply Ln; eauto|]. apply plain_discrete. now apply Pl in H.
Qed.

Section Learned.
Variables (mi ex : Z) (sd : R) (de : string) (me : bool) (xc ac : string) (kw : args R) (vec : bool).
Variables e0 e e' e2 : est R.
Hypothesis HI : init_est mi ex sd de me xc ac kw vec = Ok e0.
Hypothesis HH : healthy e0 e.
Hypothesis HR : rates_by_share cf.
Hypothesis HF : fit cf x y e = (e', Ok tt).
Hypothesis HU : used e' e2.
Hypothesis Hc : callable ac kw.
Hypothesis Ht : telling ac kw (reach xc * (1 + Rabs (c_excl cf)) * INR (S (length (concepts (e_map e'))))).
Hypothesis Hown : own_voice cf de me.
Hypothesis Hiter : vec = false -> (2 <= ex)%Z.
Hypothesis Hvec : vec = true -> (3 <= mi)%Z.

Lemma sep_keep f : In f (dkeys x) -> ~ In f (dkeys y).
Proof. destruct HS as ((_ & ND & _) & _). unfold dkeys in ND. rewrite map_app in ND. intros A B. exact (NoDup_app_disj _ _ ND f A B). Qed.
Lemma part_cells src x' f c' : part_of src x' x -> In (f, c') x' ->
  In f (dkeys (x ++ y)) /\ (forall v, In v (col_cells c') -> plain_cell v) /\ (forall l, c' = ColStr l -> Forall readable l).
Proof.
  intros (_ & _ & P) H. destruct (P f c' H) as (c & Hi & E). destruct HS as ((_ & _ & RD) & _ & _ & Pl).
  assert (Hi' : In (f, c) (x ++ y)) by (apply in_or_app; auto). pose proof (Pl f c Hi') as [Pc _]. destruct (RD f c Hi') as [_ Rv].
  assert (Sub : forall v, In v (col_cells c') -> In v (col_cells c)).
  { intros v Hv. rewrite E in Hv. unfold pick in Hv. apply in_flat_map in Hv as (i & _ & Hv). destruct (nth_error (col_cells c) i) eqn:En; [|easy].
    destruct Hv as [<-|[]]. eapply nth_error_In; eauto. }
  split; [apply in_map_iff; exists (f, c); auto|]. split.
  - intros v Hv. apply Sub in Hv. destruct c; cbn in Hv, Pc; try contradiction; apply in_map_iff in Hv as (w & <- & _); exact I.
  - intros l ->. apply Forall_forall. intros t Ht'. assert (Ht2 : In (CStr t) (col_cells c)) by (apply Sub; cbn; now apply in_map).
    destruct c as [l'|l'|l'|l']; cbn in Ht2, Pc; try contradiction; apply in_map_iff in Ht2 as (w & E' & Hw); try discriminate. injection E' as ->.
    cbn in Rv. rewrite Forall_forall in Rv. now apply Rv.
Qed.
Lemma sep_x f c : In (f, c) x -> In (f, c) (x ++ y) /\ ~ In f (dkeys y).
Proof. intros H. split; [apply in_or_app; auto|]. apply sep_keep. apply in_map_iff. exists (f, c). auto. Qed.
Lemma sep_part src x' : part_of src x' x -> exists idx, Forall2 (row_of_sample (x ++ y) (dkeys y) n) idx (iterrows x') /\
  forall f c, In (f, c) (x ++ y) -> pick idx (col_cells c) = pick src (col_cells c).
Proof. destruct HS as (_ & Nz & Sp & Pl). apply (part_rows cf); auto; [intros f c H; now apply Pl in H|apply sep_x]. Qed.
Lemma part_floats src x' r f q : part_of src x' x -> In r (iterrows x') -> ~ In (f, CFlt q) r.
Proof.
  intros P Hr Hq. destruct (sep_part src x' P) as (idx & F2 & _). destruct (Forall2_In_r _ _ _ _ F2 Hr) as (i & _ & Hi & _ & _ & Hc').
  destruct (Hc' f _ Hq) as (_ & c & Hin & Hn). destruct HS as (_ & _ & _ & Pl). destruct (Pl f c Hin) as [Pc _].
  apply nth_error_In in Hn. destruct c; cbn in Hn, Pc; try contradiction; apply in_map_iff in Hn as (w & E & _); discriminate.
Qed.
Lemma sep_trained : exists fds, Forall2 (described cf (dkeys y)) (x ++ y) fds /\ NoDup (flat_map fd_names fds) /\
  Forall (fun d => length (fd_rows d) = length (fd_names d)) fds /\ e_generated e2 = true /\ e_map e2 = g_fcm (e_gen e2) /\ e_priv e2 = None /\
  trained cf fds de me xc ac kw (length (concepts (e_map e'))) (e_gen e2).
Proof.
  destruct HS as (RD & Nz & Sp & Pl). pose proof (healthy_estimator _ _ HH) as HE. pose proof RD as (Hsep & ND & _).
  pose proof (healthy_fit _ _ _ _ _ _ HH HF) as HH'. rewrite <- sep_join in RD, ND.
  destruct (@fit_tidy R RNum cf Hsep x y e0 e e' HO (fun a b => Rmult_comm a b) HE RD HF) as (fds & T & D & Nn & Ln & Eg & dc & ops & Hp & Hr).
  destruct (fit_base cf x y e0 e e' HE HF) as (_ & _ & Pn). destruct (used_moved e' e2 Pn HU) as (M & P2 & G2).
  assert (g2 : e_map e2 = g_fcm (e_gen e2)) by (unfold e_gen; now rewrite P2).
  assert (G1 : e_generated e' = true).
  { unfold fit in HF. destruct (reset (e_gen e)) as [g1 [u|er]]; [|discriminate]. destruct (build_fcm _ _ _ _ _) as [g3 [u'|er]]; [|discriminate]. now injection HF as <-. }
  assert (St : settings (e_map e') = settings (e_map e0)).
  { apply est_settings. apply (estimator_state _ _ (healthy_estimator _ _ HH')). }
  pose proof (settings_max _ _ St) as (X1 & X2 & _ & _ & X5 & X6). pose proof (settings_fit _ _ St) as [_ X7].
  destruct (init_default _ _ _ _ _ _ _ _ _ _ HI) as (I1 & I2 & I3). destruct (init_default2 _ _ _ _ _ _ _ _ _ _ HI) as (I4 & I5 & I6 & I7 & I8).
  assert (Co : common (e_map e') me xc ac kw).
  { pose proof (fit_common cf x y e0 e e' HO HE ND HF) as Co. cbn zeta in Co. rewrite X7, I1, I2, I4, I5 in Co. apply Co.
    intros f c d Hi Hd. rewrite sep_join in Hi. destruct (Pl f c Hi) as [Pc _]. destruct (described_plain cf _ _ _ _ Pc Hd) as (_ & -> & _).
    destruct (str_mem f (dkeys y)); split; reflexivity. }
  exists fds. rewrite sep_join in D. split; [exact D|]. split; [exact Nn|]. split; [exact Ln|]. split; [congruence|]. split; [exact g2|]. split; [exact P2|].
  apply (trained_moved _ _ _ _ _ _ _ _ _ _ M). rewrite sep_join in Hp, ND. constructor.
  - exact T.
  - rewrite Eg. eapply healthy_sane; eauto.
  - now rewrite Eg.
  - now rewrite Eg.
  - rewrite Eg, Hr. destruct (plan_build_spec cf _ _ _ _ _ _ Hp) as (rest & E & _ & Dn & Rl & _). cbn in E. subst rest. rewrite Rl.
    destruct (rels_ends cf fds HO []) as [X _]; auto. cbn [app]. now rewrite Dn.
  - rewrite Eg, Hr. apply (@all_rels_In R RNum cf HO (fun a b => Rmult_comm a b) _ _ _ _ _ ND Hp).
  - rewrite Eg. congruence.
  - rewrite Eg, X7. exact I1.
  - rewrite Eg, X1, X2, X6, I6, I7, I8. destruct vec; [right|left]; (split; [reflexivity|]); [now apply Hvec|].
    specialize (Hiter eq_refl). destruct (Z.ltb_spec 0 ex); lia.
Qed.
Lemma sep_predicts src x' : part_of src x' x -> exists out, snd (predict cf x' e2) = Ok out.
Proof.
  intros P. destruct HS as (RD & Nz & Sp & Pl). pose proof RD as (Hsep & ND & _).
  assert (Dx : de <> "EXITED") by (destruct Hown as [[-> _]|[-> _]]; discriminate).
  assert (Ne : de <> "LAST" -> forall k : Z, (0 < k)%Z -> @neqb R RNum (nofZ k) n0 = false).
  { intros _ k Hk. rnum. destruct (Reqb_spec (IZR k) 0); auto. apply eq_IZR in e1. lia. }
  assert (Dc : forall f c, In (f, c) (join_frames x y) -> exists texts rows, levels cf c texts rows /\ is_discrete cf c texts).
  { intros f c H. rewrite sep_join in H. apply plain_discrete. now apply Pl in H. }
  assert (Rx : forall f c, In (f, c) x' -> In f (dkeys (join_frames x y)) /\ (forall l, c = ColStr l -> Forall readable l)).
  { intros f c H. rewrite sep_join. destruct (part_cells src x' f c P H) as (A & _ & B). auto. }
  assert (Fl : forall r f q, In r (iterrows x') -> In (f, CFlt q) r -> exists z, c_trunc cf q = Ok z).
  { intros r f q Hr Hq. elim (part_floats src x' r f q P Hr Hq). }
  rewrite <- sep_join in RD. destruct vec eqn:V.
  - apply (vec_predict_succeeds) with (mi := mi) (ex := ex) (sd := sd) (de := de) (me := me) (xc := xc) (ac := ac) (kw := kw) (e0 := e0) (e := e) (e' := e') (x := x) (y := y); auto.
    + rnum. destruct (Reqb_spec 0 2); auto. lra.
    + rnum. destruct (Reqb_spec 1 2); auto. lra.
    + intros a b. apply Rmult_comm.
    + specialize (Hvec eq_refl). lia.
    + destruct P as (Hx' & _ & P). destruct x' as [|[f c'] r]; [congruence|]. destruct (P f c' (or_introl eq_refl)) as (c & Hi & _). exists f, c.
      rewrite sep_join. split; [apply in_or_app; auto|]. destruct Sp as [Sp _]. rewrite (Sp f c); auto. apply in_or_app; auto.
    + intros Hl. split; [rnum; destruct (Reqb_spec 0 0); auto; lra|now apply Ne].
  - apply (predict_succeeds) with (mi := mi) (ex := ex) (sd := sd) (de := de) (me := me) (xc := xc) (ac := ac) (kw := kw) (e0 := e0) (e := e) (e' := e') (x := x) (y := y); auto.
    intros a b. apply Rmult_comm.
Qed.
Theorem C93_learned : forall src x', part_of src x' x ->
  (vec = true -> de = "MEAN" -> m_oob (e_map (fst (predict cf x' e2))) = false) ->
  exists out, snd (predict cf x' e2) = Ok out /\
    forall f c, In (f, c) y -> labels out f = map label (pick src (col_cells c)).
Proof.
  intros src x' P Ob. destruct (sep_predicts src x' P) as [out Ho]. exists out. split; auto. intros f c Hf.
  destruct sep_trained as (fds & D & Nn & Ln & G2 & g2 & P2 & T). destruct HS as (RD & Nz & Sp & Pl). destruct HR as (Ev & Th & Ca & Sg).
  destruct (sep_part src x' P) as (idx & F2 & Pk). assert (Hi : In (f, c) (x ++ y)) by (apply in_or_app; auto). rewrite <- (Pk f c Hi).
  unfold predict in Ho, Ob. rewrite G2 in Ho, Ob. destruct (predict_rows cf (iterrows x') [] (e_gen e2)) as [g' r] eqn:E. cbn [fst snd] in Ho, Ob. subst r.
  apply (rows_right cf (proj1 RD) Ev Th Ca Sg (x ++ y) (dkeys y) n fds) with (de := de) (b := me) (xc := xc) (ac := ac) (kw := kw) (k := length (concepts (e_map e')))
    (idx := idx) (rows := iterrows x') (g := e_gen e2) (acc := []) (g' := g') (out := out); auto.
  - intros h q H. now apply Pl in H.
  - intros h q H. now apply Pl in H.
  - intros Em. destruct (tr_engine _ _ _ _ _ _ _ _ _ T) as [[Td _]|[Td _]]; [now left|right].
    rewrite <- g2, (estimator_debug _ _ (healthy_estimator _ _ (healthy_used _ _ _ (healthy_fit _ _ _ _ _ _ HH HF) HU))) in Td.
    destruct (init_default2 _ _ _ _ _ _ _ _ _ _ HI) as (_ & _ & _ & _ & I8). rewrite I8 in Td. destruct vec; [|discriminate].
    exact (Ob eq_refl Em).
  - apply in_map_iff. exists (f, c). auto.
Qed.

(** with labels that are reported as they are, the score is 1 *)
Theorem C93_score : forall src x' y', part_of src x' x -> part_of src y' y ->
  (forall f c v, In (f, c) y -> In v (col_cells c) -> faithful v) -> (exists i, In i src /\ (i < n)%nat) ->
  (vec = true -> de = "MEAN" -> m_oob (e_map (fst (predict cf x' e2))) = false) ->
  snd (score cf x' y' e2) = Ok 1.
Proof.
  intros src x' y' P Py Fa Ir Ob. destruct (C93_learned src x' P Ob) as (out & Ho & Lb). apply score_ok.
  destruct sep_trained as (fds & D & Nn & Ln & G2 & g2 & P2 & T). split; auto. exists out. split; auto. destruct HS as (_ & _ & Sp & Pl).
  assert (Same : forall f c', In (f, c') y' -> labels out f = col_cells c').
  { intros f c' H. destruct Py as (_ & _ & Py). destruct (Py f c' H) as (c & Hi & E). rewrite (Lb f c Hi), E. clear - Fa Hi.
    assert (X : forall v, In v (pick src (col_cells c)) -> label v = v).
    { intros v Hv. unfold pick in Hv. apply in_flat_map in Hv as (i & _ & Hv). destruct (nth_error (col_cells c) i) eqn:En; [|easy]. destruct Hv as [<-|[]].
      apply nth_error_In in En. specialize (Fa f c c0 Hi En). destruct c0 as [t|b|z|q]; cbn in *; try contradiction.
      - now apply (proj2 (proj2 PropAssoc.C46_labels)).
      - now apply nat_label. }
    rewrite <- (map_id (pick src (col_cells c))) at 2. apply map_ext_in. auto. }
  split.
  - intros f c' H. now rewrite (Same f c' H).
  - assert (Eh : hits out y' = label_count y').
    { assert (Pn : forall f c' v, In (f, c') y' -> In v (col_cells c') -> plain_cell v).
      { intros f c' v H Hv. destruct Py as (_ & _ & Py). destruct (Py f c' H) as (c & Hi & E). rewrite E in Hv.
        unfold pick in Hv. apply in_flat_map in Hv as (i & _ & Hv). destruct (nth_error (col_cells c) i) eqn:En; [|easy]. destruct Hv as [<-|[]].
        apply nth_error_In in En. specialize (Fa f c c0 Hi En). destruct c0; cbn in *; auto. }
      unfold hits, label_count, compared. clear - Same Pn. induction y' as [|[f c'] r IH]; auto. cbn [flat_map fst snd]. rewrite filter_app, !app_length.
      f_equal; [|apply IH; intros; eauto using in_cons]. rewrite (Same f c') by now left. pose proof (fun v => Pn f c' v (or_introl eq_refl)) as Pv. clear - Pv.
      induction (col_cells c') as [|v l IH]; auto. cbn [combine filter fst snd].
      assert (E : same_label v v = true).
      { specialize (Pv v (or_introl eq_refl)). destruct v as [t|b|z|q]; cbn in *; try contradiction; [apply String.eqb_refl|]. rnum. destruct (Reqb_spec (IZR z) (IZR z)); congruence. }
      rewrite E. cbn [length]. f_equal. apply IH. intros w Hw. apply Pv. now right. }
    assert (Nz : INR (label_count y') <> 0).
    { apply not_0_INR. destruct Py as (Hy & _ & Py). destruct y' as [|[f c'] r]; [congruence|]. destruct (Py f c' (or_introl eq_refl)) as (c & Hi & E).
      unfold label_count. cbn [flat_map snd]. rewrite app_length. destruct Ir as (i & Hs & Hn).
      assert (In_c : exists v, In v (col_cells c')).
      { destruct (nth_error (col_cells c) i) as [v|] eqn:En.
        - exists v. rewrite E. unfold pick. apply in_flat_map. exists i. rewrite En. split; auto. now left.
        - apply nth_error_None in En. rewrite cells_length in En. rewrite (proj1 Sp f c) in En by (apply in_or_app; auto). lia. }
      destruct In_c as [v Hv]. destruct (col_cells c'); [easy|cbn; lia]. }
    rewrite Eh, pdiv_R; rewrite nat2F_INR; auto. f_equal. now apply Rinv_r.
Qed.

End Learned.
End Separated.

(** The estimator as it is made by default, with fewer than 124 concepts: columns of texts, or of
    integers with fewer than ten different values, that determine each other are learned, if no
    prediction writes beyond the result matrix (C63). *)
Definition default_relations (cf : gconf R) : Prop :=
  c_excl cf = -1 /\ c_eval cf = rel_supp /\ c_caus cf = rel_pos_inf /\ c_thr cf = 0 /\ c_sign cf = None /\ c_infer cf = true.
Theorem C93_defaults : forall (cf : gconf R) n x y (vec : bool) sd e0,
  reorders (c_ord cf) -> default_relations cf -> readable_data cf (x ++ y) -> (0 < n)%nat -> separated n (x ++ y) ->
  (forall f c, In (f, c) (x ++ y) -> match c with ColStr _ => True | ColInt l => exists few, (length few < 10)%nat /\ incl l few | _ => False end) ->
  init_est 250 5 sd "MEAN" true "KOSKO" "sigmoid_hip" [] vec = Ok e0 ->
  exists e', fit cf x y e0 = (e', Ok tt) /\
    forall e2 src x', used e' e2 -> part_of src x' x -> (length (concepts (e_map e')) < 124)%nat ->
      (vec = true -> m_oob (e_map (fst (predict cf x' e2))) = false) ->
      exists out, snd (predict cf x' e2) = Ok out /\ forall f c, In (f, c) y -> labels out f = map label (pick src (col_cells c)).
Proof.
  intros cf n x y vec sd e0 HO (De & Ev & Ca & Th & Sg & In_) RD Nz Sp Pl HI.
  assert (HS : separable cf n x y).
  { split; [exact RD|]. split; [exact Nz|]. split; [exact Sp|]. intros f c H. split.
    - specialize (Pl f c H). destruct c; cbn; auto.
    - intros i v Hv. exists [i]. split; [repeat constructor; easy|]. split; [intros j [<-|[]]; exact Hv|]. rewrite Th. cbn. lra. }
  assert (HR : rates_by_share cf) by (repeat split; auto; rewrite Th; lra).
  assert (HH : healthy e0 e0).
  { split; [exists 250%Z, 5%Z, sd, "MEAN", true, "KOSKO", "sigmoid_hip", [], vec; exact HI|]. exists []. cbn. auto. }
  destruct (C93_fit cf n x y HO HS e0 e0 HR HH (or_introl eq_refl)) as [e' HF]. exists e'. split; [exact HF|].
  intros e2 src x' HU P Lt Ob.
  apply (C93_learned cf n x y HO HS 250 5 sd "MEAN" true "KOSKO" "sigmoid_hip" [] vec e0 e0 e' e2 HI HH HR HF HU).
  - right. left. split; [cbn; tauto|now left].
  - right. split; [cbn; tauto|]. assert (Ep : parameter [] "lambda_val" 2 = 2) by reflexivity. rewrite Ep. split; [lra|].
    unfold reach. cbn [String.eqb Ascii.eqb Bool.eqb]. rewrite De, Rabs_left by lra. apply le_INR in Lt. rewrite (INR_IZR_INZ 124) in Lt. cbn [Z.of_nat Pos.of_succ_nat Pos.succ] in Lt. lra.
  - right. split; auto. rewrite De. lra.
  - lia.
  - lia.
  - exact P.
  - auto.
Qed.
Print Assumptions C93_fit.
Print Assumptions C93_learned.
Print Assumptions C93_score.
Print Assumptions C93_defaults.

(** ** The conditions are needed *)
(** one column f and one class c with three rows that determine each other; rational numbers, so
    with the piecewise linear activation function *)
Definition sx : dataset Q := [("f", ColStr ["a"; "b"; "d"])].
Definition sy : dataset Q := [("c", ColStr ["u"; "v"; "w"])].
Definition sright : dict (list (cell Q)) := [("c", [CStr "u"; CStr "v"; CStr "w"])].
Definition scf (threshold exclusion : Q) : gconf Q :=
  mkGconf "___" exclusion true true rel_pos_inf rel_supp threshold None n0 true (fun _ => "x") (fun _ => Ok 0%Z) (fun l => l) (fun _ _ => Err EUndef).
(** make an estimator, fit it and predict the training rows *)
Definition relearn (cf : gconf Q) (mi ex : Z) (de : string) (vec : bool) : res (dict (list (cell Q))) :=
  (e0 <- init_est mi ex (nlit 1 1000) de true "KOSKO" "saturation" [] vec ;;
   match fit cf sx sy e0 with (e1, Ok _) => snd (predict cf sx e1) | (_, Err e) => Err e end)%res.
Theorem C93_conditions_refuted :
  separated 3 (sx ++ sy) /\
  (** all is well with the usual values, in both engines *)
  relearn (scf n0 (nofZ (-1))) 20 5 "MEAN" false = Ok sright /\ relearn (scf n0 (nofZ (-1))) 20 5 "MEAN" true = Ok sright /\
  (** a threshold that the values just reach *)
  relearn (scf (nlit 1 4) (nofZ (-1))) 20 5 "MEAN" false = Ok sright /\
  relearn (scf (nlit 1 3) (nofZ (-1))) 20 5 "MEAN" false = Ok [("c", [CStr "u"; CStr "u"; CStr "u"])] /\
  (** a vectorized run that writes beyond its matrix *)
  relearn (scf n0 (nofZ (-1))) 3 5 "MEAN" false = Ok sright /\
  relearn (scf n0 (nofZ (-1))) 3 5 "MEAN" true = Ok [("c", [CStr "u"; CStr "v"; CStr "u"])] /\
  (** two iterations in the vectorized engine: every label is wrong *)
  relearn (scf n0 (nofZ (-1))) 2 5 "LAST" false = Ok sright /\
  relearn (scf n0 (nofZ (-1))) 2 5 "LAST" true = Ok [("c", [CStr "v"; CStr "w"; CStr "u"])] /\
  (** a single extra step *)
  relearn (scf n0 (nofZ (-1))) 20 2 "MEAN" false = Ok sright /\
  relearn (scf n0 (nofZ (-1))) 20 1 "MEAN" false = Ok [("c", [CStr "u"; CStr "u"; CStr "u"])] /\
  (** concepts of one feature that support each other *)
  relearn (scf n0 (nofZ 1)) 20 5 "LAST" false = Ok [("c", [CStr "u"; CStr "u"; CStr "u"])].
Proof.
  split; [|repeat split; vm_compute; reflexivity]. split.
  - intros f c [H|[H|[]]]; injection H as <- <-; reflexivity.
  - intros f c f' c' i j H H' Hi Hj E.
    assert (Eq : i = j).
    { destruct H as [H|[H|[]]]; injection H as <- <-; cbn in E; do 3 (destruct i as [|i]; [do 3 (destruct j as [|j]; [try reflexivity; discriminate|]); lia|]); lia. }
    now subst.
Qed.
Print Assumptions C93_conditions_refuted.

(** ** Non-vacuity *)
Definition rsx : dataset R := [("f", ColStr ["a"; "b"; "a"]); ("g", ColInt [1; 2; 1]%Z)].
Definition rsy : dataset R := [("c", ColStr ["u"; "v"; "u"])].
Definition rscf : gconf R :=
  mkGconf "___" (-1) true true rel_pos_inf rel_supp 0 None n0 true (fun _ => "x") (fun _ => Ok 0%Z) (fun l => l) (fun _ _ => Err EUndef).
Lemma rs_readable : readable_data rscf (rsx ++ rsy).
Proof.
  assert (S : forall c : Ascii.ascii, c <> "_"%char -> readable (String c "")).
  { intros c Hc. split.
    - intros H. apply occurs_b in H. cbn [occursb String.prefix] in H. destruct (Ascii.ascii_dec "_" c); [congruence|discriminate].
    - intros [|c' [|c'' t]] H; try discriminate. injection H as ->. congruence. }
  split; [reflexivity|]. split.
  - cbn. repeat constructor; cbn; intuition discriminate.
  - intros f c [H|[H|[H|[]]]]; injection H as <- <-; (split; [intros H; apply occurs_b in H; discriminate|cbn; auto]);
      try exact I; repeat (apply Forall_cons; [apply S; discriminate|]); apply Forall_nil.
Qed.
Lemma rs_separated : separated 3 (rsx ++ rsy).
Proof.
  split.
  - intros f c [H|[H|[H|[]]]]; injection H as <- <-; reflexivity.
  - assert (Same : forall f c i j, In (f, c) (rsx ++ rsy) -> (i < 3)%nat -> (j < 3)%nat ->
      (nth_error (col_cells c) i = nth_error (col_cells c) j <-> ((i =? 1) = (j =? 1))%nat)).
    { intros f c i j H Hi Hj. destruct H as [H|[H|[H|[]]]]; injection H as <- <-; cbn [col_cells map];
        do 3 (destruct i as [|i]; [do 3 (destruct j as [|j]; [cbn; split; congruence|]); lia|]); lia. }
    intros f c f' c' i j H H' Hi Hj E. apply (Same f' c' i j H' Hi Hj). now apply (Same f c i j H Hi Hj).
Qed.
Lemma rs_columns : forall f c, In (f, c) (rsx ++ rsy) -> match c with ColStr _ => True | ColInt l => exists few, (length few < 10)%nat /\ incl l few | _ => False end.
Proof. intros f c [H|[H|[H|[]]]]; injection H as <- <-; auto. exists [1; 2]%Z. split; [cbn; lia|]. intros z Hz. cbn in *. tauto. Qed.
Lemma rs_separable : separable rscf 3 rsx rsy.
Proof.
  split; [exact rs_readable|]. split; [lia|]. split; [exact rs_separated|]. intros f c H. split.
  - pose proof (rs_columns f c H) as X. destruct c; cbn; auto.
  - intros i v Hv. exists [i]. split; [repeat constructor; easy|]. split; [intros j [<-|[]]; exact Hv|]. cbn. lra.
Qed.
(** at most one concept for every cell *)
Lemma concepts_few cf x y (e0 e e' : est R) n : reorders (c_ord cf) -> separable cf n x y -> estimator e0 e -> fit cf x y e = (e', Ok tt) ->
  (length (concepts (e_map e')) <= n * length (x ++ y))%nat.
Proof.
  intros HO HS HE HF. pose proof (sep_join cf n x y HS) as J. destruct HS as (RD & _ & (Ln & _) & Pl). rewrite <- J in RD.
  destruct (@PropAssoc.fit_map R RNum cf HO (fun a b => Rmult_comm a b) x y e0 e e' HE RD HF) as (fds & D & Cn & ND & Le & _). rewrite J in D. rewrite Cn in *. clear - D ND Le Ln Pl.
  induction D as [|[f c] d ds fds Hd D IH]; cbn [flat_map length]; [lia|]. cbn [flat_map] in ND. inversion Le; subst. rewrite app_length.
  destruct (described_plain cf _ _ _ _ (proj1 (Pl f c (or_introl eq_refl))) Hd) as (_ & _ & Names).
  assert (A : (length (fd_names d) <= n)%nat).
  { rewrite <- (Ln f c) by now left. rewrite <- cells_length, <- (map_length (fun v => append (cell_str v) (append (c_sep cf) f)) (col_cells c)).
    apply NoDup_incl_length; [now apply NoDup_app_left in ND|]. intros a Ha. apply In_nth_error in Ha as [i Hi].
    destruct (nth_error (fd_rows d) i) as [r|] eqn:Er; [|apply nth_error_None in Er; assert (i < length (fd_names d))%nat by (apply nth_error_Some; congruence); lia].
    destruct (proj1 (Names a r)) as (v & Hv & -> & _); [|now apply in_map with (f := fun v => append (cell_str v) (append (c_sep cf) f))].
    apply nth_error_In with (n := i). apply AssocFacts.nth_combine. auto. }
  assert (B : (length (flat_map fd_names fds) <= n * length ds)%nat).
  { apply IH; first [assumption|exact (NoDup_app_right _ _ ND)|intros; eapply Ln; right; eassumption|intros; eapply Pl; right; eassumption]. }
  cbn [length]. lia.
Qed.
Example C93_nonvacuous : exists e0 e1, init_est 250 5 (1 / 1000) "MEAN" true "KOSKO" "sigmoid_hip" [] false = Ok e0 /\ fit rscf rsx rsy e0 = (e1, Ok tt) /\
  (exists out, snd (predict rscf [("g", ColInt [2; 1; 2]%Z)] e1) = Ok out /\ labels out "c" = [CStr "v"; CStr "u"; CStr "v"]) /\
  snd (score rscf [("f", ColStr ["b"; "a"])] [("c", ColStr ["v"; "u"])] e1) = Ok 1.
Proof.
  eexists. assert (HI : init_est 250 5 (1 / 1000) "MEAN" true "KOSKO" "sigmoid_hip" [] false = Ok _) by reflexivity.
  assert (HO : reorders (c_ord rscf)) by (intros l; apply Permutation_refl).
  assert (Df : default_relations rscf) by (repeat split; reflexivity).
  destruct (C93_defaults rscf 3 rsx rsy false (1 / 1000) _ HO Df rs_readable ltac:(lia) rs_separated rs_columns HI) as (e1 & HF & Pr).
  exists e1. split; [reflexivity|]. split; [exact HF|].
  match type of HI with _ = Ok ?e => set (e0 := e) in * end.
  assert (HH : healthy e0 e0) by (split; [repeat eexists; exact HI|now exists []]).
  assert (Few : (length (concepts (e_map e1)) < 124)%nat).
  { pose proof (concepts_few rscf rsx rsy e0 e0 e1 3 HO rs_separable (healthy_estimator _ _ HH) HF) as X. cbn in X. lia. }
  assert (Us : used e1 e1) by now exists [].
  split.
  - destruct (Pr e1 [1; 0; 1]%nat [("g", ColInt [2; 1; 2]%Z)] Us) as (out & Ho & Lb); auto; [|discriminate|].
    { split; [discriminate|]. split; [repeat constructor; easy|]. intros f c' [H|[]]. injection H as <- <-. exists (ColInt [1; 2; 1]%Z). split; [cbn; auto|reflexivity]. }
    exists out. split; auto. rewrite (Lb "c" (ColStr ["u"; "v"; "u"])); [reflexivity|now left].
  - apply (C93_score rscf 3 rsx rsy HO rs_separable 250 5 (1/1000) "MEAN" true "KOSKO" "sigmoid_hip" [] false e0 e0 e1 e1) with (src := [1; 0]%nat); auto.
    + repeat split; auto; cbn; lra.
    + right. left. split; [cbn; tauto|now left].
    + right. split; [cbn; tauto|]. assert (Ep : parameter [] "lambda_val" 2 = 2) by reflexivity. rewrite Ep. split; [lra|].
      unfold reach. cbn [String.eqb Ascii.eqb Bool.eqb rscf c_excl]. rewrite Rabs_left by lra. apply le_INR in Few. rewrite (INR_IZR_INZ 124) in Few. cbn [Z.of_nat Pos.of_succ_nat Pos.succ] in Few. lra.
    + right. split; auto. cbn. lra.
    + lia.
    + discriminate.
    + split; [discriminate|]. split; [repeat constructor; easy|]. intros f c' [H|[]]. injection H as <- <-. exists (ColStr ["a"; "b"; "a"]). split; [cbn; auto|reflexivity].
    + split; [discriminate|]. split; [repeat constructor; easy|]. intros f c' [H|[]]. injection H as <- <-. exists (ColStr ["u"; "v"; "u"]). split; [cbn; auto|reflexivity].
    + intros f c v [H|[]] Hv. injection H as <- <-. cbn in Hv. destruct Hv as [<-|[<-|[<-|[]]]]; right; [exists "", "u"%char, ""|exists "", "v"%char, ""|exists "", "u"%char, ""]; (split; [reflexivity|cbn; lia]).
    + exists 1%nat. split; [now left|lia].
    + discriminate.
Qed.
(** the vectorized engine with the last activation as decision *)
Example C93_vectorized_nonvacuous : exists e0 e1, init_est 3 5 (1 / 1000) "LAST" true "KOSKO" "sigmoid" [] true = Ok e0 /\ fit rscf rsx rsy e0 = (e1, Ok tt) /\
  exists out, snd (predict rscf [("g", ColInt [2; 1; 2]%Z)] e1) = Ok out /\ labels out "c" = [CStr "v"; CStr "u"; CStr "v"].
Proof.
  eexists. assert (HI : init_est 3 5 (1 / 1000) "LAST" true "KOSKO" "sigmoid" [] true = Ok _) by reflexivity.
  assert (HO : reorders (c_ord rscf)) by (intros l; apply Permutation_refl).
  assert (HR : rates_by_share rscf) by (repeat split; auto; cbn; lra).
  match type of HI with _ = Ok ?e => set (e0 := e) in * end.
  assert (HH : healthy e0 e0) by (split; [repeat eexists; exact HI|now exists []]).
  destruct (C93_fit rscf 3 rsx rsy HO rs_separable e0 e0 HR HH (or_introl eq_refl)) as [e1 HF].
  exists e1. split; [reflexivity|]. split; [exact HF|].
  destruct (C93_learned rscf 3 rsx rsy HO rs_separable 3 5 (1/1000) "LAST" true "KOSKO" "sigmoid" [] true e0 e0 e1 e1 HI HH HR HF) with (src := [1; 0; 1]%nat) (x' := [("g", ColInt (F := R) [2; 1; 2]%Z)])
    as (out & Ho & Lb).
  - now exists [].
  - right. left. split; [cbn; tauto|now left].
  - left. split; auto. assert (Ep : parameter [] "lambda_val" 1 = 1) by reflexivity. rewrite Ep. lra.
  - left. split; auto. cbn. lra.
  - discriminate.
  - lia.
  - split; [discriminate|]. split; [repeat constructor; easy|]. intros f c' [H|[]]. injection H as <- <-. exists (ColInt [1; 2; 1]%Z). split; [cbn; auto|reflexivity].
  - discriminate.
  - exists out. split; auto. rewrite (Lb "c" (ColStr ["u"; "v"; "u"])); [reflexivity|now left].
Qed.
