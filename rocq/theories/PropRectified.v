(** PropRectified.v — C94: maps with a rectifying activation function learn every class that their
    features determine.  Unlike in C93 the class need not determine the features, and the rows to
    classify need not have occurred: it is enough that each of their cells did, with the same class. *)
From Coq Require Import Permutation Reals Lra Lia QArith.
From Verif Require Import Base BaseFacts Num QNum Functions Spec RealFacts RlFacts FunctionsFacts Fcm FcmSpec FcmBasics FcmInv FcmInv2 FcmInv3 FcmIter FcmRun FcmRun2 FcmRun3 FcmOrder DynSpec Dynamics Dynamics2 VecSpec FcmVec5 FcmVec6 FcmTotal LearnUtils LearnSpec LearnFacts Assoc AssocSpec AssocFacts AssocFacts2 AssocFacts3 AssocFacts4 AssocUnique AssocNames AssocNames2 AssocLabel Estimator EstExamples EstFacts EstFacts2 EstFacts3 EstSpec EstFacts4 AssocGen AssocPredict AssocResult AssocRow AssocLabel EstFacts5 EstFacts6 EstFacts7 EstFacts9 SepSpec SepFacts SepFacts2 SepFacts3 SepFacts4 SepFacts5 SepFacts6 SepFacts7 SepFacts8 SepFacts9 PropSeparated.
From Verif Require PropAssoc PropEstimator2.
Local Close Scope Q_scope.
Local Open Scope R_scope.

(** the measures of the package that favour implications *)
Theorem C94_favours :
  (favours rel_supp /\ favours rel_conf /\ favours rel_lift /\ favours rel_rodr /\ favours rel_pos_inf /\ favours rel_simple) /\
  ~ favours rel_odr /\ ~ favours rel_bayes.
Proof.
  split; [exact favours_some|]. split; intros H; destruct (H 1 1 0) as (v & E & Pv); try lra; revert E.
  - unfold rel_odr. rewrite (proj2 (Reqb_true _ _)) by (rnum; lra). intros E. apply Ok_inj in E. revert E. rnum. lra.
  - unfold rel_bayes. rewrite pdiv_R by (rnum; lra). cbn [rbind]. rewrite pdiv_R by (rnum; lra). cbn [rbind].
    rewrite (proj2 (Rltb_false _ _)) by lra. intros E. apply Ok_inj in E. revert E. rnum. lra.
Qed.
Print Assumptions C94_favours.

Section Determined.
Variables (cf : gconf R) (n : nat) (x y : dataset R).
Hypothesis HO : reorders (c_ord cf).
Hypothesis HS : determining cf n x y.

Lemma det_join : join_frames x y = x ++ y.
Proof. apply join_apart. apply HS. Qed.

Theorem C94_fit : forall e0 e, c_eval cf = rel_supp -> In (c_caus cf) [rel_supp; rel_conf; rel_lift; rel_rodr; rel_pos_inf; rel_simple] ->
  c_sign cf = None -> healthy e0 e -> (e = e0 \/ m_debug (e_map e0) = true) ->
  exists e', fit cf x y e = (e', Ok tt).
Proof.
  intros e0 e Ev Ca Sg HH Hd. destruct HS as (RD & _ & (Ln & _) & Pl). apply (PropEstimator2.C77_discrete_never_fails cf n x y e0 e HO).
  - rewrite Ev. cbn. tauto.
  - cbn in Ca |- *. tauto.
  - intros f E. rewrite Sg in E. discriminate.
  - exact HH.
  - exact Hd.
  - rewrite det_join. apply RD.
  - intros f c H. rewrite det_join in H. split; [eapply Ln; eauto|]. apply plain_discrete. now apply Pl in H.
Qed.

(** rows of the data resemble themselves *)
Theorem C94_parts : forall src x', part_of src x' x -> Forall (fun i => (i < n)%nat) src -> resembles n src x' x y.
Proof.
  intros src x' (Ne & ND & P) Hs. split; auto. split; auto. split; auto. intros f c' H. destruct (P f c' H) as (c & Hi & E). exists c. split; auto.
  rewrite E. destruct HS as (_ & _ & (Ln & _) & _). assert (L : length (col_cells c) = n) by (rewrite cells_length; apply (Ln f); apply in_or_app; auto).
  clear - Hs L. unfold pick. induction Hs as [|i src Hi _ IH]; cbn [flat_map]; [constructor|].
  destruct (nth_error (col_cells c) i) as [v|] eqn:En; [|apply nth_error_None in En; lia]. cbn [app]. constructor; auto. exists i. auto.
Qed.

Section Learned.
Variables (mi ex : Z) (sd : R) (de : string) (me : bool) (xc ac : string) (kw : args R) (vec : bool).
Variables e0 e e' e2 : est R.
Hypothesis HI : init_est mi ex sd de me xc ac kw vec = Ok e0.
Hypothesis HH : healthy e0 e.
Hypothesis HR : rates_implications cf.
Hypothesis HF : fit cf x y e = (e', Ok tt).
Hypothesis HU : used e' e2.
Hypothesis Hc : callable ac kw.
Hypothesis Hr : rectifying ac kw.
Hypothesis Hx : xc <> "PAPAGEORGIUS".
Hypothesis Hd : (de = "LAST" /\ me = true) \/ de = "MEAN".
Hypothesis Hiter : vec = false -> (2 <= ex)%Z.
Hypothesis Hvec : vec = true -> (3 <= mi)%Z.

Lemma det_cells src x' f c' : resembles n src x' x y -> In (f, c') x' ->
  In f (dkeys (x ++ y)) /\ (forall v, In v (col_cells c') -> plain_cell v) /\ (forall l, c' = ColStr l -> Forall readable l).
Proof.
  intros (_ & _ & _ & P) H. destruct (P f c' H) as (c & Hi & E). destruct HS as ((_ & _ & RD) & _ & _ & Pl).
  assert (Hi' : In (f, c) (x ++ y)) by (apply in_or_app; auto). pose proof (Pl f c Hi') as [Pc _]. destruct (RD f c Hi') as [_ Rv].
  assert (Sub : forall v, In v (col_cells c') -> In v (col_cells c)).
  { intros v Hv. destruct (Forall2_In_r _ _ _ _ E Hv) as (i & _ & j & Hj & _). eapply nth_error_In; eauto. }
  split; [apply in_map_iff; exists (f, c); auto|]. split.
  - intros v Hv. apply Sub in Hv. destruct c; cbn in Hv, Pc; try contradiction; apply in_map_iff in Hv as (w & <- & _); exact I.
  - intros l ->. apply Forall_forall. intros t Ht'. assert (Ht2 : In (CStr t) (col_cells c)) by (apply Sub; cbn; now apply in_map).
    destruct c as [l'|l'|l'|l']; cbn in Ht2, Pc; try contradiction; apply in_map_iff in Ht2 as (w & E' & Hw); try discriminate. injection E' as ->.
    cbn in Rv. rewrite Forall_forall in Rv. now apply Rv.
Qed.
Lemma det_x f c : In (f, c) x -> In (f, c) (x ++ y) /\ ~ In f (dkeys y).
Proof.
  intros H. split; [apply in_or_app; auto|]. destruct HS as ((_ & ND & _) & _). unfold dkeys in ND. rewrite map_app in ND. intros Hy. apply (NoDup_app_disj _ _ ND f); auto.
  apply in_map_iff. exists (f, c). auto.
Qed.
Lemma det_y f c : In (f, c) (x ++ y) -> In f (dkeys y) -> In (f, c) y.
Proof. intros H Ht. apply in_app_or in H as [H|H]; auto. now apply det_x in H as [_ H]. Qed.
Lemma det_plain f c : In (f, c) (x ++ y) -> plain_column cf c.
Proof. intros H. destruct HS as (_ & _ & _ & Pl). now apply Pl in H. Qed.
Lemma det_floats src x' r f q : resembles n src x' x y -> In r (iterrows x') -> ~ In (f, CFlt q) r.
Proof.
  intros P Hin Hq. pose proof (resembles_rows cf (x ++ y) (dkeys y) n det_plain x y det_x det_y src x' P) as F2.
  destruct (Forall2_In_r _ _ _ _ F2 Hin) as (i & _ & Hi & _ & _ & Hcl).
  destruct (Hcl f _ Hq) as (_ & c & j & Hi' & Hn & _). pose proof (det_plain f c Hi') as Pc.
  apply nth_error_In in Hn. destruct c; cbn in Hn, Pc; try contradiction; apply in_map_iff in Hn as (w & E & _); discriminate.
Qed.
Lemma det_trained : exists fds, Forall2 (described cf (dkeys y)) (x ++ y) fds /\ NoDup (flat_map fd_names fds) /\
  Forall (fun d => length (fd_rows d) = length (fd_names d)) fds /\ e_generated e2 = true /\ e_map e2 = g_fcm (e_gen e2) /\ e_priv e2 = None /\
  trained cf fds de me xc ac kw (length (concepts (e_map e'))) (e_gen e2).
Proof.
  destruct HS as (RD & Nz & Sp & Pl). pose proof (healthy_estimator _ _ HH) as HE. pose proof RD as (Hsep & ND & _).
  pose proof (healthy_fit _ _ _ _ _ _ HH HF) as HH'. rewrite <- det_join in RD, ND.
  destruct (@fit_tidy R RNum cf Hsep x y e0 e e' HO (fun a b => Rmult_comm a b) HE RD HF) as (fds & T & D & Nn & Ln & Eg & dc & ops & Hp & Hrel).
  destruct (fit_base cf x y e0 e e' HE HF) as (_ & _ & Pn). destruct (used_moved e' e2 Pn HU) as (M & P2 & G2).
  assert (g2 : e_map e2 = g_fcm (e_gen e2)) by (unfold e_gen; now rewrite P2).
  assert (G1 : e_generated e' = true).
  { unfold fit in HF. destruct (reset (e_gen e)) as [g1 [u|er]]; [|discriminate]. destruct (build_fcm _ _ _ _ _) as [g3 [u'|er]]; [|discriminate]. now injection HF as <-. }
  assert (St : settings (e_map e') = settings (e_map e0)).
  { apply est_settings. apply (estimator_state _ _ (healthy_estimator _ _ HH')). }
  pose proof (settings_max _ _ St) as (X1 & X2 & _ & _ & X5 & X6). pose proof (settings_fit _ _ St) as [_ X7].
  destruct (init_default _ _ _ _ _ _ _ _ _ _ HI) as (I1 & I2 & I3). destruct (init_default2 _ _ _ _ _ _ _ _ _ _ HI) as (I4 & I5 & I6 & I7 & I8).
  assert (Co : common (e_map e') me xc ac kw).
  { pose proof (fit_common cf x y e0 e e' HO HE ND HF) as Co. cbn zeta in Co. rewrite X7, I1, I2, I4, I5 in Co. apply Co.
    intros f c d Hi Hde. rewrite det_join in Hi. destruct (described_plain cf _ _ _ _ (det_plain f c Hi) Hde) as (_ & -> & _).
    destruct (str_mem f (dkeys y)); split; reflexivity. }
  exists fds. rewrite det_join in D. split; [exact D|]. split; [exact Nn|]. split; [exact Ln|]. split; [congruence|]. split; [exact g2|]. split; [exact P2|].
  apply (trained_moved _ _ _ _ _ _ _ _ _ _ M). rewrite det_join in Hp, ND. constructor.
  - exact T.
  - rewrite Eg. eapply healthy_sane; eauto.
  - now rewrite Eg.
  - now rewrite Eg.
  - rewrite Eg, Hrel. destruct (plan_build_spec cf _ _ _ _ _ _ Hp) as (rest & E & _ & Dn & Rl & _). cbn in E. subst rest. rewrite Rl.
    destruct (rels_ends cf fds HO []) as [X _]; auto. cbn [app]. now rewrite Dn.
  - rewrite Eg, Hrel. apply (@all_rels_In R RNum cf HO (fun a b => Rmult_comm a b) _ _ _ _ _ ND Hp).
  - rewrite Eg. congruence.
  - rewrite Eg, X7. exact I1.
  - rewrite Eg, X1, X2, X6, I6, I7, I8. destruct vec; [right|left]; (split; [reflexivity|]); [now apply Hvec|].
    specialize (Hiter eq_refl). destruct (Z.ltb_spec 0 ex); lia.
Qed.
Lemma det_predicts src x' : resembles n src x' x y -> exists out, snd (predict cf x' e2) = Ok out.
Proof.
  intros P. destruct HS as (RD & Nz & Sp & Pl). pose proof RD as (Hsep & ND & _).
  assert (Dx : de <> "EXITED") by (destruct Hd as [[-> _]| ->]; discriminate).
  assert (Ne : de <> "LAST" -> forall k : Z, (0 < k)%Z -> @neqb R RNum (nofZ k) n0 = false).
  { intros _ k Hk. rnum. destruct (Reqb_spec (IZR k) 0); auto. apply eq_IZR in e1. lia. }
  assert (Dc : forall f c, In (f, c) (join_frames x y) -> exists texts rows, levels cf c texts rows /\ is_discrete cf c texts).
  { intros f c H. rewrite det_join in H. apply plain_discrete. now apply Pl in H. }
  assert (Rx : forall f c, In (f, c) x' -> In f (dkeys (join_frames x y)) /\ (forall l, c = ColStr l -> Forall readable l)).
  { intros f c H. rewrite det_join. destruct (det_cells src x' f c P H) as (A & _ & B). auto. }
  assert (Fl : forall r f q, In r (iterrows x') -> In (f, CFlt q) r -> exists z, c_trunc cf q = Ok z).
  { intros r f q Hrow Hq. elim (det_floats src x' r f q P Hrow Hq). }
  rewrite <- det_join in RD. destruct vec eqn:V.
  - apply (vec_predict_succeeds) with (mi := mi) (ex := ex) (sd := sd) (de := de) (me := me) (xc := xc) (ac := ac) (kw := kw) (e0 := e0) (e := e) (e' := e') (x := x) (y := y); auto.
    + rnum. destruct (Reqb_spec 0 2); auto. lra.
    + rnum. destruct (Reqb_spec 1 2); auto. lra.
    + intros a b. apply Rmult_comm.
    + specialize (Hvec eq_refl). lia.
    + destruct P as (Hx' & _ & _ & P). destruct x' as [|[f c'] r]; [congruence|]. destruct (P f c' (or_introl eq_refl)) as (c & Hi & _). exists f, c.
      rewrite det_join. split; [apply in_or_app; auto|]. destruct Sp as [Sp _]. rewrite (Sp f c); auto. apply in_or_app; auto.
    + intros Hl. split; [rnum; destruct (Reqb_spec 0 0); auto; lra|now apply Ne].
  - apply (predict_succeeds) with (mi := mi) (ex := ex) (sd := sd) (de := de) (me := me) (xc := xc) (ac := ac) (kw := kw) (e0 := e0) (e := e) (e' := e') (x := x) (y := y); auto.
    intros a b. apply Rmult_comm.
Qed.
Theorem C94_learned : forall src x', resembles n src x' x y ->
  (vec = true -> de = "MEAN" -> m_oob (e_map (fst (predict cf x' e2))) = false) ->
  exists out, snd (predict cf x' e2) = Ok out /\
    forall f c, In (f, c) y -> labels out f = map label (pick src (col_cells c)).
Proof.
  intros src x' P Ob. destruct (det_predicts src x' P) as [out Ho]. exists out. split; auto. intros f c Hf.
  destruct det_trained as (fds & D & Nn & Ln & G2 & g2 & P2 & T). destruct HS as (RD & Nz & (Lens & Dt) & Pl). destruct HR as (Ev & Th & Fv & Sg & Ex).
  assert (Hi : In (f, c) (x ++ y)) by (apply in_or_app; auto).
  unfold predict in Ho, Ob. rewrite G2 in Ho, Ob. destruct (predict_rows cf (iterrows x') [] (e_gen e2)) as [g' r] eqn:E. cbn [fst snd] in Ho, Ob. subst r.
  apply (table_right cf (proj1 RD) Ev Th Fv Sg Ex (x ++ y) (dkeys y) n fds) with (de := de) (b := me) (xc := xc) (ac := ac) (kw := kw) (k := length (concepts (e_map e')))
    (idx := src) (rows := iterrows x') (g := e_gen e2) (acc := []) (g' := g') (out := out); auto.
  - intros h q H. now apply Pl in H.
  - intros h q H. now apply Pl in H.
  - intros h q i j H H1 H2 Eq h' q' H' Ht'. apply (Dt h q h' q' i j); auto. now apply det_y.
  - apply (resembles_rows cf (x ++ y) (dkeys y) n det_plain x y det_x det_y src x' P).
  - intros Em. destruct (tr_engine _ _ _ _ _ _ _ _ _ T) as [[Td _]|[Td _]]; [now left|right].
    rewrite <- g2, (estimator_debug _ _ (healthy_estimator _ _ (healthy_used _ _ _ (healthy_fit _ _ _ _ _ _ HH HF) HU))) in Td.
    destruct (init_default2 _ _ _ _ _ _ _ _ _ _ HI) as (_ & _ & _ & _ & I8). rewrite I8 in Td. destruct vec; [|discriminate].
    exact (Ob eq_refl Em).
  - apply in_map_iff. exists (f, c). auto.
Qed.
End Learned.
End Determined.
Print Assumptions C94_fit.
Print Assumptions C94_parts.
Print Assumptions C94_learned.

(** ** The conditions are needed *)
(** one column with a value for every row, a class with two values *)
Definition dx : dataset Q := [("f", ColStr ["a"; "b"; "d"; "e"; "g"; "h"])].
Definition dy : dataset Q := [("c", ColStr ["u"; "v"; "v"; "v"; "v"; "v"])].
(** two columns, neither of which determines the class *)
Definition ox : dataset Q := [("f", ColStr ["a"; "a"; "b"; "b"]); ("g", ColInt [1; 2; 1; 2]%Z)].
Definition oy : dataset Q := [("c", ColStr ["u"; "v"; "v"; "u"])].
Definition dcf (caus : Q -> Q -> Q -> Q -> res Q) (exclusion : Q) : gconf Q :=
  mkGconf "___" exclusion true true caus rel_supp n0 None n0 true (fun _ => "x") (fun _ => Ok 0%Z) (fun l => l) (fun _ _ => Err EUndef).
Definition relearn2 (cf : gconf Q) (x y : dataset Q) (de : string) (me : bool) (xc ac : string) : res (list (cell Q)) :=
  (e0 <- init_est 20 5 (nlit 1 1000) de me xc ac [] false ;;
   match fit cf x y e0 with (e1, Ok _) => (out <- snd (predict cf x e1) ;; Ok (labels out "c")) | (_, Err e) => Err e end)%res.
Definition dright : list (cell Q) := CStr "u" :: repeat (CStr "v") 5.
Theorem C94_conditions_refuted :
  (** all is well: the class is determined, but does not determine the feature *)
  relearn2 (dcf rel_pos_inf (nofZ (-1))) dx dy "LAST" true "KOSKO" "saturation" = Ok dright /\
  relearn2 (dcf rel_pos_inf (nofZ (-1))) dx dy "MEAN" false "KOSKO" "biestate" = Ok dright /\
  (** the last value without memory: always the same class *)
  relearn2 (dcf rel_pos_inf (nofZ (-1))) dx dy "LAST" false "KOSKO" "saturation" = Ok (repeat (CStr "u") 6) /\
  (** bayes as causality function *)
  relearn2 (dcf rel_bayes (nofZ (-1))) dx dy "MEAN" true "KOSKO" "saturation" = Ok (repeat (CStr "u") 6) /\
  (** the other excitation function *)
  relearn2 (dcf rel_pos_inf (nofZ (-1))) dx dy "MEAN" true "PAPAGEORGIUS" "saturation" = Ok (repeat (CStr "u") 6) /\
  (** concepts of one feature that support each other *)
  relearn2 (dcf rel_pos_inf n1) dx dy "LAST" true "KOSKO" "saturation" = Ok (repeat (CStr "u") 6) /\
  (** columns that determine the class only together *)
  relearn2 (dcf rel_pos_inf (nofZ (-1))) ox oy "MEAN" true "KOSKO" "saturation" = Ok (repeat (CStr "u") 4).
Proof. repeat split; vm_compute; reflexivity. Qed.
Print Assumptions C94_conditions_refuted.

(** ** Non-vacuity: a row that never occurred *)
Definition nx : dataset R := [("f", ColStr ["a"; "b"; "d"]); ("g", ColInt [1; 2; 3]%Z)].
Definition ny : dataset R := [("c", ColStr ["u"; "u"; "v"])].
Lemma n_readable : readable_data rscf (nx ++ ny).
Proof.
  assert (S : forall c : Ascii.ascii, c <> "_"%char -> readable (String c "")).
  { intros c Hc. split.
    - intros H. apply occurs_b in H. cbn [occursb String.prefix] in H. destruct (Ascii.ascii_dec "_" c); [congruence|discriminate].
    - intros [|c' [|c'' t]] H; try discriminate. injection H as ->. congruence. }
  split; [reflexivity|]. split.
  - cbn. repeat constructor; cbn; intuition discriminate.
  - intros f c [H|[H|[H|[]]]]; injection H as <- <-; (split; [intros H; apply occurs_b in H; discriminate|cbn; auto]);
      try exact I; repeat (apply Forall_cons; [apply S; discriminate|]); apply Forall_nil.
Qed.
Lemma n_determining : determining rscf 3 nx ny.
Proof.
  split; [exact n_readable|]. split; [lia|]. split.
  - split.
    + intros f c [H|[H|[H|[]]]]; injection H as <- <-; reflexivity.
    + intros f c f' c' i j H [H'|[]] Hi Hj. injection H' as <- <-. destruct H as [H|[H|[H|[]]]]; injection H as <- <-; cbn [col_cells map];
        do 3 (destruct i as [|i]; [do 3 (destruct j as [|j]; [cbn; congruence|]); lia|]); lia.
  - intros f c H. split.
    + destruct H as [H|[H|[H|[]]]]; injection H as <- <-; cbn; auto. split; auto. exists [1; 2; 3]%Z. split; [cbn; lia|apply incl_refl].
    + intros i v Hv. exists [i]. split; [repeat constructor; easy|]. split; [intros j [<-|[]]; exact Hv|]. cbn. lra.
Qed.
Example C94_nonvacuous : exists e0 e1, init_est 20 5 (1 / 1000) "MEAN" true "KOSKO" "saturation" [] false = Ok e0 /\ fit rscf nx ny e0 = (e1, Ok tt) /\
  exists out, snd (predict rscf [("f", ColStr ["a"; "d"]); ("g", ColInt [2; 3]%Z)] e1) = Ok out /\ labels out "c" = [CStr "u"; CStr "v"].
Proof.
  eexists. assert (HI : init_est 20 5 (1 / 1000) "MEAN" true "KOSKO" "saturation" [] false = Ok _) by reflexivity.
  assert (HO : reorders (c_ord rscf)) by (intros l; apply Permutation_refl).
  match type of HI with _ = Ok ?e => set (e0 := e) in * end.
  assert (HH : healthy e0 e0) by (split; [repeat eexists; exact HI|now exists []]).
  destruct (C94_fit rscf 3 nx ny HO n_determining e0 e0) as [e1 HF]; auto; [cbn; tauto|].
  exists e1. split; [reflexivity|]. split; [exact HF|].
  destruct (C94_learned rscf 3 nx ny HO n_determining 20 5 (1/1000) "MEAN" true "KOSKO" "saturation" [] false e0 e0 e1 e1 HI HH) with (src := [0; 2]%nat) (x' := [("f", ColStr (F := R) ["a"; "d"]); ("g", ColInt (F := R) [2; 3]%Z)])
    as (out & Ho & Lb).
  - split; [reflexivity|]. split; [cbn; lra|]. split; [apply favours_some|]. split; [reflexivity|]. cbn. lra.
  - exact HF.
  - now exists [].
  - left. split; [cbn; tauto|auto].
  - left. cbn. tauto.
  - discriminate.
  - now right.
  - lia.
  - discriminate.
  - split; [discriminate|]. split; [repeat constructor; cbn; intuition discriminate|]. split; [repeat constructor|].
    intros f c' [H|[H|[]]]; injection H as <- <-.
    + exists (ColStr ["a"; "b"; "d"]). split; [now left|]. repeat constructor; [exists 0%nat|exists 2%nat]; (split; [reflexivity|auto]).
    + exists (ColInt [1; 2; 3]%Z). split; [right; now left|]. repeat constructor; [exists 1%nat|exists 2%nat]; (split; [reflexivity|]); intros g cg [H|[]]; injection H as <- <-; reflexivity.
  - discriminate.
  - exists out. split; auto. rewrite (Lb "c" (ColStr ["u"; "u"; "v"])); [reflexivity|now left].
Qed.
