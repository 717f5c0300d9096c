(** UnknownFacts.v — rows in which no value is known from training (C110). *)
From Coq Require Import Permutation Reals Lra.
From Verif Require Import Base BaseFacts Num Functions Spec SortFacts RealFacts FunctionsFacts Fcm FcmSpec FcmBasics FcmInv FcmInv2 FcmInv3 FcmIter FcmRun FcmRun2 FcmRun3 FcmOrder
  DynSpec Dynamics Dynamics2 VecSpec FcmVec FcmVec2 FcmVec3 FcmVec4 FcmVec5 FcmVec6 FcmTotal LearnUtils LearnSpec LearnFacts Assoc AssocSpec AssocFacts AssocFacts2 AssocFacts3 AssocFacts4
  AssocNames AssocNames2 Estimator EstFacts EstFacts2 EstFacts3 EstSpec EstFacts4 AssocGen AssocPredict AssocResult AssocRow EstFacts5 EstFacts6 EstFacts7 EstFacts9 SepSpec SepFacts SepFacts2 SepFacts3
  SepFacts4 SepFacts5 SepFacts6 AssocUnique VecDyn OddFacts DiscretFacts2.
Local Open Scope R_scope.

(** ** The run *)
Lemma silent_values (s s' : fcm R) b xc ac kw : sane s -> common s b xc ac kw -> callable ac kw -> NoDup (map fst (relations s)) ->
  (forall n : node R, nd_exec n = Some xc -> nd_func n = Some ac -> nd_args n = Some kw -> silent_node n) ->
  (m_debug s = true \/ (1 <= m_maxit s)%Z) -> (forall c, In c (concepts s) -> initial s c = Some 0) -> run_inference true s = (s', Ok tt) ->
  forall c, In c (concepts s) -> value s' c = Some 0.
Proof.
  intros Hs C Hc NR Si He Hi E c Hin.
  assert (Sn : forall c n, dget (m_topo s) c = Some n -> silent_node n).
  { intros z n Hn. destruct (C z n Hn) as (_ & _ & C3 & C4 & C5). auto. }
  assert (In1 : forall c a, initial s c = Some a -> a = 0).
  { intros z a Ha. assert (Hz : In z (concepts s)).
    { unfold initial, history in Ha. pose proof (sane_base s Hs) as (_ & _ & K & _). unfold concepts. rewrite <- K. apply dget_Some_In.
      destruct (dget (m_exec s) z); [eauto|discriminate]. }
    rewrite (Hi z Hz) in Ha. congruence. }
  destruct (m_debug s) eqn:D; [now apply (silent_run s s')|].
  assert (Hm : (1 <= m_maxit s)%Z) by (destruct He; [discriminate|auto]).
  pose proof (common_regular s b xc ac kw C Hc NR) as Rg. pose proof (common_responsive s b xc ac kw C Hc) as Rs.
  apply (vec_silent s s' Hs Rg Rs D Hm Sn In1 E c Hin).
  destruct (run_vectorized true s s' Hs D ltac:(intros Z; rewrite Z in Hin; destruct Hin) Hm E) as (L & x & col & V).
  rewrite (vru_hist _ _ _ _ _ _ V c Hin). discriminate.
Qed.

(** ** The row *)
Section Row.
Variable cf : gconf R.
Hypothesis Hsep : c_sep cf = "___".
Variables (fds : list (fdesc R)) (b : bool) (xc ac : string) (kw : args R).
Hypothesis Hc : callable ac kw.
Hypothesis Si : forall n : node R, nd_exec n = Some xc -> nd_func n = Some ac -> nd_args n = Some kw -> silent_node n.
Hypothesis Dis : forall d, In d fds -> is_fuzzy_type (fd_type d) = false.
Record fitted (g : gen R) : Prop := {
  ft_tidy : tidy fds g;
  ft_sane : sane (g_fcm g);
  ft_common : common (g_fcm g) b xc ac kw;
  ft_nodup : NoDup (map fst (relations (g_fcm g)));
  ft_func : dc_func (m_default (g_fcm g)) = ac;
  ft_engine : m_debug (g_fcm g) = true \/ (1 <= m_maxit (g_fcm g))%Z
}.
Lemma fitted_moved g g' : moved g g' -> fitted g -> fitted g'.
Proof.
  intros M T. pose proof (moved_wframe _ _ M) as (W1 & W2 & W3). pose proof (settings_max _ _ W3) as (X1 & X2 & _ & _ & X5 & X6). pose proof (settings_fit _ _ W3) as [_ X7].
  assert (Er : relations (g_fcm g') = relations (g_fcm g)) by (unfold relations; now rewrite W2).
  constructor.
  - eapply tidy_moved; eauto. apply T.
  - eapply moved_sane; eauto. apply T.
  - eapply common_moved; eauto. apply T.
  - rewrite Er. apply T.
  - rewrite X7. apply T.
  - rewrite X1, X6. apply T.
Qed.
Definition unknown (r : list (string * cell R)) : Prop :=
  good_row r /\ forall d v t, In d fds -> In (fd_feat d, v) r -> cell_text cf v = Ok t -> ~ In (append t (append "___" (fd_feat d))) (fd_names d).
Lemma set_cell_text r : forall g g' d v, tidy fds g -> In d fds -> In (fd_feat d, v) r -> set_row cf r g = (g', Ok tt) -> exists t, cell_text cf v = Ok t.
Proof.
  unfold set_row. induction r as [|[f w] r IH]; intros g g' d v T Hd Hv H; [easy|]. cbn [sfold fst snd] in H.
  pose proof (moved_init cf f w g) as M. destruct (init_concept_by_feature_data cf f w g) as [g1 [u|er]] eqn:E; [|discriminate]. cbn [fst] in M.
  destruct Hv as [Hv|Hv]; [|exact (IH g1 g' d v (tidy_moved _ _ _ M T) Hd Hv H)]. injection Hv as -> ->.
  unfold init_concept_by_feature_data, swith, get_type, dget_exn in E. rewrite (td_known _ _ T d Hd) in E. cbn [rbind feat_of f_type oget] in E.
  pose proof (Dis d Hd) as Z. unfold is_fuzzy_type in Z. rewrite Z in E. destruct (cell_text cf v) as [t|er]; [eauto|discriminate].
Qed.
Lemma row_silent r g g' p : fitted g -> unknown r -> predict_row cf r g = (g', Ok p) ->
  p = flat_map (fun d => if is_class d then match fd_names d with [] => [] | nm :: _ => [(fd_feat d, class_cell (text_of cf nm))] end else []) fds.
Proof.
  intros T [Good Unk] HP. pose proof (ft_tidy _ T) as Td. unfold predict_row, sthen in HP.
  pose proof (moved_on OpClearExec g eq_refl) as M1. change (step OpClearExec) with (clear_execution (F := R)) in M1.
  assert (O1 : snd (on_fcm clear_execution g) = Ok tt).
  { unfold on_fcm. pose proof (proj1 (clear_values (g_fcm g))) as Q. destruct (clear_execution (g_fcm g)); exact Q. }
  assert (Sy1 : synced (g_fcm (fst (on_fcm clear_execution g)))).
  { unfold on_fcm. pose proof (synced_clear (g_fcm g)) as X. destruct (clear_execution (g_fcm g)). exact X. }
  assert (V1 : forall z, In z (concepts (g_fcm g)) -> value (g_fcm (fst (on_fcm clear_execution g))) z = Some 0).
  { intros z Hz. destruct (clear_values (g_fcm g)) as [_ X]. unfold on_fcm. destruct (X z Hz) as [X1 _]. destruct (clear_execution (g_fcm g)). exact X1. }
  destruct (on_fcm clear_execution g) as [g1 r1]. cbn [fst snd] in M1, O1, Sy1, V1. subst r1.
  change (sfold (fun fv : string * cell R => init_concept_by_feature_data cf (fst fv) (snd fv)) r g1) with (set_row cf r g1) in HP.
  destruct (set_row cf r g1) as [g2 [u|er]] eqn:E2; [|discriminate]. destruct u.
  pose proof (fitted_moved _ _ M1 T) as T1.
  assert (M2 : moved g1 g2) by (pose proof (moved_set_row cf r g1) as M; rewrite E2 in M; exact M).
  pose proof (fitted_moved _ _ M2 T1) as T2.
  assert (Dg : discrete_gen g1).
  { intros f' dd Hd t Ht. assert (K : dget (g_feats g1) f' <> None) by congruence. destruct (td_only _ _ (ft_tidy _ T1) f' K) as (d' & Hd' & Hf').
    pose proof (td_known _ _ (ft_tidy _ T1) d' Hd') as X. rewrite Hf', Hd in X. injection X as ->. cbn in Ht. injection Ht as <-. now apply Dis. }
  assert (Uf : unfuzzy (g_fcm g1)).
  { intros z nd Hz. destruct (ft_common _ T1 z nd Hz) as (_ & _ & _ & C4 & _). exists ac. split; auto. now apply (common_plain ac kw). }
  assert (Sy2 : synced (g_fcm g2)) by (pose proof (synced_row cf r g1 Dg Uf Sy1) as X; rewrite E2 in X; exact X).
  assert (CE1 : concepts (g_fcm g1) = concepts (g_fcm g)) by (destruct (moved_wframe _ _ M1) as (W & _); exact (statics_keys _ _ W)).
  assert (CE2 : concepts (g_fcm g2) = concepts (g_fcm g1)) by (destruct (moved_wframe _ _ M2) as (W & _); exact (statics_keys _ _ W)).
  assert (Z2 : forall c, In c (concepts (g_fcm g2)) -> initial (g_fcm g2) c = Some 0).
  { intros c Hin. pose proof Hin as Hin1. rewrite CE2, CE1 in Hin1. destruct (proj1 (td_concepts _ _ Td c) Hin1) as (d & Hd & Hn).
    apply synced_initial; auto. destruct (in_dec string_dec (fd_feat d) (map fst r)) as [Hr|Hr].
    - apply in_map_iff in Hr as ([f w] & Ef & Hw). cbn in Ef. subst f.
      destruct (set_cell_text r g1 g2 d w (ft_tidy _ T1) Hd Hw E2) as [t Ht].
      rewrite (row_sets cf Hsep fds r g1 g2 d w t c (ft_tidy _ T1)); auto; [|rewrite (ft_func _ T1); now apply (common_plain ac kw)].
      rewrite (V1 c Hin1). cbn [option_map]. f_equal.
      destruct (String.eqb_spec c (append t (append "___" (fd_feat d)))) as [Ec|_]; [|reflexivity].
      exfalso. apply (Unk d w t Hd Hw Ht). now rewrite <- Ec.
    - rewrite (row_other cf Hsep fds r d c g1 g2 (Ok tt) (ft_tidy _ T1)); auto. apply Good. }
  destruct (result_spec cf Hsep fds g2 g' p (ft_tidy _ T2) (ft_sane _ T2) HP) as (Er & _ & Ep).
  pose proof (silent_values _ _ b xc ac kw (ft_sane _ T2) (ft_common _ T2) Hc (ft_nodup _ T2) Si (ft_engine _ T2) Z2 Er) as Val.
  rewrite Ep. apply flat_map_ext_in. intros d Hd. destruct (is_class d); auto. destruct (fd_names d) as [|nm l] eqn:En; auto. do 3 f_equal.
  assert (All : forall z, In z (outs_of cf (g_fcm g') d) -> snd z = 0).
  { intros z Hz. unfold outs_of in Hz. apply in_map_iff in Hz as (c & <- & Hz). cbn [snd]. unfold val.
    rewrite (Val c); auto. apply (td_concepts _ _ (ft_tidy _ T2)). eauto. }
  unfold best_class. unfold outs_of in *. rewrite En in *. cbn [map fold_left fst snd] in *.
  pose proof (All _ (or_introl eq_refl)) as A0. cbn [snd] in A0. rewrite A0. cbn [nltb nofZ RNum]. rewrite (proj2 (Rltb_true _ _)) by lra.
  assert (Keep : forall (l : list (string * R)) z, snd z = 0 -> (forall y, In y l -> snd y = 0) ->
    fold_left (fun best vo => if Rltb (snd best) (snd vo) then vo else best) l z = z).
  { clear. induction l as [|y l IH]; intros z Hz Hl; auto. cbn [fold_left]. rewrite Hz, (Hl y (or_introl eq_refl)).
    rewrite (proj2 (Rltb_false _ _)) by lra. apply IH; auto. intros; apply Hl; now right. }
  rewrite Keep; auto. intros y Hy. apply All. now right.
Qed.
Lemma rows_silent d nm rest : In d fds -> is_class d = true -> fd_names d = nm :: rest -> forall rows g acc g' out, fitted g -> Forall unknown rows ->
  predict_rows cf rows acc g = (g', Ok out) -> labels out (fd_feat d) = labels acc (fd_feat d) ++ repeat (class_cell (text_of cf nm)) (length rows).
Proof.
  intros Hd Cl En. induction rows as [|r rows IH]; intros g acc g' out T HU HP; cbn [predict_rows] in HP.
  - injection HP as _ <-. cbn. now rewrite app_nil_r.
  - inversion HU as [|? ? U1 U2]; subst. pose proof (moved_predict cf r g) as M. destruct (predict_row cf r g) as [g1 [p|er]] eqn:E; [|discriminate]. cbn [fst] in M.
    rewrite (IH g1 (append_all acc p) g' out (fitted_moved _ _ M T) U2 HP), labels_all, (row_silent r g g1 p T U1 E), <- app_assoc. f_equal.
    cbn [length repeat]. change (class_cell (text_of cf nm) :: repeat (class_cell (text_of cf nm)) (length rows)) with ([class_cell (F := R) (text_of cf nm)] ++ repeat (class_cell (text_of cf nm)) (length rows)).
    f_equal. pose proof (td_feats _ _ (ft_tidy _ T)) as Nf. clear - Nf Hd Cl En.
    assert (Rest : forall l : list (fdesc R), ~ In (fd_feat d) (map fd_feat l) -> flat_map (fun fv : string * cell R => if String.eqb (fd_feat d) (fst fv) then [snd fv] else [])
      (flat_map (fun d : fdesc R => if is_class d then match fd_names d with [] => [] | nm :: _ => [(fd_feat d, class_cell (text_of cf nm))] end else []) l) = []).
    { induction l as [|z l IH]; intros Nz; auto. cbn [flat_map]. rewrite flat_map_app, IH by (intros Y; apply Nz; now right).
      destruct (is_class z); auto. destruct (fd_names z); auto. cbn [flat_map fst]. destruct (String.eqb_spec (fd_feat d) (fd_feat z)) as [Y|_]; auto. exfalso. apply Nz. left. auto. }
    induction fds as [|z l IH]; [easy|]. cbn [map] in Nf. apply NoDup_cons_iff in Nf as [Nz Nf]. cbn [flat_map]. rewrite flat_map_app. destruct Hd as [->|Hd].
    + rewrite (Rest l Nz), Cl, En. cbn [flat_map fst snd]. now rewrite String.eqb_refl.
    + rewrite IH by auto. assert (Ne : fd_feat d <> fd_feat z) by (intros E; apply Nz; rewrite <- E; now apply in_map). apply String.eqb_neq in Ne.
      destruct (is_class z); auto. destruct (fd_names z); auto. cbn [flat_map fst]. now rewrite Ne.
Qed.
End Row.

(** ** The estimator *)
(** the text of the first value of a column *)
Definition first_value (cf : gconf R) (c : column R) (t : string) : Prop :=
  match c with
  | ColStr l => In t l /\ forall u, In u l -> str_leb t u = true
  | ColBool l => exists b, In b l /\ (forall u, In u l -> implb b u = true) /\ t = if b : bool then "True" else "False"
  | ColInt l => exists z, In z l /\ (forall u, In u l -> (z <= u)%Z) /\ t = str_of_Z z
  | ColFlt l => exists q, In q l /\ (forall u, In u l -> q <= u) /\ t = c_fstr cf q
  end.
Lemma sorted_first {A} (leb : A -> A -> bool) l a us : (forall a, leb a a = true) -> distinct_sorted leb l (a :: us) -> In a l /\ forall u, In u l -> leb a u = true.
Proof.
  intros Hr [S I]. split; [apply I; now left|]. intros u Hu. apply I in Hu as [<-|Hu]; auto.
  apply StronglySorted_inv in S as [_ S]. rewrite Forall_forall in S. now apply S.
Qed.
Lemma levels_first cf c t texts rows : levels cf c (t :: texts) rows -> first_value cf c t.
Proof.
  intros H. inversion H as [l us S E1|l us S E1 E2|l us S E1 E2|l us E1 E2]; subst; cbn [first_value].
  - apply (sorted_first str_leb l t texts); auto. intros a. destruct (to_total _ _ str_total_order a a); auto.
  - destruct us as [|b us]; [discriminate|]. injection E2 as <- _. destruct (sorted_first implb l b us) as [A B]; eauto. now intros [].
  - destruct us as [|z us]; [discriminate|]. injection E2 as <- _. destruct (sorted_first Z.leb l z us) as [A B]; eauto; [apply Z.leb_refl|].
    exists z. split; auto. split; auto. intros u Hu. apply Z.leb_le. auto.
  - pose proof (unique_spec _ _ R_total_order l) as S. destruct (unique nleb neqb l) as [|q us'] eqn:E; unfold us in E2; rewrite ?E in E2; [discriminate|].
    injection E2 as <- _. destruct (sorted_first nleb l q us') as [A B]; auto; [intros a; destruct (to_total _ _ R_total_order a a); auto|].
    exists q. split; auto. split; auto. intros u Hu. apply Rleb_true. exact (B u Hu).
Qed.
Lemma levels_some (cf : gconf R) c texts rows : levels cf c texts rows -> (0 < col_length c)%nat -> texts <> [].
Proof.
  intros H Hl E. subst texts. inversion H as [l us S E1|l us S E1 E2|l us S E1 E2|l us E1 E2]; subst; cbn [col_length] in Hl.
  - destruct l as [|a l]; [cbn in Hl; lia|]. apply (proj2 S a). now left.
  - apply map_eq_nil in E2. subst us. destruct l as [|a l]; [cbn in Hl; lia|]. apply (proj2 S a). now left.
  - apply map_eq_nil in E2. subst us. destruct l as [|a l]; [cbn in Hl; lia|]. apply (proj2 S a). now left.
  - apply map_eq_nil in E2. destruct l as [|a l]; [cbn in Hl; lia|]. pose proof (unique_spec _ _ R_total_order (a :: l)) as S.
    unfold us in E2. rewrite E2 in S. apply (proj2 S a). now left.
Qed.
(** every cell of the row has a text that no value of its training column has *)
Definition unknown_row (cf : gconf R) (ds : dataset R) (r : list (string * cell R)) : Prop :=
  NoDup (map fst r) /\ (forall f t, In (f, CStr t) r -> readable t) /\
  forall f v c texts rows t, In (f, v) r -> In (f, c) ds -> levels cf c texts rows -> cell_text cf v = Ok t -> ~ In t texts.
(** input 0 is answered with 0 *)
Definition silent_function (ac : string) (kw : args R) : Prop :=
  forall fn y, get_function_by_name ac = Some fn -> call_actv fn 0 kw = Ok y -> y = 0.
Lemma unknown_labels cf mi ex sd de me xc ac kw vec (e0 e e' e2 : est R) x y x' out :
  init_est mi ex sd de me xc ac kw vec = Ok e0 -> (vec = true -> (1 <= mi)%Z) -> xc <> "PAPAGEORGIUS" -> callable ac kw -> silent_function ac kw ->
  reorders (c_ord cf) -> healthy e0 e -> readable_data cf (join_frames x y) ->
  (forall f c, In (f, c) (join_frames x y) -> exists texts rows, levels cf c texts rows /\ is_discrete cf c texts) ->
  fit cf x y e = (e', Ok tt) -> used e' e2 -> Forall (unknown_row cf (join_frames x y)) (iterrows x') -> snd (predict cf x' e2) = Ok out ->
  forall f c, In (f, c) (join_frames x y) -> In f (dkeys y) -> (0 < col_length c)%nat ->
  exists t, first_value cf c t /\ labels out f = repeat (class_cell t) (frame_rows x').
Proof.
  intros HI Hvec Hxc Hcal Hsil HO HH RD Pl HF HU HX HP f c Hfc Hy Hl. pose proof RD as (Hsep & ND & _).
  pose proof (healthy_estimator _ _ HH) as HE. pose proof (healthy_fit _ _ _ _ _ _ HH HF) as HH'.
  destruct (@fit_tidy R RNum cf Hsep x y e0 e e' HO (fun a b => Rmult_comm a b) HE RD HF) as (fds & T & D & Nn & Ln & Eg & dc & ops & Hp & Hr).
  destruct (fit_base cf x y e0 e e' HE HF) as (_ & _ & Pn). destruct (used_moved e' e2 Pn HU) as (M & P2 & G2).
  assert (g2 : e_map e2 = g_fcm (e_gen e2)) by (unfold e_gen; now rewrite P2).
  assert (G1 : e_generated e' = true).
  { unfold fit in HF. destruct (reset (e_gen e)) as [g1 [u|er]]; [|discriminate]. destruct (build_fcm _ _ _ _ _) as [g3 [u'|er]]; [|discriminate]. now injection HF as <-. }
  assert (St : settings (e_map e') = settings (e_map e0)).
  { apply est_settings. apply (estimator_state _ _ (healthy_estimator _ _ HH')). }
  pose proof (settings_max _ _ St) as (X1 & X2 & _ & _ & X5 & X6). pose proof (settings_fit _ _ St) as [_ X7].
  destruct (init_default _ _ _ _ _ _ _ _ _ _ HI) as (I1 & I2 & I3). destruct (init_default2 _ _ _ _ _ _ _ _ _ _ HI) as (I4 & I5 & I6 & I7 & I8).
  assert (Dd : forall f c d, In (f, c) (join_frames x y) -> described cf (dkeys y) (f, c) d ->
     is_fuzzy_type (fd_type d) = false /\ is_valid_type (fd_type d) = true /\ fd_feat d = f /\ is_class d = str_mem f (dkeys y) /\
     exists texts rows, levels cf c texts rows /\ fd_names d = map (fun t => append t (append "___" f)) texts).
  { intros f' c' d Hi Hd. destruct (Pl f' c' Hi) as (texts & rows & L & I).
    inversion Hd as [f1 c1 texts' rows' L' I' E1 E2|f1 c1 texts' ind data n vals ms rows' L' I' _ _ _ _ E1 E2]; subst.
    - cbn [fd_type fd_feat fd_names]. unfold is_class. cbn [fd_type]. rewrite Hsep. destruct (str_mem f' (dkeys y)); repeat split; eauto.
    - exfalso. apply I'. pose proof (Permutation_length (levels_perm _ _ _ _ _ _ L L')) as E. unfold is_discrete in *. destruct c'; auto; now rewrite <- E. }
  assert (Co : common (e_map e') me xc ac kw).
  { pose proof (fit_common cf x y e0 e e' HO HE ND HF) as Co. cbn zeta in Co. rewrite X7, I1, I2, I4, I5 in Co. apply Co.
    intros f' c' d Hi Hd. destruct (Dd f' c' d Hi Hd) as (A & B & _). auto. }
  assert (Ft : fitted fds me xc ac kw (e_gen e2)).
  { apply (fitted_moved _ _ _ _ _ _ _ M). constructor.
    - exact T.
    - rewrite Eg. eapply healthy_sane; eauto.
    - now rewrite Eg.
    - rewrite Eg, Hr. destruct (plan_build_spec cf _ _ _ _ _ _ Hp) as (rest & E & _ & Dn & Rl & _). cbn in E. subst rest. rewrite Rl.
      destruct (rels_ends cf fds HO []) as [X _]; auto. cbn [app]. now rewrite Dn.
    - rewrite Eg, X7. exact I1.
    - rewrite Eg, X1, X6, I6, I8. destruct vec; [right; now apply Hvec|now left]. }
  assert (Si : forall n : node R, nd_exec n = Some xc -> nd_func n = Some ac -> nd_args n = Some kw -> silent_node n).
  { intros n N1 N2 N3. split; [congruence|]. intros z (f1 & fn & a & A1 & A2 & A3 & A4). assert (f1 = ac) as -> by congruence. assert (a = kw) as -> by congruence.
    pose proof (common_plain ac kw Hcal) as Np. apply String.eqb_neq in Np. rewrite Np in A4. exact (Hsil fn z A2 A4). }
  assert (Dis : forall d, In d fds -> is_fuzzy_type (fd_type d) = false).
  { intros d Hd. destruct (Forall2_In_r _ _ _ _ D Hd) as ([f1 c1] & Hi & Q). now apply (Dd f1 c1 d). }
  destruct (Forall2_In_l _ _ _ _ D Hfc) as (d & Hd & Q). destruct (Dd f c d Hfc Q) as (_ & _ & Ef & Cl & texts & rows & L & En).
  apply str_mem_In in Hy. rewrite Hy in Cl.
  destruct texts as [|t texts]; [exfalso; exact (levels_some cf c [] rows L Hl eq_refl)|]. exists t. split; [eapply levels_first; eauto|].
  cbn [map] in En.
  unfold predict in HP. rewrite G2, G1 in HP. destruct (predict_rows cf (iterrows x') [] (e_gen e2)) as [g' r] eqn:E. cbn [fst snd] in HP. subst r.
  pose proof (rows_silent cf Hsep fds me xc ac kw Hcal Si Dis d _ _ Hd Cl En (iterrows x') (e_gen e2) [] g' out Ft) as K.
  rewrite Ef in K. rewrite K; auto.
  - cbn [labels app dget]. assert (Tx : text_of cf (append t (append "___" f)) = t).
    { assert (Hn : In (append t (append "___" f)) (fd_names d)) by (rewrite En; now left).
      destruct (td_name _ _ T d _ Hd Hn) as (t' & Et & Rt). rewrite Ef in Et. apply append_cancel in Et. subst t'.
      unfold text_of. rewrite (info_name cf Hsep); auto. rewrite <- Ef. apply (td_clean _ _ T d Hd). }
    rewrite Tx. unfold labels. cbn. f_equal. unfold iterrows. now rewrite map_length, seq_length.
  - eapply Forall_impl; [|exact HX]. intros r (R1 & R2 & R3). split; [split; auto|].
    intros d1 v t1 Hd1 Hv Ht Hn. destruct (Forall2_In_r _ _ _ _ D Hd1) as ([f1 c1] & Hi & Q1).
    destruct (Dd f1 c1 d1 Hi Q1) as (_ & _ & Ef1 & _ & texts1 & rows1 & L1 & En1). rewrite Ef1, En1 in *.
    apply in_map_iff in Hn as (t2 & Et & Ht2). apply append_cancel in Et. subst t2. exact (R3 f1 v c1 texts1 rows1 t1 Hv Hi L1 Ht Ht2).
Qed.
