(** AssocPredict.v — how a row given to predict sets the concepts of a generated map. *)
From Verif Require Import Base BaseFacts Num Functions Fcm FcmSpec FcmBasics FcmInv FcmInv2 FcmInv3 FcmRun FcmView LoaderSpec LoaderFacts JoinFacts LearnUtils LearnSpec LearnFacts Assoc Estimator EstSpec AssocSpec AssocFacts AssocFacts2 AssocFacts3 AssocFacts4 AssocNames AssocNames2 EstFacts EstFacts2 EstFacts3 AssocGen.

Section Predict.
Context {F : Type} {N : Num F}.
Implicit Types (g h : gen F) (s : fcm F) (e : est F).
Variable cf : gconf F.

Lemma value_put c c' n s : value (put_node c n s) c' = if String.eqb c' c then Some (nd_value n) else value s c'.
Proof.
  unfold value, get_concept_value. cbn [m_topo put_node set_topo]. destruct (String.eqb_spec c' c) as [->|H].
  - now rewrite dget_dset_same.
  - rewrite dget_dset_other by auto. reflexivity.
Qed.
Lemma init_concept_value c x s s' r c' : init_concept c x false s = (s', r) -> c' <> c -> value s' c' = value s c'.
Proof.
  unfold init_concept. destruct (dget (m_topo s) c) as [n|]; [|intros [= <- _]; auto].
  destruct (rbind _ _) as [v|er]; intros [= <- _] H; auto. rewrite value_put. destruct (String.eqb_spec c' c); [easy|reflexivity].
Qed.
Lemma init_discrete d f v t g : fd_feat d = f -> dget (g_feats g) f = Some (feat_of d) -> is_fuzzy_type (fd_type d) = false -> cell_text cf v = Ok t ->
  (forall n, dget (m_topo (g_fcm g)) (name_concept cf f t) = Some n -> exists fn, nd_func n = Some fn /\ fn <> "fuzzy") ->
  exists g', init_concept_by_feature_data cf f v g = (g', Ok tt) /\
    forall c, value (g_fcm g') c = option_map (fun x => if String.eqb c (name_concept cf f t) then n1 else x) (value (g_fcm g) c).
Proof.
  intros Hf Hk Hd Ht Hn. unfold init_concept_by_feature_data, swith, get_type, dget_exn. rewrite Hk. cbn [rbind feat_of f_type oget].
  unfold is_fuzzy_type in Hd. rewrite Hd, Ht. unfold on_fcm, init_concept.
  destruct (dget (m_topo (g_fcm g)) (name_concept cf f t)) as [n|] eqn:E.
  - destruct (Hn n eq_refl) as (fn & Hfn & Nf). rewrite Hfn. cbn [oget rbind]. apply String.eqb_neq in Nf. rewrite Nf.
    eexists. split; [reflexivity|]. intros c. cbn [g_fcm set_fcm]. rewrite value_put. cbn [nd_value nd_set_aux nd_set_value].
    destruct (String.eqb_spec c (name_concept cf f t)) as [->|H].
    + unfold value, get_concept_value. rewrite E. reflexivity.
    + change (value (put_exec (name_concept cf f t) [n1] (g_fcm g)) c) with (value (g_fcm g) c). now destruct (value (g_fcm g) c).
  - eexists. split; [reflexivity|]. intros c. cbn [g_fcm set_fcm]. destruct (String.eqb_spec c (name_concept cf f t)) as [->|H].
    + unfold value, get_concept_value. now rewrite E.
    + now destruct (value (g_fcm g) c).
Qed.
Lemma sfold_value names x g g' r c : sfold (fun name => swith (fun _ => cell_num (F := F) x) (fun x => on_fcm (init_concept name x false))) names g = (g', r) ->
  ~ In c names -> value (g_fcm g') c = value (g_fcm g) c.
Proof.
  revert g. induction names as [|n names IH]; intros g; cbn [sfold]; [intros [= <- _]; auto|]. intros H Hn.
  unfold swith at 1 in H. destruct (cell_num x) as [y|er]; [|injection H as <- _; auto]. unfold on_fcm in H.
  destruct (init_concept n y false (g_fcm g)) as [s1 r1] eqn:E. apply (init_concept_value _ _ _ _ _ c) in E; [|intros ->; apply Hn; now left].
  destruct r1 as [u|er].
  - apply IH in H; [rewrite H; exact E|intros X; apply Hn; now right].
  - injection H as <- _. exact E.
Qed.
Lemma init_other d f v g g' r c : fd_feat d = f -> dget (g_feats g) f = Some (feat_of d) -> init_concept_by_feature_data cf f v g = (g', r) ->
  ~ In c (fd_names d) -> (forall t, cell_text cf v = Ok t -> c <> name_concept cf f t) -> value (g_fcm g') c = value (g_fcm g) c.
Proof.
  intros Hf Hk H Hn Ht. revert H. unfold init_concept_by_feature_data, swith, get_type, get_names, dget_exn. rewrite Hk. cbn [rbind feat_of f_type f_names oget].
  destruct (String.eqb (fd_type d) TYPE_FUZZY || String.eqb (fd_type d) TYPE_REGRESOR).
  - rewrite Hk. cbn [rbind feat_of f_names oget]. match goal with |- context [sfold ?a ?b ?c] => destruct (sfold a b c) as [g1 r1] eqn:E end. intros [= <- _]. now apply (sfold_value _ _ _ _ _ c) in E.
  - destruct (cell_text cf v) as [t|er]; [|intros [= <- _]; auto]. unfold on_fcm.
    destruct (init_concept _ _ _ _) as [s1 r1] eqn:E. intros [= <- _]. apply (init_concept_value _ _ _ _ _ c) in E; auto.
Qed.

(** ** A whole row *)
Lemma fit_base x y e0 e e' : estimator e0 e -> fit cf x y e = (e', Ok tt) ->
  NoDup (dkeys (m_topo (e_map e'))) /\ keys_eq (e_map e') /\ e_priv e' = None.
Proof.
  intros HE HF. destruct (fit_built _ _ _ _ _ _ HE HF) as (_ & _ & _ & _ & _ & _ & _ & -> & _). destruct (estimator_state _ _ HE) as (B & S & P & G).
  assert (S0 : state_of e0 e0) by (left; destruct P as (p & P1 & P2); eauto).
  assert (P0 : exists p, e_priv e0 = Some p) by (destruct P; firstorder).
  destruct (refit cf x y e0 e B S S0 P0) as [(er & _ & H)|[H1 H2]]; [rewrite HF in H; discriminate|].
  rewrite HF in H1, H2. cbn [fst snd] in H1, H2.
  assert (T : trail e0 (eruns [EFit cf x y] e0)).
  { apply fits_trail; auto. cbn [fits_ok is_fit edo]. split; auto. }
  destruct HE as [(mi & ex & sd & de & me & xc & ac & kw & vec & H0) _].
  pose proof (est_sane e0 _ _ _ _ _ _ _ _ _ _ H0 T) as Sa. cbn [eruns fold_left edo] in Sa.
  destruct (sane_parts _ Sa) as (ND & _ & K & _). unfold fitted_model in H2. unfold keys_eq in *.
  assert (E1 : m_topo (e_map e') = m_topo (e_map (fst (fit cf x y e0)))) by congruence.
  assert (E2 : m_exec (e_map e') = m_exec (e_map (fst (fit cf x y e0)))) by congruence.
  rewrite E1, E2. auto.
Qed.
(** a generator after a fit on readable data, as far as rows are concerned *)
Record tidy (fds : list (fdesc F)) g : Prop := {
  td_known : forall d, In d fds -> dget (g_feats g) (fd_feat d) = Some (feat_of d);
  td_only : forall f, dget (g_feats g) f <> None -> exists d, In d fds /\ fd_feat d = f;
  td_feats : NoDup (map fd_feat fds);
  td_name : forall d c, In d fds -> In c (fd_names d) -> exists t, c = append t (append "___" (fd_feat d)) /\ readable t;
  td_clean : forall d, In d fds -> ~ occurs "___" (fd_feat d);
  td_all : concepts (g_fcm g) = flat_map fd_names fds;
  td_type : forall d c n, In d fds -> In c (fd_names d) -> dget (m_topo (g_fcm g)) c = Some n -> nd_type n = Some (fd_type d);
  td_func : forall d c n, In d fds -> In c (fd_names d) -> dget (m_topo (g_fcm g)) c = Some n -> is_fuzzy_type (fd_type d) = false ->
     nd_func n = Some (dc_func (m_default (g_fcm g)));
  td_args : forall d c n, In d fds -> In c (fd_names d) -> dget (m_topo (g_fcm g)) c = Some n -> is_fuzzy_type (fd_type d) = false ->
     nd_args n = Some (dc_args (m_default (g_fcm g)))
}.
Lemma td_concepts fds g : tidy fds g -> forall c, In c (concepts (g_fcm g)) <-> exists d, In d fds /\ In c (fd_names d).
Proof. intros T c. rewrite (td_all _ _ T). apply in_flat_map. Qed.
Lemma tidy_moved fds g g' : moved g g' -> tidy fds g -> tidy fds g'.
Proof.
  intros M T. pose proof (moved_wframe _ _ M) as (W1 & W2 & W3). destruct M as (M1 & M2 & _).
  constructor; try (rewrite ?M1; apply T).
  - unfold concepts. rewrite (statics_keys _ _ W1). apply T.
  - intros d c n Hd Hc Hn. symmetry in W1. destruct (statics_dget _ _ c n W1 Hn) as (n' & Hn' & En).
    pose proof (td_type _ _ T d c n' Hd Hc Hn') as A. apply (f_equal nd_type) in En. cbn in En. congruence.
  - intros d c n Hd Hc Hn Ht. symmetry in W1. destruct (statics_dget _ _ c n W1 Hn) as (n' & Hn' & En).
    pose proof (td_func _ _ T d c n' Hd Hc Hn' Ht) as A. apply (f_equal nd_func) in En. cbn in En.
    apply settings_fit in W3 as [_ W3]. rewrite W3. congruence.
  - intros d c n Hd Hc Hn Ht. symmetry in W1. destruct (statics_dget _ _ c n W1 Hn) as (n' & Hn' & En).
    pose proof (td_args _ _ T d c n' Hd Hc Hn' Ht) as A. apply (f_equal nd_args) in En. cbn in En.
    apply settings_fit in W3 as [_ W3]. rewrite W3. congruence.
Qed.
Lemma same_desc fds d d' : NoDup (map fd_feat fds) -> In d fds -> In d' fds -> fd_feat d = fd_feat (F := F) d' -> d = d'.
Proof.
  induction fds as [|z l IH]; [easy|]. cbn. intros ND Hd Hd' E. apply NoDup_cons_iff in ND as [Nz ND].
  destruct Hd as [->|Hd], Hd' as [->|Hd']; auto; exfalso; apply Nz; [rewrite E|rewrite <- E]; now apply in_map.
Qed.
Hypothesis Hsep : c_sep cf = "___".
Lemma fit_tidy x y e0 e e' : reorders (c_ord cf) -> (forall a b : F, nmul a b = nmul b a) -> estimator e0 e -> readable_data cf (join_frames x y) ->
  fit cf x y e = (e', Ok tt) -> exists fds, tidy fds (e_gen e') /\ Forall2 (described cf (dkeys y)) (join_frames x y) fds /\
    NoDup (flat_map fd_names fds) /\ Forall (fun d => length (fd_rows d) = length (fd_names d)) fds /\ g_fcm (e_gen e') = e_map e' /\
    exists dc ops, plan_build cf dc (dkeys y) [] (join_frames x y) = Ok (ops, fds) /\ relations (e_map e') = ops_rels ops.
Proof.
  intros HO comm HE (_ & ND & HR) HF. destruct (fit_plan _ _ _ _ _ _ HO HE ND HF) as (s & ops & fds & A & B & Hp & Hm & R & Hg).
  destruct (plan_build_spec cf _ _ _ _ _ _ Hp) as (rest & E & D & Dn & Rl & An & Nm & Bd & Cn & Ln). cbn in E. subst rest.
  destruct B as (B1 & B2 & B3 & B4).
  destruct (run_building (m_default s) [] ops s B4 eq_refl Bd) as (Q1 & Q2 & _); auto.
  { apply Forall_forall. intros o Ho Hc. rewrite Forall_forall in Cn. destruct (Cn o Ho Hc) as (d & _ & _ & Hd). eauto. }
  { intros z []. }
  destruct (names_NoDup cf Hsep (dkeys y) _ fds ND HR D) as [N1 N2].
  assert (K : forall d c, In d fds -> In c (fd_names d) -> forall P : node F -> Prop, (forall n n', unlinked n = unlinked n' -> P n -> P n') ->
    (forall dx, (is_fuzzy_type (fd_type d) = false -> dx = None) -> is_valid_type (fd_type d) = true ->
       P (fst (build_node (m_default s) (Some (fd_type d)) (Some true) None None dx None []))) ->
    forall n, dget (m_topo (run_ops ops s)) c = Some n -> P n).
  { intros d c Hd Hc P HP HB. apply (built_node P c HP); auto.
    + intros ct a m ex dd f k Ho. rewrite Forall_forall in Cn. destruct (Cn _ Ho eq_refl) as (d' & Hd' & Hc' & dx & Ho' & _ & _ & Hx).
      cbn [op_name] in Hc'. assert (d' = d).
      { destruct (N2 d c Hd Hc) as (t & E1 & E2 & E3 & _). destruct (N2 d' c Hd' Hc') as (t' & E1' & E2' & E3' & _).
        rewrite E1 in E1'. apply (name_inj cf Hsep) in E1' as [E1' _]; auto. rewrite <- Dn in ND. now apply (same_desc fds). }
      subst d'. injection Ho' as -> -> -> -> -> -> ->. apply HB; auto.
      clear - D Hd. induction D as [|fc d' ds fds Hf D IH]; [easy|]. destruct Hd as [->|Hd]; auto.
      inversion Hf; subst; cbn [fd_type]; destruct (str_mem f (dkeys y)); reflexivity.
    + intros n0' Hn0. rewrite B1 in Hn0. discriminate. }
  exists fds. split; [|split; [exact D|split; [exact N1|split; [exact Ln|split; [exact Hg|]]]]].
  2: { exists (m_default s), ops. split; [exact Hp|]. rewrite Hm, Q1. unfold relations. now rewrite B3. }
  destruct R as (R1 & R2 & R3 & R4 & R5). constructor.
  - intros d Hd. now apply R4.
  - intros f Hf. apply R5 in Hf. apply in_map_iff in Hf as (d & <- & Hd). eauto.
  - now rewrite Dn.
  - intros d c Hd Hc. destruct (N2 d c Hd Hc) as (t & H1 & H2 & _). eauto.
  - intros d Hd. assert (X : In (fd_feat d) (dkeys (join_frames x y))) by (rewrite <- Dn; now apply in_map).
    apply in_map_iff in X as ([f c] & <- & X). now apply HR in X.
  - rewrite Hg, Hm, Q2. unfold concepts. rewrite B1. cbn [dkeys map].
    change (flat_map added ops) with (flat_map (fun o : op F => match o with OpAddConcept n _ _ _ _ _ _ _ => [n] | _ => [] end) ops). rewrite Nm.
    apply inserts_NoDup. exact N1.
  - intros d c n Hd Hc Hn. rewrite Hg, Hm in Hn. pattern n. apply (K d c Hd Hc (fun n => nd_type n = Some (fd_type d))) with (n := n); auto.
    + intros n1 n2 En X1. rewrite <- X1. symmetry. exact (f_equal nd_type En).
    + intros dx _ Vt. unfold build_node. rewrite Vt. destruct (is_fuzzy_type (fd_type d)).
      * destruct dx as [dx|].
        -- destruct (process_activation_dict dx) as [[[vals memb] sc]|er]; reflexivity.
        -- destruct (String.eqb _ _); [|reflexivity]. destruct (dc_fuzzy _); reflexivity.
      * destruct dx; reflexivity.
  - intros d c n Hd Hc Hn Ht. rewrite Hg, Hm in Hn. rewrite R2. pattern n. apply (K d c Hd Hc (fun n => nd_func n = Some (dc_func (m_default s)))) with (n := n); auto.
    + intros n1 n2 En X1. rewrite <- X1. symmetry. exact (f_equal nd_func En).
    + intros dx Hx Vt. rewrite (Hx Ht). now apply discrete_node.
  - intros d c n Hd Hc Hn Ht. rewrite Hg, Hm in Hn. rewrite R2. pattern n. apply (K d c Hd Hc (fun n => nd_args n = Some (dc_args (m_default s)))) with (n := n); auto.
    + intros n1 n2 En X1. rewrite <- X1. symmetry. exact (f_equal nd_args En).
    + intros dx Hx Vt. rewrite (Hx Ht). unfold build_node; rewrite Vt, Ht; reflexivity.
Qed.

Notation named_for f t := (append t (append "___" f)).
Definition good_row (r : list (string * cell F)) : Prop :=
  NoDup (map fst r) /\ forall f str, In (f, CStr str) r -> readable str.
Lemma cell_readable v t : (forall str, v = CStr str -> readable str) -> cell_text cf v = Ok t -> readable t.
Proof.
  intros H. destruct v as [s|b|z|x]; cbn [cell_text]; intros E.
  - injection E as <-. now apply H.
  - injection E as <-. apply int_readable.
  - injection E as <-. apply int_readable.
  - apply rbind_ok in E as (z & _ & E). injection E as <-. apply int_readable.
Qed.
(** a row without the feature leaves its concepts alone *)
Lemma row_other fds r d c : forall g g' x, tidy fds g -> In d fds -> In c (fd_names d) -> ~ In (fd_feat d) (map fst r) ->
  (forall f str, In (f, CStr str) r -> readable str) -> set_row cf r g = (g', x) -> value (g_fcm g') c = value (g_fcm g) c.
Proof.
  unfold set_row. induction r as [|[f v] r IH]; intros g g' x T Hd Hc Hn Hr H; cbn [sfold fst snd] in H; [injection H as <- _; auto|].
  destruct (init_concept_by_feature_data cf f v g) as [g1 r1] eqn:E.
  assert (M : moved g g1) by (pose proof (moved_init cf f v g) as M; rewrite E in M; exact M).
  assert (X : value (g_fcm g1) c = value (g_fcm g) c).
  { destruct (dget (g_feats g) f) as [ft|] eqn:Ef.
    - destruct (td_only _ _ T f) as (d' & Hd' & Hf'); [congruence|]. apply (init_other d' f v g g1 r1 c); auto.
      + rewrite <- Hf'. now apply (td_known _ _ T).
      + intros X. assert (d = d'); [|subst; apply Hn; now left].
        destruct (td_name _ _ T d c Hd Hc) as (t1 & E1 & R1). destruct (td_name _ _ T d' c Hd' X) as (t2 & E2 & R2). rewrite E1 in E2.
        apply (name_inj cf Hsep) in E2 as [E2 _]; auto; try (now apply (td_clean _ _ T)). apply (same_desc fds); auto. apply (td_feats _ _ T).
      + intros t Ht Ec. unfold name_concept in Ec. rewrite Hsep in Ec. destruct (td_name _ _ T d c Hd Hc) as (t1 & E1 & R1). rewrite E1 in Ec.
        apply (name_inj cf Hsep) in Ec as [Ec _]; auto.
        * apply Hn. left. now rewrite Ec.
        * apply (cell_readable v); auto. intros s ->. apply (Hr f). now left.
        * now apply (td_clean _ _ T).
        * rewrite <- Hf'. now apply (td_clean _ _ T).
    - revert E. unfold init_concept_by_feature_data, swith, get_type, dget_exn. rewrite Ef. cbn. intros [= <- _]. reflexivity. }
  destruct r1 as [u|er].
  - apply IH in H; auto; try (rewrite H; exact X).
    + now apply (tidy_moved fds g).
    + intros Y. apply Hn. now right.
    + intros f' s Hs. apply (Hr f'). now right.
  - injection H as <- _. exact X.
Qed.
Lemma sfold_app {S A} (f : A -> S -> S * res unit) l l' (s : S) : sfold f (l ++ l') s = match sfold f l s with (s', Ok _) => sfold f l' s' | (s', Err e) => (s', Err e) end.
Proof. revert s. induction l as [|a l IH]; intros s; cbn [sfold app]; [reflexivity|]. destruct (f a s) as [s' [u|e]]; auto. Qed.
(** the concepts of a discrete feature after setting a row *)
Lemma row_sets fds r g g' d v t c : tidy fds g -> dc_func (m_default (g_fcm g)) <> "fuzzy" -> good_row r ->
  set_row cf r g = (g', Ok tt) -> In d fds -> is_fuzzy_type (fd_type d) = false -> In (fd_feat d, v) r -> cell_text cf v = Ok t ->
  In c (fd_names d) -> value (g_fcm g') c = option_map (fun x => if String.eqb c (named_for (fd_feat d) t) then n1 else x) (value (g_fcm g) c).
Proof.
  intros T Df [ND Hr] H Hd Hz Hin Ht Hc. apply in_split in Hin as (r1 & r2 & ->). unfold set_row in H. rewrite sfold_app in H.
  destruct (sfold _ r1 g) as [g1 [u|er]] eqn:E1; [|discriminate]. cbn [sfold fst snd] in H. rewrite map_app in ND. cbn in ND.
  pose proof (NoDup_remove_2 _ _ _ ND) as Nf. rewrite in_app_iff in Nf.
  assert (M1 : moved g g1) by (pose proof (moved_set_row cf r1 g) as M; unfold set_row in M; rewrite E1 in M; exact M).
  pose proof (tidy_moved fds g g1 M1 T) as T1.
  assert (V1 : value (g_fcm g1) c = value (g_fcm g) c).
  { apply (row_other fds r1 d c g g1 (Ok u)); auto. intros f s Hs. apply (Hr f). apply in_app_iff. now left. }
  destruct (init_discrete d (fd_feat d) v t g1 eq_refl) as (g2 & E2 & V2); auto.
  { now apply (td_known _ _ T1). }
  { intros n Hn. unfold name_concept in Hn. rewrite Hsep in Hn. exists (dc_func (m_default (g_fcm g1))).
    assert (Ec : In (named_for (fd_feat d) t) (concepts (g_fcm g1))) by (unfold concepts; apply dget_In in Hn; apply in_map_iff; eexists; split; [|exact Hn]; reflexivity).
    apply (td_concepts _ _ T1) in Ec as (d' & Hd' & Hc').
    assert (d' = d).
    { destruct (td_name _ _ T d' _ Hd' Hc') as (t2 & E3 & R2). apply (name_inj cf Hsep) in E3 as [E3 _]; auto; try (now apply (td_clean _ _ T)).
      - apply (same_desc fds); auto. apply (td_feats _ _ T).
      - apply (cell_readable v); auto. intros s ->. apply (Hr (fd_feat d)). apply in_app_iff. right. now left. }
    subst d'. split; [exact (td_func _ _ T1 d _ n Hd Hc' Hn Hz)|].
    pose proof (moved_wframe _ _ M1) as (_ & _ & W3). apply settings_fit in W3 as [_ W3]. now rewrite W3. }
  rewrite E2 in H. assert (M2 : moved g1 g2) by (pose proof (moved_init cf (fd_feat d) v g1) as M; rewrite E2 in M; exact M).
  rewrite (row_other fds r2 d c g2 g' (Ok tt)); auto.
  - rewrite V2, V1. unfold name_concept. now rewrite Hsep.
  - now apply (tidy_moved fds g1).
  - intros f s Hs. apply (Hr f). apply in_app_iff. right. now right.
Qed.
(** setting a row of discrete features never fails *)
Lemma row_succeeds fds r : forall g, tidy fds g -> dc_func (m_default (g_fcm g)) <> "fuzzy" -> (forall f str, In (f, CStr str) r -> readable str) ->
  (forall f v, In (f, v) r -> (exists d, In d fds /\ fd_feat d = f /\ is_fuzzy_type (fd_type d) = false) /\ exists t, cell_text cf v = Ok t) ->
  exists g', set_row cf r g = (g', Ok tt).
Proof.
  unfold set_row. induction r as [|[f v] r IH]; intros g T Df Hr H; cbn [sfold]; [eauto|]. cbn [fst snd].
  destruct (H f v (or_introl eq_refl)) as [(d & Hd & Hf & Hz) [t Ht]]. subst f.
  destruct (init_discrete d (fd_feat d) v t g eq_refl) as (g2 & E2 & V2); auto.
  { now apply (td_known _ _ T). }
  { intros n Hn. unfold name_concept in Hn. rewrite Hsep in Hn. exists (dc_func (m_default (g_fcm g))).
    assert (Ec : In (named_for (fd_feat d) t) (concepts (g_fcm g))) by (unfold concepts; apply dget_In in Hn; apply in_map_iff; eexists; split; [|exact Hn]; reflexivity).
    apply (td_concepts _ _ T) in Ec as (d' & Hd' & Hc').
    assert (d' = d).
    { destruct (td_name _ _ T d' _ Hd' Hc') as (t2 & E3 & R2). apply (name_inj cf Hsep) in E3 as [E3 _]; auto; try (now apply (td_clean _ _ T)).
      - apply (same_desc fds); auto. apply (td_feats _ _ T).
      - apply (cell_readable v); auto. intros s ->. apply (Hr (fd_feat d)). now left. }
    subst d'. split; auto. exact (td_func _ _ T d _ n Hd Hc' Hn Hz). }
  rewrite E2. assert (M2 : moved g g2) by (pose proof (moved_init cf (fd_feat d) v g) as M; rewrite E2 in M; exact M).
  apply IH.
  - now apply (tidy_moved fds g).
  - pose proof (moved_wframe _ _ M2) as (_ & _ & W3). apply settings_fit in W3 as [_ W3]. now rewrite W3.
  - intros f s Hs. apply (Hr f). now right.
  - intros f w Hs. apply H. now right.
Qed.
End Predict.
