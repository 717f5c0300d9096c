(** RowFacts.v — generators fed with related data sets build the same map. *)
From Verif Require Import Base BaseFacts Num Functions Fcm LearnUtils LearnSpec LearnFacts Assoc AssocFacts2 Estimator.

Section Related.
Context {F : Type} {N : Num F}.
Implicit Types (g h : gen F).
Variable cf : gconf F.
(** how the description rows of a concept are related *)
Variable rrel : list F -> list F -> Prop.
Definition agree (c c' : coeffs F) : Prop :=
  call4 (c_eval cf) c = call4 (c_eval cf) c' /\ call4 (c_caus cf) c = call4 (c_caus cf) c' /\ rel_sign cf c = rel_sign cf c'.
Hypothesis coeff_agree : forall a a' b b' cc, rrel a a' -> rrel b b' -> calc_concepts_coefficient a b = Some cc ->
  exists cc', calc_concepts_coefficient a' b' = Some cc' /\ agree (fst cc) (fst cc') /\ agree (snd cc) (snd cc').

Definition orel {A} (R : A -> A -> Prop) (x y : option A) : Prop :=
  match x, y with Some a, Some b => R a b | None, None => True | _, _ => False end.
Definition drel (d d' : nat * list (list F)) : Prop := fst d = fst d' /\ Forall2 rrel (snd d) (snd d').
Definition frel (x x' : feat F) : Prop := f_type x = f_type x' /\ f_names x = f_names x' /\ orel drel (f_desc x) (f_desc x').
Definition grel g g' : Prop := g_fcm g = g_fcm g' /\ g_proc g = g_proc g' /\ forall f, orel frel (dget (g_feats g) f) (dget (g_feats g') f).
(** a success of the first is a success of the second, in related states *)
Definition sim (f f' : gen F -> gen F * res unit) : Prop :=
  forall g g' h, grel g g' -> f g = (h, Ok tt) -> exists h', f' g' = (h', Ok tt) /\ grel h h'.

Lemma sim_ret : sim (fun g => (g, Ok tt)) (fun g => (g, Ok tt)).
Proof. intros g g' h R [= <-]. eauto. Qed.
Lemma sim_sfold {A} (f f' : A -> gen F -> gen F * res unit) l : (forall a, sim (f a) (f' a)) -> sim (sfold f l) (sfold f' l).
Proof.
  intros H. induction l as [|a l IH]; [exact sim_ret|]. intros g g' h R E. cbn [sfold] in *.
  destruct (f a g) as [g1 [u|e]] eqn:E1; [|discriminate]. destruct u. destruct (H a g g' g1 R E1) as (g1' & -> & R1). eauto.
Qed.
Lemma sim_sthen f f' k k' : sim f f' -> sim k k' -> sim (sthen f k) (sthen f' k').
Proof.
  intros H1 H2 g g' h R E. unfold sthen in *. destruct (f g) as [g1 [u|e]] eqn:E1; [|discriminate]. destruct u.
  destruct (H1 g g' g1 R E1) as (g1' & -> & R1). eauto.
Qed.
Lemma sim_swith {A B} (Q : A -> B -> Prop) (r : gen F -> res A) (r' : gen F -> res B) k k' :
  (forall g g' a, grel g g' -> r g = Ok a -> exists b, r' g' = Ok b /\ Q a b) -> (forall a b, Q a b -> sim (k a) (k' b)) ->
  sim (swith r k) (swith r' k').
Proof.
  intros H1 H2 g g' h R E. unfold swith in *. destruct (r g) as [a|e] eqn:E1; [|discriminate].
  destruct (H1 g g' a R E1) as (b & -> & Hq). eapply H2; eauto.
Qed.
(** the same value on both sides *)
Lemma sim_swith_eq {A} (r r' : gen F -> res A) k k' :
  (forall g g', grel g g' -> r g = r' g') -> (forall a, sim (k a) (k' a)) -> sim (swith r k) (swith r' k').
Proof. intros H1 H2. apply (sim_swith eq); [intros g g' a R E; exists a; split; [rewrite <- (H1 g g' R); auto|auto]|intros a b ->; auto]. Qed.
Lemma sim_on f : sim (on_fcm f) (on_fcm f).
Proof.
  intros g g' h (R1 & R2 & R3) E. unfold on_fcm in *. rewrite <- R1. destruct (f (g_fcm g)) as [s r]. injection E as <- ->.
  eexists. split; [reflexivity|]. repeat split; auto.
Qed.
Lemma orel_dset f x x' (d d' : dict (feat F)) : (forall k, orel frel (dget d k) (dget d' k)) -> frel x x' ->
  forall k, orel frel (dget (dset d f x) k) (dget (dset d' f x') k).
Proof.
  intros H Hx k. destruct (string_dec k f) as [->|n]; [rewrite !dget_dset_same; exact Hx|]. rewrite !dget_dset_other; auto.
Qed.
Lemma grel_set f x x' g g' : grel g g' -> frel x x' -> grel (set_feat f x g) (set_feat f x' g').
Proof. intros (R1 & R2 & R3) Hx. split; [exact R1|]. split; [exact R2|]. cbn [g_feats set_feat]. now apply orel_dset. Qed.
Lemma frel_refl_none t : frel (mkFeat t None None) (mkFeat t None None).
Proof. repeat split. Qed.
Lemma type_rel f g g' : grel g g' -> get_type g f = get_type g' f.
Proof.
  intros (_ & _ & R). specialize (R f). unfold get_type, dget_exn. destruct (dget (g_feats g) f) as [x|], (dget (g_feats g') f) as [x'|]; try contradiction; auto.
  destruct R as (E & _). cbn [rbind]. now rewrite E.
Qed.
Lemma names_rel f g g' : grel g g' -> get_names g f = get_names g' f.
Proof.
  intros (_ & _ & R). specialize (R f). unfold get_names, dget_exn. destruct (dget (g_feats g) f) as [x|], (dget (g_feats g') f) as [x'|]; try contradiction; auto.
  destruct R as (_ & E & _). cbn [rbind]. now rewrite E.
Qed.
Lemma desc_rel f g g' d : grel g g' -> get_desc g f = Ok d -> exists d', get_desc g' f = Ok d' /\ drel d d'.
Proof.
  intros (_ & _ & R). specialize (R f). unfold get_desc, dget_exn. destruct (dget (g_feats g) f) as [x|], (dget (g_feats g') f) as [x'|]; try contradiction; [|discriminate].
  destruct R as (_ & _ & E). cbn [rbind]. unfold oget. destruct (f_desc x) as [y|], (f_desc x') as [y'|]; try contradiction; [|discriminate].
  intros [= <-]. eauto.
Qed.
Lemma group_rel a b g g' : grel g g' -> are_same_feature_group g a b = are_same_feature_group g' a b.
Proof. intros R. unfold are_same_feature_group, is_target_concept. now rewrite (type_rel a g g' R), (type_rel b g g' R). Qed.
Lemma target_rel a g g' : grel g g' -> is_target_concept g a = is_target_concept g' a.
Proof. intros R. unfold is_target_concept. now rewrite (type_rel a g g' R). Qed.
Lemma sim_mark f : sim (fun g => (mark f g, Ok tt)) (fun g => (mark f g, Ok tt)).
Proof. intros g g' h (R1 & R2 & R3) [= <-]. eexists. split; [reflexivity|]. unfold mark, grel. cbn [g_fcm g_proc g_feats]. rewrite R2. auto. Qed.
Lemma sim_rel_pair ns i j w : sim (rel_pair ns i j w) (rel_pair ns i j w).
Proof.
  unfold rel_pair. intros g g' h R E. destruct (rbind (lget ns i) _) as [[a b]|e]; [|discriminate]. eapply sim_on; eauto.
Qed.
Lemma sim_inner f : sim (def_inner_feat_relations cf f) (def_inner_feat_relations cf f).
Proof.
  unfold def_inner_feat_relations. destruct (neqb _ _); [exact sim_ret|].
  apply (sim_swith drel); [intros; eapply desc_rel; eauto|]. intros d d' [E _]. rewrite <- E.
  apply sim_swith_eq; [intros; now apply names_rel|]. intros ns. apply sim_sfold. intros i. apply sim_sfold. intros j.
  apply sim_sthen; apply sim_rel_pair.
Qed.
Lemma sim_weight na pa nb pb s c c' : agree c c' -> sim (def_relation_weight cf na pa nb pb s c) (def_relation_weight cf na pa nb pb s c').
Proof.
  intros (A1 & A2 & A3). unfold def_relation_weight.
  assert (W : forall v, sim (if neqb (nmul s v) n0 then fun g => (g, Ok tt)
        else fun g => match (a <- lget na pa ;; b <- lget nb pb ;; Ok (a, b))%res with
                      | Err e => (g, Err e) | Ok (a, b) => on_fcm (add_relation a b (nmul s v)) g end)
       (if neqb (nmul s v) n0 then fun g => (g, Ok tt)
        else fun g => match (a <- lget na pa ;; b <- lget nb pb ;; Ok (a, b))%res with
                      | Err e => (g, Err e) | Ok (a, b) => on_fcm (add_relation a b (nmul s v)) g end)).
  { intros v. destruct (neqb _ _); [exact sim_ret|]. destruct (rbind (lget na pa) _) as [[a b]|e]; [apply sim_on|]. intros g g' h R E. discriminate. }
  apply sim_swith_eq; [auto|]. intros e. destruct (nltb _ _); [|exact sim_ret].
  apply sim_swith_eq; [auto|]. intros v. cbv zeta. apply W.
Qed.
Lemma lget_Forall2 {A B} (Q : A -> B -> Prop) l l' i a : Forall2 Q l l' -> lget l i = Ok a -> exists b, lget l' i = Ok b /\ Q a b.
Proof.
  intros H. revert i. induction H as [|x y l l' Hq H IH]; intros i E; unfold lget in *; destruct i; cbn in *; try discriminate; [injection E as <-; eauto|].
  apply (IH i E).
Qed.
Lemma sim_pair fa fb na nb da da' db db' p q : Forall2 rrel da da' -> Forall2 rrel db db' ->
  sim (def_concept_pair cf fa fb na nb da db p q) (def_concept_pair cf fa fb na nb da' db' p q).
Proof.
  intros Ha Hb. unfold def_concept_pair.
  apply (sim_swith (fun cc cc' => agree (fst cc) (fst cc') /\ agree (snd cc) (snd cc'))).
  - intros g g' cc _ E. destruct (lget da p) as [a|e] eqn:Ea; [|discriminate]. cbn [rbind] in E.
    destruct (lget db q) as [b|e] eqn:Eb; [|discriminate]. cbn [rbind] in E.
    destruct (lget_Forall2 _ _ _ _ _ Ha Ea) as (a' & -> & Ra). destruct (lget_Forall2 _ _ _ _ _ Hb Eb) as (b' & -> & Rb). cbn [rbind].
    destruct (calc_concepts_coefficient a b) as [cc0|] eqn:Ec; [|discriminate]. injection E as ->.
    destruct (coeff_agree _ _ _ _ _ Ra Rb Ec) as (cc' & -> & Hc). eauto.
  - intros [pq qp] [pq' qp'] [A1 A2]. cbn [fst snd] in A1, A2.
    apply sim_swith_eq; [intros; apply A1|]. intros s1. apply sim_swith_eq; [intros; apply A2|]. intros s2. cbv zeta.
    destruct (c_double cf); [apply sim_sthen; now apply sim_weight|].
    apply sim_swith_eq; [intros; now apply group_rel|]. intros [].
    + apply sim_swith_eq; [intros; destruct A1 as (_ & -> & _), A2 as (_ & -> & _); reflexivity|]. intros [x y].
      apply sim_sthen; destruct (nltb _ _); first [exact sim_ret|now apply sim_weight].
    + apply sim_swith_eq; [intros; now apply target_rel|]. intros []; now apply sim_weight.
Qed.
Lemma sim_two fa fb : sim (def_two_feat_relation cf fa fb) (def_two_feat_relation cf fa fb).
Proof.
  unfold def_two_feat_relation. apply sim_swith_eq; [intros; now apply names_rel|]. intros na.
  apply sim_swith_eq; [intros; now apply names_rel|]. intros nb.
  apply (sim_swith drel); [intros; eapply desc_rel; eauto|]. intros d1 d1' [_ D1].
  apply (sim_swith drel); [intros; eapply desc_rel; eauto|]. intros d2 d2' [_ D2].
  apply sim_sfold. intros p. apply sim_sfold. intros q. now apply sim_pair.
Qed.
Lemma sim_all f : sim (def_all_feat_relations cf f) (def_all_feat_relations cf f).
Proof.
  intros g g' h R. unfold def_all_feat_relations. destruct R as (R1 & R2 & R3). rewrite <- R2.
  apply sim_sthen; [|apply sim_mark|repeat split; auto]. apply sim_sfold. intros o. destruct (String.eqb o f); [exact sim_ret|apply sim_two].
Qed.
Lemma sim_target f : sim (def_feat_target_relation cf f) (def_feat_target_relation cf f).
Proof.
  intros g g' h R. unfold def_feat_target_relation. destruct R as (R1 & R2 & R3). rewrite <- R2.
  apply sim_sthen; [|apply sim_mark|repeat split; auto]. apply sim_sfold. intros o. destruct (String.eqb o f); [exact sim_ret|].
  apply sim_swith_eq; [intros; now apply group_rel|]. intros []; [exact sim_ret|apply sim_two].
Qed.

(** ** Columns *)
Definition like_columns (c c' : column F) : Prop :=
  match c, c' with
  | ColStr _, ColStr _ | ColBool _, ColBool _ | ColInt _, ColInt _ | ColFlt _, ColFlt _ => True
  | _, _ => False
  end.
Definition crel (name : string) (c c' : column F) : Prop :=
  like_columns c c' /\ fst (discrete_desc cf c) = fst (discrete_desc cf c') /\
  Forall2 rrel (snd (discrete_desc cf c)) (snd (discrete_desc cf c')) /\
  (forall x, c_disc cf name (as_floats c) = Ok x -> c_disc cf name (as_floats c') = Ok x) /\
  (is_numeric_col c = true -> forall memb vals row, rmap (fun v => fuzzy_set v memb vals) (as_floats c) = Ok row ->
     exists row', rmap (fun v => fuzzy_set v memb vals) (as_floats c') = Ok row' /\ rrel row row').

Lemma sim_discrete f tg c c' : fst (discrete_desc cf c) = fst (discrete_desc cf c') ->
  Forall2 rrel (snd (discrete_desc cf c)) (snd (discrete_desc cf c')) ->
  sim (gen_discrete_concepts cf f tg c) (gen_discrete_concepts cf f tg c').
Proof.
  intros E1 E2 g g' h R. unfold gen_discrete_concepts. destruct (discrete_desc cf c) as [tx m], (discrete_desc cf c') as [tx' m']. cbn [fst snd] in *. subst tx'.
  set (t := if str_mem f tg then TYPE_DECISION else TYPE_SIMPLE).
  pose proof (grel_set f _ _ g g' R (frel_refl_none (Some t))) as R1.
  destruct (sfold _ _ (set_feat f _ g)) as [g1 [u|e]] eqn:E; [|discriminate]. destruct u.
  destruct (sim_sfold _ _ _ (fun n => sim_on (add_concept n (Some t) (Some true) None None None None [])) _ _ _ R1 E) as (g1' & -> & R2).
  intros [= <-]. eexists. split; [reflexivity|]. apply grel_set; [exact R2|]. repeat split; auto.
Qed.
Lemma sim_clusters f t vals data data' ms :
  (forall memb row, rmap (fun v => fuzzy_set v memb vals) data = Ok row ->
     exists row', rmap (fun v => fuzzy_set v memb vals) data' = Ok row' /\ rrel row row') ->
  forall ks rows rows' g g' h x, grel g g' -> Forall2 rrel rows rows' ->
  gen_clusters cf f t vals data ms ks rows g = (h, Ok x) ->
  exists h' x', gen_clusters cf f t vals data' ms ks rows' g' = (h', Ok x') /\ grel h h' /\ Forall2 rrel x x'.
Proof.
  intros Hd. induction ks as [|k ks IH]; intros rows rows' g g' h x R Hr E; cbn [gen_clusters] in *.
  - injection E as <- <-. eauto.
  - unfold gen_cluster in *. destruct (lget ms k) as [memb|e]; [|discriminate].
    match type of E with context [on_fcm ?a g] => destruct (on_fcm a g) as [g1 [u|e]] eqn:E1 end; [|discriminate]. destruct u.
    destruct (sim_on _ _ _ _ R E1) as (g1' & -> & R1).
    destruct (rmap _ data) as [row|e] eqn:Er; [|discriminate]. cbn [rbind] in E.
    destruct (Hd memb row Er) as (row' & -> & Rr). cbn [rbind]. eapply IH; eauto.
    apply Forall2_app; auto.
Qed.
Lemma sim_continuous f tg data data' : (forall x, c_disc cf f data = Ok x -> c_disc cf f data' = Ok x) ->
  (forall memb vals row, rmap (fun v => fuzzy_set v memb vals) data = Ok row ->
     exists row', rmap (fun v => fuzzy_set v memb vals) data' = Ok row' /\ rrel row row') ->
  sim (gen_continuous_concepts cf f tg data) (gen_continuous_concepts cf f tg data').
Proof.
  intros H1 H2 g g' h R. unfold gen_continuous_concepts. set (t := if str_mem f tg then TYPE_REGRESOR else TYPE_FUZZY).
  pose proof (grel_set f _ _ g g' R (frel_refl_none (Some t))) as R1.
  destruct (c_disc cf f data) as [[[n vals] ms]|e] eqn:E; [|discriminate]. rewrite (H1 _ eq_refl).
  destruct (gen_clusters _ _ _ _ _ _ _ _ (set_feat f _ g)) as [g1 [rows|e]] eqn:E2; [|discriminate].
  destruct (sim_clusters f t vals data data' ms (fun m r => H2 m vals r) _ _ [] _ _ _ _ R1 (Forall2_nil _) E2) as (g1' & rows' & -> & R2 & R3).
  intros [= <-]. eexists. split; [reflexivity|]. apply grel_set; [exact R2|]. repeat split; auto.
Qed.
Lemma sim_gen f tg c c' : crel f c c' -> sim (gen_concepts cf tg f c) (gen_concepts cf tg f c').
Proof.
  intros (L & C1 & C2 & C3 & C4).
  pose proof (sim_discrete f tg c c' C1 C2) as D. pose proof (fun H => sim_continuous f tg _ _ C3 (C4 H)) as K.
  assert (Ed : distinct cf c = distinct cf c') by (unfold distinct; now rewrite C1).
  unfold gen_concepts. destruct c, c'; try contradiction; try exact D; rewrite <- Ed; destruct (_ && _); first [exact D|exact (K eq_refl)].
Qed.
Lemma sim_feature tg f c c' : crel f c c' -> sim (add_feature cf tg (f, c)) (add_feature cf tg (f, c')).
Proof.
  intros H g g' h R. unfold add_feature.
  apply sim_sthen; [now apply sim_gen| |apply grel_set; [exact R|apply frel_refl_none]].
  apply sim_sthen; [apply sim_inner|]. apply sim_sthen; [apply sim_mark|].
  destruct (c_featrel cf); [apply sim_all|apply sim_target].
Qed.
Definition dsrel (ds ds' : dataset F) : Prop := Forall2 (fun a b => fst a = fst b /\ crel (fst a) (snd a) (snd b)) ds ds'.
Lemma sim_build tg ds ds' s s' g g' h : dsrel ds ds' -> grel g g' -> s = s' -> build_fcm cf ds tg s g = (h, Ok tt) ->
  exists h', build_fcm cf ds' tg s' g' = (h', Ok tt) /\ grel h h'.
Proof.
  intros H R <-. unfold build_fcm. assert (R0 : grel (set_fcm s g) (set_fcm s g')) by (destruct R as (_ & R2 & R3); repeat split; auto).
  revert R0. generalize (set_fcm s g), (set_fcm s g'). clear R. induction H as [|[f c] [f' c'] ds ds' [E Hc] H IH]; intros g1 g1' R E1.
  - injection E1 as <-. exists g1'. split; [reflexivity|exact R].
  - cbn [fst snd] in *. subst f'. cbn [sfold] in *. destruct (add_feature cf tg (f, c) g1) as [g2 [u|e]] eqn:E2; [|discriminate]. destruct u.
    destruct (sim_feature tg f c c' Hc g1 g1' g2 R E2) as (g2' & -> & R2). eapply IH; eauto.
Qed.

(** ** Fitting and predicting *)
Definition erel (e e' : est F) : Prop :=
  e_map e = e_map e' /\ e_priv e = e_priv e' /\ e_proc e = e_proc e' /\ e_generated e = e_generated e' /\
  forall f, orel frel (dget (e_feats e) f) (dget (e_feats e') f).
Lemma sim_fit x y x' y' e (h : est F) : dsrel (join_frames x y) (join_frames x' y') -> dkeys y = dkeys y' ->
  fit cf x y e = (h, Ok tt) -> exists h' : est F, fit cf x' y' e = (h', Ok tt) /\ erel h h'.
Proof.
  intros H Ky. unfold fit. rewrite <- Ky. destruct (reset (e_gen e)) as [g [u|er]] eqn:Er; [|discriminate].
  set (e1 := match e_priv e with Some _ => _ | None => _ end).
  destruct (build_fcm cf (join_frames x y) (dkeys y) (e_map e1) (e_gen e1)) as [g1 [v|er]] eqn:Eb; [|discriminate]. destruct v.
  intros [= <-].
  assert (R0 : grel (e_gen e1) (e_gen e1)).
  { assert (Ef : e_feats e1 = []).
    { unfold reset, on_fcm in Er. cbn [g_fcm] in Er. destruct (clear_all _) as [s r]. injection Er as <- _. unfold e1. destruct (e_priv e); reflexivity. }
    repeat split. unfold e_gen. cbn [g_feats]. rewrite Ef. intros f. exact I. }
  destruct (sim_build (dkeys y) _ _ (e_map e1) (e_map e1) _ _ _ H R0 eq_refl Eb) as (g1' & -> & R1 & R2 & R3).
  eexists. split; [reflexivity|]. unfold e_shared. cbn [e_map e_priv e_feats e_proc e_generated]. repeat split; cbn; auto.
Qed.
(** the results are the same on both sides, in related states *)
Definition both {X} (f f' : gen F -> gen F * res X) : Prop :=
  forall g g', grel g g' -> grel (fst (f g)) (fst (f' g')) /\ snd (f g) = snd (f' g').
Lemma both_on f : both (on_fcm f) (on_fcm f).
Proof. intros g g' (R1 & R2 & R3). unfold on_fcm. rewrite <- R1. destruct (f (g_fcm g)) as [s r]. cbn. split; [|auto]. repeat split; auto. Qed.
Lemma both_ret {X} (x : res X) : both (fun g => (g, x)) (fun g => (g, x)).
Proof. intros g g' R. cbn. auto. Qed.
Lemma both_sfold {A} (f f' : A -> gen F -> gen F * res unit) l : (forall a, both (f a) (f' a)) -> both (sfold f l) (sfold f' l).
Proof.
  intros H. induction l as [|a l IH]; [apply both_ret|]. intros g g' R. cbn [sfold]. destruct (H a g g' R) as [R1 E1].
  destruct (f a g) as [g1 r1], (f' a g') as [g1' r1']. cbn [fst snd] in *. subst r1'. destruct r1; [now apply IH|now split].
Qed.
Lemma both_sthen f f' k k' : both (X := unit) f f' -> both (X := unit) k k' -> both (sthen f k) (sthen f' k').
Proof.
  intros H1 H2 g g' R. unfold sthen. destruct (H1 g g' R) as [R1 E1].
  destruct (f g) as [g1 r1], (f' g') as [g1' r1']. cbn [fst snd] in *. subst r1'. destruct r1; [now apply H2|now split].
Qed.
Lemma both_swith {A} (r r' : gen F -> res A) k k' : (forall g g', grel g g' -> r g = r' g') -> (forall a, both (X := unit) (k a) (k' a)) -> both (swith r k) (swith r' k').
Proof. intros H1 H2 g g' R. unfold swith. rewrite <- (H1 g g' R). destruct (r g); [now apply H2|now split]. Qed.
Lemma both_init f v : both (init_concept_by_feature_data cf f v) (init_concept_by_feature_data cf f v).
Proof.
  unfold init_concept_by_feature_data. intros g g' R.
  match goal with |- context [let '(_, _) := ?a g in _] => assert (G : both a a) end.
  { apply both_swith; [intros; now apply type_rel|]. intros t. destruct (_ || _).
    - apply both_swith; [intros; now apply names_rel|]. intros ns. apply both_sfold. intros n. apply both_swith; [auto|]. intros x. apply both_on.
    - apply both_swith; [auto|]. intros t'. apply both_on. }
  destruct (G g g' R) as [G1 G2].
  match goal with |- context [let '(_, _) := ?a in _] => destruct a as [g1 r1] end.
  match goal with |- context [let '(_, _) := ?a in _] => destruct a as [g2 r2] end.
  cbn [fst snd] in *. subst r2. now split.
Qed.
Lemma group_results_rel g g' st : grel g g' -> group_results cf g st = group_results cf g' st.
Proof.
  intros R. unfold group_results. generalize (@nil (string * list (string * F))). induction st as [|[c v] st IH]; intros acc; [reflexivity|].
  cbn [rfold]. destruct (get_feature_and_info cf c) as [[f i]|e]; [|reflexivity]. cbn [rbind]. rewrite (type_rel f g g' R).
  destruct (get_type g' f); [|reflexivity]. cbn [rbind]. apply IH.
Qed.
Lemma both_result : both (get_inference_result cf) (get_inference_result cf).
Proof.
  intros g g' R. unfold get_inference_result. destruct (both_on (run_inference true) g g' R) as [R1 E1].
  destruct (on_fcm _ g) as [g1 r1], (on_fcm _ g') as [g1' r1']. cbn [fst snd] in *. subst r1'. destruct r1; [|now split].
  split; [exact R1|]. cbn [snd]. pose proof R1 as (<- & _). destruct (get_final_state _ _ _); [|reflexivity]. cbn [rbind].
  now rewrite (group_results_rel g1 g1' _ R1).
Qed.
Lemma both_row r : both (predict_row cf r) (predict_row cf r).
Proof.
  intros g g' R. unfold predict_row.
  destruct (both_sthen _ _ _ _ (both_on clear_execution) (both_sfold _ _ r (fun fv => both_init (fst fv) (snd fv))) g g' R) as [R1 E1].
  destruct (sthen _ _ g) as [g1 r1], (sthen _ _ g') as [g1' r1']. cbn [fst snd] in *. subst r1'. destruct r1; [now apply both_result|now split].
Qed.
Lemma both_rows rows : forall acc, both (predict_rows cf rows acc) (predict_rows cf rows acc).
Proof.
  induction rows as [|r rows IH]; intros acc; [apply both_ret|]. intros g g' R. cbn [predict_rows]. destruct (both_row r g g' R) as [R1 E1].
  destruct (predict_row cf r g) as [g1 r1], (predict_row cf r g') as [g1' r1']. cbn [fst snd] in *. subst r1'. destruct r1; [now apply IH|now split].
Qed.
Lemma predict_rel x e e' : erel e e' -> erel (fst (predict cf x e)) (fst (predict cf x e')) /\ snd (predict cf x e) = snd (predict cf x e').
Proof.
  intros R. pose proof R as (E1 & E2 & E3 & E4 & E5). unfold predict. rewrite <- E4. destruct (e_generated e) eqn:Eg; [|now split].
  assert (G : grel (e_gen e) (e_gen e')) by (unfold e_gen; rewrite <- E1, <- E2, <- E3; repeat split; auto).
  destruct (both_rows (iterrows x) [] _ _ G) as [R1 Q1]. destruct (predict_rows _ _ _ (e_gen e)) as [g1 r1], (predict_rows _ _ _ (e_gen e')) as [g1' r1'].
  cbn [fst snd] in *. subst r1'. destruct R1 as (F1 & F2 & F3). split; [|reflexivity]. unfold e_shared. repeat split; cbn; auto. congruence.
Qed.
Lemma score_rel x y e e' : erel e e' -> snd (score cf x y e) = snd (score cf x y e').
Proof.
  intros R. pose proof R as (_ & _ & _ & E4 & _). unfold score. rewrite <- E4. destruct (e_generated e); [|reflexivity].
  destruct (predict_rel x e e' R) as [_ E]. destruct (predict cf x e) as [e1 r1], (predict cf x e') as [e1' r1']. cbn [fst snd] in *. subst r1'. reflexivity.
Qed.
End Related.
