(** EstFacts2.v — fitting again gives the same map. *)
From Verif Require Import Base BaseFacts Num Functions Fcm FcmSpec FcmBasics FcmInv FcmInv2 FcmInv3 FcmIter FcmRun FcmRun2 FcmRun3 VecSpec FcmVec FcmVec2 FcmVec3 FcmView LearnUtils Assoc Estimator AssocSpec AssocFacts AssocFacts2 AssocFacts3 AssocFacts4 EstFacts.

Section EstFacts2.
Context {F : Type} {N : Num F}.
Implicit Types (g h : gen F) (s : fcm F).
Variable cf : gconf F.

(** ** Building does the same in alike generators *)
Lemma gsame_add_concept n ct a m ex d f k : gsame (on_fcm (F := F) (add_concept n ct a m ex d f k)).
Proof. apply gsame_on, same_add_concept. Qed.
Lemma gsame_add_relation a b w : gsame (on_fcm (F := F) (add_relation a b w)).
Proof. apply gsame_on, same_add_relation. Qed.
Lemma galike_set name x g h : galike g h -> galike (set_feat name x g) (set_feat name x h).
Proof. intros (R1 & R2 & R3). unfold set_feat, galike. cbn. now rewrite R1, R2. Qed.
Ltac step_both H := let H1 := fresh "R" in let H2 := fresh "E" in destruct H as [H1 H2];
  match type of H1 with galike (fst ?a) (fst ?b) => let r := fresh "r" in let q := fresh "q" in destruct a as [? r], b as [? q]; cbn [fst snd] in H1, H2; subst q end.
Lemma gsame_cluster f t vals data ms k rows : gsame (gen_cluster cf f t vals data ms k rows).
Proof.
  intros g h R. unfold gen_cluster. destruct (lget ms k) as [memb|]; [|now split].
  pose proof (gsame_add_concept (name_concept cf f (str_of_Z (Z.of_nat k))) (Some t) (Some true) None None (Some (mkAdict true memb vals)) None [] g h R) as H.
  step_both H. destruct r; now split.
Qed.
Lemma gsame_clusters f t vals data ms ks rows : gsame (gen_clusters cf f t vals data ms ks rows).
Proof.
  revert rows. induction ks as [|k ks IH]; intros rows g h R; cbn [gen_clusters]; [now split|].
  pose proof (gsame_cluster f t vals data ms k rows g h R) as H. step_both H. destruct r; [now apply IH|now split].
Qed.
Lemma gsame_continuous f targets data : gsame (gen_continuous_concepts cf f targets data).
Proof.
  intros g h R. unfold gen_continuous_concepts. cbv zeta. set (t := if str_mem f targets then _ else _).
  assert (R1 := galike_set f (mkFeat (Some t) None None) g h R).
  destruct (c_disc cf f data) as [[[n vals] ms]|]; [|now split].
  pose proof (gsame_clusters f t vals data ms (seq 0 n) [] _ _ R1) as H. step_both H. destruct r; [|now split]. split; [|reflexivity]. now apply galike_set.
Qed.
Lemma gsame_discrete f targets c : gsame (gen_discrete_concepts cf f targets c).
Proof.
  intros g h R. unfold gen_discrete_concepts. cbv zeta. set (t := if str_mem f targets then _ else _).
  assert (R1 := galike_set f (mkFeat (Some t) None None) g h R). destruct (discrete_desc cf c) as [texts matrix].
  pose proof (gsame_sfold (fun name => on_fcm (add_concept name (Some t) (Some true) None None None None [])) (map (name_concept cf f) texts)
    (fun n => gsame_add_concept _ _ _ _ _ _ _ _) _ _ R1) as H. step_both H. destruct r; [|now split]. split; [|reflexivity]. now apply galike_set.
Qed.
Lemma gsame_concepts targets f c : gsame (gen_concepts cf targets f c).
Proof. unfold gen_concepts. destruct c; try apply gsame_discrete; (destruct (_ && _); [apply gsame_discrete|apply gsame_continuous]). Qed.
Lemma get_type_alike f g h : galike g h -> get_type g f = get_type h f.
Proof. intros (E & _). unfold get_type. now rewrite E. Qed.
Lemma get_names_alike f g h : galike g h -> get_names g f = get_names h f.
Proof. intros (E & _). unfold get_names. now rewrite E. Qed.
Lemma get_desc_alike f g h : galike g h -> get_desc g f = get_desc h f.
Proof. intros (E & _). unfold get_desc. now rewrite E. Qed.
Lemma target_alike f g h : galike g h -> is_target_concept g f = is_target_concept h f.
Proof. intros R. unfold is_target_concept. now rewrite (get_type_alike f g h R). Qed.
Lemma group_alike a b g h : galike g h -> are_same_feature_group g a b = are_same_feature_group h a b.
Proof. intros R. unfold are_same_feature_group. now rewrite (target_alike a g h R), (target_alike b g h R). Qed.
Lemma gsame_rel_pair names i j w : gsame (rel_pair (F := F) names i j w).
Proof. intros g h R. unfold rel_pair. destruct (rbind _ _) as [[a b]|]; [now apply gsame_add_relation|now split]. Qed.
Lemma gsame_inner f : gsame (def_inner_feat_relations cf f).
Proof.
  unfold def_inner_feat_relations. destruct (neqb _ _); [apply gsame_ret|].
  apply gsame_swith; [apply get_desc_alike|]. intros d. apply gsame_swith; [apply get_names_alike|]. intros ns.
  apply gsame_sfold. intros i. apply gsame_sfold. intros j. apply gsame_sthen; apply gsame_rel_pair.
Qed.
Lemma gsame_weight na i nb j sg c : gsame (def_relation_weight cf na i nb j sg c).
Proof.
  unfold def_relation_weight. apply gsame_swith; auto. intros e. destruct (nltb _ _); [|apply gsame_ret].
  apply gsame_swith; auto. intros v. cbv zeta. destruct (neqb _ _); [apply gsame_ret|].
  intros g h R. destruct (rbind _ _) as [[a b]|]; [now apply gsame_add_relation|now split].
Qed.
Lemma gsame_pair fa fb na nb da db p q : gsame (def_concept_pair cf fa fb na nb da db p q).
Proof.
  unfold def_concept_pair. apply gsame_swith; auto. intros [pq qp]. apply gsame_swith; auto. intros s1. apply gsame_swith; auto. intros s2.
  cbv zeta. destruct (c_double cf); [apply gsame_sthen; apply gsame_weight|].
  apply gsame_swith; [apply group_alike|]. intros [|].
  - apply gsame_swith; auto. intros [x y]. apply gsame_sthen; intros g h R; (destruct (nltb _ _); [now apply gsame_weight|now split]).
  - apply gsame_swith; [apply target_alike|]. intros [|]; apply gsame_weight.
Qed.
Lemma gsame_two a b : gsame (def_two_feat_relation cf a b).
Proof.
  unfold def_two_feat_relation. apply gsame_swith; [apply get_names_alike|]. intros na. apply gsame_swith; [apply get_names_alike|]. intros nb.
  apply gsame_swith; [apply get_desc_alike|]. intros da. apply gsame_swith; [apply get_desc_alike|]. intros db.
  apply gsame_sfold. intros p. apply gsame_sfold. intros q. apply gsame_pair.
Qed.
Lemma gsame_mark f : gsame (F := F) (X := unit) (fun g => (mark f g, Ok tt)).
Proof. intros g h (R1 & R2 & R3). split; [|reflexivity]. unfold mark, galike. cbn. now rewrite R1, R2. Qed.
Lemma gsame_all f : gsame (def_all_feat_relations cf f).
Proof.
  intros g h R. unfold def_all_feat_relations. assert (E : g_proc g = g_proc h) by apply R. rewrite E.
  refine (gsame_sthen _ _ _ (gsame_mark f) g h R). apply gsame_sfold. intros o. destruct (String.eqb o f); [apply gsame_ret|apply gsame_two].
Qed.
Lemma gsame_target f : gsame (def_feat_target_relation cf f).
Proof.
  intros g h R. unfold def_feat_target_relation. assert (E : g_proc g = g_proc h) by apply R. rewrite E.
  refine (gsame_sthen _ _ _ (gsame_mark f) g h R). apply gsame_sfold. intros o. destruct (String.eqb o f); [apply gsame_ret|].
  apply gsame_swith; [apply group_alike|]. intros [|]; [apply gsame_ret|apply gsame_two].
Qed.
Lemma gsame_feature targets fc : gsame (add_feature cf targets fc).
Proof.
  intros g h R. destruct fc as [f c]. unfold add_feature. cbv zeta.
  refine (gsame_sthen _ _ (gsame_concepts targets f c) _ _ _ (galike_set f _ g h R)).
  apply gsame_sthen; [apply gsame_inner|]. apply gsame_sthen; [apply gsame_mark|].
  intros g' h' R'. destruct (c_featrel cf); [now apply gsame_all|now apply gsame_target].
Qed.
Lemma gsame_build ds targets s t g h : g_feats g = g_feats h -> g_proc g = g_proc h -> alike s t ->
  gboth (build_fcm cf ds targets s g) (build_fcm cf ds targets t h).
Proof.
  intros E1 E2 A. unfold build_fcm. apply gsame_sfold; [intros; apply gsame_feature|]. repeat split; auto.
Qed.

(** ** Building is a sequence of additions of concepts and relations *)
Definition keeps {X} (f : gen F -> gen F * res X) : Prop := forall g, exists ops, forallb is_building ops = true /\
  g_fcm (fst (f g)) = run_ops ops (g_fcm g) /\ (forall x, snd (f g) = Ok x -> ok_when is_add_concept ops (g_fcm g)).
Lemma keeps_here {X} (f : gen F -> gen F * res X) g : g_fcm (fst (f g)) = g_fcm g -> exists ops, forallb is_building ops = true /\
  g_fcm (fst (f g)) = run_ops ops (g_fcm g) /\ (forall x, snd (f g) = Ok x -> ok_when is_add_concept ops (g_fcm g)).
Proof. intros H. exists []. repeat split; auto. Qed.
Lemma keeps_next {X} (ops : list (op F)) s (y : gen F * res X) : forallb is_building ops = true -> ok_when is_add_concept ops s ->
  (exists ops', forallb is_building ops' = true /\ g_fcm (fst y) = run_ops ops' (run_ops ops s) /\ (forall x, snd y = Ok x -> ok_when is_add_concept ops' (run_ops ops s))) ->
  exists ops', forallb is_building ops' = true /\ g_fcm (fst y) = run_ops ops' s /\ (forall x, snd y = Ok x -> ok_when is_add_concept ops' s).
Proof.
  intros H1 H2 (ops' & H3 & H4 & H5). exists (ops ++ ops'). rewrite forallb_app, H1, H3, run_ops_app. repeat split; auto.
  intros x Hx. apply ok_when_app. eauto.
Qed.
Lemma keeps_sfold {A} (f : A -> gen F -> gen F * res unit) l : (forall a, keeps (f a)) -> keeps (sfold f l).
Proof.
  intros H. induction l as [|a l IH]; intros g; cbn [sfold]; [exists []; repeat split; auto|].
  destruct (H a g) as (ops & B & E & O). destruct (f a g) as [g1 [u|x]]; cbn [fst snd] in *.
  - apply (keeps_next ops); eauto. rewrite <- E. apply IH.
  - exists ops. repeat split; auto; discriminate.
Qed.
Lemma keeps_sthen f k : keeps (X := unit) f -> keeps (X := unit) k -> keeps (sthen f k).
Proof.
  intros H1 H2 g. unfold sthen. destruct (H1 g) as (ops & B & E & O). destruct (f g) as [g1 [u|x]]; cbn [fst snd] in *.
  - apply (keeps_next ops); eauto. rewrite <- E. apply H2.
  - exists ops. repeat split; auto; discriminate.
Qed.
Lemma keeps_swith {A} (r : gen F -> res A) k : (forall a, keeps (X := unit) (k a)) -> keeps (swith r k).
Proof. intros H g. unfold swith. destruct (r g); [apply H|exists []; repeat split; auto]. Qed.
Lemma keeps_op o : is_building o = true -> keeps (on_fcm (step (F := F) o)).
Proof.
  intros H g. unfold on_fcm. exists [o]. cbn. rewrite H. destruct (step o (g_fcm g)) as [s1 r]. cbn. repeat split; auto. intros _.
  destruct x; auto. 
Qed.
Lemma keeps_ret {X} (x : res X) : keeps (fun g => (g, x)). Proof. intros g. exists []. repeat split; auto. Qed.
Lemma keeps_add_concept n ct a m ex d f k : keeps (on_fcm (F := F) (add_concept n ct a m ex d f k)).
Proof. exact (keeps_op (OpAddConcept n ct a m ex d f k) eq_refl). Qed.
Lemma keeps_add_relation a b w : keeps (on_fcm (F := F) (add_relation a b w)).
Proof. exact (keeps_op (OpAddRelation a b w) eq_refl). Qed.
Lemma keeps_cluster f t vals data ms k rows : keeps (gen_cluster cf f t vals data ms k rows).
Proof.
  intros g. unfold gen_cluster. destruct (lget ms k) as [memb|]; [|exists []; repeat split; auto; discriminate].
  destruct (keeps_add_concept (name_concept cf f (str_of_Z (Z.of_nat k))) (Some t) (Some true) None None (Some (mkAdict true memb vals)) None [] g) as (ops & B & E & O).
  destruct (on_fcm _ g) as [g1 [u|x]]; exists ops; cbn [fst snd] in *; repeat split; auto; [eauto|discriminate].
Qed.
Lemma keeps_clusters f t vals data ms ks rows : keeps (gen_clusters cf f t vals data ms ks rows).
Proof.
  revert rows. induction ks as [|k ks IH]; intros rows g; cbn [gen_clusters]; [exists []; repeat split; auto|].
  destruct (keeps_cluster f t vals data ms k rows g) as (ops & B & E & O). destruct (gen_cluster cf f t vals data ms k rows g) as [g1 [u|x]]; cbn [fst snd] in *.
  - apply (keeps_next ops); eauto. rewrite <- E. apply IH.
  - exists ops. repeat split; auto; discriminate.
Qed.
Lemma keeps_concepts targets f c : keeps (gen_concepts cf targets f c).
Proof.
  assert (D : keeps (gen_discrete_concepts cf f targets c)).
  { intros g. unfold gen_discrete_concepts. cbv zeta. destruct (discrete_desc cf c) as [texts matrix]. set (t := if str_mem f targets then _ else _).
    destruct (keeps_sfold (fun name => on_fcm (add_concept name (Some t) (Some true) None None None None [])) (map (name_concept cf f) texts)
      (fun n => keeps_add_concept _ _ _ _ _ _ _ _) (set_feat f (mkFeat (Some t) None None) g)) as (ops & B & E & O).
    destruct (sfold _ _ _) as [g1 [u|x]]; exists ops; cbn [fst snd] in *; repeat split; eauto; discriminate. }
  assert (C : forall data, keeps (gen_continuous_concepts cf f targets data)).
  { intros data g. unfold gen_continuous_concepts. cbv zeta. set (t := if str_mem f targets then _ else _).
    destruct (c_disc cf f data) as [[[n vals] ms]|]; [|exists []; repeat split; auto; discriminate].
    destruct (keeps_clusters f t vals data ms (seq 0 n) [] (set_feat f (mkFeat (Some t) None None) g)) as (ops & B & E & O).
    destruct (gen_clusters _ _ _ _ _ _ _ _ _) as [g1 [u|x]]; exists ops; cbn [fst snd] in *; repeat split; eauto; discriminate. }
  unfold gen_concepts. destruct c; auto; (destruct (_ && _); [apply D|apply C]).
Qed.
Lemma keeps_weight na i nb j sg c : keeps (def_relation_weight cf na i nb j sg c).
Proof.
  unfold def_relation_weight. apply keeps_swith. intros e. destruct (nltb _ _); [|apply keeps_ret].
  apply keeps_swith. intros v. cbv zeta. destruct (neqb _ _); [apply keeps_ret|].
  intros g. destruct (rbind _ _) as [[a b]|]; [apply keeps_add_relation|exists []; repeat split; auto; discriminate].
Qed.
Lemma keeps_two a b : keeps (def_two_feat_relation cf a b).
Proof.
  unfold def_two_feat_relation. repeat (apply keeps_swith; intros ?). apply keeps_sfold. intros p. apply keeps_sfold. intros q.
  unfold def_concept_pair. apply keeps_swith. intros [pq qp]. repeat (apply keeps_swith; intros ?).
  cbv zeta. destruct (c_double cf); [apply keeps_sthen; apply keeps_weight|].
  apply keeps_swith. intros [|].
  - apply keeps_swith. intros [x y]. apply keeps_sthen; intros g; (destruct (nltb _ _); [apply keeps_weight|exists []; repeat split; auto; discriminate]).
  - apply keeps_swith. intros [|]; apply keeps_weight.
Qed.
Lemma keeps_feature targets fc : keeps (add_feature cf targets fc).
Proof.
  intros g. destruct fc as [f c]. unfold add_feature. cbv zeta.
  match goal with |- exists ops, _ /\ g_fcm (fst (?a ?b)) = _ /\ _ => assert (K : keeps a) end.
  { apply keeps_sthen; [apply keeps_concepts|]. apply keeps_sthen.
    - unfold def_inner_feat_relations. destruct (neqb _ _); [apply keeps_ret|]. repeat (apply keeps_swith; intros ?).
      apply keeps_sfold. intros i. apply keeps_sfold. intros j.
      assert (P : forall i j, keeps (rel_pair a0 i j (c_excl cf))).
      { intros i' j' g'. unfold rel_pair. destruct (rbind _ _) as [[? ?]|]; [apply keeps_add_relation|exists []; repeat split; auto; discriminate]. }
      apply keeps_sthen; apply P.
    - apply keeps_sthen; [intros g'; exists []; repeat split; auto|].
      intros g'. destruct (c_featrel cf).
      + unfold def_all_feat_relations. apply keeps_sthen; [|intros g''; exists []; repeat split; auto].
        apply keeps_sfold. intros o. destruct (String.eqb o f); [apply keeps_ret|apply keeps_two].
      + unfold def_feat_target_relation. apply keeps_sthen; [|intros g''; exists []; repeat split; auto].
        apply keeps_sfold. intros o. destruct (String.eqb o f); [apply keeps_ret|].
        apply keeps_swith. intros [|]; [apply keeps_ret|apply keeps_two]. }
  apply (K (set_feat f _ g)).
Qed.
Lemma build_keeps ds targets s g : exists ops, forallb is_building ops = true /\
  g_fcm (fst (build_fcm cf ds targets s g)) = run_ops ops s /\
  (forall x, snd (build_fcm cf ds targets s g) = Ok x -> ok_when is_add_concept ops s).
Proof. unfold build_fcm. apply (keeps_sfold _ ds (fun fc => keeps_feature targets fc) (set_fcm s g)). Qed.
End EstFacts2.
