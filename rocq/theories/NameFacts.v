(** NameFacts.v — fitting and predicting with other names of features and values (C106). *)
From Verif Require Import Base BaseFacts Num Functions Fcm FcmSpec FcmBasics FcmInv FcmInv2 FcmInv3 LoaderSpec LoaderFacts LearnUtils LearnSpec LearnFacts Assoc Estimator EstSpec AssocSpec AssocFacts AssocFacts2 AssocFacts3 AssocFacts4
  AssocNames AssocNames2 EstFacts EstFacts2 EstFacts3 EstFacts4 AssocGen AssocPredict FcmRename.

Section Names.
Context {F : Type} {N : Num F}.
Variable cf : gconf F.
Hypothesis Hsep : c_sep cf = "___".
Variable phi : string -> string.
Variable psi : string -> string -> string.
Hypothesis phi_inj : forall a b, phi a = phi b -> a = b.
Hypothesis psi_inj : forall f a b, psi f a = psi f b -> a = b.
Hypothesis phi_clean : forall f, ~ occurs "___" f -> ~ occurs "___" (phi f).
Hypothesis psi_readable : forall f v, readable v -> readable (psi f v).
Variable ord' : list string -> list string.
Variable disc' : string -> list F -> res (nat * list F * list (list F)).
Hypothesis Hord : forall l, ord' (map phi l) = map phi (c_ord cf l).
Hypothesis Hdisc : forall f data, disc' (phi f) data = c_disc cf f data.
Definition oconf : gconf F :=
  mkGconf (c_sep cf) (c_excl cf) (c_double cf) (c_featrel cf) (c_caus cf) (c_eval cf) (c_thr cf) (c_sign cf) (c_signcut cf) (c_infer cf) (c_fstr cf) (c_trunc cf) ord' disc'.

(** ** The names of the concepts *)
Definition full (f v : string) : string := append v (append "___" f).
Definition rho (c : string) : string :=
  match get_feature_and_info cf c with
  | Ok (f, v) => if String.eqb c (full f v) then full (phi f) (psi f v) else c
  | Err _ => c
  end.
Lemma rho_full f v : readable v -> ~ occurs "___" f -> rho (full f v) = full (phi f) (psi f v).
Proof. intros Hv Hf. unfold rho, full. rewrite (info_name cf Hsep f v Hv Hf). now rewrite String.eqb_refl. Qed.
Lemma rho_cases c : (exists f v, c = full f v /\ readable v /\ ~ occurs "___" f) \/
  (rho c = c /\ forall f v, readable v -> ~ occurs "___" f -> c <> full f v).
Proof.
  destruct (get_feature_and_info cf c) as [[f v]|e] eqn:E.
  - destruct (String.eqb_spec c (full f v)) as [Ec|Ec].
    + left. exists f, v. split; auto. rewrite Ec in E. now apply (info_only cf Hsep).
    + right. unfold rho. rewrite E. replace (String.eqb c (full f v)) with false by (symmetry; now apply String.eqb_neq). split; auto.
      intros f' v' Hv Hf Ec'. unfold full in Ec'. rewrite Ec', (info_name cf Hsep f' v' Hv Hf) in E. injection E as <- <-. now apply Ec.
  - right. unfold rho. rewrite E. split; auto. intros f' v' Hv Hf Ec'. unfold full in Ec'. rewrite Ec', (info_name cf Hsep f' v' Hv Hf) in E. discriminate.
Qed.
Lemma rho_inj a b : rho a = rho b -> a = b.
Proof.
  intros H. destruct (rho_cases a) as [(f & v & -> & Hv & Hf)|[Ea Na]], (rho_cases b) as [(f' & v' & -> & Hv' & Hf')|[Eb Nb]].
  - rewrite !rho_full in H by auto. unfold full in H. apply (name_inj cf Hsep) in H as [H1 H2]; auto. apply phi_inj in H1. subst f'. apply psi_inj in H2. now subst.
  - rewrite rho_full, Eb in H by auto. exfalso. apply (Nb (phi f) (psi f v)); auto.
  - rewrite rho_full, Ea in H by auto. exfalso. apply (Na (phi f') (psi f' v')); auto.
  - congruence.
Qed.
Lemma name_full f v : name_concept cf f v = full f v.
Proof. unfold name_concept, full. now rewrite Hsep. Qed.
Lemma name_full' f v : name_concept oconf f v = full f v.
Proof. unfold name_concept, full. cbn. now rewrite Hsep. Qed.

(** ** The generator *)
Definition rfeat (ft : feat F) : feat F := mkFeat (f_type ft) (option_map (map rho) (f_names ft)) (f_desc ft).
Definition rfeats (d : dict (feat F)) : dict (feat F) := ren_dict phi (fun _ => rfeat) d.
Definition rens (s : fcm F) : fcm F := ren rho same s.
Definition reng (g : gen F) : gen F := mkGen (rfeats (g_feats g)) (map phi (g_proc g)) (rens (g_fcm g)).
Definition gkin {X} (Q : X -> X -> Prop) (p p' : gen F * res X) : Prop := fst p' = reng (fst p) /\ same_res Q (snd p) (snd p').
Definition mov (f f' : gen F -> gen F * res unit) : Prop := forall g, gkin eq (f g) (f' (reng g)).
Lemma gkin_ret {X} (Q : X -> X -> Prop) (g : gen F) (r r' : res X) : same_res Q r r' -> gkin Q (g, r) (reng g, r').
Proof. intros H. split; [reflexivity|exact H]. Qed.
Lemma mov_ret r : mov (fun g => (g, r)) (fun g => (g, r)).
Proof. intros g. apply gkin_ret. now apply same_res_refl. Qed.
Lemma mov_on f f' : (forall s, kin rho same (f s) (f' (rens s))) -> mov (on_fcm f) (on_fcm f').
Proof.
  intros H g. unfold on_fcm. destruct (H (g_fcm g)) as [E S]. cbn [reng g_fcm]. destruct (f (g_fcm g)) as [s r], (f' (rens (g_fcm g))) as [s' r']. cbn in E, S. subst s'. split; auto.
Qed.
Lemma mov_sfold {A B} (j : A -> B) (f : A -> gen F -> gen F * res unit) (f' : B -> gen F -> gen F * res unit) l :
  (forall a, In a l -> mov (f a) (f' (j a))) -> mov (sfold f l) (sfold f' (map j l)).
Proof.
  induction l as [|a l IH]; intros H g; [apply gkin_ret; reflexivity|]. cbn [sfold map]. destruct (H a (or_introl eq_refl) g) as [E S].
  destruct (f a g) as [g1 [u|e]], (f' (j a) (reng g)) as [g2 [u'|e']]; cbn in E, S; try contradiction; subst g2; [apply IH; intros; apply H; now right|split; auto].
Qed.
Lemma mov_sfold_id {A} (f f' : A -> gen F -> gen F * res unit) l : (forall a, mov (f a) (f' a)) -> mov (sfold f l) (sfold f' l).
Proof. intros H. rewrite <- (map_id l) at 2. apply (mov_sfold (fun a => a)). auto. Qed.
Lemma mov_sthen f f' k k' : mov f f' -> mov k k' -> mov (sthen f k) (sthen f' k').
Proof.
  intros H K g. unfold sthen. destruct (H g) as [E S].
  destruct (f g) as [g1 [u|e]], (f' (reng g)) as [g2 [u'|e']]; cbn in E, S; try contradiction; subst g2; [apply K|split; auto].
Qed.
Lemma mov_swith {A} (Q : A -> A -> Prop) (r r' : gen F -> res A) k k' : (forall g, same_res Q (r g) (r' (reng g))) -> (forall a a', Q a a' -> mov (k a) (k' a')) -> mov (swith r k) (swith r' k').
Proof.
  intros H K g. unfold swith. specialize (H g). destruct (r g) as [a|e], (r' (reng g)) as [a'|e']; cbn in H; try contradiction; [now apply K|now apply gkin_ret].
Qed.
Lemma mov_swith_eq {A} (r r' : gen F -> res A) k k' : (forall g, r' (reng g) = r g) -> (forall a, mov (k a) (k' a)) -> mov (swith r k) (swith r' k').
Proof. intros H K. apply (mov_swith eq); [intros g; rewrite H; now apply same_res_refl|now intros a a' <-]. Qed.
Lemma feats_get g f : dget (g_feats (reng g)) (phi f) = option_map rfeat (dget (g_feats g) f).
Proof. apply (dget_ren phi phi_inj (fun _ => rfeat)). Qed.
Lemma set_feat_ren f ft g : set_feat (phi f) (rfeat ft) (reng g) = reng (set_feat f ft g).
Proof. unfold set_feat, reng. cbn. f_equal. apply (dset_ren phi phi_inj (fun _ => rfeat)). Qed.
Lemma type_ren g f : same_res eq (get_type g f) (get_type (reng g) (phi f)).
Proof. unfold get_type, dget_exn. rewrite feats_get. destruct (dget (g_feats g) f) as [ft|]; cbn; [apply same_oget|exact I]. Qed.
Lemma desc_ren g f : same_res eq (get_desc g f) (get_desc (reng g) (phi f)).
Proof. unfold get_desc, dget_exn. rewrite feats_get. destruct (dget (g_feats g) f) as [ft|]; cbn; [apply same_oget|exact I]. Qed.
Definition named (a a' : list string) : Prop := a' = map rho a.
Lemma names_ren g f : same_res named (get_names g f) (get_names (reng g) (phi f)).
Proof. unfold get_names, dget_exn. rewrite feats_get. destruct (dget (g_feats g) f) as [ft|]; cbn; [|exact I]. destruct (f_names ft); cbn; [reflexivity|exact I]. Qed.
Lemma lget_map {A B} (h : A -> B) l i : lget (map h l) i = (a <- lget l i ;; Ok (h a))%res.
Proof. unfold lget. rewrite nth_error_map. now destruct (nth_error l i). Qed.
Lemma mov_relation a c w : mov (on_fcm (add_relation a c w)) (on_fcm (add_relation (rho a) (rho c) w)).
Proof. apply mov_on. intros s. apply (add_relation_ren rho rho_inj a c w s). Qed.
Lemma mov_two_names na nb i j w : mov (fun g => match (a <- lget na i ;; b <- lget nb j ;; Ok (a, b))%res with Err e => (g, Err e) | Ok (a, b) => on_fcm (add_relation a b w) g end)
  (fun g => match (a <- lget (map rho na) i ;; b <- lget (map rho nb) j ;; Ok (a, b))%res with Err e => (g, Err e) | Ok (a, b) => on_fcm (add_relation a b w) g end).
Proof.
  intros g. rewrite !lget_map. destruct (lget na i) as [a|e]; cbn [rbind]; [|apply gkin_ret; cbn; apply same_exn_refl].
  destruct (lget nb j) as [b|e]; cbn [rbind]; [apply mov_relation|apply gkin_ret; cbn; apply same_exn_refl].
Qed.
Lemma mov_inner f : mov (def_inner_feat_relations cf f) (def_inner_feat_relations oconf (phi f)).
Proof.
  intros g. unfold def_inner_feat_relations. change (c_excl oconf) with (c_excl cf). destruct (neqb _ _); [apply gkin_ret; reflexivity|].
  apply (mov_swith eq); [intros; apply desc_ren|]. intros d ? <-. apply (mov_swith named); [intros; apply names_ren|]. intros ns ? ->. cbv zeta.
  apply mov_sfold_id. intros i. apply mov_sfold_id. intros j. apply mov_sthen; apply mov_two_names.
Qed.
Lemma mov_weight na pa nb pb s c : mov (def_relation_weight cf na pa nb pb s c) (def_relation_weight oconf (map rho na) pa (map rho nb) pb s c).
Proof.
  intros g. unfold def_relation_weight. apply mov_swith_eq; [reflexivity|]. intros e. change (c_thr oconf) with (c_thr cf). destruct (nltb _ _); [|apply mov_ret].
  apply mov_swith_eq; [reflexivity|]. intros v. cbv zeta. destruct (neqb _ _); [apply mov_ret|]. apply mov_two_names.
Qed.
Lemma target_ren g f : same_res eq (is_target_concept g f) (is_target_concept (reng g) (phi f)).
Proof. unfold is_target_concept. apply (same_bind _ _ _ _ _ _ (type_ren g f)). intros t ? <-. reflexivity. Qed.
Lemma group_ren g f h : same_res eq (are_same_feature_group g f h) (are_same_feature_group (reng g) (phi f) (phi h)).
Proof. unfold are_same_feature_group. apply (same_bind _ _ _ _ _ _ (target_ren g f)). intros t ? <-. apply (same_bind _ _ _ _ _ _ (target_ren g h)). intros t' ? <-. reflexivity. Qed.
Lemma mov_pair fa fb na nb da db p q : mov (def_concept_pair cf fa fb na nb da db p q) (def_concept_pair oconf (phi fa) (phi fb) (map rho na) (map rho nb) da db p q).
Proof.
  intros g. unfold def_concept_pair. apply mov_swith_eq; [reflexivity|]. intros [pq qp].
  apply mov_swith_eq; [reflexivity|]. intros s1. apply mov_swith_eq; [reflexivity|]. intros s2. cbv zeta. change (c_double oconf) with (c_double cf).
  destruct (c_double cf); [apply mov_sthen; apply mov_weight|].
  apply (mov_swith eq); [intros; apply group_ren|]. intros b ? <-. destruct b.
  - apply mov_swith_eq; [reflexivity|]. intros [x y]. apply mov_sthen; destruct (nltb _ _); first [apply mov_ret|apply mov_weight].
  - apply (mov_swith eq); [intros; apply target_ren|]. intros b ? <-. destruct b; apply mov_weight.
Qed.
Lemma mov_two fa fb : mov (def_two_feat_relation cf fa fb) (def_two_feat_relation oconf (phi fa) (phi fb)).
Proof.
  intros g. unfold def_two_feat_relation. apply (mov_swith named); [intros; apply names_ren|]. intros na ? ->. apply (mov_swith named); [intros; apply names_ren|]. intros nb ? ->.
  apply (mov_swith eq); [intros; apply desc_ren|]. intros d1 ? <-. apply (mov_swith eq); [intros; apply desc_ren|]. intros d2 ? <-.
  rewrite !map_length. apply mov_sfold_id. intros p. apply mov_sfold_id. intros q. apply mov_pair.
Qed.
Lemma mov_mark f : mov (fun g => (mark f g, Ok tt)) (fun g => (mark (phi f) g, Ok tt)).
Proof.
  intros g. split; [|reflexivity]. cbn [fst]. unfold mark, reng. cbn [g_feats g_proc g_fcm]. f_equal. rewrite (str_mem_ren phi phi_inj). destruct (str_mem f (g_proc g)); [reflexivity|]. now rewrite map_app.
Qed.
Lemma mov_all f : mov (def_all_feat_relations cf f) (def_all_feat_relations oconf (phi f)).
Proof.
  intros g. unfold def_all_feat_relations. change (c_ord oconf (g_proc (reng g))) with (ord' (map phi (g_proc g))). rewrite Hord.
  apply mov_sthen; [|apply mov_mark]. apply mov_sfold. intros o _. rewrite (rho_eqb phi phi_inj). destruct (String.eqb o f); [apply mov_ret|apply mov_two].
Qed.
Lemma mov_target f : mov (def_feat_target_relation cf f) (def_feat_target_relation oconf (phi f)).
Proof.
  intros g. unfold def_feat_target_relation. change (c_ord oconf (g_proc (reng g))) with (ord' (map phi (g_proc g))). rewrite Hord.
  apply mov_sthen; [|apply mov_mark]. apply mov_sfold. intros o _. rewrite (rho_eqb phi phi_inj). destruct (String.eqb o f); [apply mov_ret|].
  apply (mov_swith eq); [intros; apply group_ren|]. intros b ? <-. destruct b; [apply mov_ret|apply mov_two].
Qed.

(** ** Concepts *)
Definition rcol (r : string -> string) (c : column F) : column F := match c with ColStr l => ColStr (map r l) | _ => c end.
(** names of a column's values may change if they are texts, keeping their order *)
Definition fitting (f : string) (c : column F) : Prop :=
  match c with
  | ColStr l => forall a b, In a l -> In b l -> str_leb (psi f a) (psi f b) = str_leb a b
  | _ => forall v, psi f v = v
  end.
Lemma uinsert_map f a l : (forall b, In b l -> str_leb (psi f a) (psi f b) = str_leb a b) ->
  uinsert str_leb String.eqb (psi f a) (map (psi f) l) = map (psi f) (uinsert str_leb String.eqb a l).
Proof.
  induction l as [|b l IH]; intros H; [reflexivity|]. cbn [map uinsert]. rewrite (rho_eqb (psi f) (psi_inj f)). destruct (String.eqb a b); [reflexivity|].
  rewrite (H b (or_introl eq_refl)). destruct (str_leb a b); [reflexivity|]. cbn [map]. f_equal. apply IH. intros; apply H; now right.
Qed.
Lemma uinsert_in (a b : string) l : In b (uinsert str_leb String.eqb a l) -> b = a \/ In b l.
Proof.
  induction l as [|c l IH]; cbn; [intuition|]. destruct (String.eqb a c); [intuition|]. destruct (str_leb a c); cbn; intuition.
Qed.
Lemma unique_in (b : string) l : In b (unique str_leb String.eqb l) -> In b l.
Proof. induction l as [|a l IH]; [easy|]. cbn. intros H. apply uinsert_in in H as [->|H]; auto. Qed.
Lemma unique_map f l : (forall a b, In a l -> In b l -> str_leb (psi f a) (psi f b) = str_leb a b) ->
  unique str_leb String.eqb (map (psi f) l) = map (psi f) (unique str_leb String.eqb l).
Proof.
  induction l as [|a l IH]; intros H; [reflexivity|]. cbn [map unique fold_right]. fold (unique str_leb String.eqb (map (psi f) l)). fold (unique str_leb String.eqb l).
  rewrite IH by (intros; apply H; now right). apply uinsert_map. intros b Hb. apply H; [now left|right; now apply unique_in].
Qed.
Lemma desc_rcol f c : fitting f c -> discrete_desc oconf (rcol (psi f) c) = (map (psi f) (fst (discrete_desc cf c)), snd (discrete_desc cf c)).
Proof.
  destruct c as [l|l|l|l]; cbn [fitting rcol discrete_desc fst snd]; intros H.
  - rewrite (unique_map f l H). f_equal. unfold gen_discrete_feature_matrix. rewrite map_map. apply map_ext. intros u. rewrite map_map. apply map_ext. intros v. now rewrite (rho_eqb (psi f) (psi_inj f)).
  - now rewrite (map_ext _ _ H), map_id.
  - now rewrite (map_ext _ _ H), map_id.
  - now rewrite (map_ext _ _ H), map_id.
Qed.
Lemma texts_readable c : readable_values cf c -> Forall readable (fst (discrete_desc cf c)).
Proof.
  destruct c as [l|l|l|l]; cbn [readable_values discrete_desc fst]; intros H.
  - apply Forall_forall. intros t Ht. rewrite Forall_forall in H. apply H. now apply unique_in.
  - apply Forall_forall. intros t Ht. apply in_map_iff in Ht as (b & <- & _). apply bool_readable.
  - apply Forall_forall. intros t Ht. apply in_map_iff in Ht as (b & <- & _). apply int_readable.
  - tauto.
Qed.
Lemma names_map f ts : ~ occurs "___" f -> Forall readable ts -> map (name_concept oconf (phi f)) (map (psi f) ts) = map rho (map (name_concept cf f) ts).
Proof. intros Hf H. rewrite !map_map. apply map_ext_in. intros t Ht. rewrite Forall_forall in H. rewrite name_full, name_full', rho_full; auto. Qed.
Lemma mem_phi f tg : str_mem (phi f) (map phi tg) = str_mem f tg.
Proof. apply (str_mem_ren phi phi_inj). Qed.
Lemma mov_discrete f tg c : ~ occurs "___" f -> readable_values cf c -> fitting f c ->
  mov (gen_discrete_concepts cf f tg c) (gen_discrete_concepts oconf (phi f) (map phi tg) (rcol (psi f) c)).
Proof.
  intros Hf Hr Hc g. unfold gen_discrete_concepts. rewrite (desc_rcol f c Hc). pose proof (texts_readable c Hr) as Ht. destruct (discrete_desc cf c) as [tx m]. cbn [fst snd] in *.
  rewrite mem_phi. set (t := if str_mem f tg then TYPE_DECISION else TYPE_SIMPLE). rewrite (names_map f tx Hf Ht), map_length.
  set (ns := map (name_concept cf f) tx).
  assert (K : mov (sfold (fun name => on_fcm (add_concept name (Some t) (Some true) None None None None [])) ns)
                  (sfold (fun name => on_fcm (add_concept name (Some t) (Some true) None None None None [])) (map rho ns))).
  { apply mov_sfold. intros name _. apply mov_on. intros s. apply (add_concept_ren rho rho_inj). }
  change (mkFeat (Some t) None None) with (rfeat (mkFeat (Some t) None None)) at 2. rewrite set_feat_ren.
  destruct (K (set_feat f (mkFeat (Some t) None None) g)) as [E S].
  destruct (sfold _ ns (set_feat f _ g)) as [g1 [u|e]], (sfold _ (map rho ns) (reng _)) as [g2 [u'|e']]; cbn in E, S; try contradiction; subst g2; [|split; auto].
  split; [|reflexivity]. cbn [fst]. rewrite <- set_feat_ren. reflexivity.
Qed.
Lemma mov_clusters f t vals data ms : ~ occurs "___" f -> (forall v, psi f v = v) ->
  forall ks rows g, gkin eq (gen_clusters cf f t vals data ms ks rows g) (gen_clusters oconf (phi f) t vals data ms ks rows (reng g)).
Proof.
  intros Hf Hp. induction ks as [|k ks IH]; intros rows g; cbn [gen_clusters]; [apply gkin_ret; reflexivity|]. unfold gen_cluster.
  destruct (lget ms k) as [memb|e]; [|apply gkin_ret; cbn; apply same_exn_refl].
  set (nm := name_concept cf f (str_of_Z (Z.of_nat k))).
  assert (En : name_concept oconf (phi f) (str_of_Z (Z.of_nat k)) = rho nm).
  { unfold nm. rewrite name_full, name_full', rho_full; auto; [now rewrite Hp|apply int_readable]. }
  rewrite En.
  assert (K : mov (on_fcm (add_concept nm (Some t) (Some true) None None (Some (mkAdict true memb vals)) None [])) (on_fcm (add_concept (rho nm) (Some t) (Some true) None None (Some (mkAdict true memb vals)) None []))).
  { apply mov_on. intros s. apply (add_concept_ren rho rho_inj). }
  destruct (K g) as [E S].
  destruct (on_fcm (add_concept nm _ _ _ _ _ _ _) g) as [g1 [u|e]], (on_fcm _ (reng g)) as [g2 [u'|e']]; cbn in E, S; try contradiction; subst g2; [|split; auto].
  destruct (rmap _ data) as [row|e]; cbn [rbind]; [apply IH|apply gkin_ret; cbn; apply same_exn_refl].
Qed.
Lemma mov_continuous f tg data : ~ occurs "___" f -> (forall v, psi f v = v) -> mov (gen_continuous_concepts cf f tg data) (gen_continuous_concepts oconf (phi f) (map phi tg) data).
Proof.
  intros Hf Hp g. unfold gen_continuous_concepts. rewrite mem_phi. set (t := if str_mem f tg then TYPE_REGRESOR else TYPE_FUZZY).
  change (c_disc oconf (phi f) data) with (disc' (phi f) data). rewrite Hdisc.
  change (mkFeat (Some t) None None) with (rfeat (mkFeat (Some t) None None)) at 3 4. rewrite set_feat_ren.
  destruct (c_disc cf f data) as [[[n vals] ms]|e]; [|apply gkin_ret; cbn; apply same_exn_refl].
  destruct (mov_clusters f t vals data ms Hf Hp (seq 0 n) [] (set_feat f (mkFeat (Some t) None None) g)) as [E S].
  destruct (gen_clusters cf f t vals data ms (seq 0 n) [] _) as [g1 [u|e]], (gen_clusters oconf (phi f) t vals _ ms (seq 0 n) [] _) as [g2 [u'|e']]; cbn in E, S; try contradiction; subst g2; [|split; auto].
  subst u'. split; [|reflexivity]. cbn [fst]. rewrite <- set_feat_ren. unfold rfeat. cbn [f_type f_names f_desc option_map]. do 3 f_equal. rewrite map_map. apply map_ext. intros k.
  rewrite name_full, name_full', rho_full; auto; [now rewrite Hp|apply int_readable].
Qed.
Definition nameable (fc : string * column F) : Prop := ~ occurs "___" (fst fc) /\ readable_values cf (snd fc) /\ fitting (fst fc) (snd fc).
Lemma mov_gen f tg c : nameable (f, c) -> mov (gen_concepts cf tg f c) (gen_concepts oconf (map phi tg) (phi f) (rcol (psi f) c)).
Proof.
  intros (Hf & Hr & Hc) g. cbn [fst snd] in *. unfold gen_concepts. destruct c as [l|l|l|l]; cbn [rcol].
  - apply (mov_discrete f tg (ColStr l)); auto.
  - apply (mov_discrete f tg (ColBool l)); auto.
  - change (distinct oconf (ColInt l)) with (distinct cf (ColInt l)). change (c_infer oconf) with (c_infer cf). destruct (_ && _); [apply (mov_discrete f tg (ColInt l)); auto|apply mov_continuous; auto].
  - change (distinct oconf (ColFlt l)) with (distinct cf (ColFlt l)). change (c_infer oconf) with (c_infer cf). destruct (_ && _); [apply (mov_discrete f tg (ColFlt l)); auto|apply mov_continuous; auto].
Qed.
Definition rname (fc : string * column F) : string * column F := (phi (fst fc), rcol (psi (fst fc)) (snd fc)).
Lemma mov_feature tg fc : nameable fc -> mov (add_feature cf tg fc) (add_feature oconf (map phi tg) (rname fc)).
Proof.
  destruct fc as [f c]. intros H g. unfold add_feature. cbn [rname fst snd].
  cbv zeta. pose proof (set_feat_ren f (mkFeat None None None) g) as Es. unfold rfeat in Es. cbn [f_type f_names f_desc option_map] in Es. rewrite Es. clear Es.
  apply mov_sthen; [now apply mov_gen|]. apply mov_sthen; [apply mov_inner|]. apply mov_sthen; [apply mov_mark|].
  change (c_featrel oconf) with (c_featrel cf). destruct (c_featrel cf); [apply mov_all|apply mov_target].
Qed.
Definition rds (ds : dataset F) : dataset F := map rname ds.
Lemma mov_build tg ds : Forall nameable ds -> mov (sfold (add_feature cf tg) ds) (sfold (add_feature oconf (map phi tg)) (rds ds)).
Proof. intros H. apply mov_sfold. intros fc Hi. apply mov_feature. rewrite Forall_forall in H. auto. Qed.

(** ** Fitting *)
Definition rene (e : est F) : est F := mkEst (rens (e_map e)) (option_map rens (e_priv e)) (rfeats (e_feats e)) (map phi (e_proc e)) (e_generated e).
Lemma keys_rds ds : dkeys (rds ds) = map phi (dkeys ds).
Proof. unfold rds, dkeys. rewrite !map_map. reflexivity. Qed.
Lemma join_rds x y : (forall f, In f (dkeys x) -> ~ In f (dkeys y)) -> join_frames (rds x) (rds y) = rds (join_frames x y) /\ join_frames x y = x ++ y.
Proof.
  intros H.
  assert (E : forall x y : dataset F, (forall f, In f (dkeys x) -> ~ In f (dkeys y)) -> join_frames x y = x ++ y).
  { clear. intros x y H. unfold join_frames. f_equal. rewrite <- (map_id y) at 2. apply map_ext_in. intros [f c] Hi. cbn [fst snd].
    replace (str_mem f (dkeys x)) with false; [reflexivity|]. symmetry. apply Bool.not_true_is_false. rewrite str_mem_In. intros X. apply (H f X). apply (in_map fst _ _ Hi). }
  split; [|now apply E]. rewrite (E x y H), E.
  - unfold rds. now rewrite map_app.
  - rewrite !keys_rds. intros f Hx Hy. apply in_map_iff in Hx as (a & <- & Ha). apply in_map_iff in Hy as (b & Eb & Hb). apply phi_inj in Eb. subst b. now apply (H a).
Qed.
Lemma fit_names x y e0 e : estimator e0 e -> (forall f, In f (dkeys x) -> ~ In f (dkeys y)) -> Forall nameable (x ++ y) ->
  same_res eq (snd (fit cf x y e)) (snd (fit oconf (rds x) (rds y) e)) /\ (snd (fit cf x y e) = Ok tt -> fst (fit oconf (rds x) (rds y) e) = rene (fst (fit cf x y e))).
Proof.
  intros HE HD HM. destruct (estimator_state _ _ HE) as ((B1 & B2 & B3 & _) & S & _ & _). unfold fit. destruct (join_rds x y HD) as [-> ->]. rewrite keys_rds.
  destruct (reset (e_gen e)) as [g1 r1] eqn:Er. destruct r1 as [u|er]; [|split; [apply same_exn_refl|discriminate]].
  set (e1 := match e_priv e with Some _ => _ | None => _ end).
  destruct (reset_cases (e_gen e)) as [[z Hz]|(s & Hs & _ & T1 & T2 & T3 & _)]; [rewrite Er in Hz; discriminate|]. rewrite Er in Hs. injection Hs as -> ->.
  assert (Ht : m_topo (e_map e1) = [] /\ m_exec (e_map e1) = [] /\ m_arcs (e_map e1) = [] /\ e_feats e1 = [] /\ e_proc e1 = []).
  { unfold e1. destruct S as [(p & -> & Bl & Em)|[-> _]]; cbn; auto. rewrite Em. auto. }
  destruct Ht as (A1 & A2 & A3 & A4 & A5).
  unfold build_fcm. destruct (mov_build (dkeys y) (x ++ y) HM (set_fcm (e_map e1) (e_gen e1))) as [E Q].
  replace (reng (set_fcm (e_map e1) (e_gen e1))) with (set_fcm (e_map e1) (e_gen e1)) in E, Q.
  2:{ unfold reng, set_fcm, e_gen. cbn [g_feats g_proc g_fcm]. rewrite A4, A5. cbn [rfeats ren_dict map]. f_equal. unfold rens, ren. rewrite A1, A2, A3. destruct (e_map e1). cbn in *. subst. reflexivity. }
  destruct (sfold _ (x ++ y) _) as [g2 [u2|er]], (sfold _ (rds (x ++ y)) _) as [g3 [u3|er']]; cbn in E, Q; try contradiction; subst g3; cbn [fst snd].
  - split; [reflexivity|]. reflexivity.
  - split; [exact Q|discriminate].
Qed.
End Names.
