(** AssocFacts2.v — the whole construction: features described one after the other,
    the calls it makes, and the resulting generator. *)
From Coq Require Import Permutation.
From Verif Require Import Base BaseFacts Num Functions Fcm FcmSpec FcmInv FcmInv2 FcmInv3 FcmOrder LoaderFacts LearnUtils LearnSpec LearnFacts Assoc AssocSpec AssocFacts.

Section AssocFacts2.
Context {F : Type} {N : Num F}.
Notation rel := (string * string * F)%type.
Implicit Types (g : gen F) (s : fcm F).
Variable cf : gconf F.

Definition concept_op (t : string) (d : option (adict F)) (name : string) : op F :=
  OpAddConcept name (Some t) (Some true) None None d None [].
Definition concept_ok (dc : dconcept F) (t : string) (d : option (adict F)) : res unit :=
  snd (build_node dc (Some t) (Some true) None None d None []).
Lemma add_concept_plan dc t d name s : m_default s = dc ->
  match concept_ok dc t d with
  | Ok _ => add_concept name (Some t) (Some true) None None d None [] s = (run_ops [concept_op t d name] s, Ok tt)
  | Err e => snd (add_concept name (Some t) (Some true) None None d None [] s) = Err e
  end.
Proof.
  intros <-. unfold concept_ok, run_ops. cbn [fold_left step concept_op]. unfold add_concept. cbn [m_default set_prepared].
  destruct (build_node _ _ _ _ _ _ _ _) as [n [u|e]]; reflexivity.
Qed.
Lemma concept_op_default t d name s : m_default (run_ops [concept_op t d name] s) = m_default s.
Proof. apply settings_fit, builds_settings. reflexivity. Qed.

Definition plan_cluster (dc : dconcept F) (f t : string) (vals : list F) (memberships : list (list F)) (data : list F) (k : nat)
  : res (op F * list F) :=
  (memb <- lget memberships k ;;
   _ <- concept_ok dc t (Some (mkAdict true memb vals)) ;;
   row <- rmap (fun v => fuzzy_set v memb vals) data ;;
   Ok (concept_op t (Some (mkAdict true memb vals)) (name_concept cf f (str_of_Z (Z.of_nat k))), row))%res.
Definition plan_discrete (dc : dconcept F) (targets : list string) (f : string) (c : column F) : res (list (op F) * fdesc F) :=
  let t := if str_mem f targets then TYPE_DECISION else TYPE_SIMPLE in
  let '(texts, m) := discrete_desc cf c in
  (_ <- rmap (fun _ => concept_ok dc t None) texts ;;
   Ok (map (concept_op t None) (map (name_concept cf f) texts), mkFd f t (map (name_concept cf f) texts) m))%res.
Definition plan_continuous (dc : dconcept F) (targets : list string) (f : string) (data : list F) : res (list (op F) * fdesc F) :=
  let t := if str_mem f targets then TYPE_REGRESOR else TYPE_FUZZY in
  ('(n, vals, memberships) <- c_disc cf f data ;;
   l <- rmap (plan_cluster dc f t vals memberships data) (seq 0 n) ;;
   Ok (map fst l, mkFd f t (map (fun k => name_concept cf f (str_of_Z (Z.of_nat k))) (seq 0 n)) (map snd l)))%res.
Definition describe (dc : dconcept F) (targets : list string) (fc : string * column F) : res (list (op F) * fdesc F) :=
  let '(f, c) := fc in
  match c with
  | ColStr _ | ColBool _ => plan_discrete dc targets f c
  | ColInt _ | ColFlt _ =>
      if c_infer cf && Nat.ltb (distinct cf c) 10 then plan_discrete dc targets f c
      else plan_continuous dc targets f (as_floats c)
  end.

(** ** Describing one feature *)
Lemma concepts_loop dc t names g : m_default (g_fcm g) = dc ->
  match rmap (fun _ => concept_ok dc t None) names with
  | Ok _ => sfold (fun name => on_fcm (add_concept name (Some t) (Some true) None None None None [])) names g
            = (set_fcm (run_ops (map (concept_op t None) names) (g_fcm g)) g, Ok tt)
  | Err e => snd (sfold (fun name => on_fcm (add_concept name (Some t) (Some true) None None None None [])) names g) = Err e
  end.
Proof.
  revert g. induction names as [|x l IH]; intros g Hd; cbn [rmap sfold map].
  - unfold run_ops. cbn. now rewrite set_fcm_id.
  - pose proof (add_concept_plan dc t None x (g_fcm g) Hd) as A. unfold on_fcm.
    destruct (concept_ok dc t None) as [u|e]; cbn [rbind].
    + rewrite A. set (g1 := set_fcm (run_ops [concept_op t None x] (g_fcm g)) g).
      specialize (IH g1). assert (D1 : m_default (g_fcm g1) = dc) by (cbn [g1 g_fcm set_fcm]; now rewrite concept_op_default).
      specialize (IH D1). destruct (rmap _ l) as [us|e']; cbn [rbind].
      * unfold on_fcm in IH. rewrite IH. cbn. unfold run_ops. reflexivity.
      * exact IH.
    + destruct (add_concept _ _ _ _ _ _ _ _ _) as [s' r]. cbn [snd] in A. subst r. reflexivity.
Qed.
Lemma clusters_loop dc f t vals memberships data ks rows g : m_default (g_fcm g) = dc ->
  match rmap (plan_cluster dc f t vals memberships data) ks with
  | Ok l => gen_clusters cf f t vals data memberships ks rows g
            = (set_fcm (run_ops (map fst l) (g_fcm g)) g, Ok (rows ++ map snd l))
  | Err e => snd (gen_clusters cf f t vals data memberships ks rows g) = Err e
  end.
Proof.
  revert g rows. induction ks as [|k ks IH]; intros g rows Hd; cbn [rmap gen_clusters].
  - unfold run_ops. cbn. now rewrite set_fcm_id, app_nil_r.
  - unfold plan_cluster at 1, gen_cluster. destruct (lget memberships k) as [memb|e]; cbn [rbind]; [|reflexivity].
    pose proof (add_concept_plan dc t (Some (mkAdict true memb vals)) (name_concept cf f (str_of_Z (Z.of_nat k))) (g_fcm g) Hd) as A.
    unfold on_fcm. destruct (concept_ok dc t _) as [u|e]; cbn [rbind].
    + rewrite A. destruct (rmap (fun v => fuzzy_set v memb vals) data) as [row|e]; cbn [rbind]; [|reflexivity].
      set (g1 := set_fcm _ g). specialize (IH g1 (rows ++ [row])).
      assert (D1 : m_default (g_fcm g1) = dc) by (cbn [g1 g_fcm set_fcm]; now rewrite concept_op_default).
      specialize (IH D1). destruct (rmap _ ks) as [l|e]; cbn [rbind].
      * rewrite IH. cbn. unfold run_ops. cbn. now rewrite <- app_assoc.
      * exact IH.
    + destruct (add_concept _ _ _ _ _ _ _ _ _) as [s' r]. cbn [snd] in A. subst r. reflexivity.
Qed.
Definition grown (f : string) (d : fdesc F) (ops : list (op F)) g g' : Prop :=
  g_proc g' = g_proc g /\ g_fcm g' = run_ops ops (g_fcm g) /\ dget (g_feats g') f = Some (feat_of d) /\
  forall k, k <> f -> dget (g_feats g') k = dget (g_feats g) k.
Lemma describe_spec dc targets f c g : m_default (g_fcm g) = dc ->
  match describe dc targets (f, c) with
  | Ok (ops, d) => exists g', gen_concepts cf targets f c g = (g', Ok tt) /\ grown f d ops g g'
  | Err e => snd (gen_concepts cf targets f c g) = Err e
  end.
Proof.
  intros Hd.
  assert (D : match plan_discrete dc targets f c with
     | Ok (ops, d) => exists g', gen_discrete_concepts cf f targets c g = (g', Ok tt) /\ grown f d ops g g'
     | Err e => snd (gen_discrete_concepts cf f targets c g) = Err e end).
  { unfold plan_discrete, gen_discrete_concepts. set (t := if str_mem f targets then _ else _).
    destruct (discrete_desc cf c) as [texts m]. set (g1 := set_feat f _ g).
    pose proof (concepts_loop dc t (map (name_concept cf f) texts) g1 Hd) as L.
    assert (E : rmap (fun _ => concept_ok dc t None) (map (name_concept cf f) texts) = rmap (fun _ => concept_ok dc t None) texts).
    { clear. induction texts as [|x l IH]; cbn; auto. now rewrite IH. }
    rewrite E in L. clear E. destruct (rmap _ texts) as [us|e]; cbn [rbind].
    - rewrite L. eexists. split; [reflexivity|]. unfold g1. repeat split; cbn.
      + rewrite dget_dset_same. unfold feat_of. cbn. now rewrite map_length.
      + intros k Hk. now rewrite !dget_dset_other.
    - destruct (sfold _ _ g1) as [g2 r]. cbn in L. subst r. reflexivity. }
  assert (C : forall data, match plan_continuous dc targets f data with
     | Ok (ops, d) => exists g', gen_continuous_concepts cf f targets data g = (g', Ok tt) /\ grown f d ops g g'
     | Err e => snd (gen_continuous_concepts cf f targets data g) = Err e end).
  { intros data. unfold plan_continuous, gen_continuous_concepts. set (t := if str_mem f targets then _ else _).
    destruct (c_disc cf f data) as [[[n vals] memberships]|e]; cbn [rbind]; [|reflexivity]. set (g1 := set_feat f _ g).
    pose proof (clusters_loop dc f t vals memberships data (seq 0 n) [] g1 Hd) as L.
    destruct (rmap _ (seq 0 n)) as [l|e]; cbn [rbind].
    - rewrite L. eexists. split; [reflexivity|]. unfold g1. repeat split; cbn.
      + rewrite dget_dset_same. unfold feat_of. cbn. now rewrite map_length, seq_length.
      + intros k Hk. now rewrite !dget_dset_other.
    - destruct (gen_clusters _ _ _ _ _ _ _ _ g1) as [g2 r]. cbn in L. subst r. reflexivity. }
  unfold describe, gen_concepts. destruct c; try exact D; (destruct (c_infer cf && _); [exact D|apply C]).
Qed.
Lemma str_leb_trans x y z : str_leb x y = true -> str_leb y z = true -> str_leb x z = true.
Proof.
  unfold str_leb. revert y z. induction x as [|a x IH]; intros [|b y] [|c z]; cbn; auto; try discriminate.
  unfold Ascii.compare. destruct (N.compare_spec (N_of_ascii a) (N_of_ascii b)) as [E1|E1|E1];
    destruct (N.compare_spec (N_of_ascii b) (N_of_ascii c)) as [E2|E2|E2]; intros H1 H2; try discriminate;
    destruct (N.compare_spec (N_of_ascii a) (N_of_ascii c)) as [E3|E3|E3]; auto; try lia. now apply (IH y z).
Qed.
Lemma str_total_order : total_order str_leb String.eqb.
Proof.
  split.
  - intros x y. apply String.eqb_eq.
  - intros x y. unfold str_leb. rewrite (String.compare_antisym x y). destruct (String.compare y x); cbn; auto.
  - apply str_leb_trans.
  - intros x y. unfold str_leb. rewrite (String.compare_antisym x y). destruct (String.compare y x) eqn:E; cbn; try discriminate.
    intros _ _. symmetry. now apply String.compare_eq_iff.
Qed.
Lemma bool_total_order : total_order bool_leb Bool.eqb.
Proof.
  split; unfold bool_leb.
  - intros x y. apply Bool.eqb_true_iff.
  - intros [|] [|]; cbn; auto.
  - intros [|] [|] [|]; cbn; auto.
  - intros [|] [|]; cbn; auto; discriminate.
Qed.
Lemma Z_total_order : total_order Z.leb Z.eqb.
Proof. split; intros; lia. Qed.
Lemma levels_desc c : levels cf c (fst (discrete_desc cf c)) (snd (discrete_desc cf c)).
Proof.
  destruct c; cbn [discrete_desc fst snd].
  - apply LvStr. apply (unique_spec _ _ str_total_order).
  - apply (LvBool cf l (unique bool_leb Bool.eqb l)). apply (unique_spec _ _ bool_total_order).
  - apply LvInt. apply (unique_spec _ _ Z_total_order).
  - apply LvFlt.
Qed.
Lemma rows_length c : length (snd (discrete_desc cf c)) = length (fst (discrete_desc cf c)).
Proof.
  destruct c; cbn [discrete_desc fst snd]; unfold gen_discrete_feature_matrix; rewrite !map_length; reflexivity.
Qed.
Lemma nth_error_ext {A} (l l' : list A) : (forall i, nth_error l i = nth_error l' i) -> l = l'.
Proof.
  revert l'. induction l as [|x l IH]; intros [|y l'] H; auto.
  - specialize (H 0). discriminate.
  - specialize (H 0). discriminate.
  - pose proof (H 0) as E. injection E as ->. f_equal. apply IH. intros i. exact (H (S i)).
Qed.
Lemma nth_error_seq' a n k : k < n -> nth_error (seq a n) k = Some (a + k).
Proof.
  revert a k. induction n as [|n IH]; intros a [|k] H; cbn; try lia; [now rewrite Nat.add_0_r|].
  rewrite IH by lia. f_equal. lia.
Qed.
Definition op_name (o : op F) : string := match o with OpAddConcept n _ _ _ _ _ _ _ => n | _ => "" end.
Definition is_concept_op (dc : dconcept F) (t : string) (o : op F) : Prop :=
  exists d, o = concept_op t d (op_name o) /\ concept_ok dc t d = Ok tt /\ (is_fuzzy_type t = true -> d <> None) /\ (is_fuzzy_type t = false -> d = None).
Lemma describe_described dc targets fc ops d : describe dc targets fc = Ok (ops, d) ->
  described cf targets fc d /\ fd_feat d = fst fc /\ length (fd_rows d) = length (fd_names d) /\
  map op_name ops = fd_names d /\ Forall (is_concept_op dc (fd_type d)) ops.
Proof.
  destruct fc as [f c]. cbn [fst].
  assert (D : (is_discrete cf c (fst (discrete_desc cf c))) -> plan_discrete dc targets f c = Ok (ops, d) ->
    described cf targets (f, c) d /\ fd_feat d = f /\ length (fd_rows d) = length (fd_names d) /\
    map op_name ops = fd_names d /\ Forall (is_concept_op dc (fd_type d)) ops).
  { unfold plan_discrete. pose proof (levels_desc c) as L. pose proof (rows_length c) as RL.
    destruct (discrete_desc cf c) as [texts m]. cbn [fst snd] in *. intros Hd H. apply rbind_ok in H as (us & Hu & H).
    injection H as <- <-. cbn [fd_feat fd_rows fd_names fd_type].
    split; [now apply DescDiscrete|]. split; auto. split; [now rewrite map_length|]. split.
    - rewrite map_map. cbn. now rewrite map_id.
    - rewrite Forall_forall. intros o Ho. apply in_map_iff in Ho as (n & <- & Hn). apply in_map_iff in Hn as (x & <- & Hx).
      exists None. cbn [op_name concept_op]. split; auto. split.
      + destruct (proj1 (rmap_ok_iff (fun _ => concept_ok dc (if str_mem f targets then TYPE_DECISION else TYPE_SIMPLE) None) texts) (ex_intro _ us Hu) x Hx) as [[] Hx']. exact Hx'.
      + split; auto. now destruct (str_mem f targets). }
  assert (C : (~ is_discrete cf c (fst (discrete_desc cf c))) -> numbers c (as_floats c) ->
    plan_continuous dc targets f (as_floats c) = Ok (ops, d) ->
    described cf targets (f, c) d /\ fd_feat d = f /\ length (fd_rows d) = length (fd_names d) /\
    map op_name ops = fd_names d /\ Forall (is_concept_op dc (fd_type d)) ops).
  { intros ND Nu. unfold plan_continuous. destruct (c_disc cf f (as_floats c)) as [[[n vals] memberships]|e] eqn:Ec; [|discriminate].
    cbn [rbind]. intros H. apply rbind_ok in H as (l & Hl & H). injection H as <- <-. cbn [fd_feat fd_rows fd_names fd_type].
    pose proof (rmap_ok_length _ _ _ Hl) as Ll. rewrite seq_length in Ll. apply rmap_ok_Forall2 in Hl.
    assert (G : forall k x, nth_error l k = Some x -> plan_cluster dc f (if str_mem f targets then TYPE_REGRESOR else TYPE_FUZZY) vals memberships (as_floats c) k = Ok x).
    { assert (X : forall a ks l, Forall2 (fun k x => plan_cluster dc f (if str_mem f targets then TYPE_REGRESOR else TYPE_FUZZY) vals memberships (as_floats c) k = Ok x) ks l -> ks = seq a (length ks) ->
        forall k x, nth_error l k = Some x -> plan_cluster dc f (if str_mem f targets then TYPE_REGRESOR else TYPE_FUZZY) vals memberships (as_floats c) (a + k) = Ok x).
      { clear. intros a ks l H. revert a. induction H as [|k0 x0 ks l H _ IH]; intros a E [|k] x; cbn; try discriminate.
        - intros [= <-]. cbn in E. injection E as -> E. now rewrite Nat.add_0_r.
        - intros Hk. cbn in E. injection E as -> E. rewrite <- Nat.add_succ_comm. apply IH; auto. }
      intros k x Hk. apply (X 0 (seq 0 n) l Hl); auto. now rewrite seq_length. }
    split; [|split; [reflexivity|split; [|split]]].
    - eapply DescContinuous; eauto using levels_desc.
      + now rewrite map_length.
      + intros k row Hk. rewrite nth_error_map in Hk. destruct (nth_error l k) as [[o row']|] eqn:E; [|discriminate].
        injection Hk as <-. apply G in E. unfold plan_cluster in E. apply rbind_ok in E as (memb & E1 & E).
        apply rbind_ok in E as (u & _ & E). apply rbind_ok in E as (r & E2 & E). injection E as _ <-.
        exists memb. split; [now apply lget_inv|]. now apply rmap_ok_Forall2.
    - rewrite !map_length, seq_length. exact Ll.
    - apply nth_error_ext. intros k. rewrite !nth_error_map. destruct (nth_error l k) as [x|] eqn:E.
      + rewrite nth_error_seq' by (rewrite <- Ll; apply nth_error_Some; congruence).
        cbn. apply G in E. unfold plan_cluster in E. apply rbind_ok in E as (memb & E1 & E).
        apply rbind_ok in E as (u & _ & E). apply rbind_ok in E as (r & E2 & E). injection E as <-. reflexivity.
      + apply nth_error_None in E. replace (nth_error (seq 0 n) k) with (@None nat); auto. symmetry. apply nth_error_None. rewrite seq_length. lia.
    - rewrite Forall_forall. intros o Ho. apply in_map_iff in Ho as (x & <- & Hx). apply In_nth_error in Hx as [k E].
      apply G in E. unfold plan_cluster in E. apply rbind_ok in E as (memb & E1 & E).
      apply rbind_ok in E as (u & Hu & E). apply rbind_ok in E as (r & E2 & E). injection E as <-. cbn [fst].
      exists (Some (mkAdict true memb vals)). cbn [op_name concept_op]. destruct u. split; auto. split; auto. split; [discriminate|].
      now destruct (str_mem f targets). }
  unfold describe. destruct c as [l|l|l|l]; try (now apply D).
  - destruct (c_infer cf) eqn:Ei; cbn [andb]; [destruct (Nat.ltb_spec (distinct cf (ColInt l)) 10) as [H|H]|].
    + apply D. split; auto.
    + apply C; [|reflexivity]. intros [_ X]. unfold distinct in H. cbn [discrete_desc fst] in *. lia.
    + apply C; [|reflexivity]. intros [X _]. congruence.
  - destruct (c_infer cf) eqn:Ei; cbn [andb]; [destruct (Nat.ltb_spec (distinct cf (ColFlt l)) 10) as [H|H]|].
    + apply D. split; auto.
    + apply C; [|reflexivity]. intros [_ X]. unfold distinct in H. cbn [discrete_desc fst] in *. lia.
    + apply C; [|reflexivity]. intros [X _]. congruence.
Qed.
End AssocFacts2.
