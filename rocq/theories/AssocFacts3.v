(** AssocFacts3.v — the whole construction as one list of calls. *)
From Coq Require Import Permutation.
From Verif Require Import Base BaseFacts Num Functions Fcm FcmSpec FcmInv FcmInv2 FcmInv3 FcmOrder LoaderFacts LearnUtils LearnSpec LearnFacts Assoc AssocSpec AssocFacts AssocFacts2.

Section AssocFacts3.
Context {F : Type} {N : Num F}.
Notation rel := (string * string * F)%type.
Implicit Types (g : gen F) (s : fcm F).
Variable cf : gconf F.
Hypothesis HO : reorders (c_ord cf).

Lemma sthen_eq {S} (f h : S -> S * res unit) x : sthen f h x = match f x with (y, Ok _) => h y | (y, Err e) => (y, Err e) end.
Proof. reflexivity. Qed.
Lemma emits_all fs A done : let ps := map fd_feat done ++ [fd_feat A] in
  known fs A -> (forall d, In d done -> known fs d) ->
  emits fs ps (fun g => if c_featrel cf then def_all_feat_relations cf (fd_feat A) g else def_feat_target_relation cf (fd_feat A) g)
    (plan_cross cf A (others cf done (fd_feat A))).
Proof.
  intros ps KA KD.
  assert (MK : emits fs ps (fun g => (mark (fd_feat A) g, Ok tt)) (Ok [])).
  { intros g (E1 & E2 & E3). cbn. rewrite set_fcm_id. unfold mark. rewrite E2.
    replace (str_mem (fd_feat A) ps) with true; [now destruct g; cbn in *; subst|].
    symmetry. apply str_mem_In. unfold ps. apply in_app_iff. right. now left. }
  assert (R : rapp (plan_cross cf A (others cf done (fd_feat A))) (Ok []) = plan_cross cf A (others cf done (fd_feat A))).
  { unfold rapp. destruct (plan_cross _ _ _); cbn; auto. now rewrite app_nil_r. }
  rewrite <- R. clear R. destruct (c_featrel cf) eqn:Ef.
  - unfold def_all_feat_relations.
    apply emits_ext with (a := sthen (sfold (fun other => if String.eqb other (fd_feat A) then fun g => (g, Ok tt)
                             else def_two_feat_relation cf (fd_feat A) other) (c_ord cf ps)) (fun g => (mark (fd_feat A) g, Ok tt))).
    { intros g (E1 & E2 & E3). now rewrite E2. }
    apply emits_then; [|exact MK]. apply emits_cross; auto. intros d Hd. unfold related. rewrite Ef. cbn [orb]. apply emits_two; auto.
  - unfold def_feat_target_relation.
    apply emits_ext with (a := sthen (sfold (fun other => if String.eqb other (fd_feat A) then fun g => (g, Ok tt)
                             else swith (fun g => are_same_feature_group g (fd_feat A) other) (fun same : bool =>
                                if same then fun g => (g, Ok tt) else def_two_feat_relation cf (fd_feat A) other)) (c_ord cf ps)) (fun g => (mark (fd_feat A) g, Ok tt))).
    { intros g (E1 & E2 & E3). now rewrite E2. }
    apply emits_then; [|exact MK].
    apply (emits_cross cf fs A done (fun other => swith (fun g => are_same_feature_group g (fd_feat A) other) (fun same : bool =>
                                if same then fun g => (g, Ok tt) else def_two_feat_relation cf (fd_feat A) other))); auto.
    intros d Hd. unfold related. rewrite Ef. cbn [orb].
    apply emits_ext with (a := if Bool.eqb (fd_target A) (fd_target d) then fun g => (g, Ok tt) else def_two_feat_relation cf (fd_feat A) (fd_feat d)).
    { intros g I. unfold swith. rewrite (known_group fs ps A d KA (KD d Hd) g I). reflexivity. }
    destruct (Bool.eqb _ _); cbn [negb]; [apply emits_nil|apply emits_two; auto].
Qed.

(** ** One feature *)
Definition plan_feature (dc : dconcept F) (targets : list string) (done : list (fdesc F)) (fc : string * column F)
  : res (list (op F) * fdesc F) :=
  ('(ops, d) <- describe cf dc targets fc ;;
   rels <- plan_cross cf d (others cf done (fst fc)) ;;
   Ok (ops ++ map rel_op (plan_inner cf d ++ rels), d))%res.
Definition ready (dc : dconcept F) (done : list (fdesc F)) g : Prop :=
  m_fit (g_fcm g) = None /\ m_default (g_fcm g) = dc /\ g_proc g = map fd_feat done /\ (forall d, In d done -> known (g_feats g) d) /\
  forall f, dget (g_feats g) f <> None -> In f (map fd_feat done).
Lemma describe_building dc targets fc ops d : describe cf dc targets fc = Ok (ops, d) -> forallb is_building ops = true.
Proof.
  intros H. apply describe_described in H as (_ & _ & _ & _ & H). rewrite Forall_forall in H. apply forallb_forall.
  intros o Ho. destruct (H o Ho) as (x & -> & _). reflexivity.
Qed.
Lemma plan_building dc targets done fc ops d : plan_feature dc targets done fc = Ok (ops, d) -> forallb is_building ops = true.
Proof.
  unfold plan_feature. destruct (describe cf dc targets fc) as [[o d']|e] eqn:E; [|discriminate]. cbn [rbind].
  intros H. apply rbind_ok in H as (rels & _ & H). injection H as <- _. rewrite forallb_app.
  rewrite (describe_building _ _ _ _ _ E). apply rel_ops_building.
Qed.
Lemma feature_plan dc targets done fc g : ready dc done g -> ~ In (fst fc) (map fd_feat done) ->
  match plan_feature dc targets done fc with
  | Ok (ops, d) => exists g', add_feature cf targets fc g = (g', Ok tt) /\ g_fcm g' = run_ops ops (g_fcm g) /\ ready dc (done ++ [d]) g' /\ fd_feat d = fst fc
  | Err e => snd (add_feature cf targets fc g) = Err e
  end.
Proof.
  intros (Fi & Dc & Pr & Kn & Ke) Hf. destruct fc as [f c]. cbn [fst] in *. unfold plan_feature, add_feature.
  set (g0 := set_feat f _ g).
  pose proof (describe_spec cf dc targets f c g0 Dc) as D. rewrite sthen_eq.
  destruct (describe cf dc targets (f, c)) as [[ops d]|e] eqn:Ed; cbn [rbind].
  2: { destruct (gen_concepts cf targets f c g0) as [g1 r]. cbn in D. subst r. reflexivity. }
  destruct D as (g1 & -> & G1 & G2 & G3 & G4).
  destruct (describe_described cf _ _ _ _ _ Ed) as (_ & Df & Dl & _). cbn [fst] in *. cbn [fst].
  assert (Op : forallb is_building ops = true) by (eapply describe_building; eauto).
  assert (S1 : settings (g_fcm g1) = settings (g_fcm g)) by (rewrite G2; now rewrite builds_settings).
  apply settings_fit in S1 as [S1 S1'].
  assert (Kd : known (g_feats g1) d) by (split; [rewrite Df; exact G3|exact Dl]).
  assert (Ko : forall d', In d' done -> known (g_feats g1) d').
  { intros d' Hd'. destruct (Kn d' Hd') as [K1 K2]. split; auto. rewrite G4.
    - unfold g0. cbn. rewrite dget_dset_other; auto. intros E. apply Hf. rewrite <- E. now apply in_map.
    - intros E. apply Hf. rewrite <- E. now apply in_map. }
  rewrite sthen_eq. rewrite <- Df.
  rewrite (emits_inner cf (g_feats g1) (g_proc g1) d Kd g1) by (repeat split; congruence).
  set (g2 := set_fcm _ g1). rewrite sthen_eq.
  assert (M : mark (fd_feat d) g2 = mkGen (g_feats g1) (map fd_feat done ++ [fd_feat d]) (g_fcm g2)).
  { unfold mark. cbn [g2 g_proc set_fcm g_feats]. rewrite G1. unfold g0. cbn [g_proc set_feat]. rewrite Pr, Df.
    destruct (str_mem f (map fd_feat done)) eqn:E; [apply str_mem_In in E; tauto|reflexivity]. }
  rewrite M. set (g3 := mkGen _ _ _).
  assert (I3 : inv (g_feats g1) (map fd_feat done ++ [fd_feat d]) g3).
  { repeat split. cbn. rewrite add_rels_fit. congruence. }
  pose proof (emits_all (g_feats g1) d done Kd Ko g3 I3) as E.
  destruct (plan_cross cf d (others cf done (fd_feat d))) as [rels|e]; cbn [rbind]; [|exact E].
  eexists. split; [exact E|]. cbn [g_fcm set_fcm g3 g2]. split; [|split; [|reflexivity]].
  - rewrite run_ops_app, G2, map_app, run_ops_app. reflexivity.
  - split; [|split; [|split; [|split]]]; cbn [g_fcm set_fcm g3 g2 g_feats g_proc].
    + rewrite !add_rels_fit. congruence.
    + rewrite <- Dc. apply settings_fit. rewrite !add_rels_settings, G2. now apply builds_settings.
    + rewrite map_app. reflexivity.
    + intros d' Hd'. apply in_app_iff in Hd' as [Hd'|[<-|[]]]; auto.
    + intros k Hk. rewrite map_app. apply in_app_iff. destruct (String.eqb_spec k f) as [->|Hkf]; [right; left; exact Df|left].
      apply Ke. rewrite G4 in Hk by auto. unfold g0 in Hk. cbn in Hk. now rewrite dget_dset_other in Hk.
Qed.

(** ** All features *)
Fixpoint plan_build (dc : dconcept F) (targets : list string) (done : list (fdesc F)) (ds : dataset F)
  : res (list (op F) * list (fdesc F)) :=
  match ds with
  | [] => Ok ([], done)
  | fc :: rest =>
      ('(ops, d) <- plan_feature dc targets done fc ;;
       '(ops', out) <- plan_build dc targets (done ++ [d]) rest ;;
       Ok (ops ++ ops', out))%res
  end.
Lemma build_plan dc targets done ds g : ready dc done g -> NoDup (map fd_feat done ++ dkeys ds) ->
  match plan_build dc targets done ds with
  | Ok (ops, out) => exists g', sfold (add_feature cf targets) ds g = (g', Ok tt) /\ g_fcm g' = run_ops ops (g_fcm g) /\ ready dc out g'
  | Err e => snd (sfold (add_feature cf targets) ds g) = Err e
  end.
Proof.
  revert done g. induction ds as [|fc ds IH]; intros done g R ND; cbn [plan_build sfold].
  - exists g. split; auto.
  - assert (Hf : ~ In (fst fc) (map fd_feat done)).
    { cbn in ND. apply NoDup_remove_2 in ND. intros H. apply ND. apply in_app_iff. now left. }
    pose proof (feature_plan dc targets done fc g R Hf) as P.
    destruct (plan_feature dc targets done fc) as [[ops d]|e]; cbn [rbind].
    + destruct P as (g1 & -> & P1 & P2 & P3).
      assert (ND' : NoDup (map fd_feat (done ++ [d]) ++ dkeys ds)) by (rewrite map_app, <- app_assoc; cbn; now rewrite P3).
      specialize (IH (done ++ [d]) g1 P2 ND'). destruct (plan_build dc targets (done ++ [d]) ds) as [[ops' out]|e]; cbn [rbind].
      * destruct IH as (g2 & I1 & I2 & I3). exists g2. split; auto. split; auto. now rewrite run_ops_app, I2, P1.
      * exact IH.
    + destruct (add_feature cf targets fc g) as [g1 r]. cbn in P. subst r. reflexivity.
Qed.
(** the descriptions and calls of a successful plan *)
Definition cross_of (done : list (fdesc F)) (d : fdesc F) : list rel := okl (plan_cross cf d (others cf done (fd_feat d))).
Fixpoint rels_of (done rest : list (fdesc F)) : list rel :=
  match rest with
  | [] => []
  | d :: t => plan_inner cf d ++ cross_of done d ++ rels_of (done ++ [d]) t
  end.
Definition ops_rels (ops : list (op F)) : list rel :=
  flat_map (fun o => match o with OpAddRelation a b w => [(a, b, w)] | _ => [] end) ops.
Lemma ops_rels_app l l' : ops_rels (l ++ l') = ops_rels l ++ ops_rels l'.
Proof. apply flat_map_app. Qed.
Lemma ops_rels_map l : ops_rels (map rel_op l) = l.
Proof. induction l as [|[[a b] w] l IH]; auto. unfold ops_rels in *. cbn. now rewrite IH. Qed.
Lemma ops_rels_concepts dc t ops : Forall (is_concept_op dc t) ops -> ops_rels ops = [].
Proof. induction 1 as [|o l H _ IH]; auto. cbn. destruct H as (x & -> & _). exact IH. Qed.
(** every concept is added before it is related *)
Fixpoint announced (names : list string) (ops : list (op F)) : Prop :=
  match ops with
  | [] => True
  | OpAddConcept n _ _ _ _ _ _ _ :: t => announced (names ++ [n]) t
  | OpAddRelation a b _ :: t => In a names /\ In b names /\ announced names t
  | _ :: t => announced names t
  end.
Lemma announced_app names l l' : announced names (l ++ l') <->
  announced names l /\ announced (names ++ flat_map (fun o => match o with OpAddConcept n _ _ _ _ _ _ _ => [n] | _ => [] end) l) l'.
Proof.
  revert names. induction l as [|o l IH]; intros names; cbn; [rewrite app_nil_r; tauto|].
  destruct o; cbn; rewrite IH; cbn; rewrite <- ?app_assoc; cbn; tauto.
Qed.
Lemma announced_rels names l : announced names (map rel_op l) <-> forall a b w, In (a, b, w) l -> In a names /\ In b names.
Proof.
  induction l as [|[[a b] w] l IH]; cbn.
  - split; auto. intros _ a b w [].
  - rewrite IH. split.
    + intros (A & B & C) a' b' w' [E|H]; [injection E as <- <- <-; auto|exact (C a' b' w' H)].
    + intros H. split; [apply (H a b w); now left|]. split; [apply (H a b w); now left|]. intros a1 b1 w1 H1. apply (H a1 b1 w1). now right.
Qed.
Lemma announced_concepts dc t ops names : Forall (is_concept_op dc t) ops -> announced names ops.
Proof. intros H. revert names. induction H as [|o l H _ IH]; intros names; cbn; auto. destruct H as (x & -> & _). apply IH. Qed.
Lemma names_of_concepts dc t ops : Forall (is_concept_op dc t) ops ->
  flat_map (fun o : op F => match o with OpAddConcept n _ _ _ _ _ _ _ => [n] | _ => [] end) ops = map op_name ops.
Proof. induction 1 as [|o l H _ IH]; auto. cbn. destruct H as (x & E & _). rewrite E at 1. cbn. now rewrite IH. Qed.
Lemma names_of_rels l : flat_map (fun o : op F => match o with OpAddConcept n _ _ _ _ _ _ _ => [n] | _ => [] end) (map rel_op l) = [].
Proof. induction l as [|[[a b] w] l IH]; auto. Qed.
Lemma plan_pair_names ta tb na nb ra rb l a b w : plan_pair cf ta tb na nb ra rb = Ok l -> In (a, b, w) l ->
  (a = na /\ b = nb) \/ (a = nb /\ b = na).
Proof.
  assert (W : forall x y sg c l, plan_weight cf x y sg c = Ok l -> In (a, b, w) l -> a = x /\ b = y).
  { clear. intros x y sg c l. unfold plan_weight. intros H. apply rbind_ok in H as (e & _ & H).
    destruct (nltb _ _); [|injection H as <-; intros []]. apply rbind_ok in H as (v & _ & H). cbv zeta in H.
    destruct (neqb _ _); injection H as <-; [intros []|]. intros [E|[]]. injection E as <- <- _. auto. }
  assert (W' : forall sg c sg' c' l, rapp (plan_weight cf na nb sg c) (plan_weight cf nb na sg' c') = Ok l -> In (a, b, w) l ->
    (a = na /\ b = nb) \/ (a = nb /\ b = na)).
  { intros sg c sg' c' l0 H Hin. unfold rapp in H. apply rbind_ok in H as (x & Hx & H). apply rbind_ok in H as (y & Hy & H).
    injection H as <-. apply in_app_iff in Hin as [Hin|Hin]; [left|right]; eapply W; eauto. }
  unfold plan_pair. intros H Hin. apply rbind_ok in H as ([pq qp] & _ & H). apply rbind_ok in H as (s1 & _ & H).
  apply rbind_ok in H as (s2 & _ & H). cbv zeta in H. destruct (c_double cf); [eapply W'; eauto|].
  destruct (Bool.eqb ta tb).
  - apply rbind_ok in H as ([x y] & _ & H). unfold rapp in H. apply rbind_ok in H as (p & Hp & H). apply rbind_ok in H as (q & Hq & H).
    injection H as <-. apply in_app_iff in Hin as [Hin|Hin].
    + left. destruct (nltb y x); [eapply W; eauto|injection Hp as <-; destruct Hin].
    + right. destruct (nltb x y); [eapply W; eauto|injection Hq as <-; destruct Hin].
  - destruct ta; [right|left]; eapply W; eauto.
Qed.
Lemma concepts_of_In (d : fdesc F) x : In x (concepts_of d) -> In (fst x) (fd_names d).
Proof. destruct x as [n r]. unfold concepts_of. intros H. now apply in_combine_l in H. Qed.
Lemma plan_two_names A B l a b w : plan_two cf A B = Ok l -> In (a, b, w) l ->
  (In a (fd_names A) /\ In b (fd_names B)) \/ (In a (fd_names B) /\ In b (fd_names A)).
Proof.
  unfold plan_two. intros H Hin. apply (rflat_In _ _ _ _ H) in Hin as (x & y & Hx & Hy & Hin).
  apply (rflat_In _ _ _ _ Hy) in Hin as (x' & y' & Hx' & Hy' & Hin).
  apply concepts_of_In in Hx, Hx'. destruct (plan_pair_names _ _ _ _ _ _ _ _ _ _ Hy' Hin) as [[-> ->]|[-> ->]]; auto.
Qed.
Lemma plan_cross_names A L l a b w : plan_cross cf A L = Ok l -> In (a, b, w) l ->
  exists B, In B L /\ ((In a (fd_names A) /\ In b (fd_names B)) \/ (In a (fd_names B) /\ In b (fd_names A))).
Proof.
  unfold plan_cross. intros H Hin. apply (rflat_In _ _ _ _ H) in Hin as (B & y & HB & Hy & Hin). exists B. split; auto.
  destruct (related cf A B); [eapply plan_two_names; eauto|injection Hy as <-; destruct Hin].
Qed.
Lemma inner_pairs_In (w : F) names a b v : In (a, b, v) (inner_pairs w names) <->
  v = w /\ exists i j, i <> j /\ nth_error names i = Some a /\ nth_error names j = Some b.
Proof.
  induction names as [|x t IH]; cbn [inner_pairs].
  - split; [intros []|]. intros (_ & i & j & _ & H & _). now destruct i.
  - rewrite in_app_iff, in_flat_map, IH. split.
    + intros [(y & Hy & [E|[E|[]]])|(-> & i & j & Hij & Hi & Hj)].
      * injection E as <- <- <-. split; auto. apply In_nth_error in Hy as [j Hj]. exists 0, (S j). split; [lia|]. auto.
      * injection E as <- <- <-. split; auto. apply In_nth_error in Hy as [j Hj]. exists (S j), 0. split; [lia|]. auto.
      * split; auto. exists (S i), (S j). split; [lia|]. auto.
    + intros (-> & [|i] & [|j] & Hij & Hi & Hj); cbn in Hi, Hj; [lia| | |].
      * injection Hi as <-. left. exists b. split; [eapply nth_error_In; eauto|]. now left.
      * injection Hj as <-. left. exists a. split; [eapply nth_error_In; eauto|]. right. now left.
      * right. split; auto. exists i, j. split; [lia|]. auto.
Qed.
Lemma plan_inner_In d a b v : In (a, b, v) (plan_inner cf d) <->
  neqb (c_excl cf) n0 = false /\ v = c_excl cf /\ exists i j, i <> j /\ nth_error (fd_names d) i = Some a /\ nth_error (fd_names d) j = Some b.
Proof.
  unfold plan_inner. destruct (neqb (c_excl cf) n0); [cbn; split; [intros []|intros [H _]; discriminate]|].
  rewrite inner_pairs_In. tauto.
Qed.
Lemma others_In done f d : In d (others cf done f) -> In d done.
Proof.
  unfold others. intros H. apply in_flat_map in H as (x & _ & H). unfold pick in H. destruct (String.eqb x f); [destruct H|].
  destruct (find _ done) as [d'|] eqn:E; [|destruct H]. destruct H as [<-|[]]. now apply find_feat in E.
Qed.
Lemma others_perm done f : NoDup (map fd_feat done) -> ~ In f (map fd_feat done) -> Permutation (others cf done f) done.
Proof.
  intros ND Hf. unfold others. eapply Permutation_trans; [apply Permutation_flat_map, HO|].
  rewrite flat_map_app. cbn [flat_map]. unfold pick at 2. rewrite String.eqb_refl. cbn [app]. rewrite !app_nil_r.
  assert (X : forall l, (forall d, In d l -> In d done) -> flat_map (pick done f) (map fd_feat l) = l).
  { induction l as [|d l IH]; intros Hl; auto. cbn [map flat_map]. rewrite IH by (intros x Hx; apply Hl; now right).
    unfold pick. assert (Hd : In d done) by (apply Hl; now left).
    destruct (String.eqb_spec (fd_feat d) f) as [E|_]; [exfalso; apply Hf; rewrite <- E; now apply in_map|].
    assert (Fd : find (fun d0 => String.eqb (fd_feat d0) (fd_feat d)) done = Some d).
    { clear - ND Hd. induction done as [|x t IH]; [destruct Hd|]. cbn. cbn in ND. apply NoDup_cons_iff in ND as [N1 N2].
      destruct Hd as [->|Hd]; [now rewrite String.eqb_refl|].
      destruct (String.eqb_spec (fd_feat x) (fd_feat d)) as [E|_]; auto. exfalso. apply N1. rewrite E. now apply in_map. }
    now rewrite Fd. }
  rewrite X; auto.
Qed.

Definition adds_of (ops : list (op F)) : list (op F) := filter is_add_concept ops.
Lemma plan_build_spec dc targets done ds ops out : plan_build dc targets done ds = Ok (ops, out) ->
  exists rest, out = done ++ rest /\ Forall2 (described cf targets) ds rest /\ map fd_feat rest = dkeys ds /\
    ops_rels ops = rels_of done rest /\ announced (flat_map fd_names done) ops /\
    flat_map (fun o : op F => match o with OpAddConcept n _ _ _ _ _ _ _ => [n] | _ => [] end) ops = flat_map fd_names rest /\
    forallb is_building ops = true /\
    Forall (fun o => is_add_concept o = true -> exists d, In d rest /\ In (op_name o) (fd_names d) /\ is_concept_op dc (fd_type d) o) ops /\
    Forall (fun d => length (fd_rows d) = length (fd_names d)) rest.
Proof.
  revert done ops out. induction ds as [|fc ds IH]; intros done ops out; cbn [plan_build].
  - intros [= <- <-]. exists []. rewrite app_nil_r. cbn. repeat split; auto.
  - intros H. unfold plan_feature in H. destruct (describe cf dc targets fc) as [[o1 d]|e] eqn:Ed; [|discriminate]. cbn [rbind] in H.
    destruct (plan_cross cf d (others cf done (fst fc))) as [rels|e] eqn:Ec; [|discriminate]. cbn [rbind] in H.
    destruct (plan_build dc targets (done ++ [d]) ds) as [[o2 out']|e] eqn:Eb; [|discriminate]. cbn [rbind] in H. injection H as <- <-.
    destruct (IH _ _ _ Eb) as (rest & -> & I1 & I2 & I3 & I4 & I5 & I6 & I7 & I8).
    pose proof (describe_building _ _ _ _ _ Ed) as Ob.
    apply describe_described in Ed as (D1 & D2 & D3 & D4 & D5).
    exists (d :: rest). split; [now rewrite <- app_assoc|]. split; [now constructor|]. split; [unfold dkeys in *; cbn; congruence|].
    assert (OR : ops_rels (o1 ++ map rel_op (plan_inner cf d ++ rels)) = plan_inner cf d ++ rels).
    { now rewrite ops_rels_app, (ops_rels_concepts _ _ _ D5), ops_rels_map. }
    split; [|split; [|split; [|split; [|split]]]].
    + rewrite ops_rels_app, OR, I3. cbn [rels_of]. unfold cross_of. rewrite D2, Ec. cbn [okl]. now rewrite app_assoc.
    + apply announced_app. split.
      * apply announced_app. split; [eapply announced_concepts; eauto|].
        rewrite (names_of_concepts _ _ _ D5), D4. apply announced_rels. intros a b w Hin. apply in_app_iff in Hin as [Hin|Hin].
        -- apply plan_inner_In in Hin as (_ & _ & i & j & _ & Hi & Hj). apply nth_error_In in Hi, Hj. rewrite !in_app_iff. auto.
        -- destruct (plan_cross_names _ _ _ _ _ _ Ec Hin) as (B & HB & X). apply others_In in HB.
           assert (Y : forall x, In x (fd_names B) -> In x (flat_map fd_names done)) by (intros x Hx; apply in_flat_map; eauto).
           rewrite !in_app_iff. destruct X as [[X1 X2]|[X1 X2]]; auto.
      * rewrite flat_map_app, (names_of_concepts _ _ _ D5), names_of_rels, app_nil_r, D4.
        rewrite flat_map_app in I4. cbn in I4. rewrite app_nil_r in I4. exact I4.
    + rewrite !flat_map_app, (names_of_concepts _ _ _ D5), names_of_rels, app_nil_r, D4, I5. reflexivity.
    + rewrite !forallb_app, I6, Ob, rel_ops_building. reflexivity.
    + rewrite !Forall_app. split; [split|].
      * rewrite Forall_forall in *. intros o Ho _. exists d. split; [now left|]. split; auto. rewrite <- D4. now apply in_map.
      * rewrite Forall_forall. intros o Ho. apply in_map_iff in Ho as ([[a b] w] & <- & _). discriminate.
      * rewrite Forall_forall in *. intros o Ho Ha. destruct (I7 o Ho Ha) as (d' & X & Y). exists d'. split; [now right|auto].
    + now constructor.
Qed.
End AssocFacts3.
