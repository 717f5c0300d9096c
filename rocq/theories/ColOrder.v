(** ColOrder.v — the order of the columns does not change which map is generated. *)
From Coq Require Import Permutation Reals.
From Verif Require Import Base BaseFacts Num RealFacts Functions Fcm FcmSpec FcmBasics FcmInv FcmInv2 FcmInv3 FcmRun FcmOrder LoaderFacts LearnUtils LearnSpec LearnFacts Assoc Estimator EstSpec AssocSpec AssocFacts AssocFacts2 AssocFacts3 AssocFacts4 AssocFacts5 AssocUnique.

Lemma flat_map_nil {A B} (l : list A) : flat_map (fun _ => @nil B) l = [].
Proof. induction l; auto. Qed.
Lemma flat_map_split {A B} (f h : A -> list B) l : Permutation (flat_map (fun a => f a ++ h a) l) (flat_map f l ++ flat_map h l).
Proof.
  induction l as [|a l IH]; cbn [flat_map]; [constructor|]. rewrite <- !app_assoc. apply Permutation_app_head.
  eapply Permutation_trans; [apply Permutation_app_head, IH|]. rewrite !app_assoc. apply Permutation_app_tail, Permutation_app_comm.
Qed.
Lemma flat_map_cross {A B C} (f : A -> B -> list C) la lb :
  Permutation (flat_map (fun a => flat_map (f a) lb) la) (flat_map (fun b => flat_map (fun a => f a b) la) lb).
Proof.
  induction la as [|a la IH]; cbn [flat_map]; [rewrite flat_map_nil; constructor|].
  eapply Permutation_trans; [apply Permutation_app_head, IH|]. apply Permutation_sym, flat_map_split.
Qed.
Lemma flat_map_Perm {A B} (f h : A -> list B) l : (forall a, In a l -> Permutation (f a) (h a)) -> Permutation (flat_map f l) (flat_map h l).
Proof. induction l as [|a l IH]; intros H; cbn [flat_map]; [constructor|]. apply Permutation_app; [apply H; now left|apply IH; intros; apply H; now right]. Qed.

Section Columns.
Context {F : Type} {N : Num F}.
Notation rel := (string * string * F)%type.
Variable cf : gconf F.
Hypothesis HO : reorders (c_ord cf).
Hypothesis comm : forall x y : F, nmul x y = nmul y x.

Lemma plan_pair_sym ta tb na nb ra rb l : plan_pair cf ta tb na nb ra rb = Ok l ->
  exists l', plan_pair cf tb ta nb na rb ra = Ok l' /\ Permutation l l'.
Proof.
  unfold plan_pair. intros H. apply rbind_ok in H as ([pq qp] & Hc & H).
  assert (Hc' : calc_concepts_coefficient rb ra = Some (qp, pq)).
  { apply (calc_coefs comm). destruct (calc_concepts_coefficient ra rb) as [cc|] eqn:E; [|discriminate]. injection Hc as ->.
    apply (calc_coefs comm) in E. tauto. }
  rewrite Hc'. cbn [rbind]. apply rbind_ok in H as (s1 & H1 & H). apply rbind_ok in H as (s2 & H2 & H). rewrite H1, H2. cbn [rbind]. cbv zeta in *.
  assert (Sw : forall p q l, rapp p q = Ok l -> exists l', rapp q p = Ok l' /\ Permutation (A := rel) l l').
  { clear. intros p q l. unfold rapp. destruct p as [x|], q as [y|]; try discriminate. cbn [rbind]. intros [= <-]. eexists. split; [reflexivity|apply Permutation_app_comm]. }
  destruct (c_double cf); [now apply Sw|].
  replace (Bool.eqb tb ta) with (Bool.eqb ta tb) in * by (now destruct ta, tb). destruct (Bool.eqb ta tb) eqn:Eb.
  - apply rbind_ok in H as ([a b] & Ha & H). apply rbind_ok in Ha as (va & E1 & Ha). apply rbind_ok in Ha as (vb & E2 & Ha). injection Ha as <- <-.
    rewrite E1, E2. cbn [rbind]. now apply Sw.
  - destruct ta, tb; try discriminate; eauto.
Qed.
(** the relations between two features, whichever comes first *)
Definition crossing (A B : fdesc F) : res (list rel) := if related cf A B then plan_two cf A B else Ok [].
Lemma rflat_eq {A B} (f : A -> res (list B)) l : (forall a, In a l -> exists y, f a = Ok y) -> rflat f l = Ok (flat_map (fun a => okl (f a)) l).
Proof. intros H. apply rflat_ok_iff in H as [x H]. rewrite H. f_equal. now apply rflat_ok. Qed.
Lemma crossing_sym A B l : crossing A B = Ok l -> exists l', crossing B A = Ok l' /\ Permutation l l'.
Proof.
  unfold crossing. assert (E : related cf B A = related cf A B) by (unfold related; now destruct (c_featrel cf), (fd_target A), (fd_target B)).
  rewrite E. destruct (related cf A B); [|eauto]. clear E. unfold plan_two. intros H.
  set (pp := fun a b : string * list F => plan_pair cf (fd_target A) (fd_target B) (fst a) (fst b) (snd a) (snd b)).
  set (qq := fun b a : string * list F => plan_pair cf (fd_target B) (fd_target A) (fst b) (fst a) (snd b) (snd a)).
  change (rflat (fun a => rflat (pp a) (concepts_of B)) (concepts_of A) = Ok l) in H.
  change (exists l', rflat (fun b => rflat (qq b) (concepts_of A)) (concepts_of B) = Ok l' /\ Permutation l l').
  assert (P1 : forall a b, In a (concepts_of A) -> In b (concepts_of B) -> exists y, pp a b = Ok y).
  { intros a b Ha Hb. assert (X : exists x, rflat (fun a => rflat (pp a) (concepts_of B)) (concepts_of A) = Ok x) by eauto.
    pose proof (proj1 (rflat_ok_iff _ _) X a Ha) as Y. cbv beta in Y. exact (proj1 (rflat_ok_iff _ _) Y b Hb). }
  assert (P2 : forall a b, In a (concepts_of A) -> In b (concepts_of B) -> exists y, qq b a = Ok y /\ Permutation (okl (pp a b)) y).
  { intros a b Ha Hb. destruct (P1 a b Ha Hb) as [y Hy]. destruct (plan_pair_sym _ _ _ _ _ _ _ Hy) as (y' & Hy' & P). exists y'. split; auto. now rewrite Hy. }
  assert (Q : forall b, In b (concepts_of B) -> rflat (qq b) (concepts_of A) = Ok (flat_map (fun a => okl (qq b a)) (concepts_of A))).
  { intros b Hb. apply rflat_eq. intros a Ha. destruct (P2 a b Ha Hb) as (y & Hy & _). eauto. }
  exists (flat_map (fun b => flat_map (fun a => okl (qq b a)) (concepts_of A)) (concepts_of B)). split.
  - rewrite rflat_eq by (intros b Hb; rewrite (Q b Hb); eauto). f_equal. rewrite !flat_map_concat_map. f_equal. apply map_ext_in. intros b Hb. now rewrite (Q b Hb).
  - apply rflat_ok in H. subst l. eapply Permutation_trans; [|apply flat_map_cross]. apply flat_map_Perm. intros a Ha.
    rewrite rflat_eq by (intros; now apply P1). cbn [okl]. apply flat_map_Perm. intros b Hb. destruct (P2 a b Ha Hb) as (y & -> & P). exact P.
Qed.

(** ** What a successful plan consists of *)
Definition fits (A B : fdesc F) : Prop := exists l, crossing A B = Ok l.
Fixpoint all_fit (l : list (fdesc F)) : Prop := match l with [] => True | d :: t => (forall e, In e t -> fits e d) /\ all_fit t end.
Fixpoint pairs (l : list (fdesc F)) : list rel := match l with [] => [] | d :: t => flat_map (fun e => okl (crossing e d)) t ++ pairs t end.
Lemma fits_sym A B : fits A B -> fits B A.
Proof. intros [l H]. apply crossing_sym in H as (l' & H & _). now exists l'. Qed.
Lemma crossed_sym A B : fits A B -> Permutation (okl (crossing A B)) (okl (crossing B A)).
Proof. intros [l H]. destruct (crossing_sym _ _ _ H) as (l' & H' & P). now rewrite H, H'. Qed.
Lemma all_fit_perm l l' : Permutation l l' -> all_fit l -> all_fit l' /\ Permutation (pairs l) (pairs l').
Proof.
  induction 1 as [|d l l' P IH|a b l|l1 l2 l3 _ IH1 _ IH2]; cbn [all_fit pairs]; auto.
  - intros [H1 H2]. destruct (IH H2) as [I1 I2]. split; [split; auto; intros e He; apply H1; eapply Permutation_in; [apply Permutation_sym|]; eauto|].
    apply Permutation_app; auto. now apply Permutation_flat_map.
  - intros [H1 [H2 H3]]. pose proof (H1 a (or_introl eq_refl)) as Hab. split.
    + split; [intros e [<-|He]; [now apply fits_sym|auto]|]. split; auto. intros e He. apply H1. now right.
    + cbn [flat_map]. pose proof (crossed_sym _ _ Hab) as C. rewrite <- !app_assoc.
      eapply Permutation_trans; [apply Permutation_app_tail; exact C|]. apply Permutation_app_head.
      rewrite !app_assoc. apply Permutation_app_tail, Permutation_app_comm.
  - intros H. destruct (IH1 H) as [H2 P1]. destruct (IH2 H2) as [H3 P2]. split; auto. eapply Permutation_trans; eauto.
Qed.
Lemma plan_cross_eq d L : plan_cross cf d L = rflat (crossing d) L.
Proof. reflexivity. Qed.
Lemma plan_split dc targets ds : forall done ops out, NoDup (map fd_feat done ++ dkeys ds) -> plan_build cf dc targets done ds = Ok (ops, out) ->
  exists l, rmap (describe cf dc targets) ds = Ok l /\ out = done ++ map snd l /\
    (forall d e, In d (map snd l) -> In e done -> fits d e) /\ all_fit (map snd l) /\
    Permutation ops (flat_map fst l ++ map rel_op (flat_map (plan_inner cf) (map snd l) ++ flat_map (fun d => flat_map (fun e => okl (crossing d e)) done) (map snd l) ++ pairs (map snd l))).
Proof.
  induction ds as [|fc ds IH]; intros done ops out ND H; cbn [plan_build rmap] in *.
  - injection H as <- <-. exists []. cbn. rewrite app_nil_r. repeat split; auto. intros d e [].
  - unfold plan_feature in H. destruct (describe cf dc targets fc) as [[o1 d]|er] eqn:Ed; [|discriminate]. cbn [rbind] in *.
    destruct (describe_described cf _ _ _ _ _ Ed) as (_ & Df & _).
    destruct (plan_cross cf d (others cf done (fst fc))) as [rels|er] eqn:Ec; [|discriminate]. cbn [rbind] in H.
    destruct (plan_build cf dc targets (done ++ [d]) ds) as [[ops2 out2]|er] eqn:Eb; [|discriminate]. cbn [rbind] in H. injection H as <- <-.
    assert (ND' : NoDup (map fd_feat (done ++ [d]) ++ dkeys ds)) by (rewrite map_app, <- app_assoc; cbn; now rewrite Df).
    destruct (IH _ _ _ ND' Eb) as (l & Hl & -> & C1 & C2 & P). exists ((o1, d) :: l). rewrite Hl. cbn [rbind map snd flat_map fst]. split; auto. split; [now rewrite <- app_assoc|].
    assert (Po : Permutation (others cf done (fst fc)) done).
    { apply others_perm; auto; [eapply NoDup_app_left; eauto|]. cbn in ND. apply NoDup_remove_2 in ND. intros X. apply ND. apply in_app_iff. now left. }
    assert (Fd : forall e, In e done -> fits d e).
    { intros e He. assert (X : exists x, rflat (crossing d) (others cf done (fst fc)) = Ok x) by (rewrite <- plan_cross_eq; eauto).
      apply (proj1 (rflat_ok_iff _ _) X). eapply Permutation_in; [apply Permutation_sym|]; eauto. }
    split; [intros d' e [<-|Hd] He; auto; apply C1; auto; apply in_app_iff; now left|]. split.
    { cbn [all_fit]. split; auto. intros e He. apply C1; auto. apply in_app_iff. right. now left. }
    rewrite <- !app_assoc. apply Permutation_app_head. rewrite map_app, <- app_assoc.
    eapply Permutation_trans; [apply Permutation_app_head, Permutation_app_head, P|].
    rewrite plan_cross_eq in Ec. apply rflat_ok in Ec.
    assert (Pr : Permutation rels (flat_map (fun e => okl (crossing d e)) done)) by (subst rels; now apply Permutation_flat_map).
    set (X1 := plan_inner cf d) in *. set (X2 := flat_map (fun e => okl (crossing d e)) done) in *.
    set (Y0 := flat_map fst l). set (Y1 := flat_map (plan_inner cf) (map snd l)).
    assert (Z : Permutation (flat_map (fun d0 => flat_map (fun e => okl (crossing d0 e)) (done ++ [d])) (map snd l))
        (flat_map (fun d0 => flat_map (fun e => okl (crossing d0 e)) done) (map snd l) ++ flat_map (fun e => okl (crossing e d)) (map snd l))).
    { eapply Permutation_trans; [|apply flat_map_split]. apply flat_map_Perm. intros a _. rewrite flat_map_app. cbn [flat_map]. rewrite app_nil_r. apply Permutation_refl. }
    set (Z1 := flat_map (fun d0 => flat_map (fun e => okl (crossing d0 e)) done) (map snd l)) in *.
    set (Z2 := flat_map (fun e => okl (crossing e d)) (map snd l)) in *. cbn [pairs]. fold Z2.
    set (ZZ := flat_map (fun d0 => flat_map (fun e => okl (crossing d0 e)) (done ++ [d])) (map snd l)) in *. set (PP := pairs (map snd l)).
    rewrite (app_assoc (map rel_op X1)). eapply Permutation_trans; [apply Permutation_app_swap_app|]. apply Permutation_app_head.
    assert (G : Permutation (X1 ++ rels ++ Y1 ++ ZZ ++ PP) ((X1 ++ Y1) ++ (X2 ++ Z1) ++ Z2 ++ PP)).
    { rewrite <- !app_assoc. apply Permutation_app_head.
      eapply Permutation_trans; [apply Permutation_app_swap_app|]. apply Permutation_app_head.
      eapply Permutation_trans; [apply Permutation_app_tail, Pr|]. apply Permutation_app_head. rewrite (app_assoc Z1). now apply Permutation_app_tail. }
    apply (Permutation_map rel_op) in G. rewrite <- !map_app. rewrite <- !app_assoc in *. exact G.
Qed.
Lemma plan_join dc targets ds : forall done l, NoDup (map fd_feat done ++ dkeys ds) -> rmap (describe cf dc targets) ds = Ok l ->
  (forall d e, In d (map snd l) -> In e done -> fits d e) -> all_fit (map snd l) ->
  exists ops, plan_build cf dc targets done ds = Ok (ops, done ++ map snd l).
Proof.
  induction ds as [|fc ds IH]; intros done l ND H C1 C2; cbn [plan_build rmap] in *.
  - injection H as <-. exists []. cbn. now rewrite app_nil_r.
  - apply rbind_ok in H as ([o1 d] & Ed & H). apply rbind_ok in H as (l' & Hl & H). injection H as <-. cbn [map snd all_fit] in *. destruct C2 as [C2 C3].
    destruct (describe_described cf _ _ _ _ _ Ed) as (_ & Df & _). unfold plan_feature. rewrite Ed. cbn [rbind].
    assert (Po : Permutation (others cf done (fst fc)) done).
    { apply others_perm; auto; [eapply NoDup_app_left; eauto|]. cbn in ND. apply NoDup_remove_2 in ND. intros X. apply ND. apply in_app_iff. now left. }
    rewrite plan_cross_eq, rflat_eq by (intros e He; apply C1; [now left|eapply Permutation_in; eauto]). cbn [rbind].
    assert (ND' : NoDup (map fd_feat (done ++ [d]) ++ dkeys ds)) by (rewrite map_app, <- app_assoc; cbn; now rewrite Df).
    assert (C4 : forall d' e, In d' (map snd l') -> In e (done ++ [d]) -> fits d' e) by (intros d' e Hd He; apply in_app_iff in He as [He|[He|[]]]; [apply C1; [now right|exact He]|subst e; now apply C2]).
    destruct (IH (done ++ [d]) l' ND' Hl C4 C3) as (ops & ->). cbn [rbind]. eexists. rewrite <- (app_assoc done). reflexivity.
Qed.
Lemma rmap_Perm {A B} (f : A -> res B) l l' bs : Permutation l l' -> rmap f l = Ok bs -> exists bs', rmap f l' = Ok bs' /\ Permutation bs bs'.
Proof.
  intros P. revert bs. induction P as [|a l l' P IH|a b l|l1 l2 l3 _ IH1 _ IH2]; intros bs; cbn [rmap].
  - eauto.
  - intros H. apply rbind_ok in H as (x & Hx & H). apply rbind_ok in H as (xs & Hxs & H). injection H as <-. rewrite Hx. cbn [rbind].
    destruct (IH xs Hxs) as (ys & -> & Py). cbn [rbind]. eauto.
  - intros H. apply rbind_ok in H as (x & Hx & H). apply rbind_ok in H as (xs & Hxs & H). apply rbind_ok in Hxs as (y & Hy & Hxs). apply rbind_ok in Hxs as (ys & Hys & Hxs).
    injection H as <-. injection Hxs as <-. rewrite Hx, Hy. cbn [rbind]. rewrite Hys. cbn [rbind]. eexists. split; [reflexivity|constructor].
  - intros H. destruct (IH1 _ H) as (b2 & H2 & P2). destruct (IH2 _ H2) as (b3 & H3 & P3). exists b3. split; auto. eapply Permutation_trans; eauto.
Qed.
Lemma describe_targets dc t t' fc : (forall f, str_mem f t = str_mem f t') -> describe cf dc t fc = describe cf dc t' fc.
Proof. intros H. destruct fc as [f c]. unfold describe, plan_discrete, plan_continuous. now rewrite (H f). Qed.
Lemma plan_columns dc t t' ds ds' ops fds : NoDup (dkeys ds) -> Permutation ds ds' -> (forall f, str_mem f t = str_mem f t') ->
  plan_build cf dc t [] ds = Ok (ops, fds) -> exists ops' fds', plan_build cf dc t' [] ds' = Ok (ops', fds') /\ Permutation fds fds' /\ Permutation ops ops'.
Proof.
  intros ND P Ht H. destruct (plan_split dc t ds [] ops fds ND H) as (l & Hl & -> & _ & C & Po). cbn [app] in *.
  destruct (rmap_Perm _ _ _ _ P Hl) as (l' & Hl' & Pl).
  assert (Hl2 : rmap (describe cf dc t') ds' = Ok l').
  { rewrite <- Hl'. apply rmap_ext. intros fc _. symmetry. now apply describe_targets. }
  assert (Ps : Permutation (map snd l) (map snd l')) by now apply Permutation_map.
  destruct (all_fit_perm _ _ Ps C) as [C' Pp].
  assert (ND' : NoDup (dkeys ds')) by (eapply Permutation_NoDup; [|exact ND]; now apply Permutation_map).
  destruct (plan_join dc t' ds' [] l' ND' Hl2) as (ops' & H'); [intros d e _ []|exact C'|].
  destruct (plan_split dc t' ds' [] ops' (map snd l') ND' H') as (l2 & Hl3 & _ & _ & _ & Po'). rewrite Hl2 in Hl3. injection Hl3 as <-.
  exists ops', (map snd l'). split; auto. split; auto.
  eapply Permutation_trans; [exact Po|]. eapply Permutation_trans; [|apply Permutation_sym; exact Po'].
  apply Permutation_app; [now apply Permutation_flat_map|]. apply Permutation_map. cbn [flat_map]. rewrite !flat_map_nil. cbn [app].
  apply Permutation_app; auto. now apply Permutation_flat_map.
Qed.
End Columns.

(** ** Calls in another order *)
Section Calls.
Implicit Types s t : fcm R.
Definition is_rel (o : op R) : bool := negb (is_add_concept o).
Lemma add_past n ct a0 m e d f k a b w s : n <> a -> n <> b -> m_fit s = None ->
  sim (fst (add_concept n ct a0 m e d f k (fst (add_relation a b w s)))) (fst (add_relation a b w (fst (add_concept n ct a0 m e d f k s)))).
Proof.
  intros Na Nb Fi. destruct (add_relation_strip a b w s Fi) as (A1 & A2 & A3 & A4 & A5 & A6 & A7).
  assert (X : forall s, let t := fst (add_concept n ct a0 m e d f k s) in settings t = settings s /\ m_fit t = m_fit s /\ m_iters t = m_iters s /\ m_arcs t = m_arcs s /\
    (exists nd r, (forall s', m_default s' = m_default s -> build_node (m_default s') ct a0 m e d f k = (nd, r)) /\ m_topo t = dset (m_topo s) n nd /\
      m_exec t = match r with Ok _ => dset (m_exec s) n [n0] | Err _ => m_exec s end)).
  { clear. intros s. unfold add_concept. cbn [m_default set_prepared]. destruct (build_node (m_default s) ct a0 m e d f k) as [nd [u|er]] eqn:E; cbn [fst];
      (split; [reflexivity|]; split; [reflexivity|]; split; [reflexivity|]; split; [reflexivity|]); eexists; eexists; (split; [intros s' ->; exact E|]); split; reflexivity. }
  destruct (X s) as (B1 & B2 & B3 & B4 & nd & r & B5 & B6 & B7).
  destruct (X (fst (add_relation a b w s))) as (C1 & C2 & C3 & C4 & nd' & r' & C5 & C6 & C7).
  assert (E : (nd', r') = (nd, r)).
  { rewrite <- (C5 (fst (add_relation a b w s)) eq_refl). apply B5. now apply settings_fit in A2. }
  injection E as -> ->. rewrite Fi in B2. destruct (add_relation_strip a b w _ B2) as (D1 & D2 & D3 & D4 & D5 & D6 & D7).
  assert (Mm : forall z, z <> n -> str_mem z (dkeys (m_topo (fst (add_concept n ct a0 m e d f k s)))) = str_mem z (dkeys (m_topo s))).
  { intros z Hz. rewrite B6. apply Bool.eq_true_iff_eq. rewrite !str_mem_In, dkeys_dset_In. intuition. }
  rewrite !Mm in D6, D7 by auto. constructor.
  - congruence.
  - congruence.
  - rewrite C4, A6, D6, B4. apply Permutation_refl.
  - intros c. rewrite D7, C6, B6, !dget_dset. destruct (String.eqb_spec c n) as [->|Hc].
    + cbn [option_map]. apply String.eqb_neq in Nb. rewrite Nb, Bool.andb_false_r. reflexivity.
    + symmetry. apply A7.
  - intros c. rewrite D4, B7, C7. destruct r; [rewrite !dget_dset|]; now rewrite A4.
Qed.
Lemma add_swap n ct a m e d f k n' ct' a' m' e' d' f' k' s : n <> n' ->
  sim (fst (add_concept n ct a m e d f k (fst (add_concept n' ct' a' m' e' d' f' k' s)))) (fst (add_concept n' ct' a' m' e' d' f' k' (fst (add_concept n ct a m e d f k s)))).
Proof.
  intros Hn. unfold add_concept. cbn [m_default set_prepared].
  destruct (build_node (m_default s) ct a m e d f k) as [nd [u|er]] eqn:E1, (build_node (m_default s) ct' a' m' e' d' f' k') as [nd' [u'|er']] eqn:E2;
    cbn [fst m_default set_prepared put_node put_exec set_topo set_exec]; rewrite ?E1, ?E2; cbn [fst m_default set_prepared put_node put_exec set_topo set_exec];
    (constructor; [reflexivity|reflexivity|apply Permutation_refl| |]); intros c; cbn [m_topo m_exec set_prepared put_node put_exec set_topo set_exec]; rewrite ?dget_dset;
    destruct (String.eqb_spec c n) as [Q1|], (String.eqb_spec c n') as [Q2|]; try congruence; reflexivity.
Qed.
Lemma step_sim_build o s t : is_building o = true -> m_fit s = None -> sim s t -> sim (fst (step o s)) (fst (step o t)) /\ m_fit (fst (step o s)) = None.
Proof.
  intros Bo Fi S. split.
  - destruct o; try discriminate Bo; cbn [step]; [now apply add_concept_sim|now apply add_relation_sim].
  - pose proof (build_settings o s Bo) as Se. apply settings_fit in Se as [Se _]. congruence.
Qed.
Lemma run_sim_build ops : forall s t, forallb is_building ops = true -> m_fit s = None -> sim s t -> sim (run_ops ops s) (run_ops ops t) /\ m_fit (run_ops ops s) = None.
Proof.
  induction ops as [|o ops IH]; intros s t Bu Fi S; auto. cbn [forallb] in Bu. apply andb_prop in Bu as [Bo Bu].
  unfold run_ops. cbn [fold_left]. destruct (step_sim_build o s t Bo Fi S) as [X Y]. now apply IH.
Qed.
Lemma step_fit o s : is_building o = true -> m_fit s = None -> m_fit (fst (step o s)) = None.
Proof. intros Bo Fi. now apply (step_sim_build o s s Bo Fi (sim_refl s)). Qed.
Lemma run_fit ops s : forallb is_building ops = true -> m_fit s = None -> m_fit (run_ops ops s) = None.
Proof. intros Bo Fi. now apply (run_sim_build ops s s Bo Fi (sim_refl s)). Qed.
Lemma rel_past_adds a b w ops : forall s, forallb is_add_concept ops = true -> ~ In a (flat_map added ops) -> ~ In b (flat_map added ops) -> m_fit s = None ->
  sim (run_ops ops (fst (add_relation a b w s))) (fst (add_relation a b w (run_ops ops s))).
Proof.
  induction ops as [|o ops IH]; intros s Bu Ha Hb Fi; [apply sim_refl|]. cbn [forallb] in Bu. apply andb_prop in Bu as [Bo Bu].
  destruct o as [n ct a0 m e d f k| | | | | | | | | | | | | | | | |]; try discriminate. cbn [flat_map added app] in Ha, Hb. unfold run_ops. cbn [fold_left]. cbn [step].
  assert (Bu' : forallb is_building ops = true).
  { rewrite forallb_forall in *. intros o Ho. unfold is_building. now rewrite (Bu o Ho). }
  assert (Bn : is_building (F := R) (OpAddConcept n ct a0 m e d f k) = true) by reflexivity.
  eapply sim_trans; [|apply IH; auto].
  - apply run_sim_build; auto.
    + apply (step_fit (OpAddConcept n ct a0 m e d f k) _ Bn). now apply add_relation_strip.
    + apply add_past; auto; intros E; [apply Ha|apply Hb]; now left.
  - intros E. apply Ha. now right.
  - intros E. apply Hb. now right.
  - now apply (step_sim_build (OpAddConcept n ct a0 m e d f k) s s Bn Fi (sim_refl s)).
Qed.
Definition by_kind (ops : list (op R)) : list (op R) := filter is_add_concept ops ++ filter is_rel ops.
Lemma adds_only (ops : list (op R)) : flat_map added (filter is_add_concept ops) = flat_map added ops.
Proof. induction ops as [|o ops IH]; auto. destruct o; cbn; now rewrite ?IH. Qed.
Lemma filter_building p (ops : list (op R)) : forallb is_building ops = true -> forallb is_building (filter p ops) = true.
Proof. rewrite !forallb_forall. intros H o Ho. apply filter_In in Ho as [Ho _]. auto. Qed.
Lemma run_by_kind ops : forall names s, forallb is_building ops = true -> announced names ops -> NoDup (names ++ flat_map added ops) -> m_fit s = None ->
  sim (run_ops ops s) (run_ops (by_kind ops) s).
Proof.
  induction ops as [|o ops IH]; intros names s Bu An ND Fi; [apply sim_refl|]. cbn [forallb] in Bu. apply andb_prop in Bu as [Bo Bu].
  destruct (step_sim_build o s s Bo Fi (sim_refl s)) as [_ Fi'].
  destruct o as [n ct a0 m e d f k| | |a b w| | | | | | | | | | | | | |]; try discriminate Bo.
  - cbn [announced flat_map added app] in *. unfold by_kind. cbn [filter is_add_concept is_rel negb app]. unfold run_ops. cbn [fold_left].
    apply (IH (names ++ [n])); auto. now rewrite <- app_assoc.
  - cbn [announced flat_map added app] in *. destruct An as (Ha & Hb & An).
    unfold run_ops. cbn [fold_left]. eapply sim_trans; [apply (IH names); auto|]. unfold by_kind. cbn [filter is_add_concept is_rel negb].
    fold (run_ops (by_kind ops) (fst (step (OpAddRelation a b w) s))). fold (run_ops (filter is_add_concept ops ++ OpAddRelation a b w :: filter is_rel ops) s).
    unfold by_kind. rewrite !run_ops_app. unfold run_ops at 3. cbn [fold_left]. apply run_sim_build; [now apply filter_building| |].
    + apply run_fit; auto. now apply filter_building.
    + cbn [step]. assert (Nin : forall z, In z names -> ~ In z (flat_map added (filter is_add_concept ops))).
      { intros z Hz Hz'. rewrite adds_only in Hz'. clear - ND Hz Hz'. induction names as [|y l IHl]; [easy|]. cbn in ND. apply NoDup_cons_iff in ND as [N1 N2].
        destruct Hz as [->|Hz]; auto. apply N1, in_app_iff. now right. }
      apply rel_past_adds; auto. rewrite forallb_forall. intros o Ho. now apply filter_In in Ho.
Qed.
Lemma adds_perm l l' : Permutation l l' -> forallb is_add_concept l = true -> NoDup (flat_map added l) -> forall s, m_fit s = None -> sim (run_ops l s) (run_ops l' s).
Proof.
  assert (Bd : forall l : list (op R), forallb is_add_concept l = true -> forallb is_building l = true).
  { intros z Hz. rewrite forallb_forall in *. intros o Ho. unfold is_building. now rewrite (Hz o Ho). }
  induction 1 as [|o l l' P IH|o o' l|l1 l2 l3 P1 IH1 P2 IH2]; intros Al ND s Fi.
  - apply sim_refl.
  - cbn [forallb] in Al. apply andb_prop in Al as [Ao Al]. unfold run_ops. cbn [fold_left]. apply IH; auto.
    + cbn [flat_map] in ND. now apply NoDup_app_right in ND.
    + apply step_fit; auto. unfold is_building. now rewrite Ao.
  - cbn [forallb] in Al. apply andb_prop in Al as [Ao' Al]. apply andb_prop in Al as [Ao Al]. unfold run_ops. cbn [fold_left].
    apply run_sim_build; auto.
    + apply step_fit; [unfold is_building; now rewrite Ao|]. apply step_fit; auto. unfold is_building; now rewrite Ao'.
    + destruct o as [n ct a0 m e d f k| | | | | | | | | | | | | | | | |]; try discriminate.
      destruct o' as [n' ct' a0' m' e' d' f' k'| | | | | | | | | | | | | | | | |]; try discriminate. cbn [step]. apply add_swap.
      cbn [flat_map added app] in ND. apply NoDup_cons_iff in ND as [N1 _]. intros E. apply N1. now left.
  - eapply sim_trans; [apply IH1; auto|]. apply IH2; auto.
    + rewrite forallb_forall in *. intros o Ho. apply Al. eapply Permutation_in; [apply Permutation_sym|]; eauto.
    + eapply Permutation_NoDup; [|exact ND]. now apply Permutation_flat_map.
Qed.
Lemma rels_perm l l' : Permutation l l' -> forallb is_building l = true -> forallb is_rel l = true -> forall s, m_fit s = None -> sim (run_ops l s) (run_ops l' s).
Proof.
  induction 1 as [|o l l' P IH|o o' l|l1 l2 l3 P1 IH1 P2 IH2]; intros Bu Al s Fi.
  - apply sim_refl.
  - cbn [forallb] in Al, Bu. apply andb_prop in Al as [Ao Al]. apply andb_prop in Bu as [Bo Bu]. unfold run_ops. cbn [fold_left]. apply IH; auto.
    now apply step_fit.
  - cbn [forallb] in Al, Bu. apply andb_prop in Al as [Ao' Al]. apply andb_prop in Al as [Ao Al]. apply andb_prop in Bu as [Bo' Bu]. apply andb_prop in Bu as [Bo Bu].
    unfold run_ops. cbn [fold_left]. apply run_sim_build; auto.
    + apply step_fit; auto. now apply step_fit.
    + destruct o; try discriminate; destruct o'; try discriminate. cbn [step]. now apply add_relation_swap.
  - eapply sim_trans; [apply IH1; auto|]. apply IH2; auto; rewrite forallb_forall in *; intros o Ho; [apply Bu|apply Al]; (eapply Permutation_in; [apply Permutation_sym|]; eauto).
Qed.
Lemma filter_Perm {A} (p : A -> bool) l l' : Permutation l l' -> Permutation (filter p l) (filter p l').
Proof.
  induction 1 as [|a l l' _ IH|a b l|]; cbn [filter]; auto.
  - destruct (p a); auto.
  - destruct (p a), (p b); auto using perm_swap.
  - eapply Permutation_trans; eauto.
Qed.
Theorem calls_perm ops ops' s : Permutation ops ops' -> forallb is_building ops = true -> announced [] ops -> announced [] ops' -> NoDup (flat_map added ops) -> m_fit s = None ->
  sim (run_ops ops s) (run_ops ops' s).
Proof.
  intros P Bu An An' ND Fi.
  assert (Bu' : forallb is_building ops' = true).
  { rewrite forallb_forall in *. intros o Ho. apply Bu. eapply Permutation_in; [apply Permutation_sym|]; eauto. }
  assert (ND' : NoDup (flat_map added ops')) by (eapply Permutation_NoDup; [|exact ND]; now apply Permutation_flat_map).
  eapply sim_trans; [now apply (run_by_kind ops [] s)|]. eapply sim_trans; [|apply sim_sym; now apply (run_by_kind ops' [] s)].
  unfold by_kind. rewrite !run_ops_app.
  assert (F1 : m_fit (run_ops (filter is_add_concept ops) s) = None) by (apply run_fit; auto; now apply filter_building).
  eapply sim_trans; [apply (rels_perm (filter is_rel ops) (filter is_rel ops')); auto|].
  - now apply filter_Perm.
  - now apply filter_building.
  - rewrite forallb_forall. intros o Ho. now apply filter_In in Ho.
  - apply run_sim_build; auto; [now apply filter_building|]. apply adds_perm; auto; [now apply filter_Perm| |now rewrite adds_only].
    rewrite forallb_forall. intros o Ho. now apply filter_In in Ho.
Qed.
End Calls.
