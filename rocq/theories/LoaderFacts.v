(** LoaderFacts.v — saving and loading maps. *)
From Verif Require Import Base BaseFacts Num Functions Fcm FcmSpec FcmInv FcmInv2 FcmInv3 FcmIter FcmRun FcmRun2 Loader LoaderSpec.

Section LoaderFacts.
Context {F : Type} {N : Num F}.
Implicit Types s : fcm F.

(** ** Reading back a saved concept *)
(** what from_json reads of a concept written by to_json *)
Definition reads_as (s0 : fcm F) (c : string) (n : node F) (cd : concept_desc F) : Prop :=
  exists t f,
  nd_type n = Some t /\ nd_func n = Some f /\
  cd_id cd = c /\ cd_active cd = Some true /\ cd_mem cd = None /\ cd_exec cd = Some "KOSKO" /\
  cd_activation cd = Some (nd_value n) /\
  cd_type cd = (if String.eqb t TYPE_DECISION then TYPE_DECISION else TYPE_SIMPLE) /\
  ((f = m_func s0 /\ cd_func cd = None /\ cd_adict cd = None /\ cd_args cd = []) \/
   (f <> m_func s0 /\ f = "fuzzy" /\ cd_func cd = Some f /\ exists d, cd_adict cd = Some d) \/
   (f <> m_func s0 /\ f <> "fuzzy" /\ cd_func cd = Some f /\ cd_adict cd = None /\
    exists a, nd_args n = Some a /\ cd_args cd = a)).

Lemma type_decision t : type_name t = "DECISION" <-> t = TYPE_DECISION.
Proof.
  unfold type_name. destruct (String.eqb_spec t TYPE_REGRESOR) as [->|]; [split; discriminate|].
  destruct (String.eqb_spec t TYPE_FUZZY) as [->|]; [split; discriminate|].
  destruct (String.eqb_spec t TYPE_DECISION) as [->|]; split; auto; congruence.
Qed.
Lemma type_read t :
  (match type_name t with "DECISION" => TYPE_DECISION | _ => TYPE_SIMPLE end) =
  (if String.eqb t TYPE_DECISION then TYPE_DECISION else TYPE_SIMPLE).
Proof.
  unfold type_name. destruct (String.eqb_spec t TYPE_REGRESOR) as [->|]; [reflexivity|].
  destruct (String.eqb_spec t TYPE_FUZZY) as [->|]; [reflexivity|].
  destruct (String.eqb_spec t TYPE_DECISION) as [->|]; reflexivity.
Qed.
Lemma rmap_jnum (l : list F) : rmap jnum (map JNum l) = Ok l.
Proof. induction l as [|x l IH]; cbn; auto. cbn in IH. rewrite IH. reflexivity. Qed.
Lemma jarg_json v a : jarg (arg_json v) = Ok a -> a = v.
Proof.
  destruct v as [x|l|l]; cbn.
  - now intros [= <-].
  - discriminate.
  - rewrite rmap_jnum. cbn. now intros [= <-].
Qed.
Lemma jkwargs_json taken (a : args F) kw : jkwargs taken (args_json a) = Ok kw -> kw = a.
Proof.
  unfold jkwargs, args_json. cbn [jobj rbind]. destruct (existsb _ _); [discriminate|].
  revert kw. induction a as [|[k v] a IH]; intros kw; cbn [dmap map rmap].
  - now intros [= <-].
  - cbn [fst snd rbind]. destruct (jarg (arg_json v)) as [v'|] eqn:E; [|discriminate]. apply jarg_json in E. subst v'.
    cbn [rbind]. intros H. apply rbind_ok in H as (bs & Hb & H). injection H as <-. f_equal. now apply IH.
Qed.
Lemma read_concept_json s0 c n j cd :
  concept_json s0 (c, n) = Ok j -> read_concept j = Ok cd -> reads_as s0 c n cd.
Proof.
  unfold concept_json. intros H.
  apply rbind_ok in H as (t & Ht & H). apply rbind_ok in H as (ac & Hac & H).
  apply rbind_ok in H as (m & Hm & H). apply rbind_ok in H as (f & Hf & H).
  destruct (nd_type n) as [t'|] eqn:Et; [|discriminate]. injection Ht as ->.
  destruct (nd_func n) as [f'|] eqn:Ef; [|discriminate]. injection Hf as ->. cbv zeta in H.
  apply rbind_ok in H as (fu & Hfu & H). injection H as <-.
  set (memo := if Bool.eqb m (m_mem s0) then [] else _).
  assert (Hmemo : memo = [] \/ exists b, memo = [("use_memory", @JBool F b)]) by (unfold memo; destruct (Bool.eqb _ _); eauto).
  clearbody memo.
  intros Hr. exists t, f. split; auto. split; auto.
  destruct (String.eqb_spec f (m_func s0)) as [Hfn|Hfn].
  - injection Hfu as <-. unfold read_concept in Hr. cbn [jobj rbind] in Hr.
    destruct Hmemo as [->|[b ->]]; cbn in Hr; rewrite type_read in Hr; injection Hr as <-; cbn; repeat split; auto.
  - destruct (String.eqb_spec f "fuzzy") as [Hfz|Hfz].
    + apply rbind_ok in Hfu as ([memb vals] & Hz & Hfu). injection Hfu as <-.
      unfold read_concept in Hr. cbn [jobj rbind] in Hr.
      destruct Hmemo as [->|[b ->]]; cbn in Hr; rewrite !rmap_jnum in Hr; cbn in Hr; rewrite type_read in Hr;
        injection Hr as <-; cbn; repeat split; auto; right; left; repeat split; auto; eauto.
    + apply rbind_ok in Hfu as (a & Ha & Hfu). injection Hfu as <-.
      destruct (nd_args n) as [a'|] eqn:Ea; [|discriminate]. injection Ha as ->.
      unfold read_concept in Hr. cbn [jobj rbind] in Hr.
      assert (Hcd : exists cd0, cd = cd0 /\ cd_id cd0 = c /\ cd_active cd0 = Some true /\ cd_mem cd0 = None /\ cd_exec cd0 = Some "KOSKO" /\
        cd_activation cd0 = Some (nd_value n) /\ cd_type cd0 = (if String.eqb t TYPE_DECISION then TYPE_DECISION else TYPE_SIMPLE) /\
        cd_func cd0 = Some f /\ cd_adict cd0 = None /\ cd_args cd0 = a).
      { destruct a as [|p a].
        - destruct Hmemo as [->|[b ->]]; cbn in Hr; rewrite type_read in Hr; injection Hr as <-; eexists; (split; [reflexivity|]); cbn; repeat split; auto.
        - set (a0 := p :: a) in *. clearbody a0. clear p a.
          destruct Hmemo as [->|[b ->]];
          cbn -[jkwargs args_json] in Hr;
          (destruct (jkwargs concept_params (args_json a0)) as [kw|] eqn:Ek; [|discriminate]); apply jkwargs_json in Ek; subst kw;
          cbn [rbind] in Hr; rewrite type_read in Hr; injection Hr as <-; eexists; (split; [reflexivity|]); cbn; repeat split; auto. }
      destruct Hcd as (cd0 & -> & H1 & H2 & H3 & H4 & H5 & H6 & H7 & H8 & H9).
      repeat split; auto. right; right; repeat split; auto; eauto.
Qed.

(** ** Loading a saved concept *)
Record loaded (f0 : string) (dc : dconcept F) (n n' : node F) : Prop := {
  ld_active : nd_active n' = Some true;
  ld_exec : nd_exec n' = Some "KOSKO";
  ld_type : exists t, nd_type n = Some t /\ nd_type n' = Some (if String.eqb t TYPE_DECISION then TYPE_DECISION else TYPE_SIMPLE);
  ld_mem : nd_mem n' = Some (dc_mem dc);
  ld_value : nd_value n' = nd_value n;
  ld_aux : nd_aux n' = [];
  ld_links : nd_arcs n' = [] /\ nd_sum n' = n0;
  ld_func : exists f f' a', nd_func n = Some f /\ nd_func n' = Some f' /\ f' <> "fuzzy" /\ nd_args n' = Some a' /\
    nd_vect n' = Some (process_function_args a') /\
    ((f = f0 /\ f' = dc_func dc /\ a' = dc_args dc) \/ (f <> f0 /\ f' = f /\ nd_args n = Some a'))
}.
Lemma build_plain dc ty fn kw n r :
  ty = TYPE_SIMPLE \/ ty = TYPE_DECISION ->
  build_node dc (Some ty) (Some true) None (Some "KOSKO") None fn kw = (n, r) -> r = Ok tt ->
  nd_active n = Some true /\ nd_exec n = Some "KOSKO" /\ nd_type n = Some ty /\ nd_mem n = Some (dc_mem dc) /\
  nd_fuzzy n = None /\
  exists f a, nd_func n = Some f /\ nd_args n = Some a /\ nd_vect n = Some (process_function_args a) /\
    ((fn = None /\ f = dc_func dc /\ a = dc_args dc) \/ (fn = Some f /\ a = kw /\ get_function_by_name f <> None)).
Proof.
  intros Hty H Hr. subst r. revert H. unfold build_node.
  change (get_excitation_by_name "KOSKO") with (Some EKosko). cbv iota.
  assert (Hv : is_valid_type ty = true /\ is_fuzzy_type ty = false) by (destruct Hty as [-> | ->]; split; reflexivity).
  destruct Hv as [-> ->]. cbv iota zeta. unfold define_func. destruct fn as [f|].
  - destruct (get_function_by_name f) eqn:Ef; intros [= <-].
    cbn. repeat split; auto. exists f, kw. repeat split; auto. right. repeat split; auto. congruence.
  - intros [= <-]. cbn. repeat split; auto. do 2 eexists. repeat split; auto.
Qed.
Lemma build_dict dc ty ad fn kw n r :
  ty = TYPE_SIMPLE \/ ty = TYPE_DECISION ->
  build_node dc (Some ty) (Some true) None (Some "KOSKO") (Some ad) fn kw = (n, r) ->
  nd_func n = Some "fuzzy" /\ nd_fuzzy n = None.
Proof.
  intros Hty. unfold build_node.
  change (get_excitation_by_name "KOSKO") with (Some EKosko). cbv iota.
  assert (Hv : is_valid_type ty = true /\ is_fuzzy_type ty = false) by (destruct Hty as [-> | ->]; split; reflexivity).
  destruct Hv as [-> ->]. cbv iota zeta. unfold define_func. intros [= <- <-]. split; reflexivity.
Qed.
Lemma cd_type_cases (t : string) : (if String.eqb t TYPE_DECISION then TYPE_DECISION else TYPE_SIMPLE) = TYPE_SIMPLE \/
  (if String.eqb t TYPE_DECISION then TYPE_DECISION else TYPE_SIMPLE) = TYPE_DECISION.
Proof. destruct (String.eqb t TYPE_DECISION); auto. Qed.
Lemma load_concept_spec s0 c n j s s' :
  concept_json s0 (c, n) = Ok j -> load_concept j s = (s', Ok tt) ->
  exists n', s' = set_topo (dset (m_topo s) c n') (set_exec (dset (m_exec s) c [nd_value n]) (set_prepared false s)) /\
    loaded (m_func s0) (m_default s) n n'.
Proof.
  intros Hj. unfold load_concept. destruct (read_concept j) as [cd|] eqn:Er; [|discriminate].
  destruct (read_concept_json s0 c n j cd Hj Er) as (t & f & Ht & Hf & Hid & Hac & Hme & Hex & Hav & Hty & Hfu).
  rewrite Hid, Hac, Hme, Hex, Hav. unfold add_concept. cbn [m_default set_prepared].
  destruct (build_node (m_default s) (Some (cd_type cd)) (Some true) None (Some "KOSKO") (cd_adict cd) (cd_func cd) (cd_args cd))
    as [nd r] eqn:Eb.
  destruct r as [[]|e]; [|discriminate].
  pose proof (build_node_fresh (m_default s) (Some (cd_type cd)) (Some true) None (Some "KOSKO") (cd_adict cd) (cd_func cd) (cd_args cd)) as Fr.
  rewrite Eb in Fr. cbn [fst] in Fr. destruct Fr as (Fr1 & Fr2 & Fr3 & Fr4).
  pose proof (cd_type_cases t) as Hc2. rewrite <- Hty in Hc2.
  set (s1 := put_exec c [n0] (put_node c nd (set_prepared false s))).
  assert (D1 : dget (m_topo s1) c = Some nd) by (unfold s1, put_exec, put_node; cbn [m_topo set_exec set_topo]; apply dget_dset_same).
  intros Hi.
  assert (Hnf : cd_adict cd = None).
  { destruct (cd_adict cd) as [ad|] eqn:Ea; auto. exfalso.
    destruct (build_dict _ _ _ _ _ _ _ Hc2 Eb) as [G1 G2].
    pose proof (init_concept_spec c (nd_value n) true s1 nd "fuzzy" D1 G1) as Hs. cbn in Hs. rewrite G2 in Hs.
    destruct Hs as [e He]. rewrite He in Hi. discriminate. }
  rewrite Hnf in Eb. destruct (build_plain _ _ _ _ _ _ Hc2 Eb eq_refl) as (B1 & B2 & B3 & B4 & B5 & f' & a' & B6 & B7 & B8 & B9).
  pose proof (init_concept_spec c (nd_value n) true s1 nd f' D1 B6) as Hs. rewrite B5 in Hs.
  destruct (String.eqb_spec f' "fuzzy") as [Hz|Hz]; [destruct Hs as [e He]; rewrite He in Hi; discriminate|].
  rewrite Hs in Hi. injection Hi as <-. eexists. split.
  - unfold s1, put_node, put_exec. cbn [m_topo m_exec set_exec set_topo]. rewrite !dset_dset. reflexivity.
  - constructor; cbn; auto.
    + exists t. split; auto. now rewrite B3, Hty.
    + exists f, f', a'. split; [auto|]. split; [auto|]. split; [auto|]. split; [auto|]. split; [auto|].
      destruct Hfu as [(-> & X1 & X2 & X3)|[(X1 & X2 & X3 & ad & X4)|(X1 & X2 & X3 & X4 & a & X5 & X6)]]; [| congruence |].
      * left. destruct B9 as [(Y1 & Y2 & Y3)|(Y1 & _)]; [auto|congruence].
      * right. destruct B9 as [(Y1 & Y2 & Y3)|(Y1 & Y2 & _)]; [congruence|]. repeat split; auto; congruence.
Qed.

(** loading all concepts of a saved document: [src] gives, for each of them, the
    map it was written by, its name and its node *)
Definition written (p : fcm F * (string * node F)) (j : json F) : Prop := concept_json (fst p) (snd p) = Ok j.
Lemma load_concepts_spec (src : list (fcm F * (string * node F))) js s s' :
  Forall2 written src js -> NoDup (map (fun p => fst (snd p)) src) ->
  (forall p, In p src -> ~ In (fst (snd p)) (dkeys (m_topo s)) /\ ~ In (fst (snd p)) (dkeys (m_exec s))) ->
  mfold load_concept js s = (s', Ok tt) ->
  exists ns, m_topo s' = m_topo s ++ ns /\
    m_exec s' = m_exec s ++ map (fun p => (fst (snd p), [nd_value (snd (snd p))])) src /\
    Forall2 (fun p q => fst q = fst (snd p) /\ loaded (m_func (fst p)) (m_default s) (snd (snd p)) (snd q)) src ns /\
    m_arcs s' = m_arcs s /\ settings s' = settings s /\ m_iters s' = m_iters s.
Proof.
  intros HW. revert s. induction HW as [|[s0 [c n]] j src js Hj HW IH]; intros s ND HD E.
  - cbn in E. injection E as <-. exists []. cbn [map]. rewrite !app_nil_r. repeat split; auto.
  - cbn [mfold] in E. destruct (load_concept j s) as [s1 r] eqn:E1. destruct r as [[]|e]; [|discriminate].
    destruct (load_concept_spec s0 c n j s s1 Hj E1) as (n' & -> & Ld).
    cbn [map fst snd] in ND. inversion ND as [|? ? ND1 ND2]; subst.
    destruct (HD (s0, (c, n)) (or_introl eq_refl)) as [Dt De]. cbn [fst snd] in Dt, De.
    rewrite (dset_notin (m_topo s)) in E by auto. rewrite (dset_notin (m_exec s)) in E by auto.
    edestruct IH as (ns & X1 & X2 & X3 & X4 & X5 & X6); [exact ND2| |exact E|].
    + intros p Hp. cbn [m_topo m_exec set_topo set_exec set_prepared]. unfold dkeys. rewrite !map_app, !in_app_iff. cbn [map fst In].
      destruct (HD p (or_intror Hp)) as [Y1 Y2].
      assert (c <> fst (snd p)) by (intros ->; apply ND1; apply in_map_iff; exists p; auto).
      unfold dkeys in Y1, Y2. intuition.
    + exists ((c, n') :: ns). cbn [m_topo m_exec m_arcs m_iters set_topo set_exec set_prepared] in *.
      rewrite X1, X2, <- !app_assoc. cbn [map fst snd app]. repeat split; auto.
Qed.

(** ** Loading relations *)
Definition unlinked (n : node F) : node F := nd_set_arcs [] (nd_set_sum n0 n).
Definition rel_doc (o d : string) (w : F) : json F :=
  JObj [("origin", JStr o); ("destiny", JStr d); ("weight", JNum w)].
Lemma load_relation_eq o d w s : load_relation (rel_doc o d w) s = add_relation o d w s.
Proof. reflexivity. Qed.
Lemma map_dset_same {A B} (g : string * A -> B) (d : dict A) k v v0 : dget d k = Some v0 -> g (k, v) = g (k, v0) ->
  map g (dset d k v) = map g d.
Proof.
  intros H Hg. induction d as [|[k0 w0] d IH]; cbn in *; [discriminate|].
  destruct (String.eqb_spec k k0) as [->|]; cbn.
  - injection H as ->. now rewrite Hg.
  - f_equal. auto.
Qed.
Lemma add_relation_nofit o d w s : m_fit s = None ->
  let '(s', r) := add_relation o d w s in
  r = Ok tt /\ map (fun p => (fst p, unlinked (snd p))) (m_topo s') = map (fun p => (fst p, unlinked (snd p))) (m_topo s) /\
  m_exec s' = m_exec s /\ settings s' = settings s /\ m_iters s' = m_iters s /\
  m_arcs s' = m_arcs s ++ (if str_mem o (concepts s) && str_mem d (concepts s) then [(d, w, o)] else []).
Proof.
  intros Fi. unfold concepts. rewrite <- !dmem_str_mem. unfold dmem.
  destruct (dget (m_topo s) o) as [no|] eqn:Eo.
  2: { unfold add_relation. cbn [m_topo set_prepared]. rewrite Eo. cbn [andb].
       destruct (dget (m_topo s) d); repeat split; auto; cbn [m_arcs set_prepared]; now rewrite app_nil_r. }
  destruct (dget (m_topo s) d) as [nd|] eqn:Ed.
  2: { unfold add_relation. cbn [m_topo set_prepared]. rewrite Ed. cbn [andb]. repeat split; auto. cbn [m_arcs set_prepared]. now rewrite app_nil_r. }
  cbn [andb]. destruct (add_relation_shape o d w s no nd Eo Ed) as (nb1 & Hn & Ha). cbv zeta in Ha. rewrite Fi in Ha. rewrite Ha.
  split; [reflexivity|]. split; [|repeat split; reflexivity].
  unfold put_node. cbn [m_topo set_arcs set_topo set_prepared]. rewrite dset_dset.
  assert (D2 : dget (dset (m_topo s) o (nd_set_arcs (nd_arcs no ++ [(d, w)]) no)) d = Some nb1).
  { rewrite dget_dset. subst nb1. destruct (String.eqb_spec d o); auto. }
  rewrite (map_dset_same _ _ _ _ nb1 D2) by reflexivity.
  apply (map_dset_same _ _ _ _ no Eo). reflexivity.
Qed.
Lemma unlinked_keys (t t' : dict (node F)) :
  map (fun p => (fst p, unlinked (snd p))) t' = map (fun p => (fst p, unlinked (snd p))) t -> dkeys t' = dkeys t.
Proof.
  intros H. apply (f_equal (map fst)) in H. rewrite !map_map in H. exact H.
Qed.
Lemma some_eq {A} (a b : A) : Some a = Some b -> a = b.
Proof. congruence. Qed.
Lemma cons_eq {A} (a b : A) l l' : a :: l = b :: l' -> a = b /\ l = l'.
Proof. intros H. split; congruence. Qed.
Lemma pair_eq {A B} (a a' : A) (b b' : B) : (a, b) = (a', b') -> a = a' /\ b = b'.
Proof. intros H. split; congruence. Qed.
Lemma unlinked_dget (t t' : dict (node F)) c :
  map (fun p => (fst p, unlinked (snd p))) t' = map (fun p => (fst p, unlinked (snd p))) t ->
  option_map unlinked (dget t' c) = option_map unlinked (dget t c).
Proof.
  revert t'. induction t as [|[k n] t IH]; intros [|[k' n'] t']; cbn; try discriminate; auto.
  intros H. apply cons_eq in H as [H H2]. apply pair_eq in H as [-> H1]. destruct (String.eqb c k); auto.
  cbn. now rewrite H1.
Qed.
Lemma load_relations_spec (rels : list (string * string * F)) s s' r :
  m_fit s = None ->
  mfold load_relation (map (fun x => let '(o, d, w) := x in rel_doc o d w) rels) s = (s', r) ->
  r = Ok tt /\
  map (fun p => (fst p, unlinked (snd p))) (m_topo s') = map (fun p => (fst p, unlinked (snd p))) (m_topo s) /\
  m_exec s' = m_exec s /\ settings s' = settings s /\ m_iters s' = m_iters s /\
  relations s' = relations s ++
    filter (fun x => let '(o, d, _) := x in str_mem o (concepts s) && str_mem d (concepts s)) rels.
Proof.
  revert s. induction rels as [|[[o d] w] rels IH]; intros s Fi; cbn [map mfold filter].
  - intros [= <- <-]. rewrite app_nil_r. repeat split; auto.
  - rewrite load_relation_eq. pose proof (add_relation_nofit o d w s Fi) as A.
    destruct (add_relation o d w s) as [s1 r1]. destruct A as (-> & A1 & A2 & A3 & A4 & A5).
    intros E. apply IH in E.
    + destruct E as (-> & B1 & B2 & B3 & B4 & B5).
      assert (K : concepts s1 = concepts s) by (now apply unlinked_keys).
      repeat split; try congruence. rewrite B5, K. unfold relations at 1. rewrite A5, map_app, <- app_assoc.
      unfold relations. f_equal. destruct (_ && _); reflexivity.
    + unfold settings in A3. congruence.
Qed.

(** ** Whole documents *)
Definition doc_of (s0 : fcm F) (cs rs : list (json F)) : dict (json F) :=
  [("max_iter", JInt (m_maxit s0)); ("decision_function", JStr (m_decision s0));
   ("activation_function", JStr (m_func s0)); ("memory_influence", JBool (m_mem s0));
   ("stability_diff", JNum (m_sdiff s0)); ("stop_at_stabilize", JBool (m_stab s0));
   ("extra_steps", JInt (m_extra s0)); ("weight", JNum (m_weight s0));
   ("concepts", JArr cs); ("relations", JArr rs)] ++
  (match m_gargs s0 with [] => [] | _ => [("activation_function_args", args_json (m_gargs s0))] end).
Lemma to_dict_doc s j : to_dict s = Ok j ->
  exists cs, rmap (concept_json s) (m_topo s) = Ok cs /\ j = JObj (doc_of s cs (map relation_json (m_arcs s))).
Proof. unfold to_dict. intros H. apply rbind_ok in H as (cs & H & E). injection E as <-. eauto. Qed.
Lemma doc_set s0 cs rs cs' rs' :
  dset (dset (doc_of s0 cs rs) "concepts" (JArr cs')) "relations" (JArr rs') = doc_of s0 cs' rs'.
Proof. reflexivity. Qed.
Definition kw_ok (s0 : fcm F) : Prop := m_gargs s0 = [] \/ jkwargs init_params (args_json (m_gargs s0)) = Ok (m_gargs s0).
Lemma load_doc s0 cs rs : kw_ok s0 ->
  load (JObj (doc_of s0 cs rs)) =
  (s <- init_fcm (m_maxit s0) (m_extra s0) (m_stab s0) (m_sdiff s0) (m_decision s0) (m_mem s0) (m_func s0) (m_gargs s0) ;;
   let '(s, r) := mfold load_concept cs (set_weight (m_weight s0) s) in
   u <- r ;;
   let '(s, r) := mfold load_relation rs s in
   u <- r ;; Ok s)%res.
Proof.
  intros K. unfold load, doc_of. cbn [jobj rbind].
  assert (Hk : opt_field
    ([("max_iter", JInt (m_maxit s0)); ("decision_function", JStr (m_decision s0));
   ("activation_function", JStr (m_func s0)); ("memory_influence", JBool (m_mem s0));
   ("stability_diff", JNum (m_sdiff s0)); ("stop_at_stabilize", JBool (m_stab s0));
   ("extra_steps", JInt (m_extra s0)); ("weight", JNum (m_weight s0));
   ("concepts", JArr cs); ("relations", JArr rs)] ++
     (match m_gargs s0 with [] => [] | _ => [("activation_function_args", args_json (m_gargs s0))] end))
     "activation_function_args" [] (jkwargs init_params) = Ok (m_gargs s0)).
  { unfold opt_field. destruct K as [->|K]; [reflexivity|].
    destruct (m_gargs s0) as [|p a] eqn:E; [reflexivity|]. set (a0 := p :: a) in *. clearbody a0.
    cbn -[jkwargs args_json]. exact K. }
  rewrite Hk. clear Hk K.
  unfold opt_field, req_field, dget_exn. cbn [rbind]. cbn -[init_fcm mfold].
  destruct (init_fcm _ _ _ _ _ _ _ _); reflexivity.
Qed.
Lemma load_kw_ok s0 cs rs s' : load (JObj (doc_of s0 cs rs)) = Ok s' -> kw_ok s0.
Proof.
  unfold load, doc_of. cbn [jobj rbind]. intros H. apply rbind_ok in H as (kw & Hk & _). unfold opt_field in Hk.
  destruct (m_gargs s0) as [|p a] eqn:E; [left; auto|right]. rewrite E. set (a0 := p :: a) in *. clearbody a0.
  cbn -[jkwargs args_json] in Hk. pose proof (jkwargs_json _ _ _ Hk). now subst kw.
Qed.
Lemma rel_doc_json (arcs : list (string * F * string)) :
  map relation_json arcs = map (fun x => let '(o, d, w) := x in rel_doc o d w) (map (fun a => let '(d, w, o) := a in (o, d, w)) arcs).
Proof. rewrite map_map. apply map_ext. intros [[d w] o]. reflexivity. Qed.

Definition names (src : list (fcm F * (string * node F))) : list string := map (fun p => fst (snd p)) src.
Record reloaded (s0 : fcm F) (src : list (fcm F * (string * node F))) (rels : list (string * string * F)) s' : Prop := {
  rl_set : (1 <= m_extra s0)%Z -> saved_settings s' = saved_settings s0;
  rl_other : m_default s' = mkDC true "KOSKO" TYPE_SIMPLE None (m_mem s0) true (m_func s0) (m_gargs s0) /\
             m_debug s' = true /\ m_fit s' = None /\ m_iters s' = 1%Z;
  rl_keys : concepts s' = names src;
  rl_exec : m_exec s' = map (fun p => (fst (snd p), [nd_value (snd (snd p))])) src;
  rl_nodes : exists ns, Forall2 (fun p q => fst q = fst (snd p) /\ loaded (m_func (fst p)) (m_default s') (snd (snd p)) (snd q)) src ns /\
     map (fun p => (fst p, unlinked (snd p))) (m_topo s') = map (fun p => (fst p, unlinked (snd p))) ns;
  rl_rels : relations s' = filter (fun x => let '(o, d, _) := x in str_mem o (names src) && str_mem d (names src)) rels
}.
Lemma load_doc_spec s0 src cs rels s' :
  Forall2 written src cs -> NoDup (names src) ->
  load (JObj (doc_of s0 cs (map (fun x => let '(o, d, w) := x in rel_doc o d w) rels))) = Ok s' ->
  reloaded s0 src rels s'.
Proof.
  intros HW ND E. pose proof (load_kw_ok _ _ _ _ E) as K. rewrite load_doc in E by auto.
  apply rbind_ok in E as (s1 & E1 & E). apply init_fcm_shape in E1 as (-> & _ & _).
  set (s1 := set_weight _ _) in E.
  destruct (mfold load_concept cs s1) as [s2 r] eqn:E2. destruct r as [[]|e]; [|discriminate]. cbn [rbind] in E.
  destruct (mfold load_relation _ s2) as [s3 r] eqn:E3. apply rbind_ok in E as (u & -> & E). injection E as ->.
  destruct (load_concepts_spec src cs s1 s2 HW ND) as (ns & A1 & A2 & A3 & A4 & A5 & A6); [|exact E2|].
  { intros p _. cbn. split; intros []. }
  change (m_topo s1) with (@nil (string * node F)) in A1. change (m_exec s1) with (@nil (string * list F)) in A2. cbn [app] in A1, A2.
  assert (Fi : m_fit s2 = None) by (unfold settings in A5; cbn in A5; congruence).
  destruct (load_relations_spec rels s2 s' (Ok u) Fi E3) as (_ & B1 & B2 & B3 & B4 & B5).
  assert (Kn : dkeys ns = names src).
  { unfold names, dkeys. clear - A3. induction A3 as [|p q src ns [H _] _ IH]; cbn; auto. now rewrite H, IH. }
  assert (S : settings s' = settings s1) by congruence.
  assert (Sd : m_default s' = m_default s1) by (unfold settings in S; congruence).
  constructor.
  - intros Hx. unfold settings in S. cbn in S. unfold saved_settings.
    assert (Ex : (if (0 <? m_extra s0)%Z then m_extra s0 else 1%Z) = m_extra s0) by (destruct (Z.ltb_spec 0 (m_extra s0)); lia).
    rewrite Ex in S. injection S as -> -> -> -> -> -> -> -> -> _ _ _. reflexivity.
  - split; [rewrite Sd; reflexivity|]. unfold settings in S. cbn in S. split; [congruence|]. split; [congruence|]. rewrite B4, A6. reflexivity.
  - unfold concepts. rewrite (unlinked_keys _ _ B1), A1. exact Kn.
  - now rewrite B2, A2.
  - exists ns. rewrite Sd. split; auto. now rewrite B1, A1.
  - rewrite B5. unfold relations at 1. rewrite A4. cbn [m_arcs set_weight s1 map app]. unfold concepts. now rewrite A1, Kn.
Qed.

(** a loaded node, whatever its links *)
Record restored (f0 : string) (dc : dconcept F) (n n' : node F) : Prop := {
  rs_active : nd_active n' = Some true;
  rs_exec : nd_exec n' = Some "KOSKO";
  rs_type : exists t, nd_type n = Some t /\ nd_type n' = Some (if String.eqb t TYPE_DECISION then TYPE_DECISION else TYPE_SIMPLE);
  rs_mem : nd_mem n' = Some (dc_mem dc);
  rs_value : nd_value n' = nd_value n;
  rs_aux : nd_aux n' = [];
  rs_func : exists f f' a', nd_func n = Some f /\ nd_func n' = Some f' /\ f' <> "fuzzy" /\ nd_args n' = Some a' /\
    nd_vect n' = Some (process_function_args a') /\
    ((f = f0 /\ f' = dc_func dc /\ a' = dc_args dc) \/ (f <> f0 /\ f' = f /\ nd_args n = Some a'))
}.
Lemma loaded_restored f0 dc n n1 n' : loaded f0 dc n n1 -> unlinked n' = unlinked n1 -> restored f0 dc n n'.
Proof.
  intros [A B C D E G I J] H.
  assert (Pr : forall (X : Type) (g : node F -> X), (forall m, g (unlinked m) = g m) -> g n' = g n1).
  { intros X g Hg. rewrite <- (Hg n'), H. apply Hg. }
  constructor; rewrite ?(Pr _ nd_active), ?(Pr _ nd_exec), ?(Pr _ nd_type), ?(Pr _ nd_mem), ?(Pr _ nd_value), ?(Pr _ nd_aux),
    ?(Pr _ nd_func), ?(Pr _ nd_args), ?(Pr _ nd_vect); auto.
Qed.
Lemma reloaded_node s0 src rels s' p : reloaded s0 src rels s' -> NoDup (names src) -> In p src ->
  exists n', dget (m_topo s') (fst (snd p)) = Some n' /\ restored (m_func (fst p)) (m_default s') (snd (snd p)) n'.
Proof.
  intros [A B C D (ns & E1 & E2) G] ND Hp.
  assert (Kn : dkeys ns = names src).
  { unfold names, dkeys. clear - E1. induction E1 as [|p q src ns [H _] _ IH]; cbn; auto. now rewrite H, IH. }
  assert (X : exists n1, In (fst (snd p), n1) ns /\ loaded (m_func (fst p)) (m_default s') (snd (snd p)) n1).
  { clear - E1 Hp. induction E1 as [|p0 [k n1] src ns [H1 H2] _ IH]; [destruct Hp|].
    destruct Hp as [->|Hp].
    - exists n1. cbn in H1. subst k. split; [now left|auto].
    - destruct (IH Hp) as (n2 & I & L). exists n2. split; [now right|auto]. }
  destruct X as (n1 & I & L). apply In_dget in I; [|now rewrite Kn].
  pose proof (unlinked_dget _ _ (fst (snd p)) E2) as U. rewrite I in U. cbn in U.
  destruct (dget (m_topo s') (fst (snd p))) as [n'|]; [|discriminate].
  exists n'. split; auto. eapply loaded_restored; [exact L|]. now apply some_eq in U.
Qed.
Lemma reloaded_value s0 src rels s' p : reloaded s0 src rels s' -> NoDup (names src) -> In p src ->
  value s' (fst (snd p)) = Some (nd_value (snd (snd p))) /\ history s' (fst (snd p)) = Some [nd_value (snd (snd p))].
Proof.
  intros R ND Hp. destruct (reloaded_node _ _ _ _ _ R ND Hp) as (n' & Hn & Re). split.
  - unfold value, get_concept_value. rewrite Hn. f_equal. apply (rs_value _ _ _ _ Re).
  - unfold history. rewrite (rl_exec _ _ _ _ R). apply In_dget.
    + unfold dkeys. rewrite map_map. exact ND.
    + apply in_map_iff. exists p. auto.
Qed.

(** ** C34 *)
Lemma dumps_ok (j j' : json F) : dumps j = Ok j' -> j' = j /\ serialisable j = true.
Proof. unfold dumps. destruct (serialisable j); [intros [= <-]; auto|discriminate]. Qed.
Lemma to_json_doc s j : to_json s = Ok j ->
  exists cs, rmap (concept_json s) (m_topo s) = Ok cs /\ Forall2 written (map (pair s) (m_topo s)) cs /\
    j = JObj (doc_of s cs (map (fun x => let '(o, d, w) := x in rel_doc o d w) (relations s))).
Proof.
  unfold to_json. intros H. apply rbind_ok in H as (j0 & H & E). apply dumps_ok in E as [-> _].
  apply to_dict_doc in H as (cs & H & ->). exists cs. split; auto. split.
  - apply rmap_ok_Forall2 in H. clear - H. induction H; cbn; constructor; auto.
  - now rewrite rel_doc_json.
Qed.
Lemma from_json_ok (j : json F) s : from_json j = Ok s -> load j = Ok s.
Proof. unfold from_json. destruct (load j); congruence. Qed.
Lemma names_pair s : names (map (pair s) (m_topo s)) = concepts s.
Proof. unfold names, concepts, dkeys. rewrite map_map. reflexivity. Qed.
Lemma filter_all {A} (f : A -> bool) l : (forall x, In x l -> f x = true) -> filter f l = l.
Proof. induction l as [|a l IH]; cbn; auto. intros H. rewrite H by auto. f_equal. auto. Qed.
Lemma reload_doc s j s' : reachable s -> to_json s = Ok j -> from_json j = Ok s' ->
  reloaded s (map (pair s) (m_topo s)) (relations s) s'.
Proof.
  intros Hr Hj Hl. apply from_json_ok in Hl. destruct (to_json_doc s j Hj) as (cs & _ & HW & ->).
  eapply load_doc_spec; eauto. rewrite names_pair. now apply reachable_NoDup.
Qed.
Lemma reload_keeps s j s' : reachable s -> to_json s = Ok j -> from_json j = Ok s' ->
  concepts s' = concepts s /\ relations s' = relations s /\ saved_settings s' = saved_settings s /\
  (forall c, value s' c = value s c) /\
  (forall c v, value s c = Some v -> history s' c = Some [v]) /\
  m_debug s' = true /\ m_fit s' = None /\
  forall c n, dget (m_topo s) c = Some n -> exists n' f t, dget (m_topo s') c = Some n' /\
    nd_active n' = Some true /\ nd_exec n' = Some "KOSKO" /\ nd_mem n' = Some (m_mem s) /\
    nd_type n = Some t /\ nd_type n' = Some (if String.eqb t TYPE_DECISION then TYPE_DECISION else TYPE_SIMPLE) /\
    nd_func n = Some f /\ nd_func n' = Some f /\ f <> "fuzzy" /\
    nd_args n' = (if String.eqb f (m_func s) then Some (m_gargs s) else nd_args n).
Proof.
  intros Hr Hj Hl. pose proof (reload_doc s j s' Hr Hj Hl) as R.
  assert (ND : NoDup (names (map (pair s) (m_topo s)))) by (rewrite names_pair; now apply reachable_NoDup).
  pose proof (rl_keys _ _ _ _ R) as K. rewrite names_pair in K.
  destruct (rl_other _ _ _ _ R) as (O1 & O2 & O3 & _).
  split; [exact K|]. split.
  { rewrite (rl_rels _ _ _ _ R). apply filter_all. intros [[o d] w] H. rewrite names_pair.
    destruct (reachable_rel_ok s Hr o d w H) as [H1 H2]. apply andb_true_iff. split; now apply str_mem_In. }
  split; [apply (rl_set _ _ _ _ R); now apply reachable_extra|].
  assert (V : forall c n, dget (m_topo s) c = Some n -> value s' c = Some (nd_value n) /\ history s' c = Some [nd_value n]).
  { intros c n Hn. apply (reloaded_value _ _ _ _ (s, (c, n)) R ND). apply in_map. now apply dget_In. }
  split.
  { intros c. unfold value at 2, get_concept_value. destruct (dget (m_topo s) c) as [n|] eqn:E; [now apply V|].
    unfold value, get_concept_value. destruct (dget (m_topo s') c) eqn:E'; auto. exfalso.
    apply dget_None in E. apply E. change (dkeys (m_topo s)) with (concepts s). rewrite <- K. apply dget_Some_In. eauto. }
  split.
  { intros c v. unfold value at 1, get_concept_value. destruct (dget (m_topo s) c) as [n|] eqn:E; [|discriminate].
    intros [= <-]. now apply V. }
  split; auto. split; auto. intros c n Hn.
  destruct (reloaded_node _ _ _ _ (s, (c, n)) R ND) as (n' & Hn' & [A B C D E G H]).
  { apply in_map. now apply dget_In. }
  cbn [fst snd] in *. rewrite O1 in *. cbn [dc_mem dc_func dc_args] in *.
  destruct C as (t & C1 & C2). destruct H as (f & f' & a' & H1 & H2 & H3 & H4 & H5 & H6).
  assert (Ff : f' = f) by (destruct H6 as [(-> & -> & _)|(_ & -> & _)]; auto). subst f'.
  exists n', f, t. repeat split; auto. rewrite H4.
  destruct (String.eqb_spec f (m_func s)) as [Hf|Hf]; destruct H6 as [(X1 & X2 & X3)|(X1 & X2 & X3)]; congruence.
Qed.
Lemma fuzzy_not_reloadable s j c n : reachable s -> dget (m_topo s) c = Some n -> nd_func n = Some "fuzzy" ->
  to_json s = Ok j -> exists m, from_json j = Err (EExc m).
Proof.
  intros Hr Hn Hf Hj. destruct (from_json j) as [s'|e] eqn:E.
  - exfalso. destruct (reload_keeps s j s' Hr Hj E) as (_ & _ & _ & _ & _ & _ & _ & H).
    destruct (H c n Hn) as (n' & f & t & _ & _ & _ & _ & _ & _ & X & _ & Y & _). congruence.
  - unfold from_json in E. destruct (load j); [discriminate|]. injection E as <-. eauto.
Qed.

(** portable maps *)
Lemma portable_kwargs params (a : args F) : portable_args params a -> jkwargs params (args_json a) = Ok a.
Proof.
  intros H. unfold jkwargs, args_json. cbn [jobj rbind].
  assert (E : existsb (fun k => str_mem k params) (dkeys (dmap (fun _ v => arg_json v) a)) = false).
  { rewrite dkeys_dmap. apply not_true_iff_false. rewrite existsb_exists. intros (k & Hk & Hm).
    apply dget_Some_In in Hk as [v Hv]. apply dget_In in Hv. apply H in Hv as [Hv _]. apply Hv. now apply str_mem_In. }
  rewrite E. clear E.
  assert (G : forall k v, In (k, v) a -> jarg (arg_json v) = Ok v).
  { intros k v Hv. apply H in Hv as [_ Hv]. destruct v as [x|l|l]; [reflexivity|now specialize (Hv l)|].
    cbn. rewrite rmap_jnum. reflexivity. }
  clear H. induction a as [|[k v] a IH]; [reflexivity|]. cbn [dmap map rmap fst snd].
  rewrite (G k v) by now left. cbn [rbind]. unfold dmap in IH. rewrite IH; [reflexivity|].
  intros k' v' Hv. apply (G k' v'). now right.
Qed.
Lemma portable_serialisable params (a : args F) : portable_args params a -> serialisable (args_json a) = true.
Proof.
  intros H. unfold args_json. cbn [serialisable]. apply forallb_forall. intros [k j] Hi.
  unfold dmap in Hi. apply in_map_iff in Hi as ([k' v] & E & Hi). injection E as <- <-. apply H in Hi as [_ Hi]. cbn.
  destruct v as [x|l|l]; [reflexivity|now specialize (Hi l)|]. cbn. clear. induction l; auto.
Qed.

(** a concept that can be written and read back *)
Record loadable (s0 : fcm F) (n : node F) : Prop := {
  lo_type : nd_type n <> None;
  lo_active : nd_active n <> None;
  lo_mem : nd_mem n <> None;
  lo_func : exists f, nd_func n = Some f /\ f <> "fuzzy" /\ get_function_by_name f <> None /\
    (f <> m_func s0 -> exists a, nd_args n = Some a /\ portable_args concept_params a)
}.
Lemma loadable_written s0 c n : loadable s0 n ->
  exists j cd, concept_json s0 (c, n) = Ok j /\ serialisable j = true /\ read_concept j = Ok cd.
Proof.
  intros [A B C (f & D1 & D2 & D3 & D4)]. unfold concept_json.
  destruct (nd_type n) as [t|]; [|congruence]. destruct (nd_active n) as [ac|]; [|congruence].
  destruct (nd_mem n) as [m|]; [|congruence]. rewrite D1. cbn [oget rbind].
  set (memo := if Bool.eqb m (m_mem s0) then [] else _).
  assert (Hmemo : memo = [] \/ exists b, memo = [("use_memory", @JBool F b)]) by (unfold memo; destruct (Bool.eqb _ _); eauto).
  clearbody memo.
  destruct (String.eqb_spec f (m_func s0)) as [Hf|Hf].
  - cbn [rbind]. do 2 eexists. split; [reflexivity|]. destruct Hmemo as [->|[b ->]]; cbn; rewrite type_read; split; reflexivity.
  - destruct (String.eqb_spec f "fuzzy") as [Hz|Hz]; [congruence|].
    destruct (D4 Hf) as (a & -> & Pa). cbn [oget rbind].
    pose proof (portable_kwargs _ _ Pa) as K. pose proof (portable_serialisable _ _ Pa) as S.
    destruct a as [|p a].
    + do 2 eexists. split; [reflexivity|]. destruct Hmemo as [->|[b ->]]; cbn; rewrite type_read; split; reflexivity.
    + set (a0 := p :: a) in *. clearbody a0. do 2 eexists. split; [reflexivity|].
      destruct Hmemo as [->|[b ->]]; (split; [cbn -[args_json]; rewrite S; reflexivity|]);
        unfold read_concept; cbn -[args_json jkwargs]; rewrite K; cbn [rbind]; rewrite type_read; reflexivity.
Qed.
Lemma load_concept_ok s0 c n j s : loadable s0 n -> concept_json s0 (c, n) = Ok j ->
  (nd_func n = Some (m_func s0) -> dc_func (m_default s) <> "fuzzy") ->
  snd (load_concept j s) = Ok tt.
Proof.
  intros Lo Hj Hd. destruct (loadable_written s0 c n Lo) as (j' & cd & Hj' & _ & Hc).
  rewrite Hj in Hj'. injection Hj' as <-.
  destruct (read_concept_json s0 c n j cd Hj Hc) as (t & f & Ht & Hf & Hid & Hac & Hme & Hex & Hav & Hty & Hfu).
  destruct Lo as [_ _ _ (f1 & D1 & D2 & D3 & D4)]. rewrite D1 in Hf. injection Hf as ->.
  unfold load_concept. rewrite Hc, Hid, Hac, Hme, Hex, Hav. unfold add_concept. cbn [m_default set_prepared].
  pose proof (cd_type_cases t) as Hc2. rewrite <- Hty in Hc2.
  assert (Hv : is_valid_type (cd_type cd) = true /\ is_fuzzy_type (cd_type cd) = false) by (destruct Hc2 as [-> | ->]; split; reflexivity).
  assert (Ad : cd_adict cd = None) by (destruct Hfu as [(_ & _ & X & _)|[(_ & X & _)|(_ & _ & _ & X & _)]]; congruence).
  assert (Fn : (cd_func cd = None \/ cd_func cd = Some f)) by (destruct Hfu as [(_ & X & _)|[(_ & _ & X & _)|(_ & _ & X & _)]]; auto).
  rewrite Ad.
  destruct (build_node (m_default s) (Some (cd_type cd)) (Some true) None (Some "KOSKO") None (cd_func cd) (cd_args cd)) as [nd r] eqn:Eb.
  assert (Er : r = Ok tt).
  { revert Eb. unfold build_node. change (get_excitation_by_name "KOSKO") with (Some EKosko). cbv iota.
    destruct Hv as [-> ->]. cbv iota zeta. unfold define_func. destruct Fn as [->| ->].
    - intros [= _ <-]. reflexivity.
    - destruct (get_function_by_name f); [|congruence]. intros [= _ <-]. reflexivity. }
  subst r. destruct (build_plain _ _ _ _ _ _ Hc2 Eb eq_refl) as (_ & _ & _ & _ & B5 & f' & a' & B6 & _ & _ & B9).
  set (s1 := put_exec c [n0] (put_node c nd (set_prepared false s))).
  assert (Dg : dget (m_topo s1) c = Some nd) by (unfold s1, put_exec, put_node; cbn [m_topo set_exec set_topo]; apply dget_dset_same).
  pose proof (init_concept_spec c (nd_value n) true s1 nd f' Dg B6) as Hs. rewrite B5 in Hs.
  destruct (String.eqb_spec f' "fuzzy") as [Hz|Hz]; [|rewrite Hs; reflexivity].
  exfalso. destruct B9 as [(Y & X & _)|(X & _)]; [|destruct Fn; congruence].
  apply Hd; [|congruence]. destruct Hfu as [(-> & _)|[(_ & _ & X' & _)|(_ & _ & X' & _)]]; congruence.
Qed.
Lemma load_concepts_ok (src : list (fcm F * (string * node F))) js s :
  Forall2 written src js -> (forall p, In p src -> loadable (fst p) (snd (snd p))) ->
  (forall p, In p src -> nd_func (snd (snd p)) = Some (m_func (fst p)) -> dc_func (m_default s) <> "fuzzy") ->
  snd (mfold load_concept js s) = Ok tt.
Proof.
  intros HW. revert s. induction HW as [|[s0 [c n]] j src js Hj HW IH]; intros s HL Hd; [reflexivity|].
  cbn [mfold]. pose proof (load_concept_ok s0 c n j s (HL _ (or_introl eq_refl)) Hj (Hd _ (or_introl eq_refl))) as E.
  destruct (load_concept j s) as [s1 r] eqn:E1. cbn in E. subst r.
  destruct (load_concept_spec s0 c n j s s1 Hj E1) as (n' & -> & _).
  apply IH.
  - intros p Hp. apply HL. now right.
  - intros p Hp. apply (Hd p). now right.
Qed.
Lemma load_doc_ok s0 src cs rels :
  Forall2 written src cs -> (forall p, In p src -> loadable (fst p) (snd (snd p))) ->
  kw_ok s0 -> (forall p, In p src -> nd_func (snd (snd p)) = Some (m_func (fst p)) -> m_func s0 <> "fuzzy") -> get_function_by_name (m_func s0) <> None -> get_decision_by_name (m_decision s0) <> None ->
  exists s', from_json (JObj (doc_of s0 cs (map (fun x => let '(o, d, w) := x in rel_doc o d w) rels))) = Ok s'.
Proof.
  intros HW HL K Hz Hf Hd. unfold from_json. rewrite load_doc by auto.
  destruct (init_fcm (m_maxit s0) (m_extra s0) (m_stab s0) (m_sdiff s0) (m_decision s0) (m_mem s0) (m_func s0) (m_gargs s0)) as [s1|e] eqn:E1.
  2: { exfalso. revert E1. unfold init_fcm, set_map_decision_function. destruct (get_decision_by_name (m_decision s0)); [|congruence].
       unfold set_map_activation_function. destruct (get_function_by_name (m_func s0)); [|congruence]. discriminate. }
  apply init_fcm_shape in E1 as (-> & _ & _). cbn [rbind]. set (s1 := set_weight _ _).
  assert (E : snd (mfold load_concept cs s1) = Ok tt).
  { eapply load_concepts_ok; eauto. }
  assert (Fi : m_fit (fst (mfold load_concept cs s1)) = None).
  { apply (mfold_ind (fun s => m_fit s = None)); [|reflexivity]. intros j s H.
    unfold load_concept. destruct (read_concept j) as [cd|]; auto. unfold add_concept. cbn [m_default set_prepared].
    destruct (build_node _ _ _ _ _ _ _ _) as [nd [[]|e]]; [|exact H].
    destruct (cd_activation cd) as [v|]; [|exact H].
    pose proof (init_concept_frame (cd_id cd) v true (put_exec (cd_id cd) [n0] (put_node (cd_id cd) nd (set_prepared false s)))) as (_ & _ & Fr & _).
    unfold settings in Fr. cbn in Fr. cbn [fst]. congruence. }
  destruct (mfold load_concept cs s1) as [s2 r]. cbn [fst snd] in *. subst r. cbn [rbind].
  destruct (mfold load_relation _ s2) as [s3 r] eqn:E3.
  destruct (load_relations_spec rels s2 s3 r Fi E3) as (-> & _). cbn [rbind]. eauto.
Qed.
Lemma rmap_total {A B} (f : A -> res B) l : (forall x, In x l -> exists y, f x = Ok y) -> exists ys, rmap f l = Ok ys.
Proof.
  induction l as [|a l IH]; intros H; [exists []; reflexivity|].
  destruct (H a (or_introl eq_refl)) as [y Hy]. destruct IH as [ys Hys]; [auto with datatypes|].
  exists (y :: ys). cbn. now rewrite Hy, Hys.
Qed.
Lemma plain_loadable s n : complete_node n -> plain_concept s n -> loadable s n.
Proof.
  intros (C1 & C2 & C3 & _ & _ & _ & _ & (f & x & C4 & C5)) [_ _ _ _ (f1 & a & P1 & P2 & P3 & P4)]. constructor; auto.
  rewrite C4 in P1. injection P1 as ->. exists f1. repeat split; auto; [congruence|].
  intros H. destruct P4 as [[H' _]|[_ H']]; [congruence|]. eauto.
Qed.
Lemma loadable_to_json s : (forall c n, In (c, n) (m_topo s) -> loadable s n) -> serialisable (args_json (m_gargs s)) = true ->
  exists j, to_json s = Ok j.
Proof.
  intros HL HS. destruct (rmap_total (concept_json s) (m_topo s)) as [cs Hcs].
  { intros [c n] Hi. destruct (loadable_written s c n (HL c n Hi)) as (j & cd & H & _). eauto. }
  unfold to_json, to_dict. rewrite Hcs. cbn [rbind]. fold (doc_of s cs (map relation_json (m_arcs s))).
  unfold dumps.
  assert (E : serialisable (JObj (doc_of s cs (map relation_json (m_arcs s)))) = true).
  { unfold doc_of. cbn [serialisable]. rewrite forallb_app. apply andb_true_iff. split.
    - cbn [forallb snd serialisable andb]. rewrite !andb_true_r. apply andb_true_iff. split.
      + apply rmap_ok_Forall2 in Hcs. clear - N Hcs HL. induction Hcs as [|[c n] j l cs H _ IH]; auto. cbn.
        destruct (loadable_written s c n (HL c n (or_introl eq_refl))) as (j' & cd & H' & S & _).
        rewrite H in H'. injection H' as <-. rewrite S. apply IH. intros c' n' Hi. apply (HL c'). now right.
      + apply forallb_forall. intros j Hj. apply in_map_iff in Hj as ([[d w] o] & <- & _). reflexivity.
    - destruct (m_gargs s) as [|p a]; auto. cbn -[args_json serialisable]. now rewrite HS. }
  unfold doc_of in E |- *. match goal with |- context [if ?b then _ else _] => replace b with true end; eauto.
Qed.
Lemma portable_reload s : sane s -> portable s ->
  exists j s', to_json s = Ok j /\ from_json j = Ok s'.
Proof.
  intros Hs [P1 P2]. destruct (sane_parts s Hs) as (ND & Fu & _ & _ & (_ & _ & G3 & G4) & _).
  assert (HL : forall c n, In (c, n) (m_topo s) -> loadable s n).
  { intros c n Hi. apply In_dget in Hi; auto. apply plain_loadable; [eapply Fu; eauto|eapply P2; eauto]. }
  pose proof (portable_serialisable _ _ P1) as S1.
  destruct (loadable_to_json s HL S1) as [j Hj]. exists j.
  destruct (to_json_doc s j Hj) as (cs & Hcs & HW & ->).
  edestruct (load_doc_ok s (map (pair s) (m_topo s)) cs (relations s)) as [s' Hs']; eauto.
  - intros p Hp. apply in_map_iff in Hp as ([c n] & <- & Hp). cbn. eauto.
  - right. now apply portable_kwargs.
  - intros p Hp. apply in_map_iff in Hp as ([c n] & <- & Hp). cbn. intros Hf Hz.
    destruct (HL c n Hp) as [_ _ _ (f & L1 & L2 & _)]. congruence.
  - destruct G3 as [x G3]. congruence.
  - destruct G4 as [x G4]. congruence.
Qed.
Lemma concept_json_same s s' n n' c : m_func s' = m_func s -> m_mem s' = m_mem s -> same_concept n n' -> nd_func n <> Some "fuzzy" ->
  concept_json s' (c, n') = concept_json s (c, n).
Proof.
  intros E1 E2 (A1 & A2 & A3 & A4 & A5 & A6 & A7) Hf. unfold concept_json. rewrite E1, E2, A1, A3, A4, A5, A6, A7.
  destruct (nd_func n) as [f|] eqn:Ef; [|reflexivity].
  destruct (nd_type n); [|reflexivity]. destruct (nd_active n); [|reflexivity]. destruct (nd_mem n); [|reflexivity].
  cbn [oget rbind]. destruct (String.eqb_spec f "fuzzy") as [->|]; [congruence|reflexivity].
Qed.
Lemma round_trip s : sane s -> portable s ->
  exists j s', to_json s = Ok j /\ from_json j = Ok s' /\ to_json s' = Ok j /\
    concepts s' = concepts s /\ relations s' = relations s /\ saved_settings s' = saved_settings s /\
    forall c n, dget (m_topo s) c = Some n -> exists n', dget (m_topo s') c = Some n' /\ same_concept n n'.
Proof.
  intros Hs P. destruct (portable_reload s Hs P) as (j & s' & Hj & Hl). exists j, s'. split; auto. split; auto.
  pose proof (from_fresh_reachable _ _ Hs) as Hr.
  destruct (reload_keeps s j s' Hr Hj Hl) as (K1 & K2 & K3 & K4 & _ & _ & _ & K5).
  assert (SC : forall c n, dget (m_topo s) c = Some n -> exists n', dget (m_topo s') c = Some n' /\ same_concept n n').
  { intros c n Hn. destruct (K5 c n Hn) as (n' & f & t & X0 & X1 & X2 & X3 & X4 & X5 & X6 & X7 & X8 & X9).
    exists n'. split; auto. destruct P as [_ P]. destruct (P c n Hn) as [P1 P2 P3 P4 (f1 & a & P5 & P6 & P7 & P8)].
    assert (V : nd_value n' = nd_value n).
    { specialize (K4 c). unfold value, get_concept_value in K4. rewrite X0, Hn in K4. now apply some_eq in K4. }
    unfold same_concept. rewrite X1, X2, X3, X5, X7, X9, P1, P2, P4, X6. repeat split; auto.
    - rewrite X4 in P3. rewrite X4. destruct P3 as [P3|P3]; injection P3 as ->; reflexivity.
    - rewrite X6 in P5. injection P5 as <-. destruct (String.eqb_spec f (m_func s)) as [E|E]; auto.
      destruct P8 as [[_ ->]|[P8 _]]; congruence. }
  split; [|auto].
  unfold to_json in *. rewrite <- Hj. f_equal. unfold to_dict.
  assert (Er : rmap (concept_json s') (m_topo s') = rmap (concept_json s) (m_topo s)).
  { pose proof (reachable_NoDup s Hr) as ND.
    assert (Mf : m_func s' = m_func s /\ m_mem s' = m_mem s) by (unfold saved_settings in K3; split; congruence).
    destruct Mf as [Mf Mm].
    assert (G : forall t t', NoDup (dkeys t) -> dkeys t' = dkeys t -> (forall c n, dget t c = Some n -> exists n', dget t' c = Some n' /\ concept_json s' (c, n') = concept_json s (c, n)) ->
       rmap (concept_json s') t' = rmap (concept_json s) t).
    { clear. induction t as [|[k n] t IH]; intros [|[k' n'] t'] ND E H; cbn in E; try discriminate; auto.
      injection E as -> E. cbn in ND. inversion ND as [|? ? N1 N2]; subst. cbn [rmap].
      destruct (H k n) as (m & Hm & Em); [cbn; now rewrite String.eqb_refl|]. cbn in Hm. rewrite String.eqb_refl in Hm. injection Hm as <-.
      rewrite Em. destruct (concept_json s (k, n)); cbn [rbind]; auto. rewrite (IH t'); auto.
      intros c n1 Hn. assert (c <> k) by (intros ->; apply N1; apply dget_Some_In; eauto).
      destruct (H c n1) as (m & Hm & Em'); [cbn; apply String.eqb_neq in H0; now rewrite H0|].
      exists m. split; auto. cbn in Hm. apply String.eqb_neq in H0. now rewrite H0 in Hm. }
    apply G; auto. intros c n Hn. destruct (SC c n Hn) as (n' & Hn' & Sa). exists n'. split; auto.
    apply concept_json_same; auto. destruct P as [_ P]. destruct (P c n Hn) as [_ _ _ _ (f1 & a & P5 & _ & P7 & _)]. congruence. }
  rewrite Er. unfold saved_settings in K3. injection K3 as -> -> -> -> -> -> -> -> ->.
  assert (Ea : map relation_json (m_arcs s') = map relation_json (m_arcs s)).
  { rewrite !rel_doc_json. f_equal. exact K2. }
  rewrite Ea. reflexivity.
Qed.
End LoaderFacts.
