(** PipeFacts2.v — predicting with continuous features (C101). *)
From Coq Require Import Reals Lra Lia Permutation.
From Verif Require Import Base BaseFacts Num RealFacts Functions FunctionsFacts Spec SortFacts Fcm FcmSpec FcmBasics DynSpec FcmInv FcmInv2 FcmInv3 FcmIter FcmRun FcmRun2 FcmRun3 FcmOrder FcmTotal VecSpec
  LearnUtils LearnSpec LearnFacts Discret DiscretFacts DiscretFacts2 Assoc AssocSpec AssocFacts AssocFacts2 AssocFacts3 AssocFacts4 AssocNames AssocNames2 LoaderFacts Estimator EstFacts EstFacts2 EstFacts3 EstSpec EstFacts4
  AssocGen AssocPredict AssocResult AssocRow EstFacts5 EstFacts6 AssocRange Pipeline PipeFacts.
Local Open Scope R_scope.

(** ** Descriptions of clusters *)
(** what a discretization hands to the generator *)
Definition sound_disc (cf : gconf R) : Prop := forall f data n vals ms, c_disc cf f data = Ok (n, vals, ms) ->
  increasing_list vals /\ (2 <= length vals)%nat /\ forall memb, In memb ms -> length memb = length vals /\ in01 memb.
Lemma gen_disc_sound cf strategy curve rand : c_disc cf = generator_disc strategy curve rand -> In strategy strategies -> sampled curve rand -> sound_disc cf.
Proof.
  intros Hd Hst Hs f data n vals ms E. rewrite Hd in E.
  destruct (Nat.lt_ge_cases (length (unique nleb neqb data)) 10) as [L|L].
  - destruct (gen_disc_few strategy curve rand f data) as [er X]; [rewrite varied_iff; lia|congruence].
  - assert (V : varied data) by now apply varied_iff.
    destruct (gen_disc_ok strategy curve rand f data Hst Hs V) as (n' & vals' & ms' & E' & _ & _ & A & B & C & D & _). rewrite E' in E. injection E as <- <- <-.
    split; [exact A|]. split.
    + destruct V as (us & ND & Lu & I). assert (X : (length us <= length vals')%nat) by (apply NoDup_incl_length; auto; intros u Hu; auto). lia.
    + intros memb Hm. now destruct (D memb Hm) as (D1 & D2 & _).
Qed.
(** a concept of a cluster *)
Definition soft (n : node R) : Prop := exists memb vals scaled,
  nd_func n = Some "fuzzy"%string /\ nd_fuzzy n = Some (memb, vals) /\ nd_args n = Some (scaled_args memb scaled) /\
  increasing_list vals /\ increasing_list scaled /\ (2 <= length vals)%nat /\ length scaled = length vals /\ length memb = length vals /\ in01 memb.
Lemma increasing_NoDup (l : list R) : increasing_list l -> NoDup l.
Proof.
  intros H. apply NoDup_nth_error. intros i j Hi E. destruct (nth_error l i) as [a|] eqn:Ei; [|apply nth_error_None in Ei; lia]. symmetry in E.
  destruct (Nat.lt_trichotomy i j) as [X|[X|X]]; auto.
  - pose proof (H i j a a X Ei E). lra.
  - pose proof (H j i a a X E Ei). lra.
Qed.
Lemma soft_built dc t memb vals : is_fuzzy_type t = true -> is_valid_type t = true -> increasing_list vals -> (2 <= length vals)%nat -> length memb = length vals -> in01 memb ->
  soft (fst (build_node (F := R) dc (Some t) (Some true) None None (Some (mkAdict true memb vals)) None [])).
Proof.
  intros Hz Hv Hi H2 HL H01. assert (Hne : vals <> []) by (intros ->; cbn in H2; lia).
  destruct (process_activation_dict_spec (mkAdict true memb vals) HL Hne) as (v' & m' & mn & mx & E & P & L1 & L2 & ND & Mn & Mx & N0 & N1).
  unfold build_node. rewrite Hv, Hz, E. cbn [rbind define_func fst]. cbn [ad_vals ad_memb] in *.
  assert (Pv : Permutation v' vals).
  { apply (Permutation_map fst) in P. now rewrite !combine_fst in P by congruence. }
  assert (Pm : Permutation m' memb).
  { apply (Permutation_map snd) in P. now rewrite !combine_snd in P by congruence. }
  assert (Iv : increasing_list v').
  { intros i j a b Hij Ha Hb. destruct (ND i j a b ltac:(lia) Ha Hb) as [X|X]; auto. exfalso.
    subst b. assert (NoDup v') by (apply (Permutation_NoDup (Permutation_sym Pv)); now apply increasing_NoDup).
    rewrite NoDup_nth_error in H. specialize (H i j). rewrite Ha, Hb in H. assert ((i < length v')%nat) by (apply nth_error_Some; congruence). specialize (H H0 eq_refl). lia. }
  assert (Hp : 0 < Rabs mn + mx).
  { assert (mn < mx) by (apply (Iv 0%nat (length v' - 1)%nat); auto; lia). unfold Rabs. destruct (Rcase_abs mn); lra. }
  exists m', v', (map (fun v => (v + Rabs mn) / (Rabs mn + mx)) v').
  repeat (split; [first [reflexivity|assumption|lia]|]). split; [|split; [lia|split; [now rewrite map_length|split; [lia|]]]].
  - intros i j a b Hij Ha Hb. apply nth_error_map_inv in Ha as (a' & Ha & <-). apply nth_error_map_inv in Hb as (b' & Hb & <-).
    pose proof (Iv i j a' b' Hij Ha Hb). apply Rmult_lt_compat_r; [now apply Rinv_0_lt_compat|lra].
  - unfold in01 in *. rewrite Forall_forall in *. intros z Hz'. apply H01. now apply (Permutation_in _ Pm).
Qed.
Lemma soft_unlinked n n' : unlinked n = unlinked n' -> soft n -> soft n'.
Proof.
  intros E (memb & vals & sc & A & B & C & D). exists memb, vals, sc. pose proof (f_equal nd_func E) as E1. pose proof (f_equal nd_fuzzy E) as E2. pose proof (f_equal nd_args E) as E3.
  cbn in E1, E2, E3. rewrite <- E1, <- E2, <- E3. auto.
Qed.
(** ** Where the descriptions come from *)
Lemma ad_origin cf dc targets ds : sound_disc cf -> forall done ops out, plan_build cf dc targets done ds = Ok (ops, out) ->
  forall c ct a m e ad f k, In (OpAddConcept c ct a m e (Some ad) f k) ops ->
  exists memb vals, ad = mkAdict true memb vals /\ increasing_list vals /\ (2 <= length vals)%nat /\ length memb = length vals /\ in01 memb.
Proof.
  intros HS. induction ds as [|[f0 c0] ds IH]; intros done ops out H c ct a m e ad f k Hin; cbn [plan_build] in H.
  - injection H as <- <-. easy.
  - unfold plan_feature in H. destruct (describe cf dc targets (f0, c0)) as [[o1 d]|er] eqn:Ed; [|discriminate]. cbn [rbind fst] in H.
    destruct (plan_cross cf d (others cf done f0)) as [rels|er] eqn:Ec; [|discriminate]. cbn [rbind] in H.
    destruct (plan_build cf dc targets (done ++ [d]) ds) as [[o2 out']|er] eqn:Eb; [|discriminate]. cbn [rbind] in H. injection H as <- <-.
    apply in_app_iff in Hin as [Hin|Hin]; [|exact (IH _ _ _ Eb _ _ _ _ _ _ _ _ Hin)].
    apply in_app_iff in Hin as [Hin|Hin]; [|apply in_map_iff in Hin as ([[? ?] ?] & Hin & _); discriminate].
    assert (X : plan_discrete cf dc targets f0 c0 = Ok (o1, d) \/ (exists data, plan_continuous cf dc targets f0 data = Ok (o1, d)) ->
      exists memb vals, ad = mkAdict true memb vals /\ increasing_list vals /\ (2 <= length vals)%nat /\ length memb = length vals /\ in01 memb).
    { intros [H|[data H]].
      - unfold plan_discrete in H. destruct (discrete_desc cf c0) as [texts mm]. destruct (rmap _ texts); [|discriminate]. cbn [rbind] in H. injection H as <- _.
        apply in_map_iff in Hin as (z & Hin & _). discriminate.
      - unfold plan_continuous in H. destruct (c_disc cf f0 data) as [[[n vals] ms]|er] eqn:E; [|discriminate]. cbn [rbind] in H.
        destruct (rmap _ (seq 0 n)) as [l|er] eqn:El; [|discriminate]. cbn [rbind] in H. injection H as <- _.
        destruct (HS _ _ _ _ _ E) as (I1 & I2 & I3).
        apply in_map_iff in Hin as ([o row] & Ho & Hin). cbn [fst] in Ho. subst o.
        apply rmap_ok_Forall2 in El. destruct (Forall2_In_r _ _ _ _ El Hin) as (kk & _ & Hk). unfold plan_cluster in Hk.
        destruct (lget ms kk) as [memb|er] eqn:Em; [|discriminate]. cbn [rbind] in Hk. destruct (concept_ok _ _ _); [|discriminate]. cbn [rbind] in Hk.
        destruct (rmap _ data); [|discriminate]. cbn [rbind] in Hk. unfold concept_op in Hk.
        assert (Ea : mkAdict true memb vals = ad) by congruence. subst ad.
        exists memb, vals. split; auto. split; auto. split; auto. apply I3. unfold lget in Em. destruct (nth_error ms kk) eqn:En; [|discriminate].
        injection Em as ->. eapply nth_error_In; eauto. }
    apply X. cbn [describe] in Ed. destruct c0; auto; destruct (_ && _); eauto.
Qed.

(** ** The generated map *)
Lemma fresh_building (ops : list (op R)) : forall s, m_fit s = None -> forallb is_building ops = true -> ok_when (fun _ => true) ops s -> NoDup (flat_map added ops) ->
  (forall c, In c (concepts s) -> ~ In c (flat_map added ops)) -> fresh_adds ops s.
Proof.
  induction ops as [|o ops IH]; intros s Fi Bu Ok ND Hn; cbn [fresh_adds]; auto.
  cbn [forallb] in Bu. apply andb_prop in Bu as [Bo Bu]. destruct Ok as [O1 O2]. specialize (O1 eq_refl). cbn [flat_map] in ND, Hn.
  pose proof (build_settings o s Bo) as Se. apply settings_fit in Se as [Se1 _].
  destruct o; try discriminate Bo; cbn [added app step] in *.
  - split; [intros X; apply (Hn name X); now left|]. apply NoDup_cons_iff in ND as [N1 N2]. apply IH; auto; [congruence|].
    destruct (add_concept_parts _ _ _ _ _ _ _ _ _ O1) as [-> _]. intros c Hc. apply insert_incl in Hc as [Hc| ->]; auto.
    intros X. apply (Hn c Hc). now right.
  - split; auto. apply IH; auto; [congruence|]. intros c Hc. apply Hn.
    pose proof (add_relation_nofit origin destiny weight s Fi) as A. destruct (add_relation origin destiny weight s) as [s' r]. cbn [fst] in Hc.
    destruct A as (_ & A1 & _). apply unlinked_keys in A1. unfold concepts in *. congruence.
Qed.

Lemma ok_all_rel (ops : list (op R)) s : ok_when (fun _ => true) ops s -> ok_when is_add_relation ops s.
Proof. revert s. induction ops as [|o ops IH]; intros s; cbn; auto. intros [H1 H2]. auto. Qed.
Definition soft_map (s : fcm R) : Prop := forall c n t, dget (m_topo s) c = Some n -> nd_type n = Some t -> is_fuzzy_type t = true -> soft n.
Lemma soft_moved s s' : wframe s s' -> soft_map s -> soft_map s'.
Proof.
  intros (W & _ & _) H c n t Hn Ht Hz. symmetry in W. destruct (statics_dget _ _ c n W Hn) as (n' & Hn' & En).
  pose proof (f_equal nd_type En) as E0. pose proof (f_equal nd_func En) as E1. pose proof (f_equal nd_fuzzy En) as E2. pose proof (f_equal nd_args En) as E3. cbn in E0, E1, E2, E3.
  destruct (H c n' t Hn') as (memb & vals & sc & X); auto; [congruence|]. exists memb, vals, sc. now rewrite <- E1, <- E2, <- E3.
Qed.
Lemma links_moved s s' : wframe s s' -> links_ok (F := R) s -> links_ok s'.
Proof. intros (W & A & _). now apply links_ev. Qed.
Lemma fit_soft cf x y e0 e e' : c_sep cf = "___"%string -> reorders (c_ord cf) -> sound_disc cf -> estimator e0 e -> readable_data cf (join_frames x y) ->
  fit cf x y e = (e', Ok tt) -> soft_map (e_map e') /\ links_ok (e_map e').
Proof.
  intros Hsep HO HS HE (_ & ND & HR) HF. destruct (fit_plan _ _ _ _ _ _ HO HE ND HF) as (s & ops & fds & A & B & Hp & Hm & Rdy & Hg).
  destruct (plan_build_spec cf _ _ _ _ _ _ Hp) as (rest & E & D & Dn & Rl & An & Nm & Bd & Cn & Ln). cbn in E. subst rest.
  destruct B as (B1 & B2 & B3 & B4).
  destruct (run_building (m_default s) [] ops s B4 eq_refl Bd) as (Q1 & Q2 & Q3); auto.
  { apply Forall_forall. intros o Ho Hc. rewrite Forall_forall in Cn. destruct (Cn o Ho Hc) as (d & _ & _ & Hd). eauto. }
  { intros z []. }
  destruct (names_NoDup cf Hsep (dkeys y) _ fds ND HR D) as [N1 N2]. rewrite Hm. split.
  - intros c n t Hn Ht Hz. cut (exists t, nd_type n = Some t /\ (is_fuzzy_type t = true -> soft n)).
    { intros (t' & Ht' & X). rewrite Ht in Ht'. injection Ht' as <-. auto. }
    apply (built_node (fun n => exists t, nd_type n = Some t /\ (is_fuzzy_type t = true -> soft n)) c) with (ops := ops) (s := s); auto.
    + intros n1 n2 En (t' & X1 & X2). exists t'. split; [rewrite <- X1; symmetry; exact (f_equal nd_type En)|]. intros Z. apply (soft_unlinked n1); auto.
    + intros ct a m ex dd f k Ho. rewrite Forall_forall in Cn. destruct (Cn _ Ho eq_refl) as (d' & Hd' & Hc' & dx & Ho' & Hok & Hs & Hx).
      injection Ho' as -> -> -> -> -> -> ->. assert (Vt : is_valid_type (fd_type d') = true).
      { clear - D Hd'. induction D as [|fc d ds fds Hf D IH]; [easy|]. destruct Hd' as [->|Hd]; auto.
        inversion Hf; subst; cbn [fd_type]; destruct (str_mem f (dkeys y)); reflexivity. }
      exists (fd_type d'). destruct (is_fuzzy_type (fd_type d')) eqn:Ez.
      * destruct dx as [ad|]; [|now elim (Hs eq_refl)]. destruct (ad_origin cf _ _ _ HS _ _ _ Hp _ _ _ _ _ _ _ _ Ho) as (memb & vals & -> & I1 & I2 & I3 & I4).
        split; [|intros _; now apply soft_built]. unfold build_node. rewrite Vt, Ez. destruct (process_activation_dict _) as [[[? ?] ?]|]; reflexivity.
      * rewrite (Hx eq_refl). split; [|discriminate]. now destruct (discrete_node (m_default s) (fd_type d') Ez Vt) as (X & _).
    + intros n0' Hn0. rewrite B1 in Hn0. discriminate.
  - apply run_ops_links.
    + apply fresh_building; auto.
      * change (flat_map added ops) with (flat_map (fun o : op R => match o with OpAddConcept n _ _ _ _ _ _ _ => [n] | _ => [] end) ops). now rewrite Nm.
      * unfold concepts. rewrite B1. easy.
    + now apply ok_all_rel.
    + split; unfold relations; rewrite B3; [easy|]. intros c n Hn. rewrite B1 in Hn. discriminate.
Qed.

(** ** Setting a row *)
Definition takes (cf : gconf R) (fds : list (fdesc R)) (f : string) (v : cell R) : Prop :=
  exists d, In d fds /\ fd_feat d = f /\
    if is_fuzzy_type (fd_type d) then exists z, cell_num v = Ok z else exists t, cell_text cf v = Ok t.
Lemma init_soft c z s : (forall n, dget (m_topo s) c = Some n -> soft n) -> exists s', init_concept (F := R) c z false s = (s', Ok tt).
Proof.
  intros H. unfold init_concept. destruct (dget (m_topo s) c) as [n|]; [|eauto].
  destruct (H n eq_refl) as (memb & vals & sc & A & B & C & I1 & I2 & L1 & L2 & L3 & I3). rewrite A, B. cbn [oget rbind String.eqb Ascii.eqb Bool.eqb].
  destruct (fuzzy_range z memb vals I1 L1 L3 I3) as (r & -> & _). eauto.
Qed.
Lemma init_clusters names z : forall g, soft_map (g_fcm g) -> (forall c n, In c names -> dget (m_topo (g_fcm g)) c = Some n -> exists t, nd_type n = Some t /\ is_fuzzy_type t = true) ->
  exists g', sfold (fun name => swith (fun _ => Ok z) (fun x => on_fcm (init_concept (F := R) name x false))) names g = (g', Ok tt).
Proof.
  induction names as [|c names IH]; intros g S H; cbn [sfold]; [eauto|]. unfold swith at 1. unfold on_fcm at 1.
  destruct (init_soft c z (g_fcm g)) as [s' E].
  { intros n Hn. destruct (H c n (or_introl eq_refl) Hn) as (t & Ht & Hz). eauto. }
  pose proof (moved_on (OpInitConcept c z false) g eq_refl) as M. unfold on_fcm in M. cbn [step] in M. rewrite E in M |- *. cbn [fst] in M.
  pose proof (moved_wframe _ _ M) as W. apply IH; [now apply (soft_moved (g_fcm g))|].
  intros c' n Hc Hn. destruct W as (W & _). symmetry in W. destruct (statics_dget _ _ c' n W Hn) as (n' & Hn' & En).
  destruct (H c' n' (or_intror Hc) Hn') as (t & Ht & Hz). exists t. split; auto. pose proof (f_equal nd_type En) as E0. cbn in E0. congruence.
Qed.
Lemma takes_init cf fds f v g : c_sep cf = "___"%string -> tidy fds g -> soft_map (g_fcm g) -> dc_func (m_default (g_fcm g)) <> "fuzzy"%string ->
  (forall str, v = CStr str -> readable str) -> takes cf fds f v -> exists g', init_concept_by_feature_data cf f v g = (g', Ok tt).
Proof.
  intros Hsep T S Df Hr (d & Hd & <- & H). destruct (is_fuzzy_type (fd_type d)) eqn:Ez.
  - destruct H as [z Hz]. unfold init_concept_by_feature_data, get_type, get_names, dget_exn. unfold swith at 1. rewrite (td_known _ _ T d Hd).
    cbn [rbind feat_of f_type f_names oget]. pose proof Ez as Ez'. unfold is_fuzzy_type in Ez'. rewrite Ez'. unfold swith at 1. rewrite (td_known _ _ T d Hd).
    cbn [rbind feat_of f_names oget]. rewrite Hz. destruct (init_clusters (fd_names d) z g S) as [g' E].
    + intros c n Hc Hn. exists (fd_type d). split; auto. exact (td_type _ _ T d c n Hd Hc Hn).
    + rewrite E. eauto.
  - destruct H as [t Ht]. destruct (row_succeeds cf Hsep fds [(fd_feat d, v)] g T Df) as [g' E].
    + intros f str [X|[]]. injection X as _ ->. auto.
    + intros f w [X|[]]. injection X as <- <-. split; eauto.
    + unfold set_row in E. cbn [sfold fst snd] in E. destruct (init_concept_by_feature_data cf (fd_feat d) v g) as [g1 [[]|er]]; [eauto|discriminate].
Qed.
Lemma row_set cf fds r : c_sep cf = "___"%string -> forall g, tidy fds g -> soft_map (g_fcm g) -> dc_func (m_default (g_fcm g)) <> "fuzzy"%string ->
  (forall f str, In (f, CStr str) r -> readable str) -> (forall f v, In (f, v) r -> takes cf fds f v) -> exists g', set_row cf r g = (g', Ok tt).
Proof.
  intros Hsep. unfold set_row. induction r as [|[f v] r IH]; intros g T S Df Hr H; cbn [sfold]; [eauto|]. cbn [fst snd].
  destruct (takes_init cf fds f v g Hsep T S Df) as [g1 E].
  { intros str ->. apply (Hr f). now left. }
  { apply H. now left. }
  rewrite E. assert (M : moved g g1) by (pose proof (moved_init cf f v g) as M; rewrite E in M; exact M). pose proof (moved_wframe _ _ M) as W. apply IH.
  - now apply (tidy_moved fds g).
  - now apply (soft_moved (g_fcm g)).
  - destruct W as (_ & _ & W3). apply settings_fit in W3 as [_ W3]. now rewrite W3.
  - intros f' s Hs. apply (Hr f'). now right.
  - intros f' w Hs. apply H. now right.
Qed.

(** ** Running the map *)
(** no cluster has incoming weights that cancel *)
Definition balanced (s : fcm R) : Prop := forall c n t, dget (m_topo s) c = Some n -> nd_type n = Some t -> is_fuzzy_type t = true -> nd_sum n <> 0.
Lemma balanced_moved s s' : wframe s s' -> balanced s -> balanced s'.
Proof.
  intros (W & _ & _) H c n t Hn Ht Hz. symmetry in W. destruct (statics_dget _ _ c n W Hn) as (n' & Hn' & En).
  pose proof (f_equal nd_type En) as E0. pose proof (f_equal nd_sum En) as E1. cbn in E0, E1. rewrite <- E1. apply (H c n' t); auto. congruence.
Qed.
Lemma soft_answers (n : node R) : soft n -> nd_sum n <> 0 -> forall t arcs x c, exists y, next_value t arcs x c n y.
Proof.
  intros (memb & vals & sc & A & B & C & I1 & I2 & L1 & L2 & L3 & I3) Hs t arcs x c.
  destruct (fuzzy_range (total_input t arcs x c n / nd_sum n) memb sc I2) as (y & E & _); auto; try lia.
  exists y, "fuzzy"%string, AFuzzy, (scaled_args memb sc), (total_input t arcs x c n / nd_sum n). split; [exact A|]. split; [reflexivity|]. split; [exact C|]. split.
  - cbn. split; [|reflexivity]. now apply Reqb_false.
  - exact E.
Qed.
Lemma callable_not_fuzzy (f : string) (a : args R) : callable f a -> f <> "fuzzy"%string.
Proof. intros Hc E. rewrite E in Hc. destruct Hc as [[H _]|[[H _]|[[H _]|[H _]]]]; cbn in H; intuition discriminate. Qed.
(** the generated map always runs *)
Lemma tidy_runs fds g : tidy fds g -> soft_map (g_fcm g) -> balanced (g_fcm g) -> sane (g_fcm g) -> m_debug (g_fcm g) = true -> hist_ne (g_fcm g) ->
  callable (dc_func (m_default (g_fcm g))) (dc_args (m_default (g_fcm g))) -> m_decision (g_fcm g) <> "EXITED"%string ->
  exists s', run_inference true (g_fcm g) = (s', Ok tt).
Proof.
  intros T So Ba S D Hn Hc He. apply run_succeeds; auto.
  - intros c Hcc. destruct (sane_parts _ S) as (ND & _ & K & _). destruct (hist_initial _ c K Hn Hcc) as (v & ->). discriminate.
  - intros c n x Hnn. assert (Ic : In c (concepts (g_fcm g))) by (unfold concepts; apply dget_Some_In; eauto).
    apply (td_concepts _ _ T) in Ic as (d & Hd & Hcd). pose proof (td_type _ _ T d c n Hd Hcd Hnn) as Ht.
    destruct (is_fuzzy_type (fd_type d)) eqn:Ez.
    + apply soft_answers; [apply (So c n (fd_type d))|apply (Ba c n (fd_type d))]; auto.
    + exact (callable_answers n _ _ (td_func _ _ T d c n Hd Hcd Hnn Ez) (td_args _ _ T d c n Hd Hcd Hnn Ez) Hc _ _ _ _).
  - intros _ k Hk. cbn. apply Reqb_false. apply not_0_IZR. lia.
Qed.
Lemma row_runs cf fds r g : c_sep cf = "___"%string -> tidy fds g -> soft_map (g_fcm g) -> balanced (g_fcm g) -> sane (g_fcm g) -> m_debug (g_fcm g) = true -> hist_ne (g_fcm g) ->
  callable (dc_func (m_default (g_fcm g))) (dc_args (m_default (g_fcm g))) -> m_decision (g_fcm g) <> "EXITED"%string ->
  (forall f str, In (f, CStr str) r -> readable str) -> (forall f v, In (f, v) r -> takes cf fds f v) ->
  exists p, snd (predict_row cf r g) = Ok p.
Proof.
  intros Hsep T So Ba S D Hn Hc He Hr Hv. unfold predict_row, sthen.
  pose proof (moved_on OpClearExec g eq_refl) as M1. change (step OpClearExec) with (clear_execution (F := R)) in M1.
  assert (O1 : snd (on_fcm clear_execution g) = Ok tt).
  { unfold on_fcm. pose proof (proj1 (clear_values (g_fcm g))) as C. destruct (clear_execution (g_fcm g)); exact C. }
  destruct (on_fcm clear_execution g) as [g1 r1]. cbn [fst snd] in M1, O1. subst r1.
  pose proof (moved_wframe _ _ M1) as W1. assert (W1' := W1). destruct W1' as (_ & _ & W1'). apply settings_fit in W1' as [_ W1'].
  destruct (row_set cf fds r Hsep g1) as (g3 & E3); auto.
  - now apply (tidy_moved _ _ _ M1).
  - now apply (soft_moved (g_fcm g)).
  - rewrite W1'. now apply (callable_not_fuzzy _ (dc_args (m_default (g_fcm g)))).
  - unfold set_row in E3. rewrite E3. pose proof (moved_set_row cf r g1) as M3. unfold set_row in M3. rewrite E3 in M3. cbn [fst] in M3.
    pose proof (moved_trans _ _ _ M1 M3) as M. pose proof (moved_wframe _ _ M) as W3. assert (W3' := W3). destruct W3' as (_ & _ & W3').
    pose proof (settings_max _ _ W3') as (_ & _ & _ & _ & We & Wd). pose proof (settings_fit _ _ W3') as [_ Wf].
    pose proof (tidy_moved _ _ _ M T) as T3. pose proof (moved_sane _ _ M S) as S3.
    destruct (tidy_runs fds g3 T3) as (s' & Er); try congruence.
    + now apply (soft_moved (g_fcm g)).
    + now apply (balanced_moved (g_fcm g)).
    + now apply (moved_hist g).
    + unfold get_inference_result. unfold on_fcm. rewrite Er. cbn [snd].
      set (g4 := set_fcm s' g3). assert (M4 : moved g3 g4).
      { pose proof (moved_on (OpRun true) g3 eq_refl) as X. unfold on_fcm in X. change (step (OpRun true)) with (run_inference (F := R) true) in X. rewrite Er in X. exact X. }
      pose proof (tidy_moved _ _ _ M4 T3) as T4. pose proof (moved_sane _ _ M4 S3) as S4.
      rewrite (target_values fds g4 T4 S4). cbn [rbind]. rewrite (group_spec cf Hsep fds g4 T4). cbn [rbind]. eauto.
Qed.
(** conversely *)
Lemma row_balanced cf r g p : sane (g_fcm g) -> m_debug (g_fcm g) = true -> soft_map (g_fcm g) -> (2 <= m_extra (g_fcm g))%Z -> (1 <= m_maxit (g_fcm g))%Z ->
  snd (predict_row cf r g) = Ok p -> balanced (g_fcm g).
Proof.
  intros S D So Hx Hm. unfold predict_row, sthen.
  pose proof (moved_on OpClearExec g eq_refl) as M1. change (step OpClearExec) with (clear_execution (F := R)) in M1.
  destruct (on_fcm clear_execution g) as [g1 [u|er]]; [|discriminate]. cbn [fst] in M1.
  pose proof (moved_set_row cf r g1) as M3. unfold set_row in M3.
  destruct (sfold _ r g1) as [g3 [u3|er]]; [|discriminate]. cbn [fst] in M3. pose proof (moved_trans _ _ _ M1 M3) as M.
  pose proof (moved_wframe _ _ M) as W. unfold get_inference_result, on_fcm.
  destruct (run_inference true (g_fcm g3)) as [s' [[]|er]] eqn:Er; [|discriminate]. intros _.
  destruct W as (W1 & W2 & W3). pose proof (settings_max _ _ W3) as (Wm & Wx & _ & _ & We & Wd).
  assert (Hq : true = false -> sane_runs (g_fcm g3)) by discriminate.
  destruct (run_recurrence true (g_fcm g3) s' (moved_sane _ _ M S) ltac:(congruence) Hq Er) as (L & x & Ho & _ & _ & _ & He & Hh).
  intros c n t Hn Ht Hz. destruct (statics_dget _ _ c n W1 Hn) as (n' & Hn' & En).
  pose proof (f_equal nd_type En) as E0. pose proof (f_equal nd_sum En) as E1. pose proof (f_equal nd_func En) as E2. cbn in E0, E1, E2.
  destruct (So c n t Hn Ht Hz) as (memb & vals & sc & A & _). 
  assert (HL : (0 < L)%nat).
  { destruct (Nat.eq_dec L 0) as [->|]; [|lia]. exfalso. assert (Hc : In c (concepts (g_fcm g3))) by (unfold concepts; apply dget_Some_In; eauto).
    destruct (Hh c Hc) as (_ & h & H1 & H2). destruct (He ltac:(cbn; lia) c _ 0%nat H2 ltac:(cbn; lia)) as (h0 & b & a & tt' & E & Lt & _).
    apply (f_equal (@length R)) in E. rewrite !app_length in E. cbn [map seq length] in E. rewrite Lt in E. rewrite firstn_length in E. lia. }
  destruct (Ho 0%nat c n' HL Hn') as (f & fn & a & z & F1 & _ & _ & F2 & _). rewrite E2, A in F1. injection F1 as <-. cbn in F2.
  rewrite <- E1. destruct F2 as [F2 _]. now apply Reqb_false in F2.
Qed.

(** ** Predicting after a fit *)
(** the sums of the incoming weights of the clusters *)
Lemma balanced_weights s : links_ok s -> (balanced s <->
  forall c n t, dget (m_topo s) c = Some n -> nd_type n = Some t -> is_fuzzy_type t = true -> Rsum (incoming_weights (relations s) c) <> 0).
Proof.
  intros [_ HL]. split; intros H c n t Hn Ht Hz; specialize (H c n t Hn Ht Hz); destruct (HL c n Hn) as [_ E].
  - rewrite E in H. now rewrite <- nsum_Rsum.
  - rewrite E. now rewrite <- nsum_Rsum in H.
Qed.
Lemma init_limits mi ex sd de me xc ac kw vec (e0 : est R) : init_est mi ex sd de me xc ac kw vec = Ok e0 -> m_maxit (e_map e0) = mi /\ ((0 < ex)%Z -> m_extra (e_map e0) = ex).
Proof.
  unfold init_est. intros H. apply rbind_ok in H as (s & Hs & H). apply rbind_ok in H as (s1 & H1 & H). apply rbind_ok in H as (p & Hp & H).
  injection H as <-. cbn [e_map]. apply init_fcm_shape in Hs as (-> & _).
  unfold set_default_concept_properties, update_default in H1. cbn in H1. destruct (get_excitation_by_name xc); [|discriminate]. cbn in H1. injection H1 as <-. split; [reflexivity|]. intros Hx. cbn. now destruct (Z.ltb_spec 0 ex); try lia.
Qed.
Section Predict.
Variable cf : gconf R.
Hypothesis Hsep : c_sep cf = "___"%string.
Hypothesis HO : reorders (c_ord cf).
Hypothesis HS : sound_disc cf.
Variables (mi ex : Z) (sd : R) (de : string) (me : bool) (xc ac : string) (kw : args R).
Variables (e0 e e' e2 : est R) (x y : dataset R).
Hypothesis H0 : init_est mi ex sd de me xc ac kw false = Ok e0.
Hypothesis HH : healthy e0 e.
Hypothesis RD : readable_data cf (join_frames x y).
Hypothesis HF : fit cf x y e = (e', Ok tt).
Hypothesis HU : used e' e2.
Lemma used_state : exists fds, tidy fds (e_gen e2) /\ Forall2 (described cf (dkeys y)) (join_frames x y) fds /\ soft_map (e_map e2) /\ links_ok (e_map e2) /\
  g_fcm (e_gen e2) = e_map e2 /\ wframe (e_map e') (e_map e2) /\ e_generated e2 = true /\ sane (e_map e2) /\ hist_ne (e_map e2) /\ m_debug (e_map e2) = true /\
  m_default (e_map e2) = m_default (e_map e0) /\ m_decision (e_map e2) = de /\ m_extra (e_map e2) = m_extra (e_map e0) /\ m_maxit (e_map e2) = m_maxit (e_map e0).
Proof.
  pose proof (healthy_estimator _ _ HH) as HE. pose proof (healthy_fit _ _ _ _ _ _ HH HF) as H1. pose proof (healthy_used _ _ _ H1 HU) as H2.
  pose proof (healthy_sane _ _ H2) as S2. pose proof (est_iterative e0 e2 _ _ _ _ _ _ _ _ H0 (healthy_trail _ _ H2)) as It.
  destruct (iterative_hist _ It) as [Hn Db].
  destruct (@fit_tidy R RNum cf Hsep x y e0 e e' HO (fun a b => Rmult_comm a b) HE RD HF) as (fds & T & D & Nn & Ln & Eg & _).
  destruct (fit_soft cf x y e0 e e' Hsep HO HS HE RD HF) as [So Lk].
  destruct (fit_base cf x y e0 e e' HE HF) as (_ & _ & Pn). destruct (used_moved e' e2 Pn HU) as (M & P2 & G2).
  assert (g2 : g_fcm (e_gen e2) = e_map e2) by (unfold e_gen; now rewrite P2).
  pose proof (moved_wframe _ _ M) as W. rewrite Eg, g2 in W.
  assert (G1 : e_generated e' = true).
  { pose proof HF as HF'. unfold fit in HF'. destruct (reset (e_gen e)) as [g1 [u|er]]; [|discriminate]. destruct (build_fcm _ _ _ _ _) as [g3 [u'|er]]; [|discriminate]. now injection HF' as <-. }
  destruct (estimator_state _ _ (healthy_estimator _ _ H2)) as (_ & St & _). pose proof (est_settings _ _ St) as Se.
  pose proof (settings_max _ _ Se) as (Sm & Sx & _ & _ & Sd & _). pose proof (settings_fit _ _ Se) as [_ Sf].
  destruct (init_default _ _ _ _ _ _ _ _ _ _ H0) as (I1 & I2 & I3).
  exists fds. split; [now apply (tidy_moved _ _ _ M)|]. split; [exact D|]. split; [now apply (soft_moved (e_map e'))|]. split; [now apply (links_moved (e_map e'))|].
  repeat (split; [first [assumption|congruence]|]). congruence.
Qed.
Lemma weights_used c : incoming_weights (relations (e_map e2)) c = incoming_weights (relations (e_map e')) c.
Proof. destruct used_state as (fds & _ & _ & _ & _ & _ & (_ & W & _) & _). unfold relations. now rewrite W. Qed.
Lemma type_used c t : (exists n, dget (m_topo (e_map e2)) c = Some n /\ nd_type n = Some t) <-> (exists n, dget (m_topo (e_map e')) c = Some n /\ nd_type n = Some t).
Proof.
  destruct used_state as (fds & _ & _ & _ & _ & _ & (W & _ & _) & _). split; intros (n & Hn & Ht).
  - symmetry in W. destruct (statics_dget _ _ c n W Hn) as (n' & Hn' & En). exists n'. split; auto. pose proof (f_equal nd_type En) as E0. cbn in E0. congruence.
  - destruct (statics_dget _ _ c n W Hn) as (n' & Hn' & En). exists n'. split; auto. pose proof (f_equal nd_type En) as E0. cbn in E0. congruence.
Qed.
(** every cluster of a continuous feature has incoming weights that do not cancel *)
Definition weighted : Prop := forall c n t, dget (m_topo (e_map e')) c = Some n -> nd_type n = Some t -> is_fuzzy_type t = true -> Rsum (incoming_weights (relations (e_map e')) c) <> 0.
Lemma weighted_balanced : weighted <-> balanced (e_map e2).
Proof.
  destruct used_state as (fds & _ & _ & _ & Lk & _). rewrite (balanced_weights _ Lk). split; intros H c n t Hn Ht Hz.
  - rewrite weights_used. destruct (proj1 (type_used c t)) as (n' & A & B); eauto.
  - rewrite <- weights_used. destruct (proj2 (type_used c t)) as (n' & A & B); eauto.
Qed.
(** cells that suit the column of the training data *)
Definition suits (c : column R) (v : cell R) : Prop := forall texts rows, levels cf c texts rows ->
  (is_discrete cf c texts -> (exists t, cell_text cf v = Ok t) /\ forall str, v = CStr str -> readable str) /\ (~ is_discrete cf c texts -> forall str, v <> CStr str).
Lemma suits_takes fds f c v : Forall2 (described cf (dkeys y)) (join_frames x y) fds -> In (f, c) (join_frames x y) -> suits c v -> takes cf fds f v /\ forall str, v = CStr str -> readable str.
Proof.
  intros D Hi Hs. destruct (Forall2_In_l _ _ _ _ D Hi) as (d & Hd & Hde). inversion Hde; subst.
  - destruct (Hs texts rows ltac:(assumption)) as [A _]. destruct (A ltac:(assumption)) as [B C]. split; auto.
    eexists. split; [exact Hd|]. split; [reflexivity|]. cbn [fd_type]. now destruct (str_mem f (dkeys y)).
  - destruct (Hs texts ind ltac:(assumption)) as [_ A]. specialize (A ltac:(assumption)). split; [|intros str E; now elim (A str)].
    eexists. split; [exact Hd|]. split; [reflexivity|]. cbn [fd_type]. replace (is_fuzzy_type (if str_mem f (dkeys y) then TYPE_REGRESOR else TYPE_FUZZY)) with true by (now destruct (str_mem f (dkeys y))).
    destruct v as [s|b|z|q]; cbn [cell_num]; eauto. now elim (A s).
Qed.
Lemma predict_fuzzy x' : callable ac kw -> de <> "EXITED"%string -> weighted ->
  (forall r f v, In r (iterrows x') -> In (f, v) r -> exists c, In (f, c) (join_frames x y) /\ suits c v) ->
  exists out, snd (predict cf x' e2) = Ok out.
Proof.
  intros Hc He Hw Hx. pose proof (proj1 weighted_balanced Hw) as Ba.
  destruct used_state as (fds & T & D & So & Lk & g2 & W & G & S & Hn & Db & Sf & Sd & _).
  destruct (init_default _ _ _ _ _ _ _ _ _ _ H0) as (I1 & I2 & I3).
  assert (U : usable (g_fcm (e_gen e2))) by (rewrite g2; split; [auto|congruence]).
  destruct (Forall_choice (fun r p => snd (predict_row cf r (e_gen e2)) = Ok p) (iterrows x')) as [ps Hp].
  - intros r Hr. apply (row_runs cf fds); auto; try (rewrite g2; first [assumption|congruence]).
    + intros f str Hf. destruct (Hx r f _ Hr Hf) as (c & Hi & Hs). now apply (suits_takes fds f c _ D Hi Hs).
    + intros f v Hf. destruct (Hx r f _ Hr Hf) as (c & Hi & Hs). now apply (suits_takes fds f c _ D Hi Hs).
  - exists (fold_left append_all ps []). apply predict_ok; auto. eauto.
Qed.
Lemma predict_weighted x' out : (2 <= ex)%Z -> (1 <= mi)%Z -> iterrows x' <> [] -> snd (predict cf x' e2) = Ok out -> weighted.
Proof.
  intros Hx Hm Hr Hp. apply weighted_balanced. destruct used_state as (fds & T & D & So & Lk & g2 & W & G & S & Hn & Db & Sf & Sd & Se & Sm).
  assert (U : usable (g_fcm (e_gen e2))) by (rewrite g2; split; [auto|congruence]).
  apply predict_ok in Hp as (ps & Hp & _); auto. destruct Hp as [|r p rs ps Hp _]; [congruence|]. rewrite <- g2.
  destruct (init_limits _ _ _ _ _ _ _ _ _ _ H0) as [L1 L2]. specialize (L2 ltac:(lia)).
  apply (row_balanced cf r (e_gen e2) p); auto; rewrite g2; auto; lia.
Qed.
End Predict.
Lemma fuzzy_types t : is_fuzzy_type t = true <-> t = TYPE_FUZZY \/ t = TYPE_REGRESOR.
Proof. unfold is_fuzzy_type. rewrite orb_true_iff, !String.eqb_eq. tauto. Qed.
Lemma flat_owner {A} (g : A -> list string) l a b c : NoDup (flat_map g l) -> In a l -> In b l -> In c (g a) -> In c (g b) -> a = b.
Proof.
  induction l as [|z l IH]; [easy|]. cbn [flat_map]. intros ND Ha Hb Ca Cb.
  assert (X : forall u, In u l -> In c (g u) -> In c (g z) -> False).
  { intros u Hu Cu Cz. apply in_split in Cz as (p & q & E). rewrite E, <- app_assoc in ND. cbn in ND. apply NoDup_remove_2 in ND. apply ND.
    rewrite !in_app_iff. right. right. apply in_flat_map. eauto. }
  assert (ND' : NoDup (flat_map g l)).
  { clear - ND. induction (g z) as [|u k IH]; auto. cbn in ND. apply NoDup_cons_iff in ND. apply IH, ND. }
  destruct Ha as [<-|Ha], Hb as [<-|Hb]; auto; exfalso; eauto.
Qed.
(** without exclusion and relations between features nothing leads to the clusters of a feature *)
Lemma no_incoming cf x y (e0 e e' : est R) f c texts ind : c_sep cf = "___"%string -> reorders (c_ord cf) -> estimator e0 e -> readable_data cf (join_frames x y) -> fit cf x y e = (e', Ok tt) ->
  c_excl cf = 0 -> c_double cf = false -> c_featrel cf = false ->
  (forall data n vals ms, c_disc cf f data = Ok (n, vals, ms) -> (0 < n)%nat) ->
  In (f, c) (join_frames x y) -> ~ In f (dkeys y) -> levels cf c texts ind -> ~ is_discrete cf c texts ->
  exists k n, dget (m_topo (e_map e')) k = Some n /\ nd_type n = Some TYPE_FUZZY /\ incoming_weights (relations (e_map e')) k = [].
Proof.
  intros Hsep HO HE RD HF X0 Xd Xf Hn Hi Hy Lv Nd.
  destruct (@fit_tidy R RNum cf Hsep x y e0 e e' HO (fun a b => Rmult_comm a b) HE RD HF) as (fds & T & D & Nn & Ln & Eg & dc & ops & Hp & Er).
  assert (ND : NoDup (dkeys (join_frames x y))) by apply RD.
  pose proof (@all_rels_In R RNum cf HO (fun a b => Rmult_comm a b) _ _ _ _ _ ND Hp) as AR.
  destruct (Forall2_In_l _ _ _ _ D Hi) as (d & Hd & Hde). inversion Hde as [? ? texts' rows L' Di' E1 E2|f' c' texts' ind' data n vals ms rows' L' Di' Hnum Hdisc Hr Hrow E1 E2]; subst.
  - exfalso. apply Nd. destruct c; cbn in *; auto; destruct Di' as [A B]; (split; [exact A|]);
      now rewrite (Permutation_length (levels_perm cf _ _ _ _ _ Lv L')).
  - assert (Ef : str_mem f (dkeys y) = false).
    { destruct (str_mem f (dkeys y)) eqn:E; auto. apply str_mem_In in E. contradiction. }
    rewrite Ef in *. pose proof (Hn _ _ _ _ Hdisc) as Hpos. set (d := mkFd f TYPE_FUZZY _ rows') in *.
    set (k := (str_of_Z (Z.of_nat 0) ++ c_sep cf ++ f)%string).
    assert (Hk : In k (fd_names d)).
    { cbn [fd_names d]. apply in_map_iff. exists 0%nat. split; auto. apply in_seq. lia. }
    assert (Ic : In k (concepts (g_fcm (e_gen e')))) by (apply (td_concepts _ _ T); eauto).
    apply dget_Some_In in Ic as [nn Hnn]. exists k, nn. rewrite <- Eg. split; [exact Hnn|]. split; [exact (td_type _ _ T d k nn Hd Hk Hnn)|].
    rewrite Eg, Er. unfold incoming_weights.
    assert (Z : forall a w, ~ In (a, k, w) (ops_rels ops)).
    { intros a w Ha. apply AR in Ha as [(Ex & _)|(i & j & A & B & p & q & ra & rb & _ & HA & HB & Ht & _ & _ & Hb & _ & (Hw & _))].
      - rewrite X0 in Ex. cbn in Ex. apply Reqb_false in Ex. apply Ex. reflexivity.
      - assert (B = d).
        { apply (flat_owner fd_names fds B d k Nn); auto; eapply nth_error_In; eauto. }
        subst B. change (fd_target d) with false in Ht, Hw. destruct Ht as [Ht|Ht]; [congruence|]. destruct (fd_target A); [|congruence].
        destruct Hw as [Hw|[[Hw _]|[Hw _]]]; congruence. }
    clear - Z. clearbody k. induction (ops_rels ops) as [|[[a b] w] l IH]; auto. cbn. destruct (String.eqb_spec b k) as [->|_].
    + exfalso. apply (Z a w). now left.
    + apply IH. intros a' w' H. apply (Z a' w'). now right.
Qed.
Lemma constant_sum l a : (forall z, In z l -> z = a) -> Rsum l = INR (length l) * a.
Proof.
  induction l as [|z l IH]; intros H; [unfold Rsum; cbn; lra|]. replace (Rsum (z :: l)) with (z + Rsum l) by reflexivity.
  rewrite IH by (intros; apply H; now right). rewrite (H z (or_introl eq_refl)). cbn [length]. rewrite S_INR. lra.
Qed.
Lemma In_incoming (rels : list (string * string * R)) k w : In w (incoming_weights rels k) <-> exists a, In (a, k, w) rels.
Proof.
  unfold incoming_weights. rewrite in_map_iff. split.
  - intros ([[a b] w'] & <- & H). apply filter_In in H as [H E]. apply String.eqb_eq in E. subst. eauto.
  - intros (a & H). exists (a, k, w). split; auto. apply filter_In. split; auto. apply String.eqb_refl.
Qed.
(** with exclusion, and relations from features to targets only, the incoming weights of clusters never cancel *)
Lemma excluded_weighted cf x y (e0 e e' : est R) : c_sep cf = "___"%string -> reorders (c_ord cf) -> estimator e0 e -> readable_data cf (join_frames x y) -> fit cf x y e = (e', Ok tt) ->
  c_excl cf <> 0 -> c_double cf = false -> c_featrel cf = false ->
  (forall f data n vals ms, c_disc cf f data = Ok (n, vals, ms) -> (2 <= n)%nat) ->
  (forall f c texts rows, In (f, c) (join_frames x y) -> In f (dkeys y) -> levels cf c texts rows -> is_discrete cf c texts) ->
  weighted e'.
Proof.
  intros Hsep HO HE RD HF X0 Xd Xf Hn Hy.
  destruct (@fit_tidy R RNum cf Hsep x y e0 e e' HO (fun a b => Rmult_comm a b) HE RD HF) as (fds & T & D & Nn & Ln & Eg & dc & ops & Hp & Er).
  assert (ND : NoDup (dkeys (join_frames x y))) by apply RD.
  pose proof (@all_rels_In R RNum cf HO (fun a b => Rmult_comm a b) _ _ _ _ _ ND Hp) as AR.
  intros k nn t Hnn Ht Hz. rewrite Er.
  assert (Ic : In k (concepts (g_fcm (e_gen e')))) by (rewrite Eg; unfold concepts; apply dget_Some_In; eauto).
  apply (td_concepts _ _ T) in Ic as (d & Hd & Hk). rewrite <- Eg in Hnn. pose proof (td_type _ _ T d k nn Hd Hk Hnn) as Ht'. rewrite Ht in Ht'. injection Ht' as ->.
  assert (Hall : forall w, In w (incoming_weights (ops_rels ops) k) -> w = c_excl cf).
  { intros w Hw. apply In_incoming in Hw as (a & Ha). apply AR in Ha as [(_ & -> & _)|(i & j & A & B & p & q & ra & rb & _ & HA & HB & Hft & _ & _ & Hb & _ & (Hw & _))]; auto.
    exfalso. assert (B = d) by (apply (flat_owner fd_names fds B d k Nn); auto; eapply nth_error_In; eauto). subst B.
    assert (Fd : fd_target d = false).
    { destruct (Forall2_In_r _ _ _ _ D Hd) as ([f c] & Hi & Hde). inversion Hde as [? ? texts' rows L' Di' E1 E2|f' c' texts' ind' data n vals ms rows' L' Di' Hnum Hdisc Hr Hrow E1 E2]; subst; cbn [fd_type] in Hz.
      - destruct (str_mem f (dkeys y)); discriminate.
      - destruct (str_mem f (dkeys y)) eqn:E; [|reflexivity]. apply str_mem_In in E. elim Di'. eauto. }
    rewrite Fd in *. destruct Hft as [Hft|Hft]; [congruence|]. destruct (fd_target A); [|congruence]. destruct Hw as [Hw|[[Hw _]|[Hw _]]]; congruence. }
  rewrite (constant_sum _ _ Hall). apply Rmult_integral_contrapositive_currified; auto. apply not_0_INR. intros L.
  apply length_zero_iff_nil in L.
  destruct (Forall2_In_r _ _ _ _ D Hd) as ([f c] & Hi & Hde). inversion Hde as [? ? texts' rows L' Di' E1 E2|f' c' texts' ind' data n vals ms rows' L' Di' Hnum Hdisc Hr Hrow E1 E2]; subst d.
  - cbn [fd_type] in Hz. destruct (str_mem f (dkeys y)); discriminate.
  - pose proof (Hn _ _ _ _ _ Hdisc) as Hpos. cbn [fd_names] in Hk. apply In_nth_error in Hk as [i Hk].
    assert (Li : (i < n)%nat) by (assert (X : nth_error (map (fun k => (str_of_Z (Z.of_nat k) ++ c_sep cf ++ f)%string) (seq 0 n)) i <> None) by congruence; apply nth_error_Some in X; now rewrite map_length, seq_length in X).
    set (names := map _ (seq 0 n)) in *. set (j := if Nat.eqb i 0 then 1%nat else 0%nat).
    destruct (nth_error names j) as [a|] eqn:Ej.
    2: { apply nth_error_None in Ej. unfold names in Ej. rewrite map_length, seq_length in Ej. unfold j in Ej. destruct (Nat.eqb i 0); lia. }
    assert (Hex : In (c_excl cf) (incoming_weights (ops_rels ops) k)).
    { apply In_incoming. exists a. apply AR. left. split; [cbn; now apply Reqb_false|]. split; auto. eexists _, j, i. split; [exact Hd|]. split; [|auto].
      unfold j. destruct (Nat.eqb_spec i 0); lia. }
    rewrite L in Hex. exact Hex.
Qed.
Lemma gen_disc_many strategy curve rand f data n vals ms : In strategy strategies -> sampled curve rand -> generator_disc strategy curve rand f data = Ok (n, vals, ms) -> (2 <= n)%nat.
Proof.
  intros Hst Hs E. destruct (Nat.lt_ge_cases (length (unique nleb neqb data)) 10) as [L|L].
  - destruct (gen_disc_few strategy curve rand f data) as [er X]; [rewrite varied_iff; lia|congruence].
  - assert (V : varied data) by now apply varied_iff.
    destruct (gen_disc_ok strategy curve rand f data Hst Hs V) as (n' & vals' & ms' & E' & H2 & _). rewrite E' in E. injection E as <- <- <-. exact H2.
Qed.
