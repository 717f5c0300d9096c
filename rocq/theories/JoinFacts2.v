(** JoinFacts2.v — documents from_json accepts, sessions behind a loaded map,
    when joining succeeds, and permuting the joined maps over the reals. *)
From Coq Require Import Permutation Reals Lra.
From Verif Require Import Base Num Functions Fcm Loader Spec FcmSpec LoaderSpec BaseFacts RealFacts FcmBasics FcmInv FcmInv2 FcmInv3 FcmIter FcmRun LoaderFacts JoinFacts.

Section Join2.
Context {F : Type} {N : Num F}.
Implicit Types s m : fcm F.

(** ** A loaded map is made by calls that all succeed *)
Definition always (_ : op F) : bool := true.
Definition building (o : op F) : bool :=
  match o with OpAddConcept _ _ _ _ _ _ _ _ | OpInitConcept _ _ _ | OpAddRelation _ _ _ | OpAttrWeight _ => true | _ => false end.
Lemma ok_always P ops s : ok_when always ops s -> ok_when P ops s.
Proof.
  revert s. induction ops as [|o ops IH]; intros s; cbn; auto. intros [H1 H2]. split; auto.
Qed.
Lemma mfold_ops {A} (f : A -> fcm F -> fcm F * res unit) l s s' :
  (forall a s s', f a s = (s', Ok tt) -> exists ops, ok_when always ops s /\ forallb building ops = true /\ s' = run_ops ops s) ->
  mfold f l s = (s', Ok tt) -> exists ops, ok_when always ops s /\ forallb building ops = true /\ s' = run_ops ops s.
Proof.
  intros Hf. revert s. induction l as [|a l IH]; intros s; cbn [mfold].
  - intros [= <-]. exists []. repeat split.
  - destruct (f a s) as [s1 [u|e]] eqn:E; [|discriminate]. destruct u. intros H.
    destruct (Hf a s s1 E) as (ops1 & A1 & A2 & ->). destruct (IH _ H) as (ops2 & B1 & B2 & ->).
    exists (ops1 ++ ops2). split; [apply ok_when_app; auto|]. split; [now rewrite forallb_app, A2, B2|].
    unfold run_ops. now rewrite fold_left_app.
Qed.
Lemma load_concept_ops j s s' : load_concept j s = (s', Ok tt) ->
  exists ops, ok_when always ops s /\ forallb building ops = true /\ s' = run_ops ops s.
Proof.
  unfold load_concept. destruct (read_concept j) as [cd|]; [|discriminate].
  destruct (add_concept _ _ _ _ _ _ _ _ s) as [s1 [[]|e]] eqn:E; [|discriminate].
  set (o1 := OpAddConcept (cd_id cd) (Some (cd_type cd)) (cd_active cd) (cd_mem cd) (cd_exec cd) (cd_adict cd) (cd_func cd) (cd_args cd)).
  assert (Eo : step o1 s = (s1, Ok tt)) by exact E.
  destruct (cd_activation cd) as [v|].
  - intros H. exists [o1; OpInitConcept (cd_id cd) v true]. cbn [ok_when run_ops fold_left]. rewrite Eo. cbn [fst snd step].
    rewrite H. repeat split.
  - intros [= <-]. exists [o1]. cbn [ok_when run_ops fold_left]. rewrite Eo. repeat split.
Qed.
Lemma load_relation_ops j s s' : load_relation j s = (s', Ok tt) ->
  exists ops, ok_when always ops s /\ forallb building ops = true /\ s' = run_ops ops s.
Proof.
  unfold load_relation. match goal with |- context [match ?x with Ok _ => _ | Err _ => _ end] => destruct x as [[[o t] w]|] end; [|discriminate].
  intros H. exists [OpAddRelation o t w]. cbn [ok_when run_ops fold_left step]. rewrite H. repeat split.
Qed.

(** ** Documents from_json accepts *)
Record document (d : dict (json F)) s : Prop := {
  do_maxit : exists z, dget d "max_iter" = Some (JInt z) /\ m_maxit s = z;
  do_dec : exists x f, dget d "decision_function" = Some (JStr x) /\ m_decision s = x /\ get_decision_by_name x = Some f;
  do_mem : exists b, dget d "memory_influence" = Some (JBool b) /\ m_mem s = b;
  do_act : exists x f, dget d "activation_function" = Some (JStr x) /\ m_func s = x /\ get_function_by_name x = Some f;
  do_concepts : exists j l, dget d "concepts" = Some j /\ jiter j = Ok l /\ forall c, In c l -> exists cd, read_concept c = Ok cd /\
     (forall e, cd_exec cd = Some e -> get_excitation_by_name e <> None) /\
     (forall f, cd_func cd = Some f -> cd_adict cd = None -> get_function_by_name f <> None);
  do_rels : exists j l, dget d "relations" = Some j /\ jiter j = Ok l /\ forall r, In r l -> exists rd o t w,
     r = JObj rd /\ dget rd "origin" = Some (JStr o) /\ dget rd "destiny" = Some (JStr t) /\ dget rd "weight" = Some w /\ exists x, jnum w = Ok x
}.
Lemma req_ok {A} (d : dict (json F)) k (conv : json F -> res A) x : req_field d k conv = Ok x -> exists j, dget d k = Some j /\ conv j = Ok x.
Proof. unfold req_field, dget_exn. destruct (dget d k); cbn; [eauto|discriminate]. Qed.
Lemma mfold_each {A} (f : A -> fcm F -> fcm F * res unit) l s s' a : mfold f l s = (s', Ok tt) -> In a l -> exists s1 s2, f a s1 = (s2, Ok tt).
Proof.
  revert s. induction l as [|b l IH]; intros s; cbn [mfold]; [intros _ []|].
  destruct (f b s) as [s1 [[]|e]] eqn:E; [|discriminate]. intros H [->|Hi]; eauto.
Qed.
Lemma jstr_ok (j : json F) x : jstr j = Ok x -> j = JStr x.
Proof. destruct j; cbn; congruence. Qed.
Lemma load_built j s : load j = Ok s -> exists d, j = JObj d /\ document d s /\
  from_fresh (fun ops s0 => ok_when always ops s0 /\ forallb building ops = true) s /\ m_debug s = true /\ m_fit s = None.
Proof.
  unfold load. intros H. apply rbind_ok in H as (d & Hd & H). destruct j; try discriminate Hd. injection Hd as ->. exists d. split; auto.
  apply rbind_ok in H as (kw & Hkw & H). apply rbind_ok in H as (sd & _ & H). apply rbind_ok in H as (st & _ & H).
  apply rbind_ok in H as (ex & _ & H). apply rbind_ok in H as (we & _ & H). apply rbind_ok in H as (mi & Hmi & H).
  apply rbind_ok in H as (de & Hde & H). apply rbind_ok in H as (me & Hme & H). apply rbind_ok in H as (ac & Hac & H).
  apply rbind_ok in H as (s0 & H0 & H). apply rbind_ok in H as (cs & Hcs & H).
  destruct (mfold load_concept cs (set_weight we s0)) as [s1 [[]|e]] eqn:E1; [|discriminate]. cbn [rbind] in H.
  apply rbind_ok in H as (rs & Hrs & H). destruct (mfold load_relation rs s1) as [s2 [[]|e]] eqn:E2; [|discriminate]. injection H as ->.
  apply req_ok in Hmi as (j1 & D1 & J1), Hde as (j2 & D2 & J2), Hme as (j3 & D3 & J3), Hac as (j4 & D4 & J4), Hcs as (j5 & D5 & J5), Hrs as (j6 & D6 & J6).
  destruct j1; try discriminate J1. injection J1 as ->. apply jstr_ok in J2 as ->. destruct j3; try discriminate J3. injection J3 as ->. apply jstr_ok in J4 as ->.
  destruct (init_fcm_shape _ _ _ _ _ _ _ _ _ H0) as (Sh & (df & Hdf) & (af & Haf)).
  assert (B : from_fresh (fun ops s0 => ok_when always ops s0 /\ forallb building ops = true) s).
  { destruct (mfold_ops _ _ _ _ load_concept_ops E1) as (o1 & A1 & A2 & ->). destruct (mfold_ops _ _ _ _ load_relation_ops E2) as (o2 & B1 & B2 & ->).
    exists mi, ex, st, sd, de, me, ac, kw, s0, (OpAttrWeight we :: o1 ++ o2). split; auto. split; [split|].
    - cbn [ok_when step fst snd]. split; auto. apply ok_when_app. auto.
    - cbn [forallb building andb]. now rewrite forallb_app, A2, B2.
    - unfold run_ops. cbn [fold_left step fst]. now rewrite fold_left_app. }
  set (P := fun x : fcm F => m_maxit x = mi /\ m_decision x = de /\ m_mem x = me /\ m_func x = ac /\ m_fit x = None /\ m_debug x = true).
  assert (P2 : P s).
  { assert (P0 : P (set_weight we s0)) by (rewrite Sh; repeat split).
    assert (P1 : P (fst (mfold load_concept cs (set_weight we s0)))).
    { apply mfold_ind; [|exact P0]. intros j x Px. unfold load_concept. destruct (read_concept j) as [cd|]; auto. unfold add_concept. cbn [m_default set_prepared].
      destruct (build_node _ _ _ _ _ _ _ _) as [nd [[]|e]]; [|exact Px]. destruct (cd_activation cd) as [v|]; [|exact Px].
      match goal with |- context [init_concept ?c ?v ?r ?y] => pose proof (init_concept_frame c v r y) as (_ & _ & Fr & _) end.
      unfold settings in Fr. cbn in Fr. cbn [fst]. destruct Px as (X1 & X2 & X3 & X4 & X5 & X6). repeat split; congruence. }
    rewrite E1 in P1. cbn [fst] in P1.
    assert (P2 : P (fst (mfold load_relation rs s1))).
    { apply mfold_ind; [|exact P1]. intros j x Px. unfold load_relation.
      match goal with |- context [match ?x with Ok _ => _ | Err _ => _ end] => destruct x as [[[o t] w]|] end; auto.
      destruct Px as (X1 & X2 & X3 & X4 & X5 & X6). pose proof (add_relation_nofit o t w x X5) as X.
      destruct (add_relation o t w x) as [x' r]. destruct X as (_ & _ & _ & X & _). cbn [fst]. unfold settings in X. repeat split; congruence. }
    rewrite E2 in P2. exact P2. }
  destruct P2 as (X1 & X2 & X3 & X4 & X5 & X6).
  split; [|auto].
  constructor; eauto 10.
  - exists j5, cs. split; auto. split; auto. intros c Hc. destruct (mfold_each _ _ _ _ c E1 Hc) as (y1 & y2 & L).
    unfold load_concept in L. destruct (read_concept c) as [cd|]; [|discriminate]. exists cd. split; auto.
    destruct (add_concept _ _ _ _ _ _ _ _ y1) as [y3 [[]|e]] eqn:EA; [|discriminate]. clear L.
    unfold add_concept in EA. cbn [m_default set_prepared] in EA.
    destruct (build_node _ _ _ _ _ _ _ _) as [nd [[]|e]] eqn:EB; [|discriminate]. clear EA. unfold build_node in EB. split.
    + intros e He Hn. rewrite He, Hn in EB. discriminate.
    + intros f Hf Had Hn. rewrite Hf, Had in EB. cbv zeta in EB.
      match type of EB with (match ?x with Ok _ => _ | Err _ => _ end = _) => destruct x as [e|]; [|discriminate] end.
      match type of EB with (match ?x with Ok _ => _ | Err _ => _ end = _) => destruct x as [[n1 fa]|] eqn:EF; [|discriminate] end.
      assert (fa = None).
      { destruct (is_fuzzy_type _); [|congruence]. destruct (String.eqb _ _); [|congruence]. apply rbind_ok in EF as (z & _ & EF). congruence. }
      subst fa. unfold define_func in EB. rewrite Hn in EB. discriminate.
  - exists j6, rs. split; auto. split; auto. intros c Hc. destruct (mfold_each _ _ _ _ c E2 Hc) as (y1 & y2 & L).
    unfold load_relation in L. match type of L with (match ?x with Ok _ => _ | Err _ => _ end = _) => destruct x as [[[o t] w]|] eqn:EL; [|discriminate] end.
    apply rbind_ok in EL as (rd & Hrd & EL). destruct c; try discriminate Hrd. injection Hrd as ->.
    apply rbind_ok in EL as (o' & Ho & EL). apply rbind_ok in EL as (t' & Ht & EL). apply rbind_ok in EL as (w' & Hw & EL).
    apply req_ok in Ho as (k1 & K1 & L1), Ht as (k2 & K2 & L2), Hw as (k3 & K3 & L3). apply jstr_ok in L1 as ->. apply jstr_ok in L2 as ->.
    exists rd, o', t', k3. repeat split; eauto.
Qed.
Lemma from_json_shape (j : json F) : (exists s, from_json j = Ok s /\ load j = Ok s) \/
  (exists e, from_json j = Err (EExc (append "Cannot load json data due: " (exn_str e))) /\ load j = Err e).
Proof. unfold from_json. destruct (load j); eauto. Qed.
Lemma load_sane (j : json F) s : from_json j = Ok s -> sane_runs s /\ m_debug s = true /\ m_fit s = None.
Proof.
  intros H. apply from_json_ok in H. destruct (load_built j s H) as (d & _ & _ & B & D & Fi). split; auto.
  destruct B as (a & b & c & d' & e & f & g & h & s0 & ops & H0 & (H1 & H2) & ->).
  exists a, b, c, d', e, f, g, h, s0, ops. split; auto. split; auto. split; now apply ok_always.
Qed.

(** ** When joining succeeds *)
Lemma doc_serialisable s cs rels : forallb serialisable cs = true -> serialisable (args_json (m_gargs s)) = true ->
  serialisable (JObj (doc_of s cs (map jrel rels))) = true.
Proof.
  intros H HS. unfold doc_of. cbn [serialisable]. rewrite forallb_app. apply andb_true_iff. split.
  - cbn [forallb snd serialisable andb]. rewrite !andb_true_r. apply andb_true_iff. split; auto.
    apply forallb_forall. intros j Hj. apply in_map_iff in Hj as ([[o d] w] & <- & _). reflexivity.
  - destruct (m_gargs s) as [|p a]; auto. cbn -[args_json serialisable]. now rewrite HS.
Qed.
Lemma loadable_value s n x : loadable s n -> loadable s (nd_set_value x n).
Proof. intros [A B C D]. constructor; auto. Qed.
Lemma written_serialisable src (cs : list (json F)) : Forall2 written src cs -> (forall p, In p src -> loadable (fst p) (snd (snd p))) ->
  forallb serialisable cs = true.
Proof.
  induction 1 as [|[s [c n]] j src cs H _ IH]; intros HL; [reflexivity|]. cbn [forallb].
  destruct (loadable_written s c n (HL _ (or_introl eq_refl))) as (j' & cd & H' & S & _).
  unfold written in H. cbn [fst snd] in H. rewrite H in H'. injection H' as <-. rewrite S. apply IH. intros p Hp. apply HL. now right.
Qed.
Lemma combine_total st (l : list F) : l <> [] -> exists x, combine_values st l = Ok x.
Proof.
  destruct l as [|a t]; [congruence|]. intros _. unfold combine_values. destruct (String.eqb st "highest"); [cbn; eauto|].
  destruct (String.eqb st "lowest"); [cbn; eauto|]. eauto.
Qed.
Lemma final_relation_total st (nodes : dict (@jentry F)) o d ws : ws <> [] -> exists js, final_relation st nodes (key o d, ws) = Ok js.
Proof.
  intros Hw. unfold final_relation, rel_separator, key, split_str.
  destruct (split_first_short " |=====> " o d "") as (p & l & E & _ & Hl); [discriminate|].
  destruct l as [|q l]; [congruence|].
  replace (split_go " |=====> " (append o (append " |=====> " d)) "" 0) with (p :: q :: l). cbn [rbind lget nth_error].
  destruct (dmem nodes p && dmem nodes q); [|eauto]. destruct (combine_total st ws Hw) as [x ->]. cbn [rbind]. eauto.
Qed.
Lemma join_ok m maps cst vst rst iz : strategies cst vst rst ->
  (forall x, In x (m :: maps) -> sane x /\ portable x) -> m_func m <> "fuzzy" ->
  exists s', join_maps (m :: maps) cst vst rst iz = Ok s'.
Proof.
  intros St Hp Hf.
  assert (ND : forall x, In x (m :: maps) -> NoDup (concepts x)).
  { intros x Hx. apply reachable_NoDup. apply (from_fresh_reachable (ok_when is_add_concept)). now apply Hp. }
  assert (HL : forall x c n, In x (m :: maps) -> In (c, n) (m_topo x) -> loadable x n).
  { intros x c n Hx Hi. destruct (Hp x Hx) as [Hs [_ P]]. destruct (sane_parts x Hs) as (_ & Fu & _).
    apply In_dget in Hi; [|now apply ND]. apply plain_loadable; [eapply Fu; eauto|eapply P; eauto]. }
  destruct (rmap_total describe (m :: maps)) as [descs HD].
  { intros x Hx. destruct (loadable_to_json x) as [j Hj].
    - intros c n Hi. eapply HL; eauto.
    - destruct (Hp x Hx) as [_ [P _]]. eapply portable_serialisable; eauto.
    - unfold describe. rewrite Hj. cbn [rbind]. destruct (to_json_doc x j Hj) as (cs & _ & _ & ->). cbn. eauto. }
  destruct (join_unfold m maps cst vst rst iz descs St ND HD) as (nodes & (N1 & N2 & N3) & c0 & Hc0 & ->).
  destruct (final_concepts vst iz nodes) as [cs|e] eqn:Ec.
  2: { exfalso. unfold final_concepts in Ec. match type of Ec with rbind ?a _ = _ => destruct a as [l|] eqn:El; [discriminate|] end.
       match type of El with rmap ?f _ = _ => destruct (rmap_total f nodes) as [ys Hys] end; [|congruence].
       intros [c [d acc]] Hi. apply In_dget in Hi; auto. destruct (N3 c d acc Hi) as (-> & x & v & Hx & Hv).
       destruct (combine_total vst (values_of (m :: maps) c)) as [y ->]; [|cbn; eauto].
       intros Z. assert (Y : In v (values_of (m :: maps) c)); [|rewrite Z in Y; destruct Y].
       unfold values_of. apply in_flat_map. exists x. split; auto. rewrite (entry_value x c d v (ND x Hx) Hv). now left. }
  cbn [rbind]. set (all := flat_map _ _).
  destruct (group_get (map keyed all)) as [Gn Gg].
  destruct (rmap_total (final_relation rst nodes) (group_relations (map keyed all))) as [rs Hrs].
  { intros [k ws] Hi. apply In_dget in Hi; auto. rewrite Gg in Hi. destruct (wts k (map keyed all)) as [|w ws'] eqn:Ew; [discriminate|]. injection Hi as <-.
    assert (Y : In w (wts k (map keyed all))) by (rewrite Ew; now left). unfold wts in Y. apply in_map_iff in Y as ([k' w'] & _ & Y).
    apply filter_In in Y as [Y Ek]. apply in_map_iff in Y as ([[o d] w2] & Eo & Y). unfold keyed in Eo. injection Eo as <- <-. cbn [fst] in Ek.
    apply String.eqb_eq in Ek as ->. apply final_relation_total. discriminate. }
  rewrite Hrs. cbn [rbind].
  destruct (final_concepts_src vst iz (m :: maps) nodes cs) as (src & W & NDs & Sub & Val & Src); auto.
  { intros c d acc Hi. apply In_dget in Hi; auto. now apply (N3 c d acc). }
  destruct (final_relations_rels rst nodes _ rs Hrs) as (rels & ER & _). rewrite ER.
  assert (HLs : forall p, In p src -> loadable (fst p) (snd (snd p))).
  { intros p Hi. destruct (Src p Hi) as (c & n & x & A1 & A2 & ->). cbn [snd]. apply loadable_value. eapply HL; eauto. }
  destruct (Hp m (or_introl eq_refl)) as [Hsm [Pm _]].
  unfold dumps. rewrite doc_serialisable; [|eapply written_serialisable; eauto|eapply portable_serialisable; eauto]. cbn [rbind].
  destruct (sane_parts m Hsm) as (_ & _ & _ & _ & (_ & _ & G3 & G4) & _).
  apply (load_doc_ok m src cs rels W HLs).
  - right. now apply portable_kwargs.
  - intros p _ _. exact Hf.
  - destruct G3 as [x G3]. congruence.
  - destruct G4 as [x G4]. congruence.
Qed.
End Join2.

(** ** Permuting the joined maps, over the reals *)
Lemma picked_R st (l : list R) x : str_mem st ["highest"; "lowest"; "average"] = true -> l <> [] ->
  (picked st l x <-> real_pick st l x).
Proof.
  intros Hs Hl. apply str_mem_In in Hs. unfold picked, real_pick. destruct l as [|a t]; [congruence|].
  pose proof (pmax_spec t a) as Mx. pose proof (pmin_spec t a) as Mn.
  assert (Av : (nsum (a :: t) / nat2F (length (a :: t)))%num = (fold_right Rplus 0 (a :: t) / INR (length (a :: t)))%R).
  { rewrite nsum_Rsum. unfold nat2F. change (@nofZ R _) with IZR. rewrite <- INR_IZR_INZ. reflexivity. }
  destruct Hs as [<-|[<-|[<-|[]]]].
  - split.
    + intros [[_ ->]|[[X _]|[X _]]]; try discriminate X. split; [|split; discriminate]. intros _. exact Mx.
    + intros (H & _). left. split; auto. eapply is_max_unique; [exact (H eq_refl)|exact Mx].
  - split.
    + intros [[X _]|[[_ ->]|[X _]]]; try discriminate X. split; [discriminate|split; [|discriminate]]. intros _. exact Mn.
    + intros (_ & H & _). right. left. split; auto. eapply is_min_unique; [exact (H eq_refl)|exact Mn].
  - split.
    + intros [[X _]|[[X _]|[_ ->]]]; try discriminate X. split; [discriminate|split; [discriminate|]]. intros _. exact Av.
    + intros (_ & _ & H). right. right. split; auto. now rewrite (H eq_refl), Av.
Qed.
Lemma fold_Rplus_perm (l l' : list R) : Permutation l l' -> fold_right Rplus 0%R l = fold_right Rplus 0%R l'.
Proof. induction 1; cbn; lra. Qed.
Lemma real_pick_perm st (l l' : list R) x : Permutation l l' -> real_pick st l x -> real_pick st l' x.
Proof.
  intros P (A & B & C). split; [|split].
  - intros H. destruct (A H) as [A1 A2]. split; [eapply Permutation_in; eauto|]. intros y Hy. apply A2. eapply Permutation_in; [symmetry|]; eauto.
  - intros H. destruct (B H) as [A1 A2]. split; [eapply Permutation_in; eauto|]. intros y Hy. apply A2. eapply Permutation_in; [symmetry|]; eauto.
  - intros H. rewrite (C H). rewrite (fold_Rplus_perm l l' P), (Permutation_length P). reflexivity.
Qed.
Lemma picked_perm st (l l' : list R) x : str_mem st ["highest"; "lowest"; "average"] = true -> Permutation l l' -> picked st l x -> picked st l' x.
Proof.
  intros Hs P H. assert (Hl : l <> []) by (intros ->; exact H).
  assert (Hl' : l' <> []) by (intros ->; apply Hl; now apply Permutation_nil, Permutation_sym).
  rewrite picked_R in * by auto. eapply real_pick_perm; eauto.
Qed.
Lemma kept_perm cst (l l' : list (fcm R)) c : Permutation l l' -> kept cst l c -> kept cst l' c.
Proof.
  unfold kept. intros P. destruct (String.eqb cst "union").
  - intros (m & H1 & H2). exists m. split; auto. eapply Permutation_in; eauto.
  - intros H m Hm. apply H. eapply Permutation_in; [symmetry|]; eauto.
Qed.
Lemma values_perm (l l' : list (fcm R)) c : Permutation l l' -> Permutation (values_of l c) (values_of l' c).
Proof. apply Permutation_flat_map. Qed.
Lemma weights_perm (l l' : list (fcm R)) a b : Permutation l l' -> Permutation (weights_of l a b) (weights_of l' a b).
Proof. apply Permutation_flat_map. Qed.
Lemma join_value_perm (l l' : list (fcm R)) cst vst rst iz s s' c v : Permutation l l' -> l <> [] -> (forall x, In x l -> reachable x) ->
  join_maps l cst vst rst iz = Ok s -> join_maps l' cst vst rst iz = Ok s' -> value s c = Some v -> value s' c = Some v.
Proof.
  intros P Hl Hr E E' Hv. destruct l as [|m maps]; [congruence|]. destruct l' as [|m' maps']; [symmetry in P; now apply Permutation_nil in P|].
  assert (Hr' : forall x, In x (m' :: maps') -> reachable x) by (intros x Hx; apply Hr; eapply Permutation_in; [symmetry|]; eauto).
  destruct (join_spec m maps cst vst rst iz s Hr E) as (A & _). destruct (join_spec m' maps' cst vst rst iz s' Hr' E') as (A' & _).
  pose proof (join_strategies _ _ _ _ _ _ E) as [_ S2 _].
  apply A in Hv as (H1 & H2 & H3). apply A'. split; [eapply kept_perm; eauto|]. split; auto. apply (picked_perm vst _ _ v S2 (values_perm _ _ c P) H2).
Qed.
Lemma join_relation_perm (l l' : list (fcm R)) cst vst rst iz s s' a b w : Permutation l l' -> l <> [] -> (forall x, In x l -> reachable x) ->
  separator_free l ->
  join_maps l cst vst rst iz = Ok s -> join_maps l' cst vst rst iz = Ok s' -> In (a, b, w) (relations s) -> In (a, b, w) (relations s').
Proof.
  intros P Hl Hr SF E E' Hv. destruct l as [|m maps]; [congruence|]. destruct l' as [|m' maps']; [symmetry in P; now apply Permutation_nil in P|].
  assert (Hr' : forall x, In x (m' :: maps') -> reachable x) by (intros x Hx; apply Hr; eapply Permutation_in; [symmetry|]; eauto).
  assert (SF' : separator_free (m' :: maps')) by (intros x c Hx Hc; apply (SF x c); auto; eapply Permutation_in; [symmetry|]; eauto).
  destruct (join_spec m maps cst vst rst iz s Hr E) as (_ & _ & _ & _ & _ & A). destruct (join_spec m' maps' cst vst rst iz s' Hr' E') as (_ & _ & _ & _ & _ & A').
  destruct (A SF) as [A1 _]. destruct (A' SF') as [A1' _].
  pose proof (join_strategies _ _ _ _ _ _ E) as [_ _ S3].
  assert (Hc : forall c, In c (concepts s) -> In c (concepts s')).
  { intros c Hc. apply value_concept in Hc as [v Hc]. apply value_concept. exists v.
    eapply (join_value_perm (m :: maps) (m' :: maps')); eauto. }
  apply A1 in Hv as (H1 & H2 & H3). apply A1'. split; auto. split; auto. apply (picked_perm rst _ _ w S3 (weights_perm _ _ a b P) H3).
Qed.
