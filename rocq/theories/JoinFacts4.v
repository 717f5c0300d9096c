(** JoinFacts4.v — which map a joined concept comes from, and the function it is given (C112). *)
From Verif Require Import Base BaseFacts Num Functions Fcm FcmSpec FcmBasics FcmInv FcmRun Loader LoaderSpec LoaderFacts JoinFacts.

Section Origin.
Context {F : Type} {N : Num F}.

(** [x] is the first map of the list that has the concept [c] *)
Definition first_with (maps : list (fcm F)) (c : string) (x : fcm F) : Prop :=
  exists pre post, maps = pre ++ x :: post /\ In c (concepts x) /\ forall y, In y pre -> ~ In c (concepts y).
Lemma first_with_more maps c x more : first_with maps c x -> first_with (maps ++ more) c x.
Proof. intros (pre & post & -> & A & B). exists pre, (post ++ more). split; [now rewrite <- app_assoc|auto]. Qed.
Lemma first_with_last maps c x : (forall y, In y maps -> ~ In c (concepts y)) -> In c (concepts x) -> first_with (maps ++ [x]) c x.
Proof. intros A B. exists maps, []. auto. Qed.
Lemma first_with_In maps c x : first_with maps c x -> In x maps.
Proof. intros (pre & post & -> & _). apply in_elt. Qed.

Definition origins (done : list (fcm F)) (nodes : dict (@jentry F)) : Prop :=
  forall c d acc, dget nodes c = Some (d, acc) -> exists x v, first_with done c x /\ entry_ok x c d v.
Lemma entry_concept x c d (v : F) : entry_ok x c d v -> In c (concepts x).
Proof. intros (n & Hi & _). apply (in_map fst) in Hi. exact Hi. Qed.
Lemma first_origins m e : ents_ok m e -> origins [m] (first_nodes e).
Proof.
  intros [K E] c d acc H. unfold first_nodes in H. rewrite dget_dmap in H. destruct (dget e c) as [[d' v]|] eqn:G; [|discriminate].
  injection H as -> <-. pose proof (E c d v G) as X. exists m, v. split; [|exact X].
  apply (first_with_last []); [intros y []|]. exact (entry_concept _ _ _ _ X).
Qed.
Lemma join_origins u done nodes m e : nodes_ok u done nodes -> origins done nodes -> NoDup (concepts m) -> ents_ok m e ->
  origins (done ++ [m]) (join_nodes u nodes e).
Proof.
  intros (N1 & N2 & _) O ND [K E] c d acc H.
  assert (Ke : NoDup (dkeys e)) by (rewrite K; exact ND).
  destruct u; unfold join_nodes in H.
  - rewrite (proj2 (join_union_get nodes e N1 Ke)) in H. destruct (dget nodes c) as [[d0 acc0]|] eqn:G0.
    + destruct (O c d0 acc0 G0) as (x & v & A & B). exists x, v. assert (d = d0) by (destruct (dget e c) as [[? ?]|]; congruence). subst d0.
      split; [now apply first_with_more|exact B].
    + destruct (dget e c) as [[d1 v]|] eqn:G1; [|discriminate]. injection H as -> <-. pose proof (E c d v G1) as X. exists m, v. split; [|exact X].
      apply first_with_last; [|exact (entry_concept _ _ _ _ X)]. intros y Hy Hc. apply dget_None in G0. apply G0, N2. eauto.
  - rewrite (proj2 (proj2 (join_inter_get nodes e N1))) in H. destruct (dget nodes c) as [[d0 acc0]|] eqn:G0; [|discriminate].
    destruct (O c d0 acc0 G0) as (x & v & A & B). exists x, v. assert (d = d0) by (destruct (dget e c) as [[? ?]|]; congruence). subst d0.
    split; [now apply first_with_more|exact B].
Qed.
Lemma fold_origins u done nodes maps es : nodes_ok u done nodes -> origins done nodes ->
  Forall2 (fun m e => NoDup (concepts m) /\ ents_ok m e) maps es ->
  nodes_ok u (done ++ maps) (fold_left (join_nodes u) es nodes) /\ origins (done ++ maps) (fold_left (join_nodes u) es nodes).
Proof.
  intros H O HF. revert done nodes H O. induction HF as [|m e maps es [H1 H2] _ IH]; intros done nodes H O; cbn [fold_left].
  - now rewrite app_nil_r.
  - replace (done ++ m :: maps) with ((done ++ [m]) ++ maps) by (rewrite <- app_assoc; reflexivity).
    apply IH; [now apply join_nodes_ok|now apply join_origins].
Qed.
Lemma final_concepts_from (P : string -> fcm F -> Prop) st iz (nodes : dict (@jentry F)) cs :
  (forall c d acc, In (c, (d, acc)) nodes -> exists m v, P c m /\ entry_ok m c d v) -> NoDup (dkeys nodes) ->
  final_concepts st iz nodes = Ok cs ->
  exists src, Forall2 written src cs /\ NoDup (names src) /\ (forall c, In c (names src) -> In c (dkeys nodes)) /\
    forall p, In p src -> exists c n x, P c (fst p) /\ In (c, n) (m_topo (fst p)) /\ snd p = (c, nd_set_value x n).
Proof.
  unfold final_concepts. intros HS ND H. apply rbind_ok in H as (l & H & E). injection E as <-.
  apply rmap_ok_Forall2 in H. induction H as [|[c [d acc]] [x j] nodes l H _ IH].
  - exists []. split; [constructor|]. split; [constructor|]. split; [intros c []|]. intros p [].
  - apply rbind_ok in H as (v & Hv & E). injection E as <- <-. cbn in ND. inversion ND as [|? ? X1 X2]; subst.
    destruct IH as (src & I1 & I2 & I3 & I5); [intros; eapply HS; right; eauto|auto|].
    destruct (HS c d acc (or_introl eq_refl)) as (m & v0 & Hm & n & Hn & Hv0 & Hw).
    cbn [filter fst]. change (negb (neqb v n0) || negb iz) with (zero_kept iz v). destruct (zero_kept iz v) eqn:Z.
    + exists ((m, (c, nd_set_value v n)) :: src). cbn [map snd]. split; [constructor; [exact (Hw v)|exact I1]|].
      split; [cbn; constructor; [intros Hc; apply X1; now apply I3|exact I2]|].
      split; [cbn; intros c' [<-|Hc]; [now left|right; now apply I3]|].
      intros p [<-|Hp]; [exists c, n, v; auto|auto].
    + exists src. split; auto. split; auto. split; [intros c' Hc; right; now apply I3|]. auto.
Qed.

(** ** Where each concept of the joined map comes from *)
Lemma join_origin m maps cst vst rst iz s' : (forall x, In x (m :: maps) -> reachable x) ->
  join_maps (m :: maps) cst vst rst iz = Ok s' ->
  forall c n', dget (m_topo s') c = Some n' ->
  exists x n v, first_with (m :: maps) c x /\ dget (m_topo x) c = Some n /\
    restored (m_func x) (mkDC true "KOSKO" TYPE_SIMPLE None (m_mem m) true (m_func m) (m_gargs m)) (nd_set_value v n) n'.
Proof.
  intros Hr E. pose proof (join_strategies _ _ _ _ _ _ E) as St.
  assert (ND : forall x, In x (m :: maps) -> NoDup (concepts x)) by (intros x Hx; apply reachable_NoDup; auto).
  unfold join_maps in E. destruct St as [S1 S2 S3]. rewrite S1, S2, S3 in E. cbn [negb] in E.
  apply rbind_ok in E as (descs & HD & E).
  assert (D : Forall2 described (m :: maps) descs).
  { apply rmap_ok_Forall2 in HD. clear -HD. induction HD; constructor; auto. now apply describe_doc. }
  destruct descs as [|d0 descs]; [inversion D|].
  destruct (descs_rels _ _ D) as (rels & R1 & R2). destruct (descs_ents _ _ D ND) as (ents & E1 & E2).
  rewrite R1, E1 in E. cbn [rbind] in E. destruct ents as [|e0 es]; [inversion E2|].
  inversion E2 as [|? ? ? ? [X1 X2] X3]; subst. inversion D as [|? ? ? ? (c0 & -> & Hc0) D']; subst.
  destruct (fold_origins (String.eqb cst "union") [m] (first_nodes e0) maps es) as [(N1 & N2 & N3) O]; [now apply first_nodes_ok|now apply first_origins|exact X3|].
  rewrite R2, read_relations_doc in E. cbn [rbind] in E.
  set (nodes := fold_left (join_nodes (String.eqb cst "union")) es (first_nodes e0)) in *.
  apply rbind_ok in E as (cs & Ecs & E). apply rbind_ok in E as (rs & Ers & E). rewrite doc_set in E. apply rbind_ok in E as (j & Ej & E).
  apply dumps_ok in Ej as [-> _]. apply from_json_ok in E.
  destruct (final_concepts_from (first_with (m :: maps)) vst iz nodes cs) as (src & W & NDs & Sub & Src); auto.
  { intros c d acc Hi. apply In_dget in Hi; auto. exact (O c d acc Hi). }
  destruct (final_relations_rels rst nodes _ rs Ers) as (rels' & ER & _). rewrite ER in E.
  pose proof (load_doc_spec m src cs rels' s' W NDs E) as R.
  intros c n' Hn. assert (Hc : In c (concepts s')) by (apply dget_Some_In; eauto). rewrite (rl_keys _ _ _ _ R) in Hc.
  apply in_map_iff in Hc as (p & <- & Hp). destruct (reloaded_node _ _ _ _ p R NDs Hp) as (n1 & Hn1 & Re).
  rewrite Hn in Hn1. injection Hn1 as <-. destruct (Src p Hp) as (c & n & v & A & B & C). rewrite C in *. cbn [fst snd] in *.
  destruct (rl_other _ _ _ _ R) as (O1 & _). rewrite O1 in Re. exists (fst p), n, v. split; [exact A|]. split; [|exact Re].
  apply In_dget; [|exact B]. apply ND. now apply first_with_In in A.
Qed.
End Origin.
