(** Dynamics4.v — redundant relations and reloaded maps: the changed map runs
    whenever the original does, with the same values (C71, C74). *)
From Coq Require Import Reals Lra.
From Verif Require Import Base BaseFacts Num Functions Spec SortFacts RealFacts FunctionsFacts Fcm FcmSpec DynSpec FcmInv FcmInv2 FcmInv3 FcmIter FcmRun FcmRun2 FcmRun3 FcmOrder FcmStop Dynamics Dynamics2 Dynamics3 FcmTwin Loader LoaderSpec LoaderFacts.
From Verif Require Import JoinFacts2.

Section Same.
Context {F : Type} {N : Num F}.
Notation fcm := (fcm F).
Implicit Types (s t : fcm).
Lemma alike_sym s t : alike s t -> alike t s.
Proof.
  intros [A B C D]. constructor; auto.
  intros c Hc. rewrite A in Hc. symmetry. auto.
Qed.
Lemma alike_run s t s' : sane s -> sane t -> m_debug s = true -> alike s t -> run_inference true s = (s', Ok tt) ->
  exists t', run_inference true t = (t', Ok tt) /\
    forall c, history t' c = history s' c /\ (In c (concepts s) -> value t' c = value s' c).
Proof.
  intros Hs Ht D A E. destruct (twin_run s t s' (sane_base s Hs) (sane_base t Ht) D A E) as (t' & E' & X & V).
  exists t'. split; auto. intros c. unfold history. rewrite X. split; auto.
Qed.
(** the next value only depends on how the concept is configured, unless it is fuzzy *)
Lemma next_fn_same (t t' : dict (node F)) arcs (x : string -> F) :
  dkeys t' = dkeys t ->
  (forall c n, dget t c = Some n -> exists n', dget t' c = Some n' /\ nd_active n' = nd_active n /\ nd_exec n' = nd_exec n /\
     nd_mem n' = nd_mem n /\ nd_func n' = nd_func n /\ nd_args n' = nd_args n /\ nd_func n <> Some "fuzzy") ->
  forall c, next_fn t' arcs x c = next_fn t arcs x c.
Proof.
  intros K H c. unfold next_fn.
  assert (D : forall k, dget t k = None -> dget t' k = None).
  { intros k Hk. apply dget_None. rewrite K. now apply dget_None. }
  assert (I : incoming t' arcs x c = incoming t arcs x c).
  { apply incoming_ext; auto. intros o _. destruct (dget t o) as [n|] eqn:E.
    - destruct (H o n E) as (n' & -> & X1 & X2 & _). auto.
    - now rewrite (D o E). }
  rewrite I. destruct (dget t c) as [n|] eqn:E; [|now rewrite (D c E)].
  destruct (H c n E) as (n' & -> & X1 & X2 & X3 & X4 & X5 & X6). unfold upd_fn.
  cbn [nd_exec nd_mem nd_func nd_value nd_sum nd_args nd_set_value]. rewrite X2, X3, X4, X5.
  destruct (nd_exec n) as [e|]; auto. cbn [oget rbind]. destruct (nd_mem n) as [m|]; auto. cbn [oget rbind].
  destruct (get_excitation_by_name e) as [ex|]; auto. cbn [oget rbind]. destruct (nd_func n) as [f|]; auto. cbn [oget rbind].
  destruct (String.eqb_spec f "fuzzy"); [congruence|]. reflexivity.
Qed.
Lemma arcs_relations s t : relations t = relations s -> m_arcs t = m_arcs s.
Proof.
  unfold relations. generalize (m_arcs s) (m_arcs t). induction l as [|[[d w] o] l IH]; intros [|[[d' w'] o'] l'] H; cbn in H; try discriminate; auto.
  injection H as -> -> -> H. f_equal. now apply IH.
Qed.
Lemma reload_alike s j s' : sane s -> portable s -> m_debug s = true -> (forall c, In c (concepts s) -> initial s c = value s c) ->
  to_json s = Ok j -> from_json j = Ok s' -> sane s' /\ alike s s'.
Proof.
  intros Hs P D Hi Hj Hl. split; [apply sane_runs_sane; exact (proj1 (load_sane j s' Hl))|].
  destruct (round_trip s Hs P) as (j1 & s1 & Hj1 & Hl1 & _ & A1 & A2 & A3 & A4).
  assert (j1 = j) as -> by congruence. assert (s1 = s') as -> by congruence.
  destruct (reload_keeps s j s' (from_fresh_reachable _ _ Hs) Hj Hl) as (_ & _ & _ & B1 & B2 & B3 & _).
  constructor; auto.
  - intros c Hc. rewrite (Hi c Hc). assert (Hv : exists v, value s c = Some v).
    { apply dget_Some_In in Hc as [n Hn]. unfold value, get_concept_value. rewrite Hn. eauto. }
    destruct Hv as [v Hv]. unfold initial. now rewrite (B2 c v Hv), Hv.
  - unfold saved_settings in A3. injection A3. intros. unfold loop_settings. congruence.
  - intros x c. rewrite (arcs_relations s s' A2). apply next_fn_same; auto.
    intros d n Hn. destruct (A4 d n Hn) as (n' & Hn' & S1 & S2 & _ & S4 & S5 & S6 & _). exists n'. repeat split; auto.
    destruct P as [_ P]. destruct (P d n Hn) as [_ _ _ _ (f & a & P5 & _ & P7 & _)]. congruence.
Qed.
Lemma reload_run s j s' r : sane s -> portable s -> m_debug s = true -> (forall c, In c (concepts s) -> initial s c = value s c) ->
  to_json s = Ok j -> from_json j = Ok s' ->
  (run_inference true s = (r, Ok tt) -> exists r', run_inference true s' = (r', Ok tt) /\
     forall c, history r' c = history r c /\ (In c (concepts s) -> value r' c = value r c)) /\
  (run_inference true s' = (r, Ok tt) -> exists r', run_inference true s = (r', Ok tt) /\
     forall c, history r' c = history r c /\ (In c (concepts s) -> value r' c = value r c)).
Proof.
  intros Hs P D Hi Hj Hl. destruct (reload_alike s j s' Hs P D Hi Hj Hl) as [Hs' A]. split; intros E.
  - now apply (alike_run s s').
  - rewrite <- (al_keys _ _ A). apply (alike_run s' s); auto; [|now apply alike_sym].
    pose proof (al_set _ _ A) as S. unfold loop_settings in S. congruence.
Qed.
End Same.

Local Open Scope R_scope.
Lemma redundant_alike (s t : rmap) :
  settings t = settings s -> concepts t = concepts s -> (forall c, dget (m_exec t) c = dget (m_exec s) c) ->
  (forall c, option_map strip (dget (m_topo t) c) = option_map strip (dget (m_topo s) c)) ->
  (forall x c, Rsum (incoming (m_topo t) (m_arcs t) x c) = Rsum (incoming (m_topo s) (m_arcs s) x c)) ->
  alike s t.
Proof.
  intros Se Cc Ex Tp Inc. constructor; auto.
  - intros c _. unfold initial, history. now rewrite Ex.
  - now apply loop_settings_of.
  - intros x c. unfold next_fn. specialize (Tp c).
    destruct (dget (m_topo t) c) as [n'|], (dget (m_topo s) c) as [n|]; cbn [option_map] in Tp; try discriminate; auto.
    apply Some_inj in Tp. destruct (strip_fields _ _ Tp) as (S1 & S2 & S3 & S4 & S5 & S6 & S7).
    unfold upd_fn. cbn [nd_exec nd_mem nd_func nd_value nd_sum nd_args nd_set_value].
    rewrite S2, S4, S5, S6, S7.
    destruct (nd_exec n) as [e|]; auto. cbn [oget rbind]. destruct (nd_mem n) as [m|]; auto. cbn [oget rbind].
    destruct (get_excitation_by_name e) as [ex|]; auto. cbn [oget rbind].
    assert (Q : exec_excit ex (incoming (m_topo t) (m_arcs t) x c) (x c) m = exec_excit ex (incoming (m_topo s) (m_arcs s) x c) (x c) m).
    { destruct ex; cbn [exec_excit]; unfold kosko, papageorgius; now rewrite !nsum_Rsum, Inc. }
    now rewrite Q.
Qed.
Lemma zero_alike a b (s : rmap) : sane s -> m_fit s = None -> alike s (fst (add_relation a b 0 s)).
Proof.
  intros Hs Fi. pose proof (add_relation_fields a b 0 s Fi) as FF.
  destruct (add_relation_strip a b 0 s Fi) as (_ & Se & _ & Ex & Ke & Ar & Tp).
  set (t := fst (add_relation a b 0 s)) in *. apply redundant_alike; auto.
  - intros c. now rewrite Ex.
  - intros c. rewrite Tp. destruct (str_mem a _ && str_mem b _)%bool; cbn [andb]; [|reflexivity].
    destruct (String.eqb c b); [|reflexivity]. apply option_strip_sum.
  - intros x c. rewrite (incoming_strip (m_topo s) (m_topo t)) by exact FF. rewrite Ar.
    destruct (_ && _); [|reflexivity]. rewrite incoming_app, Rsum_app. cbn [incoming].
    destruct (dget (m_topo s) a) as [n|]; [|cbn; lra]. destruct (_ && _); cbn [Rsum fold_right nmul RNum]; lra.
Qed.
Lemma merged_alike a b w1 w2 (s : rmap) : sane s -> m_fit s = None ->
  alike (fst (add_relation a b (w1 + w2) s)) (fst (add_relation a b w2 (fst (add_relation a b w1 s)))).
Proof.
  intros Hs Fi.
  pose proof (add_relation_fields a b w1 s Fi) as F1. pose proof (add_relation_fields a b (w1 + w2) s Fi) as F3.
  destruct (add_relation_strip a b w1 s Fi) as (Fi1 & Se1 & _ & Ex1 & Ke1 & Ar1 & Tp1).
  destruct (add_relation_strip a b (w1 + w2) s Fi) as (_ & Se3 & _ & Ex3 & Ke3 & Ar3 & Tp3).
  set (t1 := fst (add_relation a b w1 s)) in *. set (u := fst (add_relation a b (w1 + w2) s)) in *.
  pose proof (add_relation_fields a b w2 t1 Fi1) as F2.
  destruct (add_relation_strip a b w2 t1 Fi1) as (_ & Se2 & _ & Ex2 & Ke2 & Ar2 & Tp2).
  set (t := fst (add_relation a b w2 t1)) in *. rewrite Ke1 in Ar2, Tp2.
  apply redundant_alike.
  - congruence.
  - unfold concepts. congruence.
  - intros c. now rewrite Ex2, Ex1, Ex3.
  - intros c. rewrite Tp2, Tp3. specialize (Tp1 c).
    destruct (str_mem a _ && str_mem b _)%bool; cbn [andb] in *.
    + destruct (String.eqb c b).
      * destruct (dget (m_topo t1) c) as [m|], (dget (m_topo s) c) as [n|]; cbn [option_map] in Tp1 |- *; try discriminate; auto.
        apply Some_inj in Tp1. f_equal. unfold strip, nd_set_sum, nd_set_arcs, nd_set_aux in *. destruct m, n.
        cbn in *. injection Tp1. intros. subst. f_equal. lra.
      * destruct (dget (m_topo t1) c) as [m|], (dget (m_topo s) c) as [n|]; cbn [option_map] in Tp1 |- *; congruence.
    + destruct (dget (m_topo t1) c) as [m|], (dget (m_topo s) c) as [n|]; cbn [option_map] in Tp1 |- *; congruence.
  - intros x c. rewrite (incoming_strip (m_topo t1) (m_topo t)) by exact F2.
    rewrite (incoming_strip (m_topo s) (m_topo t1)) by exact F1. rewrite (incoming_strip (m_topo s) (m_topo u)) by exact F3.
    rewrite Ar2, Ar1, Ar3. destruct (_ && _); [|reflexivity]. rewrite !incoming_app, !Rsum_app. cbn [incoming].
    destruct (dget (m_topo s) a) as [n|]; [|cbn; lra]. destruct (_ && _); cbn [Rsum fold_right nmul RNum]; lra.
Qed.
Lemma zero_relation_runs a b (s s' : rmap) : sane s -> m_debug s = true -> m_fit s = None ->
  run_inference true s = (s', Ok tt) -> exists t', run_inference true (fst (add_relation a b 0 s)) = (t', Ok tt) /\
  forall c, history t' c = history s' c /\ (In c (concepts s) -> value t' c = value s' c).
Proof.
  intros Hs D Fi E. apply (alike_run s); auto.
  - now apply sane_add_relation.
  - now apply zero_alike.
Qed.
Lemma merged_relation_runs a b w1 w2 (s s' : rmap) : sane s -> m_debug s = true -> m_fit s = None ->
  run_inference true (fst (add_relation a b (w1 + w2) s)) = (s', Ok tt) ->
  exists t', run_inference true (fst (add_relation a b w2 (fst (add_relation a b w1 s)))) = (t', Ok tt) /\
  forall c, history t' c = history s' c /\ (In c (concepts s) -> value t' c = value s' c).
Proof.
  intros Hs D Fi E. destruct (add_relation_strip a b (w1 + w2) s Fi) as (_ & Se & _ & _ & Ke & _).
  assert (X : concepts s = concepts (fst (add_relation a b (w1 + w2) s))) by (symmetry; exact Ke). rewrite X.
  apply (alike_run (fst (add_relation a b (w1 + w2) s))); auto.
  - now apply sane_add_relation.
  - now apply sane_add_relation, sane_add_relation.
  - apply settings_max in Se as (_ & _ & _ & _ & _ & Y). congruence.
  - now apply merged_alike.
Qed.
