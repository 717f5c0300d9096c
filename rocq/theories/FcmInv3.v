(** FcmInv3.v — outgoing relations, weight sums, failed calls, init/reset/clear. *)
From Verif Require Import Base BaseFacts Num Functions Fcm FcmSpec FcmInv FcmInv2.

Section Inv3.
Context {F : Type} {N : Num F}.
Implicit Types s : fcm F.

(** ** C17, C18 *)
Definition links_ok s : Prop :=
  rel_ok (concepts s) (relations s) /\
  forall c n, dget (m_topo s) c = Some n ->
    nd_arcs n = outgoing (relations s) c /\
    nd_sum n = fold_left nadd (incoming_weights (relations s) c) n0.
Lemma links_ev s s' : statics s' = statics s -> m_arcs s' = m_arcs s -> links_ok s -> links_ok s'.
Proof.
  intros S A [R L]. unfold links_ok, relations, concepts in *. rewrite A, (statics_keys _ _ S). split; auto.
  intros c n' Hn'. symmetry in S. destruct (statics_dget _ _ _ _ S Hn') as (n & Hn & E).
  apply L in Hn as [L1 L2].
  assert (E1 : nd_arcs n' = nd_arcs n) by (change (nd_arcs (nd_static n') = nd_arcs (nd_static n)); now rewrite E).
  assert (E2 : nd_sum n' = nd_sum n) by (change (nd_sum (nd_static n') = nd_sum (nd_static n)); now rewrite E).
  rewrite E1, E2. auto.
Qed.
Lemma outgoing_none names rels c : @rel_ok F names rels -> ~ In c names -> outgoing rels c = [].
Proof.
  intros R H. unfold outgoing. replace (filter _ rels) with (@nil (string * string * F)); auto.
  symmetry. induction rels as [|[[a b] w] rels IH]; auto. cbn.
  destruct (String.eqb_spec a c) as [->|].
  - exfalso. apply H. apply (R _ _ _ (or_introl eq_refl)).
  - apply IH. intros a' b' w' Hin. apply (R a' b' w'). right. exact Hin.
Qed.
Lemma incoming_none names rels c : @rel_ok F names rels -> ~ In c names -> incoming_weights rels c = [].
Proof.
  intros R H. unfold incoming_weights. replace (filter _ rels) with (@nil (string * string * F)); auto.
  symmetry. induction rels as [|[[a b] w] rels IH]; auto. cbn.
  destruct (String.eqb_spec b c) as [->|].
  - exfalso. apply H. apply (R _ _ _ (or_introl eq_refl)).
  - apply IH. intros a' b' w' Hin. apply (R a' b' w'). right. exact Hin.
Qed.
Lemma outgoing_snoc (rels : list (string * string * F)) a b w c :
  outgoing (rels ++ [(a, b, w)]) c = outgoing rels c ++ (if String.eqb a c then [(b, w)] else []).
Proof.
  unfold outgoing. rewrite filter_app, map_app. cbn. destruct (String.eqb a c); reflexivity.
Qed.
Lemma incoming_snoc (rels : list (string * string * F)) a b w c :
  incoming_weights (rels ++ [(a, b, w)]) c = incoming_weights rels c ++ (if String.eqb b c then [w] else []).
Proof.
  unfold incoming_weights. rewrite filter_app, map_app. cbn. destruct (String.eqb b c); reflexivity.
Qed.
Lemma fit_node_links y (n n' : node F) : fit_node y n = Ok n' -> nd_arcs n' = nd_arcs n /\ nd_sum n' = nd_sum n.
Proof.
  intros H. unfold fit_node in H. apply rbind_ok in H as (f & Hf & H).
  apply rbind_ok in H as (l1 & _ & H). apply rbind_ok in H as (l2 & _ & H).
  destruct (if String.eqb f "relm" then _ else _); injection H as <-; split; reflexivity.
Qed.
Lemma update_node_links s n t a m e d f k :
  let n' := fst (update_node s n t a m e d f k) in nd_arcs n' = nd_arcs n /\ nd_sum n' = nd_sum n.
Proof.
  unfold update_node.
  set (n1 := match a with Some b => _ | None => _ end).
  assert (L1 : nd_arcs n1 = nd_arcs n /\ nd_sum n1 = nd_sum n) by (unfold n1; destruct a; split; reflexivity).
  clearbody n1.
  match goal with |- context [match ?m with Ok _ => _ | Err _ => _ end] =>
    match type of m with res (node F) => destruct m as [n2|x] eqn:E2 end end; [|exact L1].
  assert (L2 : nd_arcs n2 = nd_arcs n /\ nd_sum n2 = nd_sum n).
  { destruct e as [e|]; [|injection E2 as <-; exact L1].
    destruct (get_excitation_by_name e); [|discriminate]. injection E2 as <-. exact L1. }
  clear L1 E2.
  match goal with |- context [match ?m with Ok _ => _ | Err _ => _ end] =>
    match type of m with res (node F) => destruct m as [n3|x] eqn:E3 end end; [|exact L2].
  assert (L3 : nd_arcs n3 = nd_arcs n /\ nd_sum n3 = nd_sum n).
  { destruct t as [t|]; [|injection E3 as <-; exact L2].
    destruct (is_valid_type t); [|discriminate]. injection E3 as <-. exact L2. }
  clear L2 E3.
  match goal with |- context [match ?m with Ok _ => _ | Err _ => _ end] =>
    match type of m with res (node F * option (args F)) => destruct m as [[n4 fa]|x] eqn:E4 end end; [|exact L3].
  assert (L4 : nd_arcs n4 = nd_arcs n /\ nd_sum n4 = nd_sum n).
  { destruct t as [t|], d as [ad|]; try (injection E4 as <- <-; exact L3).
    destruct (is_fuzzy_type t); [|injection E4 as <- <-; exact L3].
    apply rbind_ok in E4 as ([[v1 m1] s1] & _ & E4). injection E4 as <- <-. exact L3. }
  pose proof (define_func_base (nd_set_mem (match m with Some b => b | None => m_mem s end) n4) fa f k (m_func s, m_gargs s)) as D.
  unfold nd_base in D. injection D as D1 _ _ D4 _ _ _ _ _. cbn in *. rewrite D1, D4. exact L4.
Qed.
Definition link_pre (o : op F) s : Prop :=
  (match o with OpAddConcept n _ _ _ _ _ _ _ => ~ In n (concepts s) | _ => True end) /\
  (is_add_relation o = true -> snd (step o s) = Ok tt).
Lemma step_links o s : link_pre o s -> links_ok s -> links_ok (fst (step o s)).
Proof.
  intros [Hfresh Hok] L. pose proof L as [R L'].
  split; [now apply inv_rel_ok|].
  assert (EV : forall s', wframe s s' -> forall c n, dget (m_topo s') c = Some n ->
     nd_arcs n = outgoing (relations s') c /\ nd_sum n = fold_left nadd (incoming_weights (relations s') c) n0).
  { intros s' (W1 & W2 & _). eapply links_ev; eauto. }
  destruct o; cbn [step] in *; try exact L'.
  - intros c n Hc. destruct (add_concept_topo name ctype is_active use_memory excitation d fname kwargs s) as (nd & Et & End).
    rewrite Et, dget_dset in Hc.
    assert (ER : relations (fst (add_concept name ctype is_active use_memory excitation d fname kwargs s)) = relations s)
      by apply (step_relations (OpAddConcept name ctype is_active use_memory excitation d fname kwargs) s).
    rewrite ER. destruct (String.eqb_spec c name) as [->|].
    + injection Hc as <-. destruct (build_node_fresh (m_default s) ctype is_active use_memory excitation d fname kwargs) as (B1 & B2 & _).
      rewrite <- End in B1, B2. rewrite B1, B2.
      erewrite outgoing_none, incoming_none; eauto.
    + now apply L'.
  - unfold set_concept_properties. destruct (dget (m_topo s) name) as [n|] eqn:E; [|exact L'].
    pose proof (update_node_links (set_prepared false s) n ctype is_active use_memory excitation d fname kwargs) as U.
    destruct (update_node _ _ _ _ _ _ _ _ _) as [n' r]. cbn [fst] in *. intros c nc Hc.
    unfold put_node in Hc. cbn [m_topo set_topo set_prepared] in Hc. rewrite dget_dset in Hc.
    change (relations (put_node name n' (set_prepared false s))) with (relations s).
    destruct (String.eqb_spec c name) as [->|]; [|now apply L'].
    injection Hc as <-. destruct U as [-> ->]. now apply L'.
  - unfold set_default_concept_properties. destruct (update_default _ _ _ _ _ _ _ _ _); exact L'.
  - specialize (Hok eq_refl).
    destruct (dget (m_topo s) origin) as [na|] eqn:Ea.
    2: { rewrite add_relation_unknown; [exact L'|]. left. now apply dget_None. }
    destruct (dget (m_topo s) destiny) as [nb|] eqn:Eb.
    2: { rewrite add_relation_unknown; [exact L'|]. right. now apply dget_None. }
    destruct (add_relation_shape origin destiny weight s na nb Ea Eb) as (nb1 & Enb1 & E). cbn zeta in E.
    rewrite E in Hok |- *. clear E.
    set (na' := nd_set_arcs (nd_arcs na ++ [(destiny, weight)]) na) in *.
    set (nb2 := nd_set_sum (nadd (nd_sum nb1) weight) nb1) in *.
    match goal with |- context [match ?m with Ok _ => _ | Err _ => _ end] => destruct m as [nb3|x] eqn:E3 end; [|discriminate].
    assert (B3 : nd_arcs nb3 = nd_arcs nb2 /\ nd_sum nb3 = nd_sum nb2).
    { destruct (m_fit s) as [y|]; [|injection E3 as <-; auto]. eapply fit_node_links; eauto. }
    destruct B3 as [B3 B4]. cbn [fst].
    match goal with |- context [relations ?x] => assert (ER : relations x = relations s ++ [(origin, destiny, weight)]) end.
    { unfold relations. cbn. now rewrite map_app. }
    rewrite ER. clear ER. intros c n Hc. unfold put_node in Hc. cbn [m_topo set_arcs set_topo set_prepared] in Hc.
    rewrite !dget_dset in Hc. rewrite outgoing_snoc, incoming_snoc.
    destruct (L' _ _ Ea) as [La Sa]. destruct (L' _ _ Eb) as [Lb Sb].
    destruct (String.eqb_spec c destiny) as [->|Hcd].
    + injection Hc as <-. rewrite B3, B4, String.eqb_refl, fold_left_app.
      unfold nb2. cbn [nd_arcs nd_sum nd_set_sum fold_left]. rewrite Enb1.
      destruct (String.eqb_spec destiny origin) as [<-|Hne].
      * assert (na = nb) as <- by congruence. rewrite String.eqb_refl. cbn. rewrite La, Sa. auto.
      * assert (String.eqb origin destiny = false) as -> by (apply String.eqb_neq; congruence).
        rewrite app_nil_r, Lb, Sb. auto.
    + assert (String.eqb destiny c = false) as -> by (apply String.eqb_neq; congruence).
      rewrite app_nil_r. destruct (String.eqb_spec c origin) as [->|Hco].
      * injection Hc as <-. rewrite String.eqb_refl. cbn. rewrite La, Sa. auto.
      * assert (String.eqb origin c = false) as -> by (apply String.eqb_neq; congruence).
        rewrite app_nil_r. now apply L'.
  - apply EV. apply frame_wframe, init_concept_frame.
  - unfold set_map_activation_function. destruct (get_function_by_name name) as [x|] eqn:E; [|exact L'].
    match goal with |- forall c n, dget (m_topo (fst ?m)) c = _ -> _ =>
      assert (P : m_arcs (fst m) = m_arcs s /\ forall c n, dget (m_topo (fst m)) c = Some n ->
         nd_arcs n = outgoing (relations s) c /\ nd_sum n = fold_left nadd (incoming_weights (relations s) c) n0) end.
    { apply (mfold_ind (fun s' => m_arcs s' = m_arcs s /\ forall c n, dget (m_topo s') c = Some n ->
         nd_arcs n = outgoing (relations s) c /\ nd_sum n = fold_left nadd (incoming_weights (relations s) c) n0));
        [|split; [reflexivity|exact L']].
      intros c s' [H1 H2]. unfold refresh_func. destruct (dget (m_topo s') c) as [n|] eqn:En; cbn [fst]; auto.
      destruct (nd_usemap n) as [[|]|] eqn:Eu; cbn [fst]; auto.
      split; [exact H1|]. intros c' n' H'. unfold put_node in H'. cbn [m_topo set_topo] in H'. rewrite dget_dset in H'.
      destruct (String.eqb_spec c' c) as [->|]; [|now apply H2].
      injection H' as <-. cbn. now apply H2. }
    destruct P as [P1 P2]. unfold relations at 1 2. rewrite P1. exact P2.
  - unfold set_map_decision_function. destruct (get_decision_by_name name); exact L'.
  - apply EV. apply frame_wframe, reset_frame.
  - apply EV. apply frame_wframe, clear_exec_frame.
  - unfold clear_all. pose proof (EV _ (frame_wframe _ _ (reset_frame s))) as E.
    destruct (reset_execution s) as [s1 [u|e]]; cbn [fst] in *; [|exact E].
    intros c n H. discriminate.
  - apply EV. apply run_wframe.
Qed.
Lemma run_ops_links ops s : fresh_adds ops s -> ok_when is_add_relation ops s -> links_ok s -> links_ok (run_ops ops s).
Proof.
  unfold run_ops. revert s. induction ops as [|o l IH]; intros s Hf Hok H; simpl; auto.
  destruct Hok as [H1 H2]. destruct Hf as [F1 F2]. apply IH; auto.
  apply step_links; auto. split; auto.
Qed.
Lemma init_links mi ex st sd de me ac kw s0 : init_fcm mi ex st sd de me ac kw = Ok s0 -> links_ok s0.
Proof.
  intros H. apply init_fcm_shape in H as (-> & _). split; [intros a b w []|intros c n Hn; discriminate].
Qed.

(** ** wf1 for every reachable state: history names are concept names *)
Definition wf2 s : Prop := NoDup (dkeys (m_exec s)) /\ (forall c, In c (dkeys (m_exec s)) -> In c (concepts s)).
Lemma wf2_ev Q s s' : ev Q s s' -> wf2 s -> wf2 s'.
Proof.
  intros [(W & _) E] [H1 H2]. unfold wf2, concepts. rewrite (statics_keys _ _ W).
  eapply exec_ev_wf; eauto.
Qed.
Lemma inv_wf2 : Inv wf2.
Proof.
  intros o s [H1 H2].
  assert (KEEP : forall s', m_exec s' = m_exec s -> dkeys (m_topo s') = dkeys (m_topo s) -> wf2 s').
  { intros s' A B. unfold wf2, concepts. rewrite A, B. split; assumption. }
  pose proof (step_names o s) as SN.
  destruct o; cbn [step] in *; try (split; assumption).
  - unfold add_concept in *. destruct (build_node _ _ _ _ _ _ _ _) as [nd [u|e]]; cbn [fst] in *;
      unfold wf2, concepts; rewrite SN; unfold put_node, put_exec; cbn [m_exec set_exec set_topo set_prepared names_after].
    + split; [now apply NoDup_dset|]. intros c Hc. apply dkeys_dset_In in Hc.
      destruct (str_mem name (dkeys (m_topo s))) eqn:E.
      * apply str_mem_In in E. destruct Hc as [->|Hc]; auto; now apply H2.
      * apply in_or_app. destruct Hc as [->|Hc]; [right; now left|left; now apply H2].
    + split; [assumption|]. intros c Hc.
      destruct (str_mem name (dkeys (m_topo s))) eqn:E; [now apply H2|apply in_or_app; left; now apply H2].
  - apply KEEP; [|exact SN]. unfold set_concept_properties. destruct (dget (m_topo s) name); [|reflexivity].
    destruct (update_node _ _ _ _ _ _ _ _ _); reflexivity.
  - unfold set_default_concept_properties. destruct (update_default _ _ _ _ _ _ _ _ _); split; assumption.
  - apply KEEP; [|exact SN]. unfold add_relation. cbn [m_topo set_prepared].
    destruct (dget (m_topo s) destiny); [|reflexivity]. destruct (dget (m_topo s) origin); [|reflexivity].
    destruct (dget _ destiny); [|reflexivity].
    match goal with |- context [match ?m with Ok _ => _ | Err _ => _ end] => destruct m end; reflexivity.
  - eapply wf2_ev; [apply init_concept_ev|split; assumption].
  - apply KEEP; [|exact SN]. unfold set_map_activation_function. destruct (get_function_by_name name); [|reflexivity].
    apply (mfold_ind (fun s' => m_exec s' = m_exec s)); [|reflexivity].
    intros c s' H'. unfold refresh_func. destruct (dget (m_topo s') c) as [n|]; cbn [fst]; auto.
    destruct (nd_usemap n) as [[|]|]; cbn [fst]; auto.
  - unfold set_map_decision_function. destruct (get_decision_by_name name); split; assumption.
  - eapply wf2_ev; [apply reset_ev|split; assumption].
  - eapply wf2_ev; [apply clear_exec_ev|split; assumption].
  - unfold clear_all. assert (D1 : wf2 (fst (reset_execution s))) by (eapply wf2_ev; [apply reset_ev|split; assumption]).
    destruct (reset_execution s) as [s1 [u|e]]; [|exact D1]. split; [constructor|intros c []].
  - eapply wf2_ev; [apply run_ev|split; assumption].
Qed.
Lemma reachable_wf2 s : reachable s -> wf2 s.
Proof.
  intros (mi & ex & st & sd & de & me & ac & kw & s0 & ops & H & ->).
  apply run_ops_inv; [apply inv_wf2|]. apply init_fcm_shape in H as (-> & _). split; [constructor|intros c []].
Qed.

(** ** C19 *)
(** key sets of histories are not changed by the loops of a run *)
Definition ekeys s := dkeys (m_exec s).
Lemma put_exec_keys s c h h0 : dget (m_exec s) c = Some h0 -> ekeys (put_exec c h s) = ekeys s.
Proof. intros H. unfold ekeys, put_exec. cbn [m_exec set_exec]. rewrite dkeys_dset. unfold dmem. now rewrite H. Qed.
Lemma reset_one_keys c s : ekeys (fst (reset_one c s)) = ekeys s.
Proof.
  unfold reset_one. destruct (dget (m_topo s) c); [|reflexivity]. unfold put_node. cbn [m_exec set_topo].
  destruct (dget (m_exec s) c) as [[|v h]|] eqn:E; try reflexivity.
  cbn [fst]. unfold ekeys, put_exec. cbn [m_exec set_exec set_topo]. rewrite dkeys_dset. unfold dmem. now rewrite E.
Qed.
Lemma update_keys c s : ekeys (fst (update_value c s)) = ekeys s.
Proof.
  unfold update_value.
  match goal with |- context [match ?m with _ => _ end] => destruct m as [[n x]|e] end; [|reflexivity].
  match goal with |- context [match ?m with Ok _ => _ | Err _ => _ end] => destruct m as [r|e] end; [|reflexivity].
  unfold put_node. cbn [m_exec set_topo]. destruct (dget (m_exec s) c) as [h|] eqn:E; [|reflexivity].
  cbn [fst]. unfold ekeys, put_exec. cbn [m_exec set_exec set_topo]. rewrite dkeys_dset. unfold dmem. now rewrite E.
Qed.
Lemma inf_step_keys s : ekeys (fst (inf_step s)) = ekeys s.
Proof.
  unfold inf_step.
  assert (E1 : ekeys (fst (mfold spread_arc (m_arcs s) s)) = ekeys s).
  { apply (mfold_ind (fun s' => ekeys s' = ekeys s)); auto. intros a s' H. unfold ekeys. now rewrite spread_exec. }
  destruct (mfold spread_arc (m_arcs s) s) as [s1 [u|e]]; cbn [fst] in *; [|exact E1].
  assert (E2 : ekeys (fst (mfold update_value (dkeys (m_exec s1)) s1)) = ekeys s).
  { apply (mfold_ind (fun s' => ekeys s' = ekeys s)); auto. intros a s' H. now rewrite update_keys. }
  destruct (mfold update_value (dkeys (m_exec s1)) s1) as [s2 [u2|e2]]; exact E2.
Qed.
Lemma iterative_keys s : ekeys (fst (iterative_inference s)) = ekeys s.
Proof.
  unfold iterative_inference. match goal with |- context [iter_loop ?f ?e ?x] => generalize f e end.
  change (ekeys s) with (ekeys (set_iters 1%Z s)). generalize (set_iters 1%Z s). clear s.
  intros s fuel. revert s. induction fuel as [|f IH]; intros s e; simpl; destruct (0 <? e)%Z; auto.
  destruct (keep_execution s) as [k|x]; cbn [fst]; auto.
  pose proof (inf_step_keys s) as F1. destruct (inf_step s) as [s1 [u|x]]; cbn [fst] in *; [|exact F1].
  rewrite IH. exact F1.
Qed.
(** a concept with no history makes every run raise *)
Lemma no_history_run_raises r c s : In c (concepts s) -> dget (m_exec s) c = None ->
  (m_debug s = true \/ r = true) -> exists e, snd (run_inference r s) = Err e.
Proof.
  intros Hc Hh Hr. unfold run_inference.
  assert (RS : r = true -> exists e, snd (reset_execution s) = Err e).
  { intros _. unfold reset_execution.
    apply (mfold_err (fun s' => ~ In c (ekeys s')) reset_one c); auto.
    - intros x s' H. now rewrite reset_one_keys.
    - intros s' H. unfold reset_one. destruct (dget (m_topo s') c); [|eexists; reflexivity].
      unfold put_node. cbn [m_exec set_topo]. apply dget_None in H. rewrite H. eexists; reflexivity.
    - now apply dget_None. }
  destruct r.
  - destruct (RS eq_refl) as [e E]. destruct (reset_execution s) as [s1 [u|e']]; cbn in *; [discriminate|eauto].
  - destruct Hr as [Hr|]; [|discriminate]. cbn [fst snd]. rewrite Hr.
    pose proof (iterative_keys s) as K. pose proof (statics_keys _ _ (proj1 (iterative_frame s))) as KT.
    destruct (iterative_inference s) as [s2 [u|e]]; cbn [fst snd] in *; [|eauto].
    apply (mfold_err (fun s' => ~ In c (ekeys s')) finalize_one c).
    + intros x s' H. unfold finalize_one.
      match goal with |- context [match ?m with _ => _ end] => destruct m end; exact H.
    + intros s' H. unfold finalize_one, dget_exn. apply dget_None in H. unfold ekeys in H. rewrite H. eexists; reflexivity.
    + unfold concepts in Hc. now rewrite KT.
    + rewrite K. now apply dget_None.
Qed.
Lemma rmap_err {A B} (f : A -> res B) l a : In a l -> (exists e, f a = Err e) -> exists e, rmap f l = Err e.
Proof.
  induction l as [|x l IH]; [intros []|]. intros [->|H] E; simpl.
  - destruct E as [e E]. rewrite E. eexists; reflexivity.
  - destruct (f x); simpl; [|eexists; reflexivity]. destruct (IH H E) as [e' ->]. eexists; reflexivity.
Qed.
(** what add_concept leaves behind when it raises *)
Lemma build_node_err dc t a m e d f k n x : build_node dc t a m e d f k = (n, Err x) -> nd_func n = None.
Proof.
  unfold build_node.
  destruct (match e with Some e => _ | None => _ end) as [ex|x']; [|intros [= <- _]; reflexivity].
  set (ty := match t with Some t => _ | None => _ end). set (n1 := nd_set_type ty _).
  match goal with |- context [match ?m with Ok _ => _ | Err _ => _ end] =>
    match type of m with res (node F * option (args F)) => destruct m as [[n2 fa]|x'] eqn:E end end;
    [|intros [= <- _]; reflexivity].
  assert (B : nd_func n2 = None).
  { revert E. destruct (is_fuzzy_type ty).
    - destruct d as [ad|].
      + intros H. apply rbind_ok in H as ([[v1 m1] s1] & _ & H). injection H as <- <-. reflexivity.
      + destruct (String.eqb _ _).
        * intros H. apply rbind_ok in H as (fz & _ & H). injection H as <- <-. reflexivity.
        * intros [= <- <-]. reflexivity.
    - intros [= <- <-]. reflexivity. }
  unfold define_func. destruct fa; [discriminate|]. destruct f as [f|]; [|discriminate].
  destruct (get_function_by_name f); [discriminate|]. intros [= <- _]. exact B.
Qed.
Lemma no_func_vectorized_raises c n s : dget (m_topo s) c = Some n -> nd_func n = None -> m_prepared s = false ->
  exists e, snd (vectorized_inference s) = Err e.
Proof.
  intros Hc Hf Hp. unfold vectorized_inference. rewrite Hp.
  assert (P : exists e, prepare s = Err e).
  { unfold prepare. destruct (rmap_err prep_node (map snd (m_topo s)) n) as [e E].
    - apply dget_In in Hc. apply in_map_iff. exists (c, n). auto.
    - unfold prep_node. rewrite Hf. eexists; reflexivity.
    - rewrite E. eexists; reflexivity. }
  destruct P as [e ->]. eexists; reflexivity.
Qed.
Lemma failed_add_poisons name t a m e d f k s x r : wf2 s -> ~ In name (concepts s) ->
  snd (add_concept name t a m e d f k s) = Err x ->
  let s' := fst (add_concept name t a m e d f k s) in
  In name (concepts s') /\ exists y, snd (run_inference r s') = Err y.
Proof.
  intros W Hn E. cbn zeta.
  assert (Hin : In name (concepts (fst (add_concept name t a m e d f k s)))).
  { unfold concepts. pose proof (step_names (OpAddConcept name t a m e d f k) s) as SN. cbn [step names_after] in SN.
    rewrite SN. destruct (str_mem name (dkeys (m_topo s))) eqn:Em; [now apply str_mem_In|apply in_or_app; right; now left]. }
  split; auto. revert E Hin. unfold add_concept. cbn [m_default set_prepared].
  destruct (build_node (m_default s) t a m e d f k) as [nd [u|y]] eqn:B; [discriminate|].
  cbn [fst snd]. intros _ Hin.
  set (s1 := put_node name nd (set_prepared false s)) in *.
  assert (Hh : dget (m_exec s1) name = None).
  { apply dget_None. intros H. apply Hn. destruct W as [_ W]. now apply W. }
  destruct (m_debug s1) eqn:D; [apply (no_history_run_raises r name); auto|].
  destruct r; [apply (no_history_run_raises true name); auto|].
  unfold run_inference. rewrite D.
  destruct (no_func_vectorized_raises name nd s1) as [z Ez].
  - apply dget_dset_same.
  - eapply build_node_err, B.
  - reflexivity.
  - destruct (vectorized_inference s1) as [s2 [u2|e2]]; cbn in *; [discriminate|]. injection Ez as ->. eauto.
Qed.
Lemma unknown_function_raises name t a m e d f k s : get_function_by_name f = None ->
  (d = None) -> exists x, snd (add_concept name t a m e d (Some f) k s) = Err x.
Proof.
  intros Hf Hd. unfold add_concept. cbn [m_default set_prepared].
  destruct (build_node (m_default s) t a m e d (Some f) k) as [nd [u|y]] eqn:B; [exfalso|eexists; reflexivity].
  revert B. unfold build_node.
  destruct (match e with Some e => _ | None => _ end) as [ex|x']; [|discriminate].
  set (ty := match t with Some t => _ | None => _ end). set (n1 := nd_set_type ty _).
  subst d.
  match goal with |- context [match ?m with Ok _ => _ | Err _ => _ end] =>
    match type of m with res (node F * option (args F)) => destruct m as [[n2 fa]|x'] eqn:E end end; [|discriminate].
  assert (fa = None) as ->.
  { revert E. destruct (is_fuzzy_type ty); [|intros [= <- <-]; reflexivity].
    destruct (String.eqb _ _); [|intros [= <- <-]; reflexivity].
    intros H. apply rbind_ok in H as (fz & _ & H). injection H as <- <-. reflexivity. }
  unfold define_func. rewrite Hf. discriminate.
Qed.
Lemma unknown_excitation_raises name t a m e d f k s : get_excitation_by_name e = None ->
  exists x, snd (add_concept name t a m (Some e) d f k s) = Err x.
Proof.
  intros He. unfold add_concept, build_node. rewrite He. cbn. eauto.
Qed.

(** ** C20 *)
Lemma init_concept_spec c v r s n f : dget (m_topo s) c = Some n -> nd_func n = Some f ->
  (if String.eqb f "fuzzy" then
     match nd_fuzzy n with
     | None => exists e, init_concept c v r s = (s, Err e)
     | Some (memb, vals) =>
         match fuzzy_set v memb vals with
         | Err e => init_concept c v r s = (s, Err e)
         | Ok y => init_concept c v r s = (put_node c (nd_set_aux [] (nd_set_value y n)) (put_exec c [y] s), Ok tt)
         end
     end
   else init_concept c v r s = (put_node c (nd_set_aux [] (nd_set_value v n)) (put_exec c [v] s), Ok tt)).
Proof.
  intros Hc Hf. unfold init_concept. rewrite Hc, Hf. cbn [oget rbind].
  destruct (String.eqb f "fuzzy"); [|reflexivity].
  destruct (nd_fuzzy n) as [[memb vals]|]; cbn [oget rbind]; [|eauto].
  destruct (fuzzy_set v memb vals); reflexivity.
Qed.
(** only concept [c]'s value and history may differ *)
Definition same_but (c : string) s s' : Prop :=
  concepts s' = concepts s /\ relations s' = relations s /\ settings s' = settings s /\
  (forall x, x <> c -> dget (m_topo s') x = dget (m_topo s) x /\ history s' x = history s x) /\
  (forall n, dget (m_topo s) c = Some n -> exists n', dget (m_topo s') c = Some n' /\ nd_static n' = nd_static n).
Lemma init_concept_same_but c v r s : same_but c s (fst (init_concept c v r s)).
Proof.
  pose proof (init_concept_frame c v r s) as (S & A & T & _).
  split; [apply statics_keys; exact S|]. split; [unfold relations; now rewrite A|]. split; [exact T|].
  split; [|intros n; now apply statics_dget].
  intros x Hx. unfold init_concept, history. destruct (dget (m_topo s) c) as [n|]; [|destruct r; split; reflexivity].
  match goal with |- context [match ?m with _ => _ end] => destruct m end; [|split; reflexivity].
  cbn [fst]. unfold put_node, put_exec. cbn [m_topo m_exec set_topo set_exec]. rewrite !dget_dset_other by auto. split; reflexivity.
Qed.

(** ** C21 *)
Lemma initial_put_exec s c c' h v : initial s c = Some v ->
  (forall v' h', dget (m_exec s) c' = Some (v' :: h') -> hd v' h = v' /\ h <> []) ->
  initial (put_exec c' h s) c = Some v.
Proof.
  intros H Hh. unfold initial, history, put_exec in *. cbn [m_exec set_exec]. rewrite dget_dset.
  destruct (String.eqb_spec c c') as [->|]; [|exact H].
  destruct (dget (m_exec s) c') as [[|v' h']|]; [discriminate| |discriminate]. injection H as ->.
  destruct (Hh v h' eq_refl) as [H1 H2]. destruct h as [|x h]; [congruence|]. cbn in H1. now subst.
Qed.
Lemma initial_reset_one a c v s : initial s c = Some v -> initial (fst (reset_one a s)) c = Some v.
Proof.
  intros H. unfold reset_one. destruct (dget (m_topo s) a) as [n|]; [|exact H].
  unfold put_node at 1. cbn [m_exec set_topo].
  destruct (dget (m_exec s) a) as [[|x h]|] eqn:E; try exact H. cbn [fst].
  apply initial_put_exec; [exact H|]. unfold put_node. cbn [m_exec set_topo]. rewrite E.
  intros v' h' [= -> ->]. split; [reflexivity|discriminate].
Qed.
Lemma initial_update a c v s : initial s c = Some v -> initial (fst (update_value a s)) c = Some v.
Proof.
  intros H. unfold update_value.
  match goal with |- context [match ?m with _ => _ end] => destruct m as [[n x]|e] end; [|exact H].
  match goal with |- context [match ?m with Ok _ => _ | Err _ => _ end] => destruct m as [r|e] end; [|exact H].
  unfold put_node. cbn [m_exec set_topo]. destruct (dget (m_exec s) a) as [h|] eqn:E; [|exact H].
  cbn [fst]. apply initial_put_exec; [exact H|]. cbn [m_exec set_topo]. rewrite E.
  intros v' h' [= ->]. split; [reflexivity|discriminate].
Qed.
Lemma initial_finalize a c v s : initial s c = Some v -> initial (fst (finalize_one a s)) c = Some v.
Proof.
  intros H. unfold finalize_one. match goal with |- context [match ?m with _ => _ end] => destruct m end; exact H.
Qed.
Lemma initial_inf_step c v s : initial s c = Some v -> initial (fst (inf_step s)) c = Some v.
Proof.
  intros H. unfold inf_step.
  assert (E1 : initial (fst (mfold spread_arc (m_arcs s) s)) c = Some v).
  { apply (mfold_ind (fun s' => initial s' c = Some v)); auto. intros a s' H'. unfold initial, history. rewrite spread_exec. exact H'. }
  destruct (mfold spread_arc (m_arcs s) s) as [s1 [u|e]]; cbn [fst] in *; [|exact E1].
  assert (E2 : initial (fst (mfold update_value (dkeys (m_exec s1)) s1)) c = Some v).
  { apply (mfold_ind (fun s' => initial s' c = Some v)); auto. intros a s' H'. now apply initial_update. }
  destruct (mfold update_value (dkeys (m_exec s1)) s1) as [s2 [u2|e2]]; exact E2.
Qed.
Lemma initial_iterative c v s : initial s c = Some v -> initial (fst (iterative_inference s)) c = Some v.
Proof.
  unfold iterative_inference. match goal with |- context [iter_loop ?f ?e ?x] => generalize f e end.
  change (initial s c) with (initial (set_iters 1%Z s) c). generalize (set_iters 1%Z s). clear s.
  intros s fuel. revert s. induction fuel as [|f IH]; intros s e H; simpl; destruct (0 <? e)%Z; auto.
  destruct (keep_execution s) as [k|x]; cbn [fst]; auto.
  pose proof (initial_inf_step c v s H) as F1. destruct (inf_step s) as [s1 [u|x]]; cbn [fst] in *; [|exact F1].
  now apply IH.
Qed.
Lemma initial_reset c v s : initial s c = Some v -> initial (fst (reset_execution s)) c = Some v.
Proof. intros H. apply (mfold_ind (fun s' => initial s' c = Some v)); auto. intros. now apply initial_reset_one. Qed.
Lemma initial_run r c v s : m_debug s = true -> initial s c = Some v -> initial (fst (run_inference r s)) c = Some v.
Proof.
  intros D H. unfold run_inference.
  assert (H1 : initial (fst (if r then reset_execution s else (s, Ok tt))) c = Some v).
  { destruct r; [now apply initial_reset|exact H]. }
  assert (D1 : m_debug (fst (if r then reset_execution s else (s, Ok tt))) = true).
  { destruct r; [|exact D]. destruct (reset_frame s) as (_ & _ & S & _). unfold settings in S. congruence. }
  destruct (if r then reset_execution s else (s, Ok tt)) as [s1 [u|e]]; cbn [fst] in *; [|exact H1].
  rewrite D1. pose proof (initial_iterative c v s1 H1) as H2.
  destruct (iterative_inference s1) as [s2 [u2|e2]]; cbn [fst] in *; [|exact H2].
  apply (mfold_ind (fun s' => initial s' c = Some v)); auto. intros. now apply initial_finalize.
Qed.
Lemma step_initial o c v s : keeps c o = true -> m_debug s = true -> initial s c = Some v ->
  initial (fst (step o s)) c = Some v.
Proof.
  intros Ko D H. destruct o; cbn [step keeps] in *; try exact H; try discriminate.
  - unfold add_concept. destruct (build_node _ _ _ _ _ _ _ _) as [nd [u|e]]; [|exact H].
    cbn [fst]. unfold initial, history, put_exec. cbn [m_exec set_exec]. rewrite dget_dset_other; [exact H|].
    intros ->. rewrite String.eqb_refl in Ko. discriminate.
  - unfold set_concept_properties. destruct (dget (m_topo s) name); [|exact H].
    destruct (update_node _ _ _ _ _ _ _ _ _); exact H.
  - unfold set_default_concept_properties. destruct (update_default _ _ _ _ _ _ _ _ _); exact H.
  - unfold add_relation. cbn [m_topo set_prepared].
    destruct (dget (m_topo s) destiny); [|exact H]. destruct (dget (m_topo s) origin); [|exact H].
    destruct (dget _ destiny); [|exact H].
    match goal with |- context [match ?m with Ok _ => _ | Err _ => _ end] => destruct m end; exact H.
  - destruct (init_concept_same_but name value required s) as (_ & _ & _ & Hs & _).
    unfold initial. destruct (Hs c) as [_ E]; [intros ->; rewrite String.eqb_refl in Ko; discriminate|].
    rewrite E. exact H.
  - unfold set_map_activation_function. destruct (get_function_by_name name); [|exact H].
    apply (mfold_ind (fun s' => initial s' c = Some v)); [|exact H].
    intros b s' H'. unfold refresh_func. destruct (dget (m_topo s') b) as [n|]; cbn [fst]; auto.
    destruct (nd_usemap n) as [[|]|]; cbn [fst]; auto.
  - unfold set_map_decision_function. destruct (get_decision_by_name name); exact H.
  - now apply initial_reset.
  - now apply initial_run.
Qed.
Lemma run_ops_initial ops c v s : Forall (fun o => keeps c o = true) ops -> iterative_only ops ->
  m_debug s = true -> initial s c = Some v -> initial (run_ops ops s) c = Some v.
Proof.
  unfold run_ops. revert s. induction ops as [|o l IH]; intros s Hk Ho D H; simpl; auto.
  inversion Hk; subst. apply IH; auto.
  - intros b Hb. apply Ho. now right.
  - apply step_debug; auto. intros b ->. apply Ho. now left.
  - now apply step_initial.
Qed.
Lemma hist_initial s c : keys_eq s -> hist_ne s -> In c (concepts s) -> exists v, initial s c = Some v.
Proof.
  intros K H Hc. unfold concepts in Hc. rewrite <- K in Hc. apply dget_Some_In in Hc as [h Hh].
  unfold initial, history. rewrite Hh. destruct h as [|v h]; [now apply H in Hh|eauto].
Qed.
Lemma reset_values s : keys_eq s -> hist_ne s -> NoDup (concepts s) ->
  snd (reset_execution s) = Ok tt /\
  forall c v, initial s c = Some v ->
    value (fst (reset_execution s)) c = Some v /\ history (fst (reset_execution s)) c = Some [v].
Proof.
  intros K H ND. rewrite (reset_spec s K H ND). cbn [fst snd]. split; auto.
  intros c v Hi. unfold value, get_concept_value, history. cbn [m_topo m_exec set_topo set_exec].
  rewrite !dget_dmap. unfold initial, history in Hi. destruct (dget (m_exec s) c) as [[|x h]|] eqn:E; try discriminate.
  injection Hi as ->.
  assert (Hc : In c (dkeys (m_topo s))) by (rewrite <- K; apply dget_Some_In; eauto).
  apply dget_Some_In in Hc as [n Hn]. rewrite Hn. unfold reset_node. rewrite E. split; reflexivity.
Qed.
Lemma reset_idem s : keys_eq s -> hist_ne s -> NoDup (concepts s) ->
  reset_execution (fst (reset_execution s)) = reset_execution s.
Proof.
  intros K H ND.
  assert (K1 : keys_eq (fst (reset_execution s))) by (eapply keys_eq_ev; [apply reset_ev|exact K]).
  assert (H1 : hist_ne (fst (reset_execution s))) by (eapply hist_ne_ev; [apply reset_ev|exact H]).
  assert (ND1 : NoDup (concepts (fst (reset_execution s)))).
  { unfold concepts. now rewrite (statics_keys _ _ (proj1 (reset_frame s))). }
  rewrite (reset_spec _ K1 H1 ND1). rewrite (reset_spec s K H ND). cbn [fst].
  f_equal. unfold set_exec, set_topo. cbn. f_equal.
  - unfold dmap. rewrite map_map. apply map_ext_in. intros [c n] Hin. cbn [fst snd]. f_equal.
    unfold reset_node. cbn [m_exec]. fold (dmap (B:=list F) hd1 (m_exec s)). rewrite dget_dmap.
    destruct (dget (m_exec s) c) as [[|v h]|]; reflexivity.
  - unfold dmap. rewrite map_map. apply map_ext. intros [c h]. cbn. destruct h; reflexivity.
Qed.
Lemma clear_values s : snd (clear_execution s) = Ok tt /\
  forall c, In c (concepts s) -> value (fst (clear_execution s)) c = Some n0 /\ history (fst (clear_execution s)) c = Some [n0].
Proof.
  unfold clear_execution, concepts.
  assert (G : forall l s', (forall c, In c l -> In c (dkeys (m_topo s'))) ->
    snd (mfold clear_one l s') = Ok tt /\
    (forall c, In c l \/ (value s' c = Some n0 /\ history s' c = Some [n0]) ->
       value (fst (mfold clear_one l s')) c = Some n0 /\ history (fst (mfold clear_one l s')) c = Some [n0])).
  { induction l as [|a l IH]; intros s' Hl; simpl.
    - split; auto. intros c [[]|H]; auto.
    - unfold clear_one at 1 3 5. destruct (proj2 (dget_Some_In (m_topo s') a) (Hl a (or_introl eq_refl))) as [n Hn].
      rewrite Hn. set (s2 := put_exec a [n0] (put_node a (nd_set_value n0 (nd_set_aux [] n)) s')).
      destruct (IH s2) as [I1 I2].
      + intros c Hc. unfold s2, put_exec, put_node. cbn [m_topo set_exec set_topo]. apply dkeys_dset_In.
        right. apply Hl. now right.
      + split; [exact I1|]. intros c Hc. apply I2.
        destruct (string_dec c a) as [->|Hne].
        * right. unfold s2, put_exec, put_node, value, get_concept_value, history. cbn [m_topo m_exec set_exec set_topo].
          rewrite !dget_dset_same. split; reflexivity.
        * destruct Hc as [[->|Hc]|Hc]; [congruence|now left|right].
          unfold s2, put_exec, put_node, value, get_concept_value, history in *. cbn [m_topo m_exec set_exec set_topo].
          rewrite !dget_dset_other by auto. exact Hc. }
  destruct (G (dkeys (m_topo s)) s (fun c H => H)) as [G1 G2]. split; auto.
Qed.
End Inv3.
