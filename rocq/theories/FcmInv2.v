(** FcmInv2.v — complete nodes, histories, outgoing relations and weight sums. *)
From Verif Require Import Base BaseFacts Num Functions Fcm FcmSpec FcmInv.

Section Inv2.
Context {F : Type} {N : Num F}.
Implicit Types s : fcm F.

Ltac ck := unfold put_exec, put_node; cbn [m_exec m_topo set_exec set_topo set_prepared set_arcs m_arcs].
Lemma mfold_err {A} (P : fcm F -> Prop) (f : A -> fcm F -> fcm F * res unit) a l s :
  (forall x s, P s -> P (fst (f x s))) -> (forall s, P s -> exists e, snd (f a s) = Err e) ->
  In a l -> P s -> exists e, snd (mfold f l s) = Err e.
Proof.
  intros Hp He. revert s. induction l as [|x l IH]; intros s Hin Hs; [destruct Hin|].
  simpl. destruct Hin as [->|Hin].
  - destruct (He s Hs) as [e E]. destruct (f a s) as [s' [u|e']]; cbn in *; [discriminate|eauto].
  - specialize (Hp x s Hs). destruct (f x s) as [s' [u|e']]; cbn in *; eauto.
Qed.
Lemma mfold_ok {A} (P : fcm F -> Prop) (f : A -> fcm F -> fcm F * res unit) l s :
  (forall a s, In a l -> P s -> snd (f a s) = Ok tt /\ P (fst (f a s))) -> P s ->
  snd (mfold f l s) = Ok tt /\ P (fst (mfold f l s)).
Proof.
  revert s. induction l as [|x l IH]; intros s H Hs; [split; auto|].
  simpl. destruct (H x s (or_introl eq_refl) Hs) as [E Ps].
  destruct (f x s) as [s' r]; cbn in *. subst r. apply IH; auto.
Qed.

(** ** valid settings *)
Definition gset s : Prop :=
  (exists x, get_excitation_by_name (dc_exec (m_default s)) = Some x) /\
  (exists x, get_function_by_name (dc_func (m_default s)) = Some x) /\
  (exists x, get_function_by_name (m_func s) = Some x) /\
  (exists x, get_decision_by_name (m_decision s) = Some x).
Lemma gset_settings s s' : settings s' = settings s -> gset s -> gset s'.
Proof.
  unfold settings, gset. intros H. injection H as _ _ _ _ -> _ -> _ _ -> _ _. auto.
Qed.
Lemma fuzzy_known : exists x, get_function_by_name "fuzzy" = Some x.
Proof. eexists; reflexivity. Qed.
Lemma update_default_good s d t a m e ad f k : gset s ->
  (exists x, get_excitation_by_name (dc_exec d) = Some x) ->
  (exists x, get_function_by_name (dc_func d) = Some x) ->
  let d' := fst (update_default s d t a m e ad f k) in
  (exists x, get_excitation_by_name (dc_exec d') = Some x) /\
  (exists x, get_function_by_name (dc_func d') = Some x).
Proof.
  intros (_ & _ & GF & _) He Hf. unfold update_default.
  set (d1 := match a with Some b => _ | None => _ end).
  assert (E1 : dc_exec d1 = dc_exec d /\ dc_func d1 = dc_func d) by (unfold d1; destruct a; auto).
  destruct E1 as [E1 E2].
  destruct (get_excitation_by_name e) as [x|] eqn:Ex; cbn [fst]; [|now rewrite E1, E2].
  set (d2 := dc_set_exec e d1).
  assert (G2 : (exists x, get_excitation_by_name (dc_exec d2) = Some x) /\
               (exists x, get_function_by_name (dc_func d2) = Some x)).
  { cbn. rewrite E2. eauto. }
  clearbody d2. destruct (is_valid_type t); [|exact G2].
  match goal with |- context [match ?m with Ok _ => _ | Err _ => _ end] =>
    match type of m with res (dconcept F * option (args F)) => destruct m as [[d3 fa]|x'] eqn:E end end;
    [|exact G2].
  assert (G3 : (exists x, get_excitation_by_name (dc_exec d3) = Some x) /\
               (exists x, get_function_by_name (dc_func d3) = Some x)).
  { revert E. destruct (_ || _).
    - destruct ad; [|discriminate]. intros H. apply rbind_ok in H as ([[v1 m1] s1] & _ & H).
      injection H as <- <-. exact G2.
    - intros [= <- <-]. exact G2. }
  destruct G3 as [G3 G4]. destruct fa as [aa|]; cbn [fst].
  - split; [exact G3|apply fuzzy_known].
  - destruct f as [f|]; [|split; [exact G3|exact GF]].
    destruct (get_function_by_name f) eqn:Ef; cbn [fst]; split; cbn; eauto.
Qed.
Lemma inv_gset : Inv gset.
Proof.
  intros o s G. destruct o; cbn [step]; try exact G.
  - unfold add_concept. destruct (build_node _ _ _ _ _ _ _ _) as [nd [u|e]]; exact G.
  - unfold set_concept_properties. destruct (dget (m_topo s) name); [|exact G].
    destruct (update_node _ _ _ _ _ _ _ _ _); exact G.
  - unfold set_default_concept_properties.
    pose proof (update_default_good s (m_default s) ctype is_active use_memory excitation d fname kwargs G
      (proj1 G) (proj1 (proj2 G))) as H.
    destruct (update_default s (m_default s) ctype is_active use_memory excitation d fname kwargs) as [d' r].
    cbn [fst] in *. destruct H as [H1 H2]. destruct G as (_ & _ & G3 & G4). repeat split; auto.
  - unfold add_relation. cbn [m_topo set_prepared].
    destruct (dget (m_topo s) destiny); [|exact G]. destruct (dget (m_topo s) origin); [|exact G].
    destruct (dget _ destiny); [|exact G].
    match goal with |- context [match ?m with Ok _ => _ | Err _ => _ end] => destruct m end; exact G.
  - eapply gset_settings; [|exact G]. apply init_concept_frame.
  - unfold set_map_activation_function. destruct (get_function_by_name name) as [x|] eqn:E; [|exact G].
    match goal with |- gset (fst (mfold _ _ ?s0)) =>
      assert (G0 : gset s0) end.
    { destruct G as (G1 & G2 & _ & G4). repeat split; auto. cbn. eauto. }
    apply (mfold_ind gset); [|exact G0].
    intros c s' H. unfold refresh_func. destruct (dget (m_topo s') c) as [n|]; cbn [fst]; auto.
    destruct (nd_usemap n) as [[|]|]; cbn [fst]; auto.
  - unfold set_map_decision_function. destruct (get_decision_by_name name) eqn:E; [|exact G].
    destruct G as (G1 & G2 & G3 & _). repeat split; auto. cbn. eauto.
  - eapply gset_settings; [|exact G]. apply reset_frame.
  - eapply gset_settings; [|exact G]. apply clear_exec_frame.
  - unfold clear_all. assert (G1 : gset (fst (reset_execution s))) by (eapply gset_settings; [|exact G]; apply reset_frame).
    destruct (reset_execution s) as [s1 [u|e]]; exact G1.
  - eapply gset_settings; [|exact G]. apply run_wframe.
Qed.
Lemma init_gset mi ex st sd de me ac kw s0 : init_fcm mi ex st sd de me ac kw = Ok s0 -> gset s0.
Proof.
  intros H. apply init_fcm_shape in H as (-> & Hd & Hf). repeat split; cbn; eauto.
Qed.
Lemma reachable_gset s : reachable s -> gset s.
Proof.
  intros (mi & ex & st & sd & de & me & ac & kw & s0 & ops & H & ->).
  apply run_ops_inv; [apply inv_gset|]. eapply init_gset, H.
Qed.

(** ** complete nodes *)
Lemma complete_static (n n' : node F) : nd_static n' = nd_static n -> complete_node n -> complete_node n'.
Proof.
  intros H C. change (complete_node (nd_static n')). rewrite H. exact C.
Qed.
Definition partial_node (n : node F) : Prop :=     (* complete but for the function entries *)
  nd_active n <> None /\ nd_type n <> None /\ nd_mem n <> None /\
  (exists e x, nd_exec n = Some e /\ get_excitation_by_name e = Some x).
Lemma define_func_complete n fa f k df n' r : partial_node n -> define_func n fa f k df = (n', r) ->
  (r = Ok tt \/ complete_node n) -> (exists x, get_function_by_name (fst df) = Some x) -> complete_node n'.
Proof.
  unfold define_func. intros (P1 & P2 & P3 & P4) E R D.
  destruct fa as [a|].
  - injection E as <- <-. repeat split; try assumption; try discriminate.
    exists "fuzzy", AFuzzy. repeat split.
  - destruct f as [f|].
    + destruct (get_function_by_name f) as [x|] eqn:Ef.
      * injection E as <- <-. repeat split; try assumption; try discriminate.
        exists f, x. split; auto.
      * injection E as <- <-. destruct R as [R|C]; [discriminate|].
        destruct C as (C1 & C2 & C3 & C4 & C5 & C6 & C7 & C8).
        repeat split; try assumption; discriminate.
    + injection E as <- <-. destruct D as [x D]. repeat split; try assumption; try discriminate.
      exists (fst df), x. split; auto.
Qed.
Lemma complete_partial n : complete_node n -> partial_node n.
Proof. intros (C1 & C2 & C3 & C4 & C5 & C6 & C7 & C8). repeat split; auto. Qed.
Lemma build_node_complete dc t a m e d f k n :
  (exists x, get_excitation_by_name (dc_exec dc) = Some x) ->
  (exists x, get_function_by_name (dc_func dc) = Some x) ->
  build_node dc t a m e d f k = (n, Ok tt) -> complete_node n.
Proof.
  intros He Hf. unfold build_node.
  match goal with |- context [match ?m with Ok _ => _ | Err _ => _ end] =>
    match type of m with res string => destruct m as [ex|x] eqn:Ee end end; [|discriminate].
  assert (Hex : exists x, get_excitation_by_name ex = Some x).
  { destruct e as [e|]; [|injection Ee as <-; exact He].
    destruct (get_excitation_by_name e) eqn:E; [|discriminate]. injection Ee as <-. eauto. }
  set (ty := match t with Some t => _ | None => _ end). set (n1 := nd_set_type ty _).
  match goal with |- context [match ?m with Ok _ => _ | Err _ => _ end] =>
    match type of m with res (node F * option (args F)) => destruct m as [[n2 fa]|x] eqn:E end end; [|discriminate].
  assert (B : nd_active n2 = nd_active n1 /\ nd_type n2 = nd_type n1 /\ nd_exec n2 = nd_exec n1).
  { revert E. destruct (is_fuzzy_type ty).
    - destruct d as [ad|].
      + intros H. apply rbind_ok in H as ([[v1 m1] s1] & _ & H). injection H as <- <-. repeat split.
      + destruct (String.eqb _ _).
        * intros H. apply rbind_ok in H as (fz & _ & H). injection H as <- <-. repeat split.
        * intros [= <- <-]. repeat split.
    - intros [= <- <-]. repeat split. }
  destruct B as (B1 & B2 & B3).
  set (n3 := nd_set_mem _ n2).
  destruct (define_func n3 fa f k (dc_func dc, dc_args dc)) as [n4 r] eqn:D.
  intros H. assert (R : r = Ok tt) by (destruct r as [[]|]; [reflexivity|discriminate]). subst r.
  injection H as <-. apply (complete_static n4); [reflexivity|].
  eapply define_func_complete; [|exact D|left; reflexivity|exact Hf].
  repeat split; cbn.
  - rewrite B1. discriminate.
  - rewrite B2. discriminate.
  - discriminate.
  - destruct Hex as [x Hx]. exists ex, x. rewrite B3. split; auto.
Qed.
Lemma update_node_complete s n t a m e d f k : gset s -> complete_node n ->
  complete_node (fst (update_node s n t a m e d f k)).
Proof.
  intros G C. unfold update_node.
  set (n1 := match a with Some b => _ | None => _ end).
  assert (C1 : complete_node n1).
  { unfold n1. destruct a; auto. destruct C as (?&?&?&?&?&?&?&?). repeat split; auto; discriminate. }
  clearbody n1.
  match goal with |- context [match ?m with Ok _ => _ | Err _ => _ end] =>
    match type of m with res (node F) => destruct m as [n2|x] eqn:E2 end end; [|exact C1].
  assert (C2 : complete_node n2).
  { destruct e as [e|]; [|injection E2 as <-; exact C1].
    destruct (get_excitation_by_name e) as [x|] eqn:E; [|discriminate]. injection E2 as <-.
    destruct C1 as (?&?&?&?&?&?&?&?). repeat split; auto. exists e, x. split; auto. }
  clear C1 E2.
  match goal with |- context [match ?m with Ok _ => _ | Err _ => _ end] =>
    match type of m with res (node F) => destruct m as [n3|x] eqn:E3 end end; [|exact C2].
  assert (C3 : complete_node n3).
  { destruct t as [t|]; [|injection E3 as <-; exact C2].
    destruct (is_valid_type t); [|discriminate]. injection E3 as <-.
    destruct C2 as (?&?&?&?&?&?&?&?). repeat split; auto; discriminate. }
  clear C2 E3.
  match goal with |- context [match ?m with Ok _ => _ | Err _ => _ end] =>
    match type of m with res (node F * option (args F)) => destruct m as [[n4 fa]|x] eqn:E4 end end; [|exact C3].
  assert (C4 : complete_node n4).
  { destruct t as [t|], d as [ad|]; try (injection E4 as <- <-; exact C3).
    destruct (is_fuzzy_type t); [|injection E4 as <- <-; exact C3].
    apply rbind_ok in E4 as ([[v1 m1] s1] & _ & E4). injection E4 as <- <-.
    destruct C3 as (?&?&?&?&?&?&?&?). repeat split; auto. }
  clear C3 E4.
  set (n5 := nd_set_mem _ n4).
  assert (C5 : complete_node n5).
  { destruct C4 as (?&?&?&?&?&?&?&?). repeat split; auto; discriminate. }
  destruct (define_func n5 fa f k (m_func s, m_gargs s)) as [n6 r] eqn:D. cbn [fst].
  eapply define_func_complete; [|exact D|right; exact C5|].
  - now apply complete_partial.
  - destruct G as (_ & _ & G & _). exact G.
Qed.

Definition full s : Prop := forall c n, dget (m_topo s) c = Some n -> complete_node n.
Definition keys_eq s : Prop := dkeys (m_exec s) = dkeys (m_topo s).
Lemma full_ev s s' : statics s' = statics s -> full s -> full s'.
Proof.
  intros H Hf c n Hn. symmetry in H. destruct (statics_dget _ _ _ _ H Hn) as (n' & Hn' & E).
  apply Hf in Hn'. eapply complete_static; [symmetry; exact E|exact Hn'].
Qed.
Lemma keys_eq_ev Q s s' : ev Q s s' -> keys_eq s -> keys_eq s'.
Proof.
  intros [(W & _) E] H. unfold keys_eq in *. rewrite (statics_keys _ _ W).
  eapply exec_ev_keys_eq; eauto.
Qed.
Lemma full_put s c n : full s -> complete_node n -> full (put_node c n s).
Proof.
  intros Hf Hn c' n' H. cbn in H. rewrite dget_dset in H. destruct (String.eqb c' c); [congruence|eauto].
Qed.
Lemma fit_node_complete y n n' : fit_node y n = Ok n' -> complete_node n ->
  complete_node n' /\ nd_arcs n' = nd_arcs n /\ nd_sum n' = nd_sum n.
Proof.
  intros H C. unfold fit_node in H. apply rbind_ok in H as (f & Hf & H).
  apply rbind_ok in H as (l1 & _ & H). apply rbind_ok in H as (l2 & _ & H).
  destruct (if String.eqb f "relm" then _ else _); injection H as <-; [|auto].
  split; [|split; reflexivity].
  destruct C as (?&?&?&?&?&?&?&C8). repeat split; auto; try discriminate.
  destruct C8 as (f' & x & C8 & C9). unfold oget in Hf. rewrite C8 in Hf. injection Hf as <-.
  exists f', x. split; auto.
Qed.
(** the node of [destiny] just before add_relation finishes *)
Lemma add_relation_shape a b w s na nb : dget (m_topo s) a = Some na -> dget (m_topo s) b = Some nb ->
  exists nb1, nb1 = (if String.eqb b a then nd_set_arcs (nd_arcs na ++ [(b, w)]) na else nb) /\
    let nb2 := nd_set_sum (nadd (nd_sum nb1) w) nb1 in
    let s2 := put_node b nb2 (put_node a (nd_set_arcs (nd_arcs na ++ [(b, w)]) na) (set_prepared false s)) in
    add_relation a b w s =
    match (match m_fit s with None => Ok nb2 | Some y => fit_node y nb2 end) with
    | Err e => (s2, Err e)
    | Ok nb3 => let s3 := put_node b nb3 s2 in (set_arcs (m_arcs s3 ++ [(b, w, a)]) s3, Ok tt)
    end.
Proof.
  intros Ha Hb. eexists. split; [reflexivity|]. unfold add_relation. cbn [m_topo set_prepared].
  rewrite Ha, Hb. cbn [m_topo put_node set_topo set_prepared]. rewrite dget_dset.
  destruct (String.eqb_spec b a) as [->|Hne].
  - reflexivity.
  - rewrite Hb. reflexivity.
Qed.
Definition I2 s : Prop := gset s /\ full s /\ keys_eq s.
Lemma step_I2 o s : I2 s -> (is_add_concept o = true -> snd (step o s) = Ok tt) -> I2 (fst (step o s)).
Proof.
  intros (G & Hf & K) Hok. split; [now apply inv_gset|].
  destruct o; cbn [step] in *; try (split; assumption).
  - specialize (Hok eq_refl). unfold add_concept in *. cbn [m_default set_prepared] in *.
    destruct (build_node (m_default s) ctype is_active use_memory excitation d fname kwargs) as [nd [[]|e]] eqn:B;
      [|discriminate]. cbn [fst].
    apply build_node_complete in B; [|apply G|apply G].
    split.
    + intros c n Hc. cbn in Hc. rewrite dget_dset in Hc. destruct (String.eqb c name); [congruence|eauto].
    + unfold keys_eq in *. ck. rewrite !dkeys_dset, K.
      assert (dmem (m_exec s) name = dmem (m_topo s) name) as ->.
      { rewrite !dmem_str_mem, K. reflexivity. }
      reflexivity.
  - unfold set_concept_properties. destruct (dget (m_topo s) name) as [n|] eqn:E; [|split; assumption].
    pose proof (update_node_complete (set_prepared false s) n ctype is_active use_memory excitation d fname kwargs G (Hf _ _ E)) as C.
    destruct (update_node _ _ _ _ _ _ _ _ _) as [n' r]. cbn [fst] in *. split.
    + apply full_put; auto.
    + unfold keys_eq in *. ck. rewrite dkeys_dset. unfold dmem. now rewrite E.
  - unfold set_default_concept_properties. destruct (update_default _ _ _ _ _ _ _ _ _); split; assumption.
  - destruct (dget (m_topo s) origin) as [na|] eqn:Ea.
    2: { rewrite add_relation_unknown; [split; assumption|]. left. now apply dget_None. }
    destruct (dget (m_topo s) destiny) as [nb|] eqn:Eb.
    2: { rewrite add_relation_unknown; [split; assumption|]. right. now apply dget_None. }
    destruct (add_relation_shape origin destiny weight s na nb Ea Eb) as (nb1 & Enb1 & E). cbn zeta in E.
    rewrite E.
    assert (Ca : complete_node (nd_set_arcs (nd_arcs na ++ [(destiny, weight)]) na)) by exact (Hf _ _ Ea).
    assert (Cb1 : complete_node nb1) by (subst nb1; destruct (String.eqb destiny origin); [exact Ca|exact (Hf _ _ Eb)]).
    set (nb2 := nd_set_sum (nadd (nd_sum nb1) weight) nb1) in *.
    assert (Cb2 : complete_node nb2) by exact Cb1.
    assert (K2 : dkeys (dset (dset (m_topo s) origin (nd_set_arcs (nd_arcs na ++ [(destiny, weight)]) na)) destiny nb2) = dkeys (m_topo s)).
    { rewrite dkeys_dset. unfold dmem. rewrite dget_dset, Eb.
      assert (E0 : dkeys (dset (m_topo s) origin (nd_set_arcs (nd_arcs na ++ [(destiny, weight)]) na)) = dkeys (m_topo s)).
      { rewrite dkeys_dset. unfold dmem. now rewrite Ea. }
      destruct (String.eqb destiny origin); exact E0. }
    match goal with |- context [match ?m with Ok _ => _ | Err _ => _ end] => destruct m as [nb3|x] eqn:E3 end; cbn [fst].
    + assert (Cb3 : complete_node nb3).
      { destruct (m_fit s) as [y|]; [|congruence]. eapply fit_node_complete; eauto. }
      split; [|unfold keys_eq in *; ck].
      * apply (full_put (put_node destiny nb2 (put_node origin (nd_set_arcs (nd_arcs na ++ [(destiny, weight)]) na) s)) destiny nb3); auto.
        apply full_put; auto. apply full_put; auto.
      * rewrite dkeys_dset. unfold dmem. rewrite dget_dset_same. congruence.
    + split; [|unfold keys_eq in *; ck; congruence].
      apply (full_put (put_node origin (nd_set_arcs (nd_arcs na ++ [(destiny, weight)]) na) s) destiny nb2); auto.
      apply full_put; auto.
  - split; [eapply full_ev; [|exact Hf]; apply init_concept_frame|eapply keys_eq_ev; [apply init_concept_ev|exact K]].
  - unfold set_map_activation_function. destruct (get_function_by_name name) as [x|] eqn:E; [|split; assumption].
    match goal with |- context [mfold _ _ ?s0] => assert (G0 : full s0 /\ keys_eq s0) by (split; assumption) end.
    apply (mfold_ind (fun s => full s /\ keys_eq s)); [|exact G0].
    intros c s' [H1 H2]. unfold refresh_func. destruct (dget (m_topo s') c) as [n|] eqn:En; cbn [fst]; auto.
    pose proof (H1 _ _ En) as C.
    destruct (nd_usemap n) as [[|]|] eqn:Eu; cbn [fst]; auto.
    split.
    + apply full_put; auto. destruct C as (?&?&?&?&?&?&?&?). repeat split; auto; try discriminate.
      exists name, x. split; auto.
    + unfold keys_eq in *. ck. rewrite dkeys_dset. unfold dmem. now rewrite En.
  - unfold set_map_decision_function. destruct (get_decision_by_name name); split; assumption.
  - split; [eapply full_ev; [|exact Hf]; apply reset_frame|eapply keys_eq_ev; [apply reset_ev|exact K]].
  - split; [eapply full_ev; [|exact Hf]; apply clear_exec_frame|eapply keys_eq_ev; [apply clear_exec_ev|exact K]].
  - unfold clear_all. assert (A1 : full (fst (reset_execution s))) by (eapply full_ev; [|exact Hf]; apply reset_frame).
    assert (A2 : keys_eq (fst (reset_execution s))) by (eapply keys_eq_ev; [apply reset_ev|exact K]).
    destruct (reset_execution s) as [s1 [u|e]]; cbn [fst] in *; [|split; assumption].
    split; [intros c n H; discriminate|reflexivity].
  - split; [eapply full_ev; [|exact Hf]; apply run_wframe|eapply keys_eq_ev; [apply run_ev|exact K]].
Qed.
Lemma run_ops_I2 ops s : I2 s -> ok_when is_add_concept ops s -> I2 (run_ops ops s).
Proof.
  unfold run_ops. revert s. induction ops as [|o l IH]; intros s H Hok; simpl; auto.
  destruct Hok as [H1 H2]. apply IH; auto. now apply step_I2.
Qed.
Lemma init_I2 mi ex st sd de me ac kw s0 : init_fcm mi ex st sd de me ac kw = Ok s0 -> I2 s0.
Proof.
  intros H. split; [eapply init_gset, H|]. apply init_fcm_shape in H as (-> & _).
  split; [intros c n Hn; discriminate|reflexivity].
Qed.

(** ** histories are non-empty without vectorized runs *)
Definition hist_ne s : Prop := forall c h, dget (m_exec s) c = Some h -> h <> [].
Lemma hist_ne_ev s s' : ev nonempty s s' -> hist_ne s -> hist_ne s'.
Proof. intros [_ E] H c h Hh. exact (exec_ev_nonempty _ _ _ E H c h Hh). Qed.
Lemma step_debug o s : (forall b, o = OpAttrDebug b -> b = true) -> m_debug s = true -> m_debug (fst (step o s)) = true.
Proof.
  intros Ho D.
  assert (SD : forall s', settings s' = settings s -> m_debug s' = true).
  { intros s' H. unfold settings in H. congruence. }
  destruct o; cbn [step]; try exact D.
  - unfold add_concept. destruct (build_node _ _ _ _ _ _ _ _) as [nd [u|e]]; exact D.
  - unfold set_concept_properties. destruct (dget (m_topo s) name); [|exact D].
    destruct (update_node _ _ _ _ _ _ _ _ _); exact D.
  - unfold set_default_concept_properties. destruct (update_default _ _ _ _ _ _ _ _ _); exact D.
  - unfold add_relation. cbn [m_topo set_prepared].
    destruct (dget (m_topo s) destiny); [|exact D]. destruct (dget (m_topo s) origin); [|exact D].
    destruct (dget _ destiny); [|exact D].
    match goal with |- context [match ?m with Ok _ => _ | Err _ => _ end] => destruct m end; exact D.
  - apply SD, init_concept_frame.
  - unfold set_map_activation_function. destruct (get_function_by_name name); [|exact D].
    apply (mfold_ind (fun s => m_debug s = true)); [|exact D].
    intros c s' H. unfold refresh_func. destruct (dget (m_topo s') c) as [n|]; cbn [fst]; auto.
    destruct (nd_usemap n) as [[|]|]; cbn [fst]; auto.
  - unfold set_map_decision_function. destruct (get_decision_by_name name); exact D.
  - apply SD, reset_frame.
  - apply SD, clear_exec_frame.
  - unfold clear_all. assert (D1 : m_debug (fst (reset_execution s)) = true) by (apply SD, reset_frame).
    destruct (reset_execution s) as [s1 [u|e]]; exact D1.
  - apply SD, run_wframe.
  - cbn. now apply Ho.
Qed.
Lemma step_hist_ne o s : m_debug s = true -> hist_ne s -> hist_ne (fst (step o s)).
Proof.
  intros D H. destruct o; cbn [step]; try exact H.
  - unfold add_concept. destruct (build_node _ _ _ _ _ _ _ _) as [nd [u|e]]; [|exact H].
    intros c h Hh. cbn in Hh. rewrite dget_dset in Hh. destruct (String.eqb c name); [injection Hh as <-; discriminate|eapply H; eauto].
  - unfold set_concept_properties. destruct (dget (m_topo s) name); [|exact H].
    destruct (update_node _ _ _ _ _ _ _ _ _); exact H.
  - unfold set_default_concept_properties. destruct (update_default _ _ _ _ _ _ _ _ _); exact H.
  - unfold add_relation. cbn [m_topo set_prepared].
    destruct (dget (m_topo s) destiny); [|exact H]. destruct (dget (m_topo s) origin); [|exact H].
    destruct (dget _ destiny); [|exact H].
    match goal with |- context [match ?m with Ok _ => _ | Err _ => _ end] => destruct m end; exact H.
  - eapply hist_ne_ev; [apply init_concept_ev|exact H].
  - unfold set_map_activation_function. destruct (get_function_by_name name); [|exact H].
    apply (mfold_ind hist_ne); [|exact H].
    intros c s' H'. unfold refresh_func. destruct (dget (m_topo s') c) as [n|]; cbn [fst]; auto.
    destruct (nd_usemap n) as [[|]|]; cbn [fst]; auto.
  - unfold set_map_decision_function. destruct (get_decision_by_name name); exact H.
  - eapply hist_ne_ev; [apply reset_ev|exact H].
  - eapply hist_ne_ev; [apply clear_exec_ev|exact H].
  - unfold clear_all. assert (D1 : hist_ne (fst (reset_execution s))) by (eapply hist_ne_ev; [apply reset_ev|exact H]).
    destruct (reset_execution s) as [s1 [u|e]]; [intros c h Hh; discriminate|exact D1].
  - eapply hist_ne_ev; [now apply run_ev_iter|exact H].
Qed.
Lemma run_ops_hist_ne ops s : iterative_only ops -> m_debug s = true -> hist_ne s ->
  hist_ne (run_ops ops s) /\ m_debug (run_ops ops s) = true.
Proof.
  unfold run_ops. revert s. induction ops as [|o l IH]; intros s Ho D H; simpl; auto.
  apply IH.
  - intros b Hb. apply Ho. now right.
  - apply step_debug; auto. intros b ->. apply Ho. now left.
  - now apply step_hist_ne.
Qed.

(** ** reset and clear succeed on complete maps *)
Lemma reset_one_ok c s n v h : dget (m_topo s) c = Some n -> dget (m_exec s) c = Some (v :: h) ->
  reset_one c s = (put_exec c [v] (put_node c (nd_set_value v (nd_set_aux [] n)) (put_node c (nd_set_aux [] n) s)), Ok tt).
Proof. intros H1 H2. unfold reset_one. rewrite H1. cbn [m_exec put_node set_topo]. now rewrite H2. Qed.
Lemma dset_dset {A} (d : dict A) k v v' : dset (dset d k v) k v' = dset d k v'.
Proof.
  induction d as [|[k0 v0] d IH]; simpl.
  - now rewrite String.eqb_refl.
  - destruct (String.eqb_spec k k0) as [->|Hne]; simpl; [now rewrite String.eqb_refl|].
    apply String.eqb_neq in Hne. rewrite Hne. now rewrite IH.
Qed.
(** reset_execution on a map whose concepts all have a non-empty history *)
Definition reset_node (s : fcm F) (c : string) (n : node F) : node F :=
  match dget (m_exec s) c with
  | Some (v :: _) => nd_set_value v (nd_set_aux [] n)
  | _ => n
  end.
Definition hd1 (_ : string) (h : list F) : list F := match h with [] => [] | v :: _ => [v] end.
Lemma fcm_eta_te s t e : set_exec e (set_topo t s) = mkFcm t (m_arcs s) e (m_stab s) (m_maxit s) (m_extra s) (m_sdiff s) (m_decision s) (m_mem s) (m_func s) (m_gargs s) (m_iters s) (m_weight s) (m_default s) (m_debug s) (m_fit s) (m_prepared s) (m_cache s) (m_oob s).
Proof. reflexivity. Qed.
Lemma reset_spec s : keys_eq s -> hist_ne s -> NoDup (dkeys (m_topo s)) ->
  reset_execution s = (set_exec (dmap hd1 (m_exec s)) (set_topo (dmap (reset_node s) (m_topo s)) s), Ok tt).
Proof.
  intros K H ND. unfold reset_execution.
  assert (G : forall l s', NoDup l -> (forall c, In c l -> In c (dkeys (m_topo s))) ->
     (forall c, In c l -> dget (m_topo s') c = dget (m_topo s) c /\ dget (m_exec s') c = dget (m_exec s) c) ->
     exists t e, mfold reset_one l s' = (set_exec e (set_topo t s'), Ok tt) /\
       dkeys t = dkeys (m_topo s') /\ dkeys e = dkeys (m_exec s') /\
       (forall c, In c l -> dget t c = dget (dmap (reset_node s) (m_topo s)) c /\ dget e c = dget (dmap hd1 (m_exec s)) c) /\
       (forall c, ~ In c l -> dget t c = dget (m_topo s') c /\ dget e c = dget (m_exec s') c)).
  { induction l as [|c l IH]; intros s' NDl Hl Hsame.
    - exists (m_topo s'), (m_exec s'). simpl. split; [destruct s'; reflexivity|]. repeat split; intuition.
    - destruct (Hsame c (or_introl eq_refl)) as [T E].
      destruct (proj2 (dget_Some_In (m_topo s) c) (Hl c (or_introl eq_refl))) as [n Hn].
      assert (Hc : In c (dkeys (m_exec s))) by (rewrite K; apply Hl; now left).
      apply dget_Some_In in Hc as [h Hh]. destruct h as [|v h]; [now apply H in Hh|].
      rewrite Hn in T. rewrite Hh in E.
      pose proof (reset_one_ok c s' n v h T E) as R.
      set (s2 := put_exec c [v] (put_node c (nd_set_value v (nd_set_aux [] n)) (put_node c (nd_set_aux [] n) s'))) in R.
      inversion NDl as [|? ? Hni NDl']; subst.
      destruct (IH s2 NDl') as (t & e & M & Kt & Ke & Hin & Hout).
      + intros; apply Hl; now right.
      + intros c' Hc'. assert (c' <> c) by congruence. cbn.
        rewrite !dget_dset_other by auto. apply Hsame. now right.
      + exists t, e. simpl. rewrite R. split.
        * rewrite M. reflexivity.
        * split; [rewrite Kt; unfold s2; ck; rewrite dset_dset, dkeys_dset; unfold dmem; now rewrite T|].
          split; [rewrite Ke; unfold s2; ck; rewrite dkeys_dset; unfold dmem; now rewrite E|].
          split.
          -- intros c' [<-|Hc']; [|apply Hin; exact Hc'].
             destruct (Hout c Hni) as [O1 O2]. rewrite O1, O2. cbn.
             rewrite !dget_dset_same, !dget_dmap, Hn, Hh. unfold reset_node. rewrite Hh. split; reflexivity.
          -- intros c' Hc'. simpl in Hc'. destruct (Hout c') as [O1 O2]; [tauto|]. rewrite O1, O2. cbn.
             rewrite !dget_dset_other by (intros ->; apply Hc'; now left). split; reflexivity. }
  destruct (G (dkeys (m_topo s)) s ND) as (t & e & M & Kt & Ke & Hin & Hout); auto.
  rewrite M. f_equal.
  assert (ET : t = dmap (reset_node s) (m_topo s)).
  { apply dict_ext; [now rewrite Kt|now rewrite dkeys_dmap|].
    intros k. destruct (in_dec string_dec k (dkeys (m_topo s))) as [i|i]; [apply Hin; exact i|].
    rewrite (proj1 (Hout k i)), dget_dmap. apply dget_None in i. now rewrite i. }
  assert (EE : e = dmap hd1 (m_exec s)).
  { apply dict_ext; [rewrite Ke; now rewrite K|now rewrite dkeys_dmap|].
    intros k. destruct (in_dec string_dec k (dkeys (m_topo s))) as [i|i]; [apply Hin; exact i|].
    rewrite (proj2 (Hout k i)), dget_dmap. rewrite <- K in i. apply dget_None in i. now rewrite i. }
  now rewrite ET, EE.
Qed.
End Inv2.
