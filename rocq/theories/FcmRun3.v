(** FcmRun3.v — clear_all (C22), default functions (C58), final facts for the
    map properties. *)
From Verif Require Import Base BaseFacts Num Functions Spec SortFacts Fcm FcmSpec FcmInv FcmInv2 FcmInv3 FcmIter FcmRun FcmRun2.

Section Run3.
Context {F : Type} {N : Num F}.
Notation fcm := (fcm F).
Implicit Types (s : fcm).
Lemma nth_error_map_inv {A B} (f : A -> B) l k b : nth_error (map f l) k = Some b -> exists a, nth_error l k = Some a /\ f a = b.
Proof. rewrite nth_error_map. destruct (nth_error l k); intros [= <-]. eauto. Qed.

Lemma debug_init mi ex st sd de me ac kw s0 : init_fcm mi ex st sd de me ac kw = Ok s0 -> m_debug s0 = true /\ m_exec s0 = [].
Proof. intros H. apply init_fcm_shape in H as (-> & _). split; reflexivity. Qed.

(** maps on which no add_concept raised and only the iterative engine was used *)
Definition iterative_session : fcm -> Prop :=
  from_fresh (fun ops s0 => ok_when is_add_concept ops s0 /\ iterative_only ops).
Lemma iterative_sane s : iterative_session s -> sane s.
Proof. intros (a & b & c & d & e & f & g & h & s0 & ops & H1 & [H2 _] & H3). exists a, b, c, d, e, f, g, h, s0, ops. auto. Qed.
Lemma iterative_hist s : iterative_session s -> hist_ne s /\ m_debug s = true.
Proof.
  intros (a & b & c & d & e & f & g & h & s0 & ops & H1 & [_ H2] & ->).
  apply debug_init in H1 as [D E]. apply run_ops_hist_ne; auto.
  intros x l. rewrite E. discriminate.
Qed.
Lemma iterative_history s c : iterative_session s -> In c (concepts s) -> exists v h, history s c = Some (v :: h).
Proof.
  intros H Hc. pose proof (iterative_hist s H) as [Hn _]. pose proof (sane_base s (iterative_sane s H)) as (_ & _ & K & _).
  destruct (hist_initial s c K Hn Hc) as [v Hv]. unfold initial in Hv. destruct (history s c) as [[|x l]|]; try discriminate. eauto.
Qed.
Lemma iterative_reset s : iterative_session s ->
  snd (reset_execution s) = Ok tt /\
  reset_execution (fst (reset_execution s)) = reset_execution s /\
  relations (fst (reset_execution s)) = relations s /\ settings (fst (reset_execution s)) = settings s /\
  concepts (fst (reset_execution s)) = concepts s /\
  forall c, In c (concepts s) -> exists v, initial s c = Some v /\
    value (fst (reset_execution s)) c = Some v /\ history (fst (reset_execution s)) c = Some [v].
Proof.
  intros H. pose proof (iterative_hist s H) as [Hn _]. pose proof (sane_base s (iterative_sane s H)) as (ND & _ & K & _).
  destruct (reset_values s K Hn ND) as [H1 H2]. split; [exact H1|]. split; [now apply reset_idem|].
  pose proof (reset_frame s) as (Fs & Fa & Fset & _).
  split; [unfold relations; now rewrite Fa|]. split; [exact Fset|]. split; [now apply statics_keys|].
  intros c Hc. destruct (hist_initial s c K Hn Hc) as [v Hv]. exists v. split; auto.
Qed.

Lemma clear_all_settings s : settings (fst (clear_all s)) = settings s.
Proof.
  unfold clear_all. pose proof (reset_frame s) as (_ & _ & H & _).
  destruct (reset_execution s) as [s1 [u|e]]; cbn in *; exact H.
Qed.
Lemma clear_all_empty s s' : clear_all s = (s', Ok tt) -> concepts s' = [] /\ relations s' = [] /\ m_exec s' = [].
Proof.
  unfold clear_all. destruct (reset_execution s) as [s1 [u|e]]; intros [= <-]. repeat split.
Qed.
Lemma clear_all_ok s : iterative_session s -> snd (clear_all s) = Ok tt.
Proof.
  intros H. destruct (iterative_reset s H) as [H1 _]. unfold clear_all.
  destruct (reset_execution s) as [s1 [u|e]]; cbn in *; congruence.
Qed.

(** ** C58 *)
Lemma add_concept_default name t a m e k s s' : add_concept name t a m e None None k s = (s', Ok tt) ->
  exists n, dget (m_topo s') name = Some n /\ nd_func n = Some (dc_func (m_default s)) /\
    nd_args n = Some (dc_args (m_default s)) /\ nd_usemap n = Some true.
Proof.
  unfold add_concept. cbn [m_default set_prepared].
  destruct (build_node (m_default s) t a m e None None k) as [n r] eqn:E. destruct r as [u|x]; [|discriminate].
  intros [= <-]. exists n. split; [unfold put_node; cbn; apply dget_dset_same|].
  unfold build_node in E.
  destruct (match e with Some e0 => _ | None => _ end) as [ex|]; [|discriminate].
  set (ty := match t with Some t0 => _ | None => _ end) in E.
  destruct (is_fuzzy_type ty).
  - destruct (String.eqb (dc_type (m_default s)) ty).
    + destruct (oget (dc_fuzzy (m_default s)) _) as [fz|]; cbn in E; [|discriminate]. injection E as <- _. repeat split.
    + cbn in E. injection E as <- _. repeat split.
  - cbn in E. injection E as <- _. repeat split.
Qed.
Lemma add_concept_own name t a m e f k s s' : add_concept name t a m e None (Some f) k s = (s', Ok tt) ->
  exists n, dget (m_topo s') name = Some n /\ nd_func n = Some f /\ nd_args n = Some k /\ nd_usemap n = Some false.
Proof.
  unfold add_concept. cbn [m_default set_prepared].
  destruct (build_node (m_default s) t a m e None (Some f) k) as [n r] eqn:E. destruct r as [u|x]; [|discriminate].
  intros [= <-]. exists n. split; [unfold put_node; cbn; apply dget_dset_same|].
  unfold build_node in E.
  destruct (match e with Some e0 => _ | None => _ end) as [ex|]; [|discriminate].
  set (ty := match t with Some t0 => _ | None => _ end) in E.
  unfold define_func in E.
  destruct (is_fuzzy_type ty).
  - destruct (String.eqb (dc_type (m_default s)) ty).
    + destruct (oget (dc_fuzzy (m_default s)) _) as [fz|]; cbn in E; [|discriminate].
      destruct (get_function_by_name f); [|discriminate]. injection E as <- _. repeat split.
    + cbn in E. destruct (get_function_by_name f); [|discriminate]. injection E as <- _. repeat split.
  - cbn in E. destruct (get_function_by_name f); [|discriminate]. injection E as <- _. repeat split.
Qed.
Definition refreshed (f : string) (k : args F) (n n' : node F) : Prop :=
  (nd_usemap n = Some true ->
     n' = nd_set_vect (process_function_args k) (nd_set_func f k (nd_vect n) n)) /\
  (nd_usemap n = Some false -> n' = n).
Lemma refresh_all f k l s : NoDup l ->
  (forall c, In c l -> exists n b, dget (m_topo s) c = Some n /\ nd_usemap n = Some b) ->
  exists s', mfold (refresh_func f k) l s = (s', Ok tt) /\
    m_exec s' = m_exec s /\ m_arcs s' = m_arcs s /\ settings s' = settings s /\ dkeys (m_topo s') = dkeys (m_topo s) /\
    (forall c, ~ In c l -> dget (m_topo s') c = dget (m_topo s) c) /\
    forall c n, In c l -> dget (m_topo s) c = Some n -> exists n', dget (m_topo s') c = Some n' /\ refreshed f k n n'.
Proof.
  intros ND. revert s. induction ND as [|c l Hc ND IH]; intros s H; cbn [mfold].
  - exists s. repeat split; auto. intros c n [].
  - destruct (H c (or_introl eq_refl)) as (n & b & Hn & Hb). unfold refresh_func at 1. rewrite Hn, Hb.
    set (n1 := nd_set_vect _ _).
    assert (Step : exists s1 r, (if b then (put_node c n1 s, Ok tt) else (s, Ok tt)) = (s1, r) /\ r = Ok tt /\
       m_exec s1 = m_exec s /\ m_arcs s1 = m_arcs s /\ settings s1 = settings s /\ dkeys (m_topo s1) = dkeys (m_topo s) /\
       (forall x, x <> c -> dget (m_topo s1) x = dget (m_topo s) x) /\
       exists n', dget (m_topo s1) c = Some n' /\ refreshed f k n n').
    { destruct b; eexists _, _; (split; [reflexivity|]); (split; [reflexivity|]).
      - unfold put_node. cbn [m_exec m_arcs m_topo set_topo]. split; auto. split; auto. split; auto. split.
        + rewrite dkeys_dset. unfold dmem. now rewrite Hn.
        + split.
          * intros x Hx. rewrite dget_dset. destruct (String.eqb_spec x c); congruence.
          * exists n1. rewrite dget_dset_same. split; auto. split; auto. congruence.
      - do 5 (split; [auto|]). exists n. split; auto. split; auto. congruence. }
    destruct Step as (s1 & r & E1 & -> & A1 & A2 & A3 & A4 & A5 & n' & A6 & A7).
    replace (match (if b then _ else _) with (s', Ok _) => _ | (s', Err e) => _ end) with (mfold (refresh_func f k) l s1)
      by (destruct b; injection E1 as <-; reflexivity).
    destruct (IH s1) as (s' & E' & B1 & B2 & B3 & B4 & B5 & B6).
    { intros x Hx. assert (x <> c) by congruence. rewrite A5 by auto. apply H. now right. }
    exists s'. split; [exact E'|]. split; [congruence|]. split; [congruence|]. split; [congruence|]. split; [congruence|]. split.
    + intros x Hx. rewrite B5 by (intros HI; apply Hx; now right). apply A5. intros ->. apply Hx. now left.
    + intros x nx [<-|Hx] Hnx.
      * rewrite Hn in Hnx. injection Hnx as <-. exists n'. rewrite B5 by auto. auto.
      * assert (x <> c) by congruence. apply B6; auto. now rewrite A5.
Qed.
Lemma set_map_activation_spec f k s : sane s -> (exists x, get_function_by_name f = Some x) ->
  exists s', set_map_activation_function f k s = (s', Ok tt) /\
    m_func s' = f /\ m_gargs s' = k /\ m_default s' = m_default s /\
    m_exec s' = m_exec s /\ relations s' = relations s /\ concepts s' = concepts s /\
    forall c n, dget (m_topo s) c = Some n -> exists n', dget (m_topo s') c = Some n' /\ refreshed f k n n'.
Proof.
  intros Hs [x Hx]. unfold set_map_activation_function. rewrite Hx.
  pose proof (sane_base s Hs) as (ND & Fu & _ & _).
  destruct (refresh_all f k (dkeys (m_topo s)) (set_func f k (set_prepared false s)) ND) as (s' & E & B1 & B2 & B3 & B4 & B5 & B6).
  { intros c Hc. apply dget_Some_In in Hc as [n Hn]. exists n. destruct (Fu c n Hn) as (_ & _ & _ & Hu & _).
    destruct (nd_usemap n) as [b|] eqn:Eb; [|congruence]. exists b. auto. }
  exists s'. split; [exact E|]. unfold settings in B3. cbn in B3. injection B3. intros.
  do 6 (split; [first [assumption|unfold relations; rewrite B2; reflexivity|exact B4]|]).
  intros c n Hn. apply B6; auto. apply dget_Some_In. eauto.
Qed.

(** ** run-level statement of C29 *)
Lemma runs_inactive j s (t : fcm) s' (t' : fcm) : sane s -> sane t -> m_debug s = true -> m_debug t = true ->
  run_inference true s = (s', Ok tt) -> run_inference true t = (t', Ok tt) ->
  statics t = statics s -> m_arcs t = m_arcs s ->
  (forall n, dget (m_topo s) j = Some n -> nd_active n = Some false) ->
  (forall c, c <> j -> initial s c = initial t c) ->
  forall c h h' k v v', c <> j -> history s' c = Some h -> history t' c = Some h' ->
    nth_error h k = Some v -> nth_error h' k = Some v' -> v = v'.
Proof.
  intros Hs Ht Ds Dt Es Et St Ar Hj Hi c h h' k v v' Hc Hh Hh' Hv Hv'.
  destruct (run_recurrence true s s' Hs Ds) as (L & x & O & _ & _ & _ & _ & HR); [discriminate|auto|].
  destruct (run_recurrence true t t' Ht Dt) as (L' & x' & O' & _ & _ & _ & _ & HR'); [discriminate|auto|].
  assert (Kt : concepts t = concepts s) by (now apply statics_keys).
  assert (Hin : In c (concepts s)).
  { pose proof (run_wframe true s) as (W & _). rewrite Es in W. cbn in W. apply statics_keys in W.
    pose proof (sane_base s Hs) as B. pose proof (run_ev true s) as Ev. rewrite Es in Ev. cbn in Ev.
    pose proof (base_frame _ _ _ Ev B) as (_ & _ & K' & _). unfold concepts. rewrite <- W, <- K'. apply dget_Some_In. eauto. }
  destruct (HR c Hin) as (X0 & h0 & H0 & H1). destruct (HR' c) as (X0' & h0' & H0' & H1'); [now rewrite Kt|].
  rewrite H1 in Hh. rewrite H1' in Hh'. injection Hh as <-. injection Hh' as <-.
  unfold initial in X0, X0'. rewrite H0 in X0. rewrite H0' in X0'.
  destruct h0 as [|i h0]; [discriminate|]. destruct h0' as [|i' h0']; [discriminate|]. injection X0 as ->. injection X0' as ->.
  cbn [firstn app] in Hv, Hv'.
  assert (OX : forall m, m <= L -> m <= L' -> x m c = x' m c).
  { intros m M1 M2. apply (orbit_inactive (m_topo s) (m_arcs s) x x' (Nat.min L L') j); auto.
    - intros q d n Hq Hd. apply O; [lia|auto].
    - intros q d n Hq Hd. rewrite <- Ar.
      assert (exists n', dget (m_topo t) d = Some n' /\ nd_static n' = nd_static n) as (n' & Hd' & Sn) by (now apply (statics_dget s t)).
      assert (NV : next_value (m_topo t) (m_arcs t) (x' q) d n' (x' (S q) d)) by (apply O'; [lia|auto]).
      clear - NV Sn St. destruct NV as (f & fn & a & z & N1 & N2 & N3 & N4 & N5).
      assert (InE : incoming (m_topo t) (m_arcs t) (x' q) d = incoming (m_topo s) (m_arcs t) (x' q) d).
      { apply incoming_ext; auto. intros o _. pose proof (statics_dget s t o) as SD.
        destruct (dget (m_topo s) o) as [ns|] eqn:Eo.
        - destruct (SD ns St eq_refl) as (nt & -> & Snt). unfold nd_static in Snt. destruct ns, nt; cbn in *. injection Snt. intros. subst. auto.
        - destruct (dget (m_topo t) o) as [nt|] eqn:Eo'; auto. destruct (statics_dget t s o nt (eq_sym St) Eo') as (ns & E & _). congruence. }
      assert (TI : total_input (m_topo s) (m_arcs t) (x' q) d n = total_input (m_topo t) (m_arcs t) (x' q) d n').
      { unfold total_input, signal. rewrite InE. unfold nd_static in Sn. destruct n, n'; cbn in *. injection Sn. intros. subst. reflexivity. }
      exists f, fn, a, z. unfold nd_static in Sn. rewrite TI. destruct n, n'; cbn in *. injection Sn. intros. subst. auto.
    - intros d Hd Hdj. destruct (HR d Hd) as (Y & _). destruct (HR' d) as (Y' & _); [now rewrite Kt|].
      rewrite (Hi d Hdj) in Y. congruence.
    - intros d w o Hdo. pose proof (sane_base s Hs) as (_ & _ & _ & A). now apply (A d w o).
    - lia. }
  destruct k as [|k]; cbn [nth_error] in Hv, Hv'.
  - injection Hv as <-. injection Hv' as <-. apply OX; lia.
  - apply nth_error_map_inv in Hv as (i1 & Hi1 & <-). apply nth_error_map_inv in Hv' as (i2 & Hi2 & <-).
    assert (i1 = k /\ k < L) as [-> HL].
    { pose proof (nth_error_Some (seq 0 L) k) as NS. rewrite Hi1, seq_length in NS. assert (k < L) by (apply NS; discriminate).
      rewrite (nth_error_nth' _ 0) in Hi1 by (rewrite seq_length; auto). rewrite seq_nth in Hi1 by auto. injection Hi1. lia. }
    assert (i2 = k /\ k < L') as [-> HL'].
    { pose proof (nth_error_Some (seq 0 L') k) as NS. rewrite Hi2, seq_length in NS. assert (k < L') by (apply NS; discriminate).
      rewrite (nth_error_nth' _ 0) in Hi2 by (rewrite seq_length; auto). rewrite seq_nth in Hi2 by auto. injection Hi2. lia. }
    apply OX; lia.
Qed.

(** ** Glue for PropFcm.v *)
Lemma vectorized_empties sd :
  let s := run_ops [OpAddConcept "a" None None None None None None []; OpAttrDebug false; OpAttrMaxIter 1] in
  exists s0 : fcm, init_fcm 100 5 true sd "LAST" true "saturation" [] = Ok s0 /\
    snd (run_inference true (s s0)) = Err EIndex /\
    history (fst (run_inference true (s s0))) "a" = Some [] /\
    snd (reset_execution (fst (run_inference true (s s0)))) = Err EIndex.
Proof.
  eexists. split; [reflexivity|].
  match goal with |- context [run_inference true ?x] => set (r := run_inference true x) end.
  assert (E : exists s', r = (s', Err EIndex) /\ dget (m_exec s') "a" = Some [] /\ snd (reset_execution s') = Err EIndex).
  { unfold r. cbv -[n0 n1 n2 nm1 nlit nadd nsub nmul ndiv nabs nltb nleb neqb nexp].
    repeat match goal with
      | |- context [nltb ?a ?b] => destruct (nltb a b)
      | |- context [nleb ?a ?b] => destruct (nleb a b)
      | |- context [neqb ?a ?b] => destruct (neqb a b)
      end; eexists; (split; [reflexivity|split; reflexivity]). }
  destruct E as (s' & -> & E1 & E2). cbn [fst snd]. auto.
Qed.
Lemma outgoing_links mi ex st sd de me ac kw s0 ops :
  init_fcm mi ex st sd de me ac kw = Ok s0 -> fresh_adds ops s0 -> ok_when is_add_relation ops s0 ->
  let s := run_ops ops s0 in
  forall c, In c (concepts s) -> get_concept_outgoing_relations c s = outgoing (relations s) c.
Proof.
  intros H1 H2 H3 s c Hc. pose proof (run_ops_links ops s0 H2 H3 (init_links _ _ _ _ _ _ _ _ _ H1)) as [_ L].
  apply dget_Some_In in Hc as [n Hn]. unfold get_concept_outgoing_relations. fold s in L. rewrite Hn. now apply L.
Qed.
Lemma normaliser_links mi ex st sd de me ac kw s0 ops :
  init_fcm mi ex st sd de me ac kw = Ok s0 -> fresh_adds ops s0 -> ok_when is_add_relation ops s0 ->
  let s := run_ops ops s0 in
  forall c n, dget (m_topo s) c = Some n -> nd_sum n = fold_left nadd (incoming_weights (relations s) c) n0.
Proof.
  intros H1 H2 H3 s c n Hn. pose proof (run_ops_links ops s0 H2 H3 (init_links _ _ _ _ _ _ _ _ _ H1)) as [_ L].
  now apply L.
Qed.
Lemma readd_breaks_outgoing (w : F) :
  let add n := OpAddConcept n None None None None None None [] in
  forall mi ex st sd de me ac kw s0, init_fcm mi ex st sd de me ac kw = Ok s0 ->
  let s := run_ops [add "a"; add "b"; OpAddRelation "a" "b" w; add "a"] s0 in
  relations s = [("a", "b", w)] /\ get_concept_outgoing_relations "a" s = [].
Proof.
  intros add mi ex st sd de me ac kw s0 H. apply init_fcm_shape in H as (-> & _). split; reflexivity.
Qed.
Lemma readd_breaks_sum (w : F) :
  let add n := OpAddConcept n None None None None None None [] in
  forall mi ex st sd de me ac kw s0, init_fcm mi ex st sd de me ac kw = Ok s0 ->
  let s := run_ops [add "a"; add "b"; OpAddRelation "a" "b" w; add "b"] s0 in
  relations s = [("a", "b", w)] /\ exists n, dget (m_topo s) "b" = Some n /\ nd_sum n = n0.
Proof.
  intros add mi ex st sd de me ac kw s0 H. apply init_fcm_shape in H as (-> & _). split; [reflexivity|].
  eexists. split; reflexivity.
Qed.
Lemma init_missing c v s : ~ In c (concepts s) ->
  init_concept c v true s = (s, Err (EExc ("Missing concept " ++ c))) /\ init_concept c v false s = (s, Ok tt).
Proof. intros H. apply dget_None in H. unfold init_concept. rewrite H. split; reflexivity. Qed.
Lemma set_properties_missing c t a m e d f k s : ~ In c (concepts s) ->
  set_concept_properties c t a m e d f k s = (s, Err (EExc ("Concept " ++ c ++ " not found"))).
Proof. intros H. apply dget_None in H. unfold set_concept_properties. rewrite H. reflexivity. Qed.
Lemma unknown_function_raises' name t a m e f k s : get_function_by_name f = None ->
  exists x, snd (add_concept name t a m e None (Some f) k s) = Err x.
Proof. intros H. now apply unknown_function_raises. Qed.
Lemma failed_add_poisons' name t a m e d f k s x r : reachable s -> ~ In name (concepts s) ->
  snd (add_concept name t a m e d f k s) = Err x ->
  let s' := fst (add_concept name t a m e d f k s) in
  In name (concepts s') /\ exists y, snd (run_inference r s') = Err y.
Proof. intros H. apply failed_add_poisons. now apply reachable_wf2. Qed.
Lemma failed_add_no_clear name t a m e d f k s x : reachable s -> ~ In name (concepts s) ->
  snd (add_concept name t a m e d f k s) = Err x ->
  exists y, snd (clear_all (fst (add_concept name t a m e d f k s))) = Err y.
Proof.
  intros H Hn E. pose proof (reachable_wf2 s H) as [_ Hw].
  assert (Hno : dget (m_exec s) name = None) by (apply dget_None; intros G; apply Hn; now apply Hw).
  set (s' := fst _).
  assert (E1 : In name (dkeys (m_topo s')) /\ dget (m_exec s') name = None).
  { unfold s'. revert E. unfold add_concept. destruct (build_node _ _ _ _ _ _ _ _) as [n [u|y]]; [discriminate|].
    intros _. cbn [fst]. unfold put_node. cbn [m_topo m_exec set_topo set_prepared]. split; [|exact Hno].
    apply dget_Some_In. exists n. apply dget_dset_same. }
  destruct E1 as [I1 I2]. unfold clear_all.
  assert (R : exists y, snd (reset_execution s') = Err y).
  { unfold reset_execution. apply (mfold_err (fun z => ekeys z = ekeys s') reset_one name); auto.
    - intros c z Hz. now rewrite reset_one_keys.
    - intros z Hz. unfold reset_one. destruct (dget (m_topo z) name); [|eexists; reflexivity].
      unfold put_node. cbn [m_exec set_topo].
      assert (dget (m_exec z) name = None) as ->.
      { apply dget_None. unfold ekeys in Hz. rewrite Hz. now apply dget_None. }
      eexists. reflexivity. }
  destruct R as [y Hy]. destruct (reset_execution s') as [s1 [u|e1]]; [discriminate|]. eexists. reflexivity.
Qed.
Lemma init_plain c v r s n f : dget (m_topo s) c = Some n -> nd_func n = Some f -> f <> "fuzzy" ->
  snd (init_concept c v r s) = Ok tt /\
  value (fst (init_concept c v r s)) c = Some v /\ history (fst (init_concept c v r s)) c = Some [v].
Proof.
  intros H1 H2 H3. pose proof (init_concept_spec c v r s n f H1 H2) as H. apply String.eqb_neq in H3. rewrite H3 in H.
  rewrite H. cbn [fst snd]. split; auto. unfold value, get_concept_value, history, put_node, put_exec. cbn [m_topo m_exec set_topo set_exec].
  rewrite !dget_dset_same. split; reflexivity.
Qed.
Lemma init_fuzzy c v r s n memb vals y : dget (m_topo s) c = Some n -> nd_func n = Some "fuzzy" ->
  nd_fuzzy n = Some (memb, vals) -> fuzzy_set v memb vals = Ok y ->
  snd (init_concept c v r s) = Ok tt /\
  value (fst (init_concept c v r s)) c = Some y /\ history (fst (init_concept c v r s)) c = Some [y].
Proof.
  intros H1 H2 H3 H4. pose proof (init_concept_spec c v r s n _ H1 H2) as H. cbn [String.eqb] in H. rewrite H3, H4 in H. cbn in H.
  rewrite H. cbn [fst snd]. split; auto. unfold value, get_concept_value, history, put_node, put_exec. cbn [m_topo m_exec set_topo set_exec].
  rewrite !dget_dset_same. split; reflexivity.
Qed.
Lemma init_undescribed c v r s n : dget (m_topo s) c = Some n -> nd_func n = Some "fuzzy" ->
  nd_fuzzy n = None -> exists e, init_concept c v r s = (s, Err e).
Proof. intros H1 H2 H3. pose proof (init_concept_spec c v r s n _ H1 H2) as H. rewrite H3 in H. exact H. Qed.
Lemma init_frame c v r s :
  let s' := fst (init_concept c v r s) in
  concepts s' = concepts s /\ relations s' = relations s /\ settings s' = settings s /\
  (forall x, x <> c -> dget (m_topo s') x = dget (m_topo s) x /\ history s' x = history s x /\ value s' x = value s x).
Proof.
  destruct (init_concept_same_but c v r s) as (H1 & H2 & H3 & H4 & _). cbn zeta. do 3 (split; [assumption|]).
  intros x Hx. destruct (H4 x Hx) as [E1 E2]. unfold value, get_concept_value. rewrite E1. auto.
Qed.
Lemma later_concept_old_function mi ex st sd de me kw s0 : init_fcm mi ex st sd de me "sigmoid" kw = Ok s0 ->
  let s := run_ops [OpSetActivation "biestate" []; OpAddConcept "a" None None None None None None []] s0 in
  m_func s = "biestate" /\ exists n, dget (m_topo s) "a" = Some n /\ nd_func n = Some "sigmoid".
Proof.
  intros H. apply init_fcm_shape in H as (-> & _). split; [reflexivity|]. eexists. split; reflexivity.
Qed.
End Run3.
Lemma unknown_decision {F} (d : string) (s : fcm F) : ~ In d ["LAST"; "MEAN"; "EXITED"] ->
  exists msg, set_map_decision_function d s = (s, Err (EExc msg)).
Proof.
  intros H. unfold set_map_decision_function, get_decision_by_name.
  destruct (String.eqb_spec d "LAST") as [->|]; [exfalso; apply H; cbn; auto|].
  destruct (String.eqb_spec d "MEAN") as [->|]; [exfalso; apply H; cbn; auto|].
  destruct (String.eqb_spec d "EXITED") as [->|]; [exfalso; apply H; cbn; auto|].
  eexists. reflexivity.
Qed.

Section Glue2.
Context {F : Type} {N : Num F}.
Notation fcm := (fcm F).
Implicit Types (s : fcm).
Lemma passes_bounded s : reachable s ->
  (m_iters (fst (iterative_inference s)) <= 1 + (Z.max (m_maxit s - 1) 0 + (m_extra s - 1)))%Z.
Proof. intros H. apply iterative_passes. now apply reachable_extra. Qed.
Lemma mfold_nofuel {A} (f : A -> fcm -> fcm * res unit) l s :
  (forall a s, snd (f a s) <> Err EFuel) -> snd (mfold f l s) <> Err EFuel.
Proof.
  intros H. revert s. induction l as [|a l IH]; intros s; cbn [mfold]; [discriminate|].
  specialize (H a s). destruct (f a s) as [s1 [u|e]]; auto.
Qed.

Definition nofuel {A} (r : res A) : Prop := r <> Err EFuel.
Lemma nofuel_bind {A B} (m : res A) (k : A -> res B) : nofuel m -> (forall a, nofuel (k a)) -> nofuel (rbind m k).
Proof. intros H1 H2. destruct m; [apply H2|intros H; apply H1; cbn in H; congruence]. Qed.
Lemma nofuel_oget {A} (o : option A) k : nofuel (oget o k).
Proof. destruct o; discriminate. Qed.
Lemma nofuel_dget {A} (o : dict A) k : nofuel (dget_exn o k).
Proof. unfold dget_exn. destruct (dget o k); discriminate. Qed.
Lemma nofuel_pdiv (a b : F) : nofuel (pdiv a b).
Proof. unfold pdiv. destruct (neqb b n0); discriminate. Qed.
Lemma nofuel_nbget {A} (l : list A) i : nofuel (nbget l i).
Proof. unfold nbget. destruct (nth_error l i); discriminate. Qed.
Ltac nofuel :=
  repeat (first
    [ discriminate | apply nofuel_oget | apply nofuel_dget | apply nofuel_pdiv | apply nofuel_nbget
    | apply nofuel_bind; [|intros ?]
    | match goal with
      | |- nofuel (match ?x with _ => _ end) => destruct x
      end ]).
Lemma nofuel_fuzzy v (m x : list F) : nofuel (fuzzy_set v m x).
Proof.
  unfold fuzzy_set. apply nofuel_bind; [destruct x; discriminate|intros mn].
  apply nofuel_bind; [destruct x; discriminate|intros mx]. cbv zeta.
  set (na := (_ && _)%bool). set (val := if na then _ else _). set (ix := if Nat.eqb _ _ then _ else _).
  apply nofuel_bind; [apply nofuel_nbget|intros vi].
  assert (Hh : nofuel (m <- nbget m ix ;; (if na then Ok (nm1 * (n1 - m)) else Ok m))%num%res) by (nofuel).
  destruct (neqb vi val); [exact Hh|].
  match goal with |- nofuel (match ?x with _ => _ end) => destruct x as [r|[a b]] eqn:E end.
  - repeat match type of E with (if ?b then _ else _) = _ => destruct b end; inversion E; subst; exact Hh.
  - nofuel.
Qed.
Lemma nofuel_call fn v (a : args F) : nofuel (call_actv fn v a).
Proof.
  destruct fn; cbn [call_actv]; unfold kw_only, kw_scal, kw_vec, relm;
    repeat (first [apply nofuel_fuzzy | apply nofuel_pdiv | apply nofuel_bind; [|intros ?] | discriminate
      | match goal with |- nofuel (match ?x with _ => _ end) => destruct x end]).
Qed.
Lemma inf_step_nofuel s : nofuel (snd (inf_step s)).
Proof.
  unfold inf_step. pose proof (mfold_nofuel spread_arc (m_arcs s) s) as H1.
  destruct (mfold spread_arc (m_arcs s) s) as [s1 [u|e]].
  - pose proof (mfold_nofuel update_value (dkeys (m_exec s1)) s1) as H2.
    destruct (mfold update_value _ s1) as [s2 [u'|e]]; [discriminate|]. cbn [snd] in *. unfold nofuel. intros E. apply H2; [|congruence].
    clear. intros c s. unfold update_value.
    match goal with |- snd (match ?x with _ => _ end) <> _ => assert (K : nofuel x); [|destruct x as [[n v]|e]; cbn [snd]; [|intros [= ->]; now apply K]] end.
    { nofuel. }
    match goal with |- snd (match ?x with _ => _ end) <> _ => assert (K' : nofuel x); [|destruct x as [r|e]; cbn [snd]; [|intros [= ->]; now apply K']] end.
    { nofuel. apply nofuel_call. }
    destruct (dget _ c); discriminate.
  - cbn [snd] in *. intros E. apply H1; [|congruence]. clear. intros [[d w] o] s. unfold spread_arc.
    match goal with |- snd (match ?x with _ => _ end) <> _ => assert (K : nofuel x); [|destruct x as [[n|]|e]; cbn [snd]; [discriminate|discriminate|intros [= ->]; now apply K]] end.
    nofuel.
Qed.
Lemma keep_nofuel s : nofuel (keep_execution s).
Proof.
  unfold keep_execution. destruct (_ <=? _)%Z; [discriminate|]. destruct (m_stab s); [|discriminate].
  apply nofuel_bind; [|discriminate]. unfold is_stable. destruct (_ <? _)%Z; [|discriminate].
  generalize true. induction (map snd (m_exec s)) as [|h l IH]; intros b; cbn [rfold]; [discriminate|].
  apply nofuel_bind; auto. apply nofuel_bind; [unfold last_two; destruct (rev h) as [|x [|y t]]; discriminate|]. intros [x y]. discriminate.
Qed.
Lemma loop_nofuel f e s : (e <= m_extra s - 1)%Z -> (1 <= m_extra s)%Z ->
  (budget e (m_iters s) (m_maxit s) (m_extra s) <= Z.of_nat f)%Z -> nofuel (snd (iter_loop f e s)).
Proof.
  revert e s. induction f as [|f IH]; intros e s He HE HB; cbn [iter_loop]; destruct (Z.ltb_spec 0 e) as [He0|He0]; try discriminate.
  - exfalso. unfold budget in HB. destruct (Z.ltb_spec (m_iters s) (m_maxit s)), (Z.ltb_spec 0 e); lia.
  - pose proof (keep_nofuel s) as HK. destruct (keep_execution s) as [k|x] eqn:Ek; cbn [snd]; [|intros H; apply HK; congruence].
    pose proof (inf_step_nofuel s) as HN. pose proof (inf_step_settings s) as S.
    destruct (inf_step s) as [s1 [u|x]] eqn:E1; cbn [fst snd] in *; [|intros H; apply HN; congruence].
    destruct u. pose proof (inf_step_iters _ _ E1) as I1. destruct (settings_max _ _ S) as (M1 & M2 & _).
    set (e' := if k then (m_extra s - 1)%Z else (e - 1)%Z).
    assert (Bk : (m_maxit s <= m_iters s)%Z -> k = false).
    { intros H. rewrite (keep_false_late s H) in Ek. congruence. }
    pose proof (budget_step e (m_iters s) (m_maxit s) (m_extra s) k (conj He0 He) Bk) as BS. fold e' in BS.
    apply IH; rewrite ?I1, ?M1, ?M2; try lia. unfold e'. destruct k; lia.
Qed.
Lemma iterative_terminates s fuel : reachable s ->
  Z.to_nat (Z.max (m_maxit s) 0 + m_extra s) <= fuel ->
  iter_loop fuel (m_extra s - 1) (set_iters 1%Z s) = iterative_inference s /\
  snd (iterative_inference s) <> Err EFuel.
Proof.
  intros H Hf. pose proof (reachable_extra s H) as HE. split; [now apply iterative_fuel|].
  unfold iterative_inference. apply loop_nofuel; cbn [m_extra m_maxit m_iters set_iters]; try lia. unfold budget.
  destruct (Z.ltb_spec 1 (m_maxit s)), (Z.ltb_spec 0 (m_extra s - 1)); lia.
Qed.
Lemma run_steps_hist s L x (c : string) (h : list F) r : initial s c <> None \/ r = false ->
  history s c = Some h -> length ((if r then firstn 1 h else h) ++ map (fun t : nat => x (S t) c : F) (seq 0 L)) = ((if r then 1 else length h) + L)%nat.
Proof.
  intros H Hh. rewrite app_length, map_length, seq_length. destruct r; [|reflexivity].
  destruct H as [H|]; [|discriminate]. unfold initial in H. rewrite Hh in H. destruct h; [congruence|reflexivity].
Qed.
Lemma run_steps r s s' : sane s -> m_debug s = true -> (r = false -> sane_runs s) ->
  run_inference r s = (s', Ok tt) ->
  exists L, (forall c, In c (concepts s) -> exists h h', history s c = Some h /\ history s' c = Some h' /\
               length h' = ((if r then 1 else length h) + L)%nat) /\
    (Z.of_nat L <= Z.max (m_maxit s - 1) 0 + (m_extra s - 1))%Z /\
    (m_stab s = false -> (2 <= m_extra s)%Z -> Z.of_nat L = (Z.max (m_maxit s - 1) 0 + (m_extra s - 1))%Z).
Proof.
  intros H1 H2 H3 H4. destruct (run_recurrence r s s' H1 H2 H3 H4) as (L & x & _ & A & B & _ & _ & HR).
  exists L. split; [|auto]. intros c Hc. destruct (HR c Hc) as (X0 & h & Hh & Hh'). eexists h, _. split; [auto|]. split; [exact Hh'|].
  apply (run_steps_hist s); auto. destruct r; [left; rewrite X0; discriminate|auto].
Qed.
Lemma run_early_user r s s' : sane s -> m_debug s = true -> (r = false -> sane_runs s) ->
  run_inference r s = (s', Ok tt) ->
  exists L, (forall c, In c (concepts s) -> exists h h', history s c = Some h /\ history s' c = Some h' /\
               length h' = ((if r then 1 else length h) + L)%nat) /\
    ((Z.of_nat L < m_maxit s)%Z -> forall c h k, history s' c = Some h -> (Z.of_nat k < m_extra s - 1)%Z ->
       exists h0 b a t, h = h0 ++ [b; a] ++ t /\ length t = S k /\ nltb (m_sdiff s) (nabs (nsub a b)) = false).
Proof.
  intros H1 H2 H3 H4. destruct (run_recurrence r s s' H1 H2 H3 H4) as (L & x & _ & _ & _ & _ & E & HR).
  exists L. split; [|exact E]. intros c Hc. destruct (HR c Hc) as (X0 & h & Hh & Hh'). eexists h, _. split; [auto|]. split; [exact Hh'|].
  apply (run_steps_hist s); auto. destruct r; [left; rewrite X0; discriminate|auto].
Qed.
Lemma run_recurrence_short r s s' : sane s -> m_debug s = true -> (r = false -> sane_runs s) ->
  run_inference r s = (s', Ok tt) ->
  exists L x, orbit (m_topo s) (m_arcs s) x L /\
    forall c, In c (concepts s) ->
      (if r then initial s c else value s c) = Some (x 0%nat c) /\
      exists h, history s c = Some h /\
        history s' c = Some ((if r then firstn 1 h else h) ++ map (fun t => x (S t) c) (seq 0 L)).
Proof.
  intros H1 H2 H3 H4. destruct (run_recurrence r s s' H1 H2 H3 H4) as (L & x & O & _ & _ & _ & _ & HR). eauto.
Qed.
Lemma rerun_sane s s' : sane s -> m_debug s = true -> run_inference true s = (s', Ok tt) -> run_inference true s' = (s', Ok tt).
Proof. intros H D. apply rerun; auto. now apply sane_base. Qed.
Lemma from_fresh_snoc s o : sane s -> is_add_concept o = false -> sane (fst (step o s)).
Proof.
  intros (a & b & c & d & e & f & g & h & s0 & ops & H1 & H2 & ->) Ho.
  exists a, b, c, d, e, f, g, h, s0, (ops ++ [o]). split; auto. split.
  - apply ok_when_app. split; auto. cbn. split; auto. congruence.
  - unfold run_ops. rewrite fold_left_app. reflexivity.
Qed.
Lemma init_initial_other j v r s c : c <> j -> initial (fst (init_concept j v r s)) c = initial s c.
Proof. intros H. destruct (init_concept_same_but j v r s) as (_ & _ & _ & E & _). unfold initial. destruct (E c H) as [_ ->]. reflexivity. Qed.
Lemma inactive_init_runs j s v v' s1 s2 s1' s2' : sane s -> m_debug s = true ->
  (forall n, dget (m_topo s) j = Some n -> nd_active n = Some false) ->
  init_concept j v true s = (s1, Ok tt) -> init_concept j v' true s = (s2, Ok tt) ->
  run_inference true s1 = (s1', Ok tt) -> run_inference true s2 = (s2', Ok tt) ->
  forall c h h' k a b, c <> j -> history s1' c = Some h -> history s2' c = Some h' ->
    nth_error h k = Some a -> nth_error h' k = Some b -> a = b.
Proof.
  intros Hs D Hj E1 E2 R1 R2 c h h' k a b.
  pose proof (init_concept_frame j v true s) as F1. rewrite E1 in F1. destruct F1 as (F1 & A1 & S1 & _).
  pose proof (init_concept_frame j v' true s) as F2. rewrite E2 in F2. destruct F2 as (F2 & A2 & S2 & _).
  cbn [fst] in *.
  pose proof (from_fresh_snoc s (OpInitConcept j v true) Hs eq_refl) as Sa1. cbn [step] in Sa1. rewrite E1 in Sa1.
  pose proof (from_fresh_snoc s (OpInitConcept j v' true) Hs eq_refl) as Sa2. cbn [step] in Sa2. rewrite E2 in Sa2.
  apply settings_max in S1 as (_ & _ & _ & _ & _ & D1). apply settings_max in S2 as (_ & _ & _ & _ & _ & D2).
  apply (runs_inactive j s1 s2 s1' s2'); auto; try congruence.
  - intros n Hn. destruct (statics_dget s1 s j n (eq_sym F1) Hn) as (n' & Hn' & Sn). specialize (Hj n' Hn').
    apply (f_equal nd_active) in Sn. cbn [nd_static nd_set_aux nd_set_value nd_active] in Sn. rewrite <- Sn. exact Hj.
  - intros x Hx. replace s1 with (fst (init_concept j v true s)) by now rewrite E1.
    replace s2 with (fst (init_concept j v' true s)) by now rewrite E2. now rewrite !init_initial_other.
Qed.
Lemma no_extra_no_step s s' : sane s -> m_debug s = true -> m_extra s = 1%Z ->
  run_inference true s = (s', Ok tt) ->
  forall c, In c (concepts s) -> exists v, initial s c = Some v /\ history s' c = Some [v] /\
    (m_decision s = "LAST" -> value s' c = Some v).
Proof.
  intros Hs D E1 E c Hc. pose proof (sane_base s Hs) as B.
  assert (Q : true = false -> quiet s) by discriminate.
  destruct (run_ok true s s' D B Q E) as (L & x & RD).
  assert (L = 0) as -> by (apply (run_length true s s' L x); auto; lia).
  pose proof (rd_x0 _ _ _ _ _ RD c Hc) as X0. pose proof (rd_hist _ _ _ _ _ RD c Hc) as Hi. cbn [start_value] in X0.
  exists (x 0 c). split; [exact X0|].
  assert (Hh : dget (m_exec s') c = Some [x 0 c]).
  { rewrite Hi. unfold start, initial, history in *. destruct (dget (m_exec s) c) as [[|v h]|]; try discriminate. cbn. congruence. }
  split; [exact Hh|]. intros Hd. destruct (rd_final _ _ _ _ _ RD c _ Hc Hh) as (d & v & D1 & D2 & D3).
  rewrite Hd in D1. injection D1 as <-. rewrite E1 in D2. cbn in D2. congruence.
Qed.
Lemma init_extra mi ex st sd de me ac kw s : init_fcm mi ex st sd de me ac kw = Ok s -> (ex <= 1)%Z -> m_extra s = 1%Z.
Proof. intros H He. apply init_fcm_shape in H as (-> & _). cbn. destruct (Z.ltb_spec 0 ex); lia. Qed.
Lemma step_debug_false (o : op F) s : o <> OpAttrDebug true -> m_debug s = false -> m_debug (fst (step o s)) = false /\ m_iters (fst (step o s)) = m_iters s.
Proof.
  intros Ho D. destruct o; cbn [step]; try (split; [exact D|reflexivity]).
  - unfold add_concept. destruct (build_node _ _ _ _ _ _ _ _) as [n [u|e]]; split; auto.
  - unfold set_concept_properties. destruct (dget (m_topo s) name); [|split; auto]. destruct (update_node _ _ _ _ _ _ _ _ _) as [n' r]. split; auto.
  - unfold set_default_concept_properties. destruct (update_default _ _ _ _ _ _ _ _ _) as [n' r]. split; auto.
  - unfold add_relation.
    destruct (dget (m_topo (set_prepared false s)) destiny); [|split; auto].
    destruct (dget (m_topo (set_prepared false s)) origin); [|split; auto].
    cbv zeta. match goal with |- context [match dget ?t destiny with _ => _ end] => destruct (dget t destiny) end; [|split; auto].
    match goal with |- context [match (match ?x with Some _ => _ | None => _ end) with Ok _ => _ | Err _ => _ end] => destruct (match x with Some y => fit_node y _ | None => _ end) end; split; auto.
  - unfold init_concept. destruct (dget (m_topo s) name); [|destruct required; split; auto].
    match goal with |- context [match ?x with Ok _ => _ | Err _ => _ end] => destruct x end; split; auto.
  - unfold set_map_activation_function. destruct (get_function_by_name name); [|split; auto].
    apply (mfold_ind (fun s' => m_debug s' = false /\ m_iters s' = m_iters s)); [|split; auto].
    intros c s' [H1 H2]. unfold refresh_func. destruct (dget (m_topo s') c); [|split; auto].
    destruct (nd_usemap n) as [[|]|]; split; auto.
  - unfold set_map_decision_function. destruct (get_decision_by_name name); split; auto.
  - pose proof (reset_frame s) as (_ & _ & S & _). apply settings_max in S as (_ & _ & _ & _ & _ & S). rewrite S. split; [exact D|]. apply iters_reset.
  - pose proof (clear_exec_frame s) as (_ & _ & S & _). apply settings_max in S as (_ & _ & _ & _ & _ & S). rewrite S. split; [exact D|].
    unfold clear_execution. apply (mfold_ind (fun s' => m_iters s' = m_iters s)); auto.
    intros c s' <-. unfold clear_one. destruct (dget (m_topo s') c); reflexivity.
  - pose proof (clear_all_settings s) as S. apply settings_max in S as (_ & _ & _ & _ & _ & S). rewrite S. split; [exact D|].
    unfold clear_all. pose proof (iters_reset s) as I. destruct (reset_execution s) as [s1 [u|e]]; exact I.
  - pose proof (run_wframe reset s) as (_ & _ & S). apply settings_max in S as (_ & _ & _ & _ & _ & S). rewrite S. split; [exact D|].
    now apply vectorized_iters.
  - destruct b; [congruence|]. split; reflexivity.
Qed.
Lemma vectorized_only_unstable s ops mi ex st sd de me ac kw s0 :
  init_fcm mi ex st sd de me ac kw = Ok s0 -> s = run_ops (OpAttrDebug false :: ops) s0 ->
  ~ In (OpAttrDebug true) ops -> is_stable s = Ok false.
Proof.
  intros H -> Ho. apply init_fcm_shape in H as (-> & _). unfold run_ops. cbn [fold_left step fst].
  set (s1 := set_debug false _). assert (H1 : m_debug s1 = false /\ m_iters s1 = 1%Z) by (split; reflexivity).
  clearbody s1. revert s1 H1. induction ops as [|o ops IH]; intros s1 [D I]; cbn [fold_left].
  - unfold is_stable. rewrite I. reflexivity.
  - destruct (step_debug_false o s1) as [D' I']; auto; [intros ->; apply Ho; now left|].
    apply IH; [intros G; apply Ho; now right|]. split; congruence.
Qed.
End Glue2.
