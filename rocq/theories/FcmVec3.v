(** FcmVec3.v — the prepared data is never stale. *)
From Verif Require Import Base BaseFacts Num Functions Fcm FcmSpec FcmBasics FcmInv FcmInv2 FcmInv3 FcmIter FcmRun FcmRun2 VecSpec FcmVec FcmVec2.

Section Stale.
Context {F : Type} {N : Num F}.
Implicit Types s : fcm F.

Definition vc_put (v : list F) (c : vcache F) : vcache F :=
  mkVC v (vc_matrix c) (vc_functions c) (vc_args c) (vc_mem c) (vc_norm c) (vc_avoid c).
Definition same_data (c c' : vcache F) : Prop := vc_put [] c = vc_put [] c'.
Lemma same_data_refl c : same_data c c. Proof. reflexivity. Qed.

(** prepare reads the map only through the static part of its nodes, the values and the relations *)
Definition prep_static s : res (vcache F) := (c <- prepare s ;; Ok (vc_put [] c))%res.
Lemma prep_node_static n : prep_node (nd_static n) = prep_node (F := F) n.
Proof. reflexivity. Qed.
Lemma prep_static_eq s s' : statics s' = statics s -> m_arcs s' = m_arcs s -> prep_static s' = prep_static s.
Proof.
  intros S A. unfold prep_static, prepare. rewrite (statics_keys _ _ S), A.
  assert (R : rmap prep_node (map snd (m_topo s')) = rmap prep_node (map snd (m_topo s))).
  { assert (G : forall t : dict (node F), rmap prep_node (map snd t) = rmap prep_node (map snd (dmap (fun _ => nd_static) t))).
    { induction t as [|[c n] t IH]; cbn [map snd rmap dmap]; [reflexivity|].
      change (map snd (map (fun p : string * node F => (fst p, nd_static (snd p))) t)) with (map snd (dmap (fun _ => nd_static) t)).
      rewrite <- IH. reflexivity. }
    rewrite G, (G (m_topo s)). unfold statics in S. now rewrite S. }
  rewrite R. destruct (rmap prep_node (map snd (m_topo s))) as [ps|e]; cbn [rbind]; [|reflexivity].
  destruct (rfold _ _ _) as [mat|e]; cbn [rbind]; reflexivity.
Qed.

Definition fresh_data s : Prop := m_prepared s = true -> m_topo s <> [] ->
  match prep_static s with
  | Ok c' => exists c, m_cache s = Some c /\ vc_put [] c = c'
  | Err _ => m_cache s = None
  end.
Lemma fresh_frame s s' : frame s s' -> fresh_data s -> fresh_data s'.
Proof.
  intros (S & A & _ & P & C & _) H Hp Ht. rewrite (prep_static_eq s s') by auto. rewrite C. apply H; [congruence|].
  intros E. apply Ht. apply statics_keys in S. rewrite E in S. now destruct (m_topo s').
Qed.
Lemma fresh_unprepared s : m_prepared s = false -> fresh_data s.
Proof. intros H Hp. congruence. Qed.

(** the ways vectorized_inference can end *)
Definition data_of s : res (vcache F) :=
  if m_prepared s then match m_cache s with Some c => Ok c | None => Err EUndef end else prepare s.
Lemma vectorized_cases s :
  m_topo (fst (vectorized_inference s)) = m_topo s /\ m_arcs (fst (vectorized_inference s)) = m_arcs s /\
  ((m_prepared s = true /\ m_cache (fst (vectorized_inference s)) = m_cache s) \/
   match data_of s with
   | Ok c0 => exists st, m_cache (fst (vectorized_inference s)) = Some (vc_put st c0)
   | Err _ => m_prepared s = false /\ m_cache (fst (vectorized_inference s)) = None
   end).
Proof.
  unfold vectorized_inference, data_of.
  destruct (m_prepared s) eqn:P.
  - destruct (m_cache s) as [c0|] eqn:C; [|cbn; auto].
    destruct (vc_functions c0) eqn:Fn; [cbn; auto|].
    match goal with |- context [vectorized_run ?a ?b ?c ?d ?e ?f ?g ?h ?i ?j] =>
      destruct (vectorized_run a b c d e f g h i j) as [[[buf oob] k]|e'] end.
    + destruct (Nat.eqb _ 0); [cbn; auto|].
      split; [reflexivity|]. split; [reflexivity|]. right. cbn [fst m_cache set_exec set_cache set_oob]. eexists. unfold vc_put. rewrite Fn. reflexivity.
    + split; [reflexivity|]. split; [reflexivity|]. right. cbn [fst m_cache set_exec set_cache set_oob]. eexists. unfold vc_put. rewrite Fn. reflexivity.
  - destruct (prepare s) as [c0|e].
    + assert (E0 : exists st, Some c0 = Some (vc_put st c0)) by (exists (vc_state c0); destruct c0; reflexivity).
      destruct (vc_functions c0) eqn:Fn; [cbn; auto|].
      match goal with |- context [vectorized_run ?a ?b ?c ?d ?e ?f ?g ?h ?i ?j] =>
        destruct (vectorized_run a b c d e f g h i j) as [[[buf oob] k]|e'] end.
      * destruct (Nat.eqb _ 0); [cbn; auto|].
        split; [reflexivity|]. split; [reflexivity|]. right. cbn [fst m_cache set_exec set_cache set_oob]. eexists. unfold vc_put. rewrite Fn. reflexivity.
      * split; [reflexivity|]. split; [reflexivity|]. right. cbn [fst m_cache set_exec set_cache set_oob]. eexists. unfold vc_put. rewrite Fn. reflexivity.
    + cbn. auto.
Qed.
Lemma fresh_vectorized s : fresh_data s -> fresh_data (fst (vectorized_inference s)).
Proof.
  intros H. destruct (vectorized_cases s) as (Et & Ea & Hc). intros _ Ht. rewrite Et in Ht.
  rewrite (prep_static_eq s) by (unfold statics; congruence).
  destruct Hc as [[P ->]|Hc]; [apply H; auto|].
  unfold data_of in Hc. destruct (m_prepared s) eqn:P.
  - specialize (H P Ht). destruct (m_cache s) as [c0|].
    + destruct Hc as [st ->]. destruct (prep_static s); [|discriminate]. destruct H as (c' & [= <-] & <-). eexists. split; reflexivity.
    + destruct Hc; discriminate.
  - unfold prep_static. destruct (prepare s) as [c0|e]; cbn [rbind].
    + destruct Hc as [st ->]. eexists. split; reflexivity.
    + apply Hc.
Qed.
Lemma mfold_prepared {A} (f : A -> fcm F -> fcm F * res unit) l s b :
  (forall a s, m_prepared s = b -> m_prepared (fst (f a s)) = b) -> m_prepared s = b -> m_prepared (fst (mfold f l s)) = b.
Proof. intros H H0. apply (mfold_ind (fun s => m_prepared s = b)); auto. Qed.
Lemma fresh_step (o : op F) s : fresh_data s -> fresh_data (fst (step o s)).
Proof.
  intros H. destruct o; cbn [step]; try exact H.
  - apply fresh_unprepared. unfold add_concept. destruct (build_node _ _ _ _ _ _ _ _) as [n [u|e]]; reflexivity.
  - unfold set_concept_properties. destruct (dget (m_topo s) name); [|exact H]. apply fresh_unprepared.
    destruct (update_node _ _ _ _ _ _ _ _ _) as [n' r]. reflexivity.
  - unfold set_default_concept_properties. destruct (update_default _ _ _ _ _ _ _ _ _) as [n' r]. exact H.
  - apply fresh_unprepared. unfold add_relation.
    destruct (dget (m_topo (set_prepared false s)) destiny); [|reflexivity].
    destruct (dget (m_topo (set_prepared false s)) origin); [|reflexivity].
    cbv zeta. match goal with |- context [match dget ?t destiny with _ => _ end] => destruct (dget t destiny) end; [|reflexivity].
    match goal with |- context [match (match ?x with Some _ => _ | None => _ end) with Ok _ => _ | Err _ => _ end] => destruct (match x with Some y => fit_node y _ | None => _ end) end; reflexivity.
  - eapply fresh_frame; [apply init_concept_frame|exact H].
  - apply fresh_unprepared. unfold set_map_activation_function. destruct (get_function_by_name name); [|reflexivity].
    apply mfold_prepared; [|reflexivity]. intros c s' E. unfold refresh_func.
    destruct (dget (m_topo s') c) as [n|]; [|exact E]. destruct (nd_usemap n) as [[|]|]; exact E.
  - unfold set_map_decision_function. destruct (get_decision_by_name name); exact H.
  - eapply fresh_frame; [apply reset_frame|exact H].
  - eapply fresh_frame; [apply clear_exec_frame|exact H].
  - unfold clear_all. pose proof (reset_frame s) as R. destruct (reset_execution s) as [s1 [u|e]]; cbn [fst] in *.
    + intros _ E. cbn in E. congruence.
    + eapply fresh_frame; eauto.
  - unfold run_inference.
    assert (H1 : fresh_data (fst (if reset then reset_execution s else (s, Ok tt)))).
    { destruct reset; [eapply fresh_frame; [apply reset_frame|exact H]|exact H]. }
    destruct (if reset then reset_execution s else (s, Ok tt)) as [s1 [u|e]]; cbn [fst] in *; [|exact H1].
    assert (H2 : fresh_data (fst (if m_debug s1 then iterative_inference s1 else vectorized_inference s1))).
    { destruct (m_debug s1); [eapply fresh_frame; [apply iterative_frame|exact H1]|now apply fresh_vectorized]. }
    destruct (if m_debug s1 then iterative_inference s1 else vectorized_inference s1) as [s2 [u2|e]]; cbn [fst] in *; [|exact H2].
    eapply fresh_frame; [|exact H2]. apply mfold_frame. intros; apply finalize_frame.
Qed.
Lemma reachable_fresh s : reachable s -> fresh_data s.
Proof.
  intros (mi & ex & st & sd & de & me & ac & kw & s0 & ops & H & ->).
  apply run_ops_inv; [intros o s'; apply fresh_step|].
  apply init_fcm_shape in H as (-> & _). apply fresh_unprepared. reflexivity.
Qed.

(** ** observational form *)
Definition recache (p : bool) (k : option (vcache F)) s : fcm F :=
  mkFcm (m_topo s) (m_arcs s) (m_exec s) (m_stab s) (m_maxit s) (m_extra s) (m_sdiff s) (m_decision s) (m_mem s) (m_func s) (m_gargs s) (m_iters s) (m_weight s) (m_default s) (m_debug s) (m_fit s) p k (m_oob s).
Definition lift (p : bool) (k : option (vcache F)) (r : fcm F * res unit) := (recache p k (fst r), snd r).
Lemma mfold_recache {A} (f : A -> fcm F -> fcm F * res unit) p k l s :
  (forall a s, f a (recache p k s) = lift p k (f a s)) -> mfold f l (recache p k s) = lift p k (mfold f l s).
Proof.
  intros H. revert s. induction l as [|a l IH]; intros s; cbn [mfold]; [reflexivity|].
  rewrite H. destruct (f a s) as [s1 [u|e]]; cbn; [apply IH|reflexivity].
Qed.
Lemma reset_recache p k s : reset_execution (recache p k s) = lift p k (reset_execution s).
Proof.
  unfold reset_execution. change (dkeys (m_topo (recache p k s))) with (dkeys (m_topo s)). apply mfold_recache. intros c s'.
  unfold reset_one. cbn [m_topo m_exec recache]. destruct (dget (m_topo s') c) as [n|]; [|reflexivity].
  cbn [m_exec put_node recache set_topo]. destruct (dget (m_exec s') c) as [[|v h]|]; reflexivity.
Qed.
Lemma finalize_recache p k l s : mfold finalize_one l (recache p k s) = lift p k (mfold finalize_one l s).
Proof.
  apply mfold_recache. intros c s'. unfold finalize_one. cbn [m_topo m_exec m_decision m_extra recache].
  match goal with |- match ?x with _ => _ end = _ => destruct x end; reflexivity.
Qed.
Lemma visible_recache p k s : visible (recache p k s) = visible s. Proof. reflexivity. Qed.
Lemma visible_eq s s' : visible s = visible s' -> exists p k, s' = recache p k s.
Proof.
  unfold visible, settings. intros H. destruct s as [a1 a2 a3 a4 a5 a6 a7 a8 a9 a10 a11 a12 a13 a14 a15 a16 a17 a18 a19]. cbn in H. injection H. intros. subst.
  exists (m_prepared s'), (m_cache s'). destruct s'. reflexivity.
Qed.
Lemma vectorized_current s : fresh_data s -> m_topo s <> [] ->
  visible (fst (vectorized_inference s)) = visible (fst (vectorized_inference (set_prepared false s))) /\
  ((exists e e', snd (vectorized_inference s) = Err e /\ snd (vectorized_inference (set_prepared false s)) = Err e') \/
   snd (vectorized_inference s) = snd (vectorized_inference (set_prepared false s))).
Proof.
  intros H Ht. destruct (m_prepared s) eqn:P.
  2:{ assert (set_prepared false s = s) as -> by (destruct s; cbn in *; subst; reflexivity). auto. }
  specialize (H P Ht). unfold vectorized_inference. rewrite P. cbn [m_prepared set_prepared].
  change (prepare (set_prepared false s)) with (prepare s).
  unfold prep_static in H. destruct (prepare s) as [c'|e] eqn:E; cbn [rbind] in H.
  - destruct H as (c & -> & Hc). unfold vc_put in Hc. destruct c as [q1 q2 q3 q4 q5 q6 q7], c' as [p1 p2 p3 p4 p5 p6 p7]. cbn in Hc.
    injection Hc as -> -> -> -> -> ->.
    cbn [m_topo m_maxit m_sdiff m_extra m_oob set_prepared set_cache vc_functions vc_matrix vc_args vc_mem vc_norm vc_avoid vc_state].
    destruct p3; [split; [reflexivity|right; reflexivity]|].
    destruct (m_topo s) as [|cn t]; [congruence|].
    match goal with |- context [vectorized_run ?a ?b ?c ?d ?e ?f ?g ?h ?i ?j] =>
      destruct (vectorized_run a b c d e f g h i j) as [[[buf oob] k]|e'] end; [|split; [reflexivity|right; reflexivity]].
    cbn [m_topo m_maxit m_exec set_prepared set_cache set_oob].
    destruct (Nat.eqb _ 0); (split; [reflexivity|right; reflexivity]).
  - rewrite H. cbn. split; [reflexivity|]. left. eauto.
Qed.
Lemma run_current r s : reachable s -> m_topo s <> [] -> m_debug s = false ->
  visible (fst (run_inference r s)) = visible (fst (run_inference r (set_prepared false s))) /\
  (snd (run_inference r s) = Ok tt <-> snd (run_inference r (set_prepared false s)) = Ok tt).
Proof.
  intros Hr Ht D. pose proof (reachable_fresh s Hr) as Hf. unfold run_inference.
  assert (E : (if r then reset_execution (set_prepared false s) else (set_prepared false s, Ok tt)) =
    (set_prepared false (fst (if r then reset_execution s else (s, Ok tt))), snd (if r then reset_execution s else (s, Ok tt)))).
  { destruct r; [|reflexivity]. change (set_prepared false s) with (recache false (m_cache s) s). rewrite reset_recache.
    unfold lift. f_equal. pose proof (reset_frame s) as (_ & _ & _ & _ & C & _). unfold set_prepared, recache. now rewrite C. }
  rewrite E. assert (Fr : frame s (fst (if r then reset_execution s else (s, Ok tt)))) by (destruct r; [apply reset_frame|apply frame_refl]).
  destruct (if r then reset_execution s else (s, Ok tt)) as [s1 [u|e]]; cbn [fst snd] in *; [|split; [reflexivity|tauto]].
  assert (D1 : m_debug s1 = false). { destruct Fr as (_ & _ & S & _). apply settings_max in S. rewrite <- D. apply S. }
  change (m_debug (set_prepared false s1)) with (m_debug s1). rewrite D1.
  assert (Ht1 : m_topo s1 <> []).
  { destruct Fr as (S & _). apply statics_keys in S. intros G. rewrite G in S. now destruct (m_topo s). }
  destruct (vectorized_current s1 (fresh_frame _ _ Fr Hf) Ht1) as [V R].
  destruct (vectorized_inference s1) as [s2 r2], (vectorized_inference (set_prepared false s1)) as [s2' r2']. cbn [fst snd] in *.
  apply visible_eq in V as (p & k & ->).
  destruct r2 as [u2|e2], r2' as [u2'|e2']; cbn.
  - change (dkeys (m_topo (recache p k s2))) with (dkeys (m_topo s2)). rewrite finalize_recache. unfold lift. cbn [fst snd]. split; [reflexivity|tauto].
  - destruct R as [(e & e' & R & _)|R]; discriminate.
  - destruct R as [(e & e' & _ & R)|R]; discriminate.
  - split; [reflexivity|]. split; discriminate.
Qed.
End Stale.
