(** FcmRun.v — run_inference as a whole on maps a user can build. *)
From Verif Require Import Base BaseFacts Num Functions Fcm FcmSpec FcmInv FcmInv2 FcmInv3 FcmIter.

Section Run.
Context {F : Type} {N : Num F}.
Implicit Types s : fcm F.

(** ** Facts about maps built by the API *)
Lemma from_fresh_reachable P s : from_fresh P s -> reachable s.
Proof. intros (a & b & c & d & e & f & g & h & s0 & ops & H1 & _ & H2). exists a, b, c, d, e, f, g, h, s0, ops. auto. Qed.
Lemma sane_I2 s : sane s -> I2 s.
Proof.
  intros (a & b & c & d & e & f & g & h & s0 & ops & H1 & H2 & ->). apply run_ops_I2; auto. eapply init_I2; eauto.
Qed.
Lemma sane_runs_sane s : sane_runs s -> sane s.
Proof.
  intros (a & b & c & d & e & f & g & h & s0 & ops & H1 & [H2 _] & ->). exists a, b, c, d, e, f, g, h, s0, ops. auto.
Qed.
Lemma inv_extra : Inv (fun s => (1 <= m_extra s)%Z).
Proof.
  intros o s H.
  assert (W : forall s', settings s' = settings s -> (1 <= m_extra s')%Z).
  { intros s' E. destruct (settings_max s s') as (_ & -> & _); auto. }
  destruct o; cbn [step]; try exact H.
  - unfold add_concept. destruct (build_node _ _ _ _ _ _ _ _) as [nd [u|e]]; exact H.
  - unfold set_concept_properties. destruct (dget (m_topo s) name); [|exact H]. destruct (update_node _ _ _ _ _ _ _ _ _); exact H.
  - unfold set_default_concept_properties. destruct (update_default _ _ _ _ _ _ _ _ _); exact H.
  - unfold add_relation. cbn [m_topo set_prepared].
    destruct (dget (m_topo s) destiny); [|exact H]. destruct (dget (m_topo s) origin); [|exact H].
    destruct (dget _ destiny); [|exact H].
    match goal with |- context [match ?m with Ok _ => _ | Err _ => _ end] => destruct m end; exact H.
  - apply W. apply init_concept_frame.
  - unfold set_map_activation_function. destruct (get_function_by_name name); [|exact H].
    apply (mfold_ind (fun s' => (1 <= m_extra s')%Z)); [|exact H].
    intros b s' H'. unfold refresh_func. destruct (dget (m_topo s') b) as [n|]; cbn [fst]; auto.
    destruct (nd_usemap n) as [[|]|]; cbn [fst]; auto.
  - unfold set_map_decision_function. destruct (get_decision_by_name name); exact H.
  - apply W. apply reset_frame.
  - apply W. apply clear_exec_frame.
  - unfold clear_all. pose proof (reset_frame s) as (_ & _ & S & _). apply W in S.
    destruct (reset_execution s) as [s1 [u|e]]; exact S.
  - apply W. apply run_wframe.
Qed.
Lemma reachable_extra s : reachable s -> (1 <= m_extra s)%Z.
Proof.
  intros (a & b & c & d & e & f & g & h & s0 & ops & H1 & ->). apply (run_ops_inv (fun s => (1 <= m_extra s)%Z)); [exact inv_extra|].
  destruct (init_fcm_shape _ _ _ _ _ _ _ _ _ H1) as [-> _]. cbn. destruct (Z.ltb_spec 0 b); lia.
Qed.

(** ** quiet *)
Lemma quiet_put c n s : quiet s -> nd_aux n = [] -> quiet (put_node c n s).
Proof.
  intros Q H c' n' Hn. unfold put_node in Hn. cbn [m_topo set_topo] in Hn. rewrite dget_dset in Hn.
  destruct (String.eqb c' c); [congruence|eauto].
Qed.
Lemma define_func_aux n fa f k d : nd_aux (fst (@define_func F n fa f k d)) = nd_aux n.
Proof.
  unfold define_func. destruct fa as [a|]; [reflexivity|]. destruct f as [f|]; [|reflexivity].
  destruct (get_function_by_name f); reflexivity.
Qed.
Lemma build_node_aux dc t a m e d f k : nd_aux (fst (@build_node F N dc t a m e d f k)) = [].
Proof.
  unfold build_node.
  destruct (match e with Some e => _ | None => _ end) as [ex|x']; [|reflexivity].
  match goal with |- context [match ?m with Ok _ => _ | Err _ => _ end] =>
    match type of m with res (node F * option (args F)) => destruct m as [[n2 fa]|x'] eqn:E end end; [|reflexivity].
  assert (A : nd_aux n2 = []).
  { revert E. destruct (is_fuzzy_type _).
    - destruct d as [ad|].
      + intros H. apply rbind_ok in H as ([[v1 m1] s1] & _ & H). injection H as <- <-. reflexivity.
      + destruct (String.eqb _ _); [|intros [= <- <-]; reflexivity].
        intros H. apply rbind_ok in H as (fz & _ & H). injection H as <- <-. reflexivity.
    - intros [= <- <-]. reflexivity. }
  match goal with |- context [define_func ?n ?fa ?f ?k ?d] => pose proof (define_func_aux n fa f k d) as D;
    destruct (define_func n fa f k d) as [n3 [u|x']] end; cbn [fst] in *; cbn; rewrite D; exact A.
Qed.
Lemma update_node_aux s n t a m e d f k : nd_aux (fst (update_node s n t a m e d f k)) = nd_aux n.
Proof.
  unfold update_node.
  set (n1 := match a with Some b => _ | None => _ end).
  assert (L1 : nd_aux n1 = nd_aux n) by (unfold n1; destruct a; reflexivity).
  clearbody n1.
  match goal with |- context [match ?m with Ok _ => _ | Err _ => _ end] =>
    match type of m with res (node F) => destruct m as [n2|x] eqn:E2 end end; [|exact L1].
  assert (L2 : nd_aux n2 = nd_aux n).
  { destruct e as [e|]; [|injection E2 as <-; exact L1].
    destruct (get_excitation_by_name e); [|discriminate]. injection E2 as <-. exact L1. }
  clear L1 E2.
  match goal with |- context [match ?m with Ok _ => _ | Err _ => _ end] =>
    match type of m with res (node F) => destruct m as [n3|x] eqn:E3 end end; [|exact L2].
  assert (L3 : nd_aux n3 = nd_aux n).
  { destruct t as [t|]; [|injection E3 as <-; exact L2].
    destruct (is_valid_type t); [|discriminate]. injection E3 as <-. exact L2. }
  clear L2 E3.
  match goal with |- context [match ?m with Ok _ => _ | Err _ => _ end] =>
    match type of m with res (node F * option (args F)) => destruct m as [[n4 fa]|x] eqn:E4 end end; [|exact L3].
  assert (L4 : nd_aux n4 = nd_aux n).
  { destruct t as [t|], d as [ad|]; try (injection E4 as <- <-; exact L3).
    destruct (is_fuzzy_type t); [|injection E4 as <- <-; exact L3].
    apply rbind_ok in E4 as ([[v1 m1] s1] & _ & E4). injection E4 as <- <-. exact L3. }
  rewrite define_func_aux. exact L4.
Qed.
Lemma fit_node_aux y (n n' : node F) : fit_node y n = Ok n' -> nd_aux n' = nd_aux n.
Proof.
  intros H. unfold fit_node in H. apply rbind_ok in H as (f & Hf & H).
  apply rbind_ok in H as (l1 & _ & H). apply rbind_ok in H as (l2 & _ & H).
  destruct (if String.eqb f "relm" then _ else _); injection H as <-; reflexivity.
Qed.
Lemma quiet_mfold {A} (f : A -> fcm F -> fcm F * res unit) l s :
  (forall a s', quiet s' -> quiet (fst (f a s'))) -> quiet s -> quiet (fst (mfold f l s)).
Proof. intros Hf Q. apply (mfold_ind quiet); auto. Qed.
Lemma quiet_reset_one c s : quiet s -> quiet (fst (reset_one c s)).
Proof.
  intros Q. unfold reset_one. destruct (dget (m_topo s) c) as [n|]; [|exact Q].
  assert (Q1 : quiet (put_node c (nd_set_aux [] n) s)) by (apply quiet_put; auto).
  unfold put_node at 1. cbn [m_exec set_topo]. destruct (dget (m_exec s) c) as [[|v h]|]; cbn [fst]; try exact Q1.
  apply (quiet_put c (nd_set_value v (nd_set_aux [] n)) (put_node c (nd_set_aux [] n) s)); auto.
Qed.
Lemma quiet_finalize c s : quiet s -> quiet (fst (finalize_one c s)).
Proof.
  intros Q. unfold finalize_one, dget_exn.
  destruct (dget (m_exec s) c) as [h|]; cbn [rbind]; [|exact Q].
  destruct (dget (m_topo s) c) as [n|] eqn:E; cbn [rbind]; [|exact Q].
  destruct (get_decision_by_name (m_decision s)) as [d|]; cbn [rbind]; [|exact Q].
  destruct (exec_decision d h _) as [v|]; cbn [rbind fst]; [|exact Q].
  apply quiet_put; auto. exact (Q _ _ E).
Qed.
Lemma quiet_topo s s' : m_topo s' = m_topo s -> quiet s -> quiet s'.
Proof. unfold quiet. intros ->. auto. Qed.
Lemma vectorized_topo s : m_topo (fst (vectorized_inference s)) = m_topo s.
Proof.
  unfold vectorized_inference.
  assert (G : forall s0 (r : res (vcache F)), m_topo s0 = m_topo s ->
    m_topo (fst (match r with
      | Err e => (s0, Err e)
      | Ok c => match vc_functions c with
        | [] => (s0, Err EType)
        | _ => match vectorized_run (match m_topo s0 with [] => vc_state c | _ => map (fun p => nd_value (snd p)) (m_topo s0) end) (vc_matrix c) (vc_functions c) (vc_args c) (vc_norm c) (vc_mem c) (vc_avoid c) (m_maxit s0) (m_sdiff s0) (m_extra s0) with
          | Err e => (s0, @Err unit e)
          | Ok _ => (s0, Ok tt) end end end)) = m_topo s).
  { intros. destruct r as [c|]; auto. destruct (vc_functions c); auto. destruct (vectorized_run _ _ _ _ _ _ _ _ _ _); auto. }
  clear G.
  match goal with |- m_topo (fst (match ?p with _ => _ end)) = _ =>
    assert (P : m_topo (fst p) = m_topo s) by (destruct (m_prepared s); [|destruct (prepare s)]; reflexivity);
    destruct p as [s1 [c|e]]; cbn [fst] in P |- *; [|exact P] end.
  destruct (vc_functions c) as [|z l]; [exact P|].
  match goal with |- context [vectorized_run ?a ?b ?c ?d ?e ?f ?g ?h ?i ?j] =>
    destruct (vectorized_run a b c d e f g h i j) as [[[buf oob] k]|e'] end; [|exact P].
  cbn [m_maxit set_oob]. destruct (Nat.eqb _ 0); exact P.
Qed.
Lemma quiet_reset_any s : (exists u, snd (reset_execution s) = Ok u) -> NoDup (dkeys (m_topo s)) -> quiet (fst (reset_execution s)).
Proof.
  intros [u Hok] ND. unfold reset_execution in *.
  assert (G : forall l s', (forall c, In c l -> In c (dkeys (m_topo s'))) -> snd (mfold reset_one l s') = Ok u ->
     forall c n, dget (m_topo (fst (mfold reset_one l s'))) c = Some n ->
       (In c l \/ (exists n', dget (m_topo s') c = Some n' /\ nd_aux n' = [])) -> nd_aux n = []).
  { induction l as [|a l IH]; intros s' Hl Ho c n Hn Hc.
    - cbn in Hn. destruct Hc as [[]|(n' & Hn' & A)]. congruence.
    - cbn [mfold] in *. pose proof (reset_one_frame a s') as (S & _).
      destruct (reset_one a s') as [s1 [v|e]] eqn:E1; [|discriminate].
      cbn [fst] in S. unfold reset_one in E1.
      destruct (dget (m_topo s') a) as [na|] eqn:Ea; [|discriminate].
      unfold put_node at 1 in E1. cbn [m_exec set_topo] in E1.
      destruct (dget (m_exec s') a) as [[|x h]|]; try discriminate. injection E1 as <- <-.
      eapply (IH _ _ Ho c n Hn). Unshelve.
      2: { intros c' Hc'. rewrite (statics_keys _ _ S). apply Hl. now right. }
      unfold put_exec, put_node. cbn [m_topo set_exec set_topo].
      destruct (string_dec c a) as [->|Hne].
      + right. rewrite dget_dset_same. eexists; split; reflexivity.
      + rewrite !dget_dset_other by auto. destruct Hc as [[->|Hc]|Hc]; [congruence|now left|now right]. }
  intros c n Hn. apply (G (dkeys (m_topo s)) s (fun c H => H) Hok c n Hn). left.
  pose proof (reset_frame s) as (S & _). apply statics_keys in S. unfold reset_execution in S.
  rewrite <- S. apply dget_Some_In. eauto.
Qed.
Lemma steps_quiet s L s' : runnable s -> steps s L s' -> quiet s'.
Proof. intros R H. apply (steps_runnable s L s' R H). Qed.

(** what a state must satisfy for a run to be analysed *)
Lemma sane_parts s : sane s -> NoDup (dkeys (m_topo s)) /\ full s /\ keys_eq s /\ arcs_in (m_topo s) (m_arcs s) /\ gset s /\ (1 <= m_extra s)%Z.
Proof.
  intros H. pose proof (from_fresh_reachable _ _ H) as R. destruct (sane_I2 s H) as (G & Hf & K).
  split; [now apply reachable_NoDup|]. split; [exact Hf|]. split; [exact K|].
  split; [apply rel_ok_arcs; now apply reachable_rel_ok|]. split; [exact G|now apply reachable_extra].
Qed.
Definition base s := NoDup (dkeys (m_topo s)) /\ full s /\ keys_eq s /\ arcs_in (m_topo s) (m_arcs s).
Lemma base_frame Q s s' : ev Q s s' -> base s -> base s'.
Proof.
  intros E (ND & Hf & K & A). pose proof E as [(S & Ar & _) _]. pose proof (statics_keys _ _ S) as KK.
  split; [now rewrite KK|]. split; [eapply full_ev; eauto|]. split; [eapply keys_eq_ev; eauto|].
  unfold arcs_in. rewrite KK, Ar. exact A.
Qed.
Lemma base_quiet_runnable s : base s -> quiet s -> runnable s.
Proof. intros (ND & Hf & K & A) Q. constructor; auto. Qed.
Lemma runnable_iters k s : runnable s -> runnable (set_iters k s).
Proof. intros [ND Hf K A Q]. constructor; auto. Qed.

(** a reset that does not raise leaves a runnable map *)
Lemma reset_ok_hist s s1 : reset_execution s = (s1, Ok tt) -> base s ->
  hist_ne s /\ s1 = set_exec (dmap hd1 (m_exec s)) (set_topo (dmap (reset_node s) (m_topo s)) s).
Proof.
  intros E (ND & Hf & K & A).
  assert (H : hist_ne s).
  { intros c h Hh ->.
    assert (G : forall l s', In c l -> dget (m_exec s') c = Some [] -> (forall a, In a l -> In a (dkeys (m_topo s'))) ->
       snd (mfold reset_one l s') <> Ok tt).
    { induction l as [|a l IH]; intros s' Hc He Hl; [destruct Hc|]. cbn [mfold].
      destruct (proj2 (dget_Some_In (m_topo s') a) (Hl a (or_introl eq_refl))) as [n Hn].
      pose proof (reset_one_frame a s') as (S & _).
      destruct (reset_one a s') as [s2 [u|e]] eqn:E1; [|discriminate]. cbn [fst] in S.
      unfold reset_one in E1. rewrite Hn in E1. unfold put_node at 1 in E1. cbn [m_exec set_topo] in E1.
      destruct (dget (m_exec s') a) as [[|x hh]|] eqn:Ea; try discriminate. injection E1 as <- <-.
      apply IH.
      - destruct Hc as [->|Hc]; [congruence|exact Hc].
      - unfold put_exec, put_node. cbn [m_exec set_exec set_topo]. rewrite dget_dset_other; [exact He|congruence].
      - intros b Hb. rewrite (statics_keys _ _ S). apply Hl. now right. }
    apply (G (dkeys (m_topo s)) s); auto.
    - rewrite <- K. apply dget_Some_In. eauto.
    - unfold reset_execution in E. now rewrite E. }
  split; auto. rewrite (reset_spec s K H ND) in E. congruence.
Qed.
Lemma reset_runnable s s1 : reset_execution s = (s1, Ok tt) -> base s -> runnable s1.
Proof.
  intros E B. apply base_quiet_runnable.
  - pose proof (reset_ev s) as Ev. rewrite E in Ev. exact (base_frame _ s s1 Ev B).
  - pose proof (quiet_reset_any s) as Q. rewrite E in Q. apply Q; [exists tt; reflexivity|apply B].
Qed.

(** ** A successful iterative run *)
Definition start (r : bool) s (c : string) : list F :=
  match dget (m_exec s) c with
  | Some h => if r then (match h with v :: _ => [v] | [] => [] end) else h
  | None => []
  end.
Definition start_value (r : bool) s (c : string) : option F := if r then initial s c else value s c.

Record run_data (r : bool) s s' (L : nat) (x : nat -> string -> F) : Prop := {
  rd_x0 : forall c, In c (dkeys (m_topo s)) -> start_value r s c = Some (x 0 c);
  rd_orbit : forall t c, t < L -> In c (dkeys (m_topo s)) -> next_fn (m_topo s) (m_arcs s) (x t) c = Ok (x (S t) c);
  rd_hist : forall c, In c (dkeys (m_topo s)) -> dget (m_exec s') c = Some (start r s c ++ traj x L c);
  rd_keys : dkeys (m_exec s') = dkeys (m_topo s) /\ dkeys (m_topo s') = dkeys (m_topo s);
  rd_iters : m_iters s' = (1 + Z.of_nat L)%Z;
  rd_frame : frame s s';
  rd_final : forall c h, In c (dkeys (m_topo s)) -> dget (m_exec s') c = Some h ->
     exists d v, get_decision_by_name (m_decision s) = Some d /\
       exec_decision d h (Z.of_nat (length h) - m_extra s - 1) = Ok v /\ value s' c = Some v;
  rd_quiet : quiet s'
}.
Lemma finalize_all l s s' : NoDup l -> (forall c, In c l -> In c (dkeys (m_topo s))) ->
  mfold finalize_one l s = (s', Ok tt) ->
  m_exec s' = m_exec s /\ m_iters s' = m_iters s /\ frame s s' /\
  (forall c h, In c l -> dget (m_exec s) c = Some h ->
     exists d v, get_decision_by_name (m_decision s) = Some d /\
       exec_decision d h (Z.of_nat (length h) - m_extra s - 1) = Ok v /\ value s' c = Some v) /\
  (forall c, ~ In c l -> dget (m_topo s') c = dget (m_topo s) c).
Proof.
  revert s. induction l as [|a l IH]; intros s ND Hl E.
  - cbn in E. injection E as <-. repeat split; auto. intros c h [].
  - cbn [mfold] in E. pose proof (finalize_frame a s) as Fr.
    destruct (finalize_one a s) as [s1 [u|e]] eqn:E1; [|discriminate]. cbn [fst] in Fr.
    assert (X : exists h n d v, dget (m_exec s) a = Some h /\ dget (m_topo s) a = Some n /\
        get_decision_by_name (m_decision s) = Some d /\ exec_decision d h (Z.of_nat (length h) - m_extra s - 1) = Ok v /\
        s1 = put_node a (nd_set_value v n) s).
    { unfold finalize_one, dget_exn in E1.
      destruct (dget (m_exec s) a) as [h|]; cbn [rbind] in E1; [|discriminate].
      destruct (dget (m_topo s) a) as [n|] eqn:En; cbn [rbind] in E1; [|discriminate].
      destruct (get_decision_by_name (m_decision s)) as [d|] eqn:Ed; cbn [rbind] in E1; [|discriminate].
      destruct (exec_decision d h _) as [v|] eqn:Ev; cbn [rbind] in E1; [|discriminate].
      injection E1 as <- _. exists h, n, d, v. auto. }
    destruct X as (h & n & d & v & X1 & X2 & X3 & X4 & X5).
    inversion ND as [|? ? Hni ND']; subst x l0.
    assert (Hl1 : forall c, In c l -> In c (dkeys (m_topo s1))).
    { intros c Hc. rewrite (statics_keys s s1); [apply Hl; now right|apply Fr]. }
    destruct (IH s1 ND' Hl1 E) as (I1 & I2 & I3 & I4 & I5).
    assert (M : m_exec s1 = m_exec s) by (rewrite X5; reflexivity).
    split; [congruence|]. split; [rewrite I2, X5; reflexivity|]. split; [eapply frame_trans; eauto|]. split.
    + intros c hc [<-|Hc] Hh.
      * rewrite X1 in Hh. injection Hh as <-. exists d, v. split; [exact X3|]. split; [exact X4|].
        unfold value, get_concept_value. rewrite (I5 a Hni). rewrite X5. unfold put_node. cbn [m_topo set_topo].
        rewrite dget_dset_same. reflexivity.
      * rewrite <- M in Hh. destruct (I4 c hc Hc Hh) as (d' & v' & Y1 & Y2 & Y3). exists d', v'.
        rewrite X5 in Y1, Y2. auto.
    + intros c Hc. rewrite I5 by (intros H; apply Hc; now right). rewrite X5. unfold put_node. cbn [m_topo set_topo].
      apply dget_dset_other. intros ->. apply Hc. now left.
Qed.

(** [run_inference] in iterative mode = optional reset, loop, finalisation *)
Lemma run_decompose r s s' : m_debug s = true -> base s -> (r = false -> quiet s) ->
  run_inference r s = (s', Ok tt) ->
  exists s1 s2, runnable s1 /\ (if r then reset_execution s = (s1, Ok tt) else s1 = s) /\
    iterative_inference s1 = (s2, Ok tt) /\ mfold finalize_one (dkeys (m_topo s2)) s2 = (s', Ok tt) /\ frame s s1.
Proof.
  intros D B Q E. unfold run_inference in E.
  destruct (if r then reset_execution s else (s, Ok tt)) as [s1 [u|e]] eqn:E1; [|discriminate]. destruct u.
  assert (Fr : frame s s1).
  { destruct r; [|injection E1 as <-; apply frame_refl]. pose proof (reset_frame s) as H. rewrite E1 in H. exact H. }
  assert (D1 : m_debug s1 = true).
  { destruct Fr as (_ & _ & S & _). apply settings_max in S. rewrite <- D. apply S. }
  rewrite D1 in E. destruct (iterative_inference s1) as [s2 [u|e]] eqn:E2; [|discriminate]. destruct u.
  exists s1, s2. split; [|split; [|split; [exact E2|split; [exact E|exact Fr]]]].
  - destruct r; [now apply (reset_runnable s s1)|]. injection E1 as <-. apply base_quiet_runnable; auto.
  - destruct r; [exact E1|]. now injection E1 as <-.
Qed.
Lemma run_ok r s s' : m_debug s = true -> base s -> (r = false -> quiet s) ->
  run_inference r s = (s', Ok tt) -> exists L x, run_data r s s' L x.
Proof.
  intros D B Q E. destruct (run_decompose r s s' D B Q E) as (s1 & s2 & R1 & E1 & E2 & E3 & Fr1).
  unfold iterative_inference in E2. apply iter_loop_steps in E2 as [L H].
  pose proof (runnable_iters 1 s1 R1) as R1'.
  destruct (steps_orbit _ _ _ R1' H) as (x & X0 & XS & XE & XV & XF & XI).
  cbn [m_topo m_exec m_arcs m_iters set_iters] in X0, XS, XE, XV, XI.
  assert (XF' : frame s1 s2) by (eapply frame_trans; [apply (frame_iters s1 1)|exact XF]).
  assert (R2 : runnable s2) by (eapply steps_runnable; eauto).
  pose proof (statics_keys _ _ (proj1 Fr1)) as K1. pose proof (statics_keys _ _ (proj1 XF')) as K2.
  destruct (finalize_all _ _ _ (rn_nodup _ R2) (fun c H => H) E3) as (F1 & F2 & F3 & F4 & F5).
  assert (FF : frame s s') by (eapply frame_trans; [exact Fr1|]; eapply frame_trans; eauto).
  exists L, x.
  assert (Start : forall c, In c (dkeys (m_topo s)) -> dget (m_exec s1) c = Some (start r s c) /\ start_value r s c = Some (vals (m_topo s1) c)).
  { intros c Hc. destruct r.
    - destruct (reset_ok_hist s s1 E1 B) as [Hne ->]. cbn [m_exec m_topo set_exec set_topo].
      destruct B as (ND & _ & K & _).
      assert (Hc' := Hc). rewrite <- K in Hc'. apply dget_Some_In in Hc' as [h Hh]. apply dget_Some_In in Hc as [n Hn].
      unfold start, start_value, initial, history, vals. rewrite !dget_dmap, Hh, Hn.
      destruct h as [|v h]; [now apply Hne in Hh|]. unfold reset_node. rewrite Hh. split; reflexivity.
    - subst s1. destruct B as (ND & _ & K & _).
      assert (Hc' := Hc). rewrite <- K in Hc'. apply dget_Some_In in Hc' as [h Hh]. apply dget_Some_In in Hc as [n Hn].
      unfold start, start_value, value, get_concept_value, vals. rewrite Hh, Hn. split; reflexivity. }
  constructor.
  - intros c Hc. rewrite X0. now apply Start.
  - intros t c Ht Hc. rewrite <- (XS t c Ht) by now rewrite K1. destruct Fr1 as (S1 & A1 & _). rewrite A1.
    symmetry. apply next_fn_static; auto.
  - intros c Hc. rewrite F1, XE, dget_dmap. destruct (Start c Hc) as [-> _]. reflexivity.
  - split; [rewrite F1; rewrite (rn_keys _ R2); congruence|]. apply statics_keys. apply FF.
  - rewrite F2, XI. lia.
  - exact FF.
  - intros c h Hc Hh. rewrite F1 in Hh.
    destruct (F4 c h) as (d & v & Y1 & Y2 & Y3); [now rewrite K2, K1|exact Hh|].
    exists d, v. destruct Fr1 as (_ & _ & S1 & _). destruct XF' as (_ & _ & S2 & _).
    destruct (settings_max _ _ S1) as (_ & Ex1 & _ & _ & De1 & _). destruct (settings_max _ _ S2) as (_ & Ex2 & _ & _ & De2 & _).
    rewrite De2, De1 in Y1. rewrite Ex2, Ex1 in Y2. auto.
  - pose proof (quiet_mfold finalize_one (dkeys (m_topo s2)) s2 quiet_finalize (rn_quiet _ R2)) as QQ. rewrite E3 in QQ. exact QQ.
Qed.

(** quiet is kept by every call that is not a raising iterative run *)
Lemma step_quiet o s : base s -> quiet s -> (is_run o = true -> snd (step o s) = Ok tt) -> quiet (fst (step o s)).
Proof.
  intros B Q Hok. destruct o; cbn [step] in *; try exact Q.
  - unfold add_concept. pose proof (build_node_aux (m_default (set_prepared false s)) ctype is_active use_memory excitation d fname kwargs) as A.
    destruct (build_node _ _ _ _ _ _ _ _) as [nd [u|e]]; cbn [fst] in *; apply (quiet_put name nd s Q A).
  - unfold set_concept_properties. destruct (dget (m_topo s) name) as [n|] eqn:E; [|exact Q].
    pose proof (update_node_aux (set_prepared false s) n ctype is_active use_memory excitation d fname kwargs) as U.
    destruct (update_node _ _ _ _ _ _ _ _ _) as [n' r]. cbn [fst] in *.
    apply (quiet_put name n' s Q). rewrite U. exact (Q _ _ E).
  - unfold set_default_concept_properties. destruct (update_default _ _ _ _ _ _ _ _ _); exact Q.
  - destruct (dget (m_topo s) origin) as [na|] eqn:Ea.
    2: { rewrite add_relation_unknown; [exact Q|]. left. now apply dget_None. }
    destruct (dget (m_topo s) destiny) as [nb|] eqn:Eb.
    2: { rewrite add_relation_unknown; [exact Q|]. right. now apply dget_None. }
    unfold add_relation. cbn [m_topo set_prepared]. rewrite Ea, Eb.
    set (na' := nd_set_arcs _ na). set (s1 := put_node origin na' _).
    assert (Q1 : quiet s1) by (apply (quiet_put origin na' s Q); exact (Q _ _ Ea)).
    destruct (dget (m_topo s1) destiny) as [nd|] eqn:Ed; [|exact Q1].
    set (nd' := nd_set_sum _ nd).
    assert (Q2 : quiet (put_node destiny nd' s1)) by (apply quiet_put; auto; exact (Q1 _ _ Ed)).
    destruct (m_fit (put_node destiny nd' s1)) as [y|].
    + destruct (fit_node y nd') as [nd2|e] eqn:Ef; cbn [fst]; [|exact Q2].
      apply (quiet_put destiny nd2 _ Q2). rewrite (fit_node_aux _ _ _ Ef). exact (Q1 _ _ Ed).
    + cbn [fst]. apply (quiet_put destiny nd' _ Q2). exact (Q1 _ _ Ed).
  - unfold init_concept. destruct (dget (m_topo s) name) as [n|]; [|destruct required; exact Q].
    match goal with |- context [match ?m with _ => _ end] => destruct m end; [|exact Q].
    cbn [fst]. apply (quiet_put name); [exact Q|reflexivity].
  - unfold set_map_activation_function. destruct (get_function_by_name name); [|exact Q].
    apply quiet_mfold; [|exact Q]. intros c s' Q'. unfold refresh_func.
    destruct (dget (m_topo s') c) as [n|] eqn:E; [|exact Q']. destruct (nd_usemap n) as [[|]|]; try exact Q'.
    cbn [fst]. apply quiet_put; auto. exact (Q' _ _ E).
  - unfold set_map_decision_function. destruct (get_decision_by_name name); exact Q.
  - apply quiet_mfold; auto. apply quiet_reset_one.
  - apply quiet_mfold; auto. intros c s' Q'. unfold clear_one. destruct (dget (m_topo s') c) as [n|]; [|exact Q'].
    cbn [fst]. apply (quiet_put c); [exact Q'|reflexivity].
  - unfold clear_all. assert (Q1 : quiet (fst (reset_execution s))) by (apply quiet_mfold; auto; apply quiet_reset_one).
    destruct (reset_execution s) as [s1 [u|e]]; cbn [fst] in *; [|exact Q1]. intros c n Hn. discriminate.
  - specialize (Hok eq_refl). destruct (m_debug s) eqn:D.
    + destruct (run_inference reset s) as [s' r] eqn:E. cbn in Hok. subst r.
      destruct (run_ok reset s s' D B (fun _ => Q) E) as (L & x & RD). apply RD.
    + unfold run_inference.
      assert (Q1 : quiet (fst (if reset then reset_execution s else (s, Ok tt)))).
      { destruct reset; [apply quiet_mfold; auto; apply quiet_reset_one|exact Q]. }
      assert (D1 : m_debug (fst (if reset then reset_execution s else (s, Ok tt))) = false).
      { destruct reset; [|exact D]. destruct (reset_frame s) as (_ & _ & S & _). apply settings_max in S. rewrite <- D. apply S. }
      destruct (if reset then reset_execution s else (s, Ok tt)) as [s1 [u|e]]; cbn [fst] in *; [|exact Q1].
      rewrite D1. pose proof (quiet_topo _ _ (vectorized_topo s1) Q1) as Q2.
      destruct (vectorized_inference s1) as [s2 [u2|e2]]; cbn [fst] in *; [|exact Q2].
      apply quiet_mfold; auto. apply quiet_finalize.
Qed.
Lemma sane_base s : sane s -> base s.
Proof. intros H. destruct (sane_parts s H) as (A & B & C & D & _). exact (conj A (conj B (conj C D))). Qed.
Lemma ok_when_app P l1 l2 s : ok_when P (l1 ++ l2) s <-> ok_when P l1 s /\ ok_when P l2 (@run_ops F N l1 s).
Proof.
  revert s. induction l1 as [|o l1 IH]; intros s; cbn [app ok_when run_ops fold_left]; [tauto|].
  rewrite IH. unfold run_ops. tauto.
Qed.
Lemma sane_runs_quiet s : sane_runs s -> quiet s.
Proof.
  intros (a & b & c & d & e & f & g & h & s0 & ops & H1 & [H2 H3] & ->).
  assert (S0 : sane s0) by (exists a, b, c, d, e, f, g, h, s0, []; repeat split; auto).
  assert (Q0 : quiet s0) by (destruct (init_fcm_shape _ _ _ _ _ _ _ _ _ H1) as [-> _]; intros x n Hn; discriminate).
  induction ops as [|o ops IH] using rev_ind; [exact Q0|].
  apply ok_when_app in H2 as [H2 H2']. apply ok_when_app in H3 as [H3 H3'].
  unfold run_ops. rewrite fold_left_app. cbn. apply step_quiet.
  - apply sane_base. exists a, b, c, d, e, f, g, h, s0, ops. auto.
  - apply IH; auto.
  - apply H3'.
Qed.

(** ** C23 *)
Lemma iterative_passes s : (1 <= m_extra s)%Z ->
  (m_iters (fst (iterative_inference s)) <= 1 + (Z.max (m_maxit s - 1) 0 + (m_extra s - 1)))%Z.
Proof.
  intros HE. unfold iterative_inference.
  pose proof (iter_loop_bound (Z.to_nat (Z.max (m_maxit (set_iters 1%Z s)) 0 + m_extra (set_iters 1%Z s)))
    (m_extra (set_iters 1%Z s) - 1) (set_iters 1%Z s)) as B.
  cbn [m_extra m_maxit m_iters set_iters] in *. specialize (B ltac:(lia) HE). unfold budget in B.
  destruct (Z.ltb_spec 1 (m_maxit s)), (Z.ltb_spec 0 (m_extra s - 1)); lia.
Qed.
Lemma iterative_fuel s fuel : (1 <= m_extra s)%Z -> (Z.to_nat (Z.max (m_maxit s) 0 + m_extra s) <= fuel) ->
  iter_loop fuel (m_extra s - 1) (set_iters 1%Z s) = iterative_inference s.
Proof.
  intros HE Hf. unfold iterative_inference. cbn [m_extra m_maxit set_iters].
  apply iter_loop_fuel; cbn [m_extra m_maxit m_iters set_iters]; try lia; unfold budget;
    destruct (Z.ltb_spec 1 (m_maxit s)), (Z.ltb_spec 0 (m_extra s - 1)); lia.
Qed.
Lemma run_length r s s' L x : run_data r s s' L x -> m_debug s = true -> (1 <= m_extra s)%Z -> base s -> (r = false -> quiet s) ->
  run_inference r s = (s', Ok tt) ->
  (Z.of_nat L <= Z.max (m_maxit s - 1) 0 + (m_extra s - 1))%Z /\
  (m_extra s = 1%Z -> L = 0) /\
  (m_stab s = false -> (2 <= m_extra s)%Z -> Z.of_nat L = (Z.max (m_maxit s - 1) 0 + (m_extra s - 1))%Z).
Proof.
  intros RD D HE B Q E. destruct (run_decompose r s s' D B Q E) as (s1 & s2 & R1 & E1 & E2 & E3 & Fr1).
  destruct Fr1 as (_ & _ & S1 & _). apply settings_max in S1 as (M1 & M2 & M3 & M4 & _).
  assert (I2 : m_iters s' = m_iters s2).
  { assert (R2 : runnable s2).
    { unfold iterative_inference in E2. apply iter_loop_steps in E2 as [L' H]. eapply steps_runnable; [|exact H]. now apply runnable_iters. }
    destruct (finalize_all _ _ _ (rn_nodup _ R2) (fun c H => H) E3) as (_ & F2 & _). exact F2. }
  pose proof (rd_iters _ _ _ _ _ RD) as IL.
  pose proof (iterative_passes s1) as P. rewrite E2 in P. cbn [fst] in P. rewrite M1, M2 in P. specialize (P HE).
  split; [lia|]. split.
  - intros E1'. unfold iterative_inference in E2. cbn [m_extra set_iters] in E2. rewrite M2, E1' in E2.
    assert (s2 = set_iters 1%Z s1) as ->.
    { destruct (Z.to_nat _); cbn in E2; congruence. }
    cbn in I2. lia.
  - intros St HE2. unfold iterative_inference in E2. cbn [m_extra m_maxit set_iters] in E2.
    apply iter_loop_exact in E2; cbn [m_stab m_extra m_maxit m_iters set_iters] in *; try lia; try congruence.
    rewrite M1, M2 in E2. unfold budget in E2.
    destruct (Z.ltb_spec 1 (m_maxit s)), (Z.ltb_spec 0 (m_extra s - 1)); lia.
Qed.
(** ** C24 *)
Lemma run_early r s s' L x : run_data r s s' L x -> m_debug s = true -> (1 <= m_extra s)%Z -> base s -> (r = false -> quiet s) ->
  run_inference r s = (s', Ok tt) -> (Z.of_nat L < m_maxit s)%Z ->
  forall c h k, dget (m_exec s') c = Some h -> (Z.of_nat k < m_extra s - 1)%Z ->
    exists h0 b a t, h = h0 ++ [b; a] ++ t /\ length t = S k /\ nltb (m_sdiff s) (nabs (nsub a b)) = false.
Proof.
  intros RD D HE B Q E HL. destruct (run_decompose r s s' D B Q E) as (s1 & s2 & R1 & E1 & E2 & E3 & Fr1).
  destruct Fr1 as (_ & _ & S1 & _). apply settings_max in S1 as (M1 & M2 & M3 & M4 & _).
  assert (R2 : runnable s2).
  { unfold iterative_inference in E2. apply iter_loop_steps in E2 as [L' H]. eapply steps_runnable; [|exact H]. now apply runnable_iters. }
  destruct (finalize_all _ _ _ (rn_nodup _ R2) (fun c H => H) E3) as (F1 & F2 & _).
  pose proof (rd_iters _ _ _ _ _ RD) as IL.
  unfold iterative_inference in E2.
  pose proof (fun fuel e s3 => iter_loop_stable fuel e _ s3 0 (runnable_iters 1 s1 R1)) as ST. cbn [m_extra m_maxit m_sdiff m_iters m_exec set_iters] in ST.
  specialize (ST (Z.to_nat (Z.max (m_maxit s1) 0 + m_extra s1)) (m_extra s1 - 1)%Z s2 ltac:(lia) ltac:(lia)).
  specialize (ST ltac:(intros c h k _ Hk; lia) E2 ltac:(left; lia)).
  rewrite M2, M4 in ST. intros c h k Hh Hk. rewrite F1 in Hh. apply (ST c h k Hh). lia.
Qed.

(** ** C26 *)
Lemma fcm_ext s s' : m_topo s = m_topo s' -> m_exec s = m_exec s' -> m_iters s = m_iters s' ->
  m_arcs s = m_arcs s' -> settings s = settings s' -> m_prepared s = m_prepared s' -> m_cache s = m_cache s' ->
  m_oob s = m_oob s' -> s = s'.
Proof.
  destruct s, s'. unfold settings. cbn. intros. subst.
  match goal with H : (_, _) = _ |- _ => injection H end. intros. subst. reflexivity.
Qed.
Lemma rerun s s' : m_debug s = true -> base s -> run_inference true s = (s', Ok tt) ->
  run_inference true s' = (s', Ok tt).
Proof.
  intros D B E. destruct (run_ok true s s' D B ltac:(discriminate) E) as (L & x & RD).
  destruct (run_decompose true s s' D B ltac:(discriminate) E) as (s1 & s2 & R1 & E1 & E2 & E3 & Fr1).
  destruct (reset_ok_hist s s1 E1 B) as [Hne Es1].
  pose proof (rd_frame _ _ _ _ _ RD) as Fr. destruct (rd_keys _ _ _ _ _ RD) as [Ke Kt].
  assert (B' : base s').
  { destruct B as (ND & Hf & K & A). split; [now rewrite Kt|]. split; [eapply full_ev; [apply Fr|exact Hf]|].
    split; [unfold keys_eq; congruence|]. unfold arcs_in. rewrite Kt. destruct Fr as (_ & -> & _). exact A. }
  assert (Hst : forall c, In c (dkeys (m_topo s)) -> exists v h, dget (m_exec s) c = Some (v :: h) /\ dget (m_exec s') c = Some (v :: traj x L c)).
  { intros c Hc. pose proof (rd_hist _ _ _ _ _ RD c Hc) as Hh. unfold start in Hh.
    destruct B as (_ & _ & K & _). assert (Hc' := Hc). rewrite <- K in Hc'. apply dget_Some_In in Hc' as [h Hh'].
    rewrite Hh' in Hh. destruct h as [|v h]; [now apply Hne in Hh'|]. exists v, h. auto. }
  assert (Hne' : hist_ne s').
  { intros c h Hh ->. assert (Hc : In c (dkeys (m_exec s'))) by (apply dget_Some_In; eauto). rewrite Ke in Hc.
    destruct (Hst c Hc) as (v & h & _ & E4). congruence. }
  destruct B' as (ND' & Hf' & K' & A').
  pose proof (reset_spec s' K' Hne' ND') as E1'.
  set (s1' := set_exec (dmap hd1 (m_exec s')) (set_topo (dmap (reset_node s') (m_topo s')) s')) in *.
  assert (EQ : set_iters 1%Z s1' = set_iters 1%Z s1).
  { pose proof Fr as (F1 & F2 & F3 & F4 & F5 & F6). destruct B as (ND & _ & K & _).
    apply fcm_ext; try (rewrite Es1; unfold s1'; assumption); try reflexivity.
    - rewrite Es1. unfold s1'. cbn [m_topo set_iters set_exec set_topo]. apply dict_ext.
      + now rewrite dkeys_dmap.
      + now rewrite !dkeys_dmap.
      + intros c. rewrite !dget_dmap. destruct (dget (m_topo s) c) as [n|] eqn:En.
        * destruct (statics_dget _ _ _ _ F1 En) as (n' & -> & En'). f_equal. unfold reset_node.
          destruct (Hst c) as (v & h & -> & ->); [apply dget_Some_In; eauto|].
          change (nd_set_value v (nd_set_aux [] n')) with (nd_set_value v (nd_static n')). rewrite En'. reflexivity.
        * apply dget_None in En. rewrite <- Kt in En. apply dget_None in En. now rewrite En.
    - rewrite Es1. unfold s1'. cbn [m_exec set_iters set_exec set_topo]. apply dict_ext.
      + rewrite dkeys_dmap, Ke. exact ND.
      + rewrite !dkeys_dmap, Ke. now rewrite K.
      + intros c. rewrite !dget_dmap. destruct (in_dec string_dec c (dkeys (m_topo s))) as [i|i].
        * destruct (Hst c i) as (v & h & -> & ->). reflexivity.
        * assert (i' := i). rewrite <- K in i. rewrite <- Ke in i'. apply dget_None in i, i'. now rewrite i, i'. }
  assert (E2' : iterative_inference s1' = (s2, Ok tt)).
  { rewrite <- E2. unfold iterative_inference. rewrite EQ. reflexivity. }
  unfold run_inference. rewrite E1'.
  assert (D1 : m_debug s1' = true).
  { destruct Fr as (_ & _ & S & _). apply settings_max in S. unfold s1'. cbn [m_debug set_exec set_topo]. rewrite <- D. apply S. }
  rewrite D1, E2'. exact E3.
Qed.
End Run.
