(** FcmOrder.v — order of relations and concepts is irrelevant in exact
    arithmetic (C28); values stay in range (C27). *)
From Coq Require Import Reals Lra.
From Verif Require Import Base BaseFacts Num Functions Spec SortFacts RealFacts FunctionsFacts Fcm FcmSpec FcmInv FcmInv2 FcmInv3 FcmIter FcmRun FcmRun2.

(** ** C27 *)
Section Range.
Local Open Scope R_scope.
Variables lo hi : R.
Let P (x : R) : Prop := lo <= x <= hi.

Lemma max_list_in (l : list R) m : max_list l = Ok m -> In m l.
Proof.
  intros H. assert (l <> []) by (destruct l; discriminate). destruct (max_list_spec l) as (m' & E & I & _); auto.
  rewrite E in H. injection H as <-. exact I.
Qed.
Lemma firstn_Forall {A} (Q : A -> Prop) n (l : list A) : Forall Q l -> Forall Q (firstn n l).
Proof. intros H. rewrite <- (firstn_skipn n l) in H. now apply Forall_app in H. Qed.
Lemma decision_range d h p v : Forall P h -> exec_decision d h p = Ok v -> P v.
Proof.
  intros H E. destruct d; cbn [exec_decision] in E.
  - unfold decision_last in E. destruct (0 <? p)%Z.
    + unfold zget in E. destruct (p <? 0)%Z; [discriminate|]. apply lget_inv in E. apply nth_error_In in E.
      rewrite Forall_forall in H. now apply H.
    + destruct (rev h) as [|x t] eqn:Er; [discriminate|]. injection E as <-. rewrite Forall_forall in H. apply H.
      apply in_rev. rewrite Er. now left.
  - unfold decision_mean in E. set (q := if (p <=? 0)%Z then _ else _) in E.
    apply rbind_ok in E as (xs & Ex & E). unfold pdiv in E.
    destruct (neqb (nofZ (q + 1)) n0) eqn:Ez; [discriminate|]. injection E as <-.
    pose proof (rmap_ok_length _ _ _ Ex) as Lx. rewrite seq_length in Lx.
    assert (Hx : Forall P xs).
    { apply rmap_ok_Forall2 in Ex. clear - Ex H. induction Ex as [|i x l xs E _ IH]; constructor; auto.
      apply lget_inv, nth_error_In in E. rewrite Forall_forall in H. now apply H. }
    assert (Hq : (0 < q + 1)%Z).
    { destruct (Z.lt_trichotomy 0 (q + 1)) as [Hp|[Hp|Hp]]; auto; exfalso.
      - rewrite <- Hp in Ez. unfold n0 in Ez. cbn in Ez. apply Reqb_false in Ez. congruence.
      - unfold q in Hp. destruct (Z.leb_spec p 0); lia. }
    cbn. rewrite nsum_Rsum. pose proof (Rsum_bounds lo hi xs Hx) as [B1 B2].
    assert (IL : IZR (q + 1) = INR (length xs)) by (rewrite Lx, INR_IZR_INZ, Z2Nat.id by lia; reflexivity).
    rewrite IL. assert (0 < INR (length xs)) by (rewrite <- IL; apply IZR_lt; lia).
    unfold P. split.
    + apply Rmult_le_reg_r with (INR (length xs)); auto. unfold Rdiv. rewrite Rmult_assoc, Rinv_l by lra. lra.
    + apply Rmult_le_reg_r with (INR (length xs)); auto. unfold Rdiv. rewrite Rmult_assoc, Rinv_l by lra. lra.
  - unfold decision_exited in E. destruct (0 <=? p)%Z; apply max_list_in in E.
    + pose proof (firstn_Forall P (Z.to_nat p) h H) as H'. rewrite Forall_forall in H'. now apply H'.
    + rewrite Forall_forall in H. now apply H.
Qed.
Lemma run_range r s s' : sane s -> m_debug s = true -> (r = false -> sane_runs s) ->
  run_inference r s = (s', Ok tt) ->
  (forall c n f fn a v y, dget (m_topo s) c = Some n -> nd_func n = Some f -> get_function_by_name f = Some fn ->
    nd_args n = Some a -> call_actv fn v a = Ok y -> lo <= y <= hi) ->
  (forall c h, In c (concepts s) -> history s c = Some h -> Forall (fun x => lo <= x <= hi) (if r then firstn 1 h else h)) ->
  forall c, In c (concepts s) ->
    (forall h, history s' c = Some h -> Forall (fun x => lo <= x <= hi) h) /\
    (forall v, value s' c = Some v -> lo <= v <= hi).
Proof.
  intros Hs D Q E HO H0 c Hc.
  pose proof (run_values P r s s' Hs D Q E HO H0 c) as RV. split.
  - intros h Hh. apply (RV h Hc Hh).
  - intros v Hv. pose proof (sane_base s Hs) as B.
    assert (Q' : r = false -> quiet s) by (intros H; apply sane_runs_quiet; auto).
    destruct (run_ok r s s' D B Q' E) as (L & x & RD). pose proof (rd_hist _ _ _ _ _ RD c Hc) as Hi.
    destruct (RV _ Hc Hi) as (Hf & d & v' & _ & E1 & E2). rewrite E2 in Hv. injection Hv as <-.
    eapply decision_range; eauto.
Qed.
End Range.

(** ranges of the named functions *)
Local Open Scope R_scope.
Definition unit_function (f : string) (a : args R) : Prop :=
  f = "biestate" \/ f = "threestate" \/ f = "saturation" \/ f = "sigmoid" \/
  (f = "relm" /\ forall l, dget a "lambda_val" = Some (AScal l) -> 0 < l).
Definition bipolar_function (f : string) (a : args R) : Prop :=
  unit_function f a \/ f = "sigmoid_hip" \/ f = "tan_hip" \/ f = "gceq" \/ f = "lceq" \/
  (f = "fuzzy" /\ forall m v, dget a "membership" = Some (AVec m) -> dget a "val_list" = Some (AVec v) ->
     increasing_list v /\ (2 <= length v)%nat /\ length m = length v /\ in01 m).
Lemma kw_scal_inv (a : args R) k d l : kw_scal a k d = Ok l -> (dget a k = None /\ l = d) \/ dget a k = Some (AScal l).
Proof. unfold kw_scal. destruct (dget a k) as [[x|x|x]|]; intros [= <-]; auto. Qed.
Lemma Ok_inj {A} (a b : A) : Ok a = Ok b -> a = b.
Proof. congruence. Qed.
Lemma unit_range f a fn v y : unit_function f a -> get_function_by_name f = Some fn -> call_actv fn v a = Ok y -> 0 <= y <= 1.
Proof.
  intros [->|[->|[->|[->|[-> Hl]]]]] [= <-]; cbn [call_actv]; intros E; apply rbind_ok in E as (u & _ & E).
  - apply Ok_inj in E; subst y. pose proof (bistate_spec v) as [H1 H2]. destruct (Rlt_le_dec 0 v) as [H|H];
      [apply H1 in H; lra|apply H2 in H; lra].
  - apply Ok_inj in E; subst y. unfold threestate. rnum. rcase; lra.
  - apply Ok_inj in E; subst y. rewrite saturation_clamp. apply clamp_range. lra.
  - apply rbind_ok in E as (l & _ & E). apply Ok_inj in E; subst y. pose proof (sigmoid_range v l). lra.
  - apply rbind_ok in E as (l & El & E).
    assert (0 < l). { apply kw_scal_inv in El as [[_ ->]|El]; [cbn; lra|auto]. }
    rewrite relm_pos in E by auto. apply Ok_inj in E; subst y. apply clamp_range. lra.
Qed.
Lemma bipolar_range f a fn v y : bipolar_function f a -> get_function_by_name f = Some fn -> call_actv fn v a = Ok y -> -1 <= y <= 1.
Proof.
  intros [Hu|[->|[->|[->|[->|[-> Hf]]]]]] Hg; [intros E; pose proof (unit_range f a fn v y Hu Hg E); lra| | | | |];
    injection Hg as <-; cbn [call_actv]; intros E; apply rbind_ok in E as (u & _ & E); apply rbind_ok in E as (l & El & E).
  - apply Ok_inj in E; subst y. pose proof (sigmoid_hip_range v l). lra.
  - apply Ok_inj in E; subst y. pose proof (sigmoid_hip_range v l). lra.
  - apply Ok_inj in E; subst y. apply cond_eq_range.
  - apply Ok_inj in E; subst y. apply cond_eq_range.
  - apply rbind_ok in E as (vl & Ev & E). unfold kw_vec in El, Ev.
    destruct (dget a "membership") as [[x|m|x]|] eqn:Em; try discriminate. injection El as ->.
    destruct (dget a "val_list") as [[x|vv|x]|] eqn:Ew; try discriminate. injection Ev as ->.
    destruct (Hf l vl eq_refl eq_refl) as (H1 & H2 & H3 & H4).
    destruct (fuzzy_range v l vl H1 H2 H3 H4) as (r & Er & Hr). rewrite E in Er. injection Er as ->. exact Hr.
Qed.
Local Close Scope R_scope.

(** ** C28 *)
Lemma Some_inj {A} (a b : A) : Some a = Some b -> a = b.
Proof. congruence. Qed.
Definition strip (n : node R) : node R := nd_set_arcs [] (nd_set_aux [] n).
(** same map up to the order of concepts and relations *)
Record sim (s t : fcm R) : Prop := {
  sm_set : settings t = settings s;
  sm_it : m_iters t = m_iters s;
  sm_arcs : Permutation (m_arcs s) (m_arcs t);
  sm_topo : forall c, option_map strip (dget (m_topo t) c) = option_map strip (dget (m_topo s) c);
  sm_exec : forall c, dget (m_exec t) c = dget (m_exec s) c
}.
Lemma strip_fields n n' : strip n = strip n' ->
  nd_value n = nd_value n' /\ nd_sum n = nd_sum n' /\ nd_active n = nd_active n' /\ nd_exec n = nd_exec n' /\
  nd_mem n = nd_mem n' /\ nd_func n = nd_func n' /\ nd_args n = nd_args n'.
Proof. destruct n, n'. cbn. intros H. injection H. intros. subst. repeat split. Qed.
Lemma sim_sym s t : sim s t -> sim t s.
Proof. intros [A B C D E]. constructor; auto. now apply Permutation_sym. Qed.
Lemma sim_trans s t u : sim s t -> sim t u -> sim s u.
Proof. intros [A B C D E] [A' B' C' D' E']. constructor; try congruence. now apply Permutation_trans with (m_arcs t). Qed.
Lemma sim_node s t c n : sim s t -> dget (m_topo s) c = Some n -> exists n', dget (m_topo t) c = Some n' /\ strip n' = strip n.
Proof.
  intros S H. pose proof (sm_topo _ _ S c) as E. rewrite H in E. destruct (dget (m_topo t) c) as [n'|]; [|discriminate].
  cbn [option_map] in E. apply Some_inj in E. eauto.
Qed.
Lemma sim_keys s t c : sim s t -> (In c (dkeys (m_topo s)) <-> In c (dkeys (m_topo t))).
Proof.
  intros S. rewrite <- !dget_Some_In. split; intros [n H].
  - destruct (sim_node s t c n S H) as (n' & H' & _). eauto.
  - destruct (sim_node t s c n (sim_sym _ _ S) H) as (n' & H' & _). eauto.
Qed.
Lemma incoming_perm (t : dict (node R)) arcs arcs' x c : Permutation arcs arcs' ->
  Permutation (incoming t arcs x c) (incoming t arcs' x c).
Proof.
  induction 1 as [|[[d w] o] l l' _ IH|[[d w] o] [[d' w'] o'] l|l1 l2 l3 _ IH1 _ IH2]; cbn [incoming].
  - constructor.
  - destruct (dget t o) as [n|]; auto. destruct (_ && _); auto.
  - destruct (dget t o) as [n|], (dget t o') as [n'|]; auto. destruct (String.eqb d c && _), (String.eqb d' c && _); auto using perm_swap.
  - eapply Permutation_trans; eauto.
Qed.
Lemma upd_fn_perm (n n' : node R) l l' : strip n = strip n' -> Permutation l l' -> upd_fn n l = upd_fn n' l'.
Proof.
  intros E P. destruct (strip_fields _ _ E) as (E1 & E2 & E3 & E4 & E5 & E6 & E7).
  assert (S : nsum l = nsum l') by (rewrite !nsum_Rsum; now apply Rsum_Permutation).
  assert (X : forall e v m, exec_excit e l v m = exec_excit e l' v m).
  { intros [|] v m; cbn; unfold kosko, papageorgius; now rewrite S. }
  unfold upd_fn. rewrite E1, E2, E4, E5, E6, E7.
  destruct (oget (nd_exec n') "custom execution function"); cbn [rbind]; auto.
  destruct (oget (nd_mem n') _); cbn [rbind]; auto.
  destruct (get_excitation_by_name a); cbn [rbind]; auto. now rewrite X.
Qed.
Lemma next_fn_sim s t x x' c : sim s t -> arcs_in (m_topo s) (m_arcs s) -> (forall o, In o (dkeys (m_topo s)) -> x o = x' o) ->
  In c (dkeys (m_topo s)) ->
  next_fn (m_topo s) (m_arcs s) x c = next_fn (m_topo t) (m_arcs t) x' c.
Proof.
  intros S A Hx Hc. unfold next_fn. apply dget_Some_In in Hc as [n Hn]. rewrite Hn.
  destruct (sim_node s t c n S Hn) as (n' & Hn' & E). rewrite Hn'.
  apply upd_fn_perm.
  - rewrite (Hx c) by (apply dget_Some_In; eauto). symmetry in E. clear - E. destruct n, n'. unfold strip in *. cbn in *.
    injection E. intros. subst. reflexivity.
  - replace (incoming (m_topo t) (m_arcs t) x' c) with (incoming (m_topo s) (m_arcs t) x c).
    + apply incoming_perm, S.
    + apply incoming_ext.
      * intros o _. pose proof (sm_topo _ _ S o) as T. destruct (dget (m_topo s) o) as [no|], (dget (m_topo t) o) as [no'|]; try discriminate; auto.
        cbn [option_map] in T. apply Some_inj in T. apply strip_fields in T as (_ & _ & T3 & T4 & _). auto.
      * intros o Ho. apply in_map_iff in Ho as ([[d w] o'] & E' & Hin). cbn in E'. subst o'. apply Hx.
        apply (Permutation_in _ (Permutation_sym (sm_arcs _ _ S))) in Hin. apply (A d w o Hin).
Qed.
Lemma vals_sim s t c : sim s t -> vals (m_topo s) c = vals (m_topo t) c.
Proof.
  intros S. unfold vals. pose proof (sm_topo _ _ S c) as T. destruct (dget (m_topo s) c) as [n|], (dget (m_topo t) c) as [n'|]; try discriminate; auto.
  cbn [option_map] in T. apply Some_inj in T. now apply strip_fields in T as [-> _].
Qed.
Lemma rmap_ok_iff {A B} (f : A -> res B) l : (exists bs, rmap f l = Ok bs) <-> forall a, In a l -> exists b, f a = Ok b.
Proof.
  induction l as [|a l IH]; cbn [rmap].
  - split; [intros _ a []|eauto].
  - split.
    + intros [bs H]. apply rbind_ok in H as (b & Hb & H). apply rbind_ok in H as (bs' & Hbs & _).
      intros a' [<-|Ha]; [eauto|]. apply IH; eauto.
    + intros H. destruct (H a (or_introl eq_refl)) as [b ->]. cbn [rbind].
      destruct (proj2 IH (fun a' Ha => H a' (or_intror Ha))) as [bs ->]. cbn. eauto.
Qed.
Lemma step_sim s t s1 : runnable s -> runnable t -> sim s t -> inf_step s = (s1, Ok tt) ->
  exists t1, inf_step t = (t1, Ok tt) /\ sim s1 t1.
Proof.
  intros Rs Rt S E. pose proof (inf_step_spec s Rs) as Is. pose proof (inf_step_spec t Rt) as It. rewrite E in Is.
  destruct (rmap (next_fn (m_topo s) _ _) _) as [ys|e] eqn:Es; [|destruct Is; discriminate].
  destruct Is as (y & Hy & Is). injection Is as ->.
  assert (Ok_t : exists bs, rmap (next_fn (m_topo t) (m_arcs t) (vals (m_topo t))) (dkeys (m_topo t)) = Ok bs).
  { apply rmap_ok_iff. intros c Hc. apply (sim_keys s t c S) in Hc.
    exists (y c). rewrite <- (Hy c Hc). symmetry. apply next_fn_sim; auto; [apply Rs|]. intros; now apply vals_sim. }
  destruct Ok_t as [bs Ebs]. rewrite Ebs in It. destruct It as (y' & Hy' & It). exists (stepped y' t). split; [exact It|].
  assert (YY : forall c, In c (dkeys (m_topo s)) -> y c = y' c).
  { intros c Hc. assert (Hc' := proj1 (sim_keys s t c S) Hc). specialize (Hy c Hc). specialize (Hy' c Hc').
    rewrite (next_fn_sim s t _ (vals (m_topo t)) c S (rn_arcs _ Rs)) in Hy; auto; [congruence|]. intros; now apply vals_sim. }
  destruct S as [A B C D X]. constructor; unfold stepped; cbn [m_iters m_arcs m_topo m_exec set_iters set_exec set_topo].
  - exact A.
  - lia.
  - exact C.
  - intros c. unfold upd_topo. rewrite !dget_dmap. specialize (D c).
    destruct (dget (m_topo s) c) as [n|] eqn:En, (dget (m_topo t) c) as [n'|]; try discriminate; auto.
    cbn [option_map] in *. apply Some_inj in D. rewrite (YY c) by (apply dget_Some_In; eauto). f_equal.
    clear - D. destruct n, n'. unfold strip in *. cbn in *. injection D. intros. subst. reflexivity.
  - intros c. unfold upd_exec. rewrite !dget_dmap, X. destruct (dget (m_exec s) c) as [h|] eqn:Eh; auto.
    rewrite (YY c); auto. rewrite <- (rn_keys _ Rs). apply dget_Some_In. eauto.
Qed.
Lemma stable_sim s t : runnable s -> runnable t -> sim s t -> is_stable t = is_stable s.
Proof.
  intros Rs Rt S.
  assert (NDs : NoDup (dkeys (m_exec s))) by (rewrite (rn_keys _ Rs); apply Rs).
  assert (NDt : NoDup (dkeys (m_exec t))) by (rewrite (rn_keys _ Rt); apply Rt).
  destruct (is_stable_spec s NDs) as (A1 & A2 & A3). destruct (is_stable_spec t NDt) as (B1 & B2 & B3).
  destruct S as [Se It _ _ X]. apply settings_max in Se as (_ & _ & _ & Sd & _).
  destruct (Z_le_gt_dec (m_iters s) 1) as [H|H]; [rewrite A1, B1 by lia; reflexivity|].
  assert (Dec : (forall c h, history s c = Some h -> 2 <= length h) \/ exists c h, history s c = Some h /\ length h < 2).
  { unfold history. clear - NDs.
    assert (G : forall l : dict (list R), (forall c h, In (c, h) l -> 2 <= length h) \/ exists c h, In (c, h) l /\ length h < 2).
    { induction l as [|[c h] l [IH|(c' & h' & IH & IL)]].
      - left. intros c h [].
      - destruct (le_lt_dec 2 (length h)).
        + left. intros c' h' [[= <- <-]|Hin]; eauto.
        + right. exists c, h. split; [now left|auto].
      - right. exists c', h'. split; [now right|auto]. }
    destruct (G (m_exec s)) as [H|(c & h & H & HL)].
    - left. intros c h Hh. apply dget_In in Hh. eauto.
    - right. exists c, h. split; auto. now apply In_dget. }
  destruct Dec as [HL|(c & h & Hc & HL)].
  - destruct A2 as (b & -> & Hb); [lia|exact HL|]. destruct B2 as (b' & -> & Hb'); [lia|intros c h; unfold history; rewrite X; apply HL|].
    rewrite Sd in Hb'. f_equal. unfold history in *.
    assert (b' = true <-> b = true).
    { rewrite Hb, Hb'. split; intros G c h0 y x; specialize (G c h0 y x); rewrite X in *; auto. }
    destruct b, b'; intuition congruence.
  - rewrite A3, B3; auto; try lia; exists c, h; auto. unfold history. rewrite X. auto.
Qed.
Lemma keep_sim s t : runnable s -> runnable t -> sim s t -> keep_execution t = keep_execution s.
Proof.
  intros Rs Rt S. unfold keep_execution. rewrite (stable_sim s t Rs Rt S).
  destruct S as [Se It _ _ _]. apply settings_max in Se as (M1 & _ & M3 & _). rewrite M1, M3, It. reflexivity.
Qed.
Lemma inf_step_runnable s s1 : runnable s -> inf_step s = (s1, Ok tt) -> runnable s1.
Proof. intros R E. apply (steps_runnable s 1 s1 R). econstructor; [constructor|exact E]. Qed.
Lemma loop_sim fuel e s t s' : runnable s -> runnable t -> sim s t -> iter_loop fuel e s = (s', Ok tt) ->
  exists t', iter_loop fuel e t = (t', Ok tt) /\ sim s' t' /\ runnable s' /\ runnable t'.
Proof.
  revert e s t. induction fuel as [|f IH]; intros e s t Rs Rt S; cbn [iter_loop]; destruct (0 <? e)%Z.
  - discriminate.
  - intros [= <-]. eauto.
  - rewrite (keep_sim s t Rs Rt S). destruct (keep_execution s) as [k|x]; [|discriminate].
    destruct (inf_step s) as [s1 [u|x]] eqn:E1; [|discriminate]. destruct u. intros E.
    destruct (step_sim s t s1 Rs Rt S E1) as (t1 & E1' & S1). rewrite E1'.
    assert (m_extra t = m_extra s) as -> by (destruct S as [Se _ _ _ _]; apply settings_max in Se; apply Se).
    apply (IH _ s1 t1); auto; [apply (inf_step_runnable s s1)|apply (inf_step_runnable t t1)]; auto.
  - intros [= <-]. eauto.
Qed.
Lemma finalize_exists (l : list string) (s : fcm R) :
  (forall c, In c l -> exists h n d v, dget (m_exec s) c = Some h /\ dget (m_topo s) c = Some n /\
     get_decision_by_name (m_decision s) = Some d /\ exec_decision d h (Z.of_nat (length h) - m_extra s - 1) = Ok v) ->
  exists s', mfold finalize_one l s = (s', Ok tt).
Proof.
  revert s. induction l as [|a l IH]; intros s H; cbn [mfold]; [eauto|].
  destruct (H a (or_introl eq_refl)) as (h & n & d & v & H1 & H2 & H3 & H4).
  unfold finalize_one at 1, dget_exn. rewrite H1, H2. cbn [rbind]. rewrite H3. cbn [rbind]. rewrite H4. cbn [rbind].
  apply IH. intros c Hc. destruct (H c (or_intror Hc)) as (h' & n' & d' & v' & Y1 & Y2 & Y3 & Y4).
  unfold put_node. cbn [m_exec m_topo m_decision m_extra set_topo]. rewrite dget_dset.
  destruct (String.eqb c a); eauto 10.
Qed.
Lemma run_sim r s t s' : base s -> base t -> (r = false -> quiet s /\ quiet t) -> m_debug s = true -> sim s t ->
  run_inference r s = (s', Ok tt) ->
  exists t', run_inference r t = (t', Ok tt) /\
    forall c, history t' c = history s' c /\ value t' c = value s' c.
Proof.
  intros Bs Bt Q D S E.
  destruct (run_decompose r s s' D Bs (fun H => proj1 (Q H)) E) as (s1 & s2 & R1 & E1 & E2 & E3 & Fr1).
  assert (X : exists t1, (if r then reset_execution t else (t, Ok tt)) = (t1, Ok tt) /\ runnable t1 /\ sim s1 t1).
  { destruct r.
    - destruct (reset_ok_hist s s1 E1 Bs) as [Hne ->]. pose proof Bt as (NDt & _ & Kt & _).
      assert (Hnt : hist_ne t) by (intros c h Hh; rewrite (sm_exec _ _ S) in Hh; now apply (Hne c)).
      pose proof (reset_spec t Kt Hnt NDt) as Er. eexists. split; [exact Er|]. split; [eapply reset_runnable; eauto|].
      destruct S as [A B C D' X]. constructor; cbn [m_iters m_arcs m_topo m_exec set_exec set_topo]; auto.
      + intros c. rewrite !dget_dmap. specialize (D' c).
        destruct (dget (m_topo s) c) as [n|] eqn:En, (dget (m_topo t) c) as [n'|]; try discriminate; auto.
        cbn [option_map] in *. apply Some_inj in D'. f_equal. unfold reset_node. rewrite X.
        clear - D'. destruct (dget (m_exec s) c) as [[|v h]|]; auto. destruct n, n'. unfold strip in *. cbn in *. injection D'. intros. subst. reflexivity.
      + intros c. rewrite !dget_dmap, X. reflexivity.
    - subst s1. exists t. split; auto. split; auto. apply base_quiet_runnable; auto. now apply Q. }
  destruct X as (t1 & Et1 & Rt1 & S1).
  assert (Dt1 : m_debug t1 = true).
  { destruct Fr1 as (_ & _ & Se & _). apply settings_max in Se as (_ & _ & _ & _ & _ & M).
    destruct S1 as [Se1 _ _ _ _]. apply settings_max in Se1 as (_ & _ & _ & _ & _ & M'). congruence. }
  unfold iterative_inference in E2.
  assert (S1' : sim (set_iters 1%Z s1) (set_iters 1%Z t1)) by (destruct S1 as [A B C D' X]; constructor; auto).
  destruct (loop_sim _ _ _ _ _ (runnable_iters 1 s1 R1) (runnable_iters 1 t1 Rt1) S1' E2) as (t2 & Et2 & S2 & R2 & Rt2).
  assert (Et2' : iterative_inference t1 = (t2, Ok tt)).
  { unfold iterative_inference. cbn [m_maxit m_extra set_iters] in *.
    destruct S1 as [Se _ _ _ _]. apply settings_max in Se as (-> & -> & _). exact Et2. }
  destruct (finalize_all _ _ _ (rn_nodup _ R2) (fun c H => H) E3) as (F1 & F2 & F3 & F4 & F5).
  pose proof S2 as [Se2 _ _ _ X2]. apply settings_max in Se2 as (_ & Mx & _ & _ & Md & _).
  destruct (finalize_exists (dkeys (m_topo t2)) t2) as [t' Et'].
  { intros c Hc. assert (Hc' := proj2 (sim_keys s2 t2 c S2) Hc). assert (He := Hc'). rewrite <- (rn_keys _ R2) in He.
    apply dget_Some_In in He as [h Hh]. apply dget_Some_In in Hc as [n Hn].
    destruct (F4 c h Hc' Hh) as (d & v & Y1 & Y2 & _). exists h, n, d, v. rewrite X2, Md, Mx. auto. }
  exists t'. split.
  - unfold run_inference. rewrite Et1, Dt1, Et2'. exact Et'.
  - destruct (finalize_all _ _ _ (rn_nodup _ Rt2) (fun c H => H) Et') as (G1 & G2 & G3 & G4 & G5).
    intros c. unfold history. rewrite F1, G1, X2. split; [reflexivity|].
    destruct (in_dec string_dec c (dkeys (m_topo s2))) as [i|i].
    + assert (He := i). rewrite <- (rn_keys _ R2) in He. apply dget_Some_In in He as [h Hh].
      destruct (F4 c h i Hh) as (d & v & Y1 & Y2 & ->).
      destruct (G4 c h) as (d' & v' & Z1 & Z2 & ->); [now apply (sim_keys s2 t2 c S2)|now rewrite X2|].
      rewrite Md in Z1. rewrite Mx in Z2. congruence.
    + assert (i' : ~ In c (dkeys (m_topo t2))) by (intros H; apply i; now apply (sim_keys s2 t2 c S2)).
      unfold value, get_concept_value. rewrite (F5 c i), (G5 c i').
      apply dget_None in i, i'. now rewrite i, i'.
Qed.

(** adding the same relations in another order gives a similar map *)
Definition add_relations (rels : list (string * string * R)) (s : fcm R) : fcm R :=
  run_ops (map (fun r => let '(a, b, w) := r in OpAddRelation a b w) rels) s.
Lemma add_relation_strip a b w s : m_fit s = None ->
  let s' := fst (add_relation a b w s) in
  let both := str_mem a (dkeys (m_topo s)) && str_mem b (dkeys (m_topo s)) in
  m_fit s' = None /\ settings s' = settings s /\ m_iters s' = m_iters s /\ m_exec s' = m_exec s /\
  dkeys (m_topo s') = dkeys (m_topo s) /\
  m_arcs s' = (if both then m_arcs s ++ [(b, w, a)] else m_arcs s) /\
  forall c, option_map strip (dget (m_topo s') c) =
    option_map (fun n => if both && String.eqb c b then nd_set_sum (nadd (nd_sum n) w) (strip n) else strip n) (dget (m_topo s) c).
Proof.
  intros Fi. cbn zeta.
  assert (Mem : forall x, str_mem x (dkeys (m_topo s)) = match dget (m_topo s) x with Some _ => true | None => false end).
  { intros x. destruct (dget (m_topo s) x) as [n|] eqn:E.
    - apply str_mem_In. apply dget_Some_In. eauto.
    - destruct (str_mem x (dkeys (m_topo s))) eqn:E'; auto. apply str_mem_In in E'. now apply dget_None in E. }
  unfold add_relation. cbn [m_topo set_prepared]. rewrite !Mem.
  destruct (dget (m_topo s) a) as [na|] eqn:Ea.
  2: { destruct (dget (m_topo s) b); cbn [fst andb]; repeat split; auto. }
  destruct (dget (m_topo s) b) as [nb|] eqn:Eb; [|cbn [fst andb]; repeat split; auto].
  set (na' := nd_set_arcs _ na). set (s1 := put_node a na' _).
  assert (Ed : dget (m_topo s1) b = Some (if String.eqb b a then na' else nb)).
  { unfold s1, put_node. cbn [m_topo set_topo set_prepared]. rewrite dget_dset, Eb. destruct (String.eqb b a); reflexivity. }
  rewrite Ed. set (nb1 := if String.eqb b a then na' else nb). set (nb2 := nd_set_sum _ nb1).
  change (m_fit (put_node b nb2 s1)) with (m_fit s). rewrite Fi. cbn [fst andb].
  split; [exact Fi|]. split; [reflexivity|]. split; [reflexivity|]. split; [reflexivity|].
  unfold s1, put_node. cbn [m_topo m_arcs set_topo set_arcs set_prepared].
  split.
  - rewrite dkeys_dset. unfold dmem at 1. rewrite dget_dset_same. rewrite dkeys_dset.
    unfold dmem at 1. rewrite dget_dset, Eb. destruct (String.eqb b a); rewrite dkeys_dset; unfold dmem; rewrite Ea; reflexivity.
  - split; [reflexivity|]. intros c. rewrite !dget_dset. destruct (String.eqb_spec c b) as [->|Hne].
    + rewrite Eb. cbn [option_map]. f_equal. unfold nb2, nb1. destruct (String.eqb_spec b a) as [->|]; [|reflexivity].
      rewrite Ea in Eb. injection Eb as ->. reflexivity.
    + destruct (String.eqb_spec c a) as [->|]; [rewrite Ea; reflexivity|reflexivity].
Qed.
Lemma sim_refl s : sim s s.
Proof. constructor; auto. Qed.
Lemma sim_str_mem s t x : sim s t -> str_mem x (dkeys (m_topo t)) = str_mem x (dkeys (m_topo s)).
Proof.
  intros S. destruct (str_mem x (dkeys (m_topo s))) eqn:E1, (str_mem x (dkeys (m_topo t))) eqn:E2; auto; exfalso.
  - apply str_mem_In in E1. apply (sim_keys s t x S) in E1. apply str_mem_In in E1. congruence.
  - apply str_mem_In in E2. apply (sim_keys s t x S) in E2. apply str_mem_In in E2. congruence.
Qed.
Lemma add_relation_sim a b w s t : m_fit s = None -> sim s t -> sim (fst (add_relation a b w s)) (fst (add_relation a b w t)).
Proof.
  intros Fs S.
  assert (Ft : m_fit t = None) by (destruct S as [Se _ _ _ _]; unfold settings in Se; congruence).
  destruct (add_relation_strip a b w s Fs) as (_ & A2 & A3 & A4 & A5 & A6 & A7).
  destruct (add_relation_strip a b w t Ft) as (_ & B2 & B3 & B4 & B5 & B6 & B7).
  rewrite !(sim_str_mem s t) in B6, B7 by auto.
  pose proof S as [A B C D X]. constructor.
  - congruence.
  - congruence.
  - rewrite A6, B6. destruct (_ && _); auto using Permutation_app_tail.
  - intros c. rewrite A7, B7. specialize (D c).
    destruct (dget (m_topo s) c) as [n|], (dget (m_topo t) c) as [n'|]; try discriminate; auto. cbn [option_map] in *. apply Some_inj in D.
    apply strip_fields in D as D'. destruct D' as (_ & -> & _). rewrite D. reflexivity.
  - intros c. rewrite A4, B4. apply X.
Qed.
Lemma add_relation_swap a b w a' b' w' s : m_fit s = None ->
  sim (fst (add_relation a b w (fst (add_relation a' b' w' s)))) (fst (add_relation a' b' w' (fst (add_relation a b w s)))).
Proof.
  intros Fs.
  destruct (add_relation_strip a b w s Fs) as (A1 & A2 & A3 & A4 & A5 & A6 & A7).
  destruct (add_relation_strip a' b' w' s Fs) as (B1 & B2 & B3 & B4 & B5 & B6 & B7).
  destruct (add_relation_strip a b w _ B1) as (C1 & C2 & C3 & C4 & C5 & C6 & C7).
  destruct (add_relation_strip a' b' w' _ A1) as (D1 & D2 & D3 & D4 & D5 & D6 & D7).
  rewrite B5 in C6, C7. rewrite A5 in D6, D7. constructor.
  - congruence.
  - congruence.
  - rewrite C6, D6, A6, B6. destruct (str_mem a _ && _), (str_mem a' _ && _); auto.
    rewrite <- !app_assoc. apply Permutation_app_head. apply perm_swap.
  - intros c. rewrite C7, D7. specialize (A7 c). specialize (B7 c).
    destruct (dget (m_topo s) c) as [n|];
      destruct (dget (m_topo (fst (add_relation a b w s))) c) as [n1|]; try discriminate;
      destruct (dget (m_topo (fst (add_relation a' b' w' s))) c) as [n2|]; try discriminate; auto.
    cbn [option_map] in *. apply Some_inj in A7, B7. f_equal.
    assert (S1 : nd_sum n1 = if (str_mem a (dkeys (m_topo s)) && str_mem b (dkeys (m_topo s))) && String.eqb c b then (nd_sum n + w)%R else nd_sum n).
    { change (nd_sum n1) with (nd_sum (strip n1)). rewrite A7. destruct (_ && String.eqb c b); reflexivity. }
    assert (S2 : nd_sum n2 = if (str_mem a' (dkeys (m_topo s)) && str_mem b' (dkeys (m_topo s))) && String.eqb c b' then (nd_sum n + w')%R else nd_sum n).
    { change (nd_sum n2) with (nd_sum (strip n2)). rewrite B7. destruct (_ && String.eqb c b'); reflexivity. }
    rewrite S1, S2, A7, B7.
    destruct ((str_mem a _ && _) && String.eqb c b), ((str_mem a' _ && _) && String.eqb c b'); try reflexivity.
    unfold strip, nd_set_sum, nd_set_arcs, nd_set_aux. cbn. f_equal. ring.
  - intros c. now rewrite C4, D4, A4, B4.
Qed.
Lemma add_relations_fit rels s : m_fit s = None -> m_fit (add_relations rels s) = None.
Proof.
  unfold add_relations, run_ops. revert s. induction rels as [|[[a b] w] l IH]; intros s H; cbn; auto.
  apply IH. now apply add_relation_strip.
Qed.
Lemma add_relations_sim rels s t : m_fit s = None -> sim s t -> sim (add_relations rels s) (add_relations rels t).
Proof.
  unfold add_relations, run_ops. revert s t. induction rels as [|[[a b] w] l IH]; intros s t H S; cbn; auto.
  apply IH; [now apply add_relation_strip|now apply add_relation_sim].
Qed.
Lemma add_relations_perm rels rels' s : Permutation rels rels' -> m_fit s = None ->
  sim (add_relations rels s) (add_relations rels' s).
Proof.
  intros P. revert s. induction P as [|[[a b] w] l l' _ IH|[[a b] w] [[a' b'] w'] l|l1 l2 l3 _ IH1 _ IH2]; intros s H.
  - apply sim_refl.
  - unfold add_relations, run_ops in *. cbn. apply IH. now apply add_relation_strip.
  - unfold add_relations, run_ops. cbn. apply (add_relations_sim l).
    + apply add_relation_strip. now apply add_relation_strip.
    + apply add_relation_swap; auto.
  - eapply sim_trans; eauto.
Qed.
Lemma sane_step o s : @sane R RNum s -> (is_add_concept o = true -> snd (step o s) = Ok tt) -> sane (fst (step o s)).
Proof.
  intros (a & b & c & d & e & f & g & h & s0 & ops & H1 & H2 & ->) Ho.
  exists a, b, c, d, e, f, g, h, s0, (ops ++ [o]). split; auto. split.
  - apply ok_when_app. split; auto. cbn. auto.
  - unfold run_ops. rewrite fold_left_app. reflexivity.
Qed.
Lemma sane_add_relations rels s : sane s -> sane (add_relations rels s).
Proof.
  unfold add_relations, run_ops. revert s. induction rels as [|[[a b] w] l IH]; intros s H; cbn; auto.
  apply IH. apply (sane_step (OpAddRelation a b w)); auto. discriminate.
Qed.
Lemma sane_runs_step o s : @sane_runs R RNum s -> is_add_concept o = false -> is_run o = false -> sane_runs (fst (step o s)).
Proof.
  intros (a & b & c & d & e & f & g & h & s0 & ops & H1 & [H2 H3] & ->) Ho Hr.
  exists a, b, c, d, e, f, g, h, s0, (ops ++ [o]). split; auto. split; [split|].
  - apply ok_when_app. split; auto. cbn. split; auto. congruence.
  - apply ok_when_app. split; auto. cbn. split; auto. congruence.
  - unfold run_ops. rewrite fold_left_app. reflexivity.
Qed.
Lemma sane_runs_add_relations rels s : sane_runs s -> sane_runs (add_relations rels s).
Proof.
  unfold add_relations, run_ops. revert s. induction rels as [|[[a b] w] l IH]; intros s H; cbn; auto.
  apply IH. apply (sane_runs_step (OpAddRelation a b w)); auto.
Qed.
Lemma relation_order rels rels' s r s1 : Permutation rels rels' -> sane s -> (r = false -> sane_runs s) ->
  m_fit s = None -> m_debug s = true ->
  run_inference r (add_relations rels s) = (s1, Ok tt) ->
  exists s2, run_inference r (add_relations rels' s) = (s2, Ok tt) /\
    forall c, history s2 c = history s1 c /\ value s2 c = value s1 c.
Proof.
  intros P Hs Hq Hf D E.
  apply (run_sim r (add_relations rels s)); auto.
  - apply sane_base. now apply sane_add_relations.
  - apply sane_base. now apply sane_add_relations.
  - intros H. split; apply sane_runs_quiet, sane_runs_add_relations; auto.
  - clear E. unfold add_relations, run_ops. revert Hf D. generalize s. clear - rels. induction rels as [|[[a b] w] l IH]; intros s H D; cbn; auto.
    apply IH; [now apply add_relation_strip|].
    destruct (add_relation_strip a b w s H) as (_ & Se & _). apply settings_max in Se. rewrite <- D. apply Se.
  - now apply add_relations_perm.
Qed.

Lemma sim_run_sane r s t s' : sane s -> sane t -> (r = false -> sane_runs s /\ sane_runs t) ->
  m_debug s = true -> sim s t -> run_inference r s = (s', Ok tt) ->
  exists t', run_inference r t = (t', Ok tt) /\
    forall c, history t' c = history s' c /\ value t' c = value s' c.
Proof.
  intros Hs Ht Q D S E. apply (run_sim r s t); auto using sane_base.
  intros H. destruct (Q H). split; now apply sane_runs_quiet.
Qed.
Lemma unit_map_range r (s s' : fcm R) : sane s -> m_debug s = true -> (r = false -> sane_runs s) ->
  run_inference r s = (s', Ok tt) ->
  (forall c n f a, dget (m_topo s) c = Some n -> nd_func n = Some f -> nd_args n = Some a -> unit_function f a) ->
  (forall c h, In c (concepts s) -> history s c = Some h -> in01 (if r then firstn 1 h else h)) ->
  forall c, In c (concepts s) ->
    (forall h, history s' c = Some h -> in01 h) /\ (forall v, value s' c = Some v -> (0 <= v <= 1)%R).
Proof.
  intros Hs D Q E HF H0. apply (run_range 0 1 r s s' Hs D Q E); [|exact H0].
  intros c n f fn a v y H1 H2 H3 H4 H5. eapply unit_range; eauto.
Qed.
Lemma bipolar_map_range r (s s' : fcm R) : sane s -> m_debug s = true -> (r = false -> sane_runs s) ->
  run_inference r s = (s', Ok tt) ->
  (forall c n f a, dget (m_topo s) c = Some n -> nd_func n = Some f -> nd_args n = Some a -> bipolar_function f a) ->
  (forall c h, In c (concepts s) -> history s c = Some h ->
     Forall (fun x => (-1 <= x <= 1)%R) (if r then firstn 1 h else h)) ->
  forall c, In c (concepts s) ->
    (forall h, history s' c = Some h -> Forall (fun x => (-1 <= x <= 1)%R) h) /\
    (forall v, value s' c = Some v -> (-1 <= v <= 1)%R).
Proof.
  intros Hs D Q E HF H0. apply (run_range (-1) 1 r s s' Hs D Q E); [|exact H0].
  intros c n f fn a v y H1 H2 H3 H4 H5. eapply bipolar_range; eauto.
Qed.
Lemma relm_unbounded (B : R) : exists x, exists y, call_actv ARelm x [("lambda_val", AScal (-1)%R)] = Ok y /\ (y < B)%R.
Proof.
  exists (Rabs B + 1)%R, (- (Rabs B + 1))%R. pose proof (Rabs_pos B).
  split; [|unfold Rabs; destruct (Rcase_abs B); lra].
  cbn [call_actv]. unfold kw_only, kw_scal. cbn [rbind forallb dkeys map fst str_mem existsb String.eqb Ascii.eqb Bool.eqb orb andb dget].
  unfold relm, pdiv. rnum. cbn. destruct (Rltb_spec (Rabs B + 1) 0); [lra|].
  destruct (Reqb_spec (-1) 0) as [Hz|_]; [exfalso; lra|]. cbn [rbind].
  replace ((Rabs B + 1) / -1)%R with (- (Rabs B + 1))%R by field.
  destruct (Rltb_spec 1 (- (Rabs B + 1))); [exfalso; lra|reflexivity].
Qed.
