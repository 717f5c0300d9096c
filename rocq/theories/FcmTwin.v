(** FcmTwin.v — maps that compute the same next values from the same start run alike,
    and one run succeeds if the other does (C71, C74). *)
From Verif Require Import Base BaseFacts Num Functions FunctionsFacts Fcm FcmSpec DynSpec FcmInv FcmInv2 FcmInv3 FcmIter FcmRun FcmRun2 FcmRun3.

Section Twin.
Context {F : Type} {N : Num F}.
Notation fcm := (fcm F).
Implicit Types (s t : fcm).

Lemma dkeys_dset_in {A} (d : dict A) k v : In k (dkeys d) -> dkeys (dset d k v) = dkeys d.
Proof. intros H. rewrite dkeys_dset. apply dget_Some_In in H as [x H]. unfold dmem. now rewrite H. Qed.
(** what the loop reads from the settings *)
Definition loop_settings s := (m_maxit s, m_extra s, m_stab s, m_sdiff s, m_decision s, m_debug s).
Lemma loop_settings_of s s' : settings s' = settings s -> loop_settings s' = loop_settings s.
Proof. intros S. apply settings_max in S as (A & B & C & D & E & G). unfold loop_settings. congruence. Qed.
Record twin s t : Prop := {
  tw_keys : dkeys (m_topo t) = dkeys (m_topo s);
  tw_exec : m_exec t = m_exec s;
  tw_vals : forall c, In c (dkeys (m_topo s)) -> vals (m_topo t) c = vals (m_topo s) c;
  tw_set : loop_settings t = loop_settings s;
  tw_iters : m_iters t = m_iters s;
  tw_next : forall x c, next_fn (m_topo t) (m_arcs t) x c = next_fn (m_topo s) (m_arcs s) x c
}.
Lemma next_fn_vals s x x' c : arcs_in (m_topo s) (m_arcs s) -> In c (dkeys (m_topo s)) ->
  (forall o, In o (dkeys (m_topo s)) -> x' o = x o) ->
  next_fn (m_topo s) (m_arcs s) x' c = next_fn (m_topo s) (m_arcs s) x c.
Proof. intros A Hc H. apply next_fn_static; auto. intros d w o Ho. apply H. now apply (A d w o). Qed.
Lemma twin_step s t : runnable s -> runnable t -> twin s t ->
  match inf_step s, inf_step t with
  | (s1, Ok _), (t1, Ok _) => twin s1 t1 /\ runnable s1 /\ runnable t1
  | (_, Err e), (_, Err e') => e = e'
  | _, _ => False
  end.
Proof.
  intros Rs Rt T. pose proof (inf_step_spec s Rs) as Is. pose proof (inf_step_spec t Rt) as It.
  assert (E : rmap (next_fn (m_topo t) (m_arcs t) (vals (m_topo t))) (dkeys (m_topo t)) =
              rmap (next_fn (m_topo s) (m_arcs s) (vals (m_topo s))) (dkeys (m_topo s))).
  { rewrite (tw_keys _ _ T). apply rmap_ext. intros c Hc. rewrite (tw_next _ _ T).
    apply next_fn_vals; auto; [apply Rs|]. intros o Ho. now apply (tw_vals _ _ T). }
  rewrite E in It. destruct (rmap _ (dkeys (m_topo s))) as [ys|e].
  - destruct Is as (y & Hy & ->). destruct It as (y' & Hy' & ->).
    assert (Y : forall c, In c (dkeys (m_topo s)) -> y' c = y c).
    { intros c Hc. specialize (Hy c Hc). specialize (Hy' c ltac:(rewrite (tw_keys _ _ T); exact Hc)).
      rewrite (tw_next _ _ T) in Hy'.
      rewrite (next_fn_vals s (vals (m_topo s)) (vals (m_topo t)) c) in Hy'; auto; [congruence|apply Rs|].
      intros o Ho. now apply (tw_vals _ _ T). }
    pose proof (stepped_frame y s) as [_ (S1 & A1 & Se1 & _)]. pose proof (stepped_frame y' t) as [_ (S2 & A2 & Se2 & _)].
    pose proof (statics_keys _ _ S1) as K1. pose proof (statics_keys _ _ S2) as K2.
    split; [|split; now apply stepped_runnable]. constructor.
    + rewrite K1, K2. apply T.
    + unfold stepped, upd_exec. cbn [m_exec set_iters set_exec]. rewrite (tw_exec _ _ T). apply dmap_ext_in.
      intros c h Hin. f_equal. f_equal. apply Y. rewrite <- (rn_keys _ Rs). apply in_map_iff. exists (c, h). auto.
    + intros c Hc. rewrite K1 in Hc. rewrite !vals_stepped; auto. now rewrite (tw_keys _ _ T).
    + rewrite (loop_settings_of _ _ Se1), (loop_settings_of _ _ Se2). apply T.
    + unfold stepped. cbn [m_iters set_iters]. now rewrite (tw_iters _ _ T).
    + intros x c. rewrite A1, A2. rewrite (next_fn_static (m_topo t) (m_topo (stepped y' t)) (m_arcs t) x x c S2) by auto.
      rewrite (next_fn_static (m_topo s) (m_topo (stepped y s)) (m_arcs s) x x c S1) by auto. apply T.
  - destruct Is as [s1 ->]. destruct It as [t1 ->]. reflexivity.
Qed.
Lemma twin_keep s t : twin s t -> keep_execution t = keep_execution s.
Proof.
  intros T. pose proof (tw_set _ _ T) as S. unfold loop_settings in S. injection S as A B C D E G.
  unfold keep_execution, is_stable. now rewrite A, C, D, (tw_iters _ _ T), (tw_exec _ _ T).
Qed.
Lemma twin_loop fuel e s t : runnable s -> runnable t -> twin s t ->
  snd (iter_loop fuel e t) = snd (iter_loop fuel e s) /\
  (snd (iter_loop fuel e s) = Ok tt -> twin (fst (iter_loop fuel e s)) (fst (iter_loop fuel e t))).
Proof.
  revert e s t. induction fuel as [|fuel IH]; intros e s t Rs Rt T; cbn [iter_loop]; destruct (0 <? e)%Z; auto.
  rewrite (twin_keep s t T). destruct (keep_execution s) as [k|x]; [|split; [reflexivity|discriminate]].
  pose proof (twin_step s t Rs Rt T) as St. pose proof (tw_set _ _ T) as S. unfold loop_settings in S. injection S as A B C D E G. rewrite B.
  destruct (inf_step s) as [s1 [u|x]], (inf_step t) as [t1 [u'|x']]; try contradiction.
  - destruct St as (T1 & R1 & R2). apply IH; auto.
  - subst x'. split; [reflexivity|discriminate].
Qed.
Lemma twin_finalize l s t : (forall c, In c l -> In c (dkeys (m_topo s))) -> twin s t ->
  snd (mfold finalize_one l t) = snd (mfold finalize_one l s) /\
  (snd (mfold finalize_one l s) = Ok tt -> m_exec (fst (mfold finalize_one l t)) = m_exec (fst (mfold finalize_one l s)) /\
     forall c, In c (dkeys (m_topo s)) -> value (fst (mfold finalize_one l t)) c = value (fst (mfold finalize_one l s)) c).
Proof.
  intros Hl [K X V S _ _]. unfold loop_settings in S. injection S as _ B _ _ E _. revert s t Hl K X V B E.
  induction l as [|a l IH]; intros s t Hl K X V B E; cbn [mfold].
  - split; auto. intros _. split; auto. intros c Hc. specialize (V c Hc). unfold value, get_concept_value, vals in *.
    assert (Hc' := Hc). rewrite <- K in Hc'. apply dget_Some_In in Hc as [n Hn]. apply dget_Some_In in Hc' as [n' Hn'].
    cbn [fst]. rewrite Hn, Hn' in *. congruence.
  - assert (Ha : In a (dkeys (m_topo s))) by (apply Hl; now left). assert (Ha' := Ha). rewrite <- K in Ha'.
    apply dget_Some_In in Ha as [n Hn]. apply dget_Some_In in Ha' as [n' Hn'].
    assert (FO : exists o : res F, forall u m, dget (m_topo u) a = Some m -> m_exec u = m_exec s -> m_extra u = m_extra s ->
       m_decision u = m_decision s -> finalize_one a u = match o with Ok v => (put_node a (nd_set_value v m) u, Ok tt) | Err e => (u, Err e) end).
    { exists (h <- dget_exn (m_exec s) a ;;
              d <- (match get_decision_by_name (m_decision s) with Some d => Ok d | None => Err EType end) ;;
              exec_decision d h (Z.of_nat (length h) - m_extra s - 1))%res.
      intros u m Hm U1 U2 U3. unfold finalize_one, dget_exn. rewrite Hm, U1, U2, U3.
      destruct (dget (m_exec s) a) as [h|]; cbn [rbind]; auto.
      destruct (get_decision_by_name (m_decision s)) as [d|]; cbn [rbind]; auto.
      destruct (exec_decision d h _) as [v|]; cbn [rbind]; auto. }
    destruct FO as [o FO]. rewrite (FO s n Hn eq_refl eq_refl eq_refl), (FO t n' Hn' X B E).
    destruct o as [v|x]; [|split; [reflexivity|discriminate]].
    assert (KA : In a (dkeys (m_topo s))) by (apply Hl; now left).
    assert (Ks : dkeys (m_topo (put_node a (nd_set_value v n) s)) = dkeys (m_topo s)) by (unfold put_node; cbn [m_topo set_topo]; apply dkeys_dset_in; exact KA).
    assert (Kt : dkeys (m_topo (put_node a (nd_set_value v n') t)) = dkeys (m_topo t)) by (unfold put_node; cbn [m_topo set_topo]; apply dkeys_dset_in; now rewrite K).
    destruct (IH (put_node a (nd_set_value v n) s) (put_node a (nd_set_value v n') t)) as [I1 I2]; auto.
    + intros c Hc. rewrite Ks. apply Hl. now right.
    + now rewrite Ks, Kt.
    + intros c Hc. rewrite Ks in Hc. unfold vals, put_node. cbn [m_topo set_topo]. destruct (String.eqb_spec c a) as [->|Hne].
      * now rewrite !dget_dset_same.
      * rewrite !dget_dset_other by auto. apply V, Hc.
    + split; [exact I1|]. intros H. destruct (I2 H) as [J1 J2]. split; [exact J1|]. intros c Hc. apply J2. now rewrite Ks.
Qed.

(** two maps with the same concepts, initial values, loop settings and next values *)
Record alike s t : Prop := {
  al_keys : concepts t = concepts s;
  al_start : forall c, In c (concepts s) -> initial t c = initial s c;
  al_set : loop_settings t = loop_settings s;
  al_next : forall x c, next_fn (m_topo t) (m_arcs t) x c = next_fn (m_topo s) (m_arcs s) x c
}.
Lemma twin_run s t s' : base s -> base t -> m_debug s = true -> alike s t ->
  run_inference true s = (s', Ok tt) ->
  exists t', run_inference true t = (t', Ok tt) /\ m_exec t' = m_exec s' /\ forall c, In c (concepts s) -> value t' c = value s' c.
Proof.
  intros Bs Bt D A E. destruct (run_decompose true s s' D Bs ltac:(discriminate) E) as (s1 & s2 & R1 & E1 & E2 & E3 & Fr1).
  cbn [negb] in E1. destruct (reset_ok_hist s s1 E1 Bs) as [Hn Es1].
  assert (Bt' := Bt). assert (Bs' := Bs). destruct Bs' as (NDs & _ & Ks & _). destruct Bt' as (NDt & _ & Kt & _).
  assert (Hnt : hist_ne t).
  { intros c h Hh ->. assert (Hc : In c (concepts s)).
    { rewrite <- (al_keys _ _ A). unfold concepts. rewrite <- Kt. apply dget_Some_In. eauto. }
    pose proof (al_start _ _ A c Hc) as I. unfold initial, history in I. rewrite Hh in I.
    assert (Hc' := Hc). unfold concepts in Hc'. rewrite <- Ks in Hc'. apply dget_Some_In in Hc' as [g Hg]. rewrite Hg in I.
    destruct g as [|v g]; [now apply Hn in Hg|discriminate]. }
  pose proof (reset_spec t Kt Hnt NDt) as E1t.
  set (t1 := set_exec (dmap hd1 (m_exec t)) (set_topo (dmap (reset_node t) (m_topo t)) t)) in *.
  pose proof (reset_runnable t t1 E1t Bt) as R1t.
  pose proof (reset_frame s) as (S1 & A1 & Se1 & _). rewrite E1 in S1, A1, Se1. cbn [fst] in S1, A1, Se1.
  pose proof (reset_frame t) as (S2 & A2 & Se2 & _). rewrite E1t in S2, A2, Se2. cbn [fst] in S2, A2, Se2.
  pose proof (statics_keys _ _ S1) as K1. pose proof (statics_keys _ _ S2) as K2.
  assert (Hs1 : forall c, In c (concepts s) -> exists v, initial s c = Some v /\
     dget (m_exec s1) c = Some [v] /\ dget (m_exec t1) c = Some [v] /\ vals (m_topo s1) c = v /\ vals (m_topo t1) c = v).
  { intros c Hc. assert (Hc' := Hc). unfold concepts in Hc'. rewrite <- Ks in Hc'. apply dget_Some_In in Hc' as [g Hg].
    destruct g as [|v g]; [now apply Hn in Hg|]. exists v. split; [unfold initial, history; now rewrite Hg|].
    pose proof (al_start _ _ A c Hc) as I. unfold initial, history in I. rewrite Hg in I.
    destruct (dget (m_exec t) c) as [[|v' g']|] eqn:Hg'; try discriminate. injection I as ->.
    assert (Hct : In c (dkeys (m_topo t))) by (change (In c (concepts t)); now rewrite (al_keys _ _ A)).
    apply dget_Some_In in Hct as [nt Hnt']. assert (Hcs := Hc). apply dget_Some_In in Hcs as [ns Hns].
    rewrite Es1. unfold t1. cbn [m_exec m_topo set_exec set_topo]. unfold vals. rewrite !dget_dmap, Hg, Hg', Hns, Hnt'.
    unfold reset_node. rewrite Hg, Hg'. repeat split; reflexivity. }
  clearbody t1.
  assert (T : twin (set_iters 1 s1) (set_iters 1 t1)).
  { constructor; cbn [m_topo m_exec m_iters m_arcs set_iters].
    - rewrite K1, K2. apply A.
    - apply dict_ext.
      + rewrite (rn_keys _ R1t). apply R1t.
      + rewrite (rn_keys _ R1t), (rn_keys _ R1), K1, K2. apply A.
      + intros c. destruct (in_dec string_dec c (concepts s)) as [Hc|Hc].
        * destruct (Hs1 c Hc) as (v & _ & X1 & X2 & _). congruence.
        * assert (Y1 : ~ In c (dkeys (m_exec s1))) by (rewrite (rn_keys _ R1), K1; exact Hc).
          assert (Y2 : ~ In c (dkeys (m_exec t1))) by (rewrite (rn_keys _ R1t), K2; change (~ In c (concepts t)); now rewrite (al_keys _ _ A)).
          apply dget_None in Y1, Y2. congruence.
    - intros c Hc. rewrite K1 in Hc. destruct (Hs1 c Hc) as (v & _ & _ & _ & X1 & X2). congruence.
    - change (loop_settings t1 = loop_settings s1). rewrite (loop_settings_of _ _ Se1), (loop_settings_of _ _ Se2). apply A.
    - reflexivity.
    - intros x c. rewrite A1, A2. rewrite (next_fn_static (m_topo t) (m_topo t1) (m_arcs t) x x c S2) by auto.
      rewrite (next_fn_static (m_topo s) (m_topo s1) (m_arcs s) x x c S1) by auto. apply A. }
  unfold iterative_inference in E2. cbn [m_maxit m_extra set_iters] in E2.
  destruct (twin_loop (Z.to_nat (Z.max (m_maxit s1) 0 + m_extra s1)) (m_extra s1 - 1) _ _ (runnable_iters 1 s1 R1) (runnable_iters 1 t1 R1t) T) as [L1 L2].
  rewrite E2 in L1, L2. cbn [fst snd] in L1, L2. specialize (L2 eq_refl).
  pose proof (tw_set _ _ T) as S. unfold loop_settings in S. cbn [m_maxit m_extra m_stab m_sdiff m_decision m_debug set_iters] in S. injection S as Q1 Q2 Q3 Q4 Q5 Q6.
  assert (D1 : m_debug t1 = true).
  { rewrite Q6. apply settings_max in Se1 as (_ & _ & _ & _ & _ & X). congruence. }
  unfold run_inference. rewrite E1t, D1. unfold iterative_inference. cbn [m_maxit m_extra set_iters]. rewrite Q1, Q2.
  destruct (iter_loop _ (m_extra s1 - 1) (set_iters 1 t1)) as [t2 r2]. cbn [fst snd] in L1, L2. subst r2.
  destruct (twin_finalize (dkeys (m_topo s2)) s2 t2 (fun c H => H) L2) as [F1 F2]. rewrite E3 in F1, F2. cbn [fst snd] in F1, F2.
  destruct (F2 eq_refl) as [F3 F4]. rewrite (tw_keys _ _ L2).
  destruct (mfold finalize_one (dkeys (m_topo s2)) t2) as [t' r']. cbn [fst snd] in *. subst r'. exists t'. split; auto. split; auto.
  intros c Hc. apply F4.
  assert (Fr2 : dkeys (m_topo s2) = dkeys (m_topo s1)).
  { apply iter_loop_steps in E2 as [L St]. destruct (steps_orbit _ _ _ (runnable_iters 1 s1 R1) St) as (x & _ & _ & _ & _ & XF & _).
    apply (statics_keys (set_iters 1 s1) s2), XF. }
  rewrite Fr2, K1. exact Hc.
Qed.
End Twin.
