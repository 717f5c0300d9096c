(** FcmView.v — maps that differ only in the counters and prepared data left by
    earlier runs behave the same. *)
From Verif Require Import Base BaseFacts Num Functions Fcm FcmSpec FcmBasics FcmInv FcmInv2 FcmInv3 FcmIter FcmRun FcmRun2 VecSpec FcmVec FcmVec2 FcmVec3.

Section View.
Context {F : Type} {N : Num F}.
Implicit Types s t : fcm F.

Definition core s := (m_topo s, m_exec s, m_arcs s, settings s).
Definition alike s t : Prop := core s = core t.
Definition touch (i : Z) (p : bool) (k : option (vcache F)) (b : bool) s : fcm F :=
  mkFcm (m_topo s) (m_arcs s) (m_exec s) (m_stab s) (m_maxit s) (m_extra s) (m_sdiff s) (m_decision s) (m_mem s) (m_func s) (m_gargs s) i (m_weight s) (m_default s) (m_debug s) (m_fit s) p k b.
Lemma alike_touch s t : alike s t <-> exists i p k b, t = touch i p k b s.
Proof.
  split.
  - unfold alike, core, settings. destruct s, t. cbn. intros H. injection H as -> -> -> -> -> -> -> -> -> -> -> -> -> -> ->. do 4 eexists. reflexivity.
  - intros (i & p & k & b & ->). reflexivity.
Qed.
Lemma alike_refl s : alike s s. Proof. reflexivity. Qed.
Lemma alike_sym s t : alike s t -> alike t s. Proof. intros H. now symmetry. Qed.
Lemma alike_trans s t u : alike s t -> alike t u -> alike s u. Proof. unfold alike. congruence. Qed.
(** related results: the same outcome, alike maps *)
Definition both (rel : fcm F -> fcm F -> Prop) (x y : fcm F * res unit) : Prop := rel (fst x) (fst y) /\ snd x = snd y.
Definition same (rel : fcm F -> fcm F -> Prop) (f : fcm F -> fcm F * res unit) : Prop := forall s t, rel s t -> both rel (f s) (f t).
Lemma same_mfold {A} rel (f : A -> fcm F -> fcm F * res unit) l : (forall a, same rel (f a)) -> same rel (mfold f l).
Proof.
  intros H. induction l as [|a l IH]; intros s t R; cbn [mfold]; [now split|].
  destruct (H a s t R) as [H1 H2]. destruct (f a s) as [s1 r1], (f a t) as [t1 r2]. cbn in *. subst r2.
  destruct r1; [now apply IH|now split].
Qed.
(** also with the same iteration counter *)
Definition alike_it s t : Prop := alike s t /\ m_iters s = m_iters t.
Lemma alike_it_touch s t : alike_it s t <-> exists p k b, t = touch (m_iters s) p k b s.
Proof.
  split.
  - intros [H E]. apply alike_touch in H as (i & p & k & b & ->). cbn in E. subst i. eauto.
  - intros (p & k & b & ->). split; reflexivity.
Qed.
Ltac by_cases := repeat (match goal with
  | |- both _ (match ?x with _ => _ end) _ => destruct x
  | |- both _ _ (match ?x with _ => _ end) => destruct x
  end; cbn [m_topo m_exec m_arcs m_default m_fit m_iters m_decision m_extra m_stab m_maxit m_sdiff touch put_node put_exec set_prepared set_topo set_exec]; try solve [split; [first [reflexivity | split; reflexivity] | reflexivity]]).
Ltac both_touch := match goal with
  | H : alike ?s ?t |- _ => apply alike_touch in H as (zi & zp & zk & zb & ->)
  | H : alike_it ?s ?t |- _ => apply alike_it_touch in H as (zp & zk & zb & ->)
  end.
Lemma same_reset_one c : same alike (reset_one c).
Proof. intros s t H. both_touch. unfold reset_one. cbn. destruct (dget (m_topo s) c); [|now split]. cbn. destruct (dget (m_exec s) c) as [[|v l]|]; now split. Qed.
Lemma same_reset : same alike reset_execution.
Proof. intros s t H. unfold reset_execution. assert (E : m_topo s = m_topo t) by (both_touch; reflexivity). rewrite E. apply same_mfold; auto using same_reset_one. Qed.
Lemma same_clear_one c : same alike (clear_one c).
Proof. intros s t H. both_touch. unfold clear_one. cbn. destruct (dget (m_topo s) c); now split. Qed.
Lemma same_clear : same alike clear_execution.
Proof. intros s t H. unfold clear_execution. assert (E : m_topo s = m_topo t) by (both_touch; reflexivity). rewrite E. apply same_mfold; auto using same_clear_one. Qed.
Lemma same_init c v r : same alike (init_concept c v r).
Proof. intros s t H. both_touch. unfold init_concept. cbn [m_topo touch]. by_cases. Qed.
Lemma same_add_concept n ct a m e d f k : same alike (add_concept n ct a m e d f k).
Proof. intros s t H. both_touch. unfold add_concept. cbn [m_default set_prepared touch]. destruct (build_node _ _ _ _ _ _ _ _) as [x [u|er]]; now split. Qed.
Lemma same_add_relation a b w : same alike (add_relation a b w).
Proof.
  intros s t H. both_touch. unfold add_relation. cbn [m_topo set_prepared touch]. destruct (dget (m_topo s) b) as [nd|]; [|now split].
  destruct (dget (m_topo s) a) as [no|]; [|now split]. cbv zeta. cbn [m_topo put_node set_topo set_prepared touch].
  destruct (dget _ b) as [nd'|]; [|now split]. cbn [m_fit put_node set_topo set_prepared touch].
  destruct (match m_fit s with None => _ | Some _ => _ end); now split.
Qed.
Lemma same_ops ops : Forall (fun o => same alike (step o)) ops -> forall s t, alike s t -> alike (run_ops ops s) (run_ops ops t).
Proof.
  unfold run_ops. induction 1 as [|o ops H _ IH]; intros s t A; auto. cbn. apply IH. now apply H.
Qed.
Lemma same_finalize c : same alike (finalize_one c).
Proof. intros s t H. both_touch. unfold finalize_one. cbn [m_topo m_exec m_decision m_extra touch]. by_cases. Qed.
(** iterative engine *)
Lemma same_spread a : same alike_it (spread_arc a).
Proof. intros s t H. both_touch. unfold spread_arc. destruct a as [[d w] o]. cbn [m_topo touch]. by_cases. Qed.
Lemma same_update c : same alike_it (update_value c).
Proof. intros s t H. both_touch. unfold update_value. cbn [m_topo m_exec touch]. by_cases. Qed.
Lemma same_inf_step : same alike_it inf_step.
Proof.
  intros s t H. unfold inf_step. assert (E : m_arcs s = m_arcs t) by (both_touch; reflexivity). rewrite E.
  destruct (same_mfold _ _ (m_arcs t) same_spread s t H) as [H1 H2].
  destruct (mfold spread_arc (m_arcs t) s) as [s1 r1], (mfold spread_arc (m_arcs t) t) as [t1 r2]. cbn in *. subst r2.
  destruct r1; [|now split]. assert (E1 : m_exec s1 = m_exec t1) by (clear - H1; both_touch; reflexivity). rewrite E1.
  destruct (same_mfold _ _ (dkeys (m_exec t1)) same_update s1 t1 H1) as [H3 H4].
  destruct (mfold update_value _ s1) as [s2 r1], (mfold update_value _ t1) as [t2 r2]. cbn in *. subst r2.
  destruct r1; [|now split]. destruct H3 as [H3 H5]. rewrite H5. split; auto. split; auto.
Qed.
Lemma same_loop fuel e : same alike_it (iter_loop fuel e).
Proof.
  revert e. induction fuel as [|f IH]; intros e s t H; cbn [iter_loop]; destruct (0 <? e)%Z; try (now split).
  assert (K : keep_execution s = keep_execution t) by (both_touch; reflexivity). rewrite K.
  assert (E : m_extra s = m_extra t) by (both_touch; reflexivity). rewrite E.
  destruct (keep_execution t) as [k|]; [|now split]. destruct (same_inf_step s t H) as [H1 H2].
  destruct (inf_step s) as [s1 r1], (inf_step t) as [t1 r2]. cbn in *. subst r2. destruct r1; [now apply IH|now split].
Qed.
Lemma same_iterative : same alike iterative_inference.
Proof.
  intros s t H. unfold iterative_inference.
  assert (A : alike_it (set_iters 1 s) (set_iters 1 t)) by (both_touch; split; reflexivity).
  assert (E : m_maxit s = m_maxit t /\ m_extra s = m_extra t) by (clear A; both_touch; split; reflexivity). destruct E as [E1 E2].
  cbn [m_maxit m_extra set_iters]. rewrite E1, E2. destruct (same_loop (Z.to_nat (Z.max (m_maxit t) 0 + m_extra t)) (m_extra t - 1) _ _ A) as [[H1 _] H2].
  split; auto.
Qed.
(** vectorized engine, collecting its data afresh *)
Lemma same_vectorized_fresh s t : alike s t ->
  both alike (vectorized_inference (set_prepared false s)) (vectorized_inference (set_prepared false t)).
Proof.
  intros H. both_touch. unfold vectorized_inference. cbn [m_prepared set_prepared touch].
  change (prepare (set_prepared false (touch zi zp zk zb s))) with (prepare (set_prepared false s)).
  destruct (prepare (set_prepared false s)) as [c|e]; [|now split].
  cbn [m_topo m_maxit m_sdiff m_extra m_oob m_exec set_cache set_oob set_prepared touch].
  destruct (vc_functions c); [now split|].
  match goal with |- context [vectorized_run ?a ?b ?c ?d ?e ?f ?g ?h ?i ?j] =>
      destruct (vectorized_run a b c d e f g h i j) as [[[buf oob] zz]|e'] end; [|now split].
  destruct (Nat.eqb _ 0); now split.
Qed.
Lemma run_alike r s t : alike s t -> (m_debug s = false -> fresh_data s /\ fresh_data t /\ m_topo s <> []) ->
  alike (fst (run_inference r s)) (fst (run_inference r t)) /\
  (snd (run_inference r s) = Ok tt <-> snd (run_inference r t) = Ok tt).
Proof.
  intros H Hf. unfold run_inference.
  set (rs := if r then reset_execution s else (s, Ok tt)). set (rt := if r then reset_execution t else (t, Ok tt)).
  assert (R : both alike rs rt) by (unfold rs, rt; destruct r; [now apply same_reset|now split]).
  assert (Fs : frame s (fst rs)) by (unfold rs; destruct r; [apply reset_frame|apply frame_refl]).
  assert (Ft : frame t (fst rt)) by (unfold rt; destruct r; [apply reset_frame|apply frame_refl]).
  destruct rs as [s1 r1], rt as [t1 r2]. destruct R as [R E]. cbn [fst snd] in *. subst r2.
  destruct r1 as [[]|e]; [|split; [exact R|tauto]].
  assert (Ds : m_debug s1 = m_debug s) by (destruct Fs as (_ & _ & S & _); apply settings_max in S; apply S).
  assert (Dt : m_debug t1 = m_debug s1) by (clear - R; both_touch; reflexivity). rewrite Dt.
  assert (V : let a := if m_debug s1 then iterative_inference s1 else vectorized_inference s1 in
              let b := if m_debug s1 then iterative_inference t1 else vectorized_inference t1 in
              alike (fst a) (fst b) /\ ((exists u v, snd a = Err u /\ snd b = Err v) \/ snd a = snd b)).
  { cbv zeta. destruct (m_debug s1) eqn:D.
    - destruct (same_iterative s1 t1 R). auto.
    - destruct (Hf (eq_sym Ds)) as (H1 & H2 & H3).
      assert (N1 : m_topo s1 <> []).
      { destruct Fs as (S & _). apply statics_keys in S. intros G. rewrite G in S. now destruct (m_topo s). }
      assert (N2 : m_topo t1 <> []) by (clear - R N1; both_touch; exact N1).
      destruct (vectorized_current s1 (fresh_frame _ _ Fs H1) N1) as [V1 W1].
      destruct (vectorized_current t1 (fresh_frame _ _ Ft H2) N2) as [V2 W2].
      destruct (same_vectorized_fresh s1 t1 R) as [V3 W3].
      assert (Vi : forall x y, visible x = visible y -> alike x y).
      { clear. intros x y E. unfold visible in E. unfold alike, core. congruence. }
      split.
      + eapply alike_trans; [apply Vi, V1|]. eapply alike_trans; [exact V3|]. apply alike_sym, Vi, V2.
      + destruct W1 as [(e1 & e1' & A1 & A2)|W1], W2 as [(e2 & e2' & B1 & B2)|W2].
        * left. rewrite A1, B1. eauto.
        * left. rewrite A1, W2, <- W3, A2. eauto.
        * left. rewrite W1, W3, B1, B2. eauto.
        * right. congruence. }
  cbv zeta in V.
  destruct (if m_debug s1 then iterative_inference s1 else vectorized_inference s1) as [s2 r1].
  destruct (if m_debug s1 then iterative_inference t1 else vectorized_inference t1) as [t2 r2]. cbn [fst snd] in *.
  destruct V as [V W].
  assert (E2 : dkeys (m_topo s2) = dkeys (m_topo t2)) by (clear - V; both_touch; reflexivity).
  destruct r1 as [u1|e1], r2 as [u2|e2].
  - rewrite E2. destruct (same_mfold alike finalize_one (dkeys (m_topo t2)) same_finalize s2 t2 V) as [V1 V2]. rewrite V2. split; [exact V1|tauto].
  - destruct W as [(u & v & W & _)|W]; discriminate.
  - destruct W as [(u & v & _ & W)|W]; discriminate.
  - split; [exact V|]. split; discriminate.
Qed.
(** clearing makes maps of the same structure alike *)
Lemma clear_spec s : NoDup (dkeys (m_topo s)) -> keys_eq s ->
  let s' := fst (clear_execution s) in
  snd (clear_execution s) = Ok tt /\ m_topo s' = statics s /\
  m_exec s' = map (fun c => (c, [n0])) (dkeys (m_topo s)) /\ m_arcs s' = m_arcs s /\ settings s' = settings s.
Proof.
  intros ND K. cbv zeta. destruct (clear_values s) as [C1 C2]. pose proof (clear_exec_frame s) as (F1 & F2 & F3 & _).
  pose proof (statics_keys _ _ F1) as Kt.
  assert (G : forall l s', (forall c, In c l -> In c (dkeys (m_topo s'))) ->
    (forall c n, (In c l \/ forall n', dget (m_topo s') c = Some n' -> nd_static n' = n') -> dget (m_topo (fst (mfold clear_one l s'))) c = Some n -> nd_static n = n) /\
    dkeys (m_exec (fst (mfold clear_one l s'))) = fold_left (fun ks c => if existsb (String.eqb c) ks then ks else ks ++ [c]) l (dkeys (m_exec s'))).
  { induction l as [|a l IH]; intros s' Hl; cbn [mfold fold_left].
    - split; auto. intros c n [[]|H] E. now apply H.
    - destruct (proj2 (dget_Some_In (m_topo s') a) (Hl a (or_introl eq_refl))) as [n Hn].
      unfold clear_one at 1 3. rewrite Hn. set (s2 := put_exec a [n0] (put_node a (nd_set_value n0 (nd_set_aux [] n)) s')).
      destruct (IH s2) as [I1 I2].
      { intros c Hc. unfold s2, put_exec, put_node. cbn [m_topo set_exec set_topo]. apply dkeys_dset_In. right. apply Hl. now right. }
      split.
      + intros c n1 Hc. apply I1. destruct (string_dec c a) as [->|Hne].
        * right. intros n'. unfold s2, put_exec, put_node. cbn [m_topo set_exec set_topo]. rewrite dget_dset_same. intros [= <-]. now destruct n.
        * destruct Hc as [[->|Hc]|Hc]; [congruence|now left|right]. intros n'.
          unfold s2, put_exec, put_node. cbn [m_topo set_exec set_topo]. rewrite dget_dset_other by auto. apply Hc.
      + rewrite I2. unfold s2, put_exec, put_node. cbn [m_exec set_exec set_topo]. f_equal.
        rewrite dkeys_dset. unfold dmem. destruct (dget (m_exec s') a) eqn:E.
        * destruct (existsb (String.eqb a) (dkeys (m_exec s'))) eqn:E2; auto. exfalso.
          assert (Hin : In a (dkeys (m_exec s'))) by (apply dget_Some_In; eauto). apply str_mem_In in Hin. unfold str_mem in Hin. congruence.
        * destruct (existsb (String.eqb a) (dkeys (m_exec s'))) eqn:E2; auto. exfalso.
          assert (Hin : In a (dkeys (m_exec s'))) by (apply str_mem_In; exact E2). apply dget_Some_In in Hin as [h Hin]. congruence. }
  destruct (G (dkeys (m_topo s)) s (fun c H => H)) as [G1 G2]. fold (clear_execution s) in G1, G2.
  split; auto. split; [|split; [|split; auto]].
  - rewrite <- F1. unfold statics, dmap.
    assert (X : forall l : dict (node F), (forall c n, In (c, n) l -> nd_static n = n) -> l = map (fun p => (fst p, nd_static (snd p))) l).
    { induction l as [|[c n] l IH]; cbn; intros H; auto. rewrite (H c n) by now left. f_equal. apply IH. eauto. }
    apply X. intros c n Hin. apply (G1 c n).
    + left. rewrite <- Kt. now apply (in_map fst) in Hin.
    + apply In_dget; auto. now rewrite Kt.
  - assert (Ke : dkeys (m_exec (fst (clear_execution s))) = dkeys (m_topo s)).
    { rewrite G2, K. assert (Y : forall l ks, (forall c, In c l -> In c ks) -> fold_left (fun ks c => if existsb (String.eqb c) ks then ks else ks ++ [c]) l ks = ks).
      { induction l as [|c l IH]; intros ks H; cbn; auto.
        assert (E : existsb (String.eqb c) ks = true) by (apply (proj2 (str_mem_In c ks)); apply H; now left). rewrite E. apply IH. intros x Hx. apply H. now right. }
      apply Y. auto. }
    assert (X : forall l : dict (list F), (forall c h, In (c, h) l -> h = [n0]) -> l = map (fun c => (c, [n0])) (dkeys l)).
    { induction l as [|[c h] l IH]; cbn; intros H; auto. rewrite (H c h) by now left. f_equal. apply IH. eauto. }
    rewrite <- Ke. apply X. intros c h Hin.
    assert (Hc : In c (dkeys (m_topo s))) by (rewrite <- Ke; now apply (in_map fst) in Hin).
    destruct (C2 c Hc) as [_ C3]. unfold history in C3.
    apply In_dget in Hin; [congruence|]. now rewrite Ke.
Qed.
Lemma clear_alike s t : NoDup (dkeys (m_topo s)) -> keys_eq s -> NoDup (dkeys (m_topo t)) -> keys_eq t -> wframe s t ->
  alike (fst (clear_execution s)) (fst (clear_execution t)).
Proof.
  intros N1 K1 N2 K2 (W1 & W2 & W3). destruct (clear_spec s N1 K1) as (_ & A1 & A2 & A3 & A4). destruct (clear_spec t N2 K2) as (_ & B1 & B2 & B3 & B4).
  unfold alike, core. rewrite A1, A2, A3, A4, B1, B2, B3, B4, W1, W2, W3. now rewrite (statics_keys _ _ W1).
Qed.
End View.
