(** Dynamics.v — comparing runs (C69–C72). *)
From Coq Require Import Reals Lra.
From Verif Require Import Base BaseFacts Num Functions Spec SortFacts RealFacts Fcm FcmSpec DynSpec FcmInv FcmInv2 FcmInv3 FcmIter FcmRun FcmRun2 FcmRun3 FcmOrder FcmStop.
Local Close Scope R_scope.

Section Compare.
Context {F : Type} {N : Num F}.
Notation fcm := (fcm F).
Implicit Types (s t : fcm).

(** a successful run as a trajectory *)
Record track s s' (L : nat) (x : nat -> string -> F) : Prop := {
  tk_orbit : orbit (m_topo s) (m_arcs s) x L;
  tk_start : forall c, In c (concepts s) -> initial s c = Some (x 0 c);
  tk_hist : forall c, In c (concepts s) -> history s' c = Some (map (fun k => x k c) (seq 0 (S L)));
  tk_keys : forall c, history s' c <> None -> In c (concepts s);
  tk_stop : idle_for s s' (Z.to_nat (m_extra s - 1)) L /\ forall l, l < L -> ~ idle_for s s' (Z.to_nat (m_extra s - 1)) l;
  tk_value : forall c h, In c (concepts s) -> history s' c = Some h ->
     exists d v, get_decision_by_name (m_decision s) = Some d /\
       exec_decision d h (Z.of_nat (length h) - m_extra s - 1) = Ok v /\ value s' c = Some v
}.
Lemma run_track s s' : sane s -> m_debug s = true -> run_inference true s = (s', Ok tt) ->
  exists L x, track s s' L x.
Proof.
  intros Hs D E. pose proof (sane_base s Hs) as B.
  destruct (run_ok true s s' D B ltac:(discriminate) E) as (L & x & RD).
  destruct (run_exact_stop s s' Hs D E) as (L' & _ & HI & Stop).
  assert (L' = L) as -> by (pose proof (rd_iters _ _ _ _ _ RD); lia).
  assert (HH : forall c, In c (concepts s) -> history s' c = Some (map (fun k => x k c) (seq 0 (S L)))).
  { intros c Hc. pose proof (rd_hist _ _ _ _ _ RD c Hc) as Hh. pose proof (rd_x0 _ _ _ _ _ RD c Hc) as X0.
    cbn [start_value] in X0. unfold history. rewrite Hh. cbn [seq map]. unfold start. unfold initial, history in X0.
    destruct (dget (m_exec s) c) as [[|v h]|]; try discriminate. injection X0 as ->. cbn [app]. do 2 f_equal.
    unfold traj. rewrite <- seq_shift, map_map. reflexivity. }
  exists L, x. constructor.
  - intros k c n Hk Hn. destruct B as (_ & Hf & _). apply next_fn_value; auto; [now apply (Hf c)|].
    apply (rd_orbit _ _ _ _ _ RD); auto. apply dget_Some_In. eauto.
  - intros c Hc. exact (rd_x0 _ _ _ _ _ RD c Hc).
  - exact HH.
  - intros c Hc. unfold concepts. rewrite <- (proj1 (rd_keys _ _ _ _ _ RD)).
    apply dget_Some_In. unfold history in Hc. destruct (dget (m_exec s') c); [eauto|congruence].
  - exact Stop.
  - exact (rd_final _ _ _ _ _ RD).
Qed.

Lemma track_nth s s' L x c h k v : track s s' L x -> history s' c = Some h -> nth_error h k = Some v ->
  In c (concepts s) /\ k <= L /\ v = x k c.
Proof.
  intros T Hh Hv. assert (Hc : In c (concepts s)) by (apply (tk_keys _ _ _ _ T); congruence).
  rewrite (tk_hist _ _ _ _ T c Hc) in Hh. split; auto.
  assert (h = map (fun k => x k c) (seq 0 (S L))) as -> by congruence.
  apply nth_error_map_inv in Hv as (i & Hi & <-).
  assert (k < S L). { pose proof (nth_error_Some (seq 0 (S L)) k) as NS. rewrite Hi, seq_length in NS. apply NS. discriminate. }
  rewrite (nth_error_nth' _ 0) in Hi by (rewrite seq_length; auto). rewrite seq_nth in Hi by auto. injection Hi as <-.
  split; [lia|reflexivity].
Qed.
Lemma track_nth' s s' L x c k : track s s' L x -> In c (concepts s) -> k <= L ->
  exists h, history s' c = Some h /\ nth_error h k = Some (x k c).
Proof.
  intros T Hc Hk. eexists. split; [apply (tk_hist _ _ _ _ T c Hc)|].
  rewrite nth_error_map. rewrite (nth_error_nth' _ 0) by (rewrite seq_length; lia). rewrite seq_nth by lia. reflexivity.
Qed.

(** ** Runs that agree on a set of concepts *)
Definition next_at s (x : string -> F) (c : string) (y : F) : Prop :=
  exists n, dget (m_topo s) c = Some n /\ next_value (m_topo s) (m_arcs s) x c n y.
Lemma tracks_agree (P : string -> Prop) s t s' t' L L' x x' :
  track s s' L x -> track t t' L' x' ->
  (forall c, P c -> In c (concepts s) -> In c (concepts t)) ->
  (forall c, P c -> In c (concepts s) -> initial s c = initial t c) ->
  (forall u u' c y y', P c -> In c (concepts s) -> (forall o, P o -> In o (concepts s) -> u o = u' o) ->
     next_at s u c y -> next_at t u' c y' -> y = y') ->
  forall k c, k <= L -> k <= L' -> P c -> In c (concepts s) -> x k c = x' k c.
Proof.
  intros T T' Hin Hi Hn. induction k as [|k IH]; intros c HL HL' Hp Hc.
  - pose proof (tk_start _ _ _ _ T c Hc) as A. pose proof (tk_start _ _ _ _ T' c (Hin c Hp Hc)) as B.
    rewrite (Hi c Hp Hc) in A. congruence.
  - apply (Hn (x k) (x' k) c); auto.
    + intros o Ho Hc'. apply IH; auto; lia.
    + destruct (proj2 (dget_Some_In (m_topo s) c) Hc) as [n Hn']. exists n. split; auto. apply (tk_orbit _ _ _ _ T); auto.
    + destruct (proj2 (dget_Some_In (m_topo t) c) (Hin c Hp Hc)) as [n Hn']. exists n. split; auto. apply (tk_orbit _ _ _ _ T'); auto.
Qed.
(** with the same settings and every concept covered, the runs are the same *)
Lemma tracks_equal s t s' t' L L' x x' :
  track s s' L x -> track t t' L' x' -> concepts s = concepts t -> settings t = settings s ->
  (forall k c, k <= L -> k <= L' -> In c (concepts s) -> x k c = x' k c) ->
  forall c, history t' c = history s' c /\ (In c (concepts s) -> value t' c = value s' c).
Proof.
  intros T T' Hc Se Ha.
  destruct (settings_max _ _ Se) as (M1 & M2 & M3 & M4 & M5 & _).
  assert (IE : forall l, l <= L -> l <= L' -> idle_for s s' (Z.to_nat (m_extra s - 1)) l <-> idle_for t t' (Z.to_nat (m_extra t - 1)) l).
  { intros l Hl Hl'. unfold idle_for. rewrite M2.
    assert (I : forall p, p <= l -> idle s s' p <-> idle t t' p).
    { intros p Hp. unfold idle. rewrite M1, M3, M4.
      assert (C : (2 <= p)%nat -> (forall c h a b, history s' c = Some h -> nth_error h (p - 1) = Some a -> nth_error h (p - 2) = Some b ->
                    nltb (m_sdiff s) (nabs (nsub a b)) = false) <->
                  (forall c h a b, history t' c = Some h -> nth_error h (p - 1) = Some a -> nth_error h (p - 2) = Some b ->
                    nltb (m_sdiff s) (nabs (nsub a b)) = false)).
      { intros Hp2. split; intros H c h a b Hh Hna Hnb.
        - destruct (track_nth _ _ _ _ _ _ _ _ T' Hh Hna) as (Hcc & Hk & ->). destruct (track_nth _ _ _ _ _ _ _ _ T' Hh Hnb) as (_ & _ & ->).
          rewrite <- Hc in Hcc. rewrite <- !Ha by (auto; lia).
          eapply (H c); [apply (tk_hist _ _ _ _ T c Hcc)| |]; rewrite nth_error_map, (nth_error_nth' _ 0) by (rewrite seq_length; lia); rewrite seq_nth by lia; reflexivity.
        - destruct (track_nth _ _ _ _ _ _ _ _ T Hh Hna) as (Hcc & Hk & ->). destruct (track_nth _ _ _ _ _ _ _ _ T Hh Hnb) as (_ & _ & ->).
          rewrite !Ha by (auto; lia). assert (Hcc' := Hcc). rewrite Hc in Hcc'.
          eapply (H c); [apply (tk_hist _ _ _ _ T' c Hcc')| |]; rewrite nth_error_map, (nth_error_nth' _ 0) by (rewrite seq_length; lia); rewrite seq_nth by lia; reflexivity. }
      split; (intros [H|(H1 & H2 & H3)]; [now left|right]); (split; [auto|]; split; [auto|]); now apply (C H2). }
    split; intros [H1 H2]; (split; [auto|]); intros p Hp; apply I; auto; lia. }
  assert (L = L') as <-.
  { destruct (tk_stop _ _ _ _ T) as [S1 S2]. destruct (tk_stop _ _ _ _ T') as [S1' S2'].
    destruct (Nat.lt_trichotomy L L') as [H|[H|H]]; auto; exfalso.
    - apply (S2' L H). apply IE; auto; lia.
    - apply (S2 L' H). apply IE; auto; lia. }
  assert (HE : forall c, history t' c = history s' c).
  { intros c. destruct (in_dec string_dec c (concepts s)) as [Hin|Hin].
    - rewrite (tk_hist _ _ _ _ T c Hin). rewrite Hc in Hin. rewrite (tk_hist _ _ _ _ T' c Hin). rewrite <- Hc in Hin.
      f_equal. apply map_ext_in. intros k Hk. apply in_seq in Hk. symmetry. apply Ha; auto; lia.
    - destruct (history s' c) eqn:E1.
      + exfalso. apply Hin, (tk_keys _ _ _ _ T). congruence.
      + destruct (history t' c) eqn:E2; auto. exfalso. apply Hin. rewrite Hc. apply (tk_keys _ _ _ _ T'). congruence. }
  intros c. split; [apply HE|]. intros Hin.
  pose proof (tk_hist _ _ _ _ T c Hin) as Hh. pose proof (eq_trans (HE c) Hh) as Hh'.
  destruct (tk_value _ _ _ _ T c _ Hin Hh) as (d & v & V1 & V2 & V3). rewrite Hc in Hin.
  destruct (tk_value _ _ _ _ T' c _ Hin Hh') as (d' & v' & V1' & V2' & V3').
  rewrite M5 in V1'. rewrite M2 in V2'. congruence.
Qed.

(** ** Nodes with the same fixed part respond alike *)
Lemma next_value_det (tp tp' : dict (node F)) arcs arcs' u u' c n n' y y' : fixed_part n' = fixed_part n ->
  total_input tp arcs u c n = total_input tp' arcs' u' c n' ->
  next_value tp arcs u c n y -> next_value tp' arcs' u' c n' y' -> y = y'.
Proof.
  intros E T (f & fn & a & z & A1 & A2 & A3 & A4 & A5) (f' & fn' & a' & z' & B1 & B2 & B3 & B4 & B5).
  assert (E1 : nd_func n' = nd_func n) by (change (nd_func (fixed_part n') = nd_func (fixed_part n)); now rewrite E).
  assert (E2 : nd_args n' = nd_args n) by (change (nd_args (fixed_part n') = nd_args (fixed_part n)); now rewrite E).
  assert (E3 : nd_sum n' = nd_sum n) by (change (nd_sum (fixed_part n') = nd_sum (fixed_part n)); now rewrite E).
  rewrite E1, A1 in B1. injection B1 as <-. rewrite A2 in B2. injection B2 as <-. rewrite E2, A3 in B3. injection B3 as <-.
  rewrite T, <- E3 in A4. destruct (String.eqb f "fuzzy").
  - destruct A4 as [_ ->], B4 as [_ ->]. congruence.
  - subst. congruence.
Qed.
Lemma fixed_node s t c n : dmap (fun _ => fixed_part) (m_topo t) = dmap (fun _ => fixed_part) (m_topo s) ->
  dget (m_topo s) c = Some n -> exists n', dget (m_topo t) c = Some n' /\ fixed_part n' = fixed_part n.
Proof. exact (fun H => statics_dget s t c n H). Qed.
Lemma same_map_sym s t : same_map s t -> same_map t s.
Proof. intros (A & B & C). repeat split; auto. Qed.
Lemma same_map_keys s t : same_map s t -> concepts t = concepts s.
Proof. intros (A & _). now apply statics_keys. Qed.
Lemma fixed_fields (n n' : node F) : fixed_part n' = fixed_part n ->
  nd_active n' = nd_active n /\ nd_exec n' = nd_exec n /\ nd_mem n' = nd_mem n /\ nd_sum n' = nd_sum n /\ nd_func n' = nd_func n /\ nd_args n' = nd_args n.
Proof. unfold fixed_part. destruct n, n'. cbn. intros [= ]. subst. repeat split. Qed.
Lemma signal_fixed (n n' : node F) v : nd_exec n' = nd_exec n -> signal n' v = signal n v.
Proof. unfold signal. now intros ->. Qed.
Lemma incoming_fixed (tp tp' : dict (node F)) arcs u c :
  (forall d w o, In (d, w, o) arcs -> match dget tp o, dget tp' o with
     | Some n, Some n' => fixed_part n' = fixed_part n | None, None => True | _, _ => False end) ->
  incoming tp arcs u c = incoming tp' arcs u c.
Proof.
  intros H. apply incoming_ext; auto. intros o Ho. apply in_map_iff in Ho as ([[d w] o'] & E & Hin). cbn in E. subst o'.
  specialize (H d w o Hin). destruct (dget tp o), (dget tp' o); auto; try contradiction.
  apply fixed_fields in H as (A & B & _). auto.
Qed.
(** incoming values only depend on the origins of the arcs into [c] *)
Lemma incoming_origins (tp : dict (node F)) arcs u u' c :
  (forall w o, In (c, w, o) arcs -> u o = u' o) -> incoming tp arcs u c = incoming tp arcs u' c.
Proof.
  induction arcs as [|[[d w] o] arcs IH]; intros H; auto. cbn [incoming]. rewrite IH by (intros; eapply H; right; eauto).
  destruct (dget tp o) as [n|]; auto. destruct (String.eqb_spec d c) as [->|]; auto. cbn [andb].
  rewrite (H w o) by now left. reflexivity.
Qed.

(** ** C69 *)
Lemma locality_maps (P : string -> Prop) s t s' t' : sane s -> sane t -> m_debug s = true ->
  same_map s t -> (forall o d w, In (o, d, w) (relations s) -> P d -> P o) ->
  (forall c, P c -> In c (concepts s) -> initial s c = initial t c) ->
  run_inference true s = (s', Ok tt) -> run_inference true t = (t', Ok tt) ->
  forall c h h' k a b, P c -> history s' c = Some h -> history t' c = Some h' ->
    nth_error h k = Some a -> nth_error h' k = Some b -> a = b.
Proof.
  intros Hs Ht D M Hp Hi E E' c h h' k a b Pc Hh Hh' Ha Hb.
  assert (D' : m_debug t = true) by (destruct M as (_ & _ & S); apply settings_max in S as (_ & _ & _ & _ & _ & S); congruence).
  destruct (run_track s s' Hs D E) as (L & x & T). destruct (run_track t t' Ht D' E') as (L' & x' & T').
  destruct (track_nth _ _ _ _ _ _ _ _ T Hh Ha) as (Hc & HL & ->).
  destruct (track_nth _ _ _ _ _ _ _ _ T' Hh' Hb) as (_ & HL' & ->).
  apply (tracks_agree P s t s' t' L L'); auto.
  - intros d _ Hd. now rewrite (same_map_keys s t M).
  - clear - Hs M Hp.
    intros u u' c y y' Pc Hc Hu (n & Hn & V) (n' & Hn' & V').
    destruct M as (M1 & M2 & M3). destruct (fixed_node s t c n M1 Hn) as (n1 & Hn1 & Fx).
    rewrite Hn' in Hn1. injection Hn1 as <-.
    refine (next_value_det _ _ _ _ u u' c n n' y y' Fx _ V V'). rewrite M2.
    pose proof (fixed_fields _ _ Fx) as (_ & X2 & X3 & _).
    unfold total_input. rewrite X3. rewrite (signal_fixed _ _ _ X2).
    assert (I : incoming (m_topo s) (m_arcs s) u c = incoming (m_topo t) (m_arcs s) u' c).
    { rewrite (incoming_fixed (m_topo s) (m_topo t)).
      - apply incoming_origins. intros w o Ho. apply Hu.
        + apply (Hp o c w); auto. unfold relations. apply in_map_iff. exists (c, w, o). auto.
        + pose proof (sane_base s Hs) as (_ & _ & _ & A). now apply (A c w o).
      - intros d w o _. destruct (dget (m_topo s) o) as [no|] eqn:Eo.
        + destruct (fixed_node s t o no M1 Eo) as (no' & -> & X). exact X.
        + destruct (dget (m_topo t) o) as [no'|] eqn:Eo'; auto.
          destruct (fixed_node t s o no' (eq_sym M1) Eo') as (? & ? & _). congruence. }
    rewrite I, (Hu c Pc Hc). reflexivity.
Qed.
Lemma init_same_map j v s s1 : init_concept j v true s = (s1, Ok tt) -> same_map s s1.
Proof.
  intros E. pose proof (init_concept_frame j v true s) as Fr. rewrite E in Fr. destruct Fr as (A & B & C & _). repeat split; auto.
Qed.
Lemma same_map_trans s t u : same_map s t -> same_map t u -> same_map s u.
Proof. intros (A & B & C) (A' & B' & C'). repeat split; congruence. Qed.
Lemma init_sane j v s s1 : sane s -> init_concept j v true s = (s1, Ok tt) -> sane s1.
Proof.
  intros Hs E. pose proof (from_fresh_snoc s (OpInitConcept j v true) Hs eq_refl) as Sa. cbn [step] in Sa. now rewrite E in Sa.
Qed.
Lemma locality j s v v' s1 s2 s1' s2' : sane s -> m_debug s = true ->
  init_concept j v true s = (s1, Ok tt) -> init_concept j v' true s = (s2, Ok tt) ->
  run_inference true s1 = (s1', Ok tt) -> run_inference true s2 = (s2', Ok tt) ->
  forall c h h' k a b, ~ influences (relations s) j c -> history s1' c = Some h -> history s2' c = Some h' ->
    nth_error h k = Some a -> nth_error h' k = Some b -> a = b.
Proof.
  intros Hs D E1 E2 R1 R2. pose proof (init_same_map j v s s1 E1) as M1. pose proof (init_same_map j v' s s2 E2) as M2.
  assert (RE : relations s1 = relations s) by (destruct M1 as (_ & A & _); unfold relations; now rewrite A).
  apply (locality_maps (fun c => ~ influences (relations s) j c) s1 s2 s1' s2').
  - now apply (init_sane j v s).
  - now apply (init_sane j v' s).
  - destruct M1 as (_ & _ & S). apply settings_max in S as (_ & _ & _ & _ & _ & S). congruence.
  - eapply same_map_trans; [apply same_map_sym; eauto|auto].
  - rewrite RE. intros o d w Hin Hd Ho. apply Hd. econstructor; eauto.
  - intros c Hc _. assert (c <> j) by (intros ->; apply Hc; constructor).
    replace s1 with (fst (init_concept j v true s)) by now rewrite E1.
    replace s2 with (fst (init_concept j v' true s)) by now rewrite E2. now rewrite !init_initial_other.
  - auto.
  - auto.
Qed.
(** an unconnected extra concept *)
Lemma isolated name ty act mem exc dat fn kw s s1 s' s1' : sane s -> m_debug s = true -> ~ In name (concepts s) ->
  add_concept name ty act mem exc dat fn kw s = (s1, Ok tt) ->
  run_inference true s = (s', Ok tt) -> run_inference true s1 = (s1', Ok tt) ->
  forall c h h' k a b, In c (concepts s) -> history s' c = Some h -> history s1' c = Some h' ->
    nth_error h k = Some a -> nth_error h' k = Some b -> a = b.
Proof.
  intros Hs D Hn Ea E E1 c h h' k a b Hc Hh Hh' Ha Hb.
  assert (Hs1 : sane s1).
  { destruct Hs as (p1 & p2 & p3 & p4 & p5 & p6 & p7 & p8 & s0 & ops & H1 & H2 & ->).
    exists p1, p2, p3, p4, p5, p6, p7, p8, s0, (ops ++ [OpAddConcept name ty act mem exc dat fn kw]). split; auto. split.
    - apply ok_when_app. split; auto. cbn [ok_when step]. rewrite Ea. auto.
    - unfold run_ops. rewrite fold_left_app. cbn [fold_left step]. unfold run_ops in Ea. now rewrite Ea. }
  assert (X : m_arcs s1 = m_arcs s /\ settings s1 = settings s /\
    (forall d, d <> name -> dget (m_topo s1) d = dget (m_topo s) d /\ dget (m_exec s1) d = dget (m_exec s) d)).
  { unfold add_concept in Ea. destruct (build_node _ _ _ _ _ _ _ _) as [n [u|e]]; [|discriminate].
    injection Ea as <-. split; [reflexivity|]. split; [reflexivity|]. intros d Hd.
    unfold put_node, put_exec. cbn [m_topo m_exec set_topo set_exec set_prepared].
    split; apply dget_dset_other; auto. }
  destruct X as (A & S & X).
  assert (D1 : m_debug s1 = true) by (apply settings_max in S as (_ & _ & _ & _ & _ & S); congruence).
  destruct (run_track s s' Hs D E) as (L & x & T). destruct (run_track s1 s1' Hs1 D1 E1) as (L' & x' & T').
  destruct (track_nth _ _ _ _ _ _ _ _ T Hh Ha) as (_ & HL & ->).
  destruct (track_nth _ _ _ _ _ _ _ _ T' Hh' Hb) as (_ & HL' & ->).
  assert (NE : forall d, In d (concepts s) -> d <> name) by (intros d Hd ->; auto).
  assert (Aok : forall d w o, In (d, w, o) (m_arcs s) -> In o (concepts s) /\ In d (concepts s)).
  { intros d w o Ho. pose proof (sane_base s Hs) as (_ & _ & _ & AI). destruct (AI d w o Ho). auto. }
  apply (tracks_agree (fun _ => True) s s1 s' s1' L L'); auto.
  - intros d _ Hd. apply dget_Some_In. destruct (X d (NE d Hd)) as [-> _]. now apply dget_Some_In.
  - intros d _ Hd. unfold initial, history. destruct (X d (NE d Hd)) as [_ ->]. reflexivity.
  - clear - X NE Aok A.
    intros u u' c y y' _ Hc Hu (n & Hnn & V) (n' & Hn' & V').
    destruct (X c (NE c Hc)) as [Xc _]. rewrite Xc, Hnn in Hn'. injection Hn' as <-.
    refine (next_value_det _ _ _ _ u u' c n n y y' eq_refl _ V V'). rewrite A. unfold total_input.
    assert (I : incoming (m_topo s) (m_arcs s) u c = incoming (m_topo s1) (m_arcs s) u' c).
    { rewrite (incoming_fixed (m_topo s) (m_topo s1)).
      - apply incoming_origins. intros w o Ho. apply Hu; auto. now apply (Aok c w o).
      - intros d w o Ho. destruct (X o) as [-> _]; [apply NE; now apply (Aok d w o)|]. destruct (dget (m_topo s) o); auto. }
    rewrite I, (Hu c Logic.I Hc). reflexivity.
Qed.
End Compare.
