(** Dynamics3.v — runs of monotone and contracting maps, redundant relations
    (C70–C72). *)
From Coq Require Import Reals Lra.
From Verif Require Import Base BaseFacts Num Functions Spec SortFacts RealFacts FunctionsFacts Fcm FcmSpec DynSpec FcmInv FcmInv2 FcmInv3 FcmIter FcmRun FcmRun2 FcmRun3 FcmOrder FcmStop Dynamics Dynamics2.
Local Open Scope R_scope.
Notation rmap := (fcm R).

Lemma relations_arcs (s : rmap) o d w : In (d, w, o) (m_arcs s) <-> In (o, d, w) (relations s).
Proof.
  unfold relations. rewrite in_map_iff. split.
  - intros H. exists (d, w, o). auto.
  - intros ([[d' w'] o'] & E & H). injection E as -> -> ->. exact H.
Qed.
(** the recurrence of [t] read on [s] when the two are the same map *)
Lemma orbit_same (s t : rmap) x L : same_map s t -> orbit (m_topo t) (m_arcs t) x L -> orbit (m_topo s) (m_arcs s) x L.
Proof.
  intros M O k c n Hk Hn. destruct M as (M1 & M2 & M3). destruct (fixed_node s t c n M1 Hn) as (n' & Hn' & Fx).
  pose proof (O k c n' Hk Hn') as (f & fn & a & z & A1 & A2 & A3 & A4 & A5).
  destruct (fixed_fields _ _ Fx) as (X1 & X2 & X3 & X4 & X5 & X6).
  exists f, fn, a, z. rewrite X5 in A1. rewrite X6 in A3. rewrite X4 in A4. rewrite M2 in A4.
  assert (I : incoming (m_topo t) (m_arcs s) (x k) c = incoming (m_topo s) (m_arcs s) (x k) c).
  { symmetry. apply incoming_fixed. intros d w o _. destruct (dget (m_topo s) o) as [no|] eqn:Eo.
    - destruct (fixed_node s t o no M1 Eo) as (no' & -> & X). exact X.
    - destruct (dget (m_topo t) o) as [no'|] eqn:Eo'; auto.
      destruct (fixed_node t s o no' (eq_sym M1) Eo') as (? & ? & _). congruence. }
  assert (TI : total_input (m_topo t) (m_arcs s) (x k) c n' = total_input (m_topo s) (m_arcs s) (x k) c n).
  { unfold total_input. rewrite I, X3, (signal_fixed _ _ _ X2). reflexivity. }
  rewrite TI in A4. repeat split; auto.
Qed.

(** ** C70 *)
Lemma orbit_mono (tp : dict (node R)) arcs x x' L :
  (forall d w o, In (d, w, o) arcs -> 0 <= w /\ In o (dkeys tp)) ->
  (forall c n, dget tp c = Some n -> monotone_node n) ->
  orbit tp arcs x L -> orbit tp arcs x' L ->
  (forall c, In c (dkeys tp) -> x 0%nat c <= x' 0%nat c) ->
  forall k c, (k <= L)%nat -> In c (dkeys tp) -> x k c <= x' k c.
Proof.
  intros Ha Hm O O' H0. induction k as [|k IH]; intros c Hk Hc; [auto|].
  assert (Hc' := Hc). apply dget_Some_In in Hc' as [n Hn].
  apply (Hm c n Hn (total_input tp arcs (x k) c n) (total_input tp arcs (x' k) c n)).
  - rewrite !total_input_R. apply Rplus_le_compat.
    + apply incoming_mono. intros d w o Ho. destruct (Ha d w o Ho) as [Hw Hin]. split; auto. apply IH; auto. lia.
    + destruct (match nd_mem n with Some b => b | None => false end); [|lra]. apply signal_mono. apply IH; auto. lia.
  - apply next_responds, O; auto.
  - apply next_responds, O'; auto.
Qed.
Lemma monotone_runs (s t s' t' : rmap) : sane s -> sane t -> m_debug s = true -> same_map s t -> monotone_map s ->
  (forall c a b, initial s c = Some a -> initial t c = Some b -> a <= b) ->
  run_inference true s = (s', Ok tt) -> run_inference true t = (t', Ok tt) ->
  forall c h h' k a b, history s' c = Some h -> history t' c = Some h' ->
    nth_error h k = Some a -> nth_error h' k = Some b -> a <= b.
Proof.
  intros Hs Ht D M [Hw Hm] Hi E E' c h h' k a b Hh Hh' Ha Hb.
  assert (D' : m_debug t = true) by (destruct M as (_ & _ & S); apply settings_max in S as (_ & _ & _ & _ & _ & S); congruence).
  destruct (run_track s s' Hs D E) as (L & x & T). destruct (run_track t t' Ht D' E') as (L' & x' & T').
  destruct (track_nth _ _ _ _ _ _ _ _ T Hh Ha) as (Hc & HL & ->).
  destruct (track_nth _ _ _ _ _ _ _ _ T' Hh' Hb) as (Hc' & HL' & ->).
  apply (orbit_mono (m_topo s) (m_arcs s) x x' (Nat.min L L')); auto; try lia.
  - intros d w o Ho. split; [apply (Hw o d w); now apply relations_arcs|].
    pose proof (sane_base s Hs) as (_ & _ & _ & A). now apply (A d w o).
  - intros q d n Hq. apply (tk_orbit _ _ _ _ T). lia.
  - apply (orbit_same s t); auto. intros q d n Hq. apply (tk_orbit _ _ _ _ T'). lia.
  - intros d Hd. apply (Hi d); [apply (tk_start _ _ _ _ T); auto|apply (tk_start _ _ _ _ T')].
    now rewrite (same_map_keys s t M).
Qed.
Lemma monotone_init j (s s1 s2 s1' s2' : rmap) v v' : sane s -> m_debug s = true -> monotone_map s ->
  (forall n, dget (m_topo s) j = Some n -> nd_func n <> Some "fuzzy") -> v <= v' ->
  init_concept j v true s = (s1, Ok tt) -> init_concept j v' true s = (s2, Ok tt) ->
  run_inference true s1 = (s1', Ok tt) -> run_inference true s2 = (s2', Ok tt) ->
  forall c h h' k a b, history s1' c = Some h -> history s2' c = Some h' ->
    nth_error h k = Some a -> nth_error h' k = Some b -> a <= b.
Proof.
  intros Hs D [Hw Hm] Hj Hv E1 E2 R1 R2. pose proof (init_same_map j v s s1 E1) as M1. pose proof (init_same_map j v' s s2 E2) as M2.
  apply (monotone_runs s1 s2 s1' s2').
  - now apply (init_sane j v s).
  - now apply (init_sane j v' s).
  - destruct M1 as (_ & _ & S). apply settings_max in S as (_ & _ & _ & _ & _ & S). congruence.
  - eapply same_map_trans; [apply same_map_sym; eauto|auto].
  - destruct M1 as (A & B & _). split.
    + unfold relations. rewrite B. exact Hw.
    + intros c n Hn. destruct (fixed_node s1 s c n (eq_sym A) Hn) as (n' & Hn' & Fx). specialize (Hm c n' Hn').
      destruct (fixed_fields _ _ Fx) as (_ & _ & _ & X4 & X5 & X6).
      intros u w y z Huw Q1 Q2. apply (Hm u w y z Huw); [clear Q2; rename Q1 into Q|clear Q1; rename Q2 into Q];
        destruct Q as (f & fn & a & C1 & C2 & C3 & C4); exists f, fn, a; rewrite X4, X5, X6; auto.
  - intros c a b Ha Hb. destruct (string_dec c j) as [->|Hne].
    + unfold init_concept in E1, E2. destruct (dget (m_topo s) j) as [n|] eqn:En; [|discriminate].
      destruct (nd_func n) as [f|] eqn:Ef; cbn [oget rbind] in E1, E2; [|discriminate].
      destruct (String.eqb_spec f "fuzzy") as [->|]; [exfalso; now apply (Hj n eq_refl)|].
      injection E1 as <-. injection E2 as <-. unfold initial, history, put_node, put_exec in Ha, Hb.
      cbn [m_exec set_exec set_topo] in Ha, Hb. rewrite dget_dset_same in Ha, Hb. congruence.
    + replace s1 with (fst (init_concept j v true s)) in Ha by now rewrite E1.
      replace s2 with (fst (init_concept j v' true s)) in Hb by now rewrite E2.
      rewrite init_initial_other in Ha, Hb by auto. rewrite Ha in Hb. injection Hb as ->. lra.
  - auto.
  - auto.
Qed.
(** a first step upwards is followed by steps upwards *)
Lemma monotone_climbs (s s' : rmap) : sane s -> m_debug s = true -> monotone_map s -> run_inference true s = (s', Ok tt) ->
  (forall c h a b, history s' c = Some h -> nth_error h 0 = Some a -> nth_error h 1 = Some b -> a <= b) ->
  forall c h k a b, history s' c = Some h -> nth_error h k = Some a -> nth_error h (S k) = Some b -> a <= b.
Proof.
  intros Hs D [Hw Hm] E H0 c h k a b Hh Ha Hb. destruct (run_track s s' Hs D E) as (L & x & T).
  destruct (track_nth _ _ _ _ _ _ _ _ T Hh Ha) as (Hc & HL & ->).
  destruct (track_nth _ _ _ _ _ _ _ _ T Hh Hb) as (_ & HL' & ->).
  apply (orbit_mono (m_topo s) (m_arcs s) x (fun k => x (S k)) (L - 1)); auto; try lia.
  - intros d w o Ho. split; [apply (Hw o d w); now apply relations_arcs|].
    pose proof (sane_base s Hs) as (_ & _ & _ & A). now apply (A d w o).
  - intros q d n Hq. apply (tk_orbit _ _ _ _ T). lia.
  - intros q d n Hq. apply (tk_orbit _ _ _ _ T). lia.
  - intros d Hd. destruct (track_nth' s s' L x d 0 T Hd ltac:(lia)) as (g & Hg & G0).
    destruct (track_nth' s s' L x d 1 T Hd ltac:(lia)) as (g' & Hg' & G1). rewrite Hg in Hg'. injection Hg' as <-.
    exact (H0 d g _ _ Hg G0 G1).
Qed.

(** ** C72 *)
Lemma orbit_contract (tp : dict (node R)) arcs x x' L q D :
  (forall d w o, In (d, w, o) arcs -> In o (dkeys tp)) ->
  (forall c n, dget tp c = Some n -> exists K, lipschitz_node K n /\ K * gain tp arcs c n <= q) ->
  orbit tp arcs x L -> orbit tp arcs x' L ->
  (forall c, In c (dkeys tp) -> Rabs (x 0%nat c - x' 0%nat c) <= D) ->
  forall k c, (k <= L)%nat -> In c (dkeys tp) -> Rabs (x k c - x' k c) <= q ^ k * D.
Proof.
  intros Ha Hm O O' H0. induction k as [|k IH]; intros c Hk Hc; [cbn [pow]; rewrite Rmult_1_l; auto|].
  assert (Hc' := Hc). apply dget_Some_In in Hc' as [n Hn].
  destruct (Hm c n Hn) as (K & [K0 HK] & Hq).
  pose proof (HK _ _ _ _ (next_responds _ _ _ _ _ _ (O k c n ltac:(lia) Hn)) (next_responds _ _ _ _ _ _ (O' k c n ltac:(lia) Hn))) as B.
  assert (I : Rabs (total_input tp arcs (x k) c n - total_input tp arcs (x' k) c n) <= gain tp arcs c n * (q ^ k * D)).
  { apply input_lip; [|apply IH; auto; lia]. intros d w o Ho. apply IH; [lia|]. eapply Ha, Ho. }
  assert (QD : 0 <= q ^ k * D) by (eapply Rle_trans; [apply Rabs_pos|apply (IH c); auto; lia]).
  eapply Rle_trans; [exact B|]. eapply Rle_trans; [apply Rmult_le_compat_l; [exact K0|exact I]|].
  rewrite <- Rmult_assoc. cbn [pow]. rewrite (Rmult_assoc q). apply Rmult_le_compat_r; auto.
Qed.
Lemma contracting_runs (s t s' t' : rmap) q D0 : sane s -> sane t -> m_debug s = true -> same_map s t -> contracting s q ->
  (forall c a b, initial s c = Some a -> initial t c = Some b -> Rabs (a - b) <= D0) ->
  run_inference true s = (s', Ok tt) -> run_inference true t = (t', Ok tt) ->
  forall c h h' k a b, history s' c = Some h -> history t' c = Some h' ->
    nth_error h k = Some a -> nth_error h' k = Some b -> Rabs (a - b) <= q ^ k * D0.
Proof.
  intros Hs Ht D M Hm Hi E E' c h h' k a b Hh Hh' Ha Hb.
  assert (D' : m_debug t = true) by (destruct M as (_ & _ & S); apply settings_max in S as (_ & _ & _ & _ & _ & S); congruence).
  destruct (run_track s s' Hs D E) as (L & x & T). destruct (run_track t t' Ht D' E') as (L' & x' & T').
  destruct (track_nth _ _ _ _ _ _ _ _ T Hh Ha) as (Hc & HL & ->).
  destruct (track_nth _ _ _ _ _ _ _ _ T' Hh' Hb) as (Hc' & HL' & ->).
  apply (orbit_contract (m_topo s) (m_arcs s) x x' (Nat.min L L')); auto; try lia.
  - intros d w o Ho. pose proof (sane_base s Hs) as (_ & _ & _ & A). now apply (A d w o).
  - intros p d n Hq. apply (tk_orbit _ _ _ _ T). lia.
  - apply (orbit_same s t); auto. intros p d n Hq. apply (tk_orbit _ _ _ _ T'). lia.
  - intros d Hd. apply (Hi d); [apply (tk_start _ _ _ _ T); auto|apply (tk_start _ _ _ _ T')].
    now rewrite (same_map_keys s t M).
Qed.
Lemma contracting_steps (s s' : rmap) q D0 : sane s -> m_debug s = true -> contracting s q -> run_inference true s = (s', Ok tt) ->
  (forall c h a b, history s' c = Some h -> nth_error h 0 = Some a -> nth_error h 1 = Some b -> Rabs (b - a) <= D0) ->
  forall c h k a b, history s' c = Some h -> nth_error h k = Some a -> nth_error h (S k) = Some b -> Rabs (b - a) <= q ^ k * D0.
Proof.
  intros Hs D Hm E H0 c h k a b Hh Ha Hb. destruct (run_track s s' Hs D E) as (L & x & T).
  destruct (track_nth _ _ _ _ _ _ _ _ T Hh Ha) as (Hc & HL & ->).
  destruct (track_nth _ _ _ _ _ _ _ _ T Hh Hb) as (_ & HL' & ->).
  apply (orbit_contract (m_topo s) (m_arcs s) (fun k => x (S k)) x (L - 1)); auto; try lia.
  - intros d w o Ho. pose proof (sane_base s Hs) as (_ & _ & _ & A). now apply (A d w o).
  - intros p d n Hq. apply (tk_orbit _ _ _ _ T). lia.
  - intros p d n Hq. apply (tk_orbit _ _ _ _ T). lia.
  - intros d Hd. destruct (track_nth' s s' L x d 0 T Hd ltac:(lia)) as (g & Hg & G0).
    destruct (track_nth' s s' L x d 1 T Hd ltac:(lia)) as (g' & Hg' & G1). rewrite Hg in Hg'. injection Hg' as <-.
    exact (H0 d g _ _ Hg G0 G1).
Qed.
Lemma contracting_nonneg (s : rmap) q c : contracting s q -> In c (concepts s) -> 0 <= q.
Proof.
  intros H Hc. apply dget_Some_In in Hc as [n Hn]. destruct (H c n Hn) as (K & [K0 _] & Hq).
  pose proof (gain_nonneg (m_topo s) (m_arcs s) c n). nra.
Qed.
Lemma contracting_stops (s s' : rmap) q D0 M : sane s -> m_debug s = true -> m_stab s = true -> contracting s q -> q <= 1 ->
  run_inference true s = (s', Ok tt) ->
  (forall c h a b, history s' c = Some h -> nth_error h 0 = Some a -> nth_error h 1 = Some b -> Rabs (b - a) <= D0) ->
  q ^ M * D0 <= m_sdiff s ->
  forall c h, history s' c = Some h -> (Z.of_nat (length h) <= Z.of_nat M + 1 + m_extra s)%Z.
Proof.
  intros Hs D St Hm Hq E H0 HM c h Hh. destruct (run_track s s' Hs D E) as (L & x & T).
  pose proof (reachable_extra s (from_fresh_reachable _ _ Hs)) as HE.
  assert (Hc : In c (concepts s)) by (apply (tk_keys _ _ _ _ T); congruence).
  pose proof (contracting_nonneg s q c Hm Hc) as Q0.
  assert (Ln : length h = S L).
  { rewrite (tk_hist _ _ _ _ T c Hc) in Hh. injection Hh as <-. cbn [seq map length]. now rewrite map_length, seq_length. }
  set (En := Z.to_nat (m_extra s - 1)) in *.
  destruct (Nat.le_gt_cases L (M + 1 + En)) as [HL|HL]; [lia|]. exfalso.
  destruct (tk_stop _ _ _ _ T) as [_ S2]. apply (S2 _ HL). split; [lia|]. intros p Hp. right. split; [auto|]. split; [lia|].
  intros d g a b Hg Ha Hb.
  assert (Hb' : nth_error g (p - 2) = Some b) by exact Hb.
  assert (Ha' : nth_error g (S (p - 2)) = Some a) by (replace (S (p - 2)) with (p - 1)%nat by lia; exact Ha).
  pose proof (contracting_steps s s' q D0 Hs D Hm E H0 d g (p - 2) b a Hg Hb' Ha') as B.
  cbn [nltb nabs nsub RNum]. destruct (Rltb_spec (m_sdiff s) (Rabs (a - b))) as [Lt|Lt]; auto. exfalso.
  assert (P : q ^ (p - 2) * D0 <= q ^ M * D0).
  { assert (0 <= D0).
    { destruct (track_nth' s s' L x c 0 T Hc ltac:(lia)) as (g0 & Hg0 & G0).
      destruct (track_nth' s s' L x c 1 T Hc ltac:(lia)) as (g1 & Hg1 & G1). rewrite Hg0 in Hg1. injection Hg1 as <-.
      eapply Rle_trans; [apply Rabs_pos|exact (H0 c g0 _ _ Hg0 G0 G1)]. }
    apply Rmult_le_compat_r; auto.
    assert (Hge : (M <= p - 2)%nat) by lia. clear - Hge Q0 Hq.
    replace (p - 2)%nat with (M + (p - 2 - M))%nat by lia. generalize (p - 2 - M)%nat as r. intros r.
    rewrite pow_add. rewrite <- (Rmult_1_r (q ^ M)) at 2. apply Rmult_le_compat_l; [now apply pow_le|].
    induction r as [|r IH]; cbn [pow]; [lra|]. pose proof (pow_le q r Q0). nra. }
  lra.
Qed.

(** ** C71 *)
Lemma redundant_inputs (s t s' t' : rmap) : sane s -> sane t -> m_debug s = true ->
  settings t = settings s -> concepts t = concepts s -> (forall c, dget (m_exec t) c = dget (m_exec s) c) ->
  (forall c, option_map strip (dget (m_topo t) c) = option_map strip (dget (m_topo s) c)) ->
  (forall x c, Rsum (incoming (m_topo t) (m_arcs t) x c) = Rsum (incoming (m_topo s) (m_arcs s) x c)) ->
  run_inference true s = (s', Ok tt) -> run_inference true t = (t', Ok tt) ->
  forall c, history t' c = history s' c /\ (In c (concepts s) -> value t' c = value s' c).
Proof.
  intros Hs Ht D Se Cc Ex Tp Inc E E'.
  assert (D' : m_debug t = true) by (apply settings_max in Se as (_ & _ & _ & _ & _ & Se); congruence).
  destruct (run_track s s' Hs D E) as (L & x & T). destruct (run_track t t' Ht D' E') as (L' & x' & T').
  apply (tracks_equal s t s' t' L L' x x'); auto.
  intros k c HL HL' Hc. apply (tracks_agree (fun _ => True) s t s' t' L L'); auto.
  - intros d _ Hd. now rewrite Cc.
  - intros d _ _. unfold initial, history. now rewrite Ex.
  - intros u u' d y y' _ Hd Hu (n & Hn & V) (n' & Hn' & V').
    pose proof (Tp d) as Td. rewrite Hn, Hn' in Td. cbn [option_map] in Td. apply Some_inj in Td.
    destruct (strip_fields _ _ Td) as (_ & S2 & S3 & S4 & S5 & S6 & S7).
    assert (TI : total_input (m_topo s) (m_arcs s) u d n = total_input (m_topo t) (m_arcs t) u' d n').
    { rewrite !total_input_R, Inc, S5, (signal_fixed _ _ _ S4), (Hu d Logic.I Hd).
      f_equal. f_equal. apply incoming_origins. intros w o Ho. apply Hu; auto.
      pose proof (sane_base s Hs) as (_ & _ & _ & A). now apply (A d w o). }
    destruct V as (f & fn & a & z & A1 & A2 & A3 & A4 & A5). destruct V' as (f' & fn' & a' & z' & B1 & B2 & B3 & B4 & B5).
    rewrite S6, A1 in B1. injection B1 as <-. rewrite A2 in B2. injection B2 as <-. rewrite S7, A3 in B3. injection B3 as <-.
    rewrite TI, <- S2 in A4. destruct (String.eqb f "fuzzy").
    + destruct A4 as [_ ->], B4 as [_ ->]. congruence.
    + subst. congruence.
Qed.
Lemma sane_add_relation a b w (s : rmap) : sane s -> sane (fst (add_relation a b w s)).
Proof. intros H. exact (from_fresh_snoc s (OpAddRelation a b w) H eq_refl). Qed.
Lemma option_strip_sum (o : option (node R)) : option_map (fun n => nd_set_sum (nadd (nd_sum n) 0) (strip n)) o = option_map strip o.
Proof.
  destruct o as [n|]; auto. cbn [option_map]. f_equal. unfold strip, nd_set_sum, nd_set_arcs, nd_set_aux.
  destruct n. cbn. f_equal. lra.
Qed.
Lemma incoming_strip (tp tp' : dict (node R)) arcs x c :
  (forall o, option_map nd_active (dget tp' o) = option_map nd_active (dget tp o) /\ option_map nd_exec (dget tp' o) = option_map nd_exec (dget tp o)) ->
  incoming tp' arcs x c = incoming tp arcs x c.
Proof.
  intros H. apply incoming_ext; auto. intros o _. destruct (H o) as [H1 H2].
  destruct (dget tp' o), (dget tp o); cbn [option_map] in H1, H2; try discriminate; auto. split; congruence.
Qed.
Lemma incoming_app (tp : dict (node R)) l1 l2 x c : incoming tp (l1 ++ l2) x c = incoming tp l1 x c ++ incoming tp l2 x c.
Proof.
  induction l1 as [|[[d w] o] l1 IH]; auto. cbn [app incoming]. rewrite IH. destruct (dget tp o) as [n|]; auto.
  destruct (_ && _); reflexivity.
Qed.
Lemma add_relation_fields a b w (s : rmap) : m_fit s = None -> forall o,
  option_map nd_active (dget (m_topo (fst (add_relation a b w s))) o) = option_map nd_active (dget (m_topo s) o) /\
  option_map nd_exec (dget (m_topo (fst (add_relation a b w s))) o) = option_map nd_exec (dget (m_topo s) o).
Proof.
  intros Fi o. destruct (add_relation_strip a b w s Fi) as (_ & _ & _ & _ & _ & _ & Z). specialize (Z o).
  destruct (dget (m_topo (fst (add_relation a b w s))) o) as [n'|], (dget (m_topo s) o) as [n|]; cbn [option_map] in Z |- *; try discriminate; auto.
  apply Some_inj in Z. destruct (_ && _) in Z; unfold strip, nd_set_sum, nd_set_arcs, nd_set_aux in Z; destruct n, n'; cbn in Z |- *; injection Z; intros; subst; auto.
Qed.
Lemma zero_relation a b (s s' t' : rmap) : sane s -> m_debug s = true -> m_fit s = None ->
  run_inference true s = (s', Ok tt) -> run_inference true (fst (add_relation a b 0 s)) = (t', Ok tt) ->
  forall c, history t' c = history s' c /\ (In c (concepts s) -> value t' c = value s' c).
Proof.
  intros Hs D Fi E E'. pose proof (add_relation_fields a b 0 s Fi) as FF.
  destruct (add_relation_strip a b 0 s Fi) as (_ & Se & _ & Ex & Ke & Ar & Tp).
  set (t := fst (add_relation a b 0 s)) in *.
  apply (redundant_inputs s t s' t'); auto.
  - now apply sane_add_relation.
  - intros c. now rewrite Ex.
  - intros c. rewrite Tp. destruct (str_mem a _ && str_mem b _)%bool; cbn [andb]; [|reflexivity].
    destruct (String.eqb c b); [|reflexivity]. apply option_strip_sum.
  - intros x c. rewrite (incoming_strip (m_topo s) (m_topo t)) by exact FF. rewrite Ar.
    destruct (_ && _); [|reflexivity]. rewrite incoming_app, Rsum_app. cbn [incoming].
    destruct (dget (m_topo s) a) as [n|]; [|cbn; lra]. destruct (_ && _); cbn [Rsum fold_right nmul RNum]; lra.
Qed.
Lemma merged_relation a b w1 w2 (s s' t' : rmap) : sane s -> m_debug s = true -> m_fit s = None ->
  run_inference true (fst (add_relation a b (w1 + w2) s)) = (s', Ok tt) ->
  run_inference true (fst (add_relation a b w2 (fst (add_relation a b w1 s)))) = (t', Ok tt) ->
  forall c, history t' c = history s' c /\ (In c (concepts s) -> value t' c = value s' c).
Proof.
  intros Hs D Fi E E'.
  pose proof (add_relation_fields a b w1 s Fi) as F1. pose proof (add_relation_fields a b (w1 + w2) s Fi) as F3.
  destruct (add_relation_strip a b w1 s Fi) as (Fi1 & Se1 & _ & Ex1 & Ke1 & Ar1 & Tp1).
  destruct (add_relation_strip a b (w1 + w2) s Fi) as (_ & Se3 & _ & Ex3 & Ke3 & Ar3 & Tp3).
  pose proof (sane_add_relation a b w1 s Hs) as Sa1. pose proof (sane_add_relation a b (w1 + w2) s Hs) as Sa3.
  set (t1 := fst (add_relation a b w1 s)) in *. set (u := fst (add_relation a b (w1 + w2) s)) in *.
  pose proof (add_relation_fields a b w2 t1 Fi1) as F2.
  destruct (add_relation_strip a b w2 t1 Fi1) as (_ & Se2 & _ & Ex2 & Ke2 & Ar2 & Tp2).
  pose proof (sane_add_relation a b w2 t1 Sa1) as Sa2.
  set (t := fst (add_relation a b w2 t1)) in *. rewrite Ke1 in Ar2, Tp2.
  assert (Cc : concepts s = concepts u) by (symmetry; exact Ke3). rewrite Cc.
  apply (redundant_inputs u t s' t'); auto.
  - apply settings_max in Se3 as (_ & _ & _ & _ & _ & X). congruence.
  - congruence.
  - unfold concepts. congruence.
  - intros c. now rewrite Ex2, Ex1, Ex3.
  - intros c. rewrite Tp2, Tp3. specialize (Tp1 c).
    destruct (str_mem a _ && str_mem b _)%bool; cbn [andb] in *.
    + destruct (String.eqb c b).
      * destruct (dget (m_topo t1) c) as [m|], (dget (m_topo s) c) as [n|]; cbn [option_map] in Tp1 |- *; try discriminate; auto.
        apply Some_inj in Tp1. f_equal. unfold strip, nd_set_sum, nd_set_arcs, nd_set_aux in *. destruct m, n.
        cbn in *. injection Tp1. intros. subst. f_equal. lra.
      * destruct (dget (m_topo t1) c) as [m|], (dget (m_topo s) c) as [n|]; cbn [option_map] in Tp1 |- *; congruence.
    + destruct (dget (m_topo t1) c) as [m|], (dget (m_topo s) c) as [n|]; cbn [option_map] in Tp1 |- *; congruence.
  - intros x c. rewrite (incoming_strip (m_topo t1) (m_topo t)) by exact F2.
    rewrite (incoming_strip (m_topo s) (m_topo t1)) by exact F1. rewrite (incoming_strip (m_topo s) (m_topo u)) by exact F3.
    rewrite Ar2, Ar1, Ar3. destruct (_ && _); [|reflexivity]. rewrite !incoming_app, !Rsum_app. cbn [incoming].
    destruct (dget (m_topo s) a) as [n|]; [|cbn; lra]. destruct (_ && _); cbn [Rsum fold_right nmul RNum]; lra.
Qed.
