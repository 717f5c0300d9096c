(** VoteFacts.v — saturated maps with relations from features to classes only: the class with the most votes of the active
    concepts is ahead at every step (C114). *)
From Coq Require Import Reals Lra Permutation.
From Verif Require Import Base BaseFacts Num Functions Spec SortFacts RealFacts FunctionsFacts RlFacts Fcm FcmSpec FcmBasics FcmInv FcmInv2 FcmInv3 FcmRun FcmRun2 FcmOrder DynSpec Dynamics Dynamics2 FcmVec5 VecSpec LearnUtils LearnSpec LearnFacts Assoc Estimator EstSpec AssocSpec AssocFacts AssocFacts2 AssocFacts3 AssocFacts4 AssocUnique AssocNames AssocNames2 AssocGen AssocRow AssocPredict AssocResult EstFacts EstFacts5 EstFacts8 PropAssoc SepSpec SepFacts SepFacts2 SepFacts3 SepFacts4 SepFacts5 SepFacts7 SepFacts8 VoteSpec.
Local Open Scope R_scope.

(** ** Sums *)
Lemma Rsum_plus {A} (f g : A -> R) l : Rsum (map (fun a => f a + g a) l) = Rsum (map f l) + Rsum (map g l).
Proof. induction l as [|a l IH]; cbn [map]; rewrite ?Rsum_nil, ?Rsum_cons1; [lra|]. rewrite IH. lra. Qed.
Lemma Rsum_times {A} (k : R) (f : A -> R) l : Rsum (map (fun a => k * f a) l) = k * Rsum (map f l).
Proof. induction l as [|a l IH]; cbn [map]; rewrite ?Rsum_nil, ?Rsum_cons1; [lra|]. rewrite IH. lra. Qed.
Lemma Rsum_null {A} (f : A -> R) l : (forall a, In a l -> f a = 0) -> Rsum (map f l) = 0.
Proof. induction l as [|a l IH]; intros H; cbn [map]; rewrite ?Rsum_nil, ?Rsum_cons1; [lra|]. rewrite IH by (intros; apply H; now right). rewrite (H a (or_introl eq_refl)). lra. Qed.
Lemma Rsum_only (f : string -> R) l u : NoDup l -> In u l -> Rsum (map (fun a => if String.eqb a u then f a else 0) l) = f u.
Proof.
  induction l as [|a l IH]; intros N H; [easy|]. apply NoDup_cons_iff in N as [Na N]. cbn [map]. rewrite Rsum_cons1. destruct H as [->|H].
  - rewrite String.eqb_refl, Rsum_null; [lra|]. intros z Hz. destruct (String.eqb_spec z u) as [->|_]; [contradiction|auto].
  - rewrite IH by auto. destruct (String.eqb_spec a u) as [->|_]; [contradiction|lra].
Qed.
(** a sum over the marked elements *)
Lemma Rsum_marked (f m : string -> R) cs l : NoDup cs -> NoDup l -> incl l cs -> (forall a, In a l -> m a = 1) -> (forall a, In a cs -> ~ In a l -> m a = 0) ->
  Rsum (map (fun a => m a * f a) cs) = Rsum (map f l).
Proof.
  revert m. induction l as [|u l IH]; intros m Nc Nl Hi H1 H0.
  - cbn [map]. rewrite Rsum_nil. apply Rsum_null. intros a Ha. rewrite (H0 a Ha) by easy. lra.
  - apply NoDup_cons_iff in Nl as [Nu Nl]. cbn [map]. rewrite Rsum_cons1.
    rewrite <- (IH (fun a => if String.eqb a u then 0 else m a)); auto.
    + rewrite <- (Rsum_only f cs u Nc) by (apply Hi; now left). rewrite <- Rsum_plus. f_equal. apply map_ext_in. intros a Ha.
      destruct (String.eqb_spec a u) as [->|_]; [rewrite (H1 u) by now left|]; lra.
    + intros a Ha. apply Hi. now right.
    + intros a Ha. destruct (String.eqb_spec a u) as [->|_]; [contradiction|]. apply H1. now right.
    + intros a Ha Hn. destruct (String.eqb_spec a u) as [->|Hne]; [auto|]. apply H0; auto. intros [E|E]; [now subst|contradiction].
Qed.

(** ** Saturation *)
Lemma act_sat u y : act "saturation" [] u y -> y = clamp 0 1 u.
Proof. intros (fn & F1 & F2). injection F1 as <-. cbn [call_actv] in F2. apply rbind_ok in F2 as (? & _ & E). apply Ok_inj in E. subst y. apply saturation_clamp. Qed.
Lemma clamp_range u : 0 <= clamp 0 1 u <= 1.
Proof. unfold clamp, Rmax, Rmin. repeat destruct (Rle_dec _ _); lra. Qed.
Lemma clamp_neg u : u <= 0 -> clamp 0 1 u = 0.
Proof. unfold clamp, Rmax, Rmin. repeat destruct (Rle_dec _ _); lra. Qed.
Lemma clamp_le u v : u <= v -> clamp 0 1 u <= clamp 0 1 v.
Proof. unfold clamp, Rmax, Rmin. repeat destruct (Rle_dec _ _); lra. Qed.
Lemma clamp_lt u v : u < v -> u < 1 -> 0 < v -> clamp 0 1 u < clamp 0 1 v.
Proof. unfold clamp, Rmax, Rmin. repeat destruct (Rle_dec _ _); lra. Qed.

Section Vote.
Variable cf : gconf R.
Hypothesis OW : one_way cf.
Variables (fds : list (fdesc R)).
Hypothesis NN : NoDup (flat_map fd_names fds).
Hypothesis NF : NoDup (map fd_feat fds).
Hypothesis Ln : Forall (fun d => length (fd_rows d) = length (fd_names d)) fds.
Hypothesis UR : c_featrel cf = false \/ forall d d', In d fds -> In d' fds -> d <> d' -> fd_target d <> fd_target d'.
Variables (s s' : fcm R) (b : bool) (xc : string).
Hypothesis NR : NoDup (map fst (relations s)).
Hypothesis Rel : forall a b w, In (a, b, w) (relations s) <-> exclusion cf fds a b w \/ association cf fds a b w.
Notation arcs := (m_arcs s).
Notation lwt := (lw arcs).
Notation arcs' := (Arcs' s).
Notation crel := (cross_rel cf fds NN Ln s Rel).
Notation ac := "saturation".
Notation kw := (@nil (string * argval R)).

Lemma lw_across d d' a c r r' : In d fds -> In d' fds -> d <> d' -> In (a, r) (grp d) -> In (c, r') (grp d') ->
  ~ (fd_target d = false /\ fd_target d' = true) -> lwt a c = 0.
Proof.
  destruct OW as (_ & _ & _ & _ & Db). intros H H' Ne Ha Hc N. apply (lw_none (relations s) arcs arcs'). intros w Hw.
  apply (crel d d' a c r r' w H H' Ne Ha Hc) in Hw as [X (Y & _)].
  destruct Y as [Y|[[Y _]|Y]]; [congruence| |contradiction]. destruct X as [X|X]; [|contradiction].
  destruct UR as [U|U]; [congruence|]. exact (U d d' H H' Ne Y).
Qed.
Lemma lw_within d a c r r' : In d fds -> In (a, r) (grp d) -> In (c, r') (grp d) -> lwt a c = if String.eqb a c then 0 else c_excl cf.
Proof. intros H Ha Hc. exact (lw_inner cf fds NN NF Ln (relations s) arcs arcs' NR Rel d a c r r' H Ha Hc). Qed.

(** ** Values *)
Hypothesis Hs : sane s.
Hypothesis Cm : common s b xc ac kw.
Hypothesis Kx : xc <> "PAPAGEORGIUS".
Hypothesis All : concepts s = flat_map fd_names fds.
Hypothesis Start : forall d c r v, In d fds -> In (c, r) (grp d) -> initial s c = Some v -> v = 0 \/ v = 1 /\ fd_target d = false.
Hypothesis One : forall d c r c' r', In d fds -> In (c, r) (grp d) -> In (c', r') (grp d) -> initial s c = Some 1 -> initial s c' = Some 1 -> c = c'.
Lemma sat_callable : callable ac kw.
Proof. left. split; [cbn; tauto|auto]. Qed.
Lemma nodup_concepts : NoDup (concepts s).
Proof. rewrite All. exact NN. Qed.
Notation cin := (concept_in fds s All).
Notation gof := (grp_of_concept fds Ln s All).
Lemma same_grp d d' c r r' : In d fds -> In d' fds -> In (c, r) (grp d) -> In (c, r') (grp d') -> d = d'.
Proof. intros H H' Hc Hc'. apply (owner_unique fds d d' c); auto; eapply in_grp_name; eauto. Qed.
Section Orbit.
Variables (L : nat) (x : nat -> string -> R).
Hypothesis Orb : orbit (m_topo s) (m_arcs s) x L.
Hypothesis Sta : forall c, In c (concepts s) -> initial s c = Some (x 0%nat c).
Definition inputs (t : nat) (c : string) : R := Rsum (map (fun a => x t a * lwt a c) (concepts s)).
Lemma sat_step t c : (t < L)%nat -> In c (concepts s) -> x (S t) c = clamp 0 1 (inputs t c + memw b * x t c).
Proof. intros Ht Ic. apply act_sat. exact (step_act s b xc ac kw NR Hs Cm sat_callable Kx L x Orb t c Ht Ic). Qed.
Lemma start_val d c r : In d fds -> In (c, r) (grp d) -> x 0%nat c = 0 \/ x 0%nat c = 1 /\ fd_target d = false.
Proof. intros H Hc. apply (Start d c r); auto. apply Sta. eapply cin; eauto. Qed.
Lemma vals t c : (t <= L)%nat -> In c (concepts s) -> 0 <= x t c <= 1.
Proof.
  intros Ht Ic. destruct t as [|t]; [|rewrite sat_step by (auto; lia); apply clamp_range].
  destruct (gof c Ic) as (d & r & Hd & Hc). destruct (start_val d c r Hd Hc) as [->|[-> _]]; lra.
Qed.
(** the active feature concepts share one value, the others have none *)
Lemma features t : (t <= L)%nat -> exists k, 0 <= k /\ (t = 0%nat -> k = 1) /\
  forall d c r, In d fds -> fd_target d = false -> In (c, r) (grp d) -> x t c = k * x 0%nat c.
Proof.
  destruct OW as (_ & _ & _ & Ex & _). induction t as [|t IH]; intros Ht.
  - exists 1. split; [lra|]. split; auto. intros. lra.
  - destruct IH as (k & Hk & _ & IH); [lia|]. exists (clamp 0 1 (memw b * k)). split; [apply clamp_range|]. split; [discriminate|].
    intros d c r Hd Htd Hc. pose proof (cin d c r Hd Hc) as Ic. rewrite sat_step by (auto; lia).
    assert (Tm : forall a, In a (concepts s) -> x t a * lwt a c <= 0 /\ (x 0%nat c = 1 -> x t a * lwt a c = 0)).
    { intros a Ia. pose proof (vals t a ltac:(lia) Ia) as Va. destruct (gof a Ia) as (d2 & r2 & Hd2 & Ha2). destruct (fds_eq_dec fds NF d2 d Hd2 Hd) as [->|Ne].
      - rewrite (lw_within d a c r2 r Hd Ha2 Hc). destruct (String.eqb_spec a c) as [->|Na]; [split; lra|]. split; [nra|]. intros E1.
        rewrite (IH d a r2 Hd Htd Ha2). destruct (start_val d a r2 Hd Ha2) as [->|[E2 _]]; [lra|]. exfalso. apply Na.
        apply (One d a r2 c r); auto; rewrite Sta by auto; congruence.
      - rewrite (lw_across d2 d a c r2 r); auto; [split; lra|]. intros [_ X]. congruence. }
    unfold inputs. rewrite (IH d c r Hd Htd Hc). destruct (start_val d c r Hd Hc) as [E0|[E0 _]]; rewrite !E0.
    + rewrite clamp_neg; [lra|]. pose proof (Rsum_nonpos (fun a => x t a * lwt a c) (concepts s) (fun a Ha => proj1 (Tm a Ha))). unfold memw. destruct b; lra.
    + rewrite Rsum_null by (intros a Ha; apply Tm; auto). rewrite Rplus_0_l, Rmult_1_r. lra.
Qed.
(** the inputs of two values of a class *)
Lemma race t d u ru z rz : (t <= L)%nat -> In d fds -> fd_target d = true -> In (u, ru) (grp d) -> In (z, rz) (grp d) ->
  exists k, 0 <= k /\ (t = 0%nat -> k = 1) /\ inputs t u - inputs t z = k * (inputs 0 u - inputs 0 z) + c_excl cf * (x t z - x t u).
Proof.
  intros Ht Hd Htd Hu Hz. destruct (features t Ht) as (k & Hk & K0 & Fe). exists k. split; auto. split; auto.
  destruct (string_dec u z) as [->|Nuz]; [lra|].
  pose proof (cin d u ru Hd Hu) as Iu. pose proof (cin d z rz Hd Hz) as Iz.
  assert (T : inputs t u + - (1) * inputs t z = k * (inputs 0 u + - (1) * inputs 0 z) +
    (Rsum (map (fun a => if String.eqb a z then c_excl cf * x t a else 0) (concepts s)) + - (1) * Rsum (map (fun a => if String.eqb a u then c_excl cf * x t a else 0) (concepts s)))).
  { unfold inputs. rewrite <- !Rsum_times, <- !Rsum_plus, <- Rsum_times, <- Rsum_plus. f_equal. apply map_ext_in. intros a Ia.
    destruct (gof a Ia) as (d2 & r2 & Hd2 & Ha2). destruct (fds_eq_dec fds NF d2 d Hd2 Hd) as [->|Ne].
    - assert (X0 : x 0%nat a = 0) by (destruct (start_val d a r2 Hd Ha2) as [->|[_ X]]; [auto|congruence]). rewrite X0.
      rewrite (lw_within d a u r2 ru Hd Ha2 Hu), (lw_within d a z r2 rz Hd Ha2 Hz).
      destruct (String.eqb_spec a u) as [Eu|Eu]; destruct (String.eqb_spec a z) as [Ez|Ez]; try congruence; lra.
    - assert (Nu : String.eqb a u = false) by (apply String.eqb_neq; intros ->; apply Ne; eapply same_grp; eauto).
      assert (Nz : String.eqb a z = false) by (apply String.eqb_neq; intros ->; apply Ne; eapply same_grp; eauto). rewrite Nu, Nz.
      destruct (fd_target d2) eqn:T2.
      + rewrite (lw_across d2 d a u r2 ru), (lw_across d2 d a z r2 rz); auto; try (intros [X _]; congruence). lra.
      + rewrite (Fe d2 a r2 Hd2 T2 Ha2). lra. }
  rewrite (Rsum_only (fun a => c_excl cf * x t a) (concepts s) z nodup_concepts Iz), (Rsum_only (fun a => c_excl cf * x t a) (concepts s) u nodup_concepts Iu) in T. lra.
Qed.
Lemma ahead d u ru z rz : In d fds -> fd_target d = true -> In (u, ru) (grp d) -> In (z, rz) (grp d) ->
  inputs 0 z < inputs 0 u -> 0 < inputs 0 u -> inputs 0 z < 1 ->
  (forall t, (t <= L)%nat -> x t z <= x t u) /\ ((1 <= L)%nat -> x 1%nat z < x 1%nat u).
Proof.
  destruct OW as (_ & _ & _ & Ex & _). intros Hd Htd Hu Hz H1 H2 H3. pose proof (cin d u ru Hd Hu) as Iu. pose proof (cin d z rz Hd Hz) as Iz.
  assert (Z0 : forall c r, In (c, r) (grp d) -> x 0%nat c = 0) by (intros c r Hc; destruct (start_val d c r Hd Hc) as [->|[_ X]]; [auto|congruence]).
  split.
  - induction t as [|t IH]; intros Ht; [rewrite (Z0 u ru Hu), (Z0 z rz Hz); lra|]. specialize (IH ltac:(lia)).
    rewrite !sat_step by (auto; lia). apply clamp_le. destruct (race t d u ru z rz ltac:(lia) Hd Htd Hu Hz) as (k & Hk & _ & E).
    assert (0 <= k * (inputs 0 u - inputs 0 z)) by (apply Rmult_le_pos; lra). assert (0 <= c_excl cf * (x t z - x t u)) by nra.
    unfold memw. destruct b; lra.
  - intros HL. rewrite !sat_step by (auto; lia). rewrite (Z0 u ru Hu), (Z0 z rz Hz), !Rmult_0_r, !Rplus_0_r. now apply clamp_lt.
Qed.
End Orbit.
Variables (L : nat) (x : nat -> string -> R) (k : nat) (f : string -> nat -> R).
Hypothesis Oc : outcome s s' L x k f.
Hypothesis Dec : m_decision s = "MEAN" /\ (m_debug s = true \/ m_oob s' = false).
Lemma vote_bound c v : In c (concepts s) -> value s' c = Some v -> -1 <= v.
Proof.
  intros Hcc Hv. destruct (oc_value _ _ _ _ _ _ Oc c Hcc) as (dd & w & _ & E1 & E2). assert (w = v) by congruence. subst w.
  apply (decision_range (-1) 1 dd _ _ _) in E1; [lra|]. apply Forall_forall. intros z Hz. apply in_map_iff in Hz as (j & <- & Hj). apply in_seq in Hj.
  destruct (oc_some _ _ _ _ _ _ Oc c j Hcc ltac:(lia)) as (l & a & Hl & Ha & ->). pose proof (vals L x (oc_orbit _ _ _ _ _ _ Oc) (oc_start _ _ _ _ _ _ Oc) l a Hl Ha). lra.
Qed.
Hypothesis He : (0 <= m_extra s)%Z.
Lemma vote_winner d u ru z rz : In d fds -> fd_target d = true -> In (u, ru) (grp d) -> In (z, rz) (grp d) ->
  inputs x 0 z < inputs x 0 u -> 0 < inputs x 0 u -> inputs x 0 z < 1 ->
  exists v v', value s' u = Some v /\ value s' z = Some v' /\ v' < v.
Proof.
  intros Hd Ht Hu Hz H1 H2 H3. pose proof (cin d u ru Hd Hu) as Iu. pose proof (cin d z rz Hd Hz) as Iz.
  destruct (oc_value _ _ _ _ _ _ Oc u Iu) as (dd & v & G1 & E1 & V1). destruct (oc_value _ _ _ _ _ _ Oc z Iz) as (dd' & v' & G2 & E2 & V2).
  assert (dd' = dd) by congruence. subst dd'. exists v, v'. split; auto. split; auto.
  pose proof (oc_len _ _ _ _ _ _ Oc) as Lk. pose proof (oc_cells _ _ _ _ _ _ Oc) as Ce. pose proof (oc_steps _ _ _ _ _ _ Oc) as L1.
  destruct (ahead L x (oc_orbit _ _ _ _ _ _ Oc) (oc_start _ _ _ _ _ _ Oc) d u ru z rz Hd Ht Hu Hz H1 H2 H3) as [A1 A2].
  apply (decision_lt dd (f u) (f z) k (Z.of_nat k - m_extra s - 1)); auto; try lia.
  destruct Dec as [Q Q2]; rewrite Q in G1; injection G1 as <-; right; split; auto. split.
  - intros [|j] Hj; [rewrite !(oc_first _ _ _ _ _ _ Oc Q2) by auto|rewrite !Ce by (auto; lia)]; apply A1; lia.
  - rewrite !Ce by (auto; lia). now apply A2.
Qed.
End Vote.
