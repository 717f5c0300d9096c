(** VecDyn.v — how maps behave over time in the vectorized engine (C99). *)
From Coq Require Import Reals Lra.
From Verif Require Import Base BaseFacts Num Functions Spec SortFacts RealFacts FunctionsFacts Fcm FcmSpec VecSpec DynSpec
  FcmInv FcmInv2 FcmInv3 FcmIter FcmRun FcmRun2 FcmRun3 FcmOrder FcmStop FcmVec FcmVec2 FcmVec3 FcmVec4 FcmVec5
  Dynamics Dynamics2 Dynamics3.
Local Open Scope R_scope.
Notation rmap := (fcm R).

(** where the iterative engine always has a next value, the vectorized one computes it *)
Lemma vec_orbit_orbit (s : rmap) x L : sane s -> regular s -> responsive s ->
  vec_orbit (m_topo s) (m_arcs s) x L -> orbit (m_topo s) (m_arcs s) x L.
Proof.
  intros Hs Rg Rs V k c n Hk Hn. destruct (Rs c n (x k) Hn) as (y & Hy).
  pose proof (next_vec s (x k) c n y (sane_base s Hs) Rg Hn Hy) as (f & id & a & z & A1 & A2 & A3 & A4 & A5).
  destruct (V k c n Hk Hn) as (f' & id' & a' & z' & B1 & B2 & B3 & B4 & B5).
  assert (f' = f) by congruence. subst f'. assert (id' = id) by congruence. subst id'. assert (a' = a) by congruence. subst a'.
  cbv zeta in A4, B4. rewrite <- A4 in B4. subst z'. rewrite A5 in B5. injection B5 as E. rewrite <- E. exact Hy.
Qed.

Record vtrack (s s' : rmap) (L : nat) (x : nat -> string -> R) : Prop := {
  vt_orbit : orbit (m_topo s) (m_arcs s) x L;
  vt_start : forall c, In c (concepts s) -> initial s c = Some (x 0%nat c);
  vt_nth : forall c h k v, In c (concepts s) -> history s' c = Some h -> nth_error h k = Some v ->
    (k <= L)%nat /\ (exists i d, (i <= L)%nat /\ In d (concepts s) /\ v = x i d) /\
    (k <> 0%nat \/ m_oob s' = false -> v = x k c);
  vt_len : (L <= Z.to_nat (m_maxit s))%nat;
  vt_first : forall j, (1 <= j < L)%nat -> ~ settled_for (Z.to_nat (m_extra s)) (m_sdiff s) (concepts s) x j;
  vt_value : forall c h, In c (concepts s) -> history s' c = Some h ->
     exists d v, get_decision_by_name (m_decision s) = Some d /\
       exec_decision d h (Z.of_nat (length h) - m_extra s - 1) = Ok v /\ value s' c = Some v
}.
Lemma before_In l c b : before l c = Some b -> In b l.
Proof.
  induction l as [|a [|b' t] IH]; cbn [before]; try discriminate. destruct (String.eqb b' c); [intros [= <-]; now left|].
  intros H. right. now apply IH.
Qed.
Lemma run_vtrack (s s' : rmap) : sane s -> regular s -> responsive s -> m_debug s = false -> concepts s <> [] ->
  (1 <= m_maxit s)%Z -> run_inference true s = (s', Ok tt) -> exists L x, vtrack s s' L x.
Proof.
  intros Hs Rg Rs D Hc Hm E. destruct (run_vectorized true s s' Hs D Hc Hm E) as (L & x & col & V). exists L, x. constructor.
  - apply vec_orbit_orbit; auto. apply (vru_orbit _ _ _ _ _ _ V).
  - exact (vru_start _ _ _ _ _ _ V).
  - intros c h k v Hin Hh Hv. rewrite (vru_hist _ _ _ _ _ _ V c Hin) in Hh. injection Hh as <-.
    assert (Hk : (k < col)%nat).
    { assert (Q : (k < length (map (recorded (concepts s) (Z.to_nat (m_maxit s)) L x c) (seq 0 col)))%nat) by (apply nth_error_Some; congruence).
      now rewrite map_length, seq_length in Q. }
    rewrite nth_error_map, (nth_error_nth' _ 0%nat) in Hv by (rewrite seq_length; lia).
    rewrite seq_nth in Hv by lia. cbn [option_map Nat.add] in Hv. injection Hv as <-.
    destruct k as [|k].
    + split; [lia|]. unfold recorded. cbn [Nat.eqb andb]. rewrite (vru_oob _ _ _ _ _ _ V).
      destruct (Nat.leb (Z.to_nat (m_maxit s)) L) eqn:El.
      * split; [|intros [H|H]; [congruence|rewrite Bool.orb_true_r in H; discriminate]].
        apply Nat.leb_le in El. pose proof (vru_len _ _ _ _ _ _ V).
        destruct (before (concepts s) c) as [b|] eqn:Eb.
        -- exists (Z.to_nat (m_maxit s)), b. split; [lia|]. split; [eapply before_In; eauto|reflexivity].
        -- exists 0%nat, c. split; [lia|auto].
      * cbn [Nat.leb]. split; [|auto]. exists 0%nat, c. split; [lia|auto].
    + destruct (hd_error (concepts s)) as [c0|] eqn:E0; [|destruct (concepts s); [congruence|discriminate]].
      pose proof (vru_cut _ _ _ _ _ _ V c0 E0) as Cu.
      destruct (recorded_cut s (Z.to_nat (m_maxit s)) L x c c0 col (S k) Cu Hk ltac:(lia)) as [Q1 Q2].
      rewrite Q1. split; [exact Q2|]. split; [|auto]. exists (S k), c. auto.
  - apply (vru_len _ _ _ _ _ _ V).
  - exact (vru_first _ _ _ _ _ _ V).
  - exact (vru_value _ _ _ _ _ _ V).
Qed.

(** ** Range *)
Lemma orbit_range (P : R -> Prop) (tp : dict (node R)) arcs x L :
  (forall c n f fn a v y, dget tp c = Some n -> nd_func n = Some f -> get_function_by_name f = Some fn ->
    nd_args n = Some a -> call_actv fn v a = Ok y -> P y) ->
  (forall c, In c (dkeys tp) -> P (x 0%nat c)) -> orbit tp arcs x L ->
  forall k c, (k <= L)%nat -> In c (dkeys tp) -> P (x k c).
Proof.
  intros HO H0 O [|k] c Hk Hc; [auto|]. apply dget_Some_In in Hc as [n Hn].
  destruct (O k c n ltac:(lia) Hn) as (f & fn & a & z & A1 & A2 & A3 & _ & A5). eapply HO; eauto.
Qed.
Lemma vec_range lo hi (s s' : rmap) : sane s -> regular s -> responsive s -> m_debug s = false -> concepts s <> [] ->
  (1 <= m_maxit s)%Z -> run_inference true s = (s', Ok tt) ->
  (forall c n f fn a v y, dget (m_topo s) c = Some n -> nd_func n = Some f -> get_function_by_name f = Some fn ->
    nd_args n = Some a -> call_actv fn v a = Ok y -> lo <= y <= hi) ->
  (forall c v, In c (concepts s) -> initial s c = Some v -> lo <= v <= hi) ->
  forall c, In c (concepts s) ->
    (forall h, history s' c = Some h -> Forall (fun x => lo <= x <= hi) h) /\
    (forall v h, history s' c = Some h -> value s' c = Some v -> lo <= v <= hi).
Proof.
  intros Hs Rg Rs D Hne Hm E HO H0 c Hc. destruct (run_vtrack s s' Hs Rg Rs D Hne Hm E) as (L & x & T).
  assert (A : forall h, history s' c = Some h -> Forall (fun x => lo <= x <= hi) h).
  { intros h Hh. apply Forall_forall. intros v Hv. apply In_nth_error in Hv as [k Hv].
    destruct (vt_nth _ _ _ _ T c h k v Hc Hh Hv) as (_ & (i & d & Hi & Hd & ->) & _).
    apply (orbit_range (fun v => lo <= v <= hi) (m_topo s) (m_arcs s) x L HO); auto; [|apply (vt_orbit _ _ _ _ T)].
    intros e He. apply (H0 e); auto. apply (vt_start _ _ _ _ T); auto. }
  split; [exact A|]. intros v h Hh Hv. destruct (vt_value _ _ _ _ T c h Hc Hh) as (d & v' & _ & E1 & E2).
  rewrite E2 in Hv. injection Hv as <-.
  exact (decision_range lo hi d h _ v' (A h Hh) E1).
Qed.

(** ** The same map *)
Lemma same_map_regular (s t : rmap) : same_map s t -> regular s -> regular t.
Proof.
  intros M [R1 R2]. pose proof M as (M1 & M2 & M3). split.
  - intros c n Hn. destruct (fixed_node t s c n (eq_sym M1) Hn) as (n' & Hn' & Fx).
    destruct (fixed_fields _ _ Fx) as (X1 & X2 & X3 & X4 & X5 & X6). destruct (R1 c n' Hn') as (A & B & C).
    rewrite <- X1, <- X4, <- X5, <- X6. auto.
  - unfold relations in *. now rewrite M2.
Qed.
Lemma same_map_responsive (s t : rmap) : same_map s t -> responsive s -> responsive t.
Proof.
  intros M Rs c n x Hn. pose proof M as (M1 & M2 & M3).
  destruct (fixed_node t s c n (eq_sym M1) Hn) as (n' & Hn' & Fx). destruct (Rs c n' x Hn') as (y & f & fn & a & z & A1 & A2 & A3 & A4 & A5).
  exists y. destruct (fixed_fields _ _ Fx) as (X1 & X2 & X3 & X4 & X5 & X6).
  exists f, fn, a, z. rewrite M2.
  assert (I : incoming (m_topo t) (m_arcs s) x c = incoming (m_topo s) (m_arcs s) x c).
  { symmetry. apply incoming_fixed. intros d w o _. destruct (dget (m_topo s) o) as [no|] eqn:Eo.
    - destruct (fixed_node s t o no M1 Eo) as (no' & -> & X). exact X.
    - destruct (dget (m_topo t) o) as [no'|] eqn:Eo'; auto.
      destruct (fixed_node t s o no' (eq_sym M1) Eo') as (? & ? & _). congruence. }
  assert (TI : total_input (m_topo t) (m_arcs s) x c n = total_input (m_topo s) (m_arcs s) x c n').
  { unfold total_input. rewrite I, X3, (signal_fixed _ _ _ X2). reflexivity. }
  rewrite TI, <- X4, <- X5, <- X6. auto.
Qed.
Lemma same_map_settings (s t : rmap) : same_map s t -> m_debug t = m_debug s /\ m_maxit t = m_maxit s.
Proof. intros (_ & _ & S). apply settings_max in S as (A & _ & _ & _ & _ & B). auto. Qed.

Section Two.
Variables (s t s' t' : rmap).
Hypothesis Hs : sane s.
Hypothesis Ht : sane t.
Hypothesis Rg : regular s.
Hypothesis Rs : responsive s.
Hypothesis D : m_debug s = false.
Hypothesis Hne : concepts s <> [].
Hypothesis Hm : (1 <= m_maxit s)%Z.
Hypothesis M : same_map s t.
Hypothesis E : run_inference true s = (s', Ok tt).
Hypothesis E' : run_inference true t = (t', Ok tt).
Lemma both_tracks : exists L x L' x', vtrack s s' L x /\ vtrack t t' L' x' /\
  orbit (m_topo s) (m_arcs s) x (Nat.min L L') /\ orbit (m_topo s) (m_arcs s) x' (Nat.min L L') /\
  (forall d, In d (concepts s) -> initial s d = Some (x 0%nat d) /\ initial t d = Some (x' 0%nat d)).
Proof.
  destruct (same_map_settings s t M) as [D' Hm'].
  destruct (run_vtrack s s' Hs Rg Rs D Hne Hm E) as (L & x & T).
  destruct (run_vtrack t t' Ht (same_map_regular s t M Rg) (same_map_responsive s t M Rs)) as (L' & x' & T'); auto; try congruence.
  { now rewrite (same_map_keys s t M). }
  exists L, x, L', x'. split; [exact T|]. split; [exact T'|]. split; [|split].
  - intros q d n Hq. apply (vt_orbit _ _ _ _ T). lia.
  - apply (orbit_same s t); auto. intros q d n Hq. apply (vt_orbit _ _ _ _ T'). lia.
  - intros d Hd. split; [now apply (vt_start _ _ _ _ T)|apply (vt_start _ _ _ _ T')]. now rewrite (same_map_keys s t M).
Qed.
Lemma both_at c h h' k a b : In c (concepts s) -> history s' c = Some h -> history t' c = Some h' ->
  nth_error h k = Some a -> nth_error h' k = Some b -> (k = 0%nat -> m_oob s' = false /\ m_oob t' = false) ->
  exists x x', orbit (m_topo s) (m_arcs s) x k /\ orbit (m_topo s) (m_arcs s) x' k /\ a = x k c /\ b = x' k c /\
  (forall d, In d (concepts s) -> initial s d = Some (x 0%nat d) /\ initial t d = Some (x' 0%nat d)).
Proof.
  intros Hc Hh Hh' Ha Hb Hk. destruct both_tracks as (L & x & L' & x' & T & T' & O & O' & I).
  assert (Hc' : In c (concepts t)) by now rewrite (same_map_keys s t M).
  destruct (vt_nth _ _ _ _ T c h k a Hc Hh Ha) as (K & _ & V). destruct (vt_nth _ _ _ _ T' c h' k b Hc' Hh' Hb) as (K' & _ & V').
  exists x, x'. repeat apply conj; auto.
  - intros q d n Hq. apply O. lia.
  - intros q d n Hq. apply O'. lia.
  - apply V. destruct k; [right; now apply Hk|left; lia].
  - apply V'. destruct k; [right; now apply Hk|left; lia].
Qed.
Lemma vec_monotone c h h' k a b : monotone_map s ->
  (forall c a b, initial s c = Some a -> initial t c = Some b -> a <= b) ->
  In c (concepts s) -> history s' c = Some h -> history t' c = Some h' ->
  nth_error h k = Some a -> nth_error h' k = Some b -> (k = 0%nat -> m_oob s' = false /\ m_oob t' = false) -> a <= b.
Proof.
  intros [Hw Hmo] Hi Hc Hh Hh' Ha Hb Hk. destruct (both_at c h h' k a b Hc Hh Hh' Ha Hb Hk) as (x & x' & O & O' & -> & -> & I).
  apply (orbit_mono (m_topo s) (m_arcs s) x x' k); auto.
  - intros d w o Ho. split; [apply (Hw o d w); now apply relations_arcs|].
    pose proof (sane_base s Hs) as (_ & _ & _ & A). now apply (A d w o).
  - intros d Hd. destruct (I d Hd) as [I1 I2]. eauto.
Qed.
Lemma vec_contract q D0 c h h' k a b : contracting s q ->
  (forall c a b, initial s c = Some a -> initial t c = Some b -> Rabs (a - b) <= D0) ->
  In c (concepts s) -> history s' c = Some h -> history t' c = Some h' ->
  nth_error h k = Some a -> nth_error h' k = Some b -> (k = 0%nat -> m_oob s' = false /\ m_oob t' = false) ->
  Rabs (a - b) <= q ^ k * D0.
Proof.
  intros Hq Hi Hc Hh Hh' Ha Hb Hk. destruct (both_at c h h' k a b Hc Hh Hh' Ha Hb Hk) as (x & x' & O & O' & -> & -> & I).
  apply (orbit_contract (m_topo s) (m_arcs s) x x' k); auto.
  - intros d w o Ho. pose proof (sane_base s Hs) as (_ & _ & _ & A). now apply (A d w o).
  - intros d Hd. destruct (I d Hd) as [I1 I2]. eauto.
Qed.
Lemma orbit_local (P : string -> Prop) (tp : dict (node R)) arcs x x' L :
  (forall d w o, In (d, w, o) arcs -> In o (dkeys tp)) ->
  (forall d w o, In (d, w, o) arcs -> P d -> P o) ->
  orbit tp arcs x L -> orbit tp arcs x' L ->
  (forall c, P c -> In c (dkeys tp) -> x 0%nat c = x' 0%nat c) ->
  forall k c, (k <= L)%nat -> P c -> In c (dkeys tp) -> x k c = x' k c.
Proof.
  intros Ha Hp O O' H0. induction k as [|k IH]; intros c Hk Pc Hc; [auto|].
  assert (Hc' := Hc). apply dget_Some_In in Hc' as [n Hn].
  refine (next_value_det tp tp arcs arcs (x k) (x' k) c n n _ _ eq_refl _ (O k c n ltac:(lia) Hn) (O' k c n ltac:(lia) Hn)).
  unfold total_input. rewrite (incoming_origins tp arcs (x k) (x' k) c).
  - rewrite (IH c); auto. lia.
  - intros w o Ho. apply IH; [lia|eapply Hp; eauto|eapply Ha; eauto].
Qed.
Lemma vec_local (P : string -> Prop) c h h' k a b :
  (forall o d w, In (o, d, w) (relations s) -> P d -> P o) ->
  (forall c, P c -> In c (concepts s) -> initial s c = initial t c) -> P c ->
  In c (concepts s) -> history s' c = Some h -> history t' c = Some h' ->
  nth_error h k = Some a -> nth_error h' k = Some b -> (k = 0%nat -> m_oob s' = false /\ m_oob t' = false) -> a = b.
Proof.
  intros Hp Hi Pc Hc Hh Hh' Ha Hb Hk. destruct (both_at c h h' k a b Hc Hh Hh' Ha Hb Hk) as (x & x' & O & O' & -> & -> & I).
  apply (orbit_local P (m_topo s) (m_arcs s) x x' k); auto.
  - intros d w o Ho. pose proof (sane_base s Hs) as (_ & _ & _ & A). now apply (A d w o).
  - intros d w o Ho. apply (Hp o d w). now apply relations_arcs.
  - intros d Pd Hd. destruct (I d Hd) as [I1 I2]. rewrite (Hi d Pd Hd), I2 in I1. now injection I1.
Qed.
End Two.

(** ** One run *)
Lemma vec_steps (s s' : rmap) q D0 : sane s -> regular s -> responsive s -> m_debug s = false -> concepts s <> [] ->
  (1 <= m_maxit s)%Z -> run_inference true s = (s', Ok tt) -> contracting s q -> m_oob s' = false ->
  (forall c h a b, In c (concepts s) -> history s' c = Some h -> nth_error h 0 = Some a -> nth_error h 1 = Some b -> Rabs (b - a) <= D0) ->
  forall c h k a b, In c (concepts s) -> history s' c = Some h -> nth_error h k = Some a -> nth_error h (S k) = Some b ->
    Rabs (b - a) <= q ^ k * D0.
Proof.
  intros Hs Rg Rs D Hne Hm E Hq Ho H0 c h k a b Hc Hh Ha Hb.
  destruct (run_vectorized true s s' Hs D Hne Hm E) as (L0 & x0 & col & V).
  destruct (run_vtrack s s' Hs Rg Rs D Hne Hm E) as (L & x & T).
  destruct (vt_nth _ _ _ _ T c h k a Hc Hh Ha) as (K & _ & Va). destruct (vt_nth _ _ _ _ T c h (S k) b Hc Hh Hb) as (K' & _ & Vb).
  rewrite (Va (or_intror Ho)), (Vb (or_intror Ho)).
  apply (orbit_contract (m_topo s) (m_arcs s) (fun k => x (S k)) x k); auto.
  - intros d w o Hin. pose proof (sane_base s Hs) as (_ & _ & _ & A). now apply (A d w o).
  - intros p d n Hp. apply (vt_orbit _ _ _ _ T). lia.
  - intros p d n Hp. apply (vt_orbit _ _ _ _ T). lia.
  - intros d Hd. pose proof (vru_hist _ _ _ _ _ _ V d Hd) as Hg.
    assert (Lc : (1 < col)%nat).
    { rewrite (vru_hist _ _ _ _ _ _ V c Hc) in Hh. injection Hh as <-.
      assert (Q : (S k < length (map (recorded (concepts s) (Z.to_nat (m_maxit s)) L0 x0 c) (seq 0 col)))%nat) by (apply nth_error_Some; congruence).
      rewrite map_length, seq_length in Q. lia. }
    set (g := map (recorded (concepts s) (Z.to_nat (m_maxit s)) L0 x0 d) (seq 0 col)) in *.
    assert (Lg : length g = col) by (unfold g; now rewrite map_length, seq_length).
    destruct (nth_error g 0) as [u|] eqn:E0; [|apply nth_error_None in E0; lia].
    destruct (nth_error g 1) as [v|] eqn:E1; [|apply nth_error_None in E1; lia].
    destruct (vt_nth _ _ _ _ T d g 0%nat u Hd Hg E0) as (_ & _ & V0). destruct (vt_nth _ _ _ _ T d g 1%nat v Hd Hg E1) as (_ & _ & V1).
    rewrite <- (V0 (or_intror Ho)), <- (V1 (or_intror Ho)). eauto.
Qed.
Lemma Rsum_map_minus {A} (f g : A -> R) l : Rsum (map f l) - Rsum (map g l) = Rsum (map (fun a => f a - g a) l).
Proof. unfold Rsum in *. induction l as [|a l IH]; cbn [map fold_right]; lra. Qed.
Lemma Rsum_map_abs {A} (f : A -> R) l B : (forall a, In a l -> Rabs (f a) <= B) -> Rabs (Rsum (map f l)) <= INR (length l) * B.
Proof.
  intros H. induction l as [|a l IH]; [cbn; rewrite Rabs_R0; lra|].
  cbn [map length]. rewrite S_INR. change (Rsum (f a :: map f l)) with (f a + Rsum (map f l)).
  eapply Rle_trans; [apply Rabs_triang|]. pose proof (H a (or_introl eq_refl)).
  pose proof (IH (fun a Ha => H a (or_intror Ha))). lra.
Qed.
Lemma pow_shrink q M p : 0 <= q -> q <= 1 -> (M <= p)%nat -> q ^ p <= q ^ M.
Proof.
  intros Q0 Hq Hge. replace p with (M + (p - M))%nat by lia. generalize (p - M)%nat as r. intros r.
  rewrite pow_add. rewrite <- (Rmult_1_r (q ^ M)) at 2. apply Rmult_le_compat_l; [now apply pow_le|].
  induction r as [|r IH]; cbn [pow]; [lra|]. pose proof (pow_le q r Q0). nra.
Qed.
(** the run stops once n times the largest possible step is below stability_diff *)
Lemma vec_stops (s s' : rmap) q D0 M : sane s -> regular s -> responsive s -> m_debug s = false -> concepts s <> [] ->
  (1 <= m_maxit s)%Z -> run_inference true s = (s', Ok tt) -> contracting s q -> q <= 1 ->
  (forall c n a y, dget (m_topo s) c = Some n -> initial s c = Some a ->
     next_value (m_topo s) (m_arcs s) (fun d => match initial s d with Some v => v | None => 0 end) c n y -> Rabs (y - a) <= D0) ->
  INR (length (concepts s)) * (q ^ M * D0) < m_sdiff s ->
  forall c h, In c (concepts s) -> history s' c = Some h -> (Z.of_nat (length h) <= Z.of_nat M + 1 + m_extra s)%Z.
Proof.
  intros Hs Rg Rs D Hne Hm E Hq Hq1 H0 HM c h Hc Hh.
  destruct (run_vtrack s s' Hs Rg Rs D Hne Hm E) as (L & x & T).
  pose proof (reachable_extra s (from_fresh_reachable _ _ Hs)) as HE.
  pose proof (contracting_nonneg s q c Hq Hc) as Q0.
  assert (Lh : (length h <= S L)%nat).
  { destruct (Nat.le_gt_cases (length h) (S L)) as [H|H]; [auto|]. exfalso.
    destruct (nth_error h (S L)) as [v|] eqn:Ev; [|apply nth_error_None in Ev; lia].
    destruct (vt_nth _ _ _ _ T c h (S L) v Hc Hh Ev) as (K & _). lia. }
  destruct (Nat.le_gt_cases L (M + Z.to_nat (m_extra s))) as [HL|HL]; [lia|]. exfalso.
  assert (Start : forall d, In d (concepts s) -> Rabs (x 1%nat d - x 0%nat d) <= D0).
  { intros d Hd. pose proof Hd as Hd'. apply dget_Some_In in Hd' as [n Hn]. apply (H0 d n); auto.
    - now apply (vt_start _ _ _ _ T).
    - pose proof (vt_orbit _ _ _ _ T 0%nat d n ltac:(lia) Hn) as (f & fn & a & z & A1 & A2 & A3 & A4 & A5).
      exists f, fn, a, z.
      assert (TI : total_input (m_topo s) (m_arcs s) (fun d => match initial s d with Some v => v | None => 0 end) d n
                   = total_input (m_topo s) (m_arcs s) (x 0%nat) d n).
      { unfold total_input. rewrite (incoming_origins (m_topo s) (m_arcs s) _ (x 0%nat) d).
        - now rewrite (vt_start _ _ _ _ T d Hd).
        - intros w o Ho. pose proof (sane_base s Hs) as (_ & _ & _ & A).
          rewrite (vt_start _ _ _ _ T o); [reflexivity|]. now apply (A d w o). }
      rewrite TI. auto. }
  assert (Steps : forall p d, (S p <= L)%nat -> In d (concepts s) -> Rabs (x (S p) d - x p d) <= q ^ p * D0).
  { intros p d Hp Hd. apply (orbit_contract (m_topo s) (m_arcs s) (fun k => x (S k)) x (L - 1)); auto; try lia.
    - intros e w o Hin. pose proof (sane_base s Hs) as (_ & _ & _ & A). now apply (A e w o).
    - intros r e n Hr. apply (vt_orbit _ _ _ _ T). lia.
    - intros r e n Hr. apply (vt_orbit _ _ _ _ T). lia. }
  assert (PD : 0 <= D0) by (eapply Rle_trans; [apply Rabs_pos|apply (Start c Hc)]).
  destruct (Nat.eq_dec (M + Z.to_nat (m_extra s)) 0) as [Z0|Z0]; [lia|].
  apply (vt_first _ _ _ _ T (M + Z.to_nat (m_extra s))%nat); [lia|]. split; [lia|].
  intros i Hi. unfold settled. rewrite !nsum_Rsum. cbn [nltb nabs nsub RNum].
  destruct (Rltb_spec (Rabs (Rsum (map (x i) (concepts s)) - Rsum (map (x (i - 1)%nat) (concepts s)))) (m_sdiff s)) as [|Ge]; [reflexivity|].
  exfalso. apply Ge. eapply Rle_lt_trans; [|exact HM]. rewrite Rsum_map_minus. apply Rsum_map_abs.
  intros d Hd. replace i with (S (i - 1)) at 1 by lia. eapply Rle_trans; [apply Steps; auto; lia|].
  apply Rmult_le_compat_r; auto. apply pow_shrink; auto; lia.
Qed.
Lemma vec_climbs (s s' : rmap) : sane s -> regular s -> responsive s -> m_debug s = false -> concepts s <> [] ->
  (1 <= m_maxit s)%Z -> run_inference true s = (s', Ok tt) -> monotone_map s -> m_oob s' = false ->
  (forall c h a b, In c (concepts s) -> history s' c = Some h -> nth_error h 0 = Some a -> nth_error h 1 = Some b -> a <= b) ->
  forall c h k a b, In c (concepts s) -> history s' c = Some h -> nth_error h k = Some a -> nth_error h (S k) = Some b -> a <= b.
Proof.
  intros Hs Rg Rs D Hne Hm E [Hw Hmo] Ho H0 c h k a b Hc Hh Ha Hb.
  destruct (run_vectorized true s s' Hs D Hne Hm E) as (L0 & x0 & col & V).
  destruct (run_vtrack s s' Hs Rg Rs D Hne Hm E) as (L & x & T).
  destruct (vt_nth _ _ _ _ T c h k a Hc Hh Ha) as (K & _ & Va). destruct (vt_nth _ _ _ _ T c h (S k) b Hc Hh Hb) as (K' & _ & Vb).
  rewrite (Va (or_intror Ho)), (Vb (or_intror Ho)).
  apply (orbit_mono (m_topo s) (m_arcs s) x (fun k => x (S k)) k); auto.
  - intros d w o Hin. split; [apply (Hw o d w); now apply relations_arcs|].
    pose proof (sane_base s Hs) as (_ & _ & _ & A). now apply (A d w o).
  - intros p d n Hp. apply (vt_orbit _ _ _ _ T). lia.
  - intros p d n Hp. apply (vt_orbit _ _ _ _ T). lia.
  - intros d Hd. pose proof (vru_hist _ _ _ _ _ _ V d Hd) as Hg.
    assert (Lc : (1 < col)%nat).
    { rewrite (vru_hist _ _ _ _ _ _ V c Hc) in Hh. injection Hh as <-.
      assert (Q : (S k < length (map (recorded (concepts s) (Z.to_nat (m_maxit s)) L0 x0 c) (seq 0 col)))%nat) by (apply nth_error_Some; congruence).
      rewrite map_length, seq_length in Q. lia. }
    set (g := map (recorded (concepts s) (Z.to_nat (m_maxit s)) L0 x0 d) (seq 0 col)) in *.
    assert (Lg : length g = col) by (unfold g; now rewrite map_length, seq_length).
    destruct (nth_error g 0) as [u|] eqn:E0; [|apply nth_error_None in E0; lia].
    destruct (nth_error g 1) as [v|] eqn:E1; [|apply nth_error_None in E1; lia].
    destruct (vt_nth _ _ _ _ T d g 0%nat u Hd Hg E0) as (_ & _ & V0). destruct (vt_nth _ _ _ _ T d g 1%nat v Hd Hg E1) as (_ & _ & V1).
    rewrite <- (V0 (or_intror Ho)), <- (V1 (or_intror Ho)). eauto.
Qed.
(** one concept set to two different values *)
Lemma vec_locality j (s s1 s2 s1' s2' : rmap) v v' : sane s -> regular s -> responsive s -> m_debug s = false -> (1 <= m_maxit s)%Z ->
  init_concept j v true s = (s1, Ok tt) -> init_concept j v' true s = (s2, Ok tt) ->
  run_inference true s1 = (s1', Ok tt) -> run_inference true s2 = (s2', Ok tt) ->
  forall c h h' k a b, ~ influences (relations s) j c -> In c (concepts s) -> history s1' c = Some h -> history s2' c = Some h' ->
    nth_error h k = Some a -> nth_error h' k = Some b -> (k = 0%nat -> m_oob s1' = false /\ m_oob s2' = false) -> a = b.
Proof.
  intros Hs Rg Rs D Hm I1 I2 E1 E2 c h h' k a b Hc Hin Hh Hh' Ha Hb Hk.
  pose proof (init_same_map j v s s1 I1) as M1. pose proof (init_same_map j v' s s2 I2) as M2.
  assert (RE : relations s1 = relations s) by (destruct M1 as (_ & A & _); unfold relations; now rewrite A).
  destruct (same_map_settings s s1 M1) as [Q1 Q2].
  apply (vec_local s1 s2 s1' s2') with (P := fun d => ~ influences (relations s) j d) (c := c) (h := h) (h' := h') (k := k); auto.
  - eapply init_sane; eauto.
  - eapply init_sane; eauto.
  - apply (same_map_regular s); auto.
  - apply (same_map_responsive s); auto.
  - congruence.
  - rewrite (same_map_keys s s1 M1). intros N. rewrite N in Hin. destruct Hin.
  - congruence.
  - eapply same_map_trans; [apply same_map_sym; exact M1|exact M2].
  - intros o d w Ho Nd Hi. rewrite RE in Ho. apply Nd. eapply inf_next; eauto.
  - intros d Nd Hd.
    assert (d <> j) by (intros ->; apply Nd; constructor).
    replace s1 with (fst (init_concept j v true s)) by now rewrite I1.
    replace s2 with (fst (init_concept j v' true s)) by now rewrite I2. now rewrite !init_initial_other.
  - rewrite (same_map_keys s s1 M1). exact Hin.
Qed.
