(** PropVec3.v — how maps behave over time in the vectorized engine (C99): range,
    locality, monotone and contracting maps.  The step of both engines is the same
    under [regular] (C30); what differs is which values are recorded, and when the
    loop stops.  The first recorded value of a run that reaches the iteration limit
    is not to be trusted (C31_overrun), hence the conditions on [k = 0]. *)
From Coq Require Import Reals Lra QArith.
From Verif Require Import Base BaseFacts Num Functions Spec SortFacts RealFacts QNum Fcm FcmSpec VecSpec DynSpec
  FcmInv FcmInv2 FcmInv3 FcmIter FcmRun FcmRun2 FcmRun3 FcmOrder FcmStop FcmVec FcmVec2 FcmVec3 FcmVec4 FcmVec5
  FcmTotal FcmVec6  Dynamics Dynamics2 Dynamics3 VecDyn PropInference PropVec PropVec2 PropDynamics.
Local Close Scope Q_scope.
Local Close Scope R_scope.

(** ** C99 *)
(** Every recorded value, the overwritten first column included, and every final
    value stays in the range of the activation functions. *)
Theorem C99_range :
  forall (lo hi : R) (s s' : fcm R), sane s -> regular s -> responsive s -> m_debug s = false -> concepts s <> [] ->
  (1 <= m_maxit s)%Z -> run_inference true s = (s', Ok tt) ->
  (forall c n f fn a v y, dget (m_topo s) c = Some n -> nd_func n = Some f -> get_function_by_name f = Some fn ->
    nd_args n = Some a -> call_actv fn v a = Ok y -> (lo <= y <= hi)%R) ->
  (forall c v, In c (concepts s) -> initial s c = Some v -> (lo <= v <= hi)%R) ->
  forall c, In c (concepts s) ->
    (forall h, history s' c = Some h -> Forall (fun x => (lo <= x <= hi)%R) h) /\
    (forall v h, history s' c = Some h -> value s' c = Some v -> (lo <= v <= hi)%R).
Proof. exact vec_range. Qed.
Print Assumptions C99_range.
Theorem C99_unit_maps :
  forall s s' : fcm R, sane s -> regular s -> responsive s -> m_debug s = false -> concepts s <> [] ->
  (1 <= m_maxit s)%Z -> run_inference true s = (s', Ok tt) ->
  (forall c n f a, dget (m_topo s) c = Some n -> nd_func n = Some f -> nd_args n = Some a -> unit_function f a) ->
  (forall c v, In c (concepts s) -> initial s c = Some v -> (0 <= v <= 1)%R) ->
  forall c, In c (concepts s) ->
    (forall h, history s' c = Some h -> in01 h) /\
    (forall v h, history s' c = Some h -> value s' c = Some v -> (0 <= v <= 1)%R).
Proof.
  intros s s' Hs Rg Rs D Hne Hm E Hu H0. apply (vec_range 0 1 s s' Hs Rg Rs D Hne Hm E); auto.
  intros c n f fn a v y H1 H2 H3 H4 H5. eapply unit_range; eauto.
Qed.
Print Assumptions C99_unit_maps.
Theorem C99_bipolar_maps :
  forall s s' : fcm R, sane s -> regular s -> responsive s -> m_debug s = false -> concepts s <> [] ->
  (1 <= m_maxit s)%Z -> run_inference true s = (s', Ok tt) ->
  (forall c n f a, dget (m_topo s) c = Some n -> nd_func n = Some f -> nd_args n = Some a -> bipolar_function f a) ->
  (forall c v, In c (concepts s) -> initial s c = Some v -> (-1 <= v <= 1)%R) ->
  forall c, In c (concepts s) ->
    (forall h, history s' c = Some h -> Forall (fun x => (-1 <= x <= 1)%R) h) /\
    (forall v h, history s' c = Some h -> value s' c = Some v -> (-1 <= v <= 1)%R).
Proof.
  intros s s' Hs Rg Rs D Hne Hm E Hu H0. apply (vec_range (-1) 1 s s' Hs Rg Rs D Hne Hm E); auto.
  intros c n f fn a v y H1 H2 H3 H4 H5. eapply bipolar_range; eauto.
Qed.
Print Assumptions C99_bipolar_maps.

(** Concepts that cannot be reached from [j] along relations never notice [j] ... *)
Theorem C99_locality :
  forall j (s s1 s2 s1' s2' : fcm R) v v', sane s -> regular s -> responsive s -> m_debug s = false -> (1 <= m_maxit s)%Z ->
  init_concept j v true s = (s1, Ok tt) -> init_concept j v' true s = (s2, Ok tt) ->
  run_inference true s1 = (s1', Ok tt) -> run_inference true s2 = (s2', Ok tt) ->
  forall c h h' k a b, ~ influences (relations s) j c -> In c (concepts s) -> history s1' c = Some h -> history s2' c = Some h' ->
    nth_error h k = Some a -> nth_error h' k = Some b -> (k = 0 -> m_oob s1' = false /\ m_oob s2' = false) -> a = b.
Proof. exact vec_locality. Qed.
Print Assumptions C99_locality.
(** ... except through the first column of a run that reaches the iteration limit:
    x and y are unconnected, yet the final value of y depends on the initial value
    of x (decisions MEAN and EXITED read that column). *)
Definition apart_ops (v : Q) : list (op Q) :=
  [add_simple "x"; add_simple "y"; OpAddRelation "x" "x" (1#4)%Q; OpInitConcept "x" v true; OpAttrDebug false].
Theorem C99_locality_at_limit_refuted :
  forall d, In d ["MEAN"; "EXITED"] ->
  let s v := run_ops (apart_ops v) (qmap 3 2 true d "saturation") in
  relations (s (1#4)%Q) = [("x", "x", (1#4)%Q)] /\ initial (s (1#4)%Q) "y" = initial (s (1#8)%Q) "y" /\
  snd (run_inference true (s (1#4)%Q)) = Ok tt /\ snd (run_inference true (s (1#8)%Q)) = Ok tt /\
  value (fst (run_inference true (s (1#4)%Q))) "y" <> value (fst (run_inference true (s (1#8)%Q))) "y".
Proof. intros d [<-|[<-|[]]]; vm_compute; repeat split; discriminate. Qed.
Print Assumptions C99_locality_at_limit_refuted.

(** Monotone maps *)
Theorem C99_larger_start_larger_values :
  forall s t s' t' : fcm R, sane s -> sane t -> regular s -> responsive s -> m_debug s = false -> concepts s <> [] ->
  (1 <= m_maxit s)%Z -> same_map s t -> run_inference true s = (s', Ok tt) -> run_inference true t = (t', Ok tt) ->
  forall c h h' k a b, monotone_map s ->
  (forall c a b, initial s c = Some a -> initial t c = Some b -> (a <= b)%R) ->
  In c (concepts s) -> history s' c = Some h -> history t' c = Some h' ->
  nth_error h k = Some a -> nth_error h' k = Some b -> (k = 0 -> m_oob s' = false /\ m_oob t' = false) -> (a <= b)%R.
Proof. exact vec_monotone. Qed.
Print Assumptions C99_larger_start_larger_values.
Theorem C99_keeps_climbing :
  forall s s' : fcm R, sane s -> regular s -> responsive s -> m_debug s = false -> concepts s <> [] ->
  (1 <= m_maxit s)%Z -> run_inference true s = (s', Ok tt) -> monotone_map s -> m_oob s' = false ->
  (forall c h a b, In c (concepts s) -> history s' c = Some h -> nth_error h 0 = Some a -> nth_error h 1 = Some b -> (a <= b)%R) ->
  forall c h k a b, In c (concepts s) -> history s' c = Some h -> nth_error h k = Some a -> nth_error h (S k) = Some b -> (a <= b)%R.
Proof. exact vec_climbs. Qed.
Print Assumptions C99_keeps_climbing.

(** Contracting maps: runs approach each other, steps shrink ... *)
Theorem C99_runs_approach :
  forall s t s' t' : fcm R, sane s -> sane t -> regular s -> responsive s -> m_debug s = false -> concepts s <> [] ->
  (1 <= m_maxit s)%Z -> same_map s t -> run_inference true s = (s', Ok tt) -> run_inference true t = (t', Ok tt) ->
  forall q D0 c h h' k a b, contracting s q ->
  (forall c a b, initial s c = Some a -> initial t c = Some b -> (Rabs (a - b) <= D0)%R) ->
  In c (concepts s) -> history s' c = Some h -> history t' c = Some h' ->
  nth_error h k = Some a -> nth_error h' k = Some b -> (k = 0 -> m_oob s' = false /\ m_oob t' = false) ->
  (Rabs (a - b) <= q ^ k * D0)%R.
Proof. exact vec_contract. Qed.
Print Assumptions C99_runs_approach.
Theorem C99_steps_shrink :
  forall (s s' : fcm R) q D0, sane s -> regular s -> responsive s -> m_debug s = false -> concepts s <> [] ->
  (1 <= m_maxit s)%Z -> run_inference true s = (s', Ok tt) -> contracting s q -> m_oob s' = false ->
  (forall c h a b, In c (concepts s) -> history s' c = Some h -> nth_error h 0 = Some a -> nth_error h 1 = Some b -> (Rabs (b - a) <= D0)%R) ->
  forall c h k a b, In c (concepts s) -> history s' c = Some h -> nth_error h k = Some a -> nth_error h (S k) = Some b ->
    (Rabs (b - a) <= q ^ k * D0)%R.
Proof. exact vec_steps. Qed.
Print Assumptions C99_steps_shrink.
(** ... and the run stops: the engine compares sums over all concepts, so the bound is
    multiplied by their number (compare C72_stops_early).  The flag
    stop_at_stabilize is not needed (C63_stop_flag_ignored). *)
Theorem C99_stops_early :
  forall (s s' : fcm R) q D0 M, sane s -> regular s -> responsive s -> m_debug s = false -> concepts s <> [] ->
  (1 <= m_maxit s)%Z -> run_inference true s = (s', Ok tt) -> contracting s q -> (q <= 1)%R ->
  (forall c n a y, dget (m_topo s) c = Some n -> initial s c = Some a ->
     next_value (m_topo s) (m_arcs s) (fun d => match initial s d with Some v => v | None => 0%R end) c n y -> (Rabs (y - a) <= D0)%R) ->
  (INR (length (concepts s)) * (q ^ M * D0) < m_sdiff s)%R ->
  forall c h, In c (concepts s) -> history s' c = Some h -> (Z.of_nat (length h) <= Z.of_nat M + 1 + m_extra s)%Z.
Proof. exact vec_stops. Qed.
Print Assumptions C99_stops_early.

(** The hypotheses hold for a small real-valued map: x -> y (1/2), y -> x (1/2),
    logistic functions.  Its run succeeds and makes at most 9 steps although 100 are
    allowed. *)
Definition vreal_map : fcm R := set_debug false real_map. (* fcm.debug = False *)
Lemma vreal_sane : sane vreal_map /\ m_debug vreal_map = false.
Proof. split; [|reflexivity]. exact (from_fresh_snoc real_map (OpAttrDebug false) (proj1 real_sane) eq_refl). Qed.
Lemma vreal_same : m_topo vreal_map = m_topo real_map /\ m_arcs vreal_map = m_arcs real_map /\ m_exec vreal_map = m_exec real_map /\
  concepts vreal_map = ["x"; "y"] /\ m_decision vreal_map = "LAST" /\ m_extra vreal_map = 3%Z /\ m_maxit vreal_map = 100%Z /\
  m_sdiff vreal_map = (/ 100)%R /\ (exists v, initial vreal_map "x" = Some v) /\ (exists v, initial vreal_map "y" = Some v).
Proof.
  assert (M : m_maxit real_map = 100%Z) by reflexivity.
  destruct real_settings as (S1 & S2 & S3 & S4 & S5 & Sx & Sy). revert M S1 S2 S3 S5 Sx Sy. unfold vreal_map. generalize real_map.
  intros m M S1 S2 S3 S5 Sx Sy. destruct m. repeat split; auto.
Qed.
Lemma vreal_responsive : responsive vreal_map /\ vec_responsive vreal_map /\ regular vreal_map.
Proof.
  pose proof real_nodes as RN. pose proof real_relations as RR. destruct vreal_same as (E1 & E2 & _).
  unfold responsive, vec_responsive, regular, relations in *. rewrite E1, E2. split; [|split].
  - intros c n x Hn. destruct (RN c n Hn) as (_ & Hf & Ha & _). apply (callable_answers n _ _ Hf Ha). right. left. split; cbn; auto.
  - intros c n x Hn. destruct (RN c n Hn) as (_ & Hf & Ha & _). apply (vec_callable_answers n _ _ Hf Ha). right. left. split; cbn; auto.
  - split.
    + intros c n Hn. destruct (RN c n Hn) as (_ & Hf & Ha & _ & _ & Hac). split; [exact Hac|]. split.
      * intros a Ea. rewrite Ha in Ea. injection Ea as <-. split; [constructor|discriminate].
      * rewrite Hf. discriminate.
    + rewrite RR. cbn. repeat constructor; cbn; intuition discriminate.
Qed.
Example C99_nonvacuous :
  sane vreal_map /\ regular vreal_map /\ responsive vreal_map /\ m_debug vreal_map = false /\ monotone_map vreal_map /\
  contracting vreal_map (3 / 8)%R /\
  exists s', run_inference true vreal_map = (s', Ok tt) /\
    forall c h, In c (concepts vreal_map) -> history s' c = Some h -> in01 h /\ (Z.of_nat (length h) <= 10)%Z.
Proof.
  pose proof vreal_sane as [RS RD]. pose proof vreal_responsive as (Rs & VR & Rg).
  destruct vreal_same as (E1 & E2 & E3 & S1 & S2 & S3 & S4 & S5 & [vx Sx] & [vy Sy]).
  assert (RI : forall c v, initial vreal_map c = Some v -> v = 0%R).
  { intros c v H. apply (real_initial c). revert H. unfold initial, history. now rewrite E3. }
  assert (RN : forall c n, dget (m_topo vreal_map) c = Some n -> nd_func n = Some "sigmoid" /\ nd_args n = Some []).
  { rewrite E1. intros c n H. destruct (real_nodes c n H) as (_ & Hf & Ha & _). auto. }
  assert (RC : contracting vreal_map (3 / 8)%R) by (unfold contracting; rewrite E1, E2; exact real_contracting).
  assert (RM : monotone_map vreal_map).
  { destruct C70_nonvacuous as (_ & _ & A & B). split; [|rewrite E1; exact B].
    unfold relations in *. rewrite E2. exact A. }
  revert RS RD Rs VR Rg S1 S2 S3 S4 S5 Sx Sy RI RN RC RM. clear E1 E2 E3. generalize vreal_map.
  intros m RS RD Rs VR Rg S1 S2 S3 S4 S5 Sx Sy RI RN RC RM.
  do 6 (split; [assumption|]).
  assert (X : exists s', run_inference true m = (s', Ok tt)).
  { apply (vec_run_succeeds m "x" vx); auto.
    - rewrite S4. lia.
    - intros c Hc. rewrite S1 in Hc. destruct Hc as [<-|[<-|[]]]; congruence.
    - now rewrite S1.
    - rewrite (RI "x" vx Sx). unfold n2. cbn. apply Reqb_false. lra.
    - rewrite S2. discriminate.
    - rewrite S2. intros H. now contradiction H. }
  destruct X as [s' E]. exists s'. split; [exact E|]. intros c h Hc Hh.
  assert (Hne : concepts m <> []) by (rewrite S1; discriminate). assert (Hm : (1 <= m_maxit m)%Z) by (rewrite S4; lia).
  split.
  - refine (proj1 (C99_unit_maps m s' RS Rg Rs RD Hne Hm E _ _ c Hc) h Hh).
    + intros d n f a Hn Hf Ha. destruct (RN d n Hn) as [Q1 _]. rewrite Hf in Q1. injection Q1 as ->. unfold unit_function. auto 10.
    + intros d v Hd Hv. rewrite (RI d v Hv). lra.
  - pose proof (C99_stops_early m s' (3 / 8) 1 6 RS Rg Rs RD Hne Hm E RC ltac:(lra)) as S.
    apply S in Hh; auto; [rewrite S3 in Hh; lia| |].
    + intros d n a y Hn Hi (f & fn & a' & z & A1 & A2 & A3 & A4 & A5).
      destruct (RN d n Hn) as (Hf & Har). rewrite Hf in A1. injection A1 as <-. rewrite (RI d a Hi).
      assert (U : unit_function "sigmoid" a') by (unfold unit_function; auto 10).
      pose proof (unit_range "sigmoid" a' fn z y U A2 A5). rewrite Rabs_pos_eq; lra.
    + rewrite S5, S1. cbn [length]. simpl. lra.
Qed.
Print Assumptions C99_nonvacuous.
