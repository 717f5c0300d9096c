(** PropVec.v — properties of vectorized inference (C30–C32, C63). *)
From Coq Require Import Reals QArith.
From Verif Require Import Base BaseFacts Num Functions Spec SortFacts RealFacts QNum Fcm FcmSpec FcmInv FcmInv2 FcmInv3 FcmIter FcmRun FcmRun2 FcmRun3 FcmOrder VecSpec FcmVec FcmVec2 FcmVec3 FcmVec4 FcmVec5.
Local Close Scope Q_scope.
Local Close Scope R_scope.

(** the same calls replayed by both engines *)
Definition by_engine (iterative : bool) (ops : list (op Q)) (s0 : fcm Q) : fcm Q * res unit :=
  run_inference true (run_ops (ops ++ [OpAttrDebug iterative]) s0).
Definition v_ops : list (op Q) :=
  [add_simple "x"; add_simple "y"; OpAddRelation "x" "y" (1#2)%Q; OpAddRelation "y" "x" (-1#4)%Q;
   OpInitConcept "x" (3#4)%Q true].

(** ** C30 *)
(** [regular s]: all concepts active, keyword arguments well formed, fuzzy concepts
    with positive incoming weight sum, no ordered pair related twice *)
Theorem C30_same_step :
  forall (s : fcm R) x c n y, sane s -> regular s -> dget (m_topo s) c = Some n ->
  next_value (m_topo s) (m_arcs s) x c n y -> vec_next (m_topo s) (m_arcs s) x c n y.
Proof. intros s x c n y H. apply next_vec. now apply sane_base. Qed.
Print Assumptions C30_same_step.
(** one step of the vectorized recurrence has at most one outcome *)
Theorem C30_step_unique :
  forall {F} {N : Num F} (t : dict (node F)) arcs x x' L L', NoDup (dkeys t) -> vec_orbit t arcs x L -> vec_orbit t arcs x' L' ->
  (forall c, In c (dkeys t) -> x 0 c = x' 0 c) ->
  forall k c, k <= L -> k <= L' -> In c (dkeys t) -> x k c = x' k c.
Proof. exact @vec_orbit_unique. Qed.
Print Assumptions C30_step_unique.
(** whole runs of the two engines on the same map: equal histories wherever both
    have an entry (entry 0 only if the vectorized run did not overrun its rows) *)
Theorem C30_same_histories :
  forall (s s1 s2 : fcm R), sane s -> regular s -> concepts s <> [] -> (1 <= m_maxit s)%Z ->
  run_inference true (fst (step (OpAttrDebug true) s)) = (s1, Ok tt) ->
  run_inference true (fst (step (OpAttrDebug false) s)) = (s2, Ok tt) ->
  forall c h1 h2 k a b, In c (concepts s) -> history s1 c = Some h1 -> history s2 c = Some h2 ->
    nth_error h1 k = Some a -> nth_error h2 k = Some b -> (k = 0 -> m_oob s2 = false) -> a = b.
Proof. exact engines_agree. Qed.
Print Assumptions C30_same_histories.
(** each condition is needed *)
Theorem C30_duplicate_relation_refuted : (* two relations x -> y: summed by one engine, last one wins in the other *)
  let ops := [add_simple "x"; add_simple "y"; OpAddRelation "x" "y" (1#4)%Q; OpAddRelation "x" "y" (1#8)%Q; OpInitConcept "x" 1%Q true] in
  let it := by_engine true ops (qmap 4 2 true "LAST" "saturation") in
  let ve := by_engine false ops (qmap 4 2 true "LAST" "saturation") in
  snd it = Ok tt /\ snd ve = Ok tt /\
  (exists h, history (fst it) "y" = Some (0 :: 3#8 :: h)%Q) /\ (exists a h, history (fst ve) "y" = Some (a :: 1#8 :: h)%Q).
Proof. vm_compute. split; [reflexivity|]. split; [reflexivity|]. split; eauto. Qed.
Print Assumptions C30_duplicate_relation_refuted.
Theorem C30_inactive_origin_refuted : (* the vectorized engine ignores is_active *)
  let ops := [OpAddConcept "x" None (Some false) None None None None []; add_simple "y"; OpAddRelation "x" "y" (1#4)%Q; OpInitConcept "x" 1%Q true] in
  let it := by_engine true ops (qmap 4 2 true "LAST" "saturation") in
  let ve := by_engine false ops (qmap 4 2 true "LAST" "saturation") in
  snd it = Ok tt /\ snd ve = Ok tt /\
  (exists h, history (fst it) "y" = Some (0 :: 0 :: h)%Q) /\ (exists a h, history (fst ve) "y" = Some (a :: 1#4 :: h)%Q).
Proof. vm_compute. split; [reflexivity|]. split; [reflexivity|]. split; eauto. Qed.
Print Assumptions C30_inactive_origin_refuted.
Definition fuzzy_ops (w : Q) : list (op Q) :=
  [add_simple "x"; OpAddConcept "y" (Some TYPE_FUZZY) None None None (Some (mkAdict false [0; 1#2; 1] [0; 1; 2])%Q) None [];
   OpAddRelation "x" "y" w; OpInitConcept "x" 1%Q true].
Theorem C30_fuzzy_zero_sum_refuted : (* no incoming weight: one engine divides by zero, the other does not divide *)
  let it := by_engine true (fuzzy_ops 0%Q) (qmap 4 2 true "LAST" "saturation") in
  let ve := by_engine false (fuzzy_ops 0%Q) (qmap 4 2 true "LAST" "saturation") in
  snd it = Err EZeroDiv /\ snd ve = Ok tt.
Proof. vm_compute. split; reflexivity. Qed.
Print Assumptions C30_fuzzy_zero_sum_refuted.
Theorem C30_fuzzy_negative_sum_refuted :
  let it := by_engine true (fuzzy_ops (-1#4)%Q) (qmap 4 2 true "LAST" "saturation") in
  let ve := by_engine false (fuzzy_ops (-1#4)%Q) (qmap 4 2 true "LAST" "saturation") in
  snd it = Ok tt /\ snd ve = Ok tt /\
  exists h1 h2 a b, history (fst it) "y" = Some h1 /\ history (fst ve) "y" = Some h2 /\
    nth_error h1 1 = Some a /\ nth_error h2 1 = Some b /\ Qeq_bool a b = false.
Proof. vm_compute. split; [reflexivity|]. split; [reflexivity|]. do 4 eexists. repeat (split; [reflexivity|]). reflexivity. Qed.
Print Assumptions C30_fuzzy_negative_sum_refuted.
Example C30_nonvacuous :
  let it := by_engine true v_ops (qmap 4 2 true "LAST" "saturation") in
  let ve := by_engine false v_ops (qmap 4 2 true "LAST" "saturation") in
  regular (run_ops v_ops (qmap 4 2 true "LAST" "saturation")) /\ snd it = Ok tt /\ snd ve = Ok tt /\
  history (fst it) "y" = Some [0; 3#8; 3#4; 1; 1]%Q /\ (exists a, history (fst ve) "y" = Some [a; 3#8; 3#4]%Q).
Proof.
  cbv zeta. split.
  - split.
    + intros c n H. vm_compute in H.
      repeat match type of H with (if ?b then _ else _) = _ => destruct b end; try discriminate H;
      injection H as <-; (split; [reflexivity|]); (split; [|discriminate]); intros a Ha; injection Ha as <-; (split; [constructor|discriminate]).
    + vm_compute. repeat constructor; simpl; intuition discriminate.
  - vm_compute. split; [reflexivity|]. split; [reflexivity|]. split; [reflexivity|]. eauto.
Qed.

(** ** C31 *)
Theorem C31_terminates :
  forall {F} {N : Num F} (state : list F) mat functions func_args reduce mem avoid mx min_diff extra,
  vectorized_run state mat functions func_args reduce mem avoid mx min_diff extra <> Err EFuel.
Proof. exact @vectorized_run_nofuel. Qed.
Print Assumptions C31_terminates.
Theorem C31_inference_terminates :
  forall {F} {N : Num F} (s : fcm F), snd (vectorized_inference s) <> Err EFuel.
Proof. exact @vectorized_inference_nofuel. Qed.
Print Assumptions C31_inference_terminates.
(** more iterations of the loop than the model allows itself would change nothing *)
Theorem C31_fuel_irrelevant :
  forall {F} {N : Num F} functions func_args reduce mem avoid mat n m (min_diff : F) extra state buf oob it ec step fuel fuel',
  Z.to_nat it <= fuel -> 1 <= fuel -> fuel <= fuel' ->
  vec_loop fuel' functions func_args reduce mem avoid mat n m min_diff extra state buf oob it ec step =
  vec_loop fuel functions func_args reduce mem avoid mat n m min_diff extra state buf oob it ec step.
Proof. intros. now apply vec_loop_fuel. Qed.
Print Assumptions C31_fuel_irrelevant.
(** the loop itself, for any input: at most max_iterations columns beyond the first,
    each the image of the one before; out of row exactly when all are used *)
Theorem C31_run :
  forall {F} {N : Num F} (state : list F) mat functions func_args reduce mem avoid mx min_diff extra res,
  length avoid = length state -> (1 <= mx)%Z -> (1 <= extra)%Z ->
  vectorized_run state mat functions func_args reduce mem avoid mx min_diff extra = Ok res ->
  exists vs L, vec_result functions func_args reduce mem avoid mat (length state) (Z.to_nat mx) min_diff extra state res vs L.
Proof. exact @vectorized_run_spec. Qed.
Print Assumptions C31_run.
(** the whole inference of a map *)
Theorem C31_map_run :
  forall {F} {N : Num F} r (s s' : fcm F), sane s -> m_debug s = false -> concepts s <> [] -> (1 <= m_maxit s)%Z ->
  run_inference r s = (s', Ok tt) -> exists L x col, vec_run r s s' L x col.
Proof. exact @run_vectorized. Qed.
Print Assumptions C31_map_run.
Theorem C31_overrun :
  forall {F} {N : Num F} r (s s' : fcm F), sane s -> m_debug s = false -> concepts s <> [] -> (1 <= m_maxit s)%Z ->
  run_inference r s = (s', Ok tt) -> m_oob s = false ->
  exists L x, vec_orbit (m_topo s) (m_arcs s) x L /\ L <= Z.to_nat (m_maxit s) /\
    (forall c, In c (concepts s) -> (if r then initial s c else value s c) = Some (x 0 c)) /\
    (m_oob s' = true <-> L = Z.to_nat (m_maxit s)) /\
    (m_oob s' = true -> forall b c v h, before (concepts s) c = Some b -> In c (concepts s) ->
       history s' c = Some (v :: h) -> v = x L b) /\
    (m_oob s' = false -> forall c v h, In c (concepts s) -> history s' c = Some (v :: h) -> v = x 0 c).
Proof.
  intros F N r s s' Hs D Hc Hm E O. destruct (run_vectorized r s s' Hs D Hc Hm E) as (L & x & col & V).
  exists L, x. destruct (vru_len _ _ _ _ _ _ V) as [V1 V2]. pose proof (vru_oob _ _ _ _ _ _ V) as VO. rewrite O in VO. cbn [orb] in VO.
  assert (C0 : forall c v h, In c (concepts s) -> history s' c = Some (v :: h) -> v = recorded (concepts s) (Z.to_nat (m_maxit s)) L x c 0).
  { intros c v h Hi Hh. rewrite (vru_hist _ _ _ _ _ _ V c Hi) in Hh. destruct col as [|col]; [discriminate|]. cbn [seq map] in Hh. congruence. }
  split; [apply V|]. split; [exact V2|]. split; [apply V|]. split; [|split].
  - rewrite VO. split; intros H; [apply Nat.leb_le in H|apply Nat.leb_le]; lia.
  - intros H b c v h Hb Hi Hh. rewrite (C0 c v h Hi Hh). rewrite VO in H. unfold recorded. cbn [Nat.eqb andb]. rewrite H, Hb.
    apply Nat.leb_le in H. f_equal. lia.
  - intros H c v h Hi Hh. rewrite (C0 c v h Hi Hh). rewrite VO in H. unfold recorded. cbn [Nat.eqb andb]. rewrite H. reflexivity.
Qed.
Print Assumptions C31_overrun.
(** number of history entries, exact arithmetic *)
Theorem C31_history_length :
  forall r (s s' : fcm R), sane s -> m_debug s = false -> (1 <= m_maxit s)%Z -> run_inference r s = (s', Ok tt) ->
  forall c0, hd_error (concepts s) = Some c0 ->
  exists L x, vec_orbit (m_topo s) (m_arcs s) x L /\
    (forall c, In c (concepts s) -> (if r then initial s c else value s c) = Some (x 0 c)) /\
    ((forall k, k <= L -> x k c0 <> 2%R) -> forall c, In c (concepts s) -> exists h,
       history s' c = Some h /\ length h = Nat.min (S L) (Z.to_nat (m_maxit s) - 1)).
Proof.
  intros r s s' Hs D Hm E c0 H0.
  assert (Hc : concepts s <> []) by (intros G; rewrite G in H0; discriminate).
  destruct (run_vectorized r s s' Hs D Hc Hm E) as (L & x & col & V). exists L, x.
  split; [apply V|]. split; [apply V|]. intros Hx c Hi. eexists. split; [exact (vru_hist _ _ _ _ _ _ V c Hi)|].
  rewrite map_length, seq_length. apply (history_length s L x _ c0); auto.
  - apply (sane_base s Hs).
  - exact (vru_cut _ _ _ _ _ _ V c0 H0).
Qed.
Print Assumptions C31_history_length.
Theorem C31_no_iterations_raise :
  forall {F} {N : Num F} r (s : fcm F), m_debug s = false -> (m_maxit s <= 0)%Z -> snd (run_inference r s) <> Ok tt.
Proof. exact @no_iterations_raises. Qed.
Print Assumptions C31_no_iterations_raise.
(** y's recorded start is x's last value, not its own initial value 0 *)
Example C31_nonvacuous :
  let s := run_ops (v_ops ++ [OpAttrDebug false]) (qmap 4 3 true "LAST" "saturation") in
  let ve := run_inference true s in
  snd ve = Ok tt /\ m_oob (fst ve) = true /\ initial s "y" = Some 0%Q /\ initial (fst ve) "y" <> Some 0%Q /\
  (let s1 := run_ops [OpAttrMaxIter 100] s in
   snd (run_inference true s1) = Ok tt /\ m_oob (fst (run_inference true s1)) = false /\ initial (fst (run_inference true s1)) "y" = Some 0%Q).
Proof. vm_compute. repeat split; discriminate. Qed.

(** ** C32 *)
(** [visible]: concepts with all their data, histories, relations, settings; setting
    the flag to false makes the engine collect its data afresh *)
Theorem C32_never_stale :
  forall {F} {N : Num F} r (s : fcm F), reachable s -> concepts s <> [] -> m_debug s = false ->
  visible (fst (run_inference r s)) = visible (fst (run_inference r (set_prepared false s))) /\
  (snd (run_inference r s) = Ok tt <-> snd (run_inference r (set_prepared false s)) = Ok tt).
Proof.
  intros F N r s Hr Hc. apply run_current; auto. intros E. apply Hc. unfold concepts. now rewrite E.
Qed.
Print Assumptions C32_never_stale.
(** what fresh data is: the weight of an ordered pair is that of its latest relation, 0 if none *)
Theorem C32_fresh_data :
  forall {F} {N : Num F} (s : fcm F), sane s -> exists c, prepare s = Ok c /\
  vc_state c = map (fun p => nd_value (snd p)) (m_topo s) /\
  length (vc_matrix c) = length (concepts s) /\ (forall row, In row (vc_matrix c) -> length row = length (concepts s)) /\
  (forall i j o d, nth_error (concepts s) i = Some o -> nth_error (concepts s) j = Some d ->
     nth j (nth i (vc_matrix c) []) n0 = last_weight (m_arcs s) o d) /\
  vc_mem c = map (fun p => match nd_mem (snd p) with Some b => b | None => false end) (m_topo s) /\
  vc_avoid c = map (fun p => match nd_exec (snd p) with Some e => String.eqb "PAPAGEORGIUS" e | None => false end) (m_topo s).
Proof.
  intros F N s Hs. destruct (prepare_ok s (sane_base s Hs)) as (mat & E & [S1 S2] & HM). rewrite E.
  eexists. split; [reflexivity|]. cbn [vc_state vc_matrix vc_mem vc_avoid]. auto 10.
Qed.
Print Assumptions C32_fresh_data.
(** on a map emptied by clear_all the flag survives: the engine runs on the data of
    the map that is gone, where a map that never had concepts raises *)
Theorem C32_emptied_map_refuted :
  let s0 := qmap 4 2 true "LAST" "saturation" in
  let s := run_ops (v_ops ++ [OpAttrDebug false; OpRun true; OpClearAll]) s0 in
  concepts s = [] /\ snd (run_inference true s) = Ok tt /\ snd (run_inference true (set_prepared false s)) = Err EType.
Proof. vm_compute. repeat split. Qed.
Print Assumptions C32_emptied_map_refuted.
Example C32_nonvacuous : (* a relation added after a run is used by the next run *)
  let s0 := qmap 100 2 true "LAST" "saturation" in
  let s := run_ops (v_ops ++ [OpAttrDebug false; OpRun true]) s0 in
  let s1 := run_ops [OpAddRelation "x" "x" (-1)%Q] s in
  m_prepared s = true /\ m_prepared s1 = false /\ snd (run_inference true s) = Ok tt /\ snd (run_inference true s1) = Ok tt /\
  history (fst (run_inference true s)) "x" <> history (fst (run_inference true s1)) "x".
Proof. vm_compute. repeat split. discriminate. Qed.

(** ** C63 *)
Theorem C63_stop_rule :
  forall {F} {N : Num F} r (s s' : fcm F), sane s -> m_debug s = false -> concepts s <> [] -> (1 <= m_maxit s)%Z ->
  run_inference r s = (s', Ok tt) ->
  exists L x, vec_orbit (m_topo s) (m_arcs s) x L /\ 1 <= L <= Z.to_nat (m_maxit s) /\
    (forall c, In c (concepts s) -> (if r then initial s c else value s c) = Some (x 0 c)) /\
    (L < Z.to_nat (m_maxit s) -> settled_for (Z.to_nat (m_extra s)) (m_sdiff s) (concepts s) x L) /\
    (forall j, 1 <= j < L -> ~ settled_for (Z.to_nat (m_extra s)) (m_sdiff s) (concepts s) x j).
Proof.
  intros F N r s s' Hs D Hc Hm E. destruct (run_vectorized r s s' Hs D Hc Hm E) as (L & x & col & V).
  exists L, x. split; [apply V|]. split; [apply V|]. split; [apply V|]. split; apply V.
Qed.
Print Assumptions C63_stop_rule.
(** so the flag stop_at_stabilize has no effect *)
Theorem C63_stop_flag_ignored :
  forall {F} {N : Num F} b r (s : fcm F), m_debug s = false ->
  run_inference r (set_stab b s) = (set_stab b (fst (run_inference r s)), snd (run_inference r s)).
Proof. exact @stop_flag_ignored. Qed.
Print Assumptions C63_stop_flag_ignored.
(** two concepts that exchange their values for ever: the vectorized engine stops
    after extra_steps steps as if they were stable, the iterative one does not *)
Definition swap_ops : list (op Q) :=
  [OpAddConcept "x" None None (Some false) None None None []; OpAddConcept "y" None None (Some false) None None None [];
   OpAddRelation "x" "y" 1%Q; OpAddRelation "y" "x" 1%Q; OpInitConcept "x" 1%Q true].
Theorem C63_stops_while_oscillating_refuted :
  let ve := by_engine false swap_ops (qmap 50 3 true "LAST" "saturation") in
  let it := by_engine true swap_ops (qmap 50 3 true "LAST" "saturation") in
  snd ve = Ok tt /\ history (fst ve) "x" = Some [1; 0; 1; 0]%Q /\ history (fst ve) "y" = Some [0; 1; 0; 1]%Q /\
  snd it = Ok tt /\ (exists h, history (fst it) "x" = Some h /\ length h = 52).
Proof. vm_compute. repeat (split; [reflexivity|]). eexists. split; reflexivity. Qed.
Print Assumptions C63_stops_while_oscillating_refuted.
Example C63_nonvacuous :
  let ve := by_engine false v_ops (qmap 100 3 true "LAST" "saturation") in
  snd ve = Ok tt /\ m_oob (fst ve) = false.
Proof. vm_compute. split; reflexivity. Qed.
