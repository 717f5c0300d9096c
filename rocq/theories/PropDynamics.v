(** PropDynamics.v — how maps behave over time: the exact stopping rule, who
    influences whom, monotone and contracting maps, redundant parts of a map, and
    when inference raises (C24, C69–C74). *)
From Coq Require Import Reals Lra QArith.
From Verif Require Import Base BaseFacts Num Functions Spec SortFacts RealFacts QNum Fcm FcmSpec DynSpec FcmInv FcmInv2 FcmInv3 FcmIter FcmRun FcmRun2 FcmRun3 FcmOrder FcmStop Dynamics Dynamics2 Dynamics3 FcmTotal FcmTwin Loader LoaderSpec Dynamics4 PropInference PropLoader.
Local Close Scope Q_scope.
Local Close Scope R_scope.

(** ** C24 *)
(** A run makes exactly as many steps as it takes to see [extra - 1] idle passes in a
    row, no fewer and no more. *)
Theorem C24_exact_stop :
  forall {F} {N : Num F} (s s' : fcm F), sane s -> m_debug s = true -> run_inference true s = (s', Ok tt) ->
  exists L, (forall c, In c (concepts s) -> exists h, history s' c = Some h /\ length h = S L) /\ m_iters s' = (1 + Z.of_nat L)%Z /\
    let E := Z.to_nat (m_extra s - 1) in
    idle_for s s' E L /\ forall l, (l < L)%nat -> ~ idle_for s s' E l.
Proof. exact @run_exact_stop. Qed.
Print Assumptions C24_exact_stop.
Example C24_exact_nonvacuous :
  let s := ex_map in let s' := fst (run_inference true s) in
  sane s /\ m_debug s = true /\ run_inference true s = (s', Ok tt) /\ m_iters s' = 4%Z.
Proof. split; [apply ex_sane|]. split; [vm_compute; reflexivity|]. split; vm_compute; reflexivity. Qed.

(** ** C69 *)
(** Concepts that cannot be reached from [j] along relations never notice [j]. *)
Theorem C69_locality :
  forall {F} {N : Num F} j (s s1 s2 s1' s2' : fcm F) v v', sane s -> m_debug s = true ->
  init_concept j v true s = (s1, Ok tt) -> init_concept j v' true s = (s2, Ok tt) ->
  run_inference true s1 = (s1', Ok tt) -> run_inference true s2 = (s2', Ok tt) ->
  forall c h h' k a b, ~ influences (relations s) j c -> history s1' c = Some h -> history s2' c = Some h' ->
    nth_error h k = Some a -> nth_error h' k = Some b -> a = b.
Proof. intros F N j s s1 s2 s1' s2' v v'. exact (@locality F N j s v v' s1 s2 s1' s2'). Qed.
Print Assumptions C69_locality.
(** A set of concepts without incoming relations from outside evolves on its own,
    whatever the rest of the map starts from. *)
Theorem C69_closed_parts :
  forall {F} {N : Num F} (P : string -> Prop) (s t s' t' : fcm F), sane s -> sane t -> m_debug s = true ->
  same_map s t -> (forall o d w, In (o, d, w) (relations s) -> P d -> P o) ->
  (forall c, P c -> In c (concepts s) -> initial s c = initial t c) ->
  run_inference true s = (s', Ok tt) -> run_inference true t = (t', Ok tt) ->
  forall c h h' k a b, P c -> history s' c = Some h -> history t' c = Some h' ->
    nth_error h k = Some a -> nth_error h' k = Some b -> a = b.
Proof. exact @locality_maps. Qed.
Print Assumptions C69_closed_parts.
Example C69_nonvacuous : (* z is fed by y only; x -> z *)
  let s := run_ops [add_simple "x"; add_simple "y"; add_simple "z"; OpAddRelation "x" "z" (1#2)%Q; OpAddRelation "y" "z" (1#4)%Q;
                    OpInitConcept "y" (1#2)%Q true] (qmap 3 2 false "LAST" "saturation") in
  let r v := fst (run_inference true (fst (init_concept "x" v true s))) in
  (~ influences (relations s) "x" "y") /\ snd (run_inference true (fst (init_concept "x" (3#4)%Q true s))) = Ok tt /\
  history (r (3#4)%Q) "y" = history (r (1#8)%Q) "y" /\ history (r (3#4)%Q) "z" <> history (r (1#8)%Q) "z".
Proof.
  cbn zeta. split.
  - assert (E : relations (run_ops [add_simple "x"; add_simple "y"; add_simple "z"; OpAddRelation "x" "z" (1#2)%Q;
        OpAddRelation "y" "z" (1#4)%Q; OpInitConcept "y" (1#2)%Q true] (qmap 3 2 false "LAST" "saturation"))
      = [("x", "z", (1#2)%Q); ("y", "z", (1#4)%Q)]) by (vm_compute; reflexivity).
    rewrite E. intros I. inversion I as [|b c w _ H]; subst.
    cbn in H. destruct H as [H|[H|[]]]; discriminate.
  - split; [vm_compute; reflexivity|]. split; [vm_compute; reflexivity|]. vm_compute. discriminate.
Qed.

(** A small real-valued map for the examples below: x -> y (1/2), y -> x (1/2),
    logistic functions, memory on. *)
Definition real_start : fcm R :=
  match init_fcm 100 3 true (/ 100)%R "LAST" true "sigmoid" [] with
  | Ok s => s
  | Err _ => mkFcm [] [] [] true 0%Z 0%Z 0%R "" true "" [] 0%Z 0%R dummy_default true None false None false
  end.
Definition real_ops : list (op R) :=
  [OpAddConcept "x" None None None None None None []; OpAddConcept "y" None None None None None None [];
   OpAddRelation "x" "y" (/ 2)%R; OpAddRelation "y" "x" (/ 2)%R].
Definition real_map : fcm R := run_ops real_ops real_start.
Lemma real_sane : sane real_map /\ m_debug real_map = true /\ m_fit real_map = None.
Proof.
  assert (I : init_fcm 100 3 true (/ 100)%R "LAST" true "sigmoid" [] = Ok real_start) by reflexivity.
  split; [|split; reflexivity]. do 8 eexists. exists real_start, real_ops. split; [exact I|]. split; [|reflexivity].
  cbn. repeat split; discriminate.
Qed.
Lemma real_nodes c n : dget (m_topo real_map) c = Some n ->
  In c ["x"; "y"] /\ nd_func n = Some "sigmoid" /\ nd_args n = Some [] /\ nd_mem n = Some true /\ nd_exec n = Some "KOSKO" /\ nd_active n = Some true.
Proof.
  assert (K : dkeys (m_topo real_map) = ["x"; "y"]) by reflexivity.
  intros H. assert (Hc : In c (dkeys (m_topo real_map))) by (apply dget_Some_In; eauto). rewrite K in Hc. split; [exact Hc|].
  destruct Hc as [<-|[<-|[]]]; cbn in H; injection H as <-; repeat split.
Qed.
Lemma real_relations : relations real_map = [("x", "y", (/ 2)%R); ("y", "x", (/ 2)%R)].
Proof. reflexivity. Qed.

(** ** C70 *)
Theorem C70_larger_start_larger_values :
  forall s t s' t' : fcm R, sane s -> sane t -> m_debug s = true -> same_map s t -> monotone_map s ->
  (forall c a b, initial s c = Some a -> initial t c = Some b -> (a <= b)%R) ->
  run_inference true s = (s', Ok tt) -> run_inference true t = (t', Ok tt) ->
  forall c h h' k a b, history s' c = Some h -> history t' c = Some h' ->
    nth_error h k = Some a -> nth_error h' k = Some b -> (a <= b)%R.
Proof. exact monotone_runs. Qed.
Print Assumptions C70_larger_start_larger_values.
Theorem C70_raising_one_concept :
  forall j (s s1 s2 s1' s2' : fcm R) v v', sane s -> m_debug s = true -> monotone_map s ->
  (forall n, dget (m_topo s) j = Some n -> nd_func n <> Some "fuzzy") -> (v <= v')%R ->
  init_concept j v true s = (s1, Ok tt) -> init_concept j v' true s = (s2, Ok tt) ->
  run_inference true s1 = (s1', Ok tt) -> run_inference true s2 = (s2', Ok tt) ->
  forall c h h' k a b, history s1' c = Some h -> history s2' c = Some h' ->
    nth_error h k = Some a -> nth_error h' k = Some b -> (a <= b)%R.
Proof. exact monotone_init. Qed.
Print Assumptions C70_raising_one_concept.
(** If no value drops in the first step, none ever does. *)
Theorem C70_keeps_climbing :
  forall s s' : fcm R, sane s -> m_debug s = true -> monotone_map s -> run_inference true s = (s', Ok tt) ->
  (forall c h a b, history s' c = Some h -> nth_error h 0 = Some a -> nth_error h 1 = Some b -> (a <= b)%R) ->
  forall c h k a b, history s' c = Some h -> nth_error h k = Some a -> nth_error h (S k) = Some b -> (a <= b)%R.
Proof. exact monotone_climbs. Qed.
Print Assumptions C70_keeps_climbing.
Theorem C70_monotone_functions :
  forall (n : node R) f a, nd_func n = Some f -> nd_args n = Some a -> increasing_function f a -> monotone_node n.
Proof. exact increasing_monotone. Qed.
Print Assumptions C70_monotone_functions.
(** With its default argument, gceq is not monotone: it drops from 0 to -1 at -1. *)
Theorem C70_gceq_default_refuted :
  forall n : node R, nd_func n = Some "gceq" -> nd_args n = Some [] -> ~ monotone_node n.
Proof.
  intros n Hf Ha H.
  assert (G : forall u, responds n u (greater_cond_equality u nm1)).
  { intros u. exists "gceq", AGceq, []. repeat split; auto. }
  specialize (H (-2)%R (-1)%R _ _ ltac:(lra) (G _) (G _)). unfold greater_cond_equality in H.
  cbn [nleb nltb RNum] in H. unfold n0, n1, nm1 in H. cbn [nofZ RNum] in H. revert H.
  destruct (Rleb_spec (-1) (-2)); [lra|]. destruct (Rleb_spec (-1) (-1)); [|lra].
  destruct (Rltb_spec 1 (-1)); [lra|]. destruct (Rltb_spec (-1) (-1)); lra.
Qed.
Print Assumptions C70_gceq_default_refuted.
Example C70_nonvacuous : sane real_map /\ m_debug real_map = true /\ monotone_map real_map.
Proof.
  split; [apply real_sane|]. split; [apply real_sane|]. split.
  - intros o d w H. rewrite real_relations in H. destruct H as [H|[H|[]]]; injection H as _ _ <-; lra.
  - intros c n Hn. destruct (real_nodes c n Hn) as (_ & Hf & Ha & _). apply (increasing_monotone n _ _ Hf Ha).
    right. left. split; auto. cbn. lra.
Qed.
Example C70_nonvacuous_run : (* the same on a rational map that can be run here *)
  let s := run_ops [add_simple "x"; add_simple "y"; OpAddRelation "x" "y" (1#2)%Q; OpAddRelation "y" "x" (1#4)%Q]
             (qmap 3 2 false "LAST" "saturation") in
  let h v := history (fst (run_inference true (fst (init_concept "x" v true s)))) "y" in
  h (1#4)%Q = Some [0; 1#8; 1#4; 25#64]%Q /\ h (1#2)%Q = Some [0; 1#4; 1#2; 25#32]%Q.
Proof. vm_compute. split; reflexivity. Qed.

(** ** C71 *)
(** A new concept without relations does not disturb the others. *)
Theorem C71_unconnected_concept :
  forall {F} {N : Num F} name ty act mem exc dat fn kw (s s1 s' s1' : fcm F),
  sane s -> m_debug s = true -> ~ In name (concepts s) ->
  add_concept name ty act mem exc dat fn kw s = (s1, Ok tt) ->
  run_inference true s = (s', Ok tt) -> run_inference true s1 = (s1', Ok tt) ->
  forall c h h' k a b, In c (concepts s) -> history s' c = Some h -> history s1' c = Some h' ->
    nth_error h k = Some a -> nth_error h' k = Some b -> a = b.
Proof. exact @isolated. Qed.
Print Assumptions C71_unconnected_concept.
(** A relation of weight 0 has no effect. *)
Theorem C71_zero_relation :
  forall a b (s s' : fcm R), sane s -> m_debug s = true -> m_fit s = None ->
  run_inference true s = (s', Ok tt) -> exists t', run_inference true (fst (add_relation a b 0%R s)) = (t', Ok tt) /\
  forall c, history t' c = history s' c /\ (In c (concepts s) -> value t' c = value s' c).
Proof. exact zero_relation_runs. Qed.
Print Assumptions C71_zero_relation.
(** Two relations between the same concepts act like one with the summed weight. *)
Theorem C71_parallel_relations :
  forall a b w1 w2 (s s' : fcm R), sane s -> m_debug s = true -> m_fit s = None ->
  run_inference true (fst (add_relation a b (w1 + w2)%R s)) = (s', Ok tt) ->
  exists t', run_inference true (fst (add_relation a b w2 (fst (add_relation a b w1 s)))) = (t', Ok tt) /\
  forall c, history t' c = history s' c /\ (In c (concepts s) -> value t' c = value s' c).
Proof. exact merged_relation_runs. Qed.
Print Assumptions C71_parallel_relations.
Example C71_nonvacuous :
  let q l := run_inference true (run_ops l ex_map) in
  let r w := OpAddRelation "x" "y" w in
  snd (q [r 0%Q]) = Ok tt /\ history (fst (q [r 0%Q])) "y" = history (fst (q [])) "y" /\
  snd (q [r (1#8)%Q; r (1#4)%Q]) = Ok tt /\ history (fst (q [r (1#8)%Q; r (1#4)%Q])) "y" = history (fst (q [r (3#8)%Q])) "y" /\
  history (fst (q [r (3#8)%Q])) "y" <> history (fst (q [])) "y" /\
  snd (q [add_simple "z"]) = Ok tt /\ history (fst (q [add_simple "z"])) "y" = history (fst (q [])) "y".
Proof.
  cbn zeta. do 4 (split; [vm_compute; reflexivity|]). split; [vm_compute; discriminate|]. split; vm_compute; reflexivity.
Qed.
Example C71_nonvacuous_real : sane real_map /\ m_debug real_map = true /\ m_fit real_map = None.
Proof. exact real_sane. Qed.

(** ** C72 *)
(** Two runs of a contracting map approach each other geometrically ... *)
Theorem C72_runs_approach :
  forall (s t s' t' : fcm R) q D0, sane s -> sane t -> m_debug s = true -> same_map s t -> contracting s q ->
  (forall c a b, initial s c = Some a -> initial t c = Some b -> (Rabs (a - b) <= D0)%R) ->
  run_inference true s = (s', Ok tt) -> run_inference true t = (t', Ok tt) ->
  forall c h h' k a b, history s' c = Some h -> history t' c = Some h' ->
    nth_error h k = Some a -> nth_error h' k = Some b -> (Rabs (a - b) <= q ^ k * D0)%R.
Proof. exact contracting_runs. Qed.
Print Assumptions C72_runs_approach.
(** ... the steps of one run shrink geometrically ... *)
Theorem C72_steps_shrink :
  forall (s s' : fcm R) q D0, sane s -> m_debug s = true -> contracting s q -> run_inference true s = (s', Ok tt) ->
  (forall c h a b, history s' c = Some h -> nth_error h 0 = Some a -> nth_error h 1 = Some b -> (Rabs (b - a) <= D0)%R) ->
  forall c h k a b, history s' c = Some h -> nth_error h k = Some a -> nth_error h (S k) = Some b -> (Rabs (b - a) <= q ^ k * D0)%R.
Proof. exact contracting_steps. Qed.
Print Assumptions C72_steps_shrink.
(** ... so it stops early: at most [extra] steps after the bound falls below the threshold. *)
Theorem C72_stops_early :
  forall (s s' : fcm R) q D0 M, sane s -> m_debug s = true -> m_stab s = true -> contracting s q -> (q <= 1)%R ->
  run_inference true s = (s', Ok tt) ->
  (forall c h a b, history s' c = Some h -> nth_error h 0 = Some a -> nth_error h 1 = Some b -> (Rabs (b - a) <= D0)%R) ->
  (q ^ M * D0 <= m_sdiff s)%R ->
  forall c h, history s' c = Some h -> (Z.of_nat (length h) <= Z.of_nat M + 1 + m_extra s)%Z.
Proof. exact contracting_stops. Qed.
Print Assumptions C72_stops_early.
Theorem C72_steepness_of_functions :
  forall (n : node R) f a K, nd_func n = Some f -> nd_args n = Some a -> steepness f a K -> lipschitz_node K n.
Proof. exact steep_lipschitz. Qed.
Print Assumptions C72_steepness_of_functions.
Lemma real_contracting : contracting real_map (3 / 8)%R.
Proof.
  intros c n Hn. destruct (real_nodes c n Hn) as (Hc & Hf & Ha & Hm & He & _).
  exists (Rabs (parameter [] "lambda_val" 1%R) / 4)%R. split.
  - apply (steep_lipschitz n _ _ _ Hf Ha). right. left. auto.
  - unfold gain. rewrite Hm. unfold slope. rewrite He. cbn [parameter dget].
    assert (A : arriving (m_topo real_map) (m_arcs real_map) c = (/ 2)%R).
    { destruct Hc as [<-|[<-|[]]]; cbn; rewrite (Rabs_pos_eq (/ 2)) by lra; lra. }
    rewrite A, Rabs_R1. lra.
Qed.
Example C72_nonvacuous : sane real_map /\ m_debug real_map = true /\ m_stab real_map = true /\ contracting real_map (3 / 8)%R.
Proof. split; [apply real_sane|]. split; [reflexivity|]. split; [reflexivity|]. exact real_contracting. Qed.

(** ** C73 *)
(** When every concept has a next value for any input, inference either succeeds or
    -- with decision EXITED and exactly [extra] steps made -- raises ValueError. *)
Theorem C73_run_outcome :
  forall {F} {N : Num F} (s : fcm F), sane s -> m_debug s = true ->
  (forall c, In c (concepts s) -> initial s c <> None) -> responsive s ->
  (m_decision s <> "LAST" -> forall k, (0 < k)%Z -> neqb (nofZ (Num := N) k) n0 = false) ->
  exists L, (forall c, In c (concepts s) -> exists h, history (fst (run_inference true s)) c = Some h /\ length h = S L) /\
    snd (run_inference true s) =
      (if String.eqb (m_decision s) "EXITED" && (Z.of_nat L =? m_extra s)%Z
       then match concepts s with [] => Ok tt | _ => Err EValue end else Ok tt).
Proof. exact @run_outcome. Qed.
Print Assumptions C73_run_outcome.
Theorem C73_run_succeeds :
  forall {F} {N : Num F} (s : fcm F), sane s -> m_debug s = true ->
  (forall c, In c (concepts s) -> initial s c <> None) -> responsive s -> m_decision s <> "EXITED" ->
  (m_decision s <> "LAST" -> forall k, (0 < k)%Z -> neqb (nofZ (Num := N) k) n0 = false) ->
  exists s', run_inference true s = (s', Ok tt).
Proof. exact @run_succeeds. Qed.
Print Assumptions C73_run_succeeds.
(** All functions but fuzzy answer every input when called with their own arguments
    (relm: with a non-zero one). *)
Theorem C73_functions_answer :
  forall {F} {N : Num F} (n : node F) f a, nd_func n = Some f -> nd_args n = Some a -> callable f a ->
  forall t arcs x c, exists y, next_value t arcs x c n y.
Proof. exact @callable_answers. Qed.
Print Assumptions C73_functions_answer.
(** A map at rest from the start raises with decision EXITED (the values before the
    extra steps are an empty list), and so does any map limited to two iterations. *)
Theorem C73_exited_refuted :
  exists s t : fcm Q, sane s /\ sane t /\ responsive s /\ responsive t /\
    m_decision s = "EXITED" /\ m_decision t = "EXITED" /\ m_maxit s = 100%Z /\ m_maxit t = 2%Z /\
    snd (run_inference true s) = Err EValue /\ snd (run_inference true t) = Err EValue.
Proof.
  assert (Rp : forall s : fcm Q, forallb (fun p => match nd_func (snd p), nd_args (snd p) with
      Some f, Some [] => String.eqb f "saturation" | _, _ => false end) (m_topo s) = true -> responsive s).
  { intros s H c n x Hn. rewrite forallb_forall in H. specialize (H _ (dget_In _ _ _ Hn)). cbn [snd] in H.
    destruct (nd_func n) as [f|] eqn:Hf; [|discriminate]. destruct (nd_args n) as [[|a l]|] eqn:Ha; try discriminate.
    apply String.eqb_eq in H. subst f. apply (callable_answers n _ _ Hf Ha). left. split; auto. cbn. auto. }
  set (ops := [add_simple "x"; OpInitConcept "x" (1#2)%Q true]).
  exists (run_ops ops (qmap 100 5 true "EXITED" "saturation")), (run_ops ops (qmap 2 5 false "EXITED" "saturation")).
  split; [|split].
  1: exists 100%Z, 5%Z, true, (1#1024)%Q, "EXITED", true, "saturation", [], (qmap 100 5 true "EXITED" "saturation"), ops.
  2: exists 2%Z, 5%Z, false, (1#1024)%Q, "EXITED", true, "saturation", [], (qmap 2 5 false "EXITED" "saturation"), ops.
  1,2: split; [vm_compute; reflexivity|]; split; [vm_compute; repeat split; discriminate|reflexivity].
  split; [|split].
  1,2: apply Rp; vm_compute; reflexivity.
  do 4 (split; [vm_compute; reflexivity|]). split; vm_compute; reflexivity.
Qed.
Print Assumptions C73_exited_refuted.
(** The hypotheses hold for the real-valued example, whose run therefore succeeds;
    by C72 it makes at most 8 steps although 101 are allowed. *)
Lemma real_initial c v : initial real_map c = Some v -> v = 0%R.
Proof.
  intros H. assert (Hc : In c ["x"; "y"]).
  { change ["x"; "y"] with (dkeys (m_exec real_map)). unfold initial, history in H. apply dget_Some_In.
    destruct (dget (m_exec real_map) c); [eauto|discriminate]. }
  destruct Hc as [<-|[<-|[]]]; cbn in H; injection H as <-; reflexivity.
Qed.
Lemma real_settings : concepts real_map = ["x"; "y"] /\ m_decision real_map = "LAST" /\ m_extra real_map = 3%Z /\
  m_stab real_map = true /\ m_sdiff real_map = (/ 100)%R /\
  (exists v, initial real_map "x" = Some v) /\ (exists v, initial real_map "y" = Some v).
Proof. do 5 (split; [reflexivity|]). split; eexists; reflexivity. Qed.
Example C73_nonvacuous : exists s', run_inference true real_map = (s', Ok tt) /\
  forall c h, history s' c = Some h -> (Z.of_nat (length h) <= 9)%Z.
Proof.
  assert (R : responsive real_map).
  { intros c n x Hn. destruct (real_nodes c n Hn) as (_ & Hf & Ha & _). apply (callable_answers n _ _ Hf Ha).
    right. left. split; cbn; auto. }
  destruct real_settings as (S1 & S2 & S3 & S4 & S5 & [vx Sx] & [vy Sy]). pose proof real_sane as (RS & RD & _).
  pose proof real_initial as RI. pose proof real_nodes as RN. pose proof real_contracting as RC.
  revert R RS RD RN RI S1 S2 S3 S4 S5 Sx Sy RC. generalize real_map. intros m R RS RD RN RI S1 S2 S3 S4 S5 Sx Sy RC.
  destruct (run_succeeds m RS RD) as [s' E]; auto.
  - intros c Hc. rewrite S1 in Hc. destruct Hc as [<-|[<-|[]]]; congruence.
  - rewrite S2. discriminate.
  - rewrite S2. intros H. now contradiction H.
  - exists s'. split; auto. intros c h Hh.
    pose proof (contracting_stops m s' (3 / 8) 1 5 RS RD S4 RC ltac:(lra) E) as S.
    apply S in Hh; [rewrite S3 in Hh; lia| |].
    + intros d g a b Hg Ha Hb. destruct (run_track m s' RS RD E) as (L & x & T).
      destruct (track_nth _ _ _ _ _ _ _ _ T Hg Ha) as (Hd & _ & ->).
      destruct (track_nth _ _ _ _ _ _ _ _ T Hg Hb) as (_ & HL & ->).
      pose proof (RI d _ (tk_start _ _ _ _ T d Hd)) as E0. rewrite E0.
      assert (Hd' := Hd). apply dget_Some_In in Hd' as [n Hn].
      pose proof (tk_orbit _ _ _ _ T 0%nat d n ltac:(lia) Hn) as (f & fn & a' & z & A1 & A2 & A3 & A4 & A5).
      destruct (RN d n Hn) as (_ & Hf & Har & _). rewrite Hf in A1. injection A1 as <-. cbn in A2. injection A2 as <-.
      rewrite Har in A3. injection A3 as <-. cbn in A5. injection A5 as <-.
      assert (P : (0 < exp (-1 * 1 * z))%R) by apply exp_pos.
      unfold sigmoid. unfold n1, nm1. cbn [nofZ nexp nmul nadd ndiv RNum].
      assert (0 < / (1 + exp (-1 * 1 * z)) < 1)%R.
      { split; [apply Rinv_0_lt_compat; lra|]. apply Rmult_lt_reg_l with (1 + exp (-1 * 1 * z))%R; [lra|]. rewrite Rinv_r by lra. lra. }
      rewrite Rabs_pos_eq; unfold Rdiv; lra.
    + rewrite S5. simpl. lra.
Qed.

(** ** C74 *)
(** A map that is saved and loaded before it has moved infers what the original
    infers: the same histories and the same decisions, in both directions. *)
Theorem C74_reloaded_map_runs_alike :
  forall {F} {N : Num F} (s : fcm F) j s' r, sane s -> portable s -> m_debug s = true ->
  (forall c, In c (concepts s) -> initial s c = value s c) ->
  to_json s = Ok j -> from_json j = Ok s' ->
  (run_inference true s = (r, Ok tt) -> exists r', run_inference true s' = (r', Ok tt) /\
     forall c, history r' c = history r c /\ (In c (concepts s) -> value r' c = value r c)) /\
  (run_inference true s' = (r, Ok tt) -> exists r', run_inference true s = (r', Ok tt) /\
     forall c, history r' c = history r c /\ (In c (concepts s) -> value r' c = value r c)).
Proof. exact @reload_run. Qed.
Print Assumptions C74_reloaded_map_runs_alike.
Definition saved_map : fcm Q :=
  run_ops [add_simple "a"; OpAddConcept "b" (Some TYPE_DECISION) None None None None (Some "lceq") [("weight", AScal (1#2)%Q)];
           OpAddRelation "a" "b" (3#4)%Q; OpAddRelation "b" "a" (1#4)%Q; OpInitConcept "a" (7#8)%Q true] base_map.
Example C74_nonvacuous :
  sane saved_map /\ portable saved_map /\ m_debug saved_map = true /\
  (forall c, In c (concepts saved_map) -> initial saved_map c = value saved_map c) /\
  snd (run_inference true saved_map) = Ok tt /\ history (fst (run_inference true saved_map)) "b" <> history saved_map "b" /\
  exists j s', to_json saved_map = Ok j /\ from_json j = Ok s'.
Proof.
  split; [|split].
  - exists 10%Z, 5%Z, true, (1#1024)%Q, "LAST", true, "saturation", [], base_map. eexists. split; [exact base_call|]. split; [|reflexivity].
    repeat (split; [first [intros _; vm_compute; reflexivity|intros H; discriminate H]|]). exact I.
  - split; [intros k v []|]. intros c n H.
    assert (K : c = "a" \/ c = "b").
    { apply dget_In in H. apply (in_map fst) in H. vm_compute in H. intuition auto. }
    destruct K as [-> | ->]; vm_compute in H; injection H as <-; constructor; vm_compute; auto.
    + exists "saturation", []. repeat split; try discriminate. now left.
    + exists "lceq", [("weight", AScal (1#2)%Q)]. repeat split; try discriminate. right. split; [discriminate|].
      intros k v [E|[]]. injection E as <- <-. split; [intuition discriminate|discriminate].
  - split; [vm_compute; reflexivity|]. split.
    { replace (concepts saved_map) with ["a"; "b"] by (vm_compute; reflexivity). intros c [<-|[<-|[]]]; vm_compute; reflexivity. }
    split; [vm_compute; reflexivity|]. split; [vm_compute; discriminate|]. do 2 eexists. split; [vm_compute; reflexivity|]. vm_compute; reflexivity.
Qed.
Definition halving : fcm Q := run_ops [add_simple "x"; OpAddRelation "x" "x" (-1#2)%Q; OpInitConcept "x" 1%Q true] base_map.
(** Saving a map after a run loses its starting point: the loaded map starts from
    the values of the last run and infers something else. *)
Theorem C74_saved_after_run_refuted :
  exists (s : fcm Q) j s', to_json s = Ok j /\ from_json j = Ok s' /\
    (exists s0, sane s0 /\ s = fst (run_inference true s0) /\ snd (run_inference true s0) = Ok tt) /\
    snd (run_inference true s) = Ok tt /\ snd (run_inference true s') = Ok tt /\
    value (fst (run_inference true s)) "x" <> value (fst (run_inference true s')) "x".
Proof.
  exists (fst (run_inference true halving)). do 2 eexists.
  split; [vm_compute; reflexivity|]. split; [vm_compute; reflexivity|]. split; [|split; [|split]].
  2,3: vm_compute; reflexivity. 2: vm_compute; discriminate.
  exists halving. split; [|split; [reflexivity|vm_compute; reflexivity]].
  exists 10%Z, 5%Z, true, (1#1024)%Q, "LAST", true, "saturation", [], base_map. eexists. split; [exact base_call|]. split; [|reflexivity].
  repeat (split; [first [intros _; vm_compute; reflexivity|intros H; discriminate H]|]). exact I.
Qed.
Print Assumptions C74_saved_after_run_refuted.
