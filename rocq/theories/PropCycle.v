(** PropCycle.v — maps with finitely many states, and maps that treat positive and
    negative activation alike (C108, C109). *)
From Coq Require Import Reals Lra QArith.
From Verif Require Import Base BaseFacts Num Functions Spec SortFacts RealFacts QNum Fcm FcmSpec VecSpec DynSpec FcmInv FcmInv2 FcmInv3 FcmIter FcmRun FcmRun2
  FcmRun3 FcmOrder FcmStop Dynamics Dynamics2 Dynamics3 FcmTotal FcmVec FcmVec2 FcmVec3 FcmVec4 FcmVec5 FcmVec6  VecDyn CycleFacts OddFacts PropInference PropDynamics PropVec3.
Local Close Scope Q_scope.
Local Close Scope R_scope.

(** ** C108 *)
(** Concepts that only take values from [vals] (b of them): after at most b^n + 1 steps
    the run is in a state it was in before, and from then on repeats itself. *)
Theorem C108_repeats :
  forall {F} {N : Num F} (vals : list F) (s s' : fcm F), sane s -> m_debug s = true -> run_inference true s = (s', Ok tt) ->
  (forall c n, dget (m_topo s) c = Some n -> answers_in vals n) ->
  forall c0 h0, history s' c0 = Some h0 -> length vals ^ length (concepts s) + 1 < length h0 ->
  exists i p, 1 <= i /\ 0 < p /\ i + p <= length vals ^ length (concepts s) + 1 /\
    forall c h k, history s' c = Some h -> i <= k -> k + p < length h -> nth_error h (k + p) = nth_error h k.
Proof. exact @run_cycle. Qed.
Print Assumptions C108_repeats.
(** So a run that is going to stop before the iteration limit stops soon: within
    b^n + extra steps. *)
Theorem C108_stops_soon_or_never :
  forall {F} {N : Num F} (vals : list F) (s s' : fcm F), sane s -> m_debug s = true -> run_inference true s = (s', Ok tt) ->
  (forall c n, dget (m_topo s) c = Some n -> answers_in vals n) ->
  forall c h, history s' c = Some h ->
    length h <= length vals ^ length (concepts s) + Z.to_nat (m_extra s) + 1 \/ (m_maxit s < Z.of_nat (length h))%Z.
Proof. exact @run_rests. Qed.
Print Assumptions C108_stops_soon_or_never.
(** Two values for biestate, three for threestate. *)
Theorem C108_functions : forall {F} {N : Num F} (n : node F),
  (nd_func n = Some "biestate" -> answers_in [n0; n1] n /\ answers_in [n0; nlit 1 2; n1] n) /\
  (nd_func n = Some "threestate" -> answers_in [n0; nlit 1 2; n1] n).
Proof.
  intros F N n. split.
  - intros Hf. split; intros f fn a z y E1 E2 _ E4; rewrite Hf in E1; injection E1 as <-; cbn in E2; injection E2 as <-; cbn [call_actv] in E4;
      destruct (kw_only [] a); try discriminate; cbn [rbind] in E4; injection E4 as <-; unfold bistate; destruct (nleb z n0); cbn; auto.
  - intros Hf f fn a z y E1 E2 _ E4; rewrite Hf in E1; injection E1 as <-; cbn in E2; injection E2 as <-; cbn [call_actv] in E4.
    destruct (kw_only [] a); try discriminate; cbn [rbind] in E4; injection E4 as <-; unfold threestate.
    destruct (nleb z _); [cbn; auto|]. destruct (nleb z _); cbn; auto.
Qed.
Print Assumptions C108_functions.
(** z is always on and excites x, x excites y, y inhibits x: (x, y) goes through 00, 10,
    11, 01 for ever, until the iteration limit. *)
Definition ring_ops : list (op Q) :=
  [OpAddConcept "x" None None (Some false) None None None []; OpAddConcept "y" None None (Some false) None None None []; add_simple "z";
   OpAddRelation "z" "x" 1%Q; OpAddRelation "x" "y" 1%Q; OpAddRelation "y" "x" (-1)%Q; OpInitConcept "z" 1%Q true].
Definition ring_map : fcm Q := run_ops ring_ops (qmap 20 2 true "LAST" "biestate").
Example C108_nonvacuous :
  sane ring_map /\ m_debug ring_map = true /\ (forall c n, dget (m_topo ring_map) c = Some n -> answers_in [0%Q; 1%Q] n) /\
  let s' := fst (run_inference true ring_map) in
  snd (run_inference true ring_map) = Ok tt /\ length (concepts ring_map) = 3 /\
  history s' "x" = Some [0; 1; 1; 0; 0; 1; 1; 0; 0; 1; 1; 0; 0; 1; 1; 0; 0; 1; 1; 0; 0]%Q /\
  history s' "y" = Some [0; 0; 1; 1; 0; 0; 1; 1; 0; 0; 1; 1; 0; 0; 1; 1; 0; 0; 1; 1; 0]%Q.
Proof.
  assert (I : init_fcm 20 2 true (1#1024)%Q "LAST" true "biestate" [] = Ok (qmap 20 2 true "LAST" "biestate")) by (vm_compute; reflexivity).
  split; [|split; [vm_compute; reflexivity|split; [|vm_compute; repeat split]]].
  - do 8 eexists; exists (qmap 20 2 true "LAST" "biestate"), ring_ops; split; [exact I|]; split; [|reflexivity].
    vm_compute; repeat split; discriminate.
  - intros c n Hn.
    assert (B : forallb (fun p => match nd_func (snd p) with Some f => String.eqb f "biestate" | None => false end) (m_topo ring_map) = true)
      by (vm_compute; reflexivity).
    rewrite forallb_forall in B. specialize (B (c, n) (dget_In _ _ _ Hn)). cbn [snd] in B.
    destruct (nd_func n) as [f|] eqn:Ef; [|discriminate]. apply String.eqb_eq in B. subst f.
    exact (proj1 (proj1 (C108_functions n) Ef)).
Qed.

(** ** C109 *)
(** Odd concepts: a run from the opposite start takes opposite values at every step, is
    as long, and (unless the decision is EXITED) ends with opposite results. *)
Theorem C109_mirror :
  forall A (s t s' t' : fcm R), sane s -> sane t -> m_debug s = true -> same_map s t -> (1 <= A)%R -> even_handed A s ->
  (forall c a, initial s c = Some a -> (Rabs a <= A)%R /\ initial t c = Some (- a)%R) ->
  run_inference true s = (s', Ok tt) -> run_inference true t = (t', Ok tt) ->
  forall c h, history s' c = Some h -> history t' c = Some (map Ropp h) /\
    (m_decision s <> "EXITED" -> exists v, value s' c = Some v /\ value t' c = Some (- v)%R).
Proof. exact mirrored_runs. Qed.
Print Assumptions C109_mirror.
Theorem C109_vectorized :
  forall A (s t s' t' : fcm R), sane s -> sane t -> regular s -> responsive s -> m_debug s = false -> (1 <= m_maxit s)%Z ->
  same_map s t -> (1 <= A)%R -> even_handed A s ->
  (forall c a, initial s c = Some a -> (Rabs a <= A)%R /\ initial t c = Some (- a)%R) ->
  run_inference true s = (s', Ok tt) -> run_inference true t = (t', Ok tt) -> m_oob s' = false -> m_oob t' = false ->
  forall c h h' k a b, In c (concepts s) -> history s' c = Some h -> history t' c = Some h' ->
    nth_error h k = Some a -> nth_error h' k = Some b -> (b = - a)%R.
Proof. exact vec_mirrored. Qed.
Print Assumptions C109_vectorized.
(** Concepts that answer input 0 with 0: a map started at 0 stays there. *)
Theorem C109_nothing_from_nothing :
  forall (s s' : fcm R), sane s -> (forall c n, dget (m_topo s) c = Some n -> silent_node n) ->
  (forall c a, initial s c = Some a -> a = 0%R) -> run_inference true s = (s', Ok tt) ->
  (m_debug s = false -> regular s /\ responsive s /\ (1 <= m_maxit s)%Z) ->
  forall c h, In c (concepts s) -> history s' c = Some h -> Forall (fun x => x = 0%R) h /\ value s' c = Some 0%R.
Proof.
  intros s s' Hs Hq Hi E HV c h Hc Hh. destruct (m_debug s) eqn:D.
  - destruct (silent_run s s' Hs D Hq Hi E c Hc) as [A B]. auto.
  - destruct (HV eq_refl) as (Rg & Rs & Hm). destruct (vec_silent s s' Hs Rg Rs D Hm Hq Hi E c Hc) as [A B]. split; auto.
    apply B. congruence.
Qed.
Print Assumptions C109_nothing_from_nothing.
(** The default function sigmoid_hip is odd as long as its argument is not clipped, and
    0 at 0 in any case. *)
Theorem C109_functions : forall (n : node R) f a, nd_func n = Some f -> nd_args n = Some a -> nd_exec n <> Some "PAPAGEORGIUS" ->
  (In f ["sigmoid_hip"; "tan_hip"] ->
     (forall B, (Rabs (parameter a "lambda_val" 2) * B <= 500)%R -> odd_within B n) /\ silent_node n) /\
  (f = "gceq" -> (forall B, (B <= - parameter a "weight" (-1))%R -> odd_within B n) /\ silent_node n).
Proof.
  intros n f a Nf Na He. split; [intros Hf; split; [intros B; eapply hip_odd_within; eauto|eapply hip_silent; eauto]|].
  intros ->. split; [intros B; now apply gceq_odd_within|now apply (gceq_silent n a)].
Qed.
Print Assumptions C109_functions.
(** EXITED takes the maximum: not opposite although all values are. *)
Definition tilt (emit dec : string) (v : Q) : fcm Q :=
  run_ops [OpAddConcept "x" None None None (Some emit) None (Some "gceq") [("weight", AScal (-5)%Q)];
           OpAddConcept "y" None None (Some false) None None (Some "gceq") [("weight", AScal (-5)%Q)];
           OpAddRelation "x" "y" (1#2)%Q; OpInitConcept "x" v true] (qmap 5 2 false dec "saturation").
Lemma tilt_sane emit dec v : In emit ["KOSKO"; "PAPAGEORGIUS"] -> In dec ["LAST"; "EXITED"] -> In v [1; -1]%Q ->
  sane (tilt emit dec v) /\ m_debug (tilt emit dec v) = true.
Proof.
  intros He Hd Hv.
  assert (I : init_fcm 5 2 false (1#1024)%Q dec true "saturation" [] = Ok (qmap 5 2 false dec "saturation"))
    by (destruct Hd as [<-|[<-|[]]]; vm_compute; reflexivity).
  split.
  - do 8 eexists. eexists _, _. split; [exact I|]. split; [|reflexivity].
    destruct He as [<-|[<-|[]]]; destruct Hd as [<-|[<-|[]]]; destruct Hv as [<-|[<-|[]]]; vm_compute; repeat split; discriminate.
  - destruct He as [<-|[<-|[]]]; destruct Hd as [<-|[<-|[]]]; destruct Hv as [<-|[<-|[]]]; vm_compute; reflexivity.
Qed.
Theorem C109_exited_refuted :
  let s := tilt "KOSKO" "EXITED" 1%Q in let t := tilt "KOSKO" "EXITED" (-1)%Q in
  let s' := fst (run_inference true s) in let t' := fst (run_inference true t) in
  sane s /\ sane t /\ same_map s t /\ snd (run_inference true s) = Ok tt /\ snd (run_inference true t) = Ok tt /\
  history s' "y" = Some [0; 1#2; 1#2; 1#2; 1#2; 1#2]%Q /\ history t' "y" = Some [0; -1#2; -1#2; -1#2; -1#2; -1#2]%Q /\
  value s' "y" = Some (1#2)%Q /\ value t' "y" = Some 0%Q.
Proof.
  cbn zeta. split; [apply tilt_sane; cbn; auto|]. split; [apply tilt_sane; cbn; auto|].
  split; [vm_compute; repeat split|]. vm_compute. repeat split.
Qed.
Print Assumptions C109_exited_refuted.
(** A PAPAGEORGIUS concept emits 2v - 1, so it does not treat 1 and -1 alike. *)
Theorem C109_papageorgius_refuted :
  let s := tilt "PAPAGEORGIUS" "LAST" 1%Q in let t := tilt "PAPAGEORGIUS" "LAST" (-1)%Q in
  let s' := fst (run_inference true s) in let t' := fst (run_inference true t) in
  sane s /\ sane t /\ same_map s t /\ snd (run_inference true s) = Ok tt /\ snd (run_inference true t) = Ok tt /\
  initial s "x" = Some 1%Q /\ initial t "x" = Some (-1)%Q /\ initial s "y" = Some 0%Q /\ initial t "y" = Some 0%Q /\
  history s' "y" = Some [0; 1#2; 1#2; 1#2; 1#2; 1#2]%Q /\ history t' "y" = Some [0; -1; -1; -1; -1; -1]%Q.
Proof.
  cbn zeta. split; [apply tilt_sane; cbn; auto|]. split; [apply tilt_sane; cbn; auto|].
  split; [vm_compute; repeat split|]. vm_compute. repeat split.
Qed.
Print Assumptions C109_papageorgius_refuted.
(** The hypotheses hold for x -> y (1/2), y -> x (-1/2) with the default function,
    started at x = v for any v between -1 and 1. *)
Definition hip_start : fcm R :=
  match init_fcm 100 3 true (/ 100)%R "MEAN" true "sigmoid_hip" [] with
  | Ok s => s
  | Err _ => mkFcm [] [] [] true 0%Z 0%Z 0%R "" true "" [] 0%Z 0%R dummy_default true None false None false
  end.
Definition hip_ops (v : R) : list (op R) :=
  [OpAddConcept "x" None None None None None None []; OpAddConcept "y" None None None None None None [];
   OpAddRelation "x" "y" (/ 2)%R; OpAddRelation "y" "x" (- / 2)%R; OpInitConcept "x" v true].
Definition hip_made (v : R) : fcm R := run_ops (hip_ops v) hip_start.
(** ... the map these calls lead to, written out *)
Definition hip_map : R -> fcm R := Eval lazy -[Rinv Ropp IZR R0 R1 Rplus Rmult Rle_dec Rlt_dec Req_EM_T] in hip_made.
Lemma hip_is v : hip_map v = run_ops (hip_ops v) hip_start.
Proof. reflexivity. Qed.
Lemma hip_sane v : sane (hip_map v) /\ m_debug (hip_map v) = true /\ m_decision (hip_map v) = "MEAN".
Proof.
  assert (I : init_fcm 100 3 true (/ 100)%R "MEAN" true "sigmoid_hip" [] = Ok hip_start) by reflexivity.
  split; [|split; reflexivity]. do 8 eexists. exists hip_start, (hip_ops v). split; [exact I|]. split; [|exact (hip_is v)].
  cbn. repeat split; discriminate.
Qed.
Lemma hip_nodes v c n : dget (m_topo (hip_map v)) c = Some n ->
  In c ["x"; "y"] /\ nd_func n = Some "sigmoid_hip" /\ nd_args n = Some [] /\ nd_mem n = Some true /\ nd_exec n = Some "KOSKO" /\
  arriving (m_topo (hip_map v)) (m_arcs (hip_map v)) c = (/ 2)%R.
Proof.
  assert (K : dkeys (m_topo (hip_map v)) = ["x"; "y"]) by reflexivity.
  intros H. assert (Hc : In c (dkeys (m_topo (hip_map v)))) by (apply dget_Some_In; eauto). rewrite K in Hc. split; [exact Hc|].
  destruct Hc as [<-|[<-|[]]]; cbn in H; injection H as <-; do 4 (split; [reflexivity|]); cbn;
    rewrite ?Rabs_Ropp, (Rabs_pos_eq (/ 2)) by lra; lra.
Qed.
Lemma hip_even_handed v : even_handed 1 (hip_map v).
Proof.
  intros c n Hn. destruct (hip_nodes v c n Hn) as (_ & Hf & Ha & Hm & He & Har).
  apply (proj1 (proj1 (C109_functions n "sigmoid_hip" [] Hf Ha ltac:(rewrite He; discriminate)) ltac:(cbn; auto))).
  unfold gain, slope. rewrite Hm, He, Har. cbn [parameter dget]. rewrite (Rabs_pos_eq 2) by lra. lra.
Qed.
Lemma hip_initial v c : initial (hip_map v) c = (if String.eqb c "x" then Some v else if String.eqb c "y" then Some 0%R else None).
Proof.
  unfold initial, history. change (m_exec (hip_map v)) with [("x", [v]); ("y", [0%R])]. cbn [dget].
  destruct (String.eqb_spec c "x"); auto. destruct (String.eqb_spec c "y"); auto.
Qed.
Lemma hip_settings v : concepts (hip_map v) = ["x"; "y"] /\ responsive (hip_map v) /\ same_map (hip_map v) (hip_map (- v)).
Proof.
  split; [reflexivity|]. split; [|repeat split; reflexivity].
  intros c n x Hn. destruct (hip_nodes v c n Hn) as (_ & Hf & Ha & _). apply (callable_answers n _ _ Hf Ha). right. left. split; cbn; auto.
Qed.
Lemma hip_runs v : exists s', run_inference true (hip_map v) = (s', Ok tt).
Proof.
  pose proof (hip_sane v) as (Hs & D & Hd). pose proof (hip_settings v) as (Hc & Hr & _). pose proof (hip_initial v) as Hi.
  revert Hs D Hd Hc Hr Hi. generalize (hip_map v). intros m Hs D Hd Hc Hr Hi. apply run_succeeds; auto.
  - intros c. rewrite Hc, Hi. intros [<-|[<-|[]]]; discriminate.
  - rewrite Hd. discriminate.
  - intros _ k Hk. cbn [neqb nofZ n0 RNum]. apply Reqb_false. apply not_0_IZR. lia.
Qed.
Example C109_nonvacuous : forall v, (Rabs v <= 1)%R ->
  sane (hip_map v) /\ m_debug (hip_map v) = true /\ even_handed 1 (hip_map v) /\
  exists s' t', run_inference true (hip_map v) = (s', Ok tt) /\ run_inference true (hip_map (- v)) = (t', Ok tt) /\
    forall c h, history s' c = Some h -> history t' c = Some (map Ropp h).
Proof.
  intros v Hv. pose proof (hip_sane v) as (Hs & D & _). pose proof (hip_even_handed v) as Ev. do 3 (split; [assumption|]).
  destruct (hip_runs v) as [s' E]. destruct (hip_runs (- v)) as [t' E']. exists s', t'. do 2 (split; [assumption|]).
  intros c h Hh. refine (proj1 (C109_mirror 1 _ _ s' t' Hs (proj1 (hip_sane (- v))) D (proj2 (proj2 (hip_settings v))) (Rle_refl 1) Ev _ E E' c h Hh)).
  intros d a. rewrite !hip_initial. destruct (String.eqb d "x"); [intros [= <-]; auto|].
  destruct (String.eqb d "y"); intros [= <-]. rewrite Rabs_R0, Ropp_0. split; [lra|reflexivity].
Qed.
Example C109_nonvacuous_silent : sane (hip_map 0) /\ m_debug (hip_map 0) = true /\
  (forall c n, dget (m_topo (hip_map 0)) c = Some n -> silent_node n) /\ (forall c a, initial (hip_map 0) c = Some a -> a = 0%R) /\
  exists s', run_inference true (hip_map 0) = (s', Ok tt).
Proof.
  pose proof (hip_sane 0) as (Hs & D & _). do 2 (split; [assumption|]). split; [|split; [|apply hip_runs]].
  - intros c n Hn. destruct (hip_nodes 0 c n Hn) as (_ & Hf & Ha & Hm & He & _).
    apply (proj2 (proj1 (C109_functions n "sigmoid_hip" [] Hf Ha ltac:(rewrite He; discriminate)) ltac:(cbn; auto))).
  - intros c a. rewrite hip_initial. destruct (String.eqb c "x"); [now intros [= <-]|]. destruct (String.eqb c "y"); now intros [= <-].
Qed.
(** ... and in the vectorized engine. *)
Definition vhip_map (v : R) : fcm R := set_debug false (hip_map v). (* fcm.debug = False *)
Example C109_nonvacuous_vectorized : forall v, (v <> 2)%R -> sane (vhip_map v) /\ regular (vhip_map v) /\ responsive (vhip_map v) /\
  m_debug (vhip_map v) = false /\ even_handed 1 (vhip_map v) /\ same_map (vhip_map v) (vhip_map (- v)) /\
  exists s', run_inference true (vhip_map v) = (s', Ok tt).
Proof.
  intros v Hv.
  assert (Hs : sane (vhip_map v)) by exact (from_fresh_snoc (hip_map v) (OpAttrDebug false) (proj1 (hip_sane v)) eq_refl).
  assert (E1 : m_topo (vhip_map v) = m_topo (hip_map v)) by reflexivity.
  assert (E2 : m_arcs (vhip_map v) = m_arcs (hip_map v)) by reflexivity.
  assert (Rg : regular (vhip_map v)).
  { split.
    - rewrite E1. intros c n Hn. assert (Hac : nd_active n = Some true).
      { destruct (hip_nodes v c n Hn) as ([<-|[<-|[]]] & _); cbn in Hn; injection Hn as <-; reflexivity. }
      destruct (hip_nodes v c n Hn) as (_ & Hf & Ha & _). split; [exact Hac|]. split.
      + intros a Ea. rewrite Ha in Ea. injection Ea as <-. split; [constructor|discriminate].
      + rewrite Hf. discriminate.
    - unfold relations. rewrite E2. change (m_arcs (hip_map v)) with [("y", (/ 2)%R, "x"); ("x", (- / 2)%R, "y")].
      cbn. repeat constructor; cbn; intuition discriminate. }
  assert (Rs : responsive (vhip_map v)) by (unfold responsive; rewrite E1, E2; apply hip_settings).
  assert (VR : vec_responsive (vhip_map v)).
  { unfold vec_responsive. rewrite E1. intros c n x Hn. destruct (hip_nodes v c n Hn) as (_ & Hf & Ha & _).
    apply (vec_callable_answers n _ _ Hf Ha). right. left. split; cbn; auto. }
  do 3 (split; [assumption|]). split; [reflexivity|]. split; [unfold even_handed; rewrite E1, E2; apply hip_even_handed|].
  split; [repeat split; reflexivity|].
  assert (Hi : initial (vhip_map v) "x" = Some v /\ initial (vhip_map v) "y" = Some 0%R) by (split; reflexivity).
  assert (D : m_debug (vhip_map v) = false) by reflexivity. assert (K : concepts (vhip_map v) = ["x"; "y"]) by reflexivity.
  assert (Q1 : m_maxit (vhip_map v) = 100%Z) by reflexivity. assert (Q2 : m_decision (vhip_map v) = "MEAN") by reflexivity.
  revert Hs Rg Rs VR Hi D K Q1 Q2. clear E1 E2. generalize (vhip_map v). intros m Hs Rg Rs VR [Hx Hy] D K Q1 Q2.
  apply (vec_run_succeeds m "x" v); auto.
  - rewrite Q1. lia.
  - rewrite K. intros c [<-|[<-|[]]]; congruence.
  - now rewrite K.
  - cbn. now apply Reqb_false.
  - rewrite Q2. discriminate.
  - intros _. split; [now apply Reqb_true|]. intros k Hk. apply Reqb_false. apply not_0_IZR. lia.
Qed.
