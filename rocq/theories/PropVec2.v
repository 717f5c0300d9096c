(** PropVec2.v — when vectorized inference succeeds (C85). *)
From Coq Require Import Reals QArith.
From Verif Require Import Base BaseFacts Num Functions Spec SortFacts RealFacts QNum Fcm FcmSpec DynSpec FcmInv FcmInv2 FcmInv3 FcmIter FcmRun FcmRun2 FcmRun3 FcmOrder FcmTotal VecSpec FcmVec FcmVec2 FcmVec3 FcmVec4 FcmVec5 FcmVec6 PropVec.
Local Close Scope Q_scope.
Local Close Scope R_scope.

(** ** C85 *)
(** The outcome of a run whose concepts all have a next value for any input: every
    history has the same number of entries, below max_iter; none are left exactly when
    max_iter is 1 or the first concept starts at 2, the engine's end marker.  Without
    entries the run raises; with entries it raises only for decision EXITED, when
    exactly extra_steps + 1 values are recorded. *)
Theorem C85_run_outcome :
  forall {F} {N : Num F} (s : fcm F), sane s -> m_debug s = false -> concepts s <> [] -> (1 <= m_maxit s)%Z ->
  (forall c, In c (concepts s) -> initial s c <> None) -> vec_responsive s ->
  exists col, (Z.of_nat col <= m_maxit s - 1)%Z /\
    (forall c, In c (concepts s) -> exists h, history (fst (run_inference true s)) c = Some h /\ length h = col) /\
    (forall c0 v, hd_error (concepts s) = Some c0 -> initial s c0 = Some v -> (col = 0 <-> m_maxit s = 1%Z \/ neqb v n2 = true)) /\
    ((m_decision s <> "LAST" -> neqb (nofZ (Num := N) 0) n0 = true /\ forall k, (0 < k)%Z -> neqb (nofZ (Num := N) k) n0 = false) ->
    (col = 0 -> exists e, snd (run_inference true s) = Err e) /\
    (0 < col -> snd (run_inference true s) =
      if String.eqb (m_decision s) "EXITED" && (Z.of_nat col =? m_extra s + 1)%Z then Err EValue else Ok tt)).
Proof. exact @vec_outcome. Qed.
Print Assumptions C85_run_outcome.
(** for the other decisions: exactly when at least two iterations are allowed and the
    first concept does not start at 2 *)
Theorem C85_run_succeeds :
  forall {F} {N : Num F} (s : fcm F) c0 v, sane s -> m_debug s = false ->
  (forall c, In c (concepts s) -> initial s c <> None) -> vec_responsive s ->
  hd_error (concepts s) = Some c0 -> initial s c0 = Some v -> m_decision s <> "EXITED" ->
  (m_decision s <> "LAST" -> neqb (nofZ (Num := N) 0) n0 = true /\ forall k, (0 < k)%Z -> neqb (nofZ (Num := N) k) n0 = false) ->
  (snd (run_inference true s) = Ok tt <-> (2 <= m_maxit s)%Z /\ neqb v n2 = false).
Proof.
  intros F N s c0 v Hs D Hi HR H0 Hv He Hz.
  assert (Hc : concepts s <> []) by (destruct (concepts s); discriminate). split.
  - intros E. destruct (Z_le_gt_dec (m_maxit s) 0) as [L|G]; [exfalso; exact (no_iterations_raises true s D L E)|].
    destruct (vec_outcome s Hs D Hc ltac:(lia) Hi HR) as (col & _ & _ & C0 & X). destruct (X Hz) as [X0 _].
    assert (P : col <> 0) by (intros ->; destruct (X0 eq_refl); congruence).
    specialize (C0 c0 v H0 Hv). split.
    + destruct (Z.eq_dec (m_maxit s) 1) as [E1|]; [|lia]. exfalso. apply P, C0. auto.
    + destruct (neqb v n2); auto. exfalso. apply P, C0. auto.
  - intros [Hm Hn]. destruct (vec_run_succeeds s c0 v Hs D Hm Hi H0 Hv Hn HR He Hz) as [s' E]. now rewrite E.
Qed.
Print Assumptions C85_run_succeeds.
(** all functions but fuzzy answer every input when called with their own arguments *)
Theorem C85_functions_answer :
  forall {F} {N : Num F} (n : node F) f a, nd_func n = Some f -> nd_args n = Some a -> callable f a ->
  forall t arcs x c, exists y, vec_next t arcs x c n y.
Proof. exact @vec_callable_answers. Qed.
Print Assumptions C85_functions_answer.

Definition vec_only (ops : list (op Q)) (s0 : fcm Q) : fcm Q := run_ops (ops ++ [OpAttrDebug false]) s0.
Lemma simple_responsive (s : fcm Q) : forallb (fun p => match nd_func (snd p), nd_args (snd p) with
  Some f, Some [] => String.eqb f "saturation" | _, _ => false end) (m_topo s) = true -> vec_responsive s.
Proof.
  intros H c n x Hn. rewrite forallb_forall in H. specialize (H _ (dget_In _ _ _ Hn)). cbn [snd] in H.
  destruct (nd_func n) as [f|] eqn:Hf; [|discriminate]. destruct (nd_args n) as [[|a l]|] eqn:Ha; try discriminate.
  apply String.eqb_eq in H. subst f. apply (vec_callable_answers n _ _ Hf Ha). left. split; auto. cbn. auto.
Qed.
(** The order of the concepts decides: with 2 as initial value of the first one the
    vectorized run raises, with the same value on the second it succeeds; the
    iterative engine succeeds on both. *)
Definition two_first : list (op Q) := [add_simple "x"; add_simple "y"; OpAddRelation "x" "y" (1#2)%Q; OpInitConcept "x" 2%Q true].
Definition two_second : list (op Q) := [add_simple "y"; add_simple "x"; OpAddRelation "x" "y" (1#2)%Q; OpInitConcept "x" 2%Q true].
Theorem C85_order_matters_refuted :
  exists s t : fcm Q, sane s /\ sane t /\ vec_responsive s /\ vec_responsive t /\
    (forall c, history s c = history t c) /\ (forall o d w, In (o, d, w) (m_arcs s) <-> In (o, d, w) (m_arcs t)) /\
    m_maxit s = 100%Z /\ m_maxit t = 100%Z /\
    snd (run_inference true s) <> Ok tt /\ snd (run_inference true t) = Ok tt /\
    snd (run_inference true (run_ops [OpAttrDebug true] s)) = Ok tt /\ snd (run_inference true (run_ops [OpAttrDebug true] t)) = Ok tt.
Proof.
  exists (vec_only two_first (qmap 100 5 true "LAST" "saturation")), (vec_only two_second (qmap 100 5 true "LAST" "saturation")).
  split; [|split].
  1: exists 100%Z, 5%Z, true, (1#1024)%Q, "LAST", true, "saturation", [], (qmap 100 5 true "LAST" "saturation"), (two_first ++ [OpAttrDebug false]).
  2: exists 100%Z, 5%Z, true, (1#1024)%Q, "LAST", true, "saturation", [], (qmap 100 5 true "LAST" "saturation"), (two_second ++ [OpAttrDebug false]).
  1,2: split; [vm_compute; reflexivity|]; split; [vm_compute; repeat split; discriminate|reflexivity].
  split; [|split].
  1,2: apply simple_responsive; vm_compute; reflexivity.
  split; [|split].
  - intros c. unfold history.
    assert (E1 : m_exec (vec_only two_first (qmap 100 5 true "LAST" "saturation")) = [("x", [2%Q]); ("y", [0%Q])]) by (vm_compute; reflexivity).
    assert (E2 : m_exec (vec_only two_second (qmap 100 5 true "LAST" "saturation")) = [("y", [0%Q]); ("x", [2%Q])]) by (vm_compute; reflexivity).
    rewrite E1, E2. cbn [dget].
    destruct (String.eqb_spec c "x"), (String.eqb_spec c "y"); subst; try discriminate; reflexivity.
  - intros o d w. assert (E : m_arcs (vec_only two_first (qmap 100 5 true "LAST" "saturation")) = m_arcs (vec_only two_second (qmap 100 5 true "LAST" "saturation"))) by (vm_compute; reflexivity).
    now rewrite E.
  - split; [vm_compute; reflexivity|]. split; [vm_compute; reflexivity|]. split; [vm_compute; discriminate|].
    repeat split; vm_compute; reflexivity.
Qed.
Print Assumptions C85_order_matters_refuted.
(** EXITED: a map at rest from the start raises as in the other engine (C73), and a
    map limited to one iteration raises whatever the decision *)
Theorem C85_exited_refuted :
  exists s t : fcm Q, sane s /\ sane t /\ vec_responsive s /\ vec_responsive t /\
    m_decision s = "EXITED" /\ m_maxit s = 100%Z /\ snd (run_inference true s) = Err EValue /\
    m_decision t = "LAST" /\ m_maxit t = 1%Z /\ snd (run_inference true t) <> Ok tt.
Proof.
  set (ops := [add_simple "x"; OpInitConcept "x" (1#2)%Q true]).
  exists (vec_only ops (qmap 100 5 true "EXITED" "saturation")), (vec_only ops (qmap 1 5 false "LAST" "saturation")).
  split; [|split].
  1: exists 100%Z, 5%Z, true, (1#1024)%Q, "EXITED", true, "saturation", [], (qmap 100 5 true "EXITED" "saturation"), (ops ++ [OpAttrDebug false]).
  2: exists 1%Z, 5%Z, false, (1#1024)%Q, "LAST", true, "saturation", [], (qmap 1 5 false "LAST" "saturation"), (ops ++ [OpAttrDebug false]).
  1,2: split; [vm_compute; reflexivity|]; split; [vm_compute; repeat split; discriminate|reflexivity].
  split; [|split].
  1,2: apply simple_responsive; vm_compute; reflexivity.
  do 5 (split; [vm_compute; reflexivity|]). vm_compute. discriminate.
Qed.
Print Assumptions C85_exited_refuted.
Example C85_nonvacuous :
  let s := vec_only v_ops (qmap 4 3 true "MEAN" "saturation") in
  sane s /\ m_debug s = false /\ vec_responsive s /\ hd_error (concepts s) = Some "x" /\ initial s "x" = Some (3#4)%Q /\
  (forall c, In c (concepts s) -> initial s c <> None) /\
  (neqb (nofZ (Num := QNum) 0) n0 = true /\ forall k, (0 < k)%Z -> neqb (nofZ (Num := QNum) k) n0 = false) /\
  snd (run_inference true s) = Ok tt /\ history (fst (run_inference true s)) "y" <> None.
Proof.
  cbv zeta. split.
  { exists 4%Z, 3%Z, true, (1#1024)%Q, "MEAN", true, "saturation", [], (qmap 4 3 true "MEAN" "saturation"), (v_ops ++ [OpAttrDebug false]).
    split; [vm_compute; reflexivity|]; split; [vm_compute; repeat split; discriminate|reflexivity]. }
  split; [vm_compute; reflexivity|]. split; [apply simple_responsive; vm_compute; reflexivity|].
  split; [vm_compute; reflexivity|]. split; [vm_compute; reflexivity|]. split.
  { assert (E : concepts (vec_only v_ops (qmap 4 3 true "MEAN" "saturation")) = ["x"; "y"]) by (vm_compute; reflexivity). rewrite E.
    intros c Hc. destruct Hc as [<-|[<-|[]]]; vm_compute; discriminate. }
  split; [split; [reflexivity|intros [| |] Hk; try discriminate Hk; reflexivity]|].
  split; [vm_compute; reflexivity|vm_compute; discriminate].
Qed.
