(** PropInference.v — properties of iterative inference
    (C23–C29, C33, C59, C60). *)
From Coq Require Import Reals Lra QArith.
From Verif Require Import Base Num Functions Spec SortFacts RealFacts QNum Fcm FcmSpec FcmInv FcmInv2 FcmInv3 FcmIter FcmRun FcmRun2 FcmRun3 FcmOrder.
Local Close Scope Q_scope.
Local Close Scope R_scope.

(** A small map used by the examples: x -> y (1/2), y -> x (-1/4), saturation,
    memory on, 3 iterations, 2 extra steps. *)
Definition ex_ops : list (op Q) :=
  [add_simple "x"; add_simple "y"; OpAddRelation "x" "y" (1#2)%Q; OpAddRelation "y" "x" (-1#4)%Q;
   OpInitConcept "x" (3#4)%Q true].
Definition ex_map : fcm Q := run_ops ex_ops (qmap 3 2 false "LAST" "saturation").
Lemma ex_sane : sane ex_map /\ sane_runs ex_map /\ m_debug ex_map = true.
Proof.
  assert (I : init_fcm 3 2 false (1#1024)%Q "LAST" true "saturation" [] = Ok (qmap 3 2 false "LAST" "saturation")) by (vm_compute; reflexivity).
  split; [|split; [|vm_compute; reflexivity]]; do 8 eexists; exists (qmap 3 2 false "LAST" "saturation"), ex_ops;
    (split; [exact I|]); (split; [|reflexivity]); vm_compute; repeat split; discriminate.
Qed.

(** ** C23 *)
(** The loop counter bounds the passes whatever the map and even if a step raises ... *)
Theorem C23_passes_bounded :
  forall {F} {N : Num F} (s : fcm F), reachable s ->
  (m_iters (fst (iterative_inference s)) <= 1 + (Z.max (m_maxit s - 1) 0 + (m_extra s - 1)))%Z.
Proof. exact @passes_bounded. Qed.
Print Assumptions C23_passes_bounded.
(** ... and the model's fuel is never what stops the loop: any larger amount gives the same run. *)
Theorem C23_terminates :
  forall {F} {N : Num F} (s : fcm F) fuel, reachable s ->
  (Z.to_nat (Z.max (m_maxit s) 0 + m_extra s) <= fuel)%nat ->
  iter_loop fuel (m_extra s - 1) (set_iters 1%Z s) = iterative_inference s /\
  snd (iterative_inference s) <> Err EFuel.
Proof. exact @iterative_terminates. Qed.
Print Assumptions C23_terminates.
Theorem C23_number_of_steps :
  forall {F} {N : Num F} r (s s' : fcm F), sane s -> m_debug s = true -> (r = false -> sane_runs s) ->
  run_inference r s = (s', Ok tt) ->
  exists L, (forall c, In c (concepts s) -> exists h h', history s c = Some h /\ history s' c = Some h' /\
               length h' = ((if r then 1 else length h) + L)%nat) /\
    (Z.of_nat L <= Z.max (m_maxit s - 1) 0 + (m_extra s - 1))%Z /\
    (m_stab s = false -> (2 <= m_extra s)%Z -> Z.of_nat L = (Z.max (m_maxit s - 1) 0 + (m_extra s - 1))%Z).
Proof. exact @run_steps. Qed.
Print Assumptions C23_number_of_steps.
Example C23_nonvacuous : (* max_iter 3, extra_steps 2: 3 steps *)
  snd (run_inference true ex_map) = Ok tt /\
  history (fst (run_inference true ex_map)) "y" = Some [0; 3#8; 3#4; 1]%Q.
Proof. vm_compute. split; reflexivity. Qed.

(** ** C24 *)
Theorem C24_early_stop_is_stable :
  forall {F} {N : Num F} r (s s' : fcm F), sane s -> m_debug s = true -> (r = false -> sane_runs s) ->
  run_inference r s = (s', Ok tt) ->
  exists L, (forall c, In c (concepts s) -> exists h h', history s c = Some h /\ history s' c = Some h' /\
               length h' = ((if r then 1 else length h) + L)%nat) /\
    ((Z.of_nat L < m_maxit s)%Z -> forall c h k, history s' c = Some h -> (Z.of_nat k < m_extra s - 1)%Z ->
       exists h0 b a t, h = h0 ++ [b; a] ++ t /\ length t = S k /\ nltb (m_sdiff s) (nabs (nsub a b)) = false).
Proof. exact @run_early_user. Qed.
Print Assumptions C24_early_stop_is_stable.
Example C24_nonvacuous : (* constant map with limit 100 stops after 4 steps *)
  let s := run_ops [add_simple "x"; OpInitConcept "x" (1#2) true]%Q (qmap 100 4 true "LAST" "saturation") in
  snd (run_inference true s) = Ok tt /\ history (fst (run_inference true s)) "x" = Some [1#2; 1#2; 1#2; 1#2; 1#2]%Q.
Proof. vm_compute. split; reflexivity. Qed.

(** ** C25 *)
Theorem C25_recurrence :
  forall {F} {N : Num F} r (s s' : fcm F), sane s -> m_debug s = true -> (r = false -> sane_runs s) ->
  run_inference r s = (s', Ok tt) ->
  exists L x, orbit (m_topo s) (m_arcs s) x L /\
    forall c, In c (concepts s) ->
      (if r then initial s c else value s c) = Some (x 0%nat c) /\
      exists h, history s c = Some h /\
        history s' c = Some ((if r then firstn 1 h else h) ++ map (fun t => x (S t) c) (seq 0 L)).
Proof. exact @run_recurrence_short. Qed.
Print Assumptions C25_recurrence.
(** Without reset, contributions collected by an earlier run that raised are
    still there: the same map, with and without such a run before it. *)
Definition stale_ops (failing_run : bool) : list (op Q) :=
  [OpAddConcept "x" None None None None None (Some "relm") [("lambda_val", AScal 0%Q)]; add_simple "y";
   OpAddRelation "x" "y" (1#4)%Q; OpInitConcept "x" 1%Q true] ++
  (if failing_run then [OpRun true] else []) ++
  [OpSetConcept "x" None None None None None (Some "saturation") []].
Theorem C25_after_failed_run_refuted :
  let s0 := qmap 3 2 true "LAST" "saturation" in
  let clean := run_ops (stale_ops false) s0 in let dirty := run_ops (stale_ops true) s0 in
  sane dirty /\ m_topo clean <> m_topo dirty /\
  (forall c, value clean c = value dirty c /\ history clean c = history dirty c) /\
  relations clean = relations dirty /\ settings clean = settings dirty /\
  snd (run_inference false clean) = Ok tt /\ snd (run_inference false dirty) = Ok tt /\
  (exists h, history (fst (run_inference false clean)) "y" = Some (0 :: 1#4 :: h)%Q) /\
  (exists h, history (fst (run_inference false dirty)) "y" = Some (0 :: 1#2 :: h)%Q).
Proof.
  cbv zeta. split; [|split; [|split; [|split; [|split; [|split; [|split; [|split]]]]]]].
  - exists 3%Z, 2%Z, true, (1#1024)%Q, "LAST", true, "saturation", [], (qmap 3 2 true "LAST" "saturation"), (stale_ops true).
    split; [vm_compute; reflexivity|]. split; [|reflexivity]. vm_compute. repeat split; discriminate.
  - vm_compute. discriminate.
  - intros c. unfold value, get_concept_value, history. split.
    + vm_compute. repeat match goal with |- context [if ?b then _ else _] => destruct b end; reflexivity.
    + vm_compute. reflexivity.
  - vm_compute. reflexivity.
  - vm_compute. reflexivity.
  - vm_compute. reflexivity.
  - vm_compute. reflexivity.
  - eexists. vm_compute. reflexivity.
  - eexists. vm_compute. reflexivity.
Qed.
Print Assumptions C25_after_failed_run_refuted.
Example C25_nonvacuous :
  sane ex_map /\ snd (run_inference true ex_map) = Ok tt /\
  history (fst (run_inference true ex_map)) "x" = Some [3#4; 3#4; 21#32; 15#32]%Q.
Proof. split; [apply ex_sane|]. vm_compute. split; reflexivity. Qed.

(** ** C26 *)
Theorem C26_rerun_same :
  forall {F} {N : Num F} (s s' : fcm F), sane s -> m_debug s = true ->
  run_inference true s = (s', Ok tt) -> run_inference true s' = (s', Ok tt).
Proof. exact @rerun_sane. Qed.
Print Assumptions C26_rerun_same.
Example C26_nonvacuous : sane ex_map /\ snd (run_inference true ex_map) = Ok tt.
Proof. split; [apply ex_sane|vm_compute; reflexivity]. Qed.

(** ** C27 *)
Theorem C27_range_generic :
  forall (lo hi : R) r (s s' : fcm R), sane s -> m_debug s = true -> (r = false -> sane_runs s) ->
  run_inference r s = (s', Ok tt) ->
  (forall c n f fn a v y, dget (m_topo s) c = Some n -> nd_func n = Some f -> get_function_by_name f = Some fn ->
    nd_args n = Some a -> call_actv fn v a = Ok y -> (lo <= y <= hi)%R) ->
  (forall c h, In c (concepts s) -> history s c = Some h ->
     Forall (fun x => (lo <= x <= hi)%R) (if r then firstn 1 h else h)) ->
  forall c, In c (concepts s) ->
    (forall h, history s' c = Some h -> Forall (fun x => (lo <= x <= hi)%R) h) /\
    (forall v, value s' c = Some v -> (lo <= v <= hi)%R).
Proof. exact run_range. Qed.
Print Assumptions C27_range_generic.
Theorem C27_unit_functions :
  forall f (a : args R) fn v y, unit_function f a -> get_function_by_name f = Some fn ->
  call_actv fn v a = Ok y -> (0 <= y <= 1)%R.
Proof. exact unit_range. Qed.
Print Assumptions C27_unit_functions.
Theorem C27_bipolar_functions :
  forall f (a : args R) fn v y, bipolar_function f a -> get_function_by_name f = Some fn ->
  call_actv fn v a = Ok y -> (-1 <= y <= 1)%R.
Proof. exact bipolar_range. Qed.
Print Assumptions C27_bipolar_functions.
Theorem C27_unit_maps :
  forall r (s s' : fcm R), sane s -> m_debug s = true -> (r = false -> sane_runs s) ->
  run_inference r s = (s', Ok tt) ->
  (forall c n f a, dget (m_topo s) c = Some n -> nd_func n = Some f -> nd_args n = Some a -> unit_function f a) ->
  (forall c h, In c (concepts s) -> history s c = Some h -> in01 (if r then firstn 1 h else h)) ->
  forall c, In c (concepts s) ->
    (forall h, history s' c = Some h -> in01 h) /\ (forall v, value s' c = Some v -> (0 <= v <= 1)%R).
Proof. exact unit_map_range. Qed.
Print Assumptions C27_unit_maps.
Theorem C27_bipolar_maps :
  forall r (s s' : fcm R), sane s -> m_debug s = true -> (r = false -> sane_runs s) ->
  run_inference r s = (s', Ok tt) ->
  (forall c n f a, dget (m_topo s) c = Some n -> nd_func n = Some f -> nd_args n = Some a -> bipolar_function f a) ->
  (forall c h, In c (concepts s) -> history s c = Some h ->
     Forall (fun x => (-1 <= x <= 1)%R) (if r then firstn 1 h else h)) ->
  forall c, In c (concepts s) ->
    (forall h, history s' c = Some h -> Forall (fun x => (-1 <= x <= 1)%R) h) /\
    (forall v, value s' c = Some v -> (-1 <= v <= 1)%R).
Proof. exact bipolar_map_range. Qed.
Print Assumptions C27_bipolar_maps.
(** relm with a negative lambda is not bounded *)
Theorem C27_relm_negative_lambda_refuted :
  forall B : R, exists x, exists y, call_actv ARelm x [("lambda_val", AScal (-1)%R)] = Ok y /\ (y < B)%R.
Proof. exact relm_unbounded. Qed.
Print Assumptions C27_relm_negative_lambda_refuted.
Example C27_nonvacuous :
  unit_function "saturation" [] /\ bipolar_function "gceq" [("weight", AScal 0%R)] /\
  call_actv ASaturation 3%R [] = Ok 1%R.
Proof.
  split; [|split].
  - unfold unit_function. auto.
  - unfold bipolar_function. auto 10.
  - cbn. unfold saturation. rnum. rcase; try lra. reflexivity.
Qed.

(** ** C28 *)
(** [sim s t]: same settings, same concepts (node data, values and histories) and
    the same relations, whatever the order of concepts and relations *)
Theorem C28_order_irrelevant :
  forall r (s t s' : fcm R), sane s -> sane t -> (r = false -> sane_runs s /\ sane_runs t) ->
  m_debug s = true -> sim s t -> run_inference r s = (s', Ok tt) ->
  exists t', run_inference r t = (t', Ok tt) /\
    forall c, history t' c = history s' c /\ value t' c = value s' c.
Proof. exact sim_run_sane. Qed.
Print Assumptions C28_order_irrelevant.
Theorem C28_relation_order :
  forall (rels rels' : list (string * string * R)) (s : fcm R) r s1,
  Permutation rels rels' -> sane s -> (r = false -> sane_runs s) -> m_fit s = None -> m_debug s = true ->
  run_inference r (add_relations rels s) = (s1, Ok tt) ->
  exists s2, run_inference r (add_relations rels' s) = (s2, Ok tt) /\
    forall c, history s2 c = history s1 c /\ value s2 c = value s1 c.
Proof. exact relation_order. Qed.
Print Assumptions C28_relation_order.
Example C28_nonvacuous :
  let q l := run_inference true (run_ops (map (fun r : string * string * Q => let '(a, b, w) := r in OpAddRelation a b w) l) ex_map) in
  let l1 := [("x", "x", 1#8); ("y", "y", 1#4); ("x", "y", 1#2)]%Q in
  let l2 := [("y", "y", 1#4); ("x", "y", 1#2); ("x", "x", 1#8)]%Q in
  snd (q l1) = Ok tt /\ history (fst (q l1)) "y" = history (fst (q l2)) "y" /\ history (fst (q l1)) "y" <> history ex_map "y".
Proof. vm_compute. repeat split. discriminate. Qed.

(** ** C29 *)
Theorem C29_inactive_step :
  forall {F} {N : Num F} t arcs (x x' : nat -> string -> F) L j,
  (forall n, dget t j = Some n -> nd_active n = Some false) -> orbit t arcs x L -> orbit t arcs x' L ->
  (forall c, In c (dkeys t) -> c <> j -> x 0%nat c = x' 0%nat c) ->
  (forall d w o, In (d, w, o) arcs -> In o (dkeys t)) ->
  forall k c, (k <= L)%nat -> In c (dkeys t) -> c <> j -> x k c = x' k c.
Proof. exact @orbit_inactive. Qed.
Print Assumptions C29_inactive_step.
(** two runs of the same map that differ in the initial value of an inactive
    concept only: all other histories agree as long as both go on *)
Theorem C29_inactive_runs :
  forall {F} {N : Num F} j (s : fcm F) v v' s1 s2 s1' s2', sane s -> m_debug s = true ->
  (forall n, dget (m_topo s) j = Some n -> nd_active n = Some false) ->
  init_concept j v true s = (s1, Ok tt) -> init_concept j v' true s = (s2, Ok tt) ->
  run_inference true s1 = (s1', Ok tt) -> run_inference true s2 = (s2', Ok tt) ->
  forall c h h' k a b, c <> j -> history s1' c = Some h -> history s2' c = Some h' ->
    nth_error h k = Some a -> nth_error h' k = Some b -> a = b.
Proof. exact @inactive_init_runs. Qed.
Print Assumptions C29_inactive_runs.
Example C29_nonvacuous :
  let s := run_ops [OpSetConcept "x" None (Some false) None None None None []] ex_map in
  snd (run_inference true s) = Ok tt /\
  history (fst (run_inference true s)) "y" = Some [0; 0; 0; 0]%Q /\
  history (fst (run_inference true ex_map)) "y" <> Some [0; 0; 0; 0]%Q.
Proof. vm_compute. repeat split. discriminate. Qed.

(** ** C33 *)
Theorem C33_final_state_by_name :
  forall {F} {N : Num F} ct names (s : fcm F), sane s -> names <> [] ->
  get_final_state ct names s =
    Ok (map (fun p => (fst p, nd_value (snd p))) (filter (fun p => str_mem (fst p) names) (m_topo s))).
Proof. exact @final_state_names. Qed.
Print Assumptions C33_final_state_by_name.
Theorem C33_final_state_by_type :
  forall {F} {N : Num F} ct (s : fcm F), sane s ->
  get_final_state ct [] s =
    Ok (map (fun p => (fst p, nd_value (snd p)))
         (filter (fun p => match nd_type (snd p) with
                           | None => false
                           | Some t => if String.eqb ct "any" then true
                                       else if String.eqb ct "target"
                                            then String.eqb t TYPE_DECISION || String.eqb t TYPE_REGRESOR
                                            else String.eqb t ct
                           end) (m_topo s))).
Proof. exact @final_state_type. Qed.
Print Assumptions C33_final_state_by_type.
Example C33_nonvacuous :
  let s := run_ops [OpSetConcept "y" (Some TYPE_DECISION) None None None None None []] ex_map in
  get_final_state "target" [] s = Ok [("y", 0%Q)] /\ get_final_state "any" [] s = Ok [("x", 3#4); ("y", 0)]%Q /\
  get_final_state "any" ["x"; "z"] s = Ok [("x", 3#4)]%Q.
Proof. vm_compute. repeat split. Qed.

(** ** C59 *)
Theorem C59_no_step_with_one_extra :
  forall {F} {N : Num F} (s s' : fcm F), sane s -> m_debug s = true -> m_extra s = 1%Z ->
  run_inference true s = (s', Ok tt) ->
  forall c, In c (concepts s) -> exists v, initial s c = Some v /\ history s' c = Some [v] /\
    (m_decision s = "LAST" -> value s' c = Some v).
Proof. exact @no_extra_no_step. Qed.
Print Assumptions C59_no_step_with_one_extra.
Theorem C59_extra_normalised :
  forall {F} {N : Num F} mi ex st sd de me ac kw (s : fcm F), init_fcm mi ex st sd de me ac kw = Ok s ->
  (ex <= 1)%Z -> m_extra s = 1%Z.
Proof. exact @init_extra. Qed.
Print Assumptions C59_extra_normalised.
Example C59_nonvacuous :
  let s := run_ops ex_ops (qmap 100 0 true "LAST" "saturation") in
  snd (run_inference true s) = Ok tt /\ history (fst (run_inference true s)) "y" = Some [0]%Q.
Proof. vm_compute. split; reflexivity. Qed.

(** ** C60 *)
Theorem C60_stable_after_run :
  forall {F} {N : Num F} (s s' : fcm F), sane s -> m_debug s = true -> run_inference true s = (s', Ok tt) ->
  (2 <= m_extra s)%Z ->
  exists b, is_stable s' = Ok b /\
    (b = true <-> forall c h0 y x, history s' c = Some (h0 ++ [y; x]) -> nltb (m_sdiff s) (nabs (nsub x y)) = false).
Proof. exact @stable_after_run. Qed.
Print Assumptions C60_stable_after_run.
Theorem C60_after_reset_refuted :
  forall {F} {N : Num F} (s : fcm F), sane s -> (1 < m_iters s)%Z -> concepts s <> [] ->
  snd (reset_execution s) = Ok tt -> is_stable (fst (reset_execution s)) = Err EIndex.
Proof. exact @stable_after_reset. Qed.
Print Assumptions C60_after_reset_refuted.
Theorem C60_vectorized_only :
  forall {F} {N : Num F} (s : fcm F) ops mi ex st sd de me ac kw s0,
  init_fcm mi ex st sd de me ac kw = Ok s0 -> s = run_ops (OpAttrDebug false :: ops) s0 ->
  ~ In (OpAttrDebug true) ops -> is_stable s = Ok false.
Proof. exact @vectorized_only_unstable. Qed.
Print Assumptions C60_vectorized_only.
Example C60_nonvacuous :
  is_stable (fst (run_inference true ex_map)) = Ok false /\
  is_stable (fst (run_inference true (run_ops [OpAttrMaxIter 100; OpAttrStab true] ex_map))) = Ok true.
Proof. vm_compute. split; reflexivity. Qed.
