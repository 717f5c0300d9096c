(** PropFcm.v — properties of building, editing and resetting a map
    (C02, C13, C15–C22, C58). *)
From Coq Require Import Reals QArith.
From Verif Require Import Base Num Functions Spec SortFacts RealFacts QNum Fcm FcmSpec FcmBasics FcmInv FcmInv2 FcmInv3 FcmIter FcmRun FcmRun2 FcmRun3.
Local Close Scope Q_scope.

(** ** C02 *)
Theorem C02_stored_description :
  forall (s : fcm R) name ty ia um ex (d : adict R) fn kw,
  ty = TYPE_FUZZY \/ ty = TYPE_REGRESOR ->
  (ex = None \/ exists e x, ex = Some e /\ get_excitation_by_name e = Some x) ->
  length (ad_memb d) = length (ad_vals d) -> ad_vals d <> [] ->
  exists n vals memb mn mx,
    let scaled := map (fun v => ((v + Rabs mn) / (Rabs mn + mx))%R) vals in
    snd (add_concept name (Some ty) ia um ex (Some d) fn kw s) = Ok tt /\
    dget (m_topo (fst (add_concept name (Some ty) ia um ex (Some d) fn kw s))) name = Some n /\
    nd_fuzzy n = Some (memb, vals) /\ nd_func n = Some "fuzzy" /\
    nd_args n = Some [("val_list", AVec scaled); ("membership", AVec memb)] /\
    nd_vect n = Some (memb ++ scaled) /\
    Permutation (combine vals memb) (combine (ad_vals d) (ad_memb d)) /\ length memb = length vals /\
    nondecreasing vals /\ is_min (ad_vals d) mn /\ is_max (ad_vals d) mx /\
    ((0 < Rabs mn + mx)%R ->
       nondecreasing scaled /\ in01 scaled /\ nth_error scaled (length scaled - 1) = Some 1%R).
Proof. exact add_fuzzy_concept. Qed.
Print Assumptions C02_stored_description.
(** the scaling divides by zero exactly for all-equal non-positive descriptions *)
Theorem C02_scale_defined_iff :
  forall vals mn mx, is_min vals mn -> is_max vals mx ->
  ((Rabs mn + mx = 0)%R <-> mx = mn /\ (mn <= 0)%R) /\ (0 <= Rabs mn + mx)%R.
Proof. exact scale_zero_iff. Qed.
Print Assumptions C02_scale_defined_iff.
Example C02_nonvacuous :
  process_activation_dict (mkAdict false [1; 0; 1#2]%Q [3; 1; 2]%Q) =
    Ok ([1; 2; 3]%Q, [0; 1#2; 1]%Q, [1#2; 3#4; 1]%Q).
Proof. vm_compute. reflexivity. Qed.

(** ** C13 *)
Theorem C13_engines_dispatch_the_same :
  forall {F} {N : Num F} name fn id val (a : args F) y,
  get_function_by_name name = Some fn -> get_const_by_name name = Some id ->
  NoDup (dkeys a) ->
  (forall m v, dget a "membership" = Some (AVec m) -> dget a "val_list" = Some (AVec v) -> length m = length v) ->
  call_actv fn val a = Ok y ->
  exec_actv_function id val (process_function_args a) = Ok y.
Proof. exact @dispatch_agree. Qed.
Print Assumptions C13_engines_dispatch_the_same.
Theorem C13_same_names :
  forall name, (exists f, get_function_by_name name = Some f) <-> (exists id, get_const_by_name name = Some id).
Proof. exact names_agree. Qed.
Print Assumptions C13_same_names.
Example C13_nonvacuous :
  call_actv ARelm (3#4)%Q [("lambda_val", AScal 2%Q)] = Ok (3#8)%Q /\
  exec_actv_function FUNC_RELM (3#4)%Q (process_function_args [("lambda_val", AScal 2%Q)]) = Ok (3#8)%Q /\
  call_actv AFuzzy (1#2)%Q [("val_list", AVec [0; 1]%Q); ("membership", AVec [1#4; 3#4]%Q)] = Ok (1#2)%Q.
Proof. vm_compute. repeat split. Qed.

(** ** C15 *)
Theorem C15_relations_never_dangle :
  forall {F} {N : Num F} (s : fcm F), reachable s ->
  forall a b w, In (a, b, w) (relations s) -> In a (concepts s) /\ In b (concepts s).
Proof. exact @reachable_rel_ok. Qed.
Print Assumptions C15_relations_never_dangle.
Theorem C15_unknown_endpoint :
  forall {F} {N : Num F} a b w (s : fcm F), ~ In a (concepts s) \/ ~ In b (concepts s) ->
  add_relation a b w s = (set_prepared false s, Ok tt).
Proof. exact @add_relation_unknown. Qed.
Print Assumptions C15_unknown_endpoint.
Example C15_nonvacuous :
  relations (run_ops [add_simple "a"; add_simple "b"; OpAddRelation "a" "b" (1#2); OpAddRelation "a" "c" 1]%Q
               (qmap 10 5 true "LAST" "saturation")) = [("a", "b", (1#2)%Q)].
Proof. vm_compute. reflexivity. Qed.

(** ** C16 *)
Theorem C16_names_unique : forall {F} {N : Num F} (s : fcm F), reachable s -> NoDup (concepts s).
Proof. exact @reachable_NoDup. Qed.
Print Assumptions C16_names_unique.
(** ... and the names are exactly those the call sequence prescribes, in order of first insertion *)
Theorem C16_names_in_order :
  forall {F} {N : Num F} (ops : list (op F)) s, concepts (run_ops ops s) = expected_names ops s (concepts s).
Proof. exact @run_ops_names. Qed.
Print Assumptions C16_names_in_order.
Theorem C16_histories_nonempty :
  forall {F} {N : Num F} (s : fcm F) c,
  from_fresh (fun ops s0 => ok_when is_add_concept ops s0 /\ iterative_only ops) s ->
  In c (concepts s) -> exists v h, history s c = Some (v :: h).
Proof. exact @iterative_history. Qed.
Print Assumptions C16_histories_nonempty.
(** With the vectorized engine and max_iter = 1 the run raises and every history
    is left empty, in any arithmetic; from then on reset_execution raises too. *)
Theorem C16_histories_nonempty_refuted :
  forall {F} {N : Num F} sd,
  let s := run_ops [OpAddConcept "a" None None None None None None []; OpAttrDebug false; OpAttrMaxIter 1] in
  exists s0, init_fcm 100 5 true sd "LAST" true "saturation" [] = Ok s0 /\
    snd (run_inference true (s s0)) = Err EIndex /\
    history (fst (run_inference true (s s0))) "a" = Some [] /\
    snd (reset_execution (fst (run_inference true (s s0)))) = Err EIndex.
Proof. exact @vectorized_empties. Qed.
Print Assumptions C16_histories_nonempty_refuted.
Example C16_nonvacuous :
  concepts (run_ops [add_simple "b"; add_simple "a"; add_simple "b"] (qmap 10 5 true "LAST" "saturation")) = ["b"; "a"].
Proof. vm_compute. reflexivity. Qed.

(** ** C17, C18 *)
Theorem C17_outgoing_relations :
  forall {F} {N : Num F} mi ex st sd de me ac kw (s0 : fcm F) ops,
  init_fcm mi ex st sd de me ac kw = Ok s0 -> fresh_adds ops s0 -> ok_when is_add_relation ops s0 ->
  let s := run_ops ops s0 in
  forall c, In c (concepts s) -> get_concept_outgoing_relations c s = outgoing (relations s) c.
Proof. exact @outgoing_links. Qed.
Print Assumptions C17_outgoing_relations.
Theorem C17_readding_breaks_it_refuted :
  forall {F} {N : Num F} (w : F),
  let add n := OpAddConcept n None None None None None None [] in
  forall mi ex st sd de me ac kw s0, init_fcm mi ex st sd de me ac kw = Ok s0 ->
  let s := run_ops [add "a"; add "b"; OpAddRelation "a" "b" w; add "a"] s0 in
  relations s = [("a", "b", w)] /\ get_concept_outgoing_relations "a" s = [].
Proof. exact @readd_breaks_outgoing. Qed.
Print Assumptions C17_readding_breaks_it_refuted.
Theorem C18_fuzzy_normaliser :
  forall {F} {N : Num F} mi ex st sd de me ac kw (s0 : fcm F) ops,
  init_fcm mi ex st sd de me ac kw = Ok s0 -> fresh_adds ops s0 -> ok_when is_add_relation ops s0 ->
  let s := run_ops ops s0 in
  forall c n, dget (m_topo s) c = Some n -> nd_sum n = fold_left nadd (incoming_weights (relations s) c) n0.
Proof. exact @normaliser_links. Qed.
Print Assumptions C18_fuzzy_normaliser.
(** re-adding the destiny forgets the incoming weights although the relation stays *)
Theorem C18_readding_breaks_it_refuted :
  forall {F} {N : Num F} (w : F),
  let add n := OpAddConcept n None None None None None None [] in
  forall mi ex st sd de me ac kw s0, init_fcm mi ex st sd de me ac kw = Ok s0 ->
  let s := run_ops [add "a"; add "b"; OpAddRelation "a" "b" w; add "b"] s0 in
  relations s = [("a", "b", w)] /\ exists n, dget (m_topo s) "b" = Some n /\ nd_sum n = n0.
Proof. exact @readd_breaks_sum. Qed.
Print Assumptions C18_readding_breaks_it_refuted.
Example C17_C18_nonvacuous :
  let ops := [add_simple "a"; add_simple "b"; OpAddRelation "a" "b" (1#2); OpAddRelation "b" "b" (1#4); OpAddRelation "a" "a" 1]%Q in
  let s0 := qmap 10 5 true "LAST" "saturation" in
  fresh_adds ops s0 /\ ok_when is_add_relation ops s0 /\
  get_concept_outgoing_relations "a" (run_ops ops s0) = [("b", 1#2); ("a", 1)]%Q /\
  (exists n, dget (m_topo (run_ops ops s0)) "b" = Some n /\ nd_sum n = (3#4)%Q).
Proof.
  vm_compute. split; [|split; [|split]].
  - repeat split; intuition discriminate.
  - repeat split.
  - reflexivity.
  - eexists. split; reflexivity.
Qed.

(** ** C19 *)
Theorem C19_init_missing :
  forall {F} {N : Num F} c v (s : fcm F), ~ In c (concepts s) ->
  init_concept c v true s = (s, Err (EExc ("Missing concept " ++ c))) /\ init_concept c v false s = (s, Ok tt).
Proof. exact @init_missing. Qed.
Print Assumptions C19_init_missing.
Theorem C19_set_properties_missing :
  forall {F} {N : Num F} c t a m e d f k (s : fcm F), ~ In c (concepts s) ->
  set_concept_properties c t a m e d f k s = (s, Err (EExc ("Concept " ++ c ++ " not found"))).
Proof. exact @set_properties_missing. Qed.
Print Assumptions C19_set_properties_missing.
Theorem C19_unknown_decision :
  forall {F} (d : string) (s : fcm F), ~ In d ["LAST"; "MEAN"; "EXITED"] ->
  exists msg, set_map_decision_function d s = (s, Err (EExc msg)).
Proof. exact @unknown_decision. Qed.
Print Assumptions C19_unknown_decision.
Theorem C19_unknown_function_raises :
  forall {F} {N : Num F} name t a m e f k (s : fcm F), get_function_by_name f = None ->
  exists x, snd (add_concept name t a m e None (Some f) k s) = Err x.
Proof. exact @unknown_function_raises'. Qed.
Print Assumptions C19_unknown_function_raises.
Theorem C19_failed_add_poisons_map :
  forall {F} {N : Num F} name t a m e d f k (s : fcm F) x r, reachable s -> ~ In name (concepts s) ->
  snd (add_concept name t a m e d f k s) = Err x ->
  let s' := fst (add_concept name t a m e d f k s) in
  In name (concepts s') /\ exists y, snd (run_inference r s') = Err y.
Proof. exact @failed_add_poisons'. Qed.
Print Assumptions C19_failed_add_poisons_map.
Example C19_nonvacuous :
  let s0 := qmap 10 5 true "LAST" "saturation" in
  snd (add_concept "a" None None None None None (Some "nosuch") [] s0) = Err (EExc "Unknown activation function: nosuch") /\
  snd (run_inference true (fst (add_concept "a" None None None None None (Some "nosuch") [] s0))) = Err (EKey "a").
Proof. vm_compute. split; reflexivity. Qed.

(** ** C20 *)
Theorem C20_init_concept_value :
  forall {F} {N : Num F} c v r (s : fcm F) n f, dget (m_topo s) c = Some n -> nd_func n = Some f -> f <> "fuzzy" ->
  snd (init_concept c v r s) = Ok tt /\
  value (fst (init_concept c v r s)) c = Some v /\ history (fst (init_concept c v r s)) c = Some [v].
Proof. exact @init_plain. Qed.
Print Assumptions C20_init_concept_value.
Theorem C20_init_fuzzy_concept :
  forall {F} {N : Num F} c v r (s : fcm F) n memb vals y, dget (m_topo s) c = Some n -> nd_func n = Some "fuzzy" ->
  nd_fuzzy n = Some (memb, vals) -> fuzzy_set v memb vals = Ok y ->
  snd (init_concept c v r s) = Ok tt /\
  value (fst (init_concept c v r s)) c = Some y /\ history (fst (init_concept c v r s)) c = Some [y].
Proof. exact @init_fuzzy. Qed.
Print Assumptions C20_init_fuzzy_concept.
Theorem C20_nothing_else_changes :
  forall {F} {N : Num F} c v r (s : fcm F),
  let s' := fst (init_concept c v r s) in
  concepts s' = concepts s /\ relations s' = relations s /\ settings s' = settings s /\
  (forall x, x <> c -> dget (m_topo s') x = dget (m_topo s) x /\ history s' x = history s x /\ value s' x = value s x).
Proof. exact @init_frame. Qed.
Print Assumptions C20_nothing_else_changes.
(** a concept with the fuzzy function but no stored description cannot be initialised *)
Theorem C20_init_fuzzy_undescribed :
  forall {F} {N : Num F} c v r (s : fcm F) n, dget (m_topo s) c = Some n -> nd_func n = Some "fuzzy" ->
  nd_fuzzy n = None -> exists e, init_concept c v r s = (s, Err e).
Proof. exact @init_undescribed. Qed.
Print Assumptions C20_init_fuzzy_undescribed.
Example C20_nonvacuous :
  let s := run_ops [add_simple "a"; add_simple "b"; OpInitConcept "a" (1#2)%Q true] (qmap 10 5 true "LAST" "saturation") in
  value s "a" = Some (1#2)%Q /\ value s "b" = Some 0%Q.
Proof. vm_compute. split; reflexivity. Qed.

(** ** C21 *)
Theorem C21_reset_restores :
  forall {F} {N : Num F} (s : fcm F),
  from_fresh (fun ops s0 => ok_when is_add_concept ops s0 /\ iterative_only ops) s ->
  snd (reset_execution s) = Ok tt /\
  reset_execution (fst (reset_execution s)) = reset_execution s /\
  relations (fst (reset_execution s)) = relations s /\ settings (fst (reset_execution s)) = settings s /\
  concepts (fst (reset_execution s)) = concepts s /\
  forall c, In c (concepts s) -> exists v, initial s c = Some v /\
    value (fst (reset_execution s)) c = Some v /\ history (fst (reset_execution s)) c = Some [v].
Proof. exact @iterative_reset. Qed.
Print Assumptions C21_reset_restores.
(** the initial activation survives everything but re-initialisation of that concept *)
Theorem C21_initial_is_kept :
  forall {F} {N : Num F} (ops : list (op F)) c v s, Forall (fun o => keeps c o = true) ops -> iterative_only ops ->
  m_debug s = true -> initial s c = Some v -> initial (run_ops ops s) c = Some v.
Proof. exact @run_ops_initial. Qed.
Print Assumptions C21_initial_is_kept.
Theorem C21_clear_execution :
  forall {F} {N : Num F} (s : fcm F), snd (clear_execution s) = Ok tt /\
  forall c, In c (concepts s) -> value (fst (clear_execution s)) c = Some n0 /\ history (fst (clear_execution s)) c = Some [n0].
Proof. exact @clear_values. Qed.
Print Assumptions C21_clear_execution.
Example C21_nonvacuous :
  let s := run_ops [add_simple "a"; OpAddRelation "a" "a" 1; OpInitConcept "a" (1#4) true; OpRun true]%Q
             (qmap 10 5 true "LAST" "saturation") in
  value s "a" = Some 1%Q /\ value (fst (reset_execution s)) "a" = Some (1#4)%Q.
Proof. vm_compute. split; reflexivity. Qed.

(** ** C22 *)
Theorem C22_clear_all :
  forall {F} (s s' : fcm F), clear_all s = (s', Ok tt) ->
  concepts s' = [] /\ relations s' = [] /\ m_exec s' = [].
Proof. exact @clear_all_empty. Qed.
Print Assumptions C22_clear_all.
Theorem C22_settings_kept : forall {F} {N : Num F} (s : fcm F), settings (fst (clear_all s)) = settings s.
Proof. exact @clear_all_settings. Qed.
Print Assumptions C22_settings_kept.
Theorem C22_succeeds :
  forall {F} {N : Num F} (s : fcm F),
  from_fresh (fun ops s0 => ok_when is_add_concept ops s0 /\ iterative_only ops) s -> snd (clear_all s) = Ok tt.
Proof. exact @clear_all_ok. Qed.
Print Assumptions C22_succeeds.
(** after a failed add_concept a map with at least that concept cannot even be cleared *)
Theorem C22_after_failed_add_refuted :
  forall {F} {N : Num F} name t a m e d f k (s : fcm F) x, reachable s -> ~ In name (concepts s) ->
  snd (add_concept name t a m e d f k s) = Err x ->
  exists y, snd (clear_all (fst (add_concept name t a m e d f k s))) = Err y.
Proof. exact @failed_add_no_clear. Qed.
Print Assumptions C22_after_failed_add_refuted.
Example C22_nonvacuous :
  let s := run_ops [add_simple "a"; OpRun true] (qmap 10 5 true "LAST" "saturation") in
  concepts s = ["a"] /\ snd (clear_all s) = Ok tt.
Proof. vm_compute. split; reflexivity. Qed.

(** ** C58 *)
Theorem C58_default_function :
  forall {F} {N : Num F} name t a m e k (s s' : fcm F),
  add_concept name t a m e None None k s = (s', Ok tt) ->
  exists n, dget (m_topo s') name = Some n /\ nd_func n = Some (dc_func (m_default s)) /\
    nd_args n = Some (dc_args (m_default s)) /\ nd_usemap n = Some true.
Proof. exact @add_concept_default. Qed.
Print Assumptions C58_default_function.
Theorem C58_own_function :
  forall {F} {N : Num F} name t a m e f k (s s' : fcm F),
  add_concept name t a m e None (Some f) k s = (s', Ok tt) ->
  exists n, dget (m_topo s') name = Some n /\ nd_func n = Some f /\ nd_args n = Some k /\ nd_usemap n = Some false.
Proof. exact @add_concept_own. Qed.
Print Assumptions C58_own_function.
Theorem C58_map_function_change :
  forall {F} {N : Num F} f k (s : fcm F), sane s -> (exists x, get_function_by_name f = Some x) ->
  exists s', set_map_activation_function f k s = (s', Ok tt) /\
    m_func s' = f /\ m_gargs s' = k /\ m_default s' = m_default s /\
    m_exec s' = m_exec s /\ relations s' = relations s /\ concepts s' = concepts s /\
    forall c n, dget (m_topo s) c = Some n -> exists n', dget (m_topo s') c = Some n' /\
      (nd_usemap n = Some true -> n' = nd_set_vect (process_function_args k) (nd_set_func f k (nd_vect n) n)) /\
      (nd_usemap n = Some false -> n' = n).
Proof. exact @set_map_activation_spec. Qed.
Print Assumptions C58_map_function_change.
(** a concept added after set_map_activation_function still gets the function the map had before *)
Theorem C58_later_concepts_refuted :
  forall {F} {N : Num F} mi ex st sd de me kw s0, init_fcm mi ex st sd de me "sigmoid" kw = Ok s0 ->
  let s := run_ops [OpSetActivation "biestate" []; OpAddConcept "a" None None None None None None []] s0 in
  m_func s = "biestate" /\ exists n, dget (m_topo s) "a" = Some n /\ nd_func n = Some "sigmoid".
Proof. exact @later_concept_old_function. Qed.
Print Assumptions C58_later_concepts_refuted.
Example C58_nonvacuous :
  let s := run_ops [add_simple "a"; OpAddConcept "b" None None None None None (Some "relm") []; OpSetActivation "biestate" []]
             (qmap 10 5 true "LAST" "saturation") in
  (exists n, dget (m_topo s) "a" = Some n /\ nd_func n = Some "biestate") /\
  (exists n, dget (m_topo s) "b" = Some n /\ nd_func n = Some "relm").
Proof. vm_compute. split; eexists; split; reflexivity. Qed.
