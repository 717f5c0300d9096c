(** PropLoader.v — properties of saving, loading and joining maps (C34–C39). *)
From Coq Require Import Reals QArith Permutation.
From Verif Require Import Base BaseFacts Num Functions Spec SortFacts RealFacts QNum Fcm FcmSpec FcmInv FcmRun Loader LoaderSpec LoaderFacts JoinFacts JoinFacts2.
Local Close Scope Q_scope.
Local Close Scope R_scope.

(** ** Example maps *)
Definition base_map : fcm Q := qmap 10 5 true "LAST" "saturation".
Definition two_map (a b : string) (va vb w : Q) : fcm Q :=
  run_ops [add_simple a; add_simple b; OpAddRelation a b w; OpInitConcept a va true; OpInitConcept b vb true] base_map.
Definition saved_and_loaded (ops : list (op Q)) : res (fcm Q) :=
  rbind (to_json (run_ops ops base_map)) from_json.
Definition base_call : init_fcm 10 5 true (1 # 1024)%Q "LAST" true "saturation" [] = Ok base_map := eq_refl.

(** ** C34 *)
Theorem C34_round_trip :
  forall {F} {N : Num F} (s : fcm F), sane s -> portable s ->
  exists j s', to_json s = Ok j /\ from_json j = Ok s' /\ to_json s' = Ok j /\
    concepts s' = concepts s /\ relations s' = relations s /\ saved_settings s' = saved_settings s /\
    forall c n, dget (m_topo s) c = Some n -> exists n', dget (m_topo s') c = Some n' /\ same_concept n n'.
Proof. exact @round_trip. Qed.
Print Assumptions C34_round_trip.
Example C34_round_trip_nonvacuous :
  let s := run_ops [add_simple "a"; OpAddConcept "b" (Some TYPE_DECISION) None None None None (Some "biestate") [("threshold", AScal (1#2)%Q)];
                    OpAddRelation "a" "b" (1#4)%Q; OpInitConcept "a" (1#2)%Q true] base_map in
  sane s /\ portable s /\ concepts s <> [].
Proof.
  split; [|split].
  - exists 10%Z, 5%Z, true, (1#1024)%Q, "LAST", true, "saturation", [], base_map. eexists. split; [exact base_call|]. split; [|reflexivity].
    repeat (split; [first [intros _; vm_compute; reflexivity|intros H; discriminate H]|]). exact I.
  - split; [intros k v []|]. intros c n H.
    assert (K : c = "a" \/ c = "b").
    { apply dget_In in H. apply (in_map fst) in H. vm_compute in H. intuition auto. }
    destruct K as [-> | ->]; vm_compute in H; injection H as <-; constructor; vm_compute; auto.
    + exists "saturation", []. repeat split; try discriminate. now left.
    + exists "biestate", [("threshold", AScal (1#2)%Q)]. repeat split; try discriminate. right. split; [discriminate|].
      intros k v [E|[]]. injection E as <- <-. split; [intuition discriminate|discriminate].
  - discriminate.
Qed.
(** whatever map is saved and loaded: exactly this survives *)
Theorem C34_what_survives :
  forall {F} {N : Num F} (s : fcm F) j s', reachable s -> to_json s = Ok j -> from_json j = Ok s' ->
  concepts s' = concepts s /\ relations s' = relations s /\ saved_settings s' = saved_settings s /\
  (forall c, value s' c = value s c) /\
  (forall c v, value s c = Some v -> history s' c = Some [v]) /\
  m_debug s' = true /\ m_fit s' = None /\
  forall c n, dget (m_topo s) c = Some n -> exists n' f t, dget (m_topo s') c = Some n' /\
    nd_active n' = Some true /\ nd_exec n' = Some "KOSKO" /\ nd_mem n' = Some (m_mem s) /\
    nd_type n = Some t /\ nd_type n' = Some (if String.eqb t TYPE_DECISION then TYPE_DECISION else TYPE_SIMPLE) /\
    nd_func n = Some f /\ nd_func n' = Some f /\ f <> "fuzzy" /\
    nd_args n' = (if String.eqb f (m_func s) then Some (m_gargs s) else nd_args n).
Proof. exact @reload_keeps. Qed.
Print Assumptions C34_what_survives.
Example C34_what_survives_nonvacuous :
  exists s', saved_and_loaded [add_simple "a"; OpInitConcept "a" (1#2)%Q true] = Ok s' /\ value s' "a" = Some (1#2)%Q.
Proof. eexists. vm_compute. split; reflexivity. Qed.
(** no map with a concept using the fuzzy function can be loaded again *)
Theorem C34_fuzzy_refuted :
  forall {F} {N : Num F} (s : fcm F) j c n, reachable s -> dget (m_topo s) c = Some n -> nd_func n = Some "fuzzy" ->
  to_json s = Ok j -> exists m, from_json j = Err (EExc m).
Proof. exact @fuzzy_not_reloadable. Qed.
Print Assumptions C34_fuzzy_refuted.
Definition fuzzy_concept (ctype : string) : op Q :=
  OpAddConcept "y" (Some ctype) None None None (Some (mkAdict false [0; 1#2; 1] [0; 1; 2])%Q) None [].
Example C34_fuzzy_refuted_nonvacuous :
  (exists j, to_json (run_ops [fuzzy_concept TYPE_FUZZY] base_map) = Ok j) /\
  saved_and_loaded [fuzzy_concept TYPE_FUZZY] =
    Err (EExc "Cannot load json data due: 'activation relation for continuous values'").
Proof. vm_compute. split; [eexists; reflexivity|reflexivity]. Qed.
(** a concept's activity, memory setting, excitation function and type are lost *)
Theorem C34_inactive_refuted :
  exists s' n', saved_and_loaded [OpAddConcept "a" None (Some false) None None None None []] = Ok s' /\
    dget (m_topo s') "a" = Some n' /\ nd_active n' = Some true.
Proof. do 2 eexists. vm_compute. repeat split. Qed.
Theorem C34_memory_refuted :
  exists s' n', saved_and_loaded [OpAddConcept "a" None None (Some false) None None None []] = Ok s' /\
    dget (m_topo s') "a" = Some n' /\ nd_mem n' = Some true.
Proof. do 2 eexists. vm_compute. repeat split. Qed.
Theorem C34_excitation_refuted :
  exists s' n', saved_and_loaded [OpAddConcept "a" None None None (Some "PAPAGEORGIUS") None None []] = Ok s' /\
    dget (m_topo s') "a" = Some n' /\ nd_exec n' = Some "KOSKO".
Proof. do 2 eexists. vm_compute. repeat split. Qed.
Theorem C34_type_refuted :
  exists s' n', saved_and_loaded [OpAddConcept "a" (Some TYPE_FUZZY) None None None None None []] = Ok s' /\
    dget (m_topo s') "a" = Some n' /\ nd_type n' = Some TYPE_SIMPLE.
Proof. do 2 eexists. vm_compute. repeat split. Qed.
(** keyword arguments of a concept whose function is the map's function are lost *)
Theorem C34_arguments_refuted :
  exists s' n', saved_and_loaded [OpSetActivation "biestate" [];
    OpAddConcept "a" None None None None None (Some "biestate") [("threshold", AScal (1#2)%Q)]] = Ok s' /\
    dget (m_topo s') "a" = Some n' /\ nd_args n' = Some [].
Proof. do 2 eexists. vm_compute. repeat split. Qed.
(** maps to_json cannot write, and maps from_json cannot read *)
Theorem C34_simple_with_dict_refuted :
  to_json (run_ops [fuzzy_concept TYPE_SIMPLE] base_map) = Err (EKey "activation relation for continuous values").
Proof. vm_compute. reflexivity. Qed.
Theorem C34_array_argument_refuted :
  to_json (run_ops [OpAddConcept "a" None None None None None (Some "biestate") [("threshold", AVec [(1#2)%Q])]] base_map) = Err EType.
Proof. vm_compute. reflexivity. Qed.
Theorem C34_parameter_name_refuted :
  exists m, saved_and_loaded [OpSetActivation "sigmoid" [("max_it", AScal 1%Q)]] = Err (EExc m).
Proof. eexists. vm_compute. reflexivity. Qed.

(** ** C35 *)
Theorem C35_own_exception :
  forall {F} {N : Num F} (j : json F), (exists s, from_json j = Ok s) \/
    (exists m, from_json j = Err (EExc (append "Cannot load json data due: " m))).
Proof. intros F N j. destruct (from_json_shape j) as [(s & H & _)|(e & H & _)]; eauto. Qed.
Print Assumptions C35_own_exception.
(** a document is accepted only if it has all required fields, names known
    functions and its concepts and relations are complete *)
Theorem C35_accepted_documents :
  forall {F} {N : Num F} (j : json F) s, from_json j = Ok s -> exists d, j = JObj d /\
  (forall k, In k ["max_iter"; "decision_function"; "memory_influence"; "activation_function"; "concepts"; "relations"] ->
     dget d k <> None) /\
  (exists x f, dget d "decision_function" = Some (JStr x) /\ get_decision_by_name x = Some f) /\
  (exists x f, dget d "activation_function" = Some (JStr x) /\ get_function_by_name x = Some f) /\
  (forall cs c, dget d "concepts" = Some (JArr cs) -> In c cs -> exists cd, c = JObj cd /\
     (exists x, dget cd "id" = Some (JStr x)) /\ dget cd "type" <> None /\
     (forall x, dget cd "exitation_function" = Some (JStr x) -> get_excitation_by_name x <> None) /\
     (forall x, dget cd "custom_function" = Some (JStr x) -> dget cd "activation_dict" = None -> get_function_by_name x <> None)) /\
  (forall rs r, dget d "relations" = Some (JArr rs) -> In r rs -> exists rd, r = JObj rd /\
     (exists x, dget rd "origin" = Some (JStr x)) /\ (exists x, dget rd "destiny" = Some (JStr x)) /\ dget rd "weight" <> None).
Proof.
  intros F N j s H. apply from_json_ok in H. destruct (load_built j s H) as (d & -> & D & _). exists d. split; auto.
  destruct D as [(z & A1 & _) (x & f & A2 & _ & A3) (b & A4 & _) (y & g & A5 & _ & A6) (jc & lc & A7 & A8 & A9) (jr & lr & B1 & B2 & B3)].
  split; [|split; [eauto|split; [eauto|split]]].
  - intros k Hk. repeat (destruct Hk as [<-|Hk]; [congruence|]). destruct Hk.
  - intros cs c E Hc. rewrite E in A7. injection A7 as <-. injection A8 as <-. destruct (A9 c Hc) as (cd & R & X1 & X2).
    unfold read_concept in R. apply rbind_ok in R as (cdoc & Hd & R). destruct c; try discriminate Hd. injection Hd as ->. exists cdoc. split; auto.
    apply rbind_ok in R as (um & _ & R). apply rbind_ok in R as (ex & Hex & R). apply rbind_ok in R as (ac & _ & R).
    apply rbind_ok in R as (fu & Hfu & R). apply rbind_ok in R as (ad & Had & R). apply rbind_ok in R as (t & Ht & R). cbv zeta in R.
    apply rbind_ok in R as (nm & Hnm & R). apply rbind_ok in R as (fa & _ & R). apply rbind_ok in R as (av & _ & R). injection R as <-.
    cbn [cd_exec cd_func cd_adict] in X1, X2.
    split; [apply req_ok in Hnm as (jn & Q1 & Q2); apply jstr_ok in Q2 as ->; eauto|].
    split; [unfold dget_exn in Ht; destruct (dget cdoc "type"); congruence|].
    split.
    + intros e He. unfold opt_field in Hex. rewrite He in Hex. injection Hex as <-. now apply X1.
    + intros e He Hn. unfold opt_field in Hfu, Had. rewrite He in Hfu. rewrite Hn in Had. injection Hfu as <-. injection Had as <-. now apply X2.
  - intros rs r E Hr. rewrite E in B1. injection B1 as <-. injection B2 as <-. destruct (B3 r Hr) as (rd & o & t & w & -> & C1 & C2 & C3 & _).
    exists rd. repeat split; eauto. congruence.
Qed.
Print Assumptions C35_accepted_documents.
Theorem C35_missing_field :
  forall {F} {N : Num F} (d : dict (json F)) k,
  In k ["max_iter"; "decision_function"; "memory_influence"; "activation_function"; "concepts"; "relations"] -> dget d k = None ->
  exists m, from_json (JObj d) = Err (EExc (append "Cannot load json data due: " m)).
Proof.
  intros F N d k Hk Hn. destruct (C35_own_exception (JObj d)) as [[s H]|H]; auto. exfalso.
  destruct (C35_accepted_documents (JObj d) s H) as (d' & E & A & _). injection E as <-. now apply (A k).
Qed.
Print Assumptions C35_missing_field.
Theorem C35_unknown_function :
  forall {F} {N : Num F} (d : dict (json F)) x,
  (dget d "activation_function" = Some (JStr x) /\ get_function_by_name x = None) \/
  (dget d "decision_function" = Some (JStr x) /\ get_decision_by_name x = None) ->
  exists m, from_json (JObj d) = Err (EExc (append "Cannot load json data due: " m)).
Proof.
  intros F N d x Hx. destruct (C35_own_exception (JObj d)) as [[s H]|H]; auto. exfalso.
  destruct (C35_accepted_documents (JObj d) s H) as (d' & E & _ & (y & f & A1 & A2) & (z & g & A3 & A4) & _). injection E as <-.
  destruct Hx as [[B1 B2]|[B1 B2]]; congruence.
Qed.
Print Assumptions C35_unknown_function.
(** an accepted document gives a map on which every earlier theorem applies *)
Theorem C35_accepted_is_sane :
  forall {F} {N : Num F} (j : json F) s, from_json j = Ok s -> sane_runs s /\ m_debug s = true /\ m_fit s = None.
Proof. exact @load_sane. Qed.
Print Assumptions C35_accepted_is_sane.
Definition doc_with (concept : list (string * json Q)) : json Q :=
  JObj [("max_iter", JInt 10); ("decision_function", JStr "LAST"); ("memory_influence", JBool true);
        ("activation_function", JStr "saturation"); ("concepts", JArr [JObj concept]); ("relations", JArr [])].
Example C35_nonvacuous :
  (exists s, from_json (doc_with [("id", JStr "a"); ("type", JStr "SIMPLE")]) = Ok s /\ concepts s = ["a"]) /\
  from_json (doc_with [("id", JStr "a")]) = Err (EExc "Cannot load json data due: 'type'") /\
  from_json (JObj [("max_iter", @JInt Q 10)]) = Err (EExc "Cannot load json data due: 'decision_function'").
Proof. vm_compute. split; [eexists; split; reflexivity|]. split; reflexivity. Qed.
(** an unknown custom function is not noticed beside an activation_dict *)
Theorem C35_unknown_function_beside_dict_refuted :
  exists s, from_json (doc_with [("id", JStr "a"); ("type", JStr "SIMPLE"); ("custom_function", JStr "no such function");
    ("activation_dict", JObj [("membership", JArr [JInt 0; JInt 1]); ("val_list", JArr [JInt 0; JInt 1])])]) = Ok s.
Proof. eexists. vm_compute. reflexivity. Qed.

(** ** C36 *)
Lemma join_concepts {F} {N : Num F} m maps cst vst rst iz (s : fcm F) c : (forall x, In x (m :: maps) -> reachable x) ->
  join_maps (m :: maps) cst vst rst iz = Ok s ->
  (In c (concepts s) <-> kept cst (m :: maps) c /\ (iz = true -> exists v, picked vst (values_of (m :: maps) c) v /\ neqb v n0 = false)).
Proof.
  intros Hr E. destruct (join_spec m maps cst vst rst iz s Hr E) as (A & _). pose proof (join_strategies _ _ _ _ _ _ E) as [_ S2 _].
  rewrite value_concept. split.
  - intros [v Hv]. apply A in Hv as (H1 & H2 & H3). split; auto. eauto.
  - intros [H1 H2]. destruct iz.
    + destruct (H2 eq_refl) as (v & H3 & H4). exists v. apply A. auto.
    + assert (Hv : values_of (m :: maps) c <> []).
      { assert (X : exists x, In x (m :: maps) /\ In c (concepts x)).
        { unfold kept in H1. destruct (String.eqb cst "union"); auto. exists m. split; [now left|]. apply H1. now left. }
        destruct X as (x & Hx & Hc). apply value_concept in Hc as [v Hv]. intros Z.
        assert (Y : In v (values_of (m :: maps) c)); [|rewrite Z in Y; destruct Y].
        unfold values_of. apply in_flat_map. exists x. split; auto. rewrite Hv. now left. }
      destruct (combine_total vst _ Hv) as [v E2]. exists v. apply A. split; auto. split; [|discriminate]. apply combine_picked; auto.
Qed.
Theorem C36_union :
  forall {F} {N : Num F} (maps : list (fcm F)) vst rst s, maps <> [] -> (forall m, In m maps -> reachable m) ->
  join_maps maps "union" vst rst false = Ok s ->
  forall c, In c (concepts s) <-> exists m, In m maps /\ In c (concepts m).
Proof.
  intros F N [|m maps] vst rst s Hm Hr E c; [congruence|]. rewrite (join_concepts m maps "union" vst rst false s c Hr E). unfold kept. cbn [String.eqb].
  split; [intros [H _]; exact H|]. intros H. split; [exact H|discriminate].
Qed.
Print Assumptions C36_union.
Theorem C36_intersection :
  forall {F} {N : Num F} (maps : list (fcm F)) vst rst s, maps <> [] -> (forall m, In m maps -> reachable m) ->
  join_maps maps "intersection" vst rst false = Ok s ->
  forall c, In c (concepts s) <-> forall m, In m maps -> In c (concepts m).
Proof.
  intros F N [|m maps] vst rst s Hm Hr E c; [congruence|]. rewrite (join_concepts m maps "intersection" vst rst false s c Hr E). unfold kept. cbn [String.eqb].
  split; [intros [H _]; exact H|]. intros H. split; [exact H|discriminate].
Qed.
Print Assumptions C36_intersection.
(** with ignore_zeros exactly the concepts whose joined value is not zero remain *)
Theorem C36_ignore_zeros :
  forall {F} {N : Num F} (maps : list (fcm F)) cst vst rst s s1, maps <> [] -> (forall m, In m maps -> reachable m) ->
  join_maps maps cst vst rst true = Ok s -> join_maps maps cst vst rst false = Ok s1 ->
  forall c, In c (concepts s) <-> exists v, value s1 c = Some v /\ neqb v n0 = false.
Proof.
  intros F N [|m maps] cst vst rst s s1 Hm Hr E E1 c; [congruence|].
  destruct (join_spec m maps cst vst rst true s Hr E) as (A & _). destruct (join_spec m maps cst vst rst false s1 Hr E1) as (A1 & _).
  rewrite value_concept. split; intros [v H].
  - exists v. apply A in H as (H1 & H2 & H3). split; [apply A1; auto|auto].
  - destruct H as [H1 H2]. exists v. apply A1 in H1 as (X1 & X2 & _). apply A. auto.
Qed.
Print Assumptions C36_ignore_zeros.
Theorem C36_names_once :
  forall {F} {N : Num F} (maps : list (fcm F)) cst vst rst iz s, maps <> [] -> (forall m, In m maps -> reachable m) ->
  join_maps maps cst vst rst iz = Ok s -> NoDup (concepts s).
Proof.
  intros F N [|m maps] cst vst rst iz s Hm Hr E; [congruence|]. now destruct (join_spec m maps cst vst rst iz s Hr E) as (_ & _ & A & _).
Qed.
Print Assumptions C36_names_once.
(** unknown strategies are rejected whatever the maps, and no maps give the default map *)
Theorem C36_strategies :
  forall {F} {N : Num F} (maps : list (fcm F)) cst vst rst iz s, join_maps maps cst vst rst iz = Ok s ->
  In cst ["union"; "intersection"] /\ In vst ["highest"; "lowest"; "average"] /\ In rst ["highest"; "lowest"; "average"].
Proof. intros F N maps cst vst rst iz s E. apply join_strategies in E as [A B C]. repeat split; now apply str_mem_In. Qed.
Print Assumptions C36_strategies.
Theorem C36_no_maps :
  forall {F} {N : Num F} vst rst iz, In vst ["highest"; "lowest"; "average"] -> In rst ["highest"; "lowest"; "average"] ->
  forall cst, In cst ["union"; "intersection"] ->
  join_maps (F := F) [] cst vst rst iz = init_fcm 200 5 true (nlit 1 1000) "MEAN" true "sigmoid_hip" [].
Proof.
  intros F N vst rst iz Hv Hr cst Hc. unfold join_maps. apply str_mem_In in Hv, Hr, Hc. now rewrite Hv, Hr, Hc.
Qed.
Print Assumptions C36_no_maps.
(** joining maps that can be saved and loaded always succeeds *)
Theorem C36_join_succeeds :
  forall {F} {N : Num F} (maps : list (fcm F)) cst vst rst iz,
  In cst ["union"; "intersection"] -> In vst ["highest"; "lowest"; "average"] -> In rst ["highest"; "lowest"; "average"] ->
  maps <> [] -> (forall m, In m maps -> sane m /\ portable m /\ m_func m <> "fuzzy") ->
  exists s, join_maps maps cst vst rst iz = Ok s.
Proof.
  intros F N [|m maps] cst vst rst iz H1 H2 H3 Hm Hp; [congruence|]. apply join_ok.
  - constructor; now apply str_mem_In.
  - intros x Hx. destruct (Hp x Hx) as (A & B & _). auto.
  - now apply Hp; left.
Qed.
Print Assumptions C36_join_succeeds.
Example C36_nonvacuous :
  (exists s, join_maps [two_map "a" "b" (1#2) (1#4) (1#2); two_map "b" "c" (3#4) (-3#4) (1#4)]%Q "union" "average" "average" false = Ok s /\
     concepts s = ["a"; "b"; "c"]) /\
  (exists s, join_maps [two_map "a" "b" (1#2) (1#4) (1#2); two_map "b" "c" (3#4) (-3#4) (1#4)]%Q "intersection" "highest" "average" false = Ok s /\
     concepts s = ["b"]) /\
  (exists s, join_maps [two_map "a" "b" (1#2) 0 (1#2); two_map "b" "c" 0 (-3#4) (1#4)]%Q "union" "average" "average" true = Ok s /\
     concepts s = ["a"; "c"]).
Proof. vm_compute. split; [|split]; eexists; split; reflexivity. Qed.

(** ** C37 *)
Theorem C37_values :
  forall {F} {N : Num F} (maps : list (fcm F)) cst vst rst iz s, maps <> [] -> (forall m, In m maps -> reachable m) ->
  join_maps maps cst vst rst iz = Ok s ->
  forall c v, value s c = Some v -> picked vst (values_of maps c) v /\ history s c = Some [v].
Proof.
  intros F N [|m maps] cst vst rst iz s Hm Hr E c v Hv; [congruence|]. destruct (join_spec m maps cst vst rst iz s Hr E) as (A & B & _).
  split; [|now apply B]. now apply A in Hv as (_ & Hv & _).
Qed.
Print Assumptions C37_values.
(** in exact arithmetic: the largest, the smallest, the mean *)
Theorem C37_values_exact :
  forall (maps : list (fcm R)) cst vst rst iz s, maps <> [] -> (forall m, In m maps -> reachable m) ->
  join_maps maps cst vst rst iz = Ok s ->
  forall c v, value s c = Some v -> real_pick vst (values_of maps c) v.
Proof.
  intros maps cst vst rst iz s Hm Hr E c v Hv. destruct (C37_values maps cst vst rst iz s Hm Hr E c v Hv) as [H _].
  apply picked_R; auto.
  - apply (join_strategies _ _ _ _ _ _ E).
  - intros Z. rewrite Z in H. exact H.
Qed.
Print Assumptions C37_values_exact.
(** relations between remaining concepts: one per pair, with the picked weight *)
Theorem C37_weights :
  forall {F} {N : Num F} (maps : list (fcm F)) cst vst rst iz s, maps <> [] -> (forall m, In m maps -> reachable m) ->
  separator_free maps -> join_maps maps cst vst rst iz = Ok s ->
  (forall a b w, In (a, b, w) (relations s) <->
     In a (concepts s) /\ In b (concepts s) /\ picked rst (weights_of maps a b) w) /\
  NoDup (map fst (relations s)).
Proof.
  intros F N [|m maps] cst vst rst iz s Hm Hr SF E; [congruence|]. destruct (join_spec m maps cst vst rst iz s Hr E) as (_ & _ & _ & _ & _ & A).
  now apply A.
Qed.
Print Assumptions C37_weights.
Theorem C37_weights_exact :
  forall (maps : list (fcm R)) cst vst rst iz s, maps <> [] -> (forall m, In m maps -> reachable m) ->
  separator_free maps -> join_maps maps cst vst rst iz = Ok s ->
  forall a b w, In (a, b, w) (relations s) -> real_pick rst (weights_of maps a b) w.
Proof.
  intros maps cst vst rst iz s Hm Hr SF E a b w H. destruct (C37_weights maps cst vst rst iz s Hm Hr SF E) as [A _].
  apply A in H as (_ & _ & H). apply picked_R; auto.
  - apply (join_strategies _ _ _ _ _ _ E).
  - intros Z. rewrite Z in H. exact H.
Qed.
Print Assumptions C37_weights_exact.
(** everything else comes from the first map; concept settings are the defaults *)
Theorem C37_settings :
  forall {F} {N : Num F} (m : fcm F) maps cst vst rst iz s, (forall x, In x (m :: maps) -> reachable x) ->
  join_maps (m :: maps) cst vst rst iz = Ok s ->
  saved_settings s = saved_settings m /\
  forall c n, dget (m_topo s) c = Some n ->
    nd_active n = Some true /\ nd_exec n = Some "KOSKO" /\ nd_mem n = Some (m_mem m) /\
    (nd_type n = Some TYPE_SIMPLE \/ nd_type n = Some TYPE_DECISION).
Proof. intros F N m maps cst vst rst iz s Hr E. destruct (join_spec m maps cst vst rst iz s Hr E) as (_ & _ & _ & A & B & _). auto. Qed.
Print Assumptions C37_settings.
Example C37_nonvacuous :
  exists s, join_maps [two_map "a" "b" (1#2) (1#4) (1#2); two_map "a" "b" (1#4) (-3#4) (1#4)]%Q "union" "average" "lowest" false = Ok s /\
    value s "a" = Some (3#8)%Q /\ value s "b" = Some (-1#4)%Q /\ relations s = [("a", "b", (1#4)%Q)].
Proof. eexists. vm_compute. repeat split. Qed.

(** ** C38 *)
Theorem C38_values :
  forall (maps maps' : list (fcm R)) cst vst rst iz s s', Permutation maps maps' -> maps <> [] -> (forall m, In m maps -> reachable m) ->
  join_maps maps cst vst rst iz = Ok s -> join_maps maps' cst vst rst iz = Ok s' ->
  forall c, value s c = value s' c.
Proof.
  intros maps maps' cst vst rst iz s s' P Hm Hr E E' c.
  assert (Hm' : maps' <> []) by (intros ->; apply Hm; now apply Permutation_nil, Permutation_sym).
  assert (Hr' : forall m, In m maps' -> reachable m) by (intros m H; apply Hr; eapply Permutation_in; [symmetry|]; eauto).
  destruct (value s c) as [v|] eqn:V.
  - symmetry. exact (join_value_perm maps maps' cst vst rst iz s s' c v P Hm Hr E E' V).
  - destruct (value s' c) as [v|] eqn:V'; auto.
    pose proof (join_value_perm maps' maps cst vst rst iz s' s c v (Permutation_sym P) Hm' Hr' E' E V'). congruence.
Qed.
Print Assumptions C38_values.
Theorem C38_weights :
  forall (maps maps' : list (fcm R)) cst vst rst iz s s', Permutation maps maps' -> maps <> [] -> (forall m, In m maps -> reachable m) ->
  separator_free maps ->
  join_maps maps cst vst rst iz = Ok s -> join_maps maps' cst vst rst iz = Ok s' ->
  forall a b w, In (a, b, w) (relations s) <-> In (a, b, w) (relations s').
Proof.
  intros maps maps' cst vst rst iz s s' P Hm Hr SF E E' a b w.
  assert (Hm' : maps' <> []) by (intros ->; apply Hm; now apply Permutation_nil, Permutation_sym).
  assert (Hr' : forall m, In m maps' -> reachable m) by (intros m H; apply Hr; eapply Permutation_in; [symmetry|]; eauto).
  assert (SF' : separator_free maps') by (intros x c Hx Hc; apply (SF x c); auto; eapply Permutation_in; [symmetry|]; eauto).
  split; intros H.
  - exact (join_relation_perm maps maps' cst vst rst iz s s' a b w P Hm Hr SF E E' H).
  - exact (join_relation_perm maps' maps cst vst rst iz s' s a b w (Permutation_sym P) Hm' Hr' SF' E' E H).
Qed.
Print Assumptions C38_weights.
(** but the order can decide whether joining works at all: the first map that has a
    concept supplies its description, and fuzzy descriptions cannot be loaded *)
Theorem C38_success_refuted :
  let m1 := run_ops [add_simple "y"] base_map in
  let m2 := run_ops [fuzzy_concept TYPE_FUZZY] base_map in
  (exists s, join_maps [m1; m2] "union" "average" "average" false = Ok s) /\
  (exists e, join_maps [m2; m1] "union" "average" "average" false = Err e).
Proof. vm_compute. split; eexists; reflexivity. Qed.
(** and it decides the settings of the result *)
Theorem C38_settings_refuted :
  let m1 := run_ops [add_simple "y"] base_map in
  let m2 := run_ops [add_simple "y"; OpAttrMaxIter 7] base_map in
  exists s s', join_maps [m1; m2] "union" "average" "average" false = Ok s /\ join_maps [m2; m1] "union" "average" "average" false = Ok s' /\
    m_maxit s = 10%Z /\ m_maxit s' = 7%Z.
Proof. vm_compute. do 2 eexists. repeat split. Qed.
Example C38_nonvacuous :
  exists s s', join_maps [two_map "a" "b" (1#2) (1#4) (1#2); two_map "b" "a" (3#4) (-3#4) (1#4)]%Q "union" "average" "average" false = Ok s /\
    join_maps [two_map "b" "a" (3#4) (-3#4) (1#4); two_map "a" "b" (1#2) (1#4) (1#2)]%Q "union" "average" "average" false = Ok s' /\
    value s "a" = value s' "a" /\ relations s = [("a", "b", 1#2); ("b", "a", 1#4)]%Q /\ relations s' = [("b", "a", 1#4); ("a", "b", 1#2)]%Q.
Proof. vm_compute. do 2 eexists. repeat split. Qed.

(** ** C39 *)
Theorem C39_split_exact :
  forall o d, split_str (append o (append " |=====> " d)) " |=====> " = Ok [o; d] <->
    ~ occurs " |=====> " (append o " ") /\ ~ occurs " |=====> " d.
Proof. intros o d. split; [apply (split_key_only o d [])|]. intros [A B]. now apply split_key. Qed.
Print Assumptions C39_split_exact.
(** even when only the first two pieces are looked at, as join_maps does *)
Theorem C39_first_two_pieces :
  forall o d t, split_str (append o (append " |=====> " d)) " |=====> " = Ok (o :: d :: t) ->
    ~ occurs " |=====> " (append o " ") /\ ~ occurs " |=====> " d.
Proof. exact split_key_only. Qed.
Print Assumptions C39_first_two_pieces.
Example C39_nonvacuous :
  split_str "heat |=====> cold" " |=====> " = Ok ["heat"; "cold"].
Proof. reflexivity. Qed.
(** a name containing the separator: the relation moves to another concept *)
Theorem C39_moved_relation_refuted :
  let m := run_ops [add_simple "a"; add_simple "b"; add_simple "b |=====> c"; OpAddRelation "a" "b |=====> c" (1#2)%Q] base_map in
  exists s, join_maps [m] "union" "average" "average" false = Ok s /\ relations s = [("a", "b", (1#2)%Q)].
Proof. vm_compute. eexists. split; reflexivity. Qed.
(** an origin ending in ' |=====>' (without the last blank) is enough *)
Theorem C39_origin_tail_refuted :
  let m := run_ops [add_simple "a"; add_simple "a |=====>"; add_simple "b"; add_simple "|=====> b"; OpAddRelation "a |=====>" "b" (1#2)%Q] base_map in
  exists s, join_maps [m] "union" "average" "average" false = Ok s /\ relations s = [("a", "|=====> b", (1#2)%Q)].
Proof. vm_compute. eexists. split; reflexivity. Qed.
