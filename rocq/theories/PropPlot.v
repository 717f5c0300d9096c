(** PropPlot.v — the advertised function names (C86), the drawing methods (C87, C88),
    Fuzzy.fuzzyfication (C89) and estimate_clusters by method name (C90). *)
From Coq Require Import Reals QArith.
From Verif Require Import Base BaseFacts Num Functions Spec SortFacts RealFacts QNum Fcm FcmSpec FcmInv FcmInv2 FcmInv3 FcmIter FcmRun FcmRun2 FcmRun3 Plot PlotFacts FuzzyFacts Discret ClusterNames.
Local Close Scope Q_scope.
Local Close Scope R_scope.

(** ** C86 *)
Theorem C86_decision_names : forall n, In n decision_function_names <-> get_decision_by_name n <> None.
Proof.
  intros n. unfold get_decision_by_name. cbn [In decision_function_names].
  repeat match goal with |- context [String.eqb n ?k] => destruct (String.eqb_spec n k) as [->|?] end;
    (split; [intros H; try discriminate; intuition congruence|intros H; try tauto; congruence]).
Qed.
Print Assumptions C86_decision_names.
(** "proportion" is advertised but unknown, "fuzzy" is known but not advertised *)
Theorem C86_activation_names_refuted :
  (forall n, get_function_by_name n <> None <-> (In n activation_function_names /\ n <> "proportion") \/ n = "fuzzy") /\
  (forall n, get_const_by_name n <> None <-> get_function_by_name n <> None) /\
  In "proportion" activation_function_names /\ ~ In "fuzzy" activation_function_names /\
  (forall {F} {N : Num F} kw (s : fcm F),
     snd (set_map_activation_function "proportion" kw s) = Err (EExc "Unknown activation function 'proportion'")).
Proof.
  split; [|split; [|split; [|split]]].
  - intros n. unfold get_function_by_name. cbn [In activation_function_names].
    repeat match goal with |- context [String.eqb n ?k] => destruct (String.eqb_spec n k) as [->|?] end;
      (split; [intros H; first [congruence|now right|left; split; [tauto|discriminate]]|intros H; try discriminate; exfalso; intuition congruence]).
  - intros n. unfold get_function_by_name, get_const_by_name.
    repeat match goal with |- context [String.eqb n ?k] => destruct (String.eqb_spec n k) as [->|?] end;
      split; intros; try discriminate; auto.
  - cbn. tauto.
  - cbn. intuition discriminate.
  - intros. reflexivity.
Qed.
Print Assumptions C86_activation_names_refuted.
(** "MEAN" is advertised as an excitation function but rejected *)
Theorem C86_excitation_names_refuted :
  (forall n, get_excitation_by_name n <> None <-> In n excitation_function_names /\ n <> "MEAN") /\
  In "MEAN" excitation_function_names /\
  (forall {F} {N : Num F} c ty a m d f kw (s : fcm F),
     snd (add_concept c ty a m (Some "MEAN") d f kw s) = Err (EExc "Unknown excitation function: MEAN")).
Proof.
  split; [|split].
  - intros n. unfold get_excitation_by_name. cbn [In excitation_function_names].
    repeat match goal with |- context [String.eqb n ?k] => destruct (String.eqb_spec n k) as [->|?] end;
      (split; [intros H; first [congruence|split; [tauto|discriminate]]|intros H; try discriminate; exfalso; intuition congruence]).
  - cbn. tauto.
  - intros. reflexivity.
Qed.
Print Assumptions C86_excitation_names_refuted.
Example C86_nonvacuous :
  In "EXITED" decision_function_names /\ In "relm" activation_function_names /\ In "PAPAGEORGIUS" excitation_function_names /\
  snd (set_map_activation_function "relm" [] (qmap 10 5 true "LAST" "saturation")) = Ok tt.
Proof. cbn. intuition. Qed.

(** ** C87 *)
(** The picture shows a prefix of the history of each selected concept. *)
Theorem C87_lines :
  forall {F} {N : Num F} fig limit t dir (s : fcm F), sane s ->
  exists lines, plot_execution fig limit t dir s = Ok (append dir (append "/" (append fig ".png")), lines) /\
    NoDup (map fst lines) /\
    (forall c ys, In (c, ys) lines -> exists h rest, history s c = Some h /\ h = ys ++ rest /\
       Z.of_nat (length ys) = (if (0 <? limit) && (limit <? Z.of_nat (length h)) then limit else Z.of_nat (length h))%Z%bool).
Proof. exact @plot_prefixes. Qed.
Print Assumptions C87_lines.
(** For a concept type or "target" it shows the concepts get_final_state returns, in
    the same order; "all" shows every concept. *)
Theorem C87_selection :
  forall {F} {N : Num F} fig limit t dir (s : fcm F), sane s ->
  exists lines, snd (match plot_execution fig limit t dir s with Ok p => p | Err _ => ("", []) end) = lines /\
    (t = "all" -> map fst lines = concepts s) /\
    (t <> "all" -> t <> "any" -> exists l, get_final_state t [] s = Ok l /\ map fst lines = dkeys l).
Proof. exact @plot_selection. Qed.
Print Assumptions C87_selection.
(** The two methods disagree on the name that selects everything: "any" (everything
    for get_final_state) draws nothing, "all" (everything for plot_execution) gives an
    empty final state. *)
Theorem C87_everything_refuted :
  forall {F} {N : Num F} mi ex st sd de me ac kw (s0 : fcm F), init_fcm mi ex st sd de me ac kw = Ok s0 ->
  let s := run_ops [OpAddConcept "a" None None None None None None []] s0 in
  sane s /\
  plot_execution "f" 0 "all" "." s = Ok ("./f.png", [("a", [n0])]) /\ get_final_state "all" [] s = Ok [] /\
  plot_execution "f" 0 "any" "." s = Ok ("./f.png", []) /\ get_final_state "any" [] s = Ok [("a", n0)].
Proof.
  intros F N mi ex st sd de me ac kw s0 H. split.
  - exists mi, ex, st, sd, de, me, ac, kw, s0. eexists. split; [exact H|]. split; [|reflexivity].
    apply init_fcm_shape in H as (-> & _). repeat split.
  - apply init_fcm_shape in H as (-> & _). repeat split.
Qed.
Print Assumptions C87_everything_refuted.
Example C87_nonvacuous :
  let s := fst (run_inference true (run_ops [add_simple "a"; add_simple "b"; OpAddRelation "a" "b" 1%Q; OpInitConcept "a" 1%Q true] (qmap 10 5 true "LAST" "saturation"))) in
  plot_execution "f" 2 "all" "d" s = Ok ("d/f.png", [("a", [1; 1]%Q); ("b", [0; 1]%Q)]).
Proof. vm_compute. reflexivity. Qed.

(** ** C88 *)
(** When no concept was added twice and no call raised, the drawn graph has the
    concepts as vertices and one edge for each pair of related concepts. *)
Theorem C88_graph :
  forall {F} {N : Num F} mi ex st sd de me ac kw (s0 : fcm F) ops path fig,
  init_fcm mi ex st sd de me ac kw = Ok s0 -> fresh_adds ops s0 -> ok_when is_add_relation ops s0 ->
  let s := run_ops ops s0 in
  exists g, plot_topology path fig s = (append path (append fig ".png"), g) /\
  g_nodes g = concepts s /\
  (forall a b, In (a, b) (g_edges g) \/ In (b, a) (g_edges g) <->
     exists w, In (a, b, w) (relations s) \/ In (b, a, w) (relations s)) /\
  (forall i j e f, nth_error (g_edges g) i = Some e -> nth_error (g_edges g) j = Some f -> e = f \/ e = (snd f, fst f) -> i = j).
Proof. exact @plot_graph. Qed.
Print Assumptions C88_graph.
(** Adding a concept again hides its relations from the picture, not from inference. *)
Theorem C88_readding_refuted :
  forall {F} {N : Num F} (w : F),
  let add n := OpAddConcept n None None None None None None [] in
  forall mi ex st sd de me ac kw s0, init_fcm mi ex st sd de me ac kw = Ok s0 ->
  let s := run_ops [add "a"; add "b"; OpAddRelation "a" "b" w; add "a"] s0 in
  relations s = [("a", "b", w)] /\ snd (plot_topology "" "t" s) = mkGraph ["a"; "b"] [].
Proof. intros F N w add mi ex st sd de me ac kw s0 H. apply init_fcm_shape in H as (-> & _). split; reflexivity. Qed.
Print Assumptions C88_readding_refuted.
Example C88_nonvacuous :
  let ops := [add_simple "a"; add_simple "b"; OpAddRelation "a" "b" (1#2); OpAddRelation "b" "b" (1#4); OpAddRelation "b" "a" 1]%Q in
  let s0 := qmap 10 5 true "LAST" "saturation" in
  fresh_adds ops s0 /\ ok_when is_add_relation ops s0 /\
  plot_topology "p/" "t" (run_ops ops s0) = ("p/t.png", mkGraph ["a"; "b"] [("a", "b"); ("b", "b")]).
Proof.
  vm_compute. split; [|split].
  - repeat split; intuition discriminate.
  - repeat split.
  - reflexivity.
Qed.

(** ** C89 *)
Section C89.
Local Open Scope R_scope.
(** [x] is the scaled value *)
Theorem C89_at_stored_value : forall v mn nv ms vs i m, nv <> 0 -> increasing_list vs ->
  nth_error vs i = Some ((v + mn) / nv) -> nth_error ms i = Some m -> fuzzyfication v mn nv ms vs = Ok m.
Proof. exact fuzzyfication_at. Qed.
Print Assumptions C89_at_stored_value.
Theorem C89_between : forall v mn nv ms vs i a b p q, nv <> 0 -> increasing_list vs ->
  nth_error vs i = Some a -> nth_error vs (S i) = Some b -> nth_error ms i = Some p -> nth_error ms (S i) = Some q ->
  let x := (v + mn) / nv in
  a < x < b -> x - a < 1 -> b - x < 1 -> -1 <= p <= 1 -> -1 <= q <= 1 ->
  fuzzyfication v mn nv ms vs = Ok (p + (q - p) * ((x - a) / (b - a))).
Proof. exact fuzzyfication_mid. Qed.
Print Assumptions C89_between.
(** without a stored value less than 1 below, the smallest membership *)
Theorem C89_below : forall v mn nv ms vs, nv <> 0 -> ms <> [] ->
  let x := (v + mn) / nv in
  (forall w, In w vs -> x < w \/ w <= x - 1) -> exists m, fuzzyfication v mn nv ms vs = Ok m /\ is_min ms m.
Proof. exact fuzzyfication_low. Qed.
Print Assumptions C89_below.
(** with one, but without one less than 1 above, the largest *)
Theorem C89_above : forall v mn nv ms vs i a, nv <> 0 -> ms <> [] -> increasing_list vs ->
  let x := (v + mn) / nv in
  nth_error vs i = Some a -> a < x -> x - a < 1 -> (forall w, In w vs -> w < x \/ x + 1 <= w) ->
  exists m, fuzzyfication v mn nv ms vs = Ok m /\ is_max ms m.
Proof. exact fuzzyfication_high. Qed.
Print Assumptions C89_above.
End C89.
Section C89_examples.
Local Open Scope Q_scope.
(** Outside the stored values the fuzzy activation function keeps the membership of
    the nearest stored value; fuzzyfication gives the least or the greatest membership,
    and one unit or more above all of them it gives the least. *)
Theorem C89_nearest_refuted :
  let ms := [1; 0] in let vs := [-(1); 1] in
  fuzzy_set (- (3#2)) ms vs = Ok 1 /\ fuzzyfication (- (3#2)) 0 1 ms vs = Ok 0 /\
  fuzzy_set (3#2) ms vs = Ok 0 /\ fuzzyfication (3#2) 0 1 ms vs = Ok 1 /\ fuzzyfication 2 0 1 ms vs = Ok 0 /\
  fuzzyfication (3#2) 0 1 [0; 1] vs = Ok 1 /\ fuzzyfication 2 0 1 [0; 1] vs = Ok 0.
Proof. vm_compute. repeat split; reflexivity. Qed.
Print Assumptions C89_nearest_refuted.
Example C89_nonvacuous :
  fuzzyfication 15 0 20 [0; 1#2; 1] [0; 1#2; 1] = Ok (3#4) /\ fuzzyfication 10 0 20 [0; 1#2; 1] [0; 1#2; 1] = Ok (1#2).
Proof. vm_compute. repeat split; reflexivity. Qed.
End C89_examples.

(** ** C90 *)
(** Only the three supported names cluster; then the call is the one of Discret.v. *)
Theorem C90_supported :
  forall {F} {N : Num F} (data : list F) mc name maxiter fit rand m,
  (name = "gap_concentration" /\ m = MGap \/ name = "fuzzy_silhouette" /\ m = MSil \/ name = "combined_fuzzy_entropy" /\ m = MCfe) ->
  estimate_clusters_named data mc name true maxiter fit rand =
    match estimate_clusters data mc m maxiter fit rand with Ok (k, d) => Ok (k, Some d) | Err e => Err e end.
Proof.
  intros F N data mc name maxiter fit rand m [[-> ->]|[[-> ->]|[-> ->]]]; unfold estimate_clusters_named; cbn [method_named String.eqb Ascii.eqb Bool.eqb];
    unfold rbind; destruct (estimate_clusters _ _ _ _ _ _) as [[k d]|e]; reflexivity.
Qed.
Print Assumptions C90_supported.
(** An unsupported name, or a missing clustering function, is reported as "Used gap
    concentration instead", but nothing is used: one cluster and no description. *)
Theorem C90_fallback_refuted :
  (forall {F} {N : Num F} (data : list F) mc name b maxiter fit rand,
     name <> "gap_concentration" -> (b = true -> name <> "fuzzy_silhouette" /\ name <> "combined_fuzzy_entropy") ->
     estimate_clusters_named data mc name b maxiter fit rand = Ok (1, None)) /\
  (let fit := [0; 0; 1; 0; 0; 1; 0; 0; 0; 0]%Q in
   let data := [0; 1; 2; 3; 4; 5; 6; 7; 8; 9]%Q in
   exists k d, estimate_clusters_named data 7 "gap_concentration" true 1000 fit (fun _ => []) = Ok (k, Some d)).
Proof.
  split.
  - intros F N data mc name b maxiter fit rand H1 H2. unfold estimate_clusters_named, method_named.
    destruct (String.eqb_spec name "gap_concentration"); [contradiction|].
    destruct (String.eqb_spec name "fuzzy_silhouette"), (String.eqb_spec name "combined_fuzzy_entropy"), b; try reflexivity;
      destruct (H2 eq_refl); contradiction.
  - do 2 eexists. vm_compute. reflexivity.
Qed.
Print Assumptions C90_fallback_refuted.
Example C90_nonvacuous : ("gap_concentration" = "gap_concentration" /\ MGap = MGap) /\
  estimate_clusters_named [1; 2]%Q 3 "elbow" true 100 [] (fun _ => []) = Ok (1, None) /\
  estimate_clusters_named [1; 2]%Q 3 "fuzzy_silhouette" false 100 [] (fun _ => []) = Ok (1, None).
Proof. repeat split; reflexivity. Qed.
