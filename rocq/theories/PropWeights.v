(** PropWeights.v — C115: what happens to a run when weights are raised, changed a little, or multiplied. *)
From Coq Require Import Reals Lra Lia QArith.
From Verif Require Import Base BaseFacts Num QNum Functions Spec SortFacts RealFacts FunctionsFacts Fcm FcmSpec VecSpec DynSpec FcmInv FcmInv2 FcmInv3 FcmIter FcmRun FcmRun2 FcmRun3 FcmOrder FcmStop FcmTotal Dynamics Dynamics2 Dynamics3 WeightSpec WeightFacts PropDynamics.
Local Close Scope Q_scope.
Local Open Scope R_scope.

(** If all weights are non-negative, no concept ever sends out a negative value, and all activation functions are
    non-decreasing, raising weights and starting values never lowers a value. *)
Theorem C115_larger_weights : forall s t s' t' : fcm R, runs s -> runs t -> reweighted (fun w w' => 0 <= w <= w') s t ->
  (forall c n, dget (m_topo s) c = Some n -> monotone_node n /\ gentle n) ->
  (forall c a b, initial s c = Some a -> initial t c = Some b -> 0 <= a <= b) ->
  run_inference true s = (s', Ok tt) -> run_inference true t = (t', Ok tt) ->
  forall c h h' k a b, In c (concepts s) -> history s' c = Some h -> history t' c = Some h' -> nth_error h k = Some a -> nth_error h' k = Some b ->
    kept s s' k -> kept t t' k -> a <= b.
Proof. exact larger_weights. Qed.
Print Assumptions C115_larger_weights.
Theorem C115_gentle_functions : forall (n : node R) f a, nd_func n = Some f -> nd_args n = Some a -> unit_function f a ->
  nd_exec n <> Some "PAPAGEORGIUS" -> gentle n.
Proof.
  intros n f a E1 E2 U He. split; auto. intros u y (f' & fn & a' & A1 & A2 & A3 & A4). assert (f' = f) by congruence. assert (a' = a) by congruence. subst f' a'.
  destruct (String.eqb_spec f "fuzzy") as [->|_].
  - destruct U as [U|[U|[U|[U|[U _]]]]]; discriminate U.
  - pose proof (unit_range f a fn u y U A2 A4). lra.
Qed.
Print Assumptions C115_gentle_functions.

(** If the changes of the weights towards a concept, times its steepness and the largest value sent out, sum up to at most
    [e], and one step brings states closer by the factor [q], the values differ by at most [q^k D0 + e (1 + q + ... + q^(k-1))]. *)
Theorem C115_changed_weights : forall P (s t s' t' : fcm R) q B e D0, runs s -> runs t -> reweighted P s t -> 0 <= q -> 0 <= B ->
  (forall c n, dget (m_topo s) c = Some n -> emits B n /\
     exists K, lipschitz_node K n /\ K * gain (m_topo s) (m_arcs s) c n <= q /\ K * (drift (relations s) (relations t) c * B) <= e) ->
  (forall c a b n, initial s c = Some a -> initial t c = Some b -> dget (m_topo s) c = Some n -> Rabs (a - b) <= D0 /\ Rabs (signal n b) <= B) ->
  run_inference true s = (s', Ok tt) -> run_inference true t = (t', Ok tt) ->
  forall c h h' k a b, In c (concepts s) -> history s' c = Some h -> history t' c = Some h' -> nth_error h k = Some a -> nth_error h' k = Some b ->
    kept s s' k -> kept t t' k -> Rabs (a - b) <= q ^ k * D0 + e * geometric q k.
Proof. exact perturbed. Qed.
Print Assumptions C115_changed_weights.
Theorem C115_geometric : forall q k, q < 1 -> 0 <= q -> geometric q k = (1 - q ^ k) / (1 - q) /\ geometric q k <= / (1 - q).
Proof.
  intros q k H H0. pose proof (geometric_sum q k) as G. assert (E : geometric q k = (1 - q ^ k) / (1 - q)).
  { apply (Rmult_eq_reg_r (1 - q)); [|lra]. rewrite G. field. lra. }
  split; auto. rewrite E. unfold Rdiv. rewrite <- (Rmult_1_l (/ (1 - q))) at 2. apply Rmult_le_compat_r; [left; apply Rinv_0_lt_compat; lra|].
  pose proof (pow_le q k H0). lra.
Qed.
Print Assumptions C115_geometric.
Theorem C115_emitting_functions : forall (n : node R) f a, nd_func n = Some f -> nd_args n = Some a ->
  unit_function f a \/ bipolar_function f a /\ nd_exec n <> Some "PAPAGEORGIUS" /\ f <> "fuzzy" -> emits 1 n.
Proof.
  intros n f a E1 E2 H u y (f' & fn & a' & A1 & A2 & A3 & A4). assert (f' = f) by congruence. assert (a' = a) by congruence. subst f' a'.
  assert (Nf : f <> "fuzzy") by (destruct H as [U|(_ & _ & H)]; auto; intros ->; destruct U as [U|[U|[U|[U|[U _]]]]]; discriminate U).
  destruct (String.eqb_spec f "fuzzy") as [|_]; [contradiction|]. destruct H as [U|(U & He & _)].
  - pose proof (unit_range f a fn u y U A2 A4) as Ra. pose proof (signal_lip n y (/ 2)) as Sl. unfold signal, slope in *. destruct (nd_exec n) as [x|]; [|apply Rabs_le; lra].
    repeat match goal with |- context [match ?e with _ => _ end] => destruct e end; try (apply Rabs_le; lra).
    unfold n1, n2. cbn [nsub nmul nofZ RNum]. apply Rabs_le. lra.
  - rewrite gentle_signal by auto. pose proof (bipolar_range f a fn u y U A2 A4). apply Rabs_le. lra.
Qed.
Print Assumptions C115_emitting_functions.

(** With two-state functions and without memory only the signs of the inputs matter: multiplying all weights by the same
    positive number changes nothing. *)
Theorem C115_multiplied_weights : forall p (s t s' t' : fcm R), runs s -> runs t -> 0 < p -> reweighted (fun w w' => w' = p * w) s t ->
  (forall c n, dget (m_topo s) c = Some n -> nd_func n = Some "biestate" /\ nd_mem n <> Some true) ->
  (forall c, In c (concepts s) -> initial t c = initial s c) ->
  run_inference true s = (s', Ok tt) -> run_inference true t = (t', Ok tt) ->
  forall c h h' k a b, In c (concepts s) -> history s' c = Some h -> history t' c = Some h' -> nth_error h k = Some a -> nth_error h' k = Some b ->
    kept s s' k -> kept t t' k -> a = b.
Proof. exact scaled_weights. Qed.
Print Assumptions C115_multiplied_weights.

(** ** The conditions are needed *)
Definition wq (exec : string) (x0 w : Q) : fcm Q :=
  run_ops [OpAddConcept "x" None None (Some false) (Some exec) None None []; OpAddConcept "z" None None (Some true) None None None []; OpAddConcept "y" None None (Some false) None None None [];
           OpAddRelation "x" "y" w; OpAddRelation "z" "y" n1; OpInitConcept "x" x0 true; OpInitConcept "z" n1 true] (qmap 3 2 false "LAST" "saturation").
Definition wm (mem : bool) (p : Q) : fcm Q :=
  run_ops [OpAddConcept "x" None None (Some true) None None None []; OpAddConcept "y" None None (Some mem) None None None [];
           OpAddRelation "x" "y" (nmul p (nlit (-3) 5)); OpInitConcept "x" n1 true; OpInitConcept "y" n1 true] (qmap 3 2 false "LAST" "biestate").
Definition second (s : fcm Q) (c : string) : option Q := match run_inference true s with (s', Ok tt) => match history s' c with Some h => nth_error h 1 | None => None end | _ => None end.
Theorem C115_conditions_refuted :
  (** a raised weight from a concept that sends out something negative lowers a value *)
  (exists a b, second (wq "KOSKO" (nofZ (-1)) (nlit 1 4)) "y" = Some a /\ second (wq "KOSKO" (nofZ (-1)) (nlit 1 2)) "y" = Some b /\ (a == 3 # 4)%Q /\ (b == 1 # 2)%Q) /\
  (exists a b, second (wq "PAPAGEORGIUS" n0 (nlit 1 4)) "y" = Some a /\ second (wq "PAPAGEORGIUS" n0 (nlit 1 2)) "y" = Some b /\ (a == 3 # 4)%Q /\ (b == 1 # 2)%Q) /\
  (** with memory, two-state maps notice multiplied weights *)
  (exists a b, second (wm true n1) "y" = Some a /\ second (wm true n2) "y" = Some b /\ (a == 1)%Q /\ (b == 0)%Q) /\
  (exists a b, second (wm false n1) "y" = Some a /\ second (wm false n2) "y" = Some b /\ (a == b)%Q).
Proof. repeat split; do 2 eexists; repeat (split; [vm_compute; reflexivity|]); vm_compute; reflexivity. Qed.
Print Assumptions C115_conditions_refuted.

(** ** Non-vacuity: x -> y with weight 1/2 or 3/4, y -> x with 1/2, logistic functions with memory *)
Definition wops (w : R) : list (op R) :=
  [OpAddConcept "x" None None None None None None []; OpAddConcept "y" None None None None None None [];
   OpAddRelation "x" "y" w; OpAddRelation "y" "x" (/ 2)].
Definition wmap (w : R) : fcm R := run_ops (wops w) real_start.
Record wfacts (w : R) (m : fcm R) : Prop := {
  wf_sane : sane m;
  wf_debug : m_debug m = true;
  wf_decision : m_decision m = "LAST";
  wf_concepts : concepts m = ["x"; "y"];
  wf_relations : relations m = [("x", "y", w); ("y", "x", / 2)];
  wf_nodes : forall c n, dget (m_topo m) c = Some n -> In c ["x"; "y"] /\ nd_func n = Some "sigmoid" /\ nd_args n = Some [] /\ nd_mem n = Some true /\ nd_exec n = Some "KOSKO" /\ nd_active n = Some true;
  wf_arriving : forall c, In c ["x"; "y"] -> arriving (m_topo m) (m_arcs m) c = if String.eqb c "y" then Rabs w else Rabs (/ 2);
  wf_initial : forall c, In c ["x"; "y"] -> initial m c = Some 0;
  wf_known : forall c v, initial m c = Some v -> In c ["x"; "y"]
}.
Lemma wmap_facts w : wfacts w (wmap w).
Proof.
  assert (I : init_fcm 100 3 true (/ 100) "LAST" true "sigmoid" [] = Ok real_start) by reflexivity.
  constructor; try reflexivity.
  - do 8 eexists. exists real_start, (wops w). split; [exact I|]. split; [|reflexivity]. cbn. repeat split; discriminate.
  - assert (K : dkeys (m_topo (wmap w)) = ["x"; "y"]) by reflexivity.
    intros c n H. assert (Hc : In c (dkeys (m_topo (wmap w)))) by (apply dget_Some_In; eauto). rewrite K in Hc. split; [exact Hc|].
    destruct Hc as [<-|[<-|[]]]; cbn in H; injection H as <-; repeat split.
  - intros c [<-|[<-|[]]]; cbn; lra.
  - intros c [<-|[<-|[]]]; reflexivity.
  - intros c v H. change ["x"; "y"] with (dkeys (m_exec (wmap w))). unfold initial, history in H. apply dget_Some_In.
    destruct (dget (m_exec (wmap w)) c); [eauto|discriminate].
Qed.
Example C115_nonvacuous : exists s' t', run_inference true (wmap (/ 2)) = (s', Ok tt) /\ run_inference true (wmap (3 / 4)) = (t', Ok tt) /\
  forall c h h' k a b, In c ["x"; "y"] -> history s' c = Some h -> history t' c = Some h' -> nth_error h k = Some a -> nth_error h' k = Some b ->
    a <= b <= a + / 10.
Proof.
  pose proof (wmap_facts (/ 2)) as F. pose proof (wmap_facts (3 / 4)) as F'. revert F F'. generalize (wmap (/ 2)) (wmap (3 / 4)). intros s t F F'.
  assert (Run : forall w m, wfacts w m -> exists m', run_inference true m = (m', Ok tt)).
  { intros w m G. apply run_succeeds; [apply G|apply G| | | |].
    - intros c Hc. rewrite (wf_concepts _ _ G) in Hc. rewrite (wf_initial _ _ G c Hc). discriminate.
    - intros c n x Hn. destruct (wf_nodes _ _ G c n Hn) as (_ & Hf & Ha & _). apply (callable_answers n _ _ Hf Ha). right. left. split; cbn; auto.
    - rewrite (wf_decision _ _ G). discriminate.
    - rewrite (wf_decision _ _ G). congruence. }
  destruct (Run _ s F) as [s' E]. destruct (Run _ t F') as [t' E']. exists s', t'. split; auto. split; auto. intros c h h' k a b Hc Hh Hh' Ha Hb.
  assert (Rs : runs s) by (split; [apply F|left; apply F]). assert (Rt : runs t) by (split; [apply F'|left; apply F']).
  assert (RW : reweighted (fun w w' => 0 <= w <= w') s t).
  { split; [|split].
    - intros d n Hn. destruct (wf_nodes _ _ F d n Hn) as (Hd & N1 & N2 & N3 & N4 & N5). split; [rewrite N1; discriminate|].
      assert (Hd' : In d (dkeys (m_topo t))) by (change (dkeys (m_topo t)) with (concepts t); rewrite (wf_concepts _ _ F'); exact Hd).
      apply dget_Some_In in Hd' as [n' Hn']. exists n'. split; auto. destruct (wf_nodes _ _ F' d n' Hn') as (_ & M1 & M2 & M3 & M4 & M5). repeat split; congruence.
    - intros d Hd. destruct (dget (m_topo t) d) as [n'|] eqn:En; auto. exfalso. assert (Hk : In d (dkeys (m_topo s))).
      { change (dkeys (m_topo s)) with (concepts s). rewrite (wf_concepts _ _ F). apply (wf_nodes _ _ F' d n' En). }
      apply dget_Some_In in Hk as [n Hk]. congruence.
    - rewrite (wf_relations _ _ F), (wf_relations _ _ F'). repeat constructor; cbn; lra. }
  assert (Kp : kept s s' k) by (right; left; apply F). assert (Kp' : kept t t' k) by (right; left; apply F'). rewrite <- (wf_concepts _ _ F) in Hc.
  assert (Ini : forall d a b, initial s d = Some a -> initial t d = Some b -> In d ["x"; "y"] -> a = 0 /\ b = 0).
  { intros d a0 b0 H1 H2 Hd. rewrite (wf_initial _ _ F d Hd) in H1. rewrite (wf_initial _ _ F' d Hd) in H2. split; congruence. }
  split.
  - apply (C115_larger_weights s t s' t' Rs Rt RW) with (c := c) (h := h) (h' := h') (k := k); auto.
    + intros d n Hn. destruct (wf_nodes _ _ F d n Hn) as (_ & N1 & N2 & _ & N4 & _). split.
      * apply (increasing_monotone n _ _ N1 N2). right. left. split; auto. cbn. lra.
      * apply (C115_gentle_functions n _ _ N1 N2); [right; right; right; now left|congruence].
    + intros d a0 b0 H1 H2. destruct (Ini d a0 b0 H1 H2 (wf_known _ _ F d a0 H1)) as [-> ->]. lra.
  - assert (B : Rabs (a - b) <= (3 / 8) ^ k * 0 + / 16 * geometric (3 / 8) k).
    { apply (C115_changed_weights _ s t s' t' (3 / 8) 1 (/ 16) 0 Rs Rt RW) with (c := c) (h := h) (h' := h'); auto; try lra.
      - intros d n Hn. destruct (wf_nodes _ _ F d n Hn) as (Hd & N1 & N2 & N3 & N4 & _). split; [apply (C115_emitting_functions n _ _ N1 N2); left; right; right; right; now left|].
        exists (Rabs (parameter [] "lambda_val" 1) / 4). split; [apply (steep_lipschitz n _ _ _ N1 N2); right; left; auto|]. cbn [parameter dget]. rewrite Rabs_R1.
        unfold gain. rewrite N3, (wf_arriving _ _ F d Hd), (wf_relations _ _ F), (wf_relations _ _ F'). unfold slope. rewrite N4.
        rewrite (Rabs_pos_eq (/ 2)) by lra. cbn [drift]. replace (3 / 4 - / 2) with (/ 4) by lra. replace (/ 2 - / 2) with 0 by lra. rewrite Rabs_R0, (Rabs_pos_eq (/ 4)) by lra.
        destruct Hd as [<-|[<-|[]]]; cbn; lra.
      - intros d a0 b0 n H1 H2 Hn. destruct (Ini d a0 b0 H1 H2 (wf_known _ _ F d a0 H1)) as [-> ->]. destruct (wf_nodes _ _ F d n Hn) as (_ & _ & _ & _ & N4 & _).
        unfold signal. rewrite N4. replace (0 - 0) with 0 by lra. rewrite Rabs_R0. lra. }
    destruct (C115_geometric (3 / 8) k ltac:(lra) ltac:(lra)) as [_ G]. rewrite Rabs_minus_sym in B. pose proof (Rle_abs (b - a)). lra.
Qed.

Definition bops (p : R) : list (op R) :=
  [OpAddConcept "x" None None (Some false) None None (Some "biestate") []; OpAddConcept "y" None None (Some false) None None (Some "biestate") [];
   OpAddRelation "x" "y" (p * -3); OpAddRelation "y" "x" (p * 2); OpInitConcept "x" 1 true; OpInitConcept "y" 1 true].
Definition bmap (p : R) : fcm R := run_ops (bops p) real_start.
Record bfacts (p : R) (m : fcm R) : Prop := {
  bf_sane : sane m;
  bf_debug : m_debug m = true;
  bf_decision : m_decision m = "LAST";
  bf_concepts : concepts m = ["x"; "y"];
  bf_relations : relations m = [("x", "y", p * -3); ("y", "x", p * 2)];
  bf_nodes : forall c n, dget (m_topo m) c = Some n -> In c ["x"; "y"] /\ nd_func n = Some "biestate" /\ nd_args n = Some [] /\ nd_mem n = Some false /\ nd_exec n = Some "KOSKO" /\ nd_active n = Some true;
  bf_initial : forall c, In c ["x"; "y"] -> initial m c = Some 1
}.
Lemma bmap_facts p : bfacts p (bmap p).
Proof.
  assert (I : init_fcm 100 3 true (/ 100) "LAST" true "sigmoid" [] = Ok real_start) by reflexivity.
  constructor; [|reflexivity|reflexivity|reflexivity|reflexivity| |].
  - do 8 eexists. exists real_start, (bops p). split; [exact I|]. split; [|reflexivity]. cbn. repeat split; discriminate.
  - assert (T : forall c, In c ["x"; "y"] -> option_map (fun n => (nd_func n, nd_args n, nd_mem n, nd_exec n, nd_active n)) (dget (m_topo (bmap p)) c)
      = Some (Some "biestate", Some [], Some false, Some "KOSKO", Some true)) by (intros c [<-|[<-|[]]]; reflexivity).
    assert (K : dkeys (m_topo (bmap p)) = ["x"; "y"]) by reflexivity.
    revert T K. generalize (m_topo (bmap p)). intros topo T K c n H. assert (Hc : In c ["x"; "y"]) by (rewrite <- K; apply dget_Some_In; eauto). split; [exact Hc|].
    specialize (T c Hc). rewrite H in T. cbn [option_map] in T. injection T. intros. auto.
  - intros c [<-|[<-|[]]]; reflexivity.
Qed.
Example C115_nonvacuous_multiplied : exists s' t', run_inference true (bmap 1) = (s', Ok tt) /\ run_inference true (bmap 5) = (t', Ok tt) /\
  forall c h h' k a b, In c ["x"; "y"] -> history s' c = Some h -> history t' c = Some h' -> nth_error h k = Some a -> nth_error h' k = Some b -> a = b.
Proof.
  pose proof (bmap_facts 1) as F. pose proof (bmap_facts 5) as F'. revert F F'. generalize (bmap 1) (bmap 5). intros s t F F'.
  assert (Run : forall w m, bfacts w m -> exists m', run_inference true m = (m', Ok tt)).
  { intros w m G. apply run_succeeds; [apply G|apply G| | | |].
    - intros c Hc. rewrite (bf_concepts _ _ G) in Hc. rewrite (bf_initial _ _ G c Hc). discriminate.
    - intros c n x Hn. destruct (bf_nodes _ _ G c n Hn) as (_ & Hf & Ha & _). apply (callable_answers n _ _ Hf Ha). left. split; cbn; auto.
    - rewrite (bf_decision _ _ G). discriminate.
    - rewrite (bf_decision _ _ G). congruence. }
  destruct (Run _ s F) as [s' E]. destruct (Run _ t F') as [t' E']. exists s', t'. split; auto. split; auto. intros c h h' k a b Hc Hh Hh' Ha Hb.
  rewrite <- (bf_concepts _ _ F) in Hc.
  apply (C115_multiplied_weights 5 s t s' t') with (c := c) (h := h) (h' := h') (k := k); auto; try lra.
  - split; [apply F|left; apply F].
  - split; [apply F'|left; apply F'].
  - split; [|split].
    + intros d n Hn. destruct (bf_nodes _ _ F d n Hn) as (Hd & N1 & N2 & N3 & N4 & N5). split; [rewrite N1; discriminate|].
      assert (Hd' : In d (dkeys (m_topo t))) by (change (dkeys (m_topo t)) with (concepts t); rewrite (bf_concepts _ _ F'); exact Hd).
      apply dget_Some_In in Hd' as [n' Hn']. exists n'. split; auto. destruct (bf_nodes _ _ F' d n' Hn') as (_ & M1 & M2 & M3 & M4 & M5). repeat split; congruence.
    + intros d Hd. destruct (dget (m_topo t) d) as [n'|] eqn:En; auto. exfalso. assert (Hk : In d (dkeys (m_topo s))).
      { change (dkeys (m_topo s)) with (concepts s). rewrite (bf_concepts _ _ F). apply (bf_nodes _ _ F' d n' En). }
      apply dget_Some_In in Hk as [n Hk]. congruence.
    + rewrite (bf_relations _ _ F), (bf_relations _ _ F'). repeat constructor; cbn; lra.
  - intros d n Hn. destruct (bf_nodes _ _ F d n Hn) as (_ & N1 & _ & N3 & _). split; auto. rewrite N3. discriminate.
  - intros d Hd. rewrite (bf_concepts _ _ F) in Hd. now rewrite (bf_initial _ _ F d Hd), (bf_initial _ _ F' d Hd).
  - right. left. apply F.
  - right. left. apply F'.
Qed.
