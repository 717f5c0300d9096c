(** PropJoin.v — joining copies of one map, and joining step by step (C111). *)
From Coq Require Import Reals Lra QArith.
From Verif Require Import Base BaseFacts Num Functions Spec SortFacts RealFacts QNum Fcm FcmSpec FcmInv FcmRun Loader LoaderSpec LoaderFacts JoinFacts JoinFacts2 JoinFacts3 EstExamples.
From Verif Require PropLoader PropDynamics.
Local Close Scope Q_scope.
Local Close Scope R_scope.

(** ** Copies *)
(** Joining any number of copies of a map is saving and loading it, also when that fails. *)
Theorem C111_copies :
  forall (t : fcm R) k cst vst rst, In cst ["union"; "intersection"] -> In vst ["highest"; "lowest"; "average"] -> In rst ["highest"; "lowest"; "average"] ->
  reachable t -> separator_free [t] -> NoDup (map fst (relations t)) ->
  join_maps (repeat t (S k)) cst vst rst false = (j <- to_json t ;; from_json j)%res.
Proof.
  assert (A : forall k (v : R), combine_values "average" (repeat v (S k)) = Ok v).
  { intros k v. unfold combine_values. cbn [String.eqb Ascii.eqb Bool.eqb]. f_equal. rewrite repeat_length. unfold nat2F. cbn [nofZ RNum ndiv]. rewrite <- INR_IZR_INZ.
    assert (Sm : forall n (x : R), fold_left Rplus (repeat v n) x = (x + INR n * v)%R).
    { induction n as [|n IH]; intros x; [cbn; lra|]. cbn [repeat fold_left]. rewrite IH, S_INR. lra. }
    unfold nsum. change (fold_left nadd (repeat v (S k)) n0) with (fold_left Rplus (repeat v (S k)) 0%R). rewrite Sm. field. apply not_0_INR. discriminate. }
  intros t k cst vst rst H1 H2 H3 Hr SF NR. apply join_copies; auto; try now apply str_mem_In.
  - intros v. destruct H2 as [<-|[<-|[<-|[]]]]; [apply highest_copies|apply lowest_copies|apply A].
  - intros v. destruct H3 as [<-|[<-|[<-|[]]]]; [apply highest_copies|apply lowest_copies|apply A].
Qed.
Print Assumptions C111_copies.
(** with the largest or smallest values this needs no law of arithmetic *)
Theorem C111_copies_extreme :
  forall {F} {N : Num F} (t : fcm F) k cst vst rst, In cst ["union"; "intersection"] -> In vst ["highest"; "lowest"] -> In rst ["highest"; "lowest"] ->
  reachable t -> separator_free [t] -> NoDup (map fst (relations t)) ->
  join_maps (repeat t (S k)) cst vst rst false = (j <- to_json t ;; from_json j)%res.
Proof.
  intros F N t k cst vst rst H1 H2 H3 Hr SF NR. apply join_copies; auto.
  - now apply str_mem_In.
  - destruct H2 as [<-|[<-|[]]]; reflexivity.
  - destruct H3 as [<-|[<-|[]]]; reflexivity.
  - intros v. destruct H2 as [<-|[<-|[]]]; [apply highest_copies|apply lowest_copies].
  - intros v. destruct H3 as [<-|[<-|[]]]; [apply highest_copies|apply lowest_copies].
Qed.
Print Assumptions C111_copies_extreme.
(** So a map that can be saved and loaded is not changed by being joined with itself. *)
Theorem C111_same_map :
  forall (t : fcm R) k cst vst rst, In cst ["union"; "intersection"] -> In vst ["highest"; "lowest"; "average"] -> In rst ["highest"; "lowest"; "average"] ->
  sane t -> portable t -> separator_free [t] -> NoDup (map fst (relations t)) ->
  exists s, join_maps (repeat t (S k)) cst vst rst false = Ok s /\
    concepts s = concepts t /\ relations s = relations t /\ saved_settings s = saved_settings t /\
    forall c n, dget (m_topo t) c = Some n -> exists n', dget (m_topo s) c = Some n' /\ same_concept n n'.
Proof.
  intros t k cst vst rst H1 H2 H3 Hs Hp SF NR. destruct (round_trip t Hs Hp) as (j & s & J1 & J2 & _ & J).
  exists s. split; [|exact J]. rewrite C111_copies; auto; [now rewrite J1|]. eapply from_fresh_reachable. exact Hs.
Qed.
Print Assumptions C111_same_map.
(** Two relations between the same concepts are made one: joining a map with itself changes it. *)
Definition doubled : fcm Q := run_ops [add_simple "a"; add_simple "b"; OpAddRelation "a" "b" (1 # 2)%Q; OpAddRelation "a" "b" (1 # 4)%Q] PropLoader.base_map.
Theorem C111_two_relations_refuted :
  relations doubled = [("a", "b", (1 # 2)%Q); ("a", "b", (1 # 4)%Q)] /\
  match join_maps [doubled; doubled] "union" "highest" "highest" false with Ok s => relations s = [("a", "b", (1 # 2)%Q)] | Err _ => False end.
Proof. vm_compute. split; reflexivity. Qed.
Print Assumptions C111_two_relations_refuted.

(** ** Step by step *)
(** Joining some maps first and the result with the others is joining all, for the largest and the
    smallest values and weights. *)
Theorem C111_steps :
  forall {F} {N : Num F} (m : fcm F) ms ms' cst vst rst s1 s2 s, In vst ["highest"; "lowest"] -> In rst ["highest"; "lowest"] ->
  (forall x, In x (m :: ms ++ ms') -> reachable x) -> separator_free (m :: ms ++ ms') ->
  join_maps (m :: ms) cst vst rst false = Ok s1 -> join_maps (s1 :: ms') cst vst rst false = Ok s2 -> join_maps (m :: ms ++ ms') cst vst rst false = Ok s ->
  (forall c, value s2 c = value s c) /\ (forall a b w, In (a, b, w) (relations s2) <-> In (a, b, w) (relations s)) /\ saved_settings s2 = saved_settings s.
Proof.
  intros F N m ms ms' cst vst rst s1 s2 s Hv Hw Hr SF E1 E2 E. split; [|split].
  - eapply step_values; eauto.
  - eapply step_weights; eauto.
  - eapply step_settings; eauto.
Qed.
Print Assumptions C111_steps.
(** Means of means are not means; and a concept whose value is 0 for now is lost with ignore_zeros. *)
Definition one_map (v : Q) : fcm Q := run_ops [add_simple "a"; OpInitConcept "a" v true] PropLoader.base_map.
Definition in_steps (maps maps' : list (fcm Q)) (vst : string) (iz : bool) : res (option Q) :=
  (s1 <- join_maps maps "union" vst "highest" iz ;; s <- join_maps (s1 :: maps') "union" vst "highest" iz ;; Ok (value s "a"))%res.
Definition at_once (maps maps' : list (fcm Q)) (vst : string) (iz : bool) : res (option Q) :=
  (s <- join_maps (maps ++ maps') "union" vst "highest" iz ;; Ok (value s "a"))%res.
Theorem C111_steps_refuted :
  in_steps [one_map 0; one_map 0]%Q [one_map 1]%Q "average" false = Ok (Some (1 # 2)%Q) /\
  at_once [one_map 0; one_map 0]%Q [one_map 1]%Q "average" false = Ok (Some (1 # 3)%Q) /\
  in_steps [one_map 0; one_map 0]%Q [one_map (-1 # 2)]%Q "highest" true = Ok (Some (-1 # 2)%Q) /\
  at_once [one_map 0; one_map 0]%Q [one_map (-1 # 2)]%Q "highest" true = Ok None.
Proof. repeat split; vm_compute; reflexivity. Qed.
Print Assumptions C111_steps_refuted.

(** ** Non-vacuity *)
Example C111_steps_nonvacuous :
  exists s1 s2 s, join_maps [one_map 0; one_map 1]%Q "union" "highest" "lowest" false = Ok s1 /\ join_maps [s1; PropLoader.two_map "a" "b" 2 0 (1 # 2)]%Q "union" "highest" "lowest" false = Ok s2 /\
    join_maps [one_map 0; one_map 1; PropLoader.two_map "a" "b" 2 0 (1 # 2)]%Q "union" "highest" "lowest" false = Ok s /\
    value s "a" = Some 2%Q /\ value s2 "a" = Some 2%Q /\ relations s2 = [("a", "b", (1 # 2)%Q)].
Proof. do 3 eexists. split; [vm_compute; reflexivity|]. split; [vm_compute; reflexivity|]. vm_compute. repeat split. Qed.
Lemma real_settings : m_mem PropDynamics.real_map = true /\ m_gargs PropDynamics.real_map = [] /\ m_func PropDynamics.real_map = "sigmoid" /\ concepts PropDynamics.real_map = ["x"; "y"].
Proof. repeat split. Qed.
Lemma real_types c n : dget (m_topo PropDynamics.real_map) c = Some n -> nd_type n = Some TYPE_SIMPLE.
Proof.
  intros H. destruct (PropDynamics.real_nodes c n H) as [Hc _]. destruct Hc as [<-|[<-|[]]]; cbn in H; injection H as <-; reflexivity.
Qed.
Lemma real_portable : portable PropDynamics.real_map.
Proof.
  destruct real_settings as (S1 & S2 & S3 & _). split; [rewrite S2; intros k v []|]. intros c n H.
  destruct (PropDynamics.real_nodes c n H) as (_ & A & B & C & D & G). pose proof (real_types c n H) as T. constructor; auto; try congruence.
  exists "sigmoid", []. split; [exact A|]. split; [exact B|]. split; [discriminate|]. left. now rewrite S2, S3.
Qed.
Lemma real_separator_free : separator_free [PropDynamics.real_map].
Proof.
  destruct real_settings as (_ & _ & _ & S4). intros m c [<-|[]] H. rewrite S4 in H. destruct H as [<-|[<-|[]]]; split; intros O; apply occurs_b in O; discriminate.
Qed.
Example C111_copies_nonvacuous : exists t : fcm R,
  sane t /\ portable t /\ separator_free [t] /\ NoDup (map fst (relations t)) /\ relations t <> [] /\
  exists s, join_maps [t; t; t] "union" "average" "average" false = Ok s /\ relations s = relations t.
Proof.
  exists PropDynamics.real_map. pose proof (proj1 PropDynamics.real_sane) as Hs. pose proof real_portable as Hp. pose proof real_separator_free as SF. pose proof PropDynamics.real_relations as Er.
  revert Hs Hp SF Er. generalize PropDynamics.real_map. intros t Hs Hp SF Er.
  assert (NR : NoDup (map fst (relations t))) by (rewrite Er; cbn; repeat constructor; cbn; intuition discriminate).
  repeat (split; [assumption|]). split; [rewrite Er; discriminate|].
  destruct (C111_same_map t 2 "union" "average" "average") as (s & E & _ & R & _); [cbn; tauto|cbn; tauto|cbn; tauto|assumption..|].
  exists s. split; [exact E|exact R].
Qed.
