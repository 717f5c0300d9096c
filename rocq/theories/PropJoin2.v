(** PropJoin2.v — the behaviour of the concepts of a joined map (C112). *)
From Coq Require Import QArith.
From Verif Require Import Base BaseFacts Num Functions QNum Fcm FcmSpec FcmInv FcmRun Loader LoaderSpec LoaderFacts JoinFacts JoinFacts4.
Local Close Scope Q_scope.

(** ** The function of a joined concept *)
(** The concept is the one of the first map having it. A function other than the default one of that map is kept with its
    arguments; the default one is replaced by the default one of the first joined map. *)
Theorem C112_function :
  forall {F} {N : Num F} (m : fcm F) maps cst vst rst iz s, (forall x, In x (m :: maps) -> reachable x) ->
  join_maps (m :: maps) cst vst rst iz = Ok s ->
  forall c n', dget (m_topo s) c = Some n' ->
  exists pre x post n f, m :: maps = pre ++ x :: post /\ (forall y, In y pre -> ~ In c (dkeys (m_topo y))) /\
    dget (m_topo x) c = Some n /\ nd_func n = Some f /\
    (f = m_func x -> nd_func n' = Some (m_func m) /\ nd_args n' = Some (m_gargs m)) /\
    (f <> m_func x -> nd_func n' = Some f /\ nd_args n' = nd_args n) /\
    (nd_type n' = Some TYPE_DECISION <-> nd_type n = Some TYPE_DECISION).
Proof.
  intros F N m maps cst vst rst iz s Hr E c n' Hn.
  destruct (join_origin m maps cst vst rst iz s Hr E c n' Hn) as (x & n & v & (pre & post & A & _ & B) & Hx & [_ _ T _ _ _ G]).
  destruct G as (f & f' & a' & G1 & G2 & _ & G3 & _ & G4). cbn [nd_func nd_args nd_type nd_set_value dc_func dc_args] in *.
  exists pre, x, post, n, f. split; [exact A|]. split; [exact B|]. split; [exact Hx|]. split; [exact G1|]. split; [|split].
  - intros ->. destruct G4 as [(_ & -> & ->)|(X & _)]; [auto|now destruct X].
  - intros X. destruct G4 as [(Y & _)|(_ & -> & Y)]; [contradiction|]. now rewrite Y.
  - destruct T as (t & T1 & T2). rewrite T1, T2. destruct (String.eqb_spec t TYPE_DECISION) as [->|X]; [tauto|]. split; intros Y; [discriminate|congruence].
Qed.
Print Assumptions C112_function.
(** So the maps with one default function keep the function of every concept. *)
Theorem C112_function_kept :
  forall {F} {N : Num F} (m : fcm F) maps cst vst rst iz s, (forall x, In x (m :: maps) -> reachable x) ->
  (forall x, In x maps -> m_func x = m_func m) ->
  join_maps (m :: maps) cst vst rst iz = Ok s ->
  forall c n', dget (m_topo s) c = Some n' ->
  exists pre x post n, m :: maps = pre ++ x :: post /\ (forall y, In y pre -> ~ In c (dkeys (m_topo y))) /\
    dget (m_topo x) c = Some n /\ nd_func n' = nd_func n.
Proof.
  intros F N m maps cst vst rst iz s Hr Hf E c n' Hn.
  destruct (C112_function m maps cst vst rst iz s Hr E c n' Hn) as (pre & x & post & n & f & A & B & C & D & G1 & G2 & _).
  exists pre, x, post, n. split; [exact A|]. split; [exact B|]. split; [exact C|]. rewrite D.
  assert (X : m_func x = m_func m).
  { assert (I : In x (m :: maps)) by (rewrite A; apply in_elt). destruct I as [<-|I]; auto. }
  destruct (String.eqb_spec f (m_func x)) as [Y|Y]; [|now apply G2].
  rewrite (proj1 (G1 Y)). congruence.
Qed.
Print Assumptions C112_function_kept.

(** ** Refuted *)
Definition func_of (s : fcm Q) c : option string := match dget (m_topo s) c with Some n => nd_func n | None => None end.
Definition plain (f : string) (ops : list (op Q)) : fcm Q := run_ops ops (qmap 10 5 true "LAST" f).
(** Joined with a map having another default function, a concept loses the function it had. *)
Theorem C112_function_kept_refuted :
  let m1 := plain "saturation" [add_simple "a"] in let m2 := plain "biestate" [add_simple "b"; OpInitConcept "b" (1 # 2)%Q true] in
  func_of m1 "a" = Some "saturation" /\ func_of m2 "b" = Some "biestate" /\
  exists s s', join_maps [m1; m2] "union" "average" "average" false = Ok s /\ func_of s "b" = Some "saturation" /\
    join_maps [m2; m1] "union" "average" "average" false = Ok s' /\ func_of s' "b" = Some "biestate" /\ func_of s' "a" = Some "biestate".
Proof. vm_compute. repeat split. do 2 eexists. repeat split. Qed.
Print Assumptions C112_function_kept_refuted.
(** The documentation says that all nodes and the joined map get the default behaviour; the first map's settings and the concepts' own
    functions are kept. The default behaviour is that of [FuzzyCognitiveMap()] (fcm.py 12-13). *)
Theorem C112_default_behaviour_refuted :
  let m1 := plain "saturation" [OpAddConcept "a" None None None None None (Some "biestate") []] in
  exists s fresh, join_maps [m1; m1] "union" "average" "average" false = Ok s /\
    init_fcm 200 5 true (1 # 1000)%Q "MEAN" true "sigmoid_hip" [] = Ok fresh /\
    m_maxit fresh = 200%Z /\ m_decision fresh = "MEAN" /\ m_func fresh = "sigmoid_hip" /\
    m_maxit s = 10%Z /\ m_decision s = "LAST" /\ m_func s = "saturation" /\ func_of s "a" = Some "biestate".
Proof. vm_compute. do 2 eexists. repeat split. Qed.
Print Assumptions C112_default_behaviour_refuted.

Example C112_nonvacuous :
  let m1 := plain "saturation" [add_simple "a"] in let m2 := plain "saturation" [add_simple "a"; OpAddConcept "b" None None None None None (Some "biestate") []; OpSetDecision "b"] in
  (forall x, In x [m1; m2] -> reachable x) /\ (forall x, In x [m2] -> m_func x = m_func m1) /\
  exists s, join_maps [m1; m2] "union" "highest" "average" false = Ok s /\ func_of s "a" = Some "saturation" /\ func_of s "b" = Some "biestate".
Proof.
  cbv zeta. split.
  - intros x [<-|[<-|[]]]; unfold plain; (exists 10%Z, 5%Z, true, (1 # 1024)%Q, "LAST", true, "saturation", []; do 2 eexists; split; reflexivity).
  - split; [intros x [<-|[]]; vm_compute; reflexivity|]. vm_compute. eexists. repeat split.
Qed.
