(** PropTwin.v — fuzzy c-means on clusters that start alike (C117). *)
From Coq Require Import Reals Lra QArith.
From Verif Require Import Base BaseFacts Num Spec RealFacts QNum Functions LearnUtils LearnSpec LearnFacts
  Cmeans CmeansFacts Discret DiscretFacts2 SilFacts CfeSpec CfeFacts TwinFacts.
Local Close Scope Q_scope.
Local Open Scope R_scope.

(** Two clusters with the same initial memberships end with the same centre, memberships and distances. *)
Theorem C117_twins : forall (F : Type) (N : Num F) (data : list F) c m err maxiter init rand cntr u u0 d jm p fpc i k,
  cmeans data c m err maxiter init rand = Ok (cntr, u, u0, d, jm, p, fpc) -> (i < c)%nat -> (k < c)%nat ->
  nth_error (match init with Some v => v | None => rand end) i = nth_error (match init with Some v => v | None => rand end) k ->
  nth_error cntr i = nth_error cntr k /\ nth_error u i = nth_error u k /\ nth_error d i = nth_error d k.
Proof. intros F N data c m err maxiter init rand cntr u u0 d jm p fpc i k E Hi Hk H. exact (twin_cmeans data c m err maxiter init rand cntr u u0 d jm p fpc i k E Hi Hk H). Qed.
Print Assumptions C117_twins.

(** If all clusters start alike, all centres are the mean of the data and every point belongs to every cluster equally. *)
Theorem C117_all_alike : forall (data : list R) c m err maxiter init rand row, (0 < c)%nat -> data <> [] -> m <> 1 -> (2 <= maxiter)%Z ->
  match init with Some v => v | None => rand end = repeat row c -> length row = length data -> (init = None -> forall x, In x row -> 0 < x) ->
  exists cntr u u0 d jm p fpc, cmeans data c m err maxiter init rand = Ok (cntr, u, u0, d, jm, p, fpc) /\ length cntr = c /\ shape c (length data) u /\
    (forall z, In z cntr -> z = Rsum data / INR (length data)) /\ (forall i j x, entry u i j = Some x -> x = 1 / INR c).
Proof.
  intros data c m err maxiter init rand row Hc Hd Hm Hi E L _.
  destruct (even_cmeans data c m err maxiter init rand Hc Hd Hm Hi) as (u0 & d & jm & p & fpc & ->).
  - rewrite E. split; [apply repeat_length|]. apply Forall_forall. intros r Hr. apply repeat_spec in Hr. now subst.
  - rewrite E. apply even_alike.
  - do 7 eexists. split; [reflexivity|]. split; [apply repeat_length|]. split; [apply even_shape|]. split.
    + intros z Hz. now apply repeat_spec in Hz.
    + intros i j x Hx. unfold entry in Hx. destruct (nth_error _ i) as [r|] eqn:Er in Hx; [|discriminate Hx]. apply nth_error_In, repeat_spec in Er. subst r.
      apply nth_error_In, repeat_spec in Hx. subst x. unfold Rdiv. now rewrite Rmult_1_l.
Qed.
Print Assumptions C117_all_alike.

(** Then the combined fuzzy entropy of every number of clusters is 0 and none is selected. *)
Theorem C117_no_clusters : forall (data : list R) mc maxiter rand, (2 <= maxiter)%Z -> data <> [] ->
  (forall c, (2 <= c <= mc)%nat -> exists row, rand c = repeat row c /\ length row = length data /\ forall x, In x row -> 0 < x) ->
  (forall c, (2 <= c <= mc)%nat -> exists d, cfe_score data maxiter rand c = Ok (d, 0)) /\ exists d, cfe data mc maxiter rand = Ok (0%nat, d, 0).
Proof.
  intros data mc maxiter rand Hm Hd H.
  assert (Sc : forall c, (2 <= c <= mc)%nat -> exists d, cfe_score data maxiter rand c = Ok (d, 0)).
  { intros c Hc. destruct (H c Hc) as (row & E & L & _). apply even_score; auto; try lia; rewrite E; [|apply even_alike].
    split; [apply repeat_length|]. apply Forall_forall. intros r Hr. apply repeat_spec in Hr. now subst. }
  split; [exact Sc|].
  destruct (best_of_ok (fun c d => True) (cfe_score data maxiter rand) mc) as (k & d & b & E & _).
  { intros c Hc. destruct (Sc c Hc) as (d & E). eauto. }
  exists d. unfold cfe. rewrite E. destruct (best_of_choice _ mc k d b E) as [[[-> ->]|(Hk & Es & Pb)] _]; [reflexivity|]. destruct (Sc k Hk) as (d' & E'). rewrite E' in Es. injection Es as _ <-. lra.
Qed.
Print Assumptions C117_no_clusters.

(** ** Non-vacuity: two of three clusters alike, all clusters alike *)
Example C117_nonvacuous : let rand := [[1 # 2; 1 # 4]; [1 # 2; 1 # 4]; [1 # 8; 1 # 2]]%Q in
  exists cntr u u0 d jm p fpc, cmeans [0; 4]%Q 3 (nofZ 2) (nlit 1 10) 3 None rand = Ok (cntr, u, u0, d, jm, p, fpc) /\ nth_error rand 0 = nth_error rand 1 /\ nth_error rand 0 <> nth_error rand 2 /\ nth_error cntr 0 = nth_error cntr 1.
Proof. cbv zeta. do 7 eexists. split; [vm_compute; reflexivity|]. split; [reflexivity|]. split; [discriminate|reflexivity]. Qed.
Example C117_nonvacuous_alike : let rand := fun c => repeat [1 / 2; 1 / 3; 1 / 4] c in
  (exists d, cfe [0; 1; 5] 3 1000 rand = Ok (0%nat, d, 0)) /\
  exists cntr u u0 d jm p fpc, cmeans [0; 1; 5] 2 2 (/ 100) 10 None (rand 2%nat) = Ok (cntr, u, u0, d, jm, p, fpc) /\ forall z, In z cntr -> z = 2.
Proof.
  cbv zeta. assert (P : forall x, In x [1 / 2; 1 / 3; 1 / 4] -> 0 < x) by (intros x [<-|[<-|[<-|[]]]]; lra). split.
  - apply (C117_no_clusters [0; 1; 5] 3 1000 (fun c => repeat [1 / 2; 1 / 3; 1 / 4] c)); [lia|discriminate|]. intros c _. eauto.
  - destruct (C117_all_alike [0; 1; 5] 2 2 (/ 100) 10 None (repeat [1 / 2; 1 / 3; 1 / 4] 2) [1 / 2; 1 / 3; 1 / 4]) as (cn & u & u0 & d & jm & p & fpc & E & _ & _ & Hz & _); auto; try lia; try discriminate; try lra.
    exists cn, u, u0, d, jm, p, fpc. split; [exact E|]. intros z Iz. rewrite (Hz z Iz). cbn. lra.
Qed.
