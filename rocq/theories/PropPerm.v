(** PropPerm.v — fuzzy c-means does not depend on how the clusters are numbered (C118). *)
From Coq Require Import Reals Lra Permutation.
From Verif Require Import Base BaseFacts Num Spec RealFacts Functions LearnUtils LearnSpec LearnFacts
  Cmeans CmeansFacts Discret DiscretFacts2 SilFacts CfeSpec CfeFacts PropCfe PermFacts.
Local Open Scope R_scope.

(** Reordering the rows of the initial memberships only reorders the clusters found: their centres, memberships
    and distances move together. The objective values, the number of steps and the partition coefficient stay. *)
Theorem C118_numbering : forall (data : list R) c m err maxiter init init' rand rand',
  (0 < c)%nat -> data <> [] -> m <> 1 -> (2 <= maxiter)%Z -> (init = None <-> init' = None) ->
  let start := match init with Some v => v | None => rand end in
  let start' := match init' with Some v => v | None => rand' end in
  shape c (length data) start -> Permutation start start' ->
  exists cn u u0 d cn' u' u0' d' jm p fpc,
    cmeans data c m err maxiter init rand = Ok (cn, u, u0, d, jm, p, fpc) /\
    cmeans data c m err maxiter init' rand' = Ok (cn', u', u0', d', jm, p, fpc) /\
    length cn = c /\ length u = c /\ length d = c /\ length cn' = c /\ length u' = c /\ length d' = c /\
    Permutation (combine cn (combine u d)) (combine cn' (combine u' d')).
Proof.
  intros data c m err maxiter init init' rand rand' Hc Hd Hm Hi I start start' S P.
  assert (E : exists cn u u0 d jm p fpc, cmeans data c m err maxiter init rand = Ok (cn, u, u0, d, jm, p, fpc)).
  { destruct (cmeans_real data c m err maxiter init rand) as (cn & u & u0 & d & jm & p & fpc & prev & E & _); auto. eauto 10. }
  destruct E as (cn & u & u0 & d & jm & p & fpc & E).
  destruct (cmeans_perm data c m err maxiter init init' rand rand' cn u u0 d jm p fpc Hc Hd Hm Hi S I P E) as (cn' & u' & u0' & d' & E' & Q & L1 & L2 & L3 & L4 & L5 & L6).
  exists cn, u, u0, d, cn', u', u0', d', jm, p, fpc. auto 12.
Qed.
Print Assumptions C118_numbering.

Lemma clusters_rows_centres (cn : list R) (u d : list (list R)) : length cn = length u -> length d = length u ->
  combine u cn = map (fun t => (fst (snd t), fst t)) (combine cn (combine u d)).
Proof. revert u d. induction cn as [|x cn IH]; intros [|r u] [|e d] L M; try reflexivity; try discriminate. cbn. f_equal. apply IH; cbn in L, M; lia. Qed.
Lemma clusters_memberships (cn : list R) (u d : list (list R)) : length cn = length u -> length d = length u ->
  u = map (fun t => fst (snd t)) (combine cn (combine u d)).
Proof. revert u d. induction cn as [|x cn IH]; intros [|r u] [|e d] L M; try reflexivity; try discriminate. cbn. f_equal. apply IH; cbn in L, M; lia. Qed.

(** The combined fuzzy entropy of a number of clusters stays. *)
Theorem C118_score : forall (data : list R) maxiter rand rand' c, (2 <= c)%nat -> data <> [] -> (2 <= maxiter)%Z ->
  shape c (length data) (rand c) -> Permutation (rand c) (rand' c) ->
  exists u u' s, cfe_score data maxiter rand c = Ok (u, s) /\ cfe_score data maxiter rand' c = Ok (u', s) /\ Permutation u u'.
Proof.
  intros data maxiter rand rand' c Hc Hd Hi S P. assert (Hm : @nlit R _ 5 2 <> 1) by (unfold nlit; rnum; lra).
  destruct (C118_numbering data c (nlit 5 2) (nlit 1 10000) maxiter None None (rand c) (rand' c)) as (cn & u & u0 & d & cn' & u' & u0' & d' & jm & p & fpc & E & E' & L1 & L2 & L3 & L4 & L5 & L6 & Q); auto; try lia; try tauto.
  assert (Pu : Permutation u u') by (rewrite (clusters_memberships cn u d), (clusters_memberships cn' u' d') by lia; now apply Permutation_map).
  exists u, u', (combined data (combine u cn)). split; [|split; [|exact Pu]].
  - apply cfe_combined; auto; [|unfold est_cmeans, fuzzy_cmeans; now rewrite E].
    destruct (cmeans_real data c (nlit 5 2) (nlit 1 10000) maxiter None (rand c)) as (a1 & a2 & a3 & a4 & a5 & a6 & a7 & prev & E1 & (_ & _ & X) & _); auto; try lia. rewrite E in E1. injection E1 as <- <- <- <- <- <- <-. exact X.
  - rewrite <- (C116_numbering data (combine u cn) (combine u' cn')) by (rewrite (clusters_rows_centres cn u d), (clusters_rows_centres cn' u' d') by lia; now apply Permutation_map).
    apply cfe_combined; auto; [|unfold est_cmeans, fuzzy_cmeans; now rewrite E'].
    destruct (cmeans_real data c (nlit 5 2) (nlit 1 10000) maxiter None (rand' c)) as (a1 & a2 & a3 & a4 & a5 & a6 & a7 & prev & E1 & (_ & _ & X) & _); auto; try lia; [now apply (perm_shape c _ (rand c))|]. rewrite E' in E1. injection E1 as <- <- <- <- <- <- <-. exact X.
Qed.
Print Assumptions C118_score.

(** So the number of clusters selected stays, and so does its score. *)
Theorem C118_choice : forall (data : list R) mc maxiter rand rand', data <> [] -> (2 <= maxiter)%Z ->
  (forall c, (2 <= c <= mc)%nat -> shape c (length data) (rand c) /\ Permutation (rand c) (rand' c)) ->
  exists k u u' s, cfe data mc maxiter rand = Ok (k, u, s) /\ cfe data mc maxiter rand' = Ok (k, u', s) /\ Permutation u u'.
Proof.
  intros data mc maxiter rand rand' Hd Hi H. unfold cfe, best_of.
  assert (G : forall l k u u' s, (forall c, In c l -> (2 <= c <= mc)%nat) -> Permutation u u' ->
    let step := fun rnd (acc : nat * list (list R) * R) n => (('(desc, v) <- cfe_score data maxiter rnd n ;; let '(_, _, best) := acc in Ok (if nltb best v then (n, desc, v) else acc))%res) in
    exists k1 u1 u1' s1, rfold (step rand) l (k, u, s) = Ok (k1, u1, s1) /\ rfold (step rand') l (k, u', s) = Ok (k1, u1', s1) /\ Permutation u1 u1').
  { induction l as [|c l IH]; intros k u u' s Hl P step; [exists k, u, u', s; auto|]. cbn [rfold]. unfold step at 1 3.
    assert (Hc : (2 <= c <= mc)%nat) by (apply Hl; now left). destruct (H c Hc) as [S Q].
    destruct (C118_score data maxiter rand rand' c) as (v & v' & b & -> & -> & Pv); auto; [lia|]. cbn [rbind].
    destruct (nltb s b); apply IH; auto; intros x Hx; apply Hl; now right. }
  apply (G (seq 2 (mc - 1)) 0%nat [] [] 0); auto. intros c Hc. apply in_seq in Hc. lia.
Qed.
Print Assumptions C118_choice.

(** ** Non-vacuity: two clusters, numbered the other way round *)
Example C118_nonvacuous : let a := [1 / 2; 1 / 3; 1 / 4] in let b := [1 / 8; 2 / 3; 1] in a <> b /\
  (exists cn u u0 d cn' u' u0' d' jm p fpc, cmeans [0; 1; 5] 2 2 (/ 100) 10 None [a; b] = Ok (cn, u, u0, d, jm, p, fpc) /\
    cmeans [0; 1; 5] 2 2 (/ 100) 10 None [b; a] = Ok (cn', u', u0', d', jm, p, fpc) /\ length cn = 2%nat /\ Permutation cn cn') /\
  exists k u u' s, cfe [0; 1; 5] 2 1000 (fun _ => [a; b]) = Ok (k, u, s) /\ cfe [0; 1; 5] 2 1000 (fun _ => [b; a]) = Ok (k, u', s) /\ Permutation u u'.
Proof.
  intros a b. assert (S : shape 2 3 [a; b]) by (split; [reflexivity|repeat constructor]). assert (P : Permutation [a; b] [b; a]) by apply perm_swap.
  split; [unfold a, b; intros X; injection X as X; lra|]. split.
  - destruct (C118_numbering [0; 1; 5] 2 2 (/ 100) 10 None None [a; b] [b; a]) as (cn & u & u0 & d & cn' & u' & u0' & d' & jm & p & fpc & E & E' & L1 & L2 & L3 & L4 & L5 & L6 & Q); auto; try lia; try lra; try discriminate; try tauto.
    exists cn, u, u0, d, cn', u', u0', d', jm, p, fpc. split; auto. split; auto. split; auto.
    assert (X : forall (x : list R) (y z : list (list R)), length x = 2%nat -> length y = 2%nat -> length z = 2%nat -> x = map fst (combine x (combine y z))).
    { intros [|x1 [|x2 [|]]] [|y1 [|y2 [|]]] [|z1 [|z2 [|]]]; cbn; congruence || lia || reflexivity. }
    rewrite (X cn u d), (X cn' u' d') by auto. now apply Permutation_map.
  - apply (C118_choice [0; 1; 5] 2 1000 (fun _ => [a; b]) (fun _ => [b; a])); [discriminate|lia|]. intros c Hc. replace c with 2%nat by lia. auto.
Qed.
