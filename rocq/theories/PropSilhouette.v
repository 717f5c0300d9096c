(** PropSilhouette.v — the fuzzy silhouette of a clustering and the number of clusters it selects (C113). *)
From Coq Require Import Reals Lra Permutation QArith.
From Verif Require Import Base BaseFacts Num Spec RealFacts QNum Functions LearnUtils LearnSpec LearnFacts
  Cmeans CmeansFacts RlCmeans RlFacts Discret DiscretFacts DiscretFacts2 SilFacts.
Local Close Scope Q_scope.
Local Open Scope R_scope.

(** ** The silhouette of a point *)
(** A point is compared with the two clusters it belongs to most. Its weight is the square of the difference of the two
    memberships, its silhouette the relative difference of the two mean distances; it lies strictly between -1 and 1. *)
Theorem C113_point :
  forall (data : list R) desc c i w s,
  (forall x, In x data -> exists y, In y data /\ y <> x) -> fuzzy_partition c (length data) desc -> (i < length data)%nat ->
  sil_point data desc i = Ok (w, s) ->
  (exists p q rp rq up uq x, two_largest (column_of desc i) p q /\ nth_error data i = Some x /\
    nth_error desc p = Some rp /\ nth_error desc q = Some rq /\ nth_error rp i = Some up /\ nth_error rq i = Some uq /\
    w = (up - uq) ^ 2 /\
    s = (mean_gap data x rq - mean_gap data x rp) / Rmax (mean_gap data x rq) (mean_gap data x rp)) /\
  0 <= w /\ -1 < s < 1.
Proof.
  intros data desc c i w s Hd (Hs & Hp & _) Hi E.
  assert (Hn : (1 < length data)%nat).
  { destruct data as [|x [|y r]]; cbn [length] in *; [lia| |lia]. destruct (Hd x (or_introl eq_refl)) as (y & [<-|[]] & Hy). now destruct Hy. }
  destruct (sil_point_spec data desc c i w s Hn Hs Hi E) as (p & q & rp & rq & up & uq & x & A & B & C & D & G & H & Ew & Es).
  split; [exists p, q, rp, rq, up, uq, x; auto 10|]. subst w s. split; [apply pow2_ge_0|].
  assert (P : forall k r, nth_error desc k = Some r -> 0 < mean_gap data x r).
  { intros k r Hk. apply mean_gap_pos; auto.
    - destruct Hs as [_ Hs]. rewrite Forall_forall in Hs. apply Hs. eapply nth_error_In; eauto.
    - intros u Hu. apply In_nth_error in Hu as (j & Hj). apply (Hp k j u). unfold entry. now rewrite Hk.
    - apply Hd. eapply nth_error_In; eauto. }
  apply ratio_bound; eauto.
Qed.
Print Assumptions C113_point.

(** ** The silhouette of a clustering *)
(** It is the weighted mean of the silhouettes of the points. *)
Theorem C113_score :
  forall (data : list R) maxiter rand c, (2 <= c)%nat -> data <> [] -> (forall x, In x data -> exists y, In y data /\ y <> x) ->
  (2 <= maxiter)%Z -> shape c (length data) (rand c) ->
  exists desc v ws, sil_score data maxiter rand c = Ok (desc, v) /\ fuzzy_partition c (length data) desc /\
    length ws = length data /\
    (forall i w s, nth_error ws i = Some (w, s) -> sil_point data desc i = Ok (w, s)) /\
    (0 < Rsum (map fst ws) -> v * Rsum (map fst ws) = Rsum (map (fun p => fst p * snd p) ws) /\ -1 < v < 1).
Proof.
  intros data maxiter rand c Hc Hn Hd Hm Hr.
  unfold sil_score. destruct (est_cmeans_ok data c maxiter None rand ltac:(lia) Hn Hm Hr) as (u & cn & E & P). rewrite E. cbn [rbind].
  destruct (rmap_seq_ok (sil_point data u) (seq 0 (length data))) as (ws & Ew).
  { intros i Hi. apply in_seq in Hi. apply sil_point_ok with (c := c); [auto|apply P|lia]. }
  rewrite Ew. cbn [rbind]. do 2 eexists. exists ws. split; [reflexivity|]. split; [exact P|].
  assert (G : forall l ys, rmap (sil_point data u) l = Ok ys -> length ys = length l /\
    forall i w s, nth_error ys i = Some (w, s) -> exists j, nth_error l i = Some j /\ sil_point data u j = Ok (w, s)).
  { induction l as [|a l IH]; intros ys Ey; cbn [rmap] in Ey.
    - injection Ey as <-. split; [reflexivity|]. intros [|i] w s Hi; discriminate.
    - destruct (sil_point data u a) as [y|] eqn:Ea; [|discriminate]. cbn [rbind] in Ey.
      destruct (rmap (sil_point data u) l) as [ys'|] eqn:El; [|discriminate]. cbn [rbind] in Ey. injection Ey as <-.
      destruct (IH ys' eq_refl) as [L K]. split; [cbn; lia|]. intros [|i] w s Hi; cbn in Hi; [exists a; split; [reflexivity|congruence]|exact (K i w s Hi)]. }
  destruct (G _ _ Ew) as [L K]. rewrite seq_length in L. split; [exact L|].
  assert (K' : forall i w s, nth_error ws i = Some (w, s) -> sil_point data u i = Ok (w, s)).
  { intros i w s Hi. destruct (K i w s Hi) as (j & Hj & Ej). assert (Li : (i < length data)%nat) by (rewrite <- L; apply nth_error_Some; congruence).
    rewrite (nth_error_nth' _ 0%nat), seq_nth in Hj by (rewrite ?seq_length; lia). now injection Hj as <-. }
  split; [exact K'|]. intros Hw.
  assert (Ev : forall g, nsum (map g ws) = Rsum (map g ws)) by (intros; apply nsum_Rsum).
  rewrite !Ev. rnum. split; [field; lra|]. apply weighted_bound; [|exact Hw].
  intros w s Hin. apply In_nth_error in Hin as (i & Hi). assert (Li : (i < length data)%nat) by (rewrite <- L; apply nth_error_Some; congruence).
  destruct (C113_point data u c i w s Hd P Li (K' i w s Hi)) as (_ & ? & ?). auto.
Qed.
Print Assumptions C113_score.

(** ** The number of clusters *)
(** The smallest number of clusters with the highest score is chosen if that score is positive, else none. *)
Theorem C113_choice :
  forall (data : list R) mc maxiter rand k d b, fuzzy_silhouette data mc maxiter rand = Ok (k, d, b) ->
  (k = 0%nat /\ b = 0 \/ (2 <= k <= mc)%nat /\ sil_score data maxiter rand k = Ok (d, b) /\ 0 < b) /\
  (forall c, (2 <= c <= mc)%nat -> exists d' v, sil_score data maxiter rand c = Ok (d', v) /\ v <= b /\ ((c < k)%nat -> v < b)).
Proof. intros data mc maxiter rand k d b E. exact (best_of_choice _ mc k d b E). Qed.
Print Assumptions C113_choice.

(** ** The numbering of the clusters *)
(** A point whose memberships all differ has the same weight and silhouette however the clusters are numbered. *)
Theorem C113_numbering :
  forall (data : list R) desc desc' c i, (2 <= c)%nat -> (1 < length data)%nat -> shape c (length data) desc -> (i < length data)%nat ->
  Permutation desc desc' -> NoDup (column_of desc i) -> sil_point data desc' i = sil_point data desc i.
Proof.
  intros data desc desc' c i Hc Hn Hs Hi HP Hd.
  assert (Hs' : shape c (length data) desc').
  { destruct Hs as [L F]. split; [rewrite <- L; symmetry; now apply Permutation_length|]. rewrite Forall_forall in *. intros r Hr. apply F.
    eapply Permutation_in; [symmetry; eassumption|exact Hr]. }
  destruct (sil_point_ok data desc c i Hc Hs Hi) as ([w s] & E). destruct (sil_point_ok data desc' c i Hc Hs' Hi) as ([w' s'] & E').
  rewrite E, E'. f_equal.
  destruct (sil_point_spec data desc c i w s Hn Hs Hi E) as (p & q & rp & rq & up & uq & x & (A0 & A1 & A2 & A3) & B & C & D & G & H & -> & ->).
  destruct (sil_point_spec data desc' c i w' s' Hn Hs' Hi E') as (p' & q' & rp' & rq' & up' & uq' & x' & (A0' & A1' & A2' & A3') & B' & C' & D' & G' & H' & -> & ->).
  assert (x' = x) by congruence. subst x'.
  assert (Pc : Permutation (column_of desc i) (column_of desc' i)) by (unfold column_of; now apply Permutation_flat_map).
  assert (Hd' : NoDup (column_of desc' i)) by (eapply Permutation_NoDup; eauto).
  assert (Cc : forall (m : list (list R)) k r v, shape c (length data) m -> nth_error m k = Some r -> nth_error r i = Some v -> nth_error (column_of m i) k = Some v).
  { intros m k r v Hm Hk Hv. apply (entry_column m c (length data) k i v Hm Hi). unfold entry. now rewrite Hk. }
  pose proof (Cc _ _ _ _ Hs C G) as Cp. pose proof (Cc _ _ _ _ Hs D H) as Cq.
  pose proof (Cc _ _ _ _ Hs' C' G') as Cp'. pose proof (Cc _ _ _ _ Hs' D' H') as Cq'.
  assert (I : forall v, In v (column_of desc i) <-> In v (column_of desc' i)).
  { intros v. split; apply Permutation_in; [auto|now symmetry]. }
  assert (Np : up <> uq).
  { intros X. subst. apply A0. apply (proj1 (NoDup_nth_error _) Hd); [apply nth_error_Some; congruence|congruence]. }
  assert (Np' : up' <> uq').
  { intros X. subst. apply A0'. apply (proj1 (NoDup_nth_error _) Hd'); [apply nth_error_Some; congruence|congruence]. }
  pose proof (nth_error_In _ _ Cp) as Ip. pose proof (nth_error_In _ _ Cq) as Iq.
  pose proof (nth_error_In _ _ Cp') as Ip'. pose proof (nth_error_In _ _ Cq') as Iq'.
  assert (up' = up).
  { pose proof (A2 up up' Cp (proj2 (I _) Ip')). pose proof (A2' up' up Cp' (proj1 (I _) Ip)). lra. }
  subst up'.
  assert (uq' = uq).
  { pose proof (A3 up uq uq' Cp Cq (proj2 (I _) Iq') ltac:(congruence)). pose proof (A3' up uq' uq Cp' Cq' (proj1 (I _) Iq) ltac:(congruence)). lra. }
  subst uq'.
  assert (U : forall (r r' : list R) v, In r desc -> In r' desc -> nth_error r i = Some v -> nth_error r' i = Some v -> r = r').
  { intros r r' v Hr Hr' Hv Hv'. apply In_nth_error in Hr as (k & Hk). apply In_nth_error in Hr' as (k' & Hk').
    pose proof (Cc _ _ _ _ Hs Hk Hv). pose proof (Cc _ _ _ _ Hs Hk' Hv').
    assert (k = k') by (apply (proj1 (NoDup_nth_error _) Hd); [apply nth_error_Some; congruence|congruence]). congruence. }
  assert (J : forall k r, nth_error desc' k = Some r -> In r desc).
  { intros k r Hr. eapply Permutation_in; [symmetry; eassumption|]. eapply nth_error_In; eauto. }
  assert (rp' = rp) by (apply (U rp' rp up); eauto using nth_error_In). assert (rq' = rq) by (apply (U rq' rq uq); eauto using nth_error_In).
  subst. reflexivity.
Qed.
Print Assumptions C113_numbering.
(** With equal memberships the numbering matters: the point belongs to two clusters with 2/5 and to one with 1/5. If the two
    come first its weight is 0 and it is ignored; otherwise the second of the two is overlooked, because a membership equal to
    the largest one never counts as the second largest. *)
Theorem C113_numbering_refuted :
  let data := [0; 1; 3]%Q in
  let a := [2 # 5; 1 # 2; 3 # 5]%Q in let b := [2 # 5; 1 # 4; 1 # 5]%Q in let c := [1 # 5; 1 # 4; 1 # 5]%Q in
  (forall i, (i < 3)%nat -> (fold_left Qplus (map (fun r => nth i r 0) [a; b; c]) 0 == 1)%Q) /\
  Permutation [a; b; c] [a; c; b] /\
  exists s s', sil_point data [a; b; c] 0 = Ok (0%Q, s) /\ sil_point data [a; c; b] 0 = Ok ((1 # 25)%Q, s').
Proof.
  cbv zeta. split; [|split].
  - intros [|[|[|i]]] Hi; try (vm_compute; reflexivity). lia.
  - apply perm_skip, perm_swap.
  - do 2 eexists. split; vm_compute; reflexivity.
Qed.
Print Assumptions C113_numbering_refuted.

(** ** Non-vacuity: a point with three memberships, and a clustering of four points *)
Example C113_nonvacuous_point :
  let data := [0; 1; 3]%Q in
  sil_point data [[1 # 10; 1 # 2; 7 # 10]; [2 # 5; 1 # 4; 1 # 5]; [1 # 2; 1 # 4; 1 # 10]]%Q 0 = Ok ((1 # 100)%Q, (6 # 17)%Q) /\
  two_largest [1 / 10; 2 / 5; 1 / 2] 2 1.
Proof.
  split; [vm_compute; reflexivity|]. unfold two_largest. cbn [nth_error]. split; [lia|]. split; [|split].
  - intros a b Ha Hb. injection Ha as <-. injection Hb as <-. lra.
  - intros a x Ha. injection Ha as <-. intros [<-|[<-|[<-|[]]]]; lra.
  - intros a b x Ha Hb. injection Ha as <-. injection Hb as <-. intros [<-|[<-|[<-|[]]]]; lra.
Qed.
Example C113_nonvacuous :
  let data := [0; 1; 10; 11] in let rand := fun c => repeat [1; 2; 3; 4] c in
  (forall x, In x data -> exists y, In y data /\ y <> x) /\ (forall c, shape c (length data) (rand c)) /\
  exists k d b, fuzzy_silhouette data 3 1000 rand = Ok (k, d, b).
Proof.
  cbv zeta. split; [|split].
  - intros x [<-|[<-|[<-|[<-|[]]]]]; [exists 1|exists 0|exists 0|exists 0]; (split; [cbn; auto|lra]).
  - intros c. split; [now rewrite repeat_length|]. apply Forall_forall. intros r Hr. apply repeat_spec in Hr. now subst.
  - unfold fuzzy_silhouette.
    destruct (best_of_ok (fun c d => True) (sil_score [0; 1; 10; 11] 1000 (fun c => repeat [1; 2; 3; 4] c)) 3) as (k & d & b & E & _); [|eauto].
    intros c Hc. destruct (sil_score_ok [0; 1; 10; 11] 1000 (fun c => repeat [1; 2; 3; 4] c) c) as (d & v & E & _);
      [lia|discriminate|lia| |eauto].
    split; [now rewrite repeat_length|]. apply Forall_forall. intros r Hr. apply repeat_spec in Hr. now subst.
Qed.
