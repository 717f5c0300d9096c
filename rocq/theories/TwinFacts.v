(** TwinFacts.v — fuzzy c-means on clusters that start alike (C117). *)
From Coq Require Import Reals Lra.
From Verif Require Import Base BaseFacts Num Spec RealFacts Functions LearnUtils LearnSpec LearnFacts
  Cmeans CmeansFacts Discret DiscretFacts2 CfeSpec CfeFacts.

Section Twins.
Context {F : Type} {N : Num F}.
(** the same thing at both places *)
Definition twin {A} (l : list A) (i k : nat) : Prop := nth_error l i = nth_error l k.
Lemma twin_map {A B} (f : A -> B) l i k : twin l i k -> twin (map f l) i k.
Proof. unfold twin. intros H. now rewrite !nth_error_map, H. Qed.
Lemma twin_by_columns f (m : list (list F)) i k : (forall l, twin l i k -> twin (f l) i k) -> twin m i k -> twin (by_columns f m) i k.
Proof.
  intros Hf Hm. unfold by_columns, transpose.
  assert (L : (i < length m)%nat <-> (k < length m)%nat) by (unfold twin in Hm; rewrite <- !nth_error_Some, Hm; tauto).
  unfold twin. rewrite !nth_error_map. destruct (Nat.lt_ge_cases i (length m)) as [Hi|Hi].
  - pose proof (proj1 L Hi) as Hk. rewrite !(nth_error_nth' _ 0%nat) by now rewrite seq_length. rewrite !seq_nth by auto. cbn [option_map]. f_equal.
    cbn [plus]. unfold mcol. rewrite !map_map. apply map_ext. intros j. assert (T : twin (f (map (fun r => nth j r n0) m)) i k) by (apply Hf, twin_map, Hm).
    unfold twin in T. destruct (nth_error (f (map (fun r => nth j r n0) m)) i) as [x|] eqn:E.
    + now rewrite (nth_error_nth _ _ n0 E), (nth_error_nth _ _ n0 (eq_sym T)).
    + symmetry in T. apply nth_error_None in E. apply nth_error_None in T. now rewrite !nth_overflow.
  - assert (Hk : (length m <= k)%nat) by (apply Nat.nlt_ge; intros H; apply L in H; lia).
    now rewrite !(proj2 (nth_error_None _ _)) by now rewrite seq_length.
Qed.
Lemma twin_normalize l i k : twin l i k -> twin (normalize_column l) i k.
Proof. apply twin_map. Qed.
Lemma twin_power e l i k : twin l i k -> twin (power_column e l) i k.
Proof.
  assert (S : forall l, twin l i k -> twin (scale_max l) i k) by (intros [|x t] H; [exact H|now apply twin_map]).
  assert (S' : forall l, twin l i k -> twin (scale_min l) i k) by (intros [|x t] H; [exact H|now apply twin_map]).
  intros H. unfold power_column. apply twin_normalize, twin_map. destruct (nltb e n0); [apply S'|]; now apply twin_map, S.
Qed.
Lemma twin_step data u (m : F) cntr u' j d i k : cmeans0 data u m = Ok (cntr, u', j, d) -> twin u i k -> twin cntr i k /\ twin u' i k /\ twin d i k.
Proof.
  unfold cmeans0. intros E H. set (um := map (map (fun x => npow x m)) (map (map (fun x => fmax x neps)) (normalize_columns u))) in *.
  assert (U : twin um i k) by (unfold um; apply twin_map, twin_map, twin_by_columns; auto using twin_normalize).
  set (cn := map (fun r => ndiv (nsum (zip_with nmul r data)) (nsum r)) um) in *. assert (C : twin cn i k) by now apply twin_map.
  set (dd := map (map (fun x => fmax x neps)) (one_dimension_distance data cn)) in *. assert (D : twin dd i k) by (unfold dd, one_dimension_distance; now apply twin_map, twin_map).
  cbv zeta in E. destruct (pdiv (nofZ (-2)) (nsub m n1)) as [e|]; [|discriminate E]. cbn [rbind] in E. unfold normalize_power_columns in E.
  destruct (forallb _ dd); [|discriminate E]. cbn [rbind] in E. injection E as <- <- _ <-. split; auto. split; auto. apply twin_by_columns; auto. intros l. apply twin_power.
Qed.
Lemma rmap_nth {A B} (f : A -> res B) l : forall ys i a, rmap f l = Ok ys -> nth_error l i = Some a -> exists y, f a = Ok y /\ nth_error ys i = Some y.
Proof.
  induction l as [|x l IH]; intros ys i a E H; [destruct i; discriminate|]. cbn [rmap] in E. destruct (f x) as [y|] eqn:Ex; [|discriminate E]. cbn [rbind] in E.
  destruct (rmap f l) as [zs|]; [|discriminate E]. cbn [rbind] in E. injection E as <-. destruct i as [|i]; cbn in *; [injection H as <-; eauto|]. eapply IH; eauto.
Qed.
Lemma twin_start c n (u0 u : list (list F)) i k : cmeans_start c n u0 = Ok u -> (i < c)%nat -> (k < c)%nat -> twin u0 i k -> twin u i k.
Proof.
  unfold cmeans_start, twin. intros E Hi Hk H. set (f := fun i => _) in E.
  assert (S : forall a, (a < c)%nat -> nth_error (seq 0 c) a = Some a) by (intros a Ha; rewrite (nth_error_nth' _ 0%nat) by (rewrite seq_length; lia); f_equal; rewrite seq_nth by lia; lia).
  destruct (rmap_nth f _ _ i i E (S i Hi)) as (y & E1 & ->). destruct (rmap_nth f _ _ k k E (S k Hk)) as (z & E2 & ->).
  unfold f in E1, E2. rewrite H in E1. congruence.
Qed.
Lemma twin_loop data (m err : F) i k n : forall last u jm p last' u' jm' p', cmeans_loop n data m err last u jm p = Ok (last', u', jm', p') ->
  twin u i k -> (forall cn d, last = Some (cn, d) -> twin cn i k /\ twin d i k) -> twin u' i k /\ (forall cn d, last' = Some (cn, d) -> twin cn i k /\ twin d i k).
Proof.
  induction n as [|n IH]; intros last u jm p last' u' jm' p' E H L; cbn [cmeans_loop] in E.
  - injection E as <- <- _ _. auto.
  - destruct (cmeans0 data u m) as [[[[cn v] j] d]|] eqn:E0; [|discriminate E]. cbn [rbind] in E. destruct (twin_step _ _ _ _ _ _ _ i k E0 H) as (T1 & T2 & T3).
    assert (Q : forall cn' d', Some (cn, d) = Some (cn', d') -> twin cn' i k /\ twin d' i k) by (intros cn' d' X; injection X as <- <-; auto).
    cbv zeta in E. destruct (nltb (mdist v u) err).
    + injection E as <- <- _ _. auto.
    + eapply IH; eauto.
Qed.
Lemma twin_cmeans data c (m err : F) maxiter init rand cntr u u0 d jm p fpc i k : cmeans data c m err maxiter init rand = Ok (cntr, u, u0, d, jm, p, fpc) ->
  (i < c)%nat -> (k < c)%nat -> twin (match init with Some v => v | None => rand end) i k -> twin cntr i k /\ twin u i k /\ twin d i k.
Proof.
  unfold cmeans. intros E Hi Hk H. set (v0 := match init with Some v => v | None => normalize_columns rand end) in E.
  assert (T0 : twin v0 i k) by (unfold v0; destruct init; [exact H|apply twin_by_columns; [intros l; apply twin_normalize|exact H]]). clearbody v0. cbv zeta in E.
  destruct (cmeans_start c (length data) v0) as [v|] eqn:Es; [|discriminate E]. cbn [rbind] in E.
  destruct (cmeans_loop _ data m err None v [] 0) as [[[[last w] jm'] p']|] eqn:El; [|discriminate E]. cbn [rbind] in E.
  destruct (fp_coeff w) as [q|]; [|discriminate E]. cbn [rbind] in E. destruct last as [[cn dd]|]; [|discriminate E]. injection E as <- <- _ <- _ _ _.
  destruct (twin_loop data m err i k _ _ _ _ _ _ _ _ _ El) as [A B]; [eapply twin_start; eauto|discriminate|]. destruct (B cn dd eq_refl). auto.
Qed.
End Twins.

Local Open Scope R_scope.
Lemma rmap_repeat {A B} (f : A -> B) x n : map f (repeat x n) = repeat (f x) n.
Proof. induction n as [|n IH]; [reflexivity|]. cbn. now rewrite IH. Qed.
(** all clusters alike *)
Definition alike_rows {A} (c : nat) (l : list A) : Prop := forall i k, (i < c)%nat -> (k < c)%nat -> twin l i k.
Lemma alike_repeat {A} (c : nat) (l : list A) x : length l = c -> alike_rows c l -> nth_error l 0 = Some x -> l = repeat x c.
Proof.
  intros L H E. apply nth_ext with (d := x) (d' := x); [now rewrite repeat_length|]. intros i Hi. rewrite nth_repeat.
  assert (T : nth_error l i = Some x) by (rewrite <- E; apply H; lia). now apply nth_error_nth.
Qed.
Lemma even_partition c n (m : list (list R)) : (0 < c)%nat -> shape c n m -> alike_rows c m -> (forall j, (j < n)%nat -> Rsum (column_of m j) = 1) ->
  m = repeat (repeat (/ INR c) n) c.
Proof.
  intros Hc S H C. destruct m as [|r m'] eqn:Em; [destruct S; cbn in *; lia|]. rewrite <- Em in *. destruct S as [S1 S2].
  assert (Er : nth_error m 0 = Some r) by now rewrite Em. pose proof (alike_repeat c m r S1 H Er) as E. rewrite E. f_equal.
  assert (Lr : length r = n) by (rewrite Forall_forall in S2; apply S2; eapply nth_error_In; eauto).
  apply nth_ext with (d := 0) (d' := / INR c); [now rewrite repeat_length|]. intros j Hj. rewrite nth_repeat. rewrite Lr in Hj.
  pose proof (C j Hj) as Q. rewrite (column_sum m c n j) in Q by (auto; split; auto). rewrite E in Q. rewrite rmap_repeat in Q. rewrite Rsum_repeat in Q.
  assert (0 < INR c) by (apply lt_0_INR; lia). apply (Rmult_eq_reg_l (INR c)); [|lra]. rewrite Q. field. lra.
Qed.
Definition positive_rows (m : list (list R)) : Prop := Forall (Forall (fun x => 0 < x)) m.
Lemma average_weighted w data : w <> 0 -> data <> [] -> Rsum (map (fun p => fst p * snd p) (combine (repeat w (length data)) data)) / Rsum (repeat w (length data)) = average data.
Proof.
  intros Hw Hd. assert (Hn : INR (length data) <> 0) by (apply not_0_INR; destruct data; [congruence|discriminate]).
  assert (G : forall l : list R, Rsum (map (fun p => fst p * snd p) (combine (repeat w (length l)) l)) = w * Rsum l).
  { induction l as [|x l IH]; [cbn; lra|]. cbn [length repeat combine map fst snd]. rewrite !Rsum_cons, IH. lra. }
  rewrite G, Rsum_repeat. unfold average. field. auto.
Qed.
Lemma even_step data u m c : (0 < c)%nat -> data <> [] -> m <> 1 -> shape c (length data) u -> positive_rows u -> alike_rows c u ->
  exists j d, cmeans0 data u m = Ok (repeat (average data) c, repeat (repeat (/ INR c) (length data)) c, j, d).
Proof.
  intros Hc Hd Hm S P H. assert (Hn : (0 < length data)%nat) by (destruct data; [congruence|cbn; lia]). set (n := length data) in *.
  destruct (cmeans0_real data u m c n Hc Hn Hm S eq_refl) as (cn & u' & j & d & E & (Q1 & _ & Q3) & _). exists j, d.
  assert (T : alike_rows c u') by (intros i k Hi Hk; eapply (twin_step data u m cn u' j d); eauto).
  pose proof (even_partition c n u' Hc Q1 T Q3) as Eu. subst u'.
  enough (cn = repeat (average data) c) as -> by exact E.
  assert (En : normalize_columns u = repeat (repeat (/ INR c) n) c).
  { apply even_partition; auto.
    - apply by_columns_shape; auto using normalize_column_length.
    - intros i k Hi Hk. apply twin_by_columns; [intros l; apply twin_normalize|auto].
    - intros b Hb. unfold normalize_columns. rewrite (by_columns_column normalize_column u c n b) by auto using normalize_column_length.
      apply normalize_column_spec.
      + intros X. apply (f_equal (@length R)) in X. rewrite (column_length u c n b S Hb) in X. cbn in X. lia.
      + apply Forall_forall. intros x Hx. destruct (column_In u c n b x S Hb Hx) as (i & Hi). unfold entry in Hi. destruct (nth_error u i) as [r|] eqn:Er; [|discriminate Hi].
        unfold positive_rows in P. rewrite Forall_forall in P. specialize (P r (nth_error_In _ _ Er)). rewrite Forall_forall in P. apply P. eapply nth_error_In; eauto. }
  unfold cmeans0 in E. rewrite En in E. cbv zeta in E. rewrite !rmap_repeat in E. set (w := npow (fmax (/ INR c) neps) m) in E.
  destruct (pdiv (nofZ (-2)) (nsub m n1)) as [e|]; [|discriminate E]. cbn [rbind] in E.
  destruct (normalize_power_columns _ e) as [u'|]; [|discriminate E]. cbn [rbind] in E. injection E as <- _ _ _. f_equal.
  rewrite !nsum_Rsum. unfold zip_with. apply average_weighted; auto. unfold w. rnum. apply Rgt_not_eq, Rpower_pos.
Qed.
Lemma even_positive c n : (0 < c)%nat -> positive_rows (repeat (repeat (/ INR c) n) c).
Proof.
  intros Hc. assert (0 < / INR c) by (apply Rinv_0_lt_compat, lt_0_INR; lia).
  apply Forall_forall. intros r Hr. apply repeat_spec in Hr. subst. apply Forall_forall. intros x Hx. apply repeat_spec in Hx. now subst.
Qed.
Lemma even_shape {A} c n (x : A) : shape c n (repeat (repeat x n) c).
Proof. split; [apply repeat_length|]. apply Forall_forall. intros r Hr. apply repeat_spec in Hr. subst. apply repeat_length. Qed.
Lemma even_alike {A} c (x : A) : alike_rows c (repeat x c).
Proof. intros i k Hi Hk. unfold twin. now rewrite !nth_error_repeat. Qed.
Lemma even_loop data m err c k : (0 < c)%nat -> data <> [] -> m <> 1 -> forall last u jm p, shape c (length data) u -> positive_rows u -> alike_rows c u ->
  exists d jm' p', cmeans_loop (S k) data m err last u jm p = Ok (Some (repeat (average data) c, d), repeat (repeat (/ INR c) (length data)) c, jm', p').
Proof.
  intros Hc Hd Hm. induction k as [|k IH]; intros last u jm p S P H; destruct (even_step data u m c Hc Hd Hm S P H) as (j & d & E).
  - cbn [cmeans_loop]. rewrite E. cbn [rbind]. cbv zeta. destruct (nltb _ err); do 3 eexists; reflexivity.
  - remember (Datatypes.S k) as k'. cbn [cmeans_loop]. rewrite E. cbn [rbind]. cbv zeta. destruct (nltb _ err); [do 3 eexists; reflexivity|]. subst k'.
    apply IH; auto using even_shape, even_positive, even_alike.
Qed.
Lemma start_positive c n (u0 u : list (list R)) : cmeans_start c n u0 = Ok u -> positive_rows u.
Proof.
  assert (G : forall (A B : Type) (f : A -> res B) (P : B -> Prop), (forall a b, f a = Ok b -> P b) -> forall l ys, rmap f l = Ok ys -> Forall P ys).
  { intros A B f P H. induction l as [|a l IH]; intros ys E; cbn [rmap] in E; [injection E as <-; constructor|]. destruct (f a) as [b|] eqn:Ea; [|discriminate E]. cbn [rbind] in E.
    destruct (rmap f l) as [zs|]; [|discriminate E]. cbn [rbind] in E. injection E as <-. constructor; eauto. }
  unfold cmeans_start. intros E. eapply G; [|exact E]. intros i r Er. cbv beta in Er. destruct (nth_error u0 i) as [q|]; [|discriminate Er]. cbn [rbind] in Er.
  eapply G; [|exact Er]. intros j x Ex. cbv beta in Ex. destruct (nbget q j) as [y|]; [|discriminate Ex]. cbn [rbind] in Ex. injection Ex as <-.
  pose proof eps_pos as P. rnum. rcase; lra.
Qed.
Lemma even_cmeans data c m err maxiter init rand : (0 < c)%nat -> data <> [] -> m <> 1 -> (2 <= maxiter)%Z ->
  shape c (length data) (match init with Some v => v | None => rand end) -> alike_rows c (match init with Some v => v | None => rand end) ->
  exists u0 d jm p fpc, cmeans data c m err maxiter init rand = Ok (repeat (average data) c, repeat (repeat (/ INR c) (length data)) c, u0, d, jm, p, fpc).
Proof.
  intros Hc Hd Hm Hi S H. assert (Hn : (0 < length data)%nat) by (destruct data; [congruence|cbn; lia]).
  destruct (cmeans_real data c m err maxiter init rand Hc Hd Hm Hi S) as (cn & u & u0 & d & jm & p & fpc & prev & E & _ & _). revert E.
  unfold cmeans. set (v0 := match init with Some v => v | None => normalize_columns rand end).
  assert (S0 : shape c (length data) v0) by (unfold v0; destruct init; [exact S|apply by_columns_shape; auto using normalize_column_length]).
  assert (T0 : alike_rows c v0) by (unfold v0; destruct init; [exact H|intros i k Hi' Hk; apply twin_by_columns; [intros l; apply twin_normalize|auto]]). clearbody v0. cbv zeta.
  destruct (cmeans_start c (length data) v0) as [v|] eqn:Es; [|discriminate]. cbn [rbind].
  assert (Hk : exists k, Z.to_nat (maxiter - 1) = Datatypes.S k) by (exists (Z.to_nat (maxiter - 2)); lia). destruct Hk as (k & ->).
  destruct (even_loop data m err c k Hc Hd Hm None v [] 0) as (dd & jm' & p' & ->).
  - eapply cmeans_start_shape; eauto.
  - eapply start_positive; eauto.
  - intros i a Hi' Ha. eapply twin_start; eauto.
  - cbn [rbind]. destruct (fp_coeff _) as [q|]; [|discriminate]. cbn [rbind]. intros _. do 5 eexists. reflexivity.
Qed.
Lemma even_score data maxiter rand c : (2 <= c)%nat -> data <> [] -> (2 <= maxiter)%Z -> shape c (length data) (rand c) -> alike_rows c (rand c) ->
  exists d, cfe_score data maxiter rand c = Ok (d, 0).
Proof.
  intros Hc Hd Hm S H.
  assert (E : est_cmeans data c maxiter None rand = Ok (repeat (repeat (/ INR c) (length data)) c, repeat (average data) c)).
  { unfold est_cmeans, fuzzy_cmeans. destruct (even_cmeans data c (nlit 5 2) (nlit 1 10000) maxiter None (rand c)) as (u0 & d & jm & p & fpc & ->); auto; try lia.
    unfold nlit. rnum. lra. }
  destruct (est_cmeans_ok data c maxiter None rand ltac:(lia) Hd Hm S) as (u & cn & E' & P). rewrite E in E'. injection E' as <- <-.
  exists (repeat (repeat (/ INR c) (length data)) c). rewrite (cfe_combined data maxiter rand c _ _ Hc Hd P (repeat_length _ _) E). do 2 f_equal.
  set (l := combine _ _). assert (I : inner (length data) l) by now apply inner_partition with (c := c).
  assert (L : forall cl, In cl l -> cl = (repeat (/ INR c) (length data), average data)).
  { intros [r z] Hin. pose proof (in_combine_l _ _ _ _ Hin) as A. pose proof (in_combine_r _ _ _ _ Hin) as B. apply repeat_spec in A. apply repeat_spec in B. now subst. }
  assert (Z0 : forall f, (forall cl, In cl l -> f cl = 0) -> sum_over l f = 0).
  { intros f Hf. rewrite (sum_ext l f (fun _ => 0 * 0)) by (intros; rewrite Hf by auto; lra). rewrite (sum_scal l 0 (fun _ => 0)). lra. }
  assert (S0 : separation l = 0).
  { unfold separation. rewrite Z0; [lra|]. intros cl Hcl. apply Z0. intros dl Hdl. rewrite (L dl Hdl), <- (L cl Hcl). apply rows_apart_self. intros v Hv. apply (I cl Hcl). exact Hv. }
  assert (B0 : between data l = 0).
  { unfold between. apply Z0. intros cl Hcl. rewrite (L cl Hcl). cbn [snd]. unfold square. rewrite Rminus_diag_eq by reflexivity. lra. }
  unfold combined, grouping. rewrite S0, B0. unfold Rdiv. lra.
Qed.
