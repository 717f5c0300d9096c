(** PipeFacts.v — the generator with the discretization it really calls, over the
    reals (C100). *)
From Coq Require Import Reals Lra Lia Permutation.
From Verif Require Import Base BaseFacts Num RealFacts Functions FunctionsFacts Spec Fcm FcmSpec FcmBasics FcmInv FcmInv2 FcmInv3 FcmIter FcmRun FcmRun2 FcmRun3 FcmView FcmOrder LearnUtils LearnSpec LearnFacts
  Discret DiscretFacts DiscretFacts2 Assoc AssocSpec AssocFacts AssocFacts2 AssocFacts3 AssocFacts4 Estimator EstFacts EstFacts3 EstSpec EstFacts4 AssocGen AssocPredict AssocResult AssocRow EstFacts7 EstFacts8 AssocRange Pipeline.
Local Open Scope R_scope.

(** what numpy supplies has the right shape *)
Definition sampled (curve : string -> list R -> list R) (rand : string -> list R -> nat -> list (list R)) : Prop :=
  forall f us, length (curve f us) = length us /\ forall c, (2 <= c <= 7)%nat -> shape c (length us) (rand f us c).
(** at least ten different numbers *)
Definition varied (data : list R) : Prop := exists us, NoDup us /\ (10 <= length us)%nat /\ incl us data.
Definition strategies : list string := ["cmeans-gap"; "cmeans-sil"; "cmeans-cfe"; "rl-cmeans"].

Lemma varied_iff data : varied data <-> (10 <= length (unique nleb neqb data))%nat.
Proof.
  split.
  - intros (us & ND & L & I). apply (Nat.le_trans _ _ _ L), NoDup_incl_length; auto. intros x Hx. apply (proj2 (unique_spec _ _ R_total_order data)). auto.
  - intros L. exists (unique nleb neqb data). split; [apply (unique_NoDup _ _ R_total_order)|]. split; auto.
    intros x Hx. now apply (proj2 (unique_spec _ _ R_total_order data)).
Qed.
Lemma increasing_knots l : increasing l -> increasing_list l.
Proof.
  intros H. induction H as [|a l Hs IH Hf]; intros i j x y Hij Hx Hy; [destruct i; discriminate|].
  destruct i as [|i], j as [|j]; try lia.
  - injection Hx as <-. cbn in Hy. rewrite Forall_forall in Hf. apply Hf. eapply nth_error_In; eauto.
  - cbn in Hx, Hy. apply (IH i j); auto. lia.
Qed.
Lemma at_knot x memb vals j : increasing_list vals -> nth_error vals j = Some x -> length memb = length vals ->
  exists m, nth_error memb j = Some m /\ fuzzy_set x memb vals = Ok m.
Proof.
  intros Inc Hj Ml. assert (Lj : (j < length memb)%nat) by (rewrite Ml; apply nth_error_Some; congruence).
  destruct (nth_error memb j) as [m|] eqn:Em; [|apply nth_error_None in Em; lia]. exists m. split; auto.
  apply (fuzzy_at_knot x memb vals j m Inc); auto.
  intros [Hn Hin]. apply nth_error_In in Hj. unfold in01 in Hin. rewrite Forall_forall in Hin. apply Hin in Hj. lra.
Qed.
(** the row of the training data in a cluster *)
Lemma knot_row memb vals data : increasing_list vals -> (forall x, In x data -> In x vals) -> length memb = length vals ->
  exists row, Forall2 (fun x y => fuzzy_set x memb vals = Ok y) data row /\
    (forall y, In y row -> In y memb) /\
    (forall j x m, In x data -> nth_error vals j = Some x -> nth_error memb j = Some m -> In m row).
Proof.
  intros Inc Sub Ml. induction data as [|x data IH].
  - exists []. split; [constructor|]. split; [easy|]. intros ? ? ? [].
  - destruct IH as (row & H1 & H2 & H3); [intros; apply Sub; now right|].
    destruct (In_nth_error _ _ (Sub x (or_introl eq_refl))) as [j Hj]. destruct (at_knot x memb vals j Inc Hj Ml) as (m & Hm & E).
    exists (m :: row). split; [now constructor|]. split.
    + intros y [<-|Hy]; [eapply nth_error_In; eauto|auto].
    + intros i z w [<-|Hz] Hi Hw; [|right; eapply H3; eauto]. left.
      assert (i = j) as ->; [|congruence]. destruct (Nat.lt_trichotomy i j) as [C|[C|C]]; auto; [pose proof (Inc _ _ _ _ C Hi Hj)|pose proof (Inc _ _ _ _ C Hj Hi)]; lra.
Qed.
Lemma knot_column x ms vals j : increasing_list vals -> nth_error vals j = Some x -> (forall memb, In memb ms -> length memb = length vals) ->
  Forall2 (fun memb u => fuzzy_set x memb vals = Ok u) ms (column_of ms j).
Proof.
  intros Inc Hj. induction ms as [|memb ms IH]; intros Ml; [constructor|]. unfold column_of. cbn [flat_map].
  destruct (at_knot x memb vals j Inc Hj) as (m & Hm & E); [apply Ml; now left|]. rewrite Hm. constructor; auto. apply IH. intros; apply Ml; now right.
Qed.

(** ** The three-cluster fallback *)
Lemma three_some_nth l i : (2 <= length l)%nat -> increasing l -> forall vals ds, create_three_clusters l = Ok (vals, ds) ->
  length ds = 3%nat -> (i < 3)%nat -> (10 <= length l)%nat ->
  exists j x memb m, nth_error vals j = Some x /\ In x l /\ nth_error ds i = Some memb /\ nth_error memb j = Some m /\ 0 < m.
Proof.
  intros Hl Hs vals ds E Ld Hi L10.
  destruct (create_three_real l Hl Hs) as (vals' & d0 & d1 & d2 & E' & I1 & I2 & I3 & Od & [[_ Sh] _] & _ & C0 & C1 & C2 & C3).
  rewrite E in E'. injection E' as <- ->.
  assert (Lv : (10 <= length vals)%nat).
  { apply Nat.le_trans with (1 := L10). apply NoDup_incl_length; auto. apply (strictly_sorted_NoDup (A := R) nleb). now apply strictly_sorted_increasing. }
  assert (Hm : exists v, make_odd l = Ok v /\ v = vals).
  { unfold create_three_clusters in E. destruct (make_odd l) as [v|] eqn:Em; [|discriminate]. cbn [rbind] in E. exists v. split; auto.
    apply rbind_ok in E as (? & _ & E). repeat (apply rbind_ok in E as (? & _ & E)). now injection E. }
  destruct Hm as (v & Em & ->). pose proof (make_odd_increasing l vals Hl Hs Em) as (_ & _ & _ & a & b & Ha & Ha' & Hb & Hb').
  pose proof (Forall_inv Sh) as S0. pose proof (Forall_inv (Forall_inv_tail Sh)) as S1. pose proof (Forall_inv (Forall_inv_tail (Forall_inv_tail Sh))) as S2. cbv beta in S0, S1, S2.
  assert (Get : forall (d : list R) j, length d = length vals -> (j < length vals)%nat -> exists m, nth_error d j = Some m).
  { intros d j Hd Hj. destruct (nth_error d j) eqn:X; eauto. apply nth_error_None in X. lia. }
  assert (Col : forall j, (j < length vals)%nat -> exists a b c, nth_error d0 j = Some a /\ nth_error d1 j = Some b /\ nth_error d2 j = Some c /\ column_of [d0; d1; d2] j = [a; b; c]).
  { intros j Hj. destruct (Get d0 j S0 Hj) as [p Hp], (Get d1 j S1 Hj) as [q Hq], (Get d2 j S2 Hj) as [r Hr].
    exists p, q, r. repeat split; auto. unfold column_of. cbn. now rewrite Hp, Hq, Hr. }
  set (k := Nat.div2 (length vals)) in *.
  assert (Hk : (length vals = 2 * k + 1)%nat).
  { pose proof (Nat.div2_odd (length vals)) as D. rewrite Od in D. cbn [Nat.b2n] in D. fold k in D. lia. }
  destruct i as [|[|[|i]]]; try lia.
  - destruct (Col 0%nat ltac:(lia)) as (p & q & r & Hp & _ & _ & Hc). rewrite C0 in Hc. injection Hc as <- <- <-.
    exists 0%nat, a, d0, 1. repeat split; auto; try lra.
    destruct l; [discriminate|]. injection Ha' as ->. now left.
  - assert (Cases : exists j, (j = k \/ j = k + 1)%nat /\ exists x, nth_error vals j = Some x /\ In x l).
    { destruct (make_odd_spec l Hl) as (v' & Ev & H). rewrite Em in Ev. injection Ev as <-.
      destruct H as [[_ ->]|(pre & p & q & post & E1 & E2 & E3)].
      - exists k. split; auto. destruct (Get l k eq_refl ltac:(lia)) as [x Hx]. exists x. split; auto. eapply nth_error_In; eauto.
      - assert (Hpre : k = S (length pre)). { assert (length vals = (length pre + S (S (S (length post))))%nat) by (rewrite E3, app_length; reflexivity). lia. }
        exists (k + 1)%nat. split; auto. exists q. split; [|rewrite E1; apply in_app_iff; right; right; now left].
        rewrite E3, nth_error_app2 by lia. replace (k + 1 - length pre)%nat with 2%nat by lia. reflexivity. }
    destruct Cases as (j & Hj & x & Hx & Hin). assert (Lj : (j < length vals)%nat) by lia.
    destruct (Col j Lj) as (p & q & r & Hp & Hq & Hr & Hc). exists j, x, d1, q. repeat split; auto.
    destruct Hj as [-> | ->].
    + rewrite C3 in Hc. injection Hc as _ <- _. apply Rdiv_lt_0_compat; apply lt_0_INR; lia.
    + rewrite C2 in Hc by lia. injection Hc as _ <- _. lra.
  - destruct (Col (length vals - 1)%nat ltac:(lia)) as (p & q & r & _ & _ & Hr & Hc). rewrite C1 in Hc. injection Hc as <- <- <-.
    exists (length vals - 1)%nat, b, d2, 1. repeat split; auto; try lra.
    + assert (X : vals = rev (rev vals)) by (symmetry; apply rev_involutive). destruct (rev vals) as [|b' t] eqn:Er; [discriminate|]. injection Hb as ->.
      rewrite X. cbn [rev]. rewrite app_length. cbn [length]. rewrite nth_error_app2 by lia. replace (_ - _ - _)%nat with 0%nat by lia. reflexivity.
    + apply in_rev. destruct (rev l); [discriminate|]. injection Hb' as ->. now left.
Qed.

(** ** The discretization of a column *)
(** a column cut into [n] clusters *)
Definition cut (data : list R) (n : nat) (vals : list R) (ms : list (list R)) : Prop :=
  increasing_list vals /\ (forall x, In x data -> In x vals) /\ length ms = n /\
  (forall memb, In memb ms -> length memb = length vals /\ in01 memb /\
     exists row, Forall2 (fun x y => fuzzy_set x memb vals = Ok y) data row /\ in01 row /\ 0 < Rsum row) /\
  forall x, In x data -> exists us, Forall2 (fun memb u => fuzzy_set x memb vals = Ok u) ms us /\ Rsum us <= 1 /\ (n <> 3%nat -> Rsum us = 1).
Lemma Rsum_pos_In l v : Forall (fun x => 0 <= x) l -> In v l -> 0 < v -> 0 < Rsum l.
Proof. intros H Hv Hp. pose proof (Rsum_le_In l v H Hv). lra. Qed.
Lemma row_of c n (u : list (list R)) memb : memberships c n u -> In memb u -> length memb = n /\ in01 memb.
Proof.
  intros [[_ Sh] M] Hm. rewrite Forall_forall in Sh. split; [now apply Sh|]. apply Forall_forall. intros z Hz.
  apply In_nth_error in Hm as [i Hi], Hz as [j Hj]. apply (M i j). unfold entry. now rewrite Hi.
Qed.
Lemma gen_disc_ok strategy curve rand f data : In strategy strategies -> sampled curve rand -> varied data ->
  exists n vals ms, generator_disc strategy curve rand f data = Ok (n, vals, ms) /\ (2 <= n)%nat /\ (strategy <> "rl-cmeans"%string -> n <= 7)%nat /\
    cut data n vals ms.
Proof.
  intros Hst Hs Hv. apply varied_iff in Hv. unfold generator_disc. set (us := unique nleb neqb data) in *.
  destruct (Hs f us) as [Hc Hr].
  pose proof (unique_spec _ _ R_total_order data) as Hu. fold us in Hu.
  destruct (discretization_ok data 7 200 strategy f (curve f us) (rand f us) us Hu Hv Hst ltac:(lia) ltac:(lia) Hc Hr)
    as (n & vals & ms & E & H2 & H7 & M & Cs).
  exists n, vals, ms. split; [exact E|]. split; [exact H2|]. split; [exact H7|].
  pose proof Hu as [Su Iu]. apply strictly_sorted_increasing in Su.
  assert (Lm : length ms = n) by apply M.
  assert (W : increasing_list vals /\ incl us vals).
  { destruct Cs as [[-> _]|[_ E3]]; [split; [now apply increasing_knots|apply incl_refl]|].
    destruct (create_three_real us ltac:(lia) Su) as (v' & d0 & d1 & d2 & E' & I1 & I2 & _). rewrite E3 in E'. injection E' as -> ->.
    split; [now apply increasing_knots|auto]. }
  destruct W as [Inc Sub].
  assert (Sub' : forall x, In x data -> In x vals) by (intros x Hx; apply Sub; now apply Iu).
  split; [exact Inc|]. split; [exact Sub'|]. split; [exact Lm|]. split.
  - intros memb Hm. destruct (row_of _ _ _ _ M Hm) as [Ml Mi]. split; [exact Ml|]. split; [exact Mi|].
    destruct (knot_row memb vals data Inc Sub' Ml) as (row & R1 & R2 & R3). exists row. split; [exact R1|].
    assert (Ri : in01 row) by (apply Forall_forall; intros y Hy; unfold in01 in Mi; rewrite Forall_forall in Mi; apply Mi; auto).
    split; [exact Ri|].
    assert (Rn : Forall (fun x => 0 <= x) row) by (apply Forall_impl with (2 := Ri); intros; lra).
    apply In_nth_error in Hm as [i Hi].
    assert (G : exists j x m, nth_error vals j = Some x /\ In x us /\ nth_error memb j = Some m /\ 0 < m).
    { destruct Cs as [[-> P]|[-> E3]].
      - destruct (nth_error us 0) as [x|] eqn:E0; [|apply nth_error_None in E0; lia].
        destruct (nth_error memb 0) as [m|] eqn:E1; [|apply nth_error_None in E1; lia].
        exists 0%nat, x, m. split; [auto|]. split; [eapply nth_error_In; eauto|]. split; [auto|]. destruct P as (_ & P & _). apply (P i 0%nat m). unfold entry. now rewrite Hi.
      - destruct (three_some_nth us i ltac:(lia) Su vals ms E3 Lm) as (j & x & memb' & m & A & B & C & D & P); auto.
        { rewrite <- Lm. apply nth_error_Some. congruence. }
        rewrite Hi in C. injection C as <-. exists j, x, m. auto. }
    destruct G as (j & x & m & G1 & G2 & G3 & G4). apply (Rsum_pos_In row m Rn); auto. apply (R3 j x m); auto. now apply Iu.
  - intros x Hx. destruct (In_nth_error _ _ (Sub' x Hx)) as [j Hj].
    assert (Lj : (j < length vals)%nat) by (apply nth_error_Some; congruence).
    exists (column_of ms j). split; [apply knot_column; auto; intros memb Hm; apply (row_of _ _ _ _ M Hm)|].
    destruct Cs as [[-> (_ & _ & P)]|[-> E3]].
    + rewrite P by auto. split; [lra|reflexivity].
    + destruct (create_three_real us ltac:(lia) Su) as (v' & d0 & d1 & d2 & E' & _ & _ & _ & _ & _ & I1 & _). rewrite E3 in E'. injection E' as -> ->.
      split; [now apply I1|congruence].
Qed.
Lemma gen_disc_few strategy curve rand f data : ~ varied data -> exists er, generator_disc strategy curve rand f data = Err er.
Proof.
  intros Hv. unfold generator_disc. rewrite (discretization_few _ _ _ _ _ _ _ _ (unique_spec _ _ R_total_order data)); [eauto|].
  destruct (Nat.lt_ge_cases (length (unique nleb neqb data)) 10); auto. elim Hv. now apply varied_iff.
Qed.
Lemma gen_disc_fair strategy curve rand cf : sampled curve rand -> c_disc cf = generator_disc strategy curve rand -> fair_disc cf.
Proof.
  intros Hs Hd f data n vals ms E. rewrite Hd in E.
  assert (Hv : varied data).
  { apply varied_iff. destruct (Nat.lt_ge_cases (length (unique nleb neqb data)) 10); auto.
    destruct (gen_disc_few strategy curve rand f data) as [er Er]; [rewrite varied_iff; lia|congruence]. }
  assert (Hst : In strategy strategies).
  { destruct (in_dec string_dec strategy strategies) as [i|ni]; auto. exfalso. unfold generator_disc in E.
    rewrite (discretization_unknown _ _ _ _ _ _ _ _ (unique_spec _ _ R_total_order data)) in E; [discriminate| |exact ni]. now apply varied_iff. }
  destruct (gen_disc_ok strategy curve rand f data Hst Hs Hv) as (n' & vals' & ms' & E' & _ & _ & Inc & Sub & _ & M & _).
  rewrite E in E'. injection E' as <- <- <-. split; [exact Inc|]. split; [exact Sub|]. intros memb Hm. destruct (M memb Hm) as (A & B & _). auto.
Qed.

(** ** Rows that no measure fails on *)
Definition live_row (n : nat) (r : list R) : Prop := length r = n /\ in01 r /\ 0 < Rsum r.
Lemma live_coefs n ra rb c : live_row n ra -> live_row n rb -> coefs ra rb c ->
  let '(p, q, r, t) := c in 0 <= p /\ 0 <= q /\ 0 <= r /\ 0 <= t /\ 0 < p + q /\ 0 < p + r.
Proof.
  intros (La & A & Sa) (Lb & B & Sb) (Ll & ->).
  rewrite !nsum_Rsum. change nmul with Rmult. change nsub with Rminus. change n1 with 1.
  set (l := combine ra rb).
  assert (G : forall f : R * R -> R, (forall x y, 0 <= x <= 1 -> 0 <= y <= 1 -> 0 <= f (x, y)) -> Forall (fun x => 0 <= x) (map f l)).
  { intros f Hf. apply Forall_forall. intros z Hz. apply in_map_iff in Hz as ([x y] & <- & Hz).
    destruct (combine_in01 ra rb (x, y) A B Hz). apply Hf; auto. }
  assert (P1 : Rsum (map (fun xy => fst xy * snd xy) l) + Rsum (map (fun xy => fst xy * (1 - snd xy)) l) = Rsum (map fst l)).
  { rewrite <- Rsum_map_plus. f_equal. apply map_ext. intros [x y]. cbn. lra. }
  assert (P2 : Rsum (map (fun xy => fst xy * snd xy) l) + Rsum (map (fun xy => (1 - fst xy) * snd xy) l) = Rsum (map snd l)).
  { rewrite <- Rsum_map_plus. f_equal. apply map_ext. intros [x y]. cbn. lra. }
  split; [apply Rsum_nonneg, G; intros; cbn [fst snd]; apply Rmult_le_pos; lra|].
  split; [apply Rsum_nonneg, G; intros; cbn [fst snd]; apply Rmult_le_pos; lra|].
  split; [apply Rsum_nonneg, G; intros; cbn [fst snd]; apply Rmult_le_pos; lra|].
  split; [apply Rsum_nonneg, G; intros; cbn [fst snd]; apply Rmult_le_pos; lra|].
  rewrite P1, P2. unfold l. rewrite (combine_fst ra rb Ll), (combine_snd ra rb Ll). auto.
Qed.
Lemma live_rated cf n ra rb : named_conf cf -> live_row n ra -> live_row n rb -> exists c, coefs ra rb c /\ rated cf c.
Proof.
  intros (H1 & H2 & H3) A B. destruct (same_length_coefs ra rb) as [c Hc]; [destruct A, B; congruence|]. exists c. split; auto.
  pose proof (live_coefs n ra rb c A B Hc) as P. destruct c as [[[p q] r] t]. destruct P as (P1 & P2 & P3 & P4 & P5 & P6).
  split; [|split].
  - now apply measures_total.
  - now apply measures_total.
  - intros f Hf. apply measures_total; auto.
Qed.
Lemma hit_live n r : hit_row n r -> live_row n r.
Proof.
  intros (L & I & H). split; [exact L|]. split; [apply Forall_impl with (2 := H); intros x []; lra|].
  apply (Rsum_pos_In r 1); [|auto|lra]. apply Forall_impl with (2 := H); intros x []; lra.
Qed.

(** ** Describing a continuous column *)
Lemma fuzzy_concept_fine dc t memb vals : is_fuzzy_type t = true -> is_valid_type t = true -> length memb = length vals -> vals <> [] ->
  concept_ok (F := R) dc t (Some (mkAdict true memb vals)) = Ok tt.
Proof.
  intros Hz Hv HL Hne. destruct (process_activation_dict_spec (mkAdict true memb vals) HL Hne) as (v' & m' & mn & mx & E & _).
  unfold concept_ok, build_node. rewrite Hv, Hz, E. reflexivity.
Qed.
Lemma continuous_ok cf dc targets strategy curve rand f data n : c_disc cf = generator_disc strategy curve rand ->
  In strategy strategies -> sampled curve rand -> varied data -> length data = n ->
  exists ops d, plan_continuous cf dc targets f data = Ok (ops, d) /\ forall r, In r (fd_rows d) -> live_row n r.
Proof.
  intros Hd Hst Hs Hv Hn. unfold plan_continuous. rewrite Hd. set (t := if str_mem f targets then _ else _).
  destruct (gen_disc_ok strategy curve rand f data Hst Hs Hv) as (nc & vals & ms & E & _ & _ & Inc & Sub & Lm & M & _). rewrite E. cbn [rbind].
  assert (Vn : vals <> []).
  { destruct Hv as (us & _ & L & I). destruct us as [|u us]; [cbn in L; lia|]. intros ->. exact (Sub u (I u (or_introl eq_refl))). }
  assert (G : forall k, In k (seq 0 nc) -> exists o row, plan_cluster cf dc f t vals ms data k = Ok (o, row) /\ live_row n row).
  { intros k Hk. apply in_seq in Hk. destruct (nth_error ms k) as [memb|] eqn:Em; [|apply nth_error_None in Em; lia].
    destruct (M memb (nth_error_In _ _ Em)) as (Ml & _ & row & R1 & R2 & R3).
    unfold plan_cluster, lget. rewrite Em. cbn [rbind]. rewrite fuzzy_concept_fine; auto; try (unfold t; now destruct (str_mem f targets)). cbn [rbind].
    assert (X : rmap (fun v => fuzzy_set v memb vals) data = Ok row).
    { clear - R1. induction R1 as [|x y l l' Hx _ IH]; [reflexivity|]. cbn [rmap]. rewrite Hx. cbn [rbind]. now rewrite IH. }
    rewrite X. cbn [rbind]. do 2 eexists. split; [reflexivity|]. split; auto. rewrite <- Hn. symmetry. clear - R1. induction R1; cbn; auto. }
  assert (X : exists l, rmap (plan_cluster cf dc f t vals ms data) (seq 0 nc) = Ok l /\ forall r, In r (map snd l) -> live_row n r).
  { clear E Lm. revert G. generalize (seq 0 nc). induction l as [|k l IH]; intros G; [exists []; split; [reflexivity|easy]|].
    destruct (G k (or_introl eq_refl)) as (o & row & Ek & Hr). destruct IH as (l' & El & Hl); [intros; apply G; now right|].
    cbn [rmap]. rewrite Ek. cbn [rbind]. rewrite El. cbn [rbind]. eexists. split; [reflexivity|]. cbn [map snd]. intros r [<-|H]; auto. }
  destruct X as (l & -> & Hl). cbn [rbind]. do 2 eexists. split; [reflexivity|]. exact Hl.
Qed.

(** ** Fitting *)
Section Fit.
Variable cf : gconf R.
Hypothesis HO : reorders (c_ord cf).
Variable P : list R -> Prop.
Hypothesis P_rated : forall ra rb, P ra -> P rb -> exists c, coefs ra rb c /\ rated cf c.
Lemma plan_all dc targets ds : forall done, (forall d r, In d done -> In r (fd_rows d) -> P r) ->
  (forall fc, In fc ds -> exists ops d, describe cf dc targets fc = Ok (ops, d) /\ forall r, In r (fd_rows d) -> P r) ->
  exists ops out, plan_build cf dc targets done ds = Ok (ops, out).
Proof.
  induction ds as [|[f c] ds IH]; intros done HD Hs; cbn [plan_build]; eauto.
  destruct (Hs (f, c) (or_introl eq_refl)) as (ops & d & E & Ed).
  assert (X : exists rels, plan_cross cf d (others cf done f) = Ok rels).
  { unfold plan_cross. apply rflat_ok_iff. intros B HB. destruct (related cf d B); eauto. apply (@two_ok R RNum cf (fun a b => Rmult_comm a b) P P_rated); auto.
    intros r. apply HD. now apply others_In in HB. }
  destruct X as [rels Hr]. unfold plan_feature. rewrite E. cbn [rbind fst]. rewrite Hr. cbn [rbind].
  destruct (IH (done ++ [d])) as (o2 & out & ->); cbn; eauto.
  - intros d' r Hd'. apply in_app_iff in Hd' as [Hd'|[<-|[]]]; [now apply HD|]. apply Ed.
  - intros fc Hi. apply Hs. now right.
Qed.
Lemma plan_bad dc targets fc ds : (forall er, describe cf dc targets fc <> Ok er) -> In fc ds -> forall done, exists er, plan_build cf dc targets done ds = Err er.
Proof.
  intros Hb. induction ds as [|gc ds IH]; [easy|]. intros Hi done. cbn [plan_build].
  destruct (plan_feature cf dc targets done gc) as [[ops d]|er] eqn:E; cbn [rbind]; [|eauto].
  destruct Hi as [->|Hi].
  - exfalso. unfold plan_feature in E. destruct (describe cf dc targets fc) as [r|er] eqn:Ed; [exact (Hb r eq_refl)|discriminate].
  - destruct (IH Hi (done ++ [d])) as [er ->]. cbn. eauto.
Qed.

Lemma fit_built x y e0 e : estimator e0 e -> (e = e0 \/ healthy e0 e /\ m_debug (e_map e0) = true \/ sane (e_map e) /\ hist_ne (e_map e)) -> NoDup (dkeys (join_frames x y)) ->
  exists dc, snd (fit cf x y e) = match plan_build cf dc (dkeys y) [] (join_frames x y) with Ok _ => Ok tt | Err er => Err er end.
Proof.
  intros HE Hw ND. destruct (estimator_state _ _ HE) as (B & S & Pr & G).
  destruct (fit_cases cf x y e0 e B S) as [(er & Hr & _ & Hp & _)|(s & A & _ & H)].
  - exfalso. destruct Hw as [->|[[HH D]|[Sn Hn]]]; [destruct Pr as (p & Pr & _); congruence| |].
    2:{ unfold reset, on_fcm, e_gen in Hr. rewrite Hp in Hr. cbn [g_fcm] in Hr. destruct (sane_parts _ Sn) as (Nd & _ & K & _).
        destruct (reset_values _ K Hn Nd) as [C _]. unfold clear_all in Hr. destruct (reset_execution (e_map e)) as [s r]. cbn in C, Hr. subst r. discriminate. }
    pose proof (healthy_trail _ _ HH) as T. destruct HH as [(mi & ex & sd & de & me & xc & ac & kw & vec & H0) _].
    assert (vec = false) as -> by (apply init_est_spec in H0 as (_ & _ & _ & Hd & _); rewrite D in Hd; now destruct vec).
    pose proof (est_iterative e0 e _ _ _ _ _ _ _ _ H0 T) as It. unfold reset, on_fcm, e_gen in Hr. rewrite Hp in Hr. cbn [g_fcm] in Hr.
    pose proof (clear_all_ok _ It) as C. destruct (clear_all (e_map e)) as [s r]. cbn in C, Hr. subst r. discriminate.
  - cbv zeta in H. destruct H as (-> & _). pose proof (alike_blank _ _ A B) as Bs.
    assert (R : ready (m_default s) [] (mkGen [] [] s)).
    { split; [apply Bs|]. split; auto. split; auto. split; [intros dd []|]. cbn. intros f Hf. now elim Hf. }
    pose proof (build_plan cf HO (m_default s) (dkeys y) [] (join_frames x y) _ R ND) as Q.
    change (build_fcm cf (join_frames x y) (dkeys y) s (mkGen [] [] s)) with (sfold (add_feature cf (dkeys y)) (join_frames x y) (mkGen [] [] s)).
    exists (m_default s). destruct (plan_build _ _ _ _ _) as [[ops out]|er]; [destruct Q as (g' & -> & _)|rewrite Q]; reflexivity.
Qed.
End Fit.

(** a column the generator can describe: texts, truth values, or numbers that are
    few (and taken as levels) or many *)
Definition describable (cf : gconf R) (c : column R) : Prop :=
  match c with ColStr _ | ColBool _ => True | ColInt l => c_infer cf = true \/ varied (map IZR l) | ColFlt l => c_infer cf = true \/ varied l end.
Lemma many_floats (cf : gconf R) c : match c with ColInt _ | ColFlt _ => True | _ => False end -> (10 <= distinct cf c)%nat -> varied (as_floats c).
Proof.
  destruct c as [l|l|l|l]; intros Hc; try easy; unfold distinct; cbn [discrete_desc fst as_floats]; rewrite map_length; intros L.
  - exists (map IZR (unique Z.leb Z.eqb l)). split; [|split; [now rewrite map_length|]].
    + apply FinFun.Injective_map_NoDup; [intros a b; apply eq_IZR|apply (unique_NoDup _ _ Z_total_order)].
    + intros z Hz. apply in_map_iff in Hz as (u & <- & Hu). apply in_map_iff. exists u. split; [reflexivity|]. now apply (proj2 (unique_spec _ _ Z_total_order l)).
  - now apply varied_iff.
Qed.
Lemma plan_discrete_ok (cf : gconf R) dc targets f c : exists ops d, plan_discrete cf dc targets f c = Ok (ops, d) /\ fd_rows d = snd (discrete_desc cf c).
Proof.
  unfold plan_discrete. set (t := if str_mem f targets then TYPE_DECISION else TYPE_SIMPLE).
  destruct (discrete_desc cf c) as [tx m].
  assert (X : exists us, rmap (fun _ : string => concept_ok dc t None) tx = Ok us).
  { apply rmap_ok_iff. intros a _. exists tt. apply concept_fine; unfold t; now destruct (str_mem f targets). }
  destruct X as [us ->]. cbn. eauto.
Qed.
Lemma describe_live cf dc targets strategy curve rand f c n : c_disc cf = generator_disc strategy curve rand ->
  In strategy strategies -> sampled curve rand -> describable cf c -> col_length c = n ->
  exists ops d, describe cf dc targets (f, c) = Ok (ops, d) /\ forall r, In r (fd_rows d) -> live_row n r.
Proof.
  intros Hd Hst Hs Hc Hn.
  assert (D : exists ops d, plan_discrete cf dc targets f c = Ok (ops, d) /\ forall r, In r (fd_rows d) -> live_row n r).
  { destruct (plan_discrete_ok cf dc targets f c) as (ops & d & E & Ed). exists ops, d. split; auto. rewrite Ed. intros r Hr. apply hit_live. rewrite <- Hn. now apply (desc_hit_row cf). }
  assert (C : match c with ColInt _ | ColFlt _ => True | _ => False end -> (c_infer cf && Nat.ltb (distinct cf c) 10)%bool = false ->
    exists ops d, plan_continuous cf dc targets f (as_floats c) = Ok (ops, d) /\ forall r, In r (fd_rows d) -> live_row n r).
  { intros Nu I. apply (continuous_ok cf dc targets strategy curve rand f (as_floats c) n Hd Hst Hs).
    - assert (K : c_infer cf = true -> varied (as_floats c)).
      { intros Ti. rewrite Ti in I. cbn [andb] in I. apply Nat.ltb_ge in I. now apply (many_floats cf). }
      destruct c; try easy; destruct Hc; auto.
    - rewrite <- Hn. destruct c; try easy. apply map_length. }
  unfold describe. destruct c; auto; (destruct (c_infer cf && Nat.ltb _ 10)%bool eqn:I; [exact D|apply C; auto]).
Qed.
Lemma describe_bad cf dc targets strategy curve rand f c : c_disc cf = generator_disc strategy curve rand -> ~ describable cf c ->
  forall r, describe cf dc targets (f, c) <> Ok r.
Proof.
  intros Hd Hc r. destruct c as [l|l|l|l]; cbn [describable] in Hc; [now elim Hc..| |];
    (assert (I : c_infer cf = false) by (destruct (c_infer cf); auto; elim Hc; auto)); unfold describe; rewrite I; cbn [andb];
    unfold plan_continuous; rewrite Hd; cbn [as_floats]; change (@nofZ R RNum) with IZR;
    match goal with |- context [generator_disc _ _ _ _ ?d] => destruct (gen_disc_few strategy curve rand f d) as [er ->]; [tauto|discriminate] end.
Qed.
Lemma fit_exactly cf strategy curve rand n x y e0 e : reorders (c_ord cf) -> named_conf cf -> c_disc cf = generator_disc strategy curve rand ->
  In strategy strategies -> sampled curve rand -> estimator e0 e ->
  (e = e0 \/ healthy e0 e /\ m_debug (e_map e0) = true \/ sane (e_map e) /\ hist_ne (e_map e)) -> NoDup (dkeys (join_frames x y)) ->
  (forall f c, In (f, c) (join_frames x y) -> col_length c = n) ->
  (exists e', fit cf x y e = (e', Ok tt)) <-> forall f c, In (f, c) (join_frames x y) -> describable cf c.
Proof.
  intros HO HN Hd Hst Hs HE Hw ND Hl. destruct (fit_built cf HO x y e0 e HE Hw ND) as [dc E]. split.
  - intros [e' Ef] f c Hi. rewrite Ef in E. cbn [snd] in E.
    assert (DC : describable cf c \/ ~ describable cf c).
    { assert (V : forall l, varied l \/ ~ varied l) by (intros l; rewrite varied_iff; lia).
      destruct c as [l|l|l|l]; cbn; auto; [destruct (V (map IZR l))|destruct (V l)]; destruct (c_infer cf); intuition discriminate. }
    destruct DC as [|DC]; auto. exfalso. destruct (plan_bad cf dc (dkeys y) (f, c) (join_frames x y) (describe_bad cf dc _ strategy curve rand f c Hd DC) Hi []) as [er Er].
    rewrite Er in E. discriminate.
  - intros Hc. destruct (plan_all cf (live_row n) (fun ra rb => live_rated cf n ra rb HN) dc (dkeys y) (join_frames x y) []) as (ops & out & X).
    + intros ? ? [].
    + intros [f c] Hi. apply (describe_live cf dc (dkeys y) strategy curve rand f c n); auto; [eapply Hc; eauto|eapply Hl; eauto].
    + rewrite X in E. destruct (fit cf x y e) as [e' r]. cbn in E. subst r. eauto.
Qed.
