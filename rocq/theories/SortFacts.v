(** SortFacts.v — correctness of the paired quick sort model. *)
From Verif Require Import Base BaseFacts Num Functions Spec.

Section S.
Context {A B : Type}.
Variable leb : A -> A -> bool.
Variable P : A -> Prop.
Hypothesis TP : total_preorder leb P.

Lemma tp_refl x : P x -> leb x x = true.
Proof. intros H. destruct (tp_total _ _ TP x x H H); auto. Qed.

(** *** rearrangement algebra *)
Lemma rearr_refl s e (a : list A) (m : list B) : rearranged_between s e a m a m.
Proof. repeat split; auto. exists (fun i => i). repeat split; auto. Qed.
Lemma rearr_trans s e (a : list A) (m : list B) a1 m1 a2 m2 :
  rearranged_between s e a m a1 m1 -> rearranged_between s e a1 m1 a2 m2 ->
  rearranged_between s e a m a2 m2.
Proof.
  intros (L1 & M1 & p & I1 & F1 & N1) (L2 & M2 & q & I2 & F2 & N2).
  split; [congruence|]. split; [congruence|].
  exists (fun i => p (q i)). repeat split.
  - intros i j H. auto.
  - intros i H. rewrite (F2 i H). auto.
  - destruct (N2 i) as [-> _]. apply N1.
  - destruct (N2 i) as [_ ->]. apply N1.
Qed.
Lemma rearr_weaken s e s' e' (a : list A) (m : list B) a1 m1 :
  (s' <= s)%Z -> (e <= e')%Z ->
  rearranged_between s e a m a1 m1 -> rearranged_between s' e' a m a1 m1.
Proof.
  intros H1 H2 (L1 & M1 & p & I1 & F1 & N1). split; [auto|]. split; [auto|].
  exists p. repeat split; auto; try (intros; apply F1; lia); apply N1.
Qed.

Definition tr (i j k : nat) : nat := if Nat.eqb k i then j else if Nat.eqb k j then i else k.
Lemma swap_spec {X} (l : list X) i j : (0 <= i < Z.of_nat (length l))%Z -> (0 <= j < Z.of_nat (length l))%Z ->
  exists l', swap l i j = Ok l' /\ length l' = length l /\
    forall k, nth_error l' k = nth_error l (tr (Z.to_nat i) (Z.to_nat j) k).
Proof.
  intros Hi Hj. destruct l as [|d0 l0] eqn:El; [simpl in *; lia|]. rewrite <- El in *. clear El.
  unfold swap. rewrite (zget_ok _ _ d0 Hi); simpl. rewrite (zget_ok _ _ d0 Hj); simpl.
  rewrite zset_ok by auto. simpl. rewrite zset_ok by (rewrite upd_length; auto).
  eexists. split; [reflexivity|]. split; [now rewrite !upd_length|].
  intros k. unfold tr. rewrite !nth_error_upd, upd_length.
  assert (Hi' : Z.to_nat i < length l) by lia. assert (Hj' : Z.to_nat j < length l) by lia.
  apply Nat.ltb_lt in Hi' as Li, Hj' as Lj. rewrite Li, Lj.
  destruct (Nat.eqb_spec k (Z.to_nat j)) as [Ej|Ej], (Nat.eqb_spec k (Z.to_nat i)) as [Ei|Ei]; auto.
  - rewrite <- Ej, Ei. symmetry. apply nth_error_nth'. lia.
  - symmetry. apply nth_error_nth'. lia.
  - symmetry. apply nth_error_nth'. lia.
Qed.
Lemma tr_inj i j a b : tr i j a = tr i j b -> a = b.
Proof.
  unfold tr. destruct (Nat.eqb_spec a i), (Nat.eqb_spec b i), (Nat.eqb_spec a j), (Nat.eqb_spec b j); subst; congruence.
Qed.
Lemma swap2_spec s e (a : list A) (m : list B) i j :
  (0 <= s)%Z -> (s <= i <= e)%Z -> (s <= j <= e)%Z -> (e < Z.of_nat (length a))%Z -> (e < Z.of_nat (length m))%Z ->
  exists a' m', swap a i j = Ok a' /\ swap m i j = Ok m' /\ rearranged_between s e a m a' m' /\
    (forall k, nth_error a' k = nth_error a (tr (Z.to_nat i) (Z.to_nat j) k)).
Proof.
  intros Hs Hi Hj Ha Hm.
  destruct (swap_spec a i j) as (a' & Ea & La & Na); [lia|lia|].
  destruct (swap_spec m i j) as (m' & Em & Lm & Nm); [lia|lia|].
  exists a', m'. repeat split; auto.
  exists (tr (Z.to_nat i) (Z.to_nat j)). split; [apply tr_inj|]. split.
  - intros k Hk. unfold tr. destruct (Nat.eqb_spec k (Z.to_nat i)); [lia|].
    destruct (Nat.eqb_spec k (Z.to_nat j)); [lia|]. auto.
  - intros k; split; auto.
Qed.

Definition Pat (a : list A) (i : Z) (Q : A -> Prop) : Prop :=
  forall x, nth_error a (Z.to_nat i) = Some x -> Q x.

Lemma scan_down_spec fuel a pivot low high :
  (0 <= low)%Z -> (low <= high + 1)%Z -> (high < Z.of_nat (length a))%Z ->
  (high - low + 1 < Z.of_nat fuel)%Z ->
  exists h, scan_down leb fuel a pivot low high = Ok h /\ (low - 1 <= h <= high)%Z /\
    (forall k, (h < k <= high)%Z -> Pat a k (fun x => leb pivot x = true)) /\
    ((low <= h)%Z -> Pat a h (fun x => leb pivot x = false)).
Proof.
  revert high; induction fuel as [|f IH]; intros high H0 H1 H2 H3; [lia|]. simpl.
  destruct (Z.leb_spec low high) as [L|L].
  - destruct (nth_error a (Z.to_nat high)) as [x|] eqn:Ex; [|apply nth_error_None in Ex; lia].
    assert (Hg : zget a high = Ok x).
    { unfold zget, lget. destruct (Z.ltb_spec high 0); [lia|]. now rewrite Ex. }
    rewrite Hg; simpl. destruct (leb pivot x) eqn:E.
    + destruct (IH (high - 1)%Z) as (h & Eh & Hb & Hk & Hh); try lia.
      exists h. split; [exact Eh|]. split; [lia|]. split; [|exact Hh].
      intros k Hk'. destruct (Z.eq_dec k high) as [->|].
      * intros y Hy. rewrite Ex in Hy. now injection Hy as <-.
      * apply Hk. lia.
    + exists high. split; auto. split; [lia|]. split; [intros; lia|].
      intros _ y Hy. rewrite Ex in Hy. now injection Hy as <-.
  - exists high. split; auto. split; [lia|]. split; intros; lia.
Qed.
Lemma scan_up_spec fuel a pivot low high :
  (0 <= low)%Z -> (low <= high + 1)%Z -> (high < Z.of_nat (length a))%Z ->
  (high - low + 1 < Z.of_nat fuel)%Z ->
  exists l, scan_up leb fuel a pivot low high = Ok l /\ (low <= l <= high + 1)%Z /\
    (forall k, (low <= k < l)%Z -> Pat a k (fun x => leb x pivot = true)) /\
    ((l <= high)%Z -> Pat a l (fun x => leb x pivot = false)).
Proof.
  revert low; induction fuel as [|f IH]; intros low H0 H1 H2 H3; [lia|]. simpl.
  destruct (Z.leb_spec low high) as [L|L].
  - destruct (nth_error a (Z.to_nat low)) as [x|] eqn:Ex; [|apply nth_error_None in Ex; lia].
    assert (Hg : zget a low = Ok x).
    { unfold zget, lget. destruct (Z.ltb_spec low 0); [lia|]. now rewrite Ex. }
    rewrite Hg; simpl. destruct (leb x pivot) eqn:E.
    + destruct (IH (low + 1)%Z) as (h & Eh & Hb & Hk & Hh); try lia.
      exists h. split; [exact Eh|]. split; [lia|]. split; [|exact Hh].
      intros k Hk'. destruct (Z.eq_dec k low) as [->|].
      * intros y Hy. rewrite Ex in Hy. now injection Hy as <-.
      * apply Hk. lia.
    + exists low. split; auto. split; [lia|]. split; [intros; lia|].
      intros _ y Hy. rewrite Ex in Hy. now injection Hy as <-.
  - exists low. split; auto. split; [lia|]. split; intros; lia.
Qed.

Lemma rearr_Forall s e (a : list A) (m : list B) a' m' :
  rearranged_between s e a m a' m' -> Forall P a -> Forall P a'.
Proof.
  intros (L & _ & p & _ & _ & N) HP. apply Forall_forall. intros x Hx.
  apply In_nth_error in Hx as [i Hi]. destruct (N i) as [E _]. rewrite Hi in E.
  symmetry in E. apply nth_error_In in E. rewrite Forall_forall in HP. auto.
Qed.
Lemma rearr_lengths s e (a : list A) (m : list B) a' m' :
  rearranged_between s e a m a' m' -> length a' = length a /\ length m' = length m.
Proof. now intros (L & M & _). Qed.
Lemma rearr_outside s e (a : list A) (m : list B) a' m' i :
  rearranged_between s e a m a' m' -> (Z.of_nat i < s)%Z \/ (e < Z.of_nat i)%Z ->
  nth_error a' i = nth_error a i /\ nth_error m' i = nth_error m i.
Proof. intros (_ & _ & p & _ & F & N) H. specialize (N i). now rewrite (F i H) in N. Qed.

(** The partition loop, seen from the fixed interval [lo0..hi0]. *)
Lemma partition_loop_spec fuel (a : list A) (m : list B) pivot low high lo0 hi0 :
  Forall P a -> P pivot ->
  (0 <= lo0)%Z -> (lo0 <= low)%Z -> (high <= hi0)%Z ->
  (low <= high + 1)%Z -> (hi0 < Z.of_nat (length a))%Z -> (hi0 < Z.of_nat (length m))%Z ->
  ((high - low + 2 < Z.of_nat fuel)%Z \/
   ((high - low + 1 < Z.of_nat fuel)%Z /\ (low <= high)%Z /\ Pat a high (fun x => leb pivot x = true))) ->
  (forall k, (lo0 <= k < low)%Z -> Pat a k (fun x => leb x pivot = true)) ->
  (forall k, (high < k <= hi0)%Z -> Pat a k (fun x => leb pivot x = true)) ->
  exists a' m' h, partition_loop leb fuel a m pivot low high = Ok (a', m', h) /\
    rearranged_between lo0 hi0 a m a' m' /\ (lo0 - 1 <= h <= hi0)%Z /\
    (forall k, (lo0 <= k <= h)%Z -> Pat a' k (fun x => leb x pivot = true)) /\
    (forall k, (h < k <= hi0)%Z -> Pat a' k (fun x => leb pivot x = true)).
Proof.
  revert a m low high; induction fuel as [|f IH];
    intros a m low high HP Hp H0 Hl Hh Hlh Ha Hm Hf HL HH; [lia|]. cbn [partition_loop].
  destruct (scan_down_spec (loop_fuel low high) a pivot low high) as (h & Eh & Hhb & Hhk & Hhx);
    try lia. { unfold loop_fuel; lia. }
  rewrite Eh; cbn [rbind].
  destruct (scan_up_spec (loop_fuel low h) a pivot low h) as (l & El & Hlb & Hlk & Hlx);
    try lia. { unfold loop_fuel; lia. }
  rewrite El; cbn [rbind].
  destruct (Z.leb_spec l h) as [L|L].
  - (* swap *)
    specialize (Hhx ltac:(lia)). specialize (Hlx L).
    destruct (swap2_spec lo0 hi0 a m l h) as (a1 & m1 & Ea & Em & HR & Hn); try lia.
    rewrite Ea; cbn [rbind]. rewrite Em; cbn [rbind].
    destruct (nth_error a (Z.to_nat l)) as [xl|] eqn:Exl; [|apply nth_error_None in Exl; lia].
    destruct (nth_error a (Z.to_nat h)) as [xh|] eqn:Exh; [|apply nth_error_None in Exh; lia].
    specialize (Hhx _ Exh). specialize (Hlx _ Exl).
    assert (Pxl : P xl) by (apply nth_error_In in Exl; rewrite Forall_forall in HP; auto).
    assert (Pxh : P xh) by (apply nth_error_In in Exh; rewrite Forall_forall in HP; auto).
    assert (Hne : (l < h)%Z).
    { destruct (Z.eq_dec l h) as [E|]; [|lia]. subst. rewrite Exl in Exh. injection Exh as <-.
      destruct (tp_total _ _ TP xl pivot Pxl Hp); congruence. }
    assert (Hpl : leb pivot xl = true) by (destruct (tp_total _ _ TP xl pivot Pxl Hp); congruence).
    assert (Hph : leb xh pivot = true) by (destruct (tp_total _ _ TP xh pivot Pxh Hp); congruence).
    assert (Pl : Pat a1 l (fun x => leb x pivot = true)).
    { intros x Hx. rewrite Hn in Hx. unfold tr in Hx. rewrite Nat.eqb_refl in Hx. congruence. }
    assert (Ph : Pat a1 h (fun x => leb pivot x = true)).
    { intros x Hx. rewrite Hn in Hx. unfold tr in Hx. rewrite Nat.eqb_refl in Hx.
      destruct (Nat.eqb_spec (Z.to_nat h) (Z.to_nat l)); [lia|]. congruence. }
    assert (Po : forall k Q, (0 <= k)%Z -> k <> l -> k <> h -> Pat a k Q -> Pat a1 k Q).
    { intros k Q Hk0 Hk1 Hk2 Hq x Hx. rewrite Hn in Hx. unfold tr in Hx.
      destruct (Nat.eqb_spec (Z.to_nat k) (Z.to_nat l)); [lia|].
      destruct (Nat.eqb_spec (Z.to_nat k) (Z.to_nat h)); [lia|]. auto. }
    destruct (rearr_lengths _ _ _ _ _ _ HR) as [La1 Lm1].
    (* the loop re-scans from l and h; the next scan_down passes h *)
    assert (Hf' : (h - l + 1 < Z.of_nat f)%Z).
    { destruct Hf as [Hf|(Hf & Hle & Hq)]; [lia|].
      destruct (Z.eq_dec h high) as [E|]; [|lia]. subst h.
      specialize (Hq _ Exh). congruence. }
    destruct (IH a1 m1 l h) as (a' & m' & h' & E & HR' & Hb & K1 & K2); try assumption; try lia.
    + eapply rearr_Forall; eauto.
    + right. split; [lia|]. split; [lia|assumption].
    + intros k Hk. apply Po; try lia. destruct (Z_lt_dec k low); [apply HL; lia|apply Hlk; lia].
    + intros k Hk. apply Po; try lia. destruct (Z_lt_dec high k); [apply HH; lia|apply Hhk; lia].
    + exists a', m', h'. split; [exact E|]. split; [eapply rearr_trans; eauto|]. auto.
  - exists a, m, h. split; auto. split; [apply rearr_refl|]. split; [lia|]. split.
    + intros k Hk. destruct (Z_lt_dec k low); [apply HL; lia|apply Hlk; lia].
    + intros k Hk. destruct (Z_lt_dec high k); [apply HH; lia|apply Hhk; lia].
Qed.
Lemma partition_spec (a : list A) (m : list B) s e :
  Forall P a -> (0 <= s)%Z -> (s < e)%Z -> (e < Z.of_nat (length a))%Z -> (e < Z.of_nat (length m))%Z ->
  exists a' m' h pv, partition leb a s e m = Ok (a', m', h) /\ P pv /\
    rearranged_between s e a m a' m' /\ (s <= h <= e)%Z /\
    nth_error a' (Z.to_nat h) = Some pv /\
    (forall k, (s <= k < h)%Z -> Pat a' k (fun x => leb x pv = true)) /\
    (forall k, (h < k <= e)%Z -> Pat a' k (fun x => leb pv x = true)).
Proof.
  intros HP H0 Hse Ha Hm. unfold partition.
  destruct (nth_error a (Z.to_nat s)) as [pv|] eqn:Epv; [|apply nth_error_None in Epv; lia].
  assert (Hg : zget a s = Ok pv).
  { unfold zget, lget. destruct (Z.ltb_spec s 0); [lia|]. now rewrite Epv. }
  assert (Hp : P pv) by (apply nth_error_In in Epv; rewrite Forall_forall in HP; auto).
  rewrite Hg; cbn [rbind].
  destruct (partition_loop_spec (loop_fuel s e) a m pv (s + 1) e (s + 1) e)
    as (a1 & m1 & h & E & HR & Hb & K1 & K2); auto; try lia.
  all: try (left; unfold loop_fuel; lia).
  all: try (intros k Hk; lia).
  rewrite E; cbn [rbind].
  destruct (rearr_lengths _ _ _ _ _ _ HR) as [La1 Lm1].
  destruct (swap2_spec s e a1 m1 s h) as (a2 & m2 & Ea & Em & HR2 & Hn); try lia.
  rewrite Ea; cbn [rbind]. rewrite Em; cbn [rbind].
  assert (Es : nth_error a1 (Z.to_nat s) = Some pv).
  { rewrite <- Epv. apply (rearr_outside _ _ _ _ _ _ (Z.to_nat s) HR). lia. }
  exists a2, m2, h, pv. split; auto. split; auto. split.
  { eapply rearr_trans; [|exact HR2]. eapply rearr_weaken; [| |exact HR]; lia. }
  split; [lia|]. split.
  { rewrite Hn. unfold tr. destruct (Nat.eqb_spec (Z.to_nat h) (Z.to_nat s)) as [Ex|Ex].
    - rewrite Ex. exact Es.
    - rewrite Nat.eqb_refl. exact Es. }
  split.
  - intros k Hk x Hx. rewrite Hn in Hx. unfold tr in Hx.
    destruct (Nat.eqb_spec (Z.to_nat k) (Z.to_nat s)).
    + apply (K1 h); [lia|exact Hx].
    + destruct (Nat.eqb_spec (Z.to_nat k) (Z.to_nat h)); [lia|]. apply (K1 k); [lia|auto].
  - intros k Hk x Hx. rewrite Hn in Hx. unfold tr in Hx.
    destruct (Nat.eqb_spec (Z.to_nat k) (Z.to_nat s)); [lia|].
    destruct (Nat.eqb_spec (Z.to_nat k) (Z.to_nat h)); [lia|]. apply (K2 k); [lia|auto].
Qed.

(** a property of all elements in s..e survives rearrangement of s..e *)
Lemma rearr_range s e (a : list A) (m : list B) a' m' (Q : A -> Prop) :
  rearranged_between s e a m a' m' -> (0 <= s)%Z ->
  (forall k, (s <= k <= e)%Z -> Pat a k Q) -> (forall k, (s <= k <= e)%Z -> Pat a' k Q).
Proof.
  intros (L & _ & p & I & F & N) H0 H k Hk x Hx.
  destruct (N (Z.to_nat k)) as [E _]. rewrite Hx in E.
  assert (Hin : (s <= Z.of_nat (p (Z.to_nat k)) <= e)%Z).
  { destruct (Z_lt_dec (Z.of_nat (p (Z.to_nat k))) s) as [H1|H1].
    - pose proof (F (p (Z.to_nat k)) (or_introl H1)) as E2. apply I in E2. lia.
    - destruct (Z_lt_dec e (Z.of_nat (p (Z.to_nat k)))) as [H2|H2]; [|lia].
      pose proof (F (p (Z.to_nat k)) (or_intror H2)) as E2. apply I in E2. lia. }
  apply (H _ Hin). rewrite Nat2Z.id. auto.
Qed.

Lemma qsort_spec fuel (a : list A) (m : list B) s e :
  Forall P a -> (0 <= s)%Z -> (e < Z.of_nat (length a))%Z -> (e < Z.of_nat (length m))%Z ->
  (e - s + 1 < Z.of_nat fuel)%Z -> (0 < fuel) ->
  exists a' m', qsort leb fuel a s e m = Ok (a', m') /\
    rearranged_between s e a m a' m' /\ sorted_between leb a' s e.
Proof.
  revert a m s e; induction fuel as [|f IH]; intros a m s e HP H0 Ha Hm Hf Hf0; [lia|].
  cbn [qsort]. destruct (Z.leb_spec e s) as [L|L].
  - exists a, m. split; auto. split; [apply rearr_refl|]. intros i j x y H1 H2 H3. lia.
  - destruct (partition_spec a m s e) as (a1 & m1 & h & pv & E & Hpv & HR & Hb & Eh & K1 & K2); auto.
    rewrite E; cbn [rbind].
    destruct (rearr_lengths _ _ _ _ _ _ HR) as [La1 Lm1].
    assert (HP1 : Forall P a1) by (eapply rearr_Forall; eauto).
    destruct (IH a1 m1 s (h - 1)%Z) as (a2 & m2 & E2 & HR2 & S2); auto; try lia.
    rewrite E2; cbn [rbind].
    destruct (rearr_lengths _ _ _ _ _ _ HR2) as [La2 Lm2].
    assert (HP2 : Forall P a2) by (eapply rearr_Forall; eauto).
    destruct (IH a2 m2 (h + 1)%Z e) as (a3 & m3 & E3 & HR3 & S3); auto; try lia.
    destruct (rearr_lengths _ _ _ _ _ _ HR3) as [La3 Lm3].
    exists a3, m3. split; auto. split.
    { eapply rearr_trans; [exact HR|]. eapply rearr_trans.
      - eapply rearr_weaken; [| |exact HR2]; lia.
      - eapply rearr_weaken; [| |exact HR3]; lia. }
    assert (Q1 : forall k, (s <= k <= h - 1)%Z -> Pat a2 k (fun x => leb x pv = true)).
    { eapply rearr_range; [exact HR2|lia|]. intros k Hk. apply K1. lia. }
    assert (Q2 : forall k, (h + 1 <= k <= e)%Z -> Pat a3 k (fun x => leb pv x = true)).
    { eapply rearr_range; [exact HR3|lia|]. intros k Hk x Hx.
      destruct (rearr_outside _ _ _ _ _ _ (Z.to_nat k) HR2) as [Eo _]; [lia|].
      rewrite Eo in Hx. apply (K2 k); [lia|auto]. }
    assert (Q3 : nth_error a3 (Z.to_nat h) = Some pv).
    { destruct (rearr_outside _ _ _ _ _ _ (Z.to_nat h) HR3) as [-> _]; [lia|].
      destruct (rearr_outside _ _ _ _ _ _ (Z.to_nat h) HR2) as [-> _]; [lia|]. auto. }
    assert (Q4 : forall k, (s <= k <= h - 1)%Z -> Pat a3 k (fun x => leb x pv = true)).
    { intros k Hk x Hx. destruct (rearr_outside _ _ _ _ _ _ (Z.to_nat k) HR3) as [Eo _]; [lia|].
      rewrite Eo in Hx. apply (Q1 k); auto. }
    assert (HP3 : Forall P a3) by (eapply rearr_Forall; eauto).
    rewrite Forall_forall in HP3.
    intros i j x y Hi Hij Hj Hx Hy.
    assert (Px : P x) by (apply HP3; eapply nth_error_In; eauto).
    assert (Py : P y) by (apply HP3; eapply nth_error_In; eauto).
    destruct (Z_lt_dec (Z.of_nat j) h) as [J|J].
    + apply (S2 i j x y); auto; try lia.
      * destruct (rearr_outside _ _ _ _ _ _ i HR3) as [<- _]; [lia|auto].
      * destruct (rearr_outside _ _ _ _ _ _ j HR3) as [<- _]; [lia|auto].
    + destruct (Z_lt_dec h (Z.of_nat i)) as [I|I].
      * apply (S3 i j x y); auto; lia.
      * assert (X1 : leb x pv = true).
        { destruct (Z.eq_dec (Z.of_nat i) h) as [Ei|].
          - rewrite <- Ei, Nat2Z.id in Q3. rewrite Q3 in Hx. injection Hx as <-. now apply tp_refl.
          - apply (Q4 (Z.of_nat i)); [lia|]. now rewrite Nat2Z.id. }
        assert (X2 : leb pv y = true).
        { destruct (Z.eq_dec (Z.of_nat j) h) as [Ei|].
          - rewrite <- Ei, Nat2Z.id in Q3. rewrite Q3 in Hy. injection Hy as <-. now apply tp_refl.
          - apply (Q2 (Z.of_nat j)); [lia|]. now rewrite Nat2Z.id. }
        apply (tp_trans _ _ TP x pv y); auto.
Qed.

Lemma dual_quick_sort_spec (a : list A) (m : list B) s e :
  Forall P a -> (0 <= s)%Z -> (e < Z.of_nat (length a))%Z -> (e < Z.of_nat (length m))%Z ->
  exists a' m', dual_quick_sort leb a s e m = Ok (a', m') /\
    rearranged_between s e a m a' m' /\ sorted_between leb a' s e.
Proof. intros. apply qsort_spec; auto; lia. Qed.

(** a common rearrangement permutes the list of pairs *)
Lemma rearr_Permutation s e (a : list A) (m : list B) a' m' :
  length a = length m -> rearranged_between s e a m a' m' ->
  Permutation (combine a' m') (combine a m).
Proof.
  intros Hlen (L & M & p & I & F & N).
  assert (Hn : forall i, nth_error (combine a' m') i = nth_error (combine a m) (p i)).
  { assert (C : forall (x : list A) (y : list B) i, nth_error (combine x y) i =
              match nth_error x i, nth_error y i with Some u, Some v => Some (u, v) | _, _ => None end).
    { induction x as [|u x IH]; intros [|v y] [|i]; simpl; auto.
      - destruct (nth_error x i); auto. }
    intros i. rewrite !C. destruct (N i) as [-> ->]. auto. }
  symmetry. apply Permutation_nth_error. split.
  - rewrite !combine_length. lia.
  - exists p. split; [exact I | exact Hn].
Qed.
End S.

(** ** Elements that compare with nothing (IEEE NaN) *)
Section NaN.
Context {A B : Type}.
Variable leb : A -> A -> bool.

Lemma partition_loop_nan fuel (a : list A) (m : list B) pivot low high :
  (0 <= low <= high)%Z -> (high < Z.of_nat (length a))%Z -> (high < Z.of_nat (length m))%Z ->
  (incomparable leb pivot \/
   exists k x, (low <= k <= high)%Z /\ nth_error a (Z.to_nat k) = Some x /\ incomparable leb x) ->
  partition_loop leb fuel a m pivot low high = Err EFuel.
Proof.
  revert a m low high. induction fuel as [|f IH]; intros a m low high H1 H2 H3 H4; [reflexivity|].
  cbn [partition_loop].
  destruct (scan_down_spec leb (loop_fuel low high) a pivot low high) as (h & Eh & Bh & Kh & _);
    try (unfold loop_fuel; lia).
  rewrite Eh. cbn [rbind].
  destruct (scan_up_spec leb (loop_fuel low h) a pivot low h) as (l & El & Bl & Kl & _);
    try (unfold loop_fuel; lia).
  rewrite El. cbn [rbind].
  assert (Hlh : (l <= h)%Z /\ (incomparable leb pivot \/
     exists k x, (l <= k <= h)%Z /\ nth_error a (Z.to_nat k) = Some x /\ incomparable leb x)).
  { destruct H4 as [Hp|(k & x & Hk & Hx & Bx)].
    - assert (h = high).
      { destruct (Z.eq_dec h high); auto. exfalso.
        destruct (nth_error a (Z.to_nat high)) as [y|] eqn:Ey; [|apply nth_error_None in Ey; lia].
        assert (X := Kh high ltac:(lia) y Ey). cbn in X. destruct (Hp y). congruence. }
      assert (l = low).
      { destruct (Z.eq_dec l low); auto. exfalso.
        destruct (nth_error a (Z.to_nat low)) as [y|] eqn:Ey; [|apply nth_error_None in Ey; lia].
        assert (X := Kl low ltac:(lia) y Ey). cbn in X. destruct (Hp y). congruence. }
      split; [lia|left; auto].
    - assert (k <= h)%Z.
      { destruct (Z_le_gt_dec k h); auto. exfalso.
        assert (X := Kh k ltac:(lia) x Hx). cbn in X. destruct (Bx pivot). congruence. }
      assert (l <= k)%Z.
      { destruct (Z_le_gt_dec l k); auto. exfalso.
        assert (X := Kl k ltac:(lia) x Hx). cbn in X. destruct (Bx pivot). congruence. }
      split; [lia|]. right. exists k, x. split; [lia|split; auto]. }
  destruct Hlh as [Hlh Hbad].
  destruct (Z.leb_spec l h); [|lia].
  destruct (swap_spec a l h) as (a' & Ea & La & Na); [lia|lia|].
  destruct (swap_spec m l h) as (m' & Em & Lm & Nm); [lia|lia|].
  rewrite Ea. cbn [rbind]. rewrite Em. cbn [rbind].
  apply IH; try lia.
  destruct Hbad as [Hp|(k & x & Hk & Hx & Bx)]; [now left|right].
  destruct (Z.eq_dec k l) as [->|]; [|destruct (Z.eq_dec k h) as [->|]].
  - exists h, x. split; [lia|split; [|exact Bx]]. rewrite Na. unfold tr.
    destruct (Nat.eqb_spec (Z.to_nat h) (Z.to_nat l)) as [E|]; [now rewrite E|]. now rewrite Nat.eqb_refl.
  - exists l, x. split; [lia|split; [|exact Bx]]. rewrite Na. unfold tr. now rewrite Nat.eqb_refl.
  - exists k, x. split; [lia|split; [|exact Bx]]. rewrite Na. unfold tr.
    destruct (Nat.eqb_spec (Z.to_nat k) (Z.to_nat l)); [lia|].
    destruct (Nat.eqb_spec (Z.to_nat k) (Z.to_nat h)); [lia|]. auto.
Qed.

Lemma dual_quick_sort_nan (a : list A) (m : list B) s e k x :
  (0 <= s < e)%Z -> (e < Z.of_nat (length a))%Z -> (e < Z.of_nat (length m))%Z ->
  (s <= k <= e)%Z -> nth_error a (Z.to_nat k) = Some x -> incomparable leb x ->
  dual_quick_sort leb a s e m = Err EFuel.
Proof.
  intros H1 H2 H3 H4 Hx Bx. unfold dual_quick_sort. cbn [qsort].
  destruct (Z.leb_spec e s); [lia|]. unfold partition.
  destruct (nth_error a (Z.to_nat s)) as [p|] eqn:Ep; [|apply nth_error_None in Ep; lia].
  unfold zget, lget. destruct (Z.ltb_spec s 0); [lia|]. rewrite Ep. cbn [rbind].
  rewrite partition_loop_nan; [reflexivity|lia|lia|lia|].
  destruct (Z.eq_dec k s) as [->|].
  - left. rewrite Ep in Hx. now injection Hx as ->.
  - right. exists k, x. split; [lia|split; auto].
Qed.
End NaN.
