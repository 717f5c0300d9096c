(** FuzzyFacts.v — proofs about Fuzzy.fuzzyfication (Functions.v). *)
From Verif Require Import Base BaseFacts Num Functions Spec RealFacts FunctionsFacts RlFacts.
Local Open Scope R_scope.

(** sorted lists, elementwise *)
Fixpoint incr (l : list R) : Prop :=
  match l with [] => True | a :: t => Forall (fun b => a < b) t /\ incr t end.
Lemma incr_of l : increasing_list l -> incr l.
Proof.
  induction l as [|a l IH]; intros H; cbn; auto. split.
  - apply Forall_forall. intros b Hb. apply In_nth_error in Hb as [j Hj]. apply (H 0%nat (S j) a b); auto; lia.
  - apply IH. intros i j x y Hij Hx Hy. apply (H (S i) (S j)); auto; lia.
Qed.
Lemma incr_app l t : incr (l ++ t) -> incr l /\ incr t /\ forall a b, In a l -> In b t -> a < b.
Proof.
  induction l as [|c l IH]; cbn; [intros H; repeat split; auto; intros a b []|].
  intros [H1 H2]. destruct (IH H2) as (I1 & I2 & I3). apply Forall_app in H1 as [H1 H1']. repeat split; auto.
  intros a b [->|Ha] Hb; auto. rewrite Forall_forall in H1'. auto.
Qed.

Section Scan.
Variables (x : R) (ms : list R).
Notation scan := (fuzzyfication_scan x ms).
Lemma scan_below l : forall t pos pv nv pp np, (forall v, In v l -> v < x) -> incr l ->
  exists pv' pp', scan (l ++ t) pos pv nv pp np = scan t (pos + length l)%nat pv' nv pp' np /\
    ((forall v, In v l -> pv <= x - v) -> pv' = pv /\ pp' = pp) /\
    (forall l' a, l = l' ++ [a] -> x - a < pv -> pv' = x - a /\ pp' = (pos + length l')%nat).
Proof.
  induction l as [|v l IH]; intros t pos pv nv pp np Hl Hi.
  - exists pv, pp. cbn [app length]. rewrite Nat.add_0_r. split; [reflexivity|]. split; auto. intros [|? ?] a E; discriminate.
  - cbn [app fuzzyfication_scan]. assert (Hv : v < x) by (apply Hl; now left). destruct Hi as [Hf Hi].
    cbv zeta. rnum. 
    destruct (Reqb_spec x v); [lra|]. destruct (Rltb_spec 0 (x - v)); [|lra].
    destruct (Rltb_spec (x - v) pv) as [Lp|Lp].
    + destruct (IH t (S pos) (x - v) nv pos np) as (pv' & pp' & E & I1 & I2); auto; [intros; apply Hl; now right|].
      exists pv', pp'. rewrite E. split; [f_equal; cbn [length]; lia|]. split.
      * intros H. specialize (H v (or_introl eq_refl)). lra.
      * intros l' a El La. destruct l' as [|v' l'].
        -- injection El as -> ->. cbn [length]. destruct I1 as [-> ->]; [intros ? []|]. split; auto.
        -- injection El as <- El. destruct (I2 l' a El) as [-> ->]; [|cbn [length]; split; [auto|lia]].
           rewrite Forall_forall in Hf. assert (v < a) by (apply Hf; rewrite El; apply in_or_app; right; now left). lra.
    + destruct (IH t (S pos) pv nv pp np) as (pv' & pp' & E & I1 & I2); auto; [intros; apply Hl; now right|].
      exists pv', pp'. rewrite E. split; [f_equal; cbn [length]; lia|]. split.
      * intros H. apply I1. intros; apply H; now right.
      * intros l' a El La. destruct l' as [|v' l'].
        -- injection El as -> ->. lra.
        -- injection El as <- El. destruct (I2 l' a El La) as [-> ->]. cbn [length]. split; [auto|lia].
Qed.
(** values that leave the position of the next value alone *)
Lemma scan_rest l : forall pos pv nv pp np, (forall v, In v l -> x < v /\ x - v <= nv) ->
  scan l pos pv nv pp np = inr (pv, nv, pp, np).
Proof.
  induction l as [|v l IH]; intros pos pv nv pp np Hl; [reflexivity|]. cbn [fuzzyfication_scan].
  destruct (Hl v) as [H1 H2]; [now left|]. cbv zeta. rnum.
  destruct (Reqb_spec x v); [lra|]. destruct (Rltb_spec 0 (x - v)); [lra|]. destruct (Rltb_spec nv (x - v)); [lra|].
  apply IH. intros; apply Hl; now right.
Qed.
(** values that are never a nearest lower value *)
Lemma scan_far l : forall pos nv pp np, (forall v, In v l -> x < v \/ v <= x - 1) ->
  exists nv' np', scan l pos 1 nv pp np = inr (1, nv', pp, np').
Proof.
  induction l as [|v l IH]; intros pos nv pp np Hl; [cbn; eauto|]. cbn [fuzzyfication_scan].
  specialize (Hl v (or_introl eq_refl)) as H1. cbv zeta. rnum.
  assert (Hr : forall w, In w l -> x < w \/ w <= x - 1) by (intros; apply Hl; now right).
  destruct (Reqb_spec x v); [lra|]. destruct (Rltb_spec 0 (x - v)).
  - destruct (Rltb_spec (x - v) 1); [lra|]. now apply IH.
  - destruct (Rltb_spec nv (x - v)); now apply IH.
Qed.
End Scan.

Lemma nth_split {A} (l : list A) i a : nth_error l i = Some a -> exists l1 l2, l = l1 ++ a :: l2 /\ length l1 = i.
Proof. intros H. now apply nth_error_split in H. Qed.
Lemma last_split {A} (l : list A) : l <> [] -> exists l' a, l = l' ++ [a].
Proof. intros H. destruct (exists_last H) as (l' & a & E). eauto. Qed.

Lemma fuzzyfication_at v mn nv ms vs i m : nv <> 0 -> increasing_list vs ->
  nth_error vs i = Some ((v + mn) / nv) -> nth_error ms i = Some m -> fuzzyfication v mn nv ms vs = Ok m.
Proof.
  intros Hn Hi Hx Hm. unfold fuzzyfication. rewrite pdiv_R by auto. cbn [rbind]. rnum. set (x := (v + mn) / nv) in *.
  apply nth_split in Hx as (l1 & l2 & -> & L). apply incr_of, incr_app in Hi as (I1 & I2 & I3).
  destruct (scan_below x ms l1 (x :: l2) 0 1 (-1) 0 0) as (pv & pp & E & _); auto; [intros w Hw; apply I3; auto; now left|].
  rewrite E. cbn [fuzzyfication_scan]. rnum. destruct (Reqb_spec x x); [|congruence].
  unfold lget. cbn [Nat.add]. now rewrite L, Hm.
Qed.
Lemma fuzzyfication_mid v mn nv ms vs i a b p q : nv <> 0 -> increasing_list vs ->
  nth_error vs i = Some a -> nth_error vs (S i) = Some b -> nth_error ms i = Some p -> nth_error ms (S i) = Some q ->
  let x := (v + mn) / nv in
  a < x < b -> x - a < 1 -> b - x < 1 -> -1 <= p <= 1 -> -1 <= q <= 1 ->
  fuzzyfication v mn nv ms vs = Ok (p + (q - p) * ((x - a) / (b - a))).
Proof.
  intros Hn Hi Ha Hb Hp Hq x Hx D1 D2 Bp Bq. unfold fuzzyfication. rewrite pdiv_R by auto. cbn [rbind]. rnum. fold x.
  pose proof Ha as Ha'. pose proof Hb as Hb'.
  apply nth_split in Ha as (l1 & l2 & -> & L). 
  assert (Hb2 : exists t, l2 = b :: t).
  { rewrite nth_error_app2 in Hb by lia. replace (S i - length l1)%nat with 1%nat in Hb by lia. cbn in Hb. destruct l2; [discriminate|]. injection Hb as ->. eauto. }
  destruct Hb2 as [t ->]. apply incr_of in Hi. change (l1 ++ a :: b :: t) with (l1 ++ [a] ++ b :: t) in *. rewrite app_assoc in *.
  apply incr_app in Hi as (I1 & I2 & I3). destruct I2 as [I2 _].
  apply incr_app in I1 as (I4 & I5 & I6).
  destruct (scan_below x ms (l1 ++ [a]) (b :: t) 0 1 (-1) 0 0) as (pv & pp & E & _ & S2).
  { intros w Hw. apply in_app_or in Hw as [Hw|[<-|[]]]; [|lra]. specialize (I6 w a Hw (or_introl eq_refl)). lra. }
  { clear - I4 I5 I6. induction l1; cbn in *; auto. destruct I4 as [I4 I4']. split; [|apply IHl1; auto].
    apply Forall_app. split; auto. }
  destruct (S2 l1 a eq_refl D1) as [-> ->]. cbn [Nat.add] in E. rewrite L in E.
  rewrite E. cbn [fuzzyfication_scan]. cbv zeta. rnum.
  destruct (Reqb_spec x b); [lra|]. destruct (Rltb_spec 0 (x - b)); [lra|]. destruct (Rltb_spec (-1) (x - b)); [|lra].
  rewrite scan_rest.
  2:{ rewrite Forall_forall in I2. intros w Hw. specialize (I2 w Hw). lra. }
  destruct (Reqb_spec (x - a) 1); [lra|]. destruct (Reqb_spec (x - b) (-1)); [lra|].
  assert (Ln : length (l1 ++ [a]) = S i) by (rewrite app_length; cbn; lia).
  unfold lget. rewrite Ln, Hp, Hq, Ha', Hb'. cbn [rbind].
  destruct (Reqb_spec (b - a) 0); [lra|]. cbn [rbind].
  set (k := (x - a) / (b - a)).
  assert (Ek : (b - x) / (b - a) = 1 - k) by (unfold k; field; lra).
  rewrite Ek.
  assert (Bk : 0 <= k <= 1).
  { unfold k. split; [apply Rle_mult_inv_pos; lra|]. apply (Rmult_le_reg_r (b - a)); [lra|]. unfold Rdiv. rewrite Rmult_assoc, Rinv_l by lra. lra. }
  assert (Ev : (1 - k) * p + (1 - (1 - k)) * q = p + (q - p) * k) by ring. rewrite Ev.
  assert (Bv : -1 <= p + (q - p) * k <= 1) by nra.
  destruct (Rltb_spec 1 (p + (q - p) * k)); [lra|]. destruct (Rltb_spec (p + (q - p) * k) (-1)); [lra|]. reflexivity.
Qed.
Lemma fuzzyfication_low v mn nv ms vs : nv <> 0 -> ms <> [] ->
  let x := (v + mn) / nv in
  (forall w, In w vs -> x < w \/ w <= x - 1) -> exists m, fuzzyfication v mn nv ms vs = Ok m /\ is_min ms m.
Proof.
  intros Hn Hm x Hx. unfold fuzzyfication. rewrite pdiv_R by auto. cbn [rbind]. rnum. fold x.
  destruct (scan_far x ms vs 0 (-1) 0 0 Hx) as (a & b & E). rewrite E. destruct (Reqb_spec 1 1); [|congruence].
  now apply min_list_spec.
Qed.
Lemma fuzzyfication_high v mn nv ms vs i a : nv <> 0 -> ms <> [] -> increasing_list vs ->
  let x := (v + mn) / nv in
  nth_error vs i = Some a -> a < x -> x - a < 1 -> (forall w, In w vs -> w < x \/ x + 1 <= w) ->
  exists m, fuzzyfication v mn nv ms vs = Ok m /\ is_max ms m.
Proof.
  intros Hn Hm Hi x Ha La Da Hx. unfold fuzzyfication. rewrite pdiv_R by auto. cbn [rbind]. rnum. fold x.
  apply incr_of in Hi. apply nth_error_In in Ha.
  assert (S : exists l1 l2, vs = l1 ++ l2 /\ (forall w, In w l1 -> w < x) /\ (forall w, In w l2 -> x + 1 <= w) /\ In a l1).
  { clear Hm. induction vs as [|c vs IH]; [destruct Ha|]. destruct Hi as [Hc Hi].
    destruct (Hx c (or_introl eq_refl)) as [Lc|Lc].
    - destruct Ha as [->|Ha].
      + clear IH. assert (G : exists l1 l2, vs = l1 ++ l2 /\ (forall w, In w l1 -> w < x) /\ (forall w, In w l2 -> x + 1 <= w)).
        { assert (Hx' : forall w, In w vs -> w < x \/ x + 1 <= w) by (intros; apply Hx; now right). clear Hc Hx.
          induction vs as [|d vs IH]; [exists [], []; repeat split; intros ? []|]. destruct Hi as [Hd Hi].
          destruct (Hx' d (or_introl eq_refl)) as [Ld|Ld].
          - destruct IH as (l1 & l2 & -> & A & B); auto; [intros; apply Hx'; now right|].
            exists (d :: l1), l2. repeat split; auto. intros w [<-|]; auto.
          - exists [], (d :: vs). repeat split; [intros ? []|]. intros w [<-|Hw]; auto. rewrite Forall_forall in Hd. specialize (Hd w Hw). lra. }
        destruct G as (l1 & l2 & -> & A & B). exists (a :: l1), l2. repeat split; auto; [|now left]. intros w [<-|]; auto.
      + destruct IH as (l1 & l2 & -> & A & B & C); auto; [intros; apply Hx; now right|].
        exists (c :: l1), l2. repeat split; auto; [|now right]. intros w [<-|]; auto.
    - exfalso. destruct Ha as [->|Ha]; [lra|]. rewrite Forall_forall in Hc. specialize (Hc a Ha). lra. }
  destruct S as (l1 & l2 & -> & A & B & C). apply incr_app in Hi as (I1 & I2 & I3).
  destruct (scan_below x ms l1 l2 0 1 (-1) 0 0 A I1) as (pv & pp & E & _ & S2).
  rewrite E.
  rewrite scan_rest by (intros w Hw; specialize (B w Hw); lra).
  destruct (last_split l1) as (l' & z & Ez); [intros ->; destruct C|].
  assert (Lz : a <= z).
  { subst l1. apply in_app_or in C as [C|[->|[]]]; [|lra]. apply incr_app in I1 as (_ & _ & I1). specialize (I1 a z C (or_introl eq_refl)). lra. }
  destruct (S2 l' z Ez) as [-> ->]; [lra|]. destruct (Reqb_spec (x - z) 1); [lra|].
  destruct (Reqb_spec (-1) (-1)); [|congruence]. now apply max_list_spec.
Qed.
