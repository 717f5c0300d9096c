(** FcmStop.v — exactly when an iterative run stops (C24, used by C71 and C72). *)
From Verif Require Import Base BaseFacts Num Functions Spec SortFacts Fcm FcmSpec DynSpec FcmInv FcmInv2 FcmInv3 FcmIter FcmRun FcmRun2 FcmRun3.

(** ** The countdown: [k i] = pass [i] saw the map still moving *)
Section Countdown.
Variables (E : nat) (k : nat -> bool).
Fixpoint countdown (i : nat) : nat :=
  match i with
  | O => E
  | S j => if k j then E else countdown j - 1
  end.
Lemma countdown_idle i d : d <= i -> (forall j, i - d <= j < i -> k j = false) -> countdown i <= E - d.
Proof.
  revert i. induction d as [|d IH]; intros i Hd H.
  - assert (G : forall i, countdown i <= E) by (clear; induction i as [|i IH]; cbn; [lia|destruct (k i); lia]). specialize (G i). lia.
  - destruct i as [|i]; [lia|]. cbn. rewrite (H i) by lia.
    specialize (IH i ltac:(lia)). assert (countdown i <= E - d) by (apply IH; intros j Hj; apply H; lia). lia.
Qed.
Lemma countdown_zero i : countdown i = 0 -> (forall j, j < i -> 0 < countdown j) ->
  E <= i /\ forall j, i - E <= j < i -> k j = false.
Proof.
  intros H0 Hp.
  assert (G : forall n, n <= i -> forall d, countdown n + d = E -> d <= n /\ forall j, n - d <= j < n -> k j = false).
  { induction n as [|n IH]; intros Hn d Hd; cbn [countdown] in Hd.
    - split; [lia|intros; lia].
    - destruct (k n) eqn:Ek; [split; [lia|]; intros j Hj; lia|].
      specialize (Hp n ltac:(lia)). destruct d as [|d]; [split; [lia|intros; lia]|].
      destruct (IH ltac:(lia) d ltac:(lia)) as [I1 I2]. split; [lia|]. intros j Hj.
      destruct (Nat.eq_dec j n) as [->|]; [exact Ek|]. apply I2. lia. }
  destruct (G i ltac:(lia) E ltac:(lia)) as [G1 G2]. auto.
Qed.
End Countdown.
Section Stop.
Context {F : Type} {N : Num F}.
Notation fcm := (fcm F).
Implicit Types (s : fcm).

Lemma inf_step_extra s s1 : inf_step s = (s1, Ok tt) -> settings s1 = settings s.
Proof. intros E. pose proof (inf_step_settings s) as S. now rewrite E in S. Qed.
(** a successful loop as the list of its states *)
Lemma iter_loop_states fuel e s s' : (1 <= m_extra s)%Z -> (0 <= e)%Z -> iter_loop fuel e s = (s', Ok tt) ->
  exists L (st : nat -> fcm) (k : nat -> bool) (cnt : nat -> Z),
    st 0 = s /\ st L = s' /\ cnt 0 = e /\ cnt L = 0%Z /\
    forall i, i < L -> (0 < cnt i)%Z /\ keep_execution (st i) = Ok (k i) /\ inf_step (st i) = (st (S i), Ok tt) /\
      cnt (S i) = (if k i then m_extra s - 1 else cnt i - 1)%Z.
Proof.
  revert e s. induction fuel as [|f IH]; intros e s HE He; cbn [iter_loop]; destruct (Z.ltb_spec 0 e).
  - discriminate.
  - intros [= <-]. exists 0, (fun _ => s), (fun _ => true), (fun _ => e). repeat split; lia.
  - destruct (keep_execution s) as [b|x] eqn:Ek; [|discriminate].
    destruct (inf_step s) as [s1 [[]|x]] eqn:Es; [|discriminate].
    intros H1. pose proof (settings_max _ _ (inf_step_extra _ _ Es)) as (_ & M & _).
    destruct (IH (if b then m_extra s - 1 else e - 1)%Z s1 ltac:(lia) ltac:(destruct b; lia) H1) as (L & st & k & cnt & A1 & A2 & A3 & A4 & A5).
    exists (S L), (fun i => match i with O => s | S i => st i end), (fun i => match i with O => b | S i => k i end),
      (fun i => match i with O => e | S i => cnt i end).
    do 4 (split; [auto|]). intros [|i] Hi.
    + split; [lia|]. split; [exact Ek|]. split; [now rewrite Es, A1|]. exact A3.
    + rewrite <- M. apply A5. lia.
  - intros [= <-]. exists 0, (fun _ => s), (fun _ => true), (fun _ => e). repeat split; lia.
Qed.
Lemma inf_step_hist s s1 : runnable s -> inf_step s = (s1, Ok tt) ->
  runnable s1 /\ (forall c, history s c = None -> history s1 c = None) /\
  forall c h, history s c = Some h -> exists v, history s1 c = Some (h ++ [v]).
Proof.
  intros R E. pose proof (inf_step_spec s R) as I. rewrite E in I.
  destruct (rmap _ _) as [ys|x]; [|destruct I as [s'' I]; discriminate]. destruct I as (y & _ & I). injection I as ->.
  split; [now apply stepped_runnable|]. unfold history, stepped, upd_exec. cbn [m_exec set_iters set_exec]. split.
  - intros c H. now rewrite dget_dmap, H.
  - intros c h H. rewrite dget_dmap, H. eauto.
Qed.
(** the trail of states of a successful loop *)
Record trail (L : nat) (st : nat -> fcm) : Prop := {
  tr_run : forall i, i <= L -> runnable (st i);
  tr_set : forall i, i <= L -> settings (st i) = settings (st 0);
  tr_it : forall i, i <= L -> m_iters (st i) = (m_iters (st 0%nat) + Z.of_nat i)%Z;
  tr_hist : forall i j c h, i <= j <= L -> history (st i) c = Some h ->
    exists t, history (st j) c = Some (h ++ t) /\ length t = j - i;
  tr_none : forall i j c, i <= j <= L -> history (st i) c = None -> history (st j) c = None
}.
Lemma make_trail L st : runnable (st 0) -> (forall i, i < L -> inf_step (st i) = (st (S i), Ok tt)) -> trail L st.
Proof.
  intros R H.
  assert (RR : forall i, i <= L -> runnable (st i)).
  { induction i as [|i IH]; intros Hi; auto. apply (inf_step_hist (st i)); [apply IH; lia|apply H; lia]. }
  constructor; auto.
  - induction i as [|i IH]; intros Hi; auto. rewrite <- IH by lia. apply inf_step_extra, H. lia.
  - induction i as [|i IH]; intros Hi; [lia|]. rewrite (inf_step_iters _ _ (H i ltac:(lia))), IH by lia. lia.
  - intros i j c h Hij Hh. destruct (Nat.le_exists_sub i j) as (d & -> & _); [lia|]. replace (d + i - i) with d by lia.
    induction d as [|d IH].
    + exists []. rewrite app_nil_r. auto.
    + destruct IH as (t & Ht & Hl); [lia|].
      destruct (inf_step_hist (st (d + i)) (st (S (d + i)))) as (_ & _ & X); [apply RR; lia|apply H; lia|].
      destruct (X c _ Ht) as [v Hv]. exists (t ++ [v]). rewrite app_assoc. split; [exact Hv|]. rewrite app_length. cbn. lia.
  - intros i j c Hij Hh. destruct (Nat.le_exists_sub i j) as (d & -> & _); [lia|].
    induction d as [|d IH]; auto.
    destruct (inf_step_hist (st (d + i)) (st (S (d + i)))) as (_ & X & _); [apply RR; lia|apply H; lia|].
    apply X, IH. lia.
Qed.
(** a pass sees the map at rest exactly when it is [idle] *)
Lemma keep_idle L st i b s s' : trail L st -> i <= L -> m_iters (st 0) = 1%Z ->
  (forall c h, history (st 0) c = Some h -> length h = 1) ->
  settings (st 0) = settings s -> m_exec s' = m_exec (st L) ->
  keep_execution (st i) = Ok b -> (b = false <-> idle s s' (S i)).
Proof.
  intros T Hi I1 H1 Se Ex.
  pose proof (settings_max _ _ (eq_trans (tr_set _ _ T i Hi) Se)) as (M1 & M2 & M3 & M4 & _).
  pose proof (tr_it _ _ T i Hi) as It. rewrite I1 in It.
  unfold keep_execution, idle. rewrite M1, M3. destruct (Z.leb_spec (m_maxit s) (m_iters (st i))) as [Hm|Hm].
  - intros [= <-]. split; auto. intros _. left. lia.
  - destruct (m_stab s) eqn:St.
    2: { intros [= <-]. split; [discriminate|]. intros [H|(H & _)]; [lia|discriminate]. }
    pose proof (tr_run _ _ T i Hi) as R.
    assert (ND : NoDup (dkeys (m_exec (st i)))) by (rewrite (rn_keys _ R); apply R).
    destruct (is_stable_spec (st i) ND) as (Z1 & Z2 & _).
    destruct (Nat.eq_dec i 0) as [->|Hi0].
    { rewrite Z1 by lia. cbn [rbind negb]. intros [= <-]. split; [discriminate|]. intros [H|(_ & H & _)]; lia. }
    assert (Ht : forall c h, history (st i) c = Some h -> length h = S i).
    { intros c h Hh. destruct (history (st 0) c) as [g|] eqn:E0.
      - destruct (tr_hist _ _ T 0 i c g ltac:(lia) E0) as (t & Et & Lt). rewrite Hh in Et. injection Et as ->.
        rewrite app_length, (H1 c g E0). lia.
      - rewrite (tr_none _ _ T 0 i c ltac:(lia) E0) in Hh. discriminate. }
    destruct Z2 as (x & Ex' & Hx); [lia| |].
    { intros c h Hh. rewrite (Ht c h Hh). lia. }
    rewrite Ex'. cbn [rbind]. intros [= <-]. rewrite negb_false_iff, Hx, M4.
    assert (HF : forall c h, history s' c = Some h -> exists g t, history (st i) c = Some g /\ h = g ++ t).
    { intros c h Hh. unfold history in Hh. rewrite Ex in Hh. fold (history (st L) c) in Hh.
      destruct (history (st i) c) as [g|] eqn:Eg.
      - destruct (tr_hist _ _ T i L c g ltac:(lia) Eg) as (t & Et & _). rewrite Hh in Et. injection Et as ->. eauto.
      - rewrite (tr_none _ _ T i L c ltac:(lia) Eg) in Hh. discriminate. }
    split.
    + intros H. right. split; [auto|]. split; [lia|]. intros c h a b0 Hh Ha Hb.
      destruct (HF c h Hh) as (g & t & Hg & ->). pose proof (Ht c g Hg) as Lg.
      rewrite nth_error_app1 in Ha by lia. rewrite nth_error_app1 in Hb by lia.
      assert (Eg : g = firstn (i - 1) g ++ [b0; a]).
      { rewrite <- (firstn_skipn (i - 1) g) at 1. f_equal.
        replace (S i - 2) with (i - 1) in Hb by lia.
        assert (Ha' : nth_error (skipn (i - 1) g) 1 = Some a).
        { rewrite <- Ha. replace (S i - 1) with (i - 1 + 1) by lia.
          clear. generalize (i - 1) as m. induction g as [|y g IH]; intros [|m]; try reflexivity; cbn; apply IH. }
        assert (Hb' : nth_error (skipn (i - 1) g) 0 = Some b0).
        { rewrite <- Hb. 
          clear. generalize (i - 1) as m. induction g as [|y g IH]; intros [|m]; try reflexivity; cbn; apply IH. }
        assert (Ls : length (skipn (i - 1) g) = 2) by (rewrite skipn_length; lia).
        destruct (skipn (i - 1) g) as [|p [|q [|]]]; try discriminate Ls. cbn in Ha', Hb'. congruence. }
      rewrite Eg in Hg. exact (H c _ _ _ Hg).
    + intros [H|(_ & _ & H)]; [lia|]. intros c g y x' Hg.
      pose proof (Ht c _ Hg) as Lg. rewrite app_length in Lg. cbn [length] in Lg.
      destruct (tr_hist _ _ T i L c _ ltac:(lia) Hg) as (t & Et & _).
      assert (Hh : history s' c = Some ((g ++ [y; x']) ++ t)) by (unfold history; rewrite Ex; exact Et).
      apply (H c _ x' y Hh).
      * rewrite <- app_assoc. rewrite nth_error_app2 by lia. replace (S i - 1 - length g) with 1 by lia. reflexivity.
      * rewrite <- app_assoc. rewrite nth_error_app2 by lia. replace (S i - 2 - length g) with 0 by lia. reflexivity.
Qed.
Lemma run_exact_stop s s' : sane s -> m_debug s = true -> run_inference true s = (s', Ok tt) ->
  exists L, (forall c, In c (concepts s) -> exists h, history s' c = Some h /\ length h = S L) /\ m_iters s' = (1 + Z.of_nat L)%Z /\
    let E := Z.to_nat (m_extra s - 1) in
    idle_for s s' E L /\ forall l, l < L -> ~ idle_for s s' E l.
Proof.
  intros Hs D Er. pose proof (sane_base s Hs) as B.
  pose proof (reachable_extra s (from_fresh_reachable _ _ Hs)) as HE.
  destruct (run_decompose true s s' D B ltac:(discriminate) Er) as (s1 & s2 & R1 & E1 & E2 & E3 & Fr1).
  unfold iterative_inference in E2. cbn [m_maxit m_extra set_iters] in E2.
  pose proof (runnable_iters 1 s1 R1) as R1'.
  pose proof (settings_max _ _ (proj1 (proj2 (proj2 Fr1)))) as (_ & M2 & _).
  destruct (iter_loop_states _ (m_extra s1 - 1)%Z (set_iters 1 s1) _ ltac:(cbn; lia) ltac:(lia) E2) as (L & st & k & cnt & A1 & A2 & A3 & A4 & A5).
  cbn [m_extra set_iters] in A5.
  assert (T : trail L st).
  { apply make_trail; [now rewrite A1|]. intros i Hi. apply A5. exact Hi. }
  assert (R2 : runnable s2) by (rewrite <- A2; apply T; lia).
  destruct (finalize_all _ _ _ (rn_nodup _ R2) (fun c H => H) E3) as (F1 & F2 & _).
  destruct (reset_ok_hist s s1 E1 B) as [Hne Es1].
  assert (H1 : forall c h, history (st 0) c = Some h -> length h = 1).
  { rewrite A1. intros c h. unfold history. cbn [m_exec set_iters]. rewrite Es1. cbn [m_exec set_exec set_topo].
    rewrite dget_dmap. destruct (dget (m_exec s) c) as [h0|] eqn:E0; [|discriminate].
    apply Hne in E0. destruct h0; [congruence|]. cbn. intros [= <-]. reflexivity. }
  assert (Se : settings (st 0) = settings s) by (rewrite A1; apply Fr1).
  assert (Ex : m_exec s' = m_exec (st L)) by (rewrite A2; exact F1).
  assert (KI : forall i, i < L -> (k i = false <-> idle s s' (S i))).
  { intros i Hi. apply (keep_idle L st i (k i) s s'); auto; try lia; [now rewrite A1|]. apply A5, Hi. }
  set (En := Z.to_nat (m_extra s - 1)).
  assert (CD : forall i, i <= L -> cnt i = Z.of_nat (countdown En k i)).
  { induction i as [|i IH]; intros Hi; cbn [countdown]; [lia|].
    destruct (A5 i ltac:(lia)) as (P & _ & _ & ->). destruct (k i); [lia|]. rewrite (IH ltac:(lia)) in *. lia. }
  exists L. split; [|split; [|split]].
  - intros c Hc. destruct B as (_ & _ & K & _). unfold concepts in Hc. rewrite <- K in Hc. apply dget_Some_In in Hc as [h Hh].
    assert (exists h0, history (st 0) c = Some h0) as [h0 Hh0].
    { rewrite A1. unfold history. cbn [m_exec set_iters]. rewrite Es1. cbn [m_exec set_exec set_topo].
      rewrite dget_dmap, Hh. eauto. }
    destruct (tr_hist _ _ T 0 L c h0 ltac:(lia) Hh0) as (t & Et & Lt).
    exists (h0 ++ t). split; [unfold history; rewrite Ex; exact Et|]. rewrite app_length, (H1 c h0 Hh0). lia.
  - rewrite F2, <- A2, (tr_it _ _ T L ltac:(lia)), A1. reflexivity.
  - destruct (countdown_zero En k L) as [Z1 Z2].
    { specialize (CD L ltac:(lia)). lia. }
    { intros j Hj. specialize (CD j ltac:(lia)). pose proof (A5 j Hj) as (P & _). lia. }
    split; [exact Z1|]. intros p Hp. destruct p as [|p]; [lia|]. apply KI; [lia|]. apply Z2. lia.
  - intros l Hl [H2 H3].
    assert (countdown En k l <= En - En).
    { apply countdown_idle; [exact H2|]. intros j Hj. apply KI; [lia|]. apply H3. lia. }
    specialize (CD l ltac:(lia)). pose proof (A5 l Hl) as (P & _). lia.
Qed.
End Stop.
