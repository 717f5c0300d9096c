(** SepFacts.v — groups of mutually exclusive concepts linked block by block: the
    state in which one block leads stays led by it (C93). *)
From Coq Require Import Reals Lra.
From Verif Require Import Base BaseFacts Num Functions Spec RealFacts Fcm FcmSpec VecSpec FcmVec5.
Local Open Scope R_scope.

Section Sums.
Lemma one_spot {A} (f : A -> R) l a : NoDup l -> In a l -> (forall b, In b l -> b <> a -> f b = 0) -> Rsum (map f l) = f a.
Proof.
  induction l as [|z l IH]; [easy|]. intros ND Ha H. apply NoDup_cons_iff in ND as [Nz ND]. cbn [map]. rewrite Rsum_cons1.
  assert (Z : ~ In a l -> Rsum (map f l) = 0 \/ z <> a).
  { intros Na. destruct l; auto. left. clear IH. assert (G : forall b, In b (a0 :: l) -> f b = 0) by (intros b Hb; apply H; [now right|intros ->; contradiction]).
    clear - G. induction (a0 :: l) as [|y m IH]; cbn [map]; rewrite ?Rsum_nil, ?Rsum_cons1; auto. rewrite IH by (intros; apply G; now right).
    rewrite (G y) by now left. lra. }
  destruct Ha as [->|Ha].
  - destruct (Z Nz) as [->|]; [lra|congruence].
  - rewrite (H z); [|now left|intros ->; contradiction]. rewrite IH; auto; [lra|]. intros b Hb. apply H. now right.
Qed.
Lemma two_spots {A} (f : A -> R) l a b : NoDup l -> In a l -> In b l -> a <> b ->
  (forall c, In c l -> c <> a -> c <> b -> f c = 0) -> Rsum (map f l) = f a + f b.
Proof.
  induction l as [|z l IH]; [easy|]. intros ND Ha Hb Ne H. apply NoDup_cons_iff in ND as [Nz ND]. cbn [map]. rewrite Rsum_cons1.
  destruct Ha as [->|Ha].
  - destruct Hb as [->|Hb]; [congruence|]. rewrite (one_spot f l b); auto. intros c Hc Nc. apply H; auto; [now right|intros ->; contradiction].
  - destruct Hb as [->|Hb].
    + rewrite (one_spot f l a); auto; [lra|]. intros c Hc Nc. apply H; auto; [now right|intros ->; contradiction].
    + rewrite (H z); [|now left|intros ->; contradiction|intros ->; contradiction]. rewrite IH; auto; [lra|]. intros c Hc. apply H. now right.
Qed.
Lemma NoDup_mid {A} (l l' l'' : list A) : NoDup (l ++ l' ++ l'') -> NoDup l'.
Proof.
  induction l as [|a l IH]; cbn [app]; intros H; [|apply NoDup_cons_iff in H as [_ H]; auto].
  induction l' as [|a l' IH]; [constructor|]. cbn [app] in H. apply NoDup_cons_iff in H as [Ha H]. constructor; auto.
  intros Hi. apply Ha. apply in_app_iff. now left.
Qed.
Lemma Rsum_groups {A B} (f : B -> R) (k : A -> list B) l : Rsum (map f (flat_map k l)) = Rsum (map (fun a => Rsum (map f (k a))) l).
Proof. induction l as [|a l IH]; auto. cbn [flat_map map]. rewrite map_app, Rsum_app, Rsum_cons1, IH. reflexivity. Qed.
Lemma Rsum_sub {A} (f g : A -> R) l : Rsum (map f l) - Rsum (map g l) = Rsum (map (fun a => f a - g a) l).
Proof. induction l as [|a l IH]; cbn [map]; rewrite ?Rsum_nil, ?Rsum_cons1; lra. Qed.
Lemma Rsum_le {A} (f g : A -> R) l : (forall a, In a l -> f a <= g a) -> Rsum (map f l) <= Rsum (map g l).
Proof.
  induction l as [|a l IH]; intros H; cbn [map]; rewrite ?Rsum_nil, ?Rsum_cons1; [lra|]. specialize (IH (fun b Hb => H b (or_intror Hb))).
  specialize (H a (or_introl eq_refl)). lra.
Qed.
Lemma Rsum_lt {A} (f g : A -> R) l b : (forall a, In a l -> f a <= g a) -> In b l -> f b < g b -> Rsum (map f l) < Rsum (map g l).
Proof.
  induction l as [|a l IH]; intros H Hb Hl; [easy|]. cbn [map]. rewrite ?Rsum_cons1. destruct Hb as [->|Hb].
  - pose proof (Rsum_le f g l (fun b Hb => H b (or_intror Hb))). lra.
  - specialize (IH (fun b Hb => H b (or_intror Hb)) Hb Hl). specialize (H a (or_introl eq_refl)). lra.
Qed.
End Sums.

Section Groups.
(** concepts by group, each with its block; weights between them *)
Context {B : Type}.
Notation group := (list (string * B)).
Variable groups : list group.
Variable lw : string -> string -> R.
Variable ex : R.
Variable W : group -> group -> R.
Notation names G := (map fst (G : group)).
Hypothesis distinct : NoDup (flat_map (fun G => names G) groups).
Hypothesis block_inj : forall G c c' b, In G groups -> In (c, b) G -> In (c', b) G -> c = c'.
Hypothesis block_all : forall A G c b, In A groups -> In G groups -> In (c, b) G -> exists a, In (a, b) A.
Hypothesis inner : forall G a c b b', In G groups -> In (a, b) G -> In (c, b') G -> lw a c = if String.eqb a c then 0 else ex.
Hypothesis cross : forall pre G post A a c b b', groups = pre ++ G :: post -> In A (pre ++ post) -> In (a, b) A -> In (c, b') G ->
  (b = b' -> lw a c = W A G) /\ (b <> b' -> lw a c = 0).
Hypothesis W_nonneg : forall A G, 0 <= W A G.

Variable sg : R -> R.
Hypothesis sg_mono : forall u v, u < v -> sg u < sg v.
Variable b1 : B.

(** the concept of block [b1] leads in every group / strictly in group [G] *)
Definition leads (x : string -> R) (G : group) : Prop :=
  forall c c' b', In (c, b1) G -> In (c', b') G -> b' <> b1 -> x c' <= x c.
Definition strictly_leads (x : string -> R) (G : group) : Prop :=
  forall c c' b', In (c, b1) G -> In (c', b') G -> b' <> b1 -> x c' < x c.
Definition inflow (x : string -> R) (c : string) : R := Rsum (map (fun a => sg (x a) * lw a c) (flat_map (fun G => names G) groups)).

Lemma sg_le u v : u <= v -> sg u <= sg v.
Proof. intros [H| ->]; [left; now apply sg_mono|right; reflexivity]. Qed.
Lemma group_NoDup G : In G groups -> NoDup (names G).
Proof.
  intros H. apply in_split in H as (p & q & E). rewrite E, flat_map_app in distinct. cbn [flat_map] in distinct.
  exact (NoDup_mid _ _ _ distinct).
Qed.
Lemma name_block G c b b' : In G groups -> In (c, b) G -> In (c, b') G -> b = b'.
Proof.
  intros HG H1 H2. pose proof (group_NoDup G HG) as ND. clear - H1 H2 ND. induction G as [|z l IH]; [easy|]. cbn [map] in ND. apply NoDup_cons_iff in ND as [Nz ND].
  destruct H1 as [->|H1], H2 as [E|H2]; auto.
  - now injection E.
  - exfalso. apply Nz. apply in_map_iff. exists (c, b'). auto.
  - subst z. exfalso. apply Nz. apply in_map_iff. exists (c, b). auto.
Qed.
Lemma inflow_gap x G c1 c2 b2 : In G groups -> (forall A, In A groups -> leads x A) -> In (c1, b1) G -> In (c2, b2) G -> b2 <> b1 ->
  - ex * (sg (x c1) - sg (x c2)) <= inflow x c1 - inflow x c2 /\
  ((exists pre post A, groups = pre ++ G :: post /\ In A (pre ++ post) /\ 0 < W A G /\ strictly_leads x A) ->
   - ex * (sg (x c1) - sg (x c2)) < inflow x c1 - inflow x c2).
Proof.
  intros HG HL H1 H2 Ne.
  assert (N12 : c1 <> c2) by (intros ->; apply Ne; eapply name_block; eauto).
  set (D := fun A : group => Rsum (map (fun a => sg (x a) * lw a c1 - sg (x a) * lw a c2) (names A))).
  assert (E : inflow x c1 - inflow x c2 = Rsum (map D groups)).
  { unfold inflow, D. rewrite Rsum_sub, Rsum_groups. reflexivity. }
  assert (DG : D G = - ex * (sg (x c1) - sg (x c2))).
  { unfold D. rewrite (two_spots _ _ c1 c2); auto.
    - rewrite (inner G c1 c1 b1 b1), (inner G c1 c2 b1 b2), (inner G c2 c1 b2 b1), (inner G c2 c2 b2 b2) by auto.
      rewrite !String.eqb_refl. apply not_eq_sym in N12 as N21. apply String.eqb_neq in N12, N21. rewrite N12, N21. ring.
    - now apply group_NoDup.
    - apply in_map_iff. exists (c1, b1). auto.
    - apply in_map_iff. exists (c2, b2). auto.
    - intros c Hc Nc1 Nc2. apply in_map_iff in Hc as ([c' b] & Ec & Hc). cbn [fst] in Ec. subst c'.
      rewrite (inner G c c1 b b1), (inner G c c2 b b2) by auto. apply String.eqb_neq in Nc1, Nc2. rewrite Nc1, Nc2. ring. }
  assert (DA : forall pre post A, groups = pre ++ G :: post -> In A (pre ++ post) ->
    exists a1 a2, In (a1, b1) A /\ In (a2, b2) A /\ D A = W A G * (sg (x a1) - sg (x a2))).
  { intros pre post A Eg HA. assert (HA' : In A groups) by (rewrite Eg; apply in_app_iff in HA as [HA|HA]; apply in_app_iff; [now left|right; now right]).
    destruct (block_all A G c1 b1 HA' HG H1) as (a1 & Ha1). destruct (block_all A G c2 b2 HA' HG H2) as (a2 & Ha2).
    exists a1, a2. split; auto. split; auto. unfold D. rewrite (two_spots _ _ a1 a2).
    - destruct (cross pre G post A a1 c1 b1 b1 Eg HA Ha1 H1) as [-> _]; auto.
      destruct (cross pre G post A a1 c2 b1 b2 Eg HA Ha1 H2) as [_ ->]; auto.
      destruct (cross pre G post A a2 c1 b2 b1 Eg HA Ha2 H1) as [_ ->]; auto.
      destruct (cross pre G post A a2 c2 b2 b2 Eg HA Ha2 H2) as [-> _]; auto. ring.
    - now apply group_NoDup.
    - apply in_map_iff. exists (a1, b1). auto.
    - apply in_map_iff. exists (a2, b2). auto.
    - intros ->. apply Ne. eapply name_block; eauto.
    - intros c Hc Nc1 Nc2. apply in_map_iff in Hc as ([c' b] & Ec & Hc). cbn [fst] in Ec. subst c'.
      destruct (cross pre G post A c c1 b b1 Eg HA Hc H1) as [_ ->].
      2: { intros ->. apply Nc1. eapply block_inj; eauto. }
      destruct (cross pre G post A c c2 b b2 Eg HA Hc H2) as [_ ->].
      2: { intros ->. apply Nc2. eapply block_inj; eauto. }
      ring. }
  assert (Sp : forall pre post, groups = pre ++ G :: post -> inflow x c1 - inflow x c2 = D G + Rsum (map D (pre ++ post))).
  { intros pre post Eg. rewrite E, Eg, !map_app, !Rsum_app. cbn [map]. rewrite Rsum_cons1. ring. }
  assert (Pos : forall pre post A, groups = pre ++ G :: post -> In A (pre ++ post) -> 0 <= D A).
  { intros pre post A Eg HA. destruct (DA pre post A Eg HA) as (a1 & a2 & Ha1 & Ha2 & ->).
    assert (HA' : In A groups) by (rewrite Eg; apply in_app_iff in HA as [HA|HA]; apply in_app_iff; [now left|right; now right]).
    pose proof (sg_le _ _ (HL A HA' a1 a2 b2 Ha1 Ha2 Ne)). apply Rmult_le_pos; [apply W_nonneg|lra]. }
  split.
  - pose proof HG as HG'. apply in_split in HG' as (pre & post & Eg). rewrite (Sp pre post Eg), DG.
    pose proof (Rsum_le (fun _ => 0) D (pre ++ post) (fun A HA => Pos pre post A Eg HA)) as P.
    assert (Z : Rsum (map (fun _ : group => 0) (pre ++ post)) = 0) by (clear; induction (pre ++ post); cbn [map]; rewrite ?Rsum_nil, ?Rsum_cons1; lra). lra.
  - intros (pre & post & A & Eg & HA & HW & HS). rewrite (Sp pre post Eg), DG.
    assert (P : Rsum (map (fun _ : group => 0) (pre ++ post)) < Rsum (map D (pre ++ post))).
    { apply (Rsum_lt _ _ _ A); auto; [intros A' HA'; now apply (Pos pre post)|]. destruct (DA pre post A Eg HA) as (a1 & a2 & Ha1 & Ha2 & ->).
      pose proof (sg_mono _ _ (HS a1 a2 b2 Ha1 Ha2 Ne)). apply Rmult_lt_0_compat; [exact HW|lra]. }
    assert (Z : Rsum (map (fun _ : group => 0) (pre ++ post)) = 0) by (clear; induction (pre ++ post); cbn [map]; rewrite ?Rsum_nil, ?Rsum_cons1; lra). lra.
Qed.

(** one step *)
Variable mem : R.
Hypothesis own : ex <= mem.
Variable act : R -> R -> Prop.
Hypothesis act_mono : forall u v y z, u <= v -> act u y -> act v z -> y <= z.
Variable live : R -> Prop.
Hypothesis act_strict : forall u v y z, live v -> u < v -> act u y -> act v z -> y < z.
Definition moves (x x' : string -> R) : Prop :=
  forall G c b, In G groups -> In (c, b) G -> act (inflow x c + mem * sg (x c)) (x' c).
Definition alive (x : string -> R) : Prop :=
  forall G c b, In G groups -> In (c, b) G -> live (inflow x c + mem * sg (x c)).
Lemma step_leads x x' : moves x x' -> (forall A, In A groups -> leads x A) -> forall A, In A groups -> leads x' A.
Proof.
  intros M H G HG c1 c2 b2 H1 H2 Ne. apply (act_mono (inflow x c2 + mem * sg (x c2)) (inflow x c1 + mem * sg (x c1))); eauto.
  destruct (inflow_gap x G c1 c2 b2 HG H H1 H2 Ne) as [P _]. pose proof (sg_le _ _ (H G HG c1 c2 b2 H1 H2 Ne)) as Q.
  assert (0 <= (mem - ex) * (sg (x c1) - sg (x c2))) by (apply Rmult_le_pos; lra). lra.
Qed.
Lemma step_strict x x' G : moves x x' -> alive x -> (forall A, In A groups -> leads x A) -> In G groups ->
  (ex < mem /\ strictly_leads x G) \/ (exists pre post A, groups = pre ++ G :: post /\ In A (pre ++ post) /\ 0 < W A G /\ strictly_leads x A) ->
  strictly_leads x' G.
Proof.
  intros M HA H HG Hs c1 c2 b2 H1 H2 Ne. apply (act_strict (inflow x c2 + mem * sg (x c2)) (inflow x c1 + mem * sg (x c1))); eauto.
  destruct (inflow_gap x G c1 c2 b2 HG H H1 H2 Ne) as [P P']. pose proof (sg_le _ _ (H G HG c1 c2 b2 H1 H2 Ne)) as Q.
  destruct Hs as [[Hm HS]|HS].
  - pose proof (sg_mono _ _ (HS c1 c2 b2 H1 H2 Ne)). assert (0 < (mem - ex) * (sg (x c1) - sg (x c2))) by (apply Rmult_lt_0_compat; lra). lra.
  - specialize (P' HS). assert (0 <= (mem - ex) * (sg (x c1) - sg (x c2))) by (apply Rmult_le_pos; lra). lra.
Qed.
(** whole orbits *)
Lemma orbit_leads (x : nat -> string -> R) L : (forall t, (t < L)%nat -> moves (x t) (x (S t))) -> (forall A, In A groups -> leads (x 0%nat) A) ->
  forall t, (t <= L)%nat -> forall A, In A groups -> leads (x t) A.
Proof.
  intros M H0 t. induction t as [|t IH]; intros Ht; auto. apply step_leads with (x := x t); [apply M; lia|apply IH; lia].
Qed.
Lemma orbit_strict (x : nat -> string -> R) L G : (forall t, (t < L)%nat -> moves (x t) (x (S t)) /\ alive (x t)) -> (forall A, In A groups -> leads (x 0%nat) A) ->
  In G groups -> (1 <= L)%nat ->
  (exists pre post A, groups = pre ++ G :: post /\ In A (pre ++ post) /\ 0 < W A G /\ strictly_leads (x 0%nat) A) ->
  strictly_leads (x 1%nat) G /\ (ex < mem -> forall t, (1 <= t <= L)%nat -> strictly_leads (x t) G).
Proof.
  intros M H0 HG HL HS. assert (S1 : strictly_leads (x 1%nat) G) by (apply (step_strict (x 0%nat)); auto; apply M; lia).
  split; auto. intros Hm t. induction t as [|t IH]; [lia|]. intros Ht. destruct t as [|t]; auto.
  apply (step_strict (x (S t))); auto; [apply M; lia|apply M; lia|apply (orbit_leads x L); auto; [intros; now apply M|lia]|]. left. split; auto. apply IH. lia.
Qed.
End Groups.
