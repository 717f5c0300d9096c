(** CycleFacts.v — maps whose concepts take finitely many values repeat themselves (C108). *)
From Verif Require Import Base BaseFacts Num Functions Spec SortFacts Fcm FcmSpec DynSpec FcmInv FcmInv2 FcmInv3 FcmIter FcmRun
  FcmRun2 FcmRun3 FcmOrder FcmStop Dynamics.

(** ** Pigeonhole *)
Lemma nat_dup (l : list nat) : NoDup l \/ exists i j v, i < j /\ nth_error l i = Some v /\ nth_error l j = Some v.
Proof.
  induction l as [|a l [H|(i & j & v & H & A & B)]]; [left; constructor| |right; exists (S i), (S j), v; repeat split; auto; lia].
  destruct (in_dec Nat.eq_dec a l) as [H1|H1]; [right|left; now constructor].
  apply In_nth_error in H1 as [j Hj]. exists 0, (S j), a. repeat split; auto. lia.
Qed.
Lemma places {A} (l m : list A) : incl l m -> exists ps, Forall2 (fun x p => nth_error m p = Some x) l ps.
Proof.
  induction l as [|a l IH]; intros H; [exists []; constructor|].
  destruct IH as [ps P]; [intros x Hx; apply H; now right|].
  destruct (In_nth_error m a (H a (or_introl eq_refl))) as [p Hp]. exists (p :: ps). now constructor.
Qed.
Lemma Forall2_at {A B} (P : A -> B -> Prop) l m : Forall2 P l m -> forall i b, nth_error m i = Some b ->
  exists a, nth_error l i = Some a /\ P a b.
Proof.
  induction 1 as [|x y l m Hxy _ IH]; intros [|i] b Hb; try discriminate.
  - injection Hb as <-. exists x. auto.
  - exact (IH i b Hb).
Qed.
Lemma pigeon {A} (l m : list A) : incl l m -> length m < length l ->
  exists i j v, i < j /\ nth_error l i = Some v /\ nth_error l j = Some v.
Proof.
  intros H Hl. destruct (places l m H) as [ps P]. pose proof (Forall2_at _ _ _ P) as Q.
  destruct (nat_dup ps) as [D|(i & j & p & Hij & Pi & Pj)].
  - exfalso. assert (length ps <= length (seq 0 (length m))).
    { apply NoDup_incl_length; auto. intros p Hp. apply In_nth_error in Hp as [k Hk]. destruct (Q k p Hk) as (a & _ & Ha).
      apply in_seq. split; [lia|]. cbn. apply nth_error_Some. congruence. }
    rewrite seq_length in H0. assert (length l = length ps) by (clear - P; induction P; cbn; auto). lia.
  - destruct (Q i p Pi) as (a & Ai & Ma). destruct (Q j p Pj) as (b & Bj & Mb). exists i, j, a.
    repeat split; auto. congruence.
Qed.
(** all lists of a given length over a list of values *)
Fixpoint tuples {A} (vals : list A) (n : nat) : list (list A) :=
  match n with O => [[]] | S n => flat_map (fun v => map (cons v) (tuples vals n)) vals end.
Lemma flat_map_const {A B} (f : A -> list B) k l : (forall a, length (f a) = k) -> length (flat_map f l) = length l * k.
Proof. intros H. induction l as [|a l IH]; auto. cbn [flat_map length Nat.mul]. now rewrite app_length, H, IH. Qed.
Lemma tuples_length {A} (vals : list A) n : length (tuples vals n) = length vals ^ n.
Proof.
  induction n as [|n IH]; auto. cbn [tuples Nat.pow]. rewrite (flat_map_const _ (length vals ^ n)); auto.
  intros a. now rewrite map_length.
Qed.
Lemma in_tuples {A} (vals : list A) l : Forall (fun v => In v vals) l -> In l (tuples vals (length l)).
Proof.
  induction 1 as [|v l Hv _ IH]; cbn [tuples length]; [now left|]. apply in_flat_map. exists v. split; auto. now apply in_map.
Qed.

Section Cycle.
Context {F : Type} {N : Num F}.
Notation fcm := (fcm F).
(** whatever its input, the concept's next value is one of [vals] *)
Definition answers_in (vals : list F) (n : node F) : Prop :=
  forall f fn a z y, nd_func n = Some f -> get_function_by_name f = Some fn -> nd_args n = Some a ->
    call_actv fn z a = Ok y -> In y vals.

(** ** Equal states have equal futures *)
Lemma same_future (s : fcm) x L i j : sane s -> orbit (m_topo s) (m_arcs s) x L ->
  (forall c, In c (concepts s) -> x i c = x j c) ->
  forall k c, i + k <= L -> j + k <= L -> In c (concepts s) -> x (i + k) c = x (j + k) c.
Proof.
  intros Hs O H. induction k as [|k IH]; intros c Hi Hj Hc; [rewrite !Nat.add_0_r; auto|].
  destruct (proj2 (dget_Some_In (m_topo s) c) Hc) as [n Hn]. rewrite !Nat.add_succ_r.
  refine (next_value_det (m_topo s) (m_topo s) (m_arcs s) (m_arcs s) (x (i + k)) (x (j + k)) c n n _ _ eq_refl _
            (O (i + k) c n ltac:(lia) Hn) (O (j + k) c n ltac:(lia) Hn)).
  unfold total_input. rewrite (IH c) by (auto; lia).
  rewrite (incoming_origins (m_topo s) (m_arcs s) (x (i + k)) (x (j + k))); auto.
  intros w o Ho. apply IH; try lia. pose proof (sane_base s Hs) as (_ & _ & _ & A). now apply (A c w o).
Qed.
Lemma orbit_cycle vals (s : fcm) x L : sane s -> orbit (m_topo s) (m_arcs s) x L ->
  (forall c n, dget (m_topo s) c = Some n -> answers_in vals n) ->
  length vals ^ length (concepts s) + 1 <= L ->
  exists i p, 1 <= i /\ 0 < p /\ i + p <= length vals ^ length (concepts s) + 1 /\
    forall k c, i <= k -> k + p <= L -> In c (concepts s) -> x (k + p) c = x k c.
Proof.
  intros Hs O Hv HL. set (B := length vals ^ length (concepts s)) in *.
  destruct (pigeon (map (fun k => map (x k) (concepts s)) (seq 1 (S B))) (tuples vals (length (concepts s)))) as (i & j & v & Hij & Hi & Hj).
  - intros t Ht. apply in_map_iff in Ht as (k & <- & Hk). apply in_seq in Hk.
    rewrite <- (map_length (x k) (concepts s)). apply in_tuples. apply Forall_forall. intros y Hy. apply in_map_iff in Hy as (c & <- & Hc).
    destruct (proj2 (dget_Some_In (m_topo s) c) Hc) as [n Hn]. destruct k as [|k]; [lia|].
    destruct (O k c n ltac:(lia) Hn) as (f & fn & a & z & A1 & A2 & A3 & _ & A5). exact (Hv c n Hn f fn a z _ A1 A2 A3 A5).
  - rewrite tuples_length, map_length, seq_length. fold B. lia.
  - assert (T : forall q t, nth_error (map (fun k => map (x k) (concepts s)) (seq 1 (S B))) q = Some t -> q <= B /\ t = map (x (S q)) (concepts s)).
    { intros q t Hq. assert (Hl : q < S B). { assert (q < length (map (fun k => map (x k) (concepts s)) (seq 1 (S B)))) by (apply nth_error_Some; congruence). now rewrite map_length, seq_length in H. }
      rewrite nth_error_map, (nth_error_nth' _ 0) in Hq by (rewrite seq_length; auto). rewrite seq_nth in Hq by auto. injection Hq as <-. split; [lia|reflexivity]. }
    destruct (T i v Hi) as [Bi Ei]. destruct (T j v Hj) as [Bj Ej].
    assert (EQ : forall c, In c (concepts s) -> x (S i) c = x (S j) c).
    { rewrite Ei in Ej. intros c Hc. apply In_nth_error in Hc as [q Hq].
      pose proof (f_equal (fun l => nth_error l q) Ej) as E. cbv beta in E. rewrite !nth_error_map, Hq in E. cbn in E. congruence. }
    exists (S i), (j - i). split; [lia|]. split; [lia|]. split; [lia|]. intros k c Hk Hk' Hc.
    replace (k + (j - i)) with (S j + (k - S i)) by lia. replace k with (S i + (k - S i)) at 2 by lia. symmetry.
    apply (same_future s x L); auto; lia.
Qed.

Lemma run_cycle vals (s s' : fcm) : sane s -> m_debug s = true -> run_inference true s = (s', Ok tt) ->
  (forall c n, dget (m_topo s) c = Some n -> answers_in vals n) ->
  forall c0 h0, history s' c0 = Some h0 -> length vals ^ length (concepts s) + 1 < length h0 ->
  exists i p, 1 <= i /\ 0 < p /\ i + p <= length vals ^ length (concepts s) + 1 /\
    forall c h k, history s' c = Some h -> i <= k -> k + p < length h -> nth_error h (k + p) = nth_error h k.
Proof.
  intros Hs D E Hv c0 h0 H0 Hl. destruct (run_track s s' Hs D E) as (L & x & T).
  assert (Len : forall c h, history s' c = Some h -> In c (concepts s) /\ h = map (fun k => x k c) (seq 0 (S L))).
  { intros c h Hh. assert (Hc : In c (concepts s)) by (apply (tk_keys _ _ _ _ T); congruence).
    split; auto. rewrite (tk_hist _ _ _ _ T c Hc) in Hh. congruence. }
  destruct (Len c0 h0 H0) as [_ ->]. rewrite map_length, seq_length in Hl.
  destruct (orbit_cycle vals s x L Hs (tk_orbit _ _ _ _ T) Hv ltac:(lia)) as (i & p & Hi & Hp & Hb & P).
  exists i, p. do 3 (split; [auto|]). intros c h k Hh Hk Hk'. destruct (Len c h Hh) as [Hc ->]. rewrite map_length, seq_length in Hk'.
  rewrite !nth_error_map, !(nth_error_nth' _ 0) by (rewrite seq_length; lia). rewrite !seq_nth by lia. cbn [option_map Nat.add].
  f_equal. apply P; auto. lia.
Qed.

Lemma run_rests vals (s s' : fcm) : sane s -> m_debug s = true -> run_inference true s = (s', Ok tt) ->
  (forall c n, dget (m_topo s) c = Some n -> answers_in vals n) ->
  forall c h, history s' c = Some h ->
    length h <= length vals ^ length (concepts s) + Z.to_nat (m_extra s) + 1 \/ (m_maxit s < Z.of_nat (length h))%Z.
Proof.
  intros Hs D E Hv c h Hh. destruct (run_track s s' Hs D E) as (L & x & T).
  assert (Hl : length h = S L).
  { assert (Hc : In c (concepts s)) by (apply (tk_keys _ _ _ _ T); congruence). rewrite (tk_hist _ _ _ _ T c Hc) in Hh.
    assert (h = map (fun k => x k c) (seq 0 (S L))) as -> by congruence. now rewrite map_length, seq_length. }
  rewrite Hl. destruct (Z.ltb_spec (m_maxit s) (Z.of_nat (S L))) as [|HM]; [now right|left].
  destruct (Nat.le_gt_cases (S L) (length vals ^ length (concepts s) + Z.to_nat (m_extra s) + 1)) as [|HB]; auto. exfalso.
  destruct (orbit_cycle vals s x L Hs (tk_orbit _ _ _ _ T) Hv ltac:(lia)) as (i & p & Hi & Hp & Hb & P).
  destruct (tk_stop _ _ _ _ T) as [[S0 S1] S2]. apply (S2 (L - p)); [lia|]. split; [lia|]. intros q Hq.
  destruct (S1 (q + p) ltac:(lia)) as [H|(H1 & H2 & H3)]; [lia|]. right. split; auto. split; [lia|].
  intros d g a b Hg Ha Hb'. destruct (track_nth _ _ _ _ _ _ _ _ T Hg Ha) as (Hd & _ & ->). destruct (track_nth _ _ _ _ _ _ _ _ T Hg Hb') as (_ & _ & ->).
  destruct (track_nth' _ _ _ _ d (q + p - 1) T Hd ltac:(lia)) as (g1 & G1 & N1).
  destruct (track_nth' _ _ _ _ d (q + p - 2) T Hd ltac:(lia)) as (g2 & G2 & N2).
  rewrite G1 in G2. injection G2 as <-. specialize (H3 d g1 _ _ G1 N1 N2).
  replace (q + p - 1) with (q - 1 + p) in H3 by lia. replace (q + p - 2) with (q - 2 + p) in H3 by lia.
  rewrite !P in H3 by (auto; lia). exact H3.
Qed.
End Cycle.
