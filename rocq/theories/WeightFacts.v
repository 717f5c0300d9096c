(** WeightFacts.v — maps with different weights (C115). *)
From Coq Require Import Reals Lra Lia.
From Verif Require Import Base BaseFacts Num Functions Spec SortFacts RealFacts FunctionsFacts Fcm FcmSpec VecSpec DynSpec FcmInv FcmInv2 FcmInv3 FcmIter FcmRun FcmRun2 FcmRun3 FcmOrder FcmStop FcmVec FcmVec2 FcmVec3 FcmVec4 FcmVec5 FcmTotal FcmVec6 Dynamics Dynamics2 Dynamics3 VecDyn WeightSpec.
Local Open Scope R_scope.

(** ** One sequence of states behind the recorded values *)
Record trace (s s' : rmap) (L : nat) (x : nat -> string -> R) : Prop := {
  tc_orbit : orbit (m_topo s) (m_arcs s) x L;
  tc_start : forall c, In c (concepts s) -> initial s c = Some (x 0%nat c);
  tc_nth : forall c h k v, In c (concepts s) -> history s' c = Some h -> nth_error h k = Some v -> kept s s' k -> (k <= L)%nat /\ v = x k c
}.
Lemma runs_trace s s' : runs s -> run_inference true s = (s', Ok tt) -> exists L x, trace s s' L x.
Proof.
  intros [Hs H] E.
  destruct H as [D|(D & Rg & Rs & Hne & Hm)].
  - destruct (run_track s s' Hs D E) as (L & x & T). exists L, x. constructor.
    + apply (tk_orbit _ _ _ _ T).
    + apply (tk_start _ _ _ _ T).
    + intros c h k v _ Hh Hv _. destruct (track_nth _ _ _ _ _ _ _ _ T Hh Hv) as (_ & HL & ->). auto.
  - destruct (run_vtrack s s' Hs Rg Rs D Hne Hm E) as (L & x & T). exists L, x. constructor.
    + apply (vt_orbit _ _ _ _ T).
    + apply (vt_start _ _ _ _ T).
    + intros c h k v Hc Hh Hv K. destruct (vt_nth _ _ _ _ T c h k v Hc Hh Hv) as (HL & _ & V). split; auto. apply V.
      destruct K as [K|[K|K]]; auto. congruence.
Qed.

(** ** Reweighted maps *)
Definition rel2 (P : R -> R -> Prop) (a a' : string * R * string) : Prop := fst (fst a') = fst (fst a) /\ snd a' = snd a /\ P (snd (fst a)) (snd (fst a')).
Lemma arcs_rel P (s t : rmap) : Forall2 (fun r r' => fst r' = fst r /\ P (snd r) (snd r')) (relations s) (relations t) -> Forall2 (rel2 P) (m_arcs s) (m_arcs t).
Proof.
  unfold relations. generalize (m_arcs s) (m_arcs t). induction l as [|[[d w] o] l IH]; intros [|[[d' w'] o'] l'] H; inversion H as [|? ? ? ? [H1 H2] H3]; subst; constructor; auto.
  cbn in *. injection H1 as -> ->. split; auto.
Qed.
Section Two.
Variables (P : R -> R -> Prop) (s t : rmap).
Hypothesis RW : reweighted P s t.
Lemma rw_node c n : dget (m_topo s) c = Some n -> nd_func n <> Some "fuzzy" /\ exists n', dget (m_topo t) c = Some n' /\ same_concept n n'.
Proof. apply RW. Qed.
Lemma rw_none c : dget (m_topo s) c = None -> dget (m_topo t) c = None.
Proof. apply RW. Qed.
Lemma rw_keys c : In c (dkeys (m_topo t)) <-> In c (dkeys (m_topo s)).
Proof.
  rewrite <- !dget_Some_In. split.
  - intros [n H]. destruct (dget (m_topo s) c) as [n'|] eqn:E; [eauto|]. apply rw_none in E. congruence.
  - intros [n H]. destruct (rw_node c n H) as (_ & n' & H' & _). eauto.
Qed.
Lemma same_responds n n' u y : nd_func n <> Some "fuzzy" -> same_concept n n' -> responds n' u y -> responds n u y.
Proof.
  intros Nf (_ & _ & _ & E1 & E2) (f & fn & a & A1 & A2 & A3 & A4). exists f, fn, a. rewrite <- E1, <- E2. repeat split; auto.
  destruct (String.eqb_spec f "fuzzy") as [->|]; auto. congruence.
Qed.
(** the input of [c] in [t], with the nodes of [s] *)
Lemma rw_incoming arcs x c : incoming (m_topo t) arcs x c = incoming (m_topo s) arcs x c.
Proof.
  induction arcs as [|[[d w] o] arcs IH]; auto. cbn [incoming]. destruct (dget (m_topo s) o) as [n|] eqn:E.
  - destruct (rw_node o n E) as (_ & n' & -> & Sc). destruct Sc as (S1 & S2 & _). rewrite S1, (signal_fixed n n' _ S2), IH. reflexivity.
  - rewrite (rw_none o E). apply IH.
Qed.
Lemma rw_input x c n n' : same_concept n n' -> total_input (m_topo t) (m_arcs t) x c n' = total_input (m_topo s) (m_arcs t) x c n.
Proof. intros (S1 & S2 & S3 & _). unfold total_input. now rewrite rw_incoming, S3, (signal_fixed n n' _ S2). Qed.
(** the states of [t] as responses of the nodes of [s] *)
Lemma rw_orbit x L : orbit (m_topo t) (m_arcs t) x L -> forall k c n, (k < L)%nat -> dget (m_topo s) c = Some n ->
  responds n (total_input (m_topo s) (m_arcs t) (x k) c n) (x (S k) c).
Proof.
  intros O k c n Hk Hn. destruct (rw_node c n Hn) as (Nf & n' & Hn' & Sc). rewrite <- (rw_input (x k) c n n' Sc).
  apply (same_responds n n'); auto. now apply next_responds, O.
Qed.
End Two.

(** ** Larger weights *)
Lemma gentle_signal (n : node R) v : nd_exec n <> Some "PAPAGEORGIUS" -> signal n v = v.
Proof.
  unfold signal. destruct (nd_exec n) as [e|]; auto. intros H.
  repeat match goal with |- context [match ?e with _ => _ end] => destruct e; auto end. congruence.
Qed.
Lemma incoming_larger (tp : dict (node R)) arcs arcs' x x' c : Forall2 (rel2 (fun w w' => 0 <= w <= w')) arcs arcs' ->
  (forall d w o n, In (d, w, o) arcs -> dget tp o = Some n -> nd_exec n <> Some "PAPAGEORGIUS" /\ 0 <= x o <= x' o) ->
  Rsum (incoming tp arcs x c) <= Rsum (incoming tp arcs' x' c).
Proof.
  induction 1 as [|[[d w] o] [[d' w'] o'] arcs arcs' (E1 & E2 & W) F IH]; intros H; [cbn; lra|]. cbn [fst snd] in E1, E2, W. subst d' o'. cbn [incoming].
  assert (I : Rsum (incoming tp arcs x c) <= Rsum (incoming tp arcs' x' c)) by (apply IH; intros; eapply H; [right|]; eauto).
  destruct (dget tp o) as [n|] eqn:En; auto. destruct (_ && _); auto.
  destruct (H d w o n (or_introl eq_refl) En) as [Hp Hx]. rewrite !gentle_signal by auto.
  cbn [Rsum fold_right]. fold (Rsum (incoming tp arcs x c)). fold (Rsum (incoming tp arcs' x' c)). cbn [nmul RNum].
  assert (x o * w <= x' o * w') by (apply Rmult_le_compat; lra). lra.
Qed.
Lemma larger_weights (s t s' t' : rmap) : runs s -> runs t -> reweighted (fun w w' => 0 <= w <= w') s t ->
  (forall c n, dget (m_topo s) c = Some n -> monotone_node n /\ gentle n) ->
  (forall c a b, initial s c = Some a -> initial t c = Some b -> 0 <= a <= b) ->
  run_inference true s = (s', Ok tt) -> run_inference true t = (t', Ok tt) ->
  forall c h h' k a b, In c (concepts s) -> history s' c = Some h -> history t' c = Some h' -> nth_error h k = Some a -> nth_error h' k = Some b ->
    kept s s' k -> kept t t' k -> a <= b.
Proof.
  intros Hs Ht RW Hn Hi E E' c h h' k a b Hc Hh Hh' Ha Hb K K'.
  destruct (runs_trace s s' Hs E) as (L & x & T). destruct (runs_trace t t' Ht E') as (L' & x' & T').
  pose proof (proj2 (rw_keys _ s t RW c) Hc) as Hc'.
  destruct (tc_nth _ _ _ _ T c h k a Hc Hh Ha K) as [Lk ->]. destruct (tc_nth _ _ _ _ T' c h' k b Hc' Hh' Hb K') as [Lk' ->].
  pose proof (sane_base s (proj1 Hs)) as (_ & _ & _ & Ar).
  assert (G : forall i, (i <= k)%nat -> forall d, In d (dkeys (m_topo s)) -> 0 <= x i d <= x' i d); [|apply (G k (le_n k) c Hc)].
  induction i as [|i IH]; intros Hi' d Hd.
  - apply (Hi d); [apply (tc_start _ _ _ _ T); auto|apply (tc_start _ _ _ _ T'); now apply (rw_keys _ s t RW)].
  - assert (Hd' := Hd). apply dget_Some_In in Hd' as [n Hnd]. destruct (Hn d n Hnd) as [Mo Ge].
    pose proof (next_responds _ _ _ _ _ _ (tc_orbit _ _ _ _ T i d n ltac:(lia) Hnd)) as R1.
    pose proof (rw_orbit _ s t RW x' L' (tc_orbit _ _ _ _ T') i d n ltac:(lia) Hnd) as R2.
    split; [apply (proj2 Ge _ _ R1)|]. refine (Mo _ _ _ _ _ R1 R2). rewrite !total_input_R. apply Rplus_le_compat.
    + apply incoming_larger; [apply arcs_rel, RW|]. intros d' w o n' Ho Hno. split; [apply (Hn o n' Hno)|]. apply IH; [lia|]. now apply (Ar d' w o).
    + destruct (match nd_mem n with Some b => b | None => false end); [|lra]. rewrite !gentle_signal by apply Ge. apply IH; auto. lia.
Qed.

(** ** Slightly different weights *)
Lemma incoming_drift (tp : dict (node R)) arcs arcs' x x' c D B : Forall2 (rel2 (fun _ _ => True)) arcs arcs' -> 0 <= B ->
  (forall d w o, In (d, w, o) arcs -> Rabs (x o - x' o) <= D) ->
  (forall d w o n, In (d, w, o) arcs -> dget tp o = Some n -> Rabs (signal n (x' o)) <= B) ->
  Rabs (Rsum (incoming tp arcs x c) - Rsum (incoming tp arcs' x' c)) <=
  arriving tp arcs c * D + drift (map (fun '(d, w, o) => (o, d, w)) arcs) (map (fun '(d, w, o) => (o, d, w)) arcs') c * B.
Proof.
  intros F HB. induction F as [|[[d w] o] [[d' w'] o'] arcs arcs' (E1 & E2 & _) F IH]; intros H H'; [cbn; rewrite Rminus_0_r, Rabs_R0; lra|].
  cbn [fst snd] in E1, E2. subst d' o'. cbn [incoming arriving map drift].
  assert (I := IH (fun d w o Ho => H d w o (or_intror Ho)) (fun d w o n Ho => H' d w o n (or_intror Ho))). clear IH.
  pose proof (Rabs_pos (w' - w)) as Aw. assert (Pos : 0 <= (if String.eqb d c then Rabs (w' - w) else 0) * B) by (destruct (String.eqb d c); nra).
  destruct (dget tp o) as [n|] eqn:En; [|lra]. destruct (String.eqb d c && _) eqn:Eb; [|lra]. apply andb_true_iff in Eb as [Eb _]. rewrite Eb in *.
  pose proof (H d w o (or_introl eq_refl)) as Hx. pose proof (H' d w o n (or_introl eq_refl) En) as Hs. pose proof (signal_lip n (x o) (x' o)) as S.
  cbn [Rsum fold_right]. fold (Rsum (incoming tp arcs x c)). fold (Rsum (incoming tp arcs' x' c)). cbn [nmul RNum].
  match goal with |- Rabs ?t <= _ => replace t with ((signal n (x o) - signal n (x' o)) * w + (- (signal n (x' o) * (w' - w)) +
    (Rsum (incoming tp arcs x c) - Rsum (incoming tp arcs' x' c)))) by lra end.
  eapply Rle_trans; [apply Rabs_triang|]. pose proof (Rabs_triang (- (signal n (x' o) * (w' - w))) (Rsum (incoming tp arcs x c) - Rsum (incoming tp arcs' x' c))) as T2.
  rewrite Rabs_Ropp, Rabs_mult in T2. rewrite Rabs_mult. pose proof (slope_pos n). pose proof (Rabs_pos w).
  assert (Rabs (signal n (x o) - signal n (x' o)) * Rabs w <= Rabs w * slope n * D).
  { rewrite (Rmult_comm _ (Rabs w)), Rmult_assoc. apply Rmult_le_compat_l; auto. eapply Rle_trans; [exact S|]. apply Rmult_le_compat_l; auto. lra. }
  assert (Rabs (signal n (x' o)) * Rabs (w' - w) <= Rabs (w' - w) * B) by (rewrite Rmult_comm; apply Rmult_le_compat_l; auto). lra.
Qed.
Lemma input_drift (tp : dict (node R)) arcs arcs' x x' c n D B : Forall2 (rel2 (fun _ _ => True)) arcs arcs' -> 0 <= B ->
  (forall d w o, In (d, w, o) arcs -> Rabs (x o - x' o) <= D) -> Rabs (x c - x' c) <= D ->
  (forall d w o n, In (d, w, o) arcs -> dget tp o = Some n -> Rabs (signal n (x' o)) <= B) ->
  Rabs (total_input tp arcs x c n - total_input tp arcs' x' c n) <=
  gain tp arcs c n * D + drift (map (fun '(d, w, o) => (o, d, w)) arcs) (map (fun '(d, w, o) => (o, d, w)) arcs') c * B.
Proof.
  intros F HB H Hc H'. rewrite !total_input_R. pose proof (incoming_drift tp arcs arcs' x x' c D B F HB H H') as I. unfold gain.
  rewrite Rmult_plus_distr_r. pose proof (slope_pos n).
  destruct (nd_mem n) as [[|]|].
  - match goal with |- Rabs ?t <= _ => replace t with ((Rsum (incoming tp arcs x c) - Rsum (incoming tp arcs' x' c)) + (signal n (x c) - signal n (x' c))) by lra end.
    eapply Rle_trans; [apply Rabs_triang|]. pose proof (signal_lip n (x c) (x' c)). nra.
  - match goal with |- Rabs ?t <= _ => replace t with (Rsum (incoming tp arcs x c) - Rsum (incoming tp arcs' x' c)) by lra end. lra.
  - match goal with |- Rabs ?t <= _ => replace t with (Rsum (incoming tp arcs x c) - Rsum (incoming tp arcs' x' c)) by lra end. lra.
Qed.
Lemma drift_nonneg rs : forall rt c, 0 <= drift rs rt c.
Proof. induction rs as [|[[o d] w] rs IH]; intros [|[[o' d'] w'] rt] c; cbn [drift]; try lra. specialize (IH rt c). pose proof (Rabs_pos (w' - w)). destruct (String.eqb d c); lra. Qed.
Lemma rw_weaken P (s t : rmap) : reweighted P s t -> Forall2 (rel2 (fun _ _ => True)) (m_arcs s) (m_arcs t).
Proof. intros (_ & _ & F). apply arcs_rel in F. clear - F. induction F as [|a a' l l' (H1 & H2 & _) F IH]; constructor; auto. split; auto. Qed.
Lemma perturbed (P : R -> R -> Prop) (s t s' t' : rmap) q B e D0 : runs s -> runs t -> reweighted P s t -> 0 <= q -> 0 <= B ->
  (forall c n, dget (m_topo s) c = Some n -> emits B n /\
     exists K, lipschitz_node K n /\ K * gain (m_topo s) (m_arcs s) c n <= q /\ K * (drift (relations s) (relations t) c * B) <= e) ->
  (forall c a b n, initial s c = Some a -> initial t c = Some b -> dget (m_topo s) c = Some n -> Rabs (a - b) <= D0 /\ Rabs (signal n b) <= B) ->
  run_inference true s = (s', Ok tt) -> run_inference true t = (t', Ok tt) ->
  forall c h h' k a b, In c (concepts s) -> history s' c = Some h -> history t' c = Some h' -> nth_error h k = Some a -> nth_error h' k = Some b ->
    kept s s' k -> kept t t' k -> Rabs (a - b) <= q ^ k * D0 + e * geometric q k.
Proof.
  intros Hs Ht RW Q0 B0 Hn Hi E E' c h h' k a b Hc Hh Hh' Ha Hb K K'.
  destruct (runs_trace s s' Hs E) as (L & x & T). destruct (runs_trace t t' Ht E') as (L' & x' & T').
  pose proof (proj2 (rw_keys _ s t RW c) Hc) as Hc'.
  destruct (tc_nth _ _ _ _ T c h k a Hc Hh Ha K) as [Lk ->]. destruct (tc_nth _ _ _ _ T' c h' k b Hc' Hh' Hb K') as [Lk' ->].
  pose proof (sane_base s (proj1 Hs)) as (_ & _ & _ & Ar).
  assert (G : forall i, (i <= k)%nat -> forall d n, dget (m_topo s) d = Some n -> Rabs (x i d - x' i d) <= q ^ i * D0 + e * geometric q i /\ Rabs (signal n (x' i d)) <= B);
    [|apply dget_Some_In in Hc as [n Hc]; apply (G k (le_n k) c n Hc)].
  induction i as [|i IH]; intros Hi' d n Hd.
  - cbn [pow geometric]. replace (1 * D0 + e * 0) with D0 by lra. assert (Hk : In d (dkeys (m_topo s))) by (apply dget_Some_In; eauto).
    apply (Hi d); auto; [apply (tc_start _ _ _ _ T); auto|apply (tc_start _ _ _ _ T'); now apply (rw_keys _ s t RW)].
  - destruct (Hn d n Hd) as (Em & Kn & [K0 Lip] & G1 & G2).
    pose proof (next_responds _ _ _ _ _ _ (tc_orbit _ _ _ _ T i d n ltac:(lia) Hd)) as R1.
    pose proof (rw_orbit _ s t RW x' L' (tc_orbit _ _ _ _ T') i d n ltac:(lia) Hd) as R2.
    split; [|apply (Em _ _ R2)]. set (D := q ^ i * D0 + e * geometric q i).
    assert (I : Rabs (total_input (m_topo s) (m_arcs s) (x i) d n - total_input (m_topo s) (m_arcs t) (x' i) d n) <=
      gain (m_topo s) (m_arcs s) d n * D + drift (relations s) (relations t) d * B).
    { apply input_drift; auto; [eapply rw_weaken; eauto| |apply (IH ltac:(lia) d n Hd)|].
      - intros d' w o Ho. destruct (Ar d' w o Ho) as [_ Hok]. apply dget_Some_In in Hok as [no Hno]. apply (IH ltac:(lia) o no Hno).
      - intros d' w o no Ho Hno. apply (IH ltac:(lia) o no Hno). }
    pose proof (Lip _ _ _ _ R1 R2) as Lb. assert (D1 : 0 <= D) by (eapply Rle_trans; [apply Rabs_pos|apply (IH ltac:(lia) d n Hd)]).
    eapply Rle_trans; [exact Lb|]. eapply Rle_trans; [apply Rmult_le_compat_l; [exact K0|exact I]|]. rewrite Rmult_plus_distr_l, <- Rmult_assoc.
    assert (Kn * gain (m_topo s) (m_arcs s) d n * D <= q * D) by (apply Rmult_le_compat_r; auto).
    cbn [pow geometric]. replace (q * q ^ i * D0 + e * (1 + q * geometric q i)) with (q * D + e) by (unfold D; ring). lra.
Qed.
Lemma geometric_sum q k : geometric q k * (1 - q) = 1 - q ^ k.
Proof. induction k as [|k IH]; cbn [geometric pow]; [lra|]. replace ((1 + q * geometric q k) * (1 - q)) with ((1 - q) + q * (geometric q k * (1 - q))) by ring. rewrite IH. ring. Qed.

(** ** Multiples of the weights *)
Lemma incoming_scaled (tp : dict (node R)) arcs arcs' p x x' c : Forall2 (rel2 (fun w w' => w' = p * w)) arcs arcs' ->
  (forall d w o, In (d, w, o) arcs -> x' o = x o) -> Rsum (incoming tp arcs' x' c) = p * Rsum (incoming tp arcs x c).
Proof.
  induction 1 as [|[[d w] o] [[d' w'] o'] arcs arcs' (E1 & E2 & W) F IH]; intros H; [cbn; lra|]. cbn [fst snd] in E1, E2, W. subst d' o' w'. cbn [incoming].
  assert (I := IH (fun d w o Ho => H d w o (or_intror Ho))). destruct (dget tp o) as [n|]; auto. destruct (_ && _); auto.
  rewrite (H d w o (or_introl eq_refl)). cbn [Rsum fold_right]. fold (Rsum (incoming tp arcs x c)). fold (Rsum (incoming tp arcs' x' c)). cbn [nmul RNum]. rewrite I. ring.
Qed.
Lemma bistate_scaled p u : 0 < p -> bistate (p * u) = bistate u.
Proof.
  intros Hp. unfold bistate. rnum. rcase; auto; exfalso; nra.
Qed.
Lemma scaled_weights p (s t s' t' : rmap) : runs s -> runs t -> 0 < p -> reweighted (fun w w' => w' = p * w) s t ->
  (forall c n, dget (m_topo s) c = Some n -> nd_func n = Some "biestate" /\ nd_mem n <> Some true) ->
  (forall c, In c (concepts s) -> initial t c = initial s c) ->
  run_inference true s = (s', Ok tt) -> run_inference true t = (t', Ok tt) ->
  forall c h h' k a b, In c (concepts s) -> history s' c = Some h -> history t' c = Some h' -> nth_error h k = Some a -> nth_error h' k = Some b ->
    kept s s' k -> kept t t' k -> a = b.
Proof.
  intros Hs Ht Hp RW Hn Hi E E' c h h' k a b Hc Hh Hh' Ha Hb K K'.
  destruct (runs_trace s s' Hs E) as (L & x & T). destruct (runs_trace t t' Ht E') as (L' & x' & T').
  pose proof (proj2 (rw_keys _ s t RW c) Hc) as Hc'.
  destruct (tc_nth _ _ _ _ T c h k a Hc Hh Ha K) as [Lk ->]. destruct (tc_nth _ _ _ _ T' c h' k b Hc' Hh' Hb K') as [Lk' ->].
  pose proof (sane_base s (proj1 Hs)) as (_ & _ & _ & Ar).
  assert (G : forall i, (i <= k)%nat -> forall d, In d (dkeys (m_topo s)) -> x' i d = x i d); [|symmetry; apply (G k (le_n k) c Hc)].
  induction i as [|i IH]; intros Hi' d Hd.
  - pose proof (tc_start _ _ _ _ T d Hd) as S1. pose proof (tc_start _ _ _ _ T' d (proj2 (rw_keys _ s t RW d) Hd)) as S2. rewrite (Hi d Hd), S1 in S2. congruence.
  - assert (Hd' := Hd). apply dget_Some_In in Hd' as [n Hnd]. destruct (Hn d n Hnd) as [Fn Me].
    pose proof (next_responds _ _ _ _ _ _ (tc_orbit _ _ _ _ T i d n ltac:(lia) Hnd)) as (f & fn & ar & A1 & A2 & A3 & A4).
    pose proof (rw_orbit _ s t RW x' L' (tc_orbit _ _ _ _ T') i d n ltac:(lia) Hnd) as (f' & fn' & ar' & B1 & B2 & B3 & B4).
    rewrite Fn in A1, B1. injection A1 as <-. injection B1 as <-. cbn in A2, B2. injection A2 as <-. injection B2 as <-. change (String.eqb "biestate" "fuzzy") with false in A4, B4. cbv iota in A4, B4.
    cbn [call_actv] in A4, B4. apply rbind_ok in A4 as (? & _ & A4). apply rbind_ok in B4 as (? & _ & B4). apply Ok_inj in A4. apply Ok_inj in B4. rewrite <- A4, <- B4.
    rewrite !total_input_R. destruct (nd_mem n) as [[|]|]; [congruence| |]; rewrite !Rplus_0_r;
      (rewrite (incoming_scaled (m_topo s) (m_arcs s) (m_arcs t) p (x i) (x' i) d); [now apply bistate_scaled|apply arcs_rel, RW|]; intros d' w o Ho; apply IH; [lia|]; now apply (Ar d' w o)).
Qed.
