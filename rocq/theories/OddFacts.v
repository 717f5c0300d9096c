(** OddFacts.v — maps that treat positive and negative activation alike (C109). *)
From Coq Require Import Reals Lra.
From Verif Require Import Base BaseFacts Num Functions Spec SortFacts RealFacts FunctionsFacts Fcm FcmSpec VecSpec DynSpec
  FcmInv FcmInv2 FcmInv3 FcmIter FcmRun FcmRun2 FcmRun3 FcmOrder FcmStop FcmVec FcmVec2 FcmVec3 FcmVec4 FcmVec5
  Dynamics Dynamics2 Dynamics3 VecDyn.
Local Open Scope R_scope.

(** for inputs up to [B], the concept answers the opposite input with the opposite
    value, of size at most 1, and it emits its value *)
Definition odd_within (B : R) (n : node R) : Prop :=
  nd_exec n <> Some "PAPAGEORGIUS" /\
  forall u y, Rabs u <= B -> responds n u y -> Rabs y <= 1 /\ forall z, responds n (- u) z -> z = - y.
(** ... for every input that can arrive while no value exceeds [A] *)
Definition even_handed (A : R) (s : fcm R) : Prop :=
  forall c n, dget (m_topo s) c = Some n -> odd_within (gain (m_topo s) (m_arcs s) c n * A) n.

Lemma plain_signal (n : node R) v : nd_exec n <> Some "PAPAGEORGIUS" -> signal n v = v.
Proof.
  unfold signal. destruct (nd_exec n) as [e|]; auto.
  repeat match goal with |- context [match ?e with _ => _ end] => destruct e end; auto; intros H; contradiction H; reflexivity.
Qed.
Lemma incoming_opp (tp : dict (node R)) arcs x x' c :
  (forall o n, dget tp o = Some n -> nd_exec n <> Some "PAPAGEORGIUS") ->
  (forall d w o, In (d, w, o) arcs -> x' o = - x o) ->
  Rsum (incoming tp arcs x' c) = - Rsum (incoming tp arcs x c).
Proof.
  intros He. induction arcs as [|[[d w] o] arcs IH]; intros H; [cbn; lra|]. cbn [incoming].
  assert (I := IH (fun d w o Ho => H d w o (or_intror Ho))). clear IH.
  destruct (dget tp o) as [n|] eqn:En; auto. destruct (_ && _); auto.
  cbn [Rsum fold_right]. fold (Rsum (incoming tp arcs x c)). fold (Rsum (incoming tp arcs x' c)). cbn [nmul RNum].
  rewrite I, !(plain_signal n) by eauto. rewrite (H d w o (or_introl eq_refl)). lra.
Qed.
Lemma input_opp (tp : dict (node R)) arcs x x' c n : dget tp c = Some n ->
  (forall o n, dget tp o = Some n -> nd_exec n <> Some "PAPAGEORGIUS") ->
  (forall d w o, In (d, w, o) arcs -> x' o = - x o) -> x' c = - x c ->
  total_input tp arcs x' c n = - total_input tp arcs x c n.
Proof.
  intros Hn He H Hc. rewrite !total_input_R, (incoming_opp tp arcs x x' c He H), !(plain_signal n) by eauto.
  rewrite Hc. destruct (match nd_mem n with Some b => b | None => false end); lra.
Qed.
Lemma incoming_zero (tp : dict (node R)) arcs x c :
  (forall o n, dget tp o = Some n -> nd_exec n <> Some "PAPAGEORGIUS") ->
  (forall d w o, In (d, w, o) arcs -> x o = 0) -> Rsum (incoming tp arcs x c) = 0.
Proof.
  intros He H. pose proof (incoming_opp tp arcs x x c He) as Q.
  assert (Rsum (incoming tp arcs x c) = - Rsum (incoming tp arcs x c)); [apply Q|lra].
  intros d w o Ho. rewrite (H d w o Ho). lra.
Qed.
Lemma input_bound (tp : dict (node R)) arcs x c n A :
  dget tp c = Some n -> (forall o n, dget tp o = Some n -> nd_exec n <> Some "PAPAGEORGIUS") ->
  (forall d w o, In (d, w, o) arcs -> Rabs (x o) <= A) -> Rabs (x c) <= A ->
  Rabs (total_input tp arcs x c n) <= gain tp arcs c n * A.
Proof.
  intros Hn He H Hc.
  assert (Z : total_input tp arcs (fun _ => 0) c n = 0).
  { rewrite total_input_R, (incoming_zero tp arcs (fun _ => 0) c He) by auto. rewrite (plain_signal n) by eauto.
    destruct (match nd_mem n with Some b => b | None => false end); lra. }
  pose proof (input_lip tp arcs x (fun _ => 0) c n A) as Q. rewrite Z, !Rminus_0_r in Q.
  apply Q; [intros d w o Ho; rewrite Rminus_0_r; eauto|exact Hc].
Qed.

Lemma orbit_mirror (s : fcm R) A x x' L : sane s -> 1 <= A -> even_handed A s ->
  orbit (m_topo s) (m_arcs s) x L -> orbit (m_topo s) (m_arcs s) x' L ->
  (forall c, In c (concepts s) -> Rabs (x 0%nat c) <= A /\ x' 0%nat c = - x 0%nat c) ->
  forall k c, (k <= L)%nat -> In c (concepts s) -> Rabs (x k c) <= A /\ x' k c = - x k c.
Proof.
  intros Hs HA Hod O O' H0. pose proof (sane_base s Hs) as (_ & _ & _ & Ar).
  assert (He : forall o n, dget (m_topo s) o = Some n -> nd_exec n <> Some "PAPAGEORGIUS") by (intros o n Hn; apply (Hod o n Hn)).
  induction k as [|k IH]; intros c Hk Hc; [auto|].
  destruct (proj2 (dget_Some_In (m_topo s) c) Hc) as [n Hn].
  pose proof (next_responds _ _ _ _ _ _ (O k c n ltac:(lia) Hn)) as R1.
  pose proof (next_responds _ _ _ _ _ _ (O' k c n ltac:(lia) Hn)) as R2.
  rewrite (input_opp (m_topo s) (m_arcs s) (x k) (x' k) c n Hn He) in R2.
  - destruct (Hod c n Hn) as [_ Q]. destruct (Q _ _ (input_bound (m_topo s) (m_arcs s) (x k) c n A Hn He
      ltac:(intros d w o Ho; apply IH; [lia|now apply (Ar d w o)]) ltac:(apply IH; [lia|auto])) R1) as [Q1 Q2].
    split; [lra|]. exact (Q2 _ R2).
  - intros d w o Ho. apply IH; [lia|now apply (Ar d w o)].
  - apply IH; [lia|auto].
Qed.

(** ** Two runs of which one is an image of the other stop at the same time *)
Lemma tracks_image (g : R -> R) (s t s' t' : fcm R) L L' x x' :
  track s s' L x -> track t t' L' x' -> concepts t = concepts s -> settings t = settings s ->
  (forall a b, Rabs (g a - g b) = Rabs (a - b)) ->
  (forall k c, (k <= L)%nat -> (k <= L')%nat -> In c (concepts s) -> x' k c = g (x k c)) ->
  L = L' /\ forall c h, history s' c = Some h -> history t' c = Some (map g h).
Proof.
  intros T T' Hc Se Hg Ha. destruct (settings_max _ _ Se) as (M1 & M2 & M3 & M4 & M5 & _).
  assert (I : forall p, (p <= L)%nat -> (p <= L')%nat -> idle s s' p <-> idle t t' p).
  { intros p Hp Hp'. unfold idle. rewrite M1, M3, M4.
    split; (intros [H|(H1 & H2 & H3)]; [now left|right]); (split; [auto|]; split; [auto|]); intros c h a b Hh Hna Hnb.
    - destruct (track_nth _ _ _ _ _ _ _ _ T' Hh Hna) as (Hcc & _ & ->). destruct (track_nth _ _ _ _ _ _ _ _ T' Hh Hnb) as (_ & _ & ->).
      rewrite Hc in Hcc. rewrite !Ha by (auto; lia). cbn [nabs nsub RNum]. rewrite Hg.
      destruct (track_nth' _ _ _ _ c (p - 1) T Hcc ltac:(lia)) as (h1 & E1 & N1).
      destruct (track_nth' _ _ _ _ c (p - 2) T Hcc ltac:(lia)) as (h2 & E2 & N2). assert (h2 = h1) as -> by congruence.
      exact (H3 c h1 _ _ E1 N1 N2).
    - destruct (track_nth _ _ _ _ _ _ _ _ T Hh Hna) as (Hcc & _ & ->). destruct (track_nth _ _ _ _ _ _ _ _ T Hh Hnb) as (_ & _ & ->).
      assert (Hct := Hcc). rewrite <- Hc in Hct.
      destruct (track_nth' _ _ _ _ c (p - 1) T' Hct ltac:(lia)) as (h1 & E1 & N1).
      destruct (track_nth' _ _ _ _ c (p - 2) T' Hct ltac:(lia)) as (h2 & E2 & N2). assert (h2 = h1) as -> by congruence.
      pose proof (H3 c h1 _ _ E1 N1 N2) as Q. rewrite !Ha in Q by (auto; lia). cbn [nabs nsub RNum] in *. now rewrite Hg in Q. }
  assert (IE : forall l, (l <= L)%nat -> (l <= L')%nat ->
     idle_for s s' (Z.to_nat (m_extra s - 1)) l <-> idle_for t t' (Z.to_nat (m_extra t - 1)) l).
  { intros l Hl Hl'. unfold idle_for. rewrite M2. split; intros [H1 H2]; (split; [auto|]); intros p Hp; apply I; auto; lia. }
  assert (L = L') as <-.
  { destruct (tk_stop _ _ _ _ T) as [S1 S2]. destruct (tk_stop _ _ _ _ T') as [S1' S2'].
    destruct (Nat.lt_trichotomy L L') as [H|[H|H]]; auto; exfalso.
    - apply (S2' L H). apply IE; auto; lia.
    - apply (S2 L' H). apply IE; auto; lia. }
  split; auto. intros c h Hh. assert (Hin : In c (concepts s)) by (apply (tk_keys _ _ _ _ T); congruence).
  rewrite (tk_hist _ _ _ _ T c Hin) in Hh. assert (h = map (fun k => x k c) (seq 0 (S L))) as -> by congruence.
  assert (Hin' := Hin). rewrite <- Hc in Hin'. rewrite (tk_hist _ _ _ _ T' c Hin'), map_map. f_equal.
  apply map_ext_in. intros k Hk. apply in_seq in Hk. apply Ha; auto; lia.
Qed.

(** ** Decisions of mirrored histories *)
Lemma lget_map (g : R -> R) l i : lget (map g l) i = rbind (lget l i) (fun v => Ok (g v)).
Proof. unfold lget. rewrite nth_error_map. destruct (nth_error l i); reflexivity. Qed.
Lemma rmap_lget_map (g : R -> R) l is : Base.rmap (fun i => lget (map g l) i) is =
  rbind (Base.rmap (fun i => lget l i) is) (fun xs => Ok (map g xs)).
Proof.
  induction is as [|i is IH]; auto. cbn [Base.rmap]. rewrite lget_map, IH. destruct (lget l i); cbn [rbind]; auto.
  clear IH. destruct (Base.rmap (fun i => lget l i) is); reflexivity.
Qed.
Lemma Rsum_opp l : Rsum (map Ropp l) = - Rsum l.
Proof. unfold Rsum. induction l as [|a l IH]; cbn [map fold_right]; lra. Qed.
Lemma decision_opp d (h : list R) z v : d <> DExited -> exec_decision d h z = Ok v -> exec_decision d (map Ropp h) z = Ok (- v).
Proof.
  destruct d; intros Hd; [| |congruence]; cbn [exec_decision].
  - unfold decision_last. destruct (0 <? z)%Z.
    + unfold zget. destruct (z <? 0)%Z; [discriminate|].
      intros H. rewrite lget_map, H. reflexivity.
    + rewrite <- map_rev. destruct (rev h); [discriminate|]. cbn [map]. now intros [= <-].
  - unfold decision_mean. rewrite map_length, rmap_lget_map.
    destruct (Base.rmap (fun i => lget h i) _) as [xs|]; cbn [rbind]; [|discriminate].
    rewrite !nsum_Rsum, Rsum_opp. unfold pdiv. destruct (neqb _ n0); [discriminate|]. intros [= <-].
    cbn [ndiv nofZ RNum]. f_equal. unfold Rdiv. ring.
Qed.

(** ** The iterative engine *)
Lemma same_map_debug (s t : fcm R) : same_map s t -> m_debug t = m_debug s.
Proof. intros (_ & _ & S). now apply settings_max in S as (_ & _ & _ & _ & _ & S). Qed.
Lemma mirrored_runs A (s t s' t' : fcm R) : sane s -> sane t -> m_debug s = true -> same_map s t -> 1 <= A -> even_handed A s ->
  (forall c a, initial s c = Some a -> Rabs a <= A /\ initial t c = Some (- a)) ->
  run_inference true s = (s', Ok tt) -> run_inference true t = (t', Ok tt) ->
  forall c h, history s' c = Some h -> history t' c = Some (map Ropp h) /\
    (m_decision s <> "EXITED" -> exists v, value s' c = Some v /\ value t' c = Some (- v)).
Proof.
  intros Hs Ht D M HA Hod Hi E E' c h Hh. pose proof (same_map_debug s t M) as D'. rewrite D in D'.
  destruct (run_track s s' Hs D E) as (L & x & T). destruct (run_track t t' Ht D' E') as (L' & x' & T').
  pose proof (same_map_keys s t M) as K. pose proof M as (_ & _ & Se).
  assert (Mi : forall k c, (k <= L)%nat -> (k <= L')%nat -> In c (concepts s) -> x' k c = - x k c).
  { intros k d Hk Hk' Hd. apply (orbit_mirror s A x x' k Hs HA Hod); auto.
    - intros q e n Hq. apply (tk_orbit _ _ _ _ T). lia.
    - apply (orbit_same s t); auto. intros q e n Hq. apply (tk_orbit _ _ _ _ T'). lia.
    - intros e He. destruct (Hi e _ (tk_start _ _ _ _ T e He)) as [H1 H2]. split; auto.
      assert (He' := He). rewrite <- K in He'. rewrite (tk_start _ _ _ _ T' e He') in H2. congruence. }
  destruct (tracks_image Ropp s t s' t' L L' x x' T T' K Se) as [<- HH]; auto.
  { intros a b. rewrite <- Rabs_Ropp. f_equal. lra. }
  split; [now apply HH|]. intros Hde. assert (Hc : In c (concepts s)) by (apply (tk_keys _ _ _ _ T); congruence).
  destruct (tk_value _ _ _ _ T c h Hc Hh) as (d & v & V1 & V2 & V3). assert (Hc' := Hc). rewrite <- K in Hc'.
  destruct (tk_value _ _ _ _ T' c _ Hc' (HH c h Hh)) as (d' & v' & V1' & V2' & V3').
  destruct (settings_max _ _ Se) as (M1 & M2 & M3 & M4 & M5 & _). rewrite M5, V1 in V1'. injection V1' as <-.
  rewrite map_length, M2 in V2'. exists v. split; auto. rewrite V3'. f_equal.
  rewrite (decision_opp d h _ v) in V2'; auto; [congruence|]. intros ->. apply Hde. unfold get_decision_by_name in V1.
  destruct (String.eqb_spec (m_decision s) "LAST"); [discriminate|]. destruct (String.eqb_spec (m_decision s) "MEAN"); [discriminate|].
  now destruct (String.eqb_spec (m_decision s) "EXITED").
Qed.

(** ** Nothing comes from nothing *)
Definition silent_node (n : node R) : Prop :=
  nd_exec n <> Some "PAPAGEORGIUS" /\ forall y, responds n 0 y -> y = 0.
Lemma orbit_zero (s : fcm R) x L : sane s -> (forall c n, dget (m_topo s) c = Some n -> silent_node n) ->
  orbit (m_topo s) (m_arcs s) x L -> (forall c, In c (concepts s) -> x 0%nat c = 0) ->
  forall k c, (k <= L)%nat -> In c (concepts s) -> x k c = 0.
Proof.
  intros Hs Hod O H0. pose proof (sane_base s Hs) as (_ & _ & _ & Ar).
  assert (He : forall o n, dget (m_topo s) o = Some n -> nd_exec n <> Some "PAPAGEORGIUS") by (intros o n Hn; apply (Hod o n Hn)).
  induction k as [|k IH]; intros c Hk Hc; [auto|].
  destruct (proj2 (dget_Some_In (m_topo s) c) Hc) as [n Hn].
  pose proof (next_responds _ _ _ _ _ _ (O k c n ltac:(lia) Hn)) as R1.
  rewrite total_input_R, (plain_signal n) in R1 by eauto.
  rewrite (incoming_zero (m_topo s) (m_arcs s) (x k) c He) in R1.
  - rewrite (IH c ltac:(lia) Hc), Rplus_0_l in R1. apply (Hod c n Hn).
    now destruct (match nd_mem n with Some b => b | None => false end).
  - intros d w o Ho. apply IH; [lia|now apply (Ar d w o)].
Qed.
Lemma decision_zero d h z v : Forall (fun x => x = 0) h -> exec_decision d h z = Ok v -> v = 0.
Proof.
  intros H E. assert (0 <= v <= 0); [|lra]. apply (decision_range 0 0 d h z v); auto.
  eapply Forall_impl; [|exact H]. cbv beta. intros; lra.
Qed.
Lemma silent_run (s s' : fcm R) : sane s -> m_debug s = true -> (forall c n, dget (m_topo s) c = Some n -> silent_node n) ->
  (forall c a, initial s c = Some a -> a = 0) -> run_inference true s = (s', Ok tt) ->
  forall c, In c (concepts s) -> (forall h, history s' c = Some h -> Forall (fun x => x = 0) h) /\ value s' c = Some 0.
Proof.
  intros Hs D Hod Hi E c Hc. destruct (run_track s s' Hs D E) as (L & x & T).
  assert (A : forall h, history s' c = Some h -> Forall (fun x => x = 0) h).
  { intros h Hh. apply Forall_forall. intros v Hv. apply In_nth_error in Hv as [k Hv].
    destruct (track_nth _ _ _ _ _ _ _ _ T Hh Hv) as (_ & Hk & ->).
    apply (orbit_zero s x L); auto; [apply (tk_orbit _ _ _ _ T)|]. intros d Hd. apply (Hi d). now apply (tk_start _ _ _ _ T). }
  split; [exact A|]. destruct (tk_value _ _ _ _ T c _ Hc (tk_hist _ _ _ _ T c Hc)) as (d & v & _ & V2 & ->).
  f_equal. exact (decision_zero d _ _ v (A _ (tk_hist _ _ _ _ T c Hc)) V2).
Qed.

(** ** The vectorized engine *)
Lemma vec_mirrored A (s t s' t' : fcm R) : sane s -> sane t -> regular s -> responsive s -> m_debug s = false -> (1 <= m_maxit s)%Z ->
  same_map s t -> 1 <= A -> even_handed A s ->
  (forall c a, initial s c = Some a -> Rabs a <= A /\ initial t c = Some (- a)) ->
  run_inference true s = (s', Ok tt) -> run_inference true t = (t', Ok tt) -> m_oob s' = false -> m_oob t' = false ->
  forall c h h' k a b, In c (concepts s) -> history s' c = Some h -> history t' c = Some h' ->
    nth_error h k = Some a -> nth_error h' k = Some b -> b = - a.
Proof.
  intros Hs Ht Rg Rs D Hm M HA Hod Hi E E' O1 O2 c h h' k a b Hc Hh Hh' Ha Hb.
  assert (Hne : concepts s <> []) by (intros Z; rewrite Z in Hc; destruct Hc).
  destruct (both_at s t s' t' Hs Ht Rg Rs D Hne Hm M E E' c h h' k a b Hc Hh Hh' Ha Hb (fun _ => conj O1 O2)) as (x & x' & O & O' & -> & -> & I).
  apply (orbit_mirror s A x x' k Hs HA Hod O O'); auto.
  intros d Hd. destruct (I d Hd) as [I1 I2]. destruct (Hi d _ I1) as [H1 H2]. split; auto. congruence.
Qed.
Lemma vec_silent (s s' : fcm R) : sane s -> regular s -> responsive s -> m_debug s = false -> (1 <= m_maxit s)%Z ->
  (forall c n, dget (m_topo s) c = Some n -> silent_node n) -> (forall c a, initial s c = Some a -> a = 0) ->
  run_inference true s = (s', Ok tt) ->
  forall c, In c (concepts s) -> (forall h, history s' c = Some h -> Forall (fun x => x = 0) h) /\
    (history s' c <> None -> value s' c = Some 0).
Proof.
  intros Hs Rg Rs D Hm Hod Hi E c Hc. assert (Hne : concepts s <> []) by (intros Z; rewrite Z in Hc; destruct Hc).
  destruct (run_vtrack s s' Hs Rg Rs D Hne Hm E) as (L & x & T).
  assert (A : forall h, history s' c = Some h -> Forall (fun x => x = 0) h).
  { intros h Hh. apply Forall_forall. intros v Hv. apply In_nth_error in Hv as [k Hv].
    destruct (vt_nth _ _ _ _ T c h k v Hc Hh Hv) as (_ & (i & d & Hi' & Hd & ->) & _).
    apply (orbit_zero s x L); auto; [apply (vt_orbit _ _ _ _ T)|]. intros e He. apply (Hi e). now apply (vt_start _ _ _ _ T). }
  split; [exact A|]. intros Hh. destruct (history s' c) as [h|] eqn:Eh; [|congruence].
  destruct (vt_value _ _ _ _ T c h Hc Eh) as (d & v & _ & V2 & ->). f_equal. exact (decision_zero d _ _ v (A h eq_refl) V2).
Qed.

(** ** The hyperbolic sigmoid *)
Lemma hip_responds (n : node R) f a u y : In f ["sigmoid_hip"; "tan_hip"] -> nd_func n = Some f -> nd_args n = Some a ->
  responds n u y -> y = sigmoid_hip u (parameter a "lambda_val" 2).
Proof.
  intros Hf Nf Na (f' & fn & a' & A1 & A2 & A3 & A4). assert (f' = f) as -> by congruence. assert (a' = a) as -> by congruence.
  assert (fn = ASigmoidHip /\ String.eqb f "fuzzy" = false) as [-> Nz].
  { destruct Hf as [<-|[<-|[]]]; cbn in A2; injection A2 as <-; auto. }
  rewrite Nz in A4. cbn [call_actv] in A4. destruct (kw_only _ a); cbn [rbind] in A4; [|discriminate].
  destruct (kw_scal a "lambda_val" n2) as [l|] eqn:El; cbn [rbind] in A4; [|discriminate].
  apply kw_parameter in El. change (parameter a "lambda_val" 2) with (parameter a "lambda_val" n2). rewrite <- El. congruence.
Qed.
Lemma hip_odd_within B (n : node R) f a : In f ["sigmoid_hip"; "tan_hip"] -> nd_func n = Some f -> nd_args n = Some a ->
  nd_exec n <> Some "PAPAGEORGIUS" -> Rabs (parameter a "lambda_val" 2) * B <= 500 -> odd_within B n.
Proof.
  intros Hf Nf Na He HB. split; auto. intros u y Hu H. pose proof (hip_responds n f a u y Hf Nf Na H) as ->.
  set (l := parameter a "lambda_val" 2) in *. pose proof (sigmoid_hip_range u l). split; [apply Rabs_le; lra|].
  intros z Hz. rewrite (hip_responds n f a _ z Hf Nf Na Hz). apply sigmoid_hip_odd. rewrite Rabs_mult.
  pose proof (Rabs_pos l). fold l. nra.
Qed.
Lemma hip_silent (n : node R) f a : In f ["sigmoid_hip"; "tan_hip"] -> nd_func n = Some f -> nd_args n = Some a ->
  nd_exec n <> Some "PAPAGEORGIUS" -> silent_node n.
Proof.
  intros Hf Nf Na He. split; auto. intros y H. rewrite (hip_responds n f a _ y Hf Nf Na H).
  pose proof (sigmoid_hip_odd 0 (parameter a "lambda_val" 2)) as Q. rewrite Ropp_0, Rmult_0_r, Rabs_R0 in Q. lra.
Qed.

(** ** A clip at -1 and 1 *)
Lemma gceq_responds (n : node R) a u y : nd_func n = Some "gceq" -> nd_args n = Some a ->
  responds n u y -> y = greater_cond_equality u (parameter a "weight" (-1)).
Proof.
  intros Nf Na (f' & fn & a' & A1 & A2 & A3 & A4). assert (f' = "gceq") as -> by congruence. assert (a' = a) as -> by congruence.
  cbn in A2. injection A2 as <-. change (String.eqb "gceq" "fuzzy") with false in A4.
  cbn [call_actv] in A4. destruct (kw_only _ a); cbn [rbind] in A4; [|discriminate].
  destruct (kw_scal a "weight" nm1) as [l|] eqn:El; cbn [rbind] in A4; [|discriminate].
  apply kw_parameter in El. assert (X : nm1 = (-1)) by (cbn; lra). rewrite X in El. rewrite <- El. congruence.
Qed.
Lemma gceq_clip u w : w <= - Rabs u -> greater_cond_equality u w = if Rlt_dec 1 u then 1 else if Rlt_dec u (-1) then -1 else u.
Proof.
  intros H. unfold greater_cond_equality. pose proof (Rle_abs (- u)) as Q. rewrite Rabs_Ropp in Q.
  cbn. rewrite (proj2 (Rleb_true w u)) by lra. unfold Rltb.
  destruct (Rlt_dec 1 u); destruct (Rlt_dec u (-1)); try lra; auto.
Qed.
Lemma gceq_odd_within B (n : node R) a : nd_func n = Some "gceq" -> nd_args n = Some a ->
  nd_exec n <> Some "PAPAGEORGIUS" -> B <= - parameter a "weight" (-1) -> odd_within B n.
Proof.
  intros Nf Na He HB. split; auto. intros u y Hu H. rewrite (gceq_responds n a u y Nf Na H), gceq_clip by lra. split.
  - destruct (Rlt_dec 1 u); [rewrite Rabs_R1; lra|]. destruct (Rlt_dec u (-1)); apply Rabs_le; lra.
  - intros z Hz. rewrite (gceq_responds n a _ z Nf Na Hz), gceq_clip by (rewrite Rabs_Ropp; lra).
    repeat match goal with |- context [Rlt_dec ?a ?b] => destruct (Rlt_dec a b) end; lra.
Qed.
Lemma gceq_silent (n : node R) a : nd_func n = Some "gceq" -> nd_args n = Some a -> nd_exec n <> Some "PAPAGEORGIUS" -> silent_node n.
Proof.
  intros Nf Na He. split; auto. intros y H. rewrite (gceq_responds n a _ y Nf Na H).
  unfold greater_cond_equality. cbn. destruct (Rleb _ 0); auto. unfold Rltb.
  repeat match goal with |- context [Rlt_dec ?a ?b] => destruct (Rlt_dec a b) end; lra.
Qed.
