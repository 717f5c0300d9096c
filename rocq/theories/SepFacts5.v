(** SepFacts5.v — the class of a sample wins a run started from it (C93). *)
From Coq Require Import Reals Lra.
From Verif Require Import Base BaseFacts Num Functions Spec RealFacts FunctionsFacts Fcm FcmSpec FcmBasics FcmInv FcmInv2 FcmIter FcmRun FcmRun2 FcmOrder DynSpec Dynamics Dynamics2 VecSpec FcmVec5 FcmTotal LearnUtils LearnSpec Assoc AssocSpec Estimator EstFacts SepSpec SepFacts SepFacts2 SepFacts3 SepFacts4.
Local Open Scope R_scope.

Lemma Rabs_Rsum {A} (f : A -> R) l B : (forall a, In a l -> Rabs (f a) <= B) -> Rabs (Rsum (map f l)) <= INR (length l) * B.
Proof.
  induction l as [|a l IH]; intros H; cbn [map length]; rewrite ?Rsum_nil, ?Rsum_cons1.
  - cbn. rewrite Rabs_R0. lra.
  - rewrite S_INR. pose proof (Rabs_triang (f a) (Rsum (map f l))). specialize (IH (fun b Hb => H b (or_intror Hb))). specialize (H a (or_introl eq_refl)). lra.
Qed.
Section Winner.
Variable cf : gconf R.
Hypothesis Hsep : c_sep cf = "___".
Hypothesis Ev : c_eval cf = rel_supp.
Hypothesis Th : 0 <= c_thr cf.
Hypothesis Ca : c_caus cf = rel_conf \/ c_caus cf = rel_pos_inf.
Hypothesis Sg : c_sign cf = None.
Variables (ds : dataset R) (targets : list string) (n : nat) (fds : list (fdesc R)).
Hypothesis Plain : forall f c, In (f, c) ds -> plain_column cf c.
Hypothesis Freq : forall f c, In (f, c) ds -> frequent (c_thr cf) c.
Hypothesis Sepd : separated n ds.
Hypothesis Some_rows : (0 < n)%nat.
Hypothesis D : Forall2 (described cf targets) ds fds.
Hypothesis NN : NoDup (flat_map fd_names fds).
Hypothesis NF : NoDup (map fd_feat fds).
Hypothesis Ln : Forall (fun d => length (fd_rows d) = length (fd_names d)) fds.
Variables (s s' : fcm R) (b : bool) (xc ac : string) (kw : args R).
Hypothesis Hs : sane s.
Hypothesis Cm : common s b xc ac kw.
Hypothesis Hc : callable ac kw.
Hypothesis Tl : telling ac kw (reach xc * (1 + Rabs (c_excl cf)) * INR (S (length (concepts s)))).
Hypothesis All : concepts s = flat_map fd_names fds.
Hypothesis NR : NoDup (map fst (relations s)).
Hypothesis Rel : forall a b w, In (a, b, w) (relations s) <-> exclusion cf fds a b w \/ association cf fds a b w.
Notation arcs := (m_arcs s).
Notation lwt := (lw arcs).
Lemma Arcs' : relations s = map (fun a => let '(d, w, o) := a in (o, d, w)) arcs.
Proof. unfold relations. apply map_ext. intros [[d w] o]. reflexivity. Qed.
Lemma grp_of G c r : In G (groups fds) -> In (c, r) G -> exists d, In d fds /\ G = grp d.
Proof. intros H _. apply in_map_iff in H as (d & <- & Hd). eauto. Qed.
Lemma name_concept_in d c r : In d fds -> In (c, r) (grp d) -> In c (concepts s).
Proof. intros Hd H. rewrite All. apply in_flat_map. exists d. split; auto. unfold grp in H. now apply in_combine_l in H. Qed.
Lemma concept_grp c : In c (concepts s) -> exists d r, In d fds /\ In (c, r) (grp d).
Proof.
  rewrite All. intros H. apply in_flat_map in H as (d & Hd & H). exists d. rewrite <- (grp_names fds Ln d Hd) in H. apply in_map_iff in H as ([c' r] & E & H).
  cbn in E. subst c'. eauto.
Qed.
Lemma W_le A G : W cf fds A G <= 1.
Proof. unfold W. destruct (_ && _); lra. Qed.
Lemma lw_bound a c : In a (concepts s) -> In c (concepts s) -> Rabs (lwt a c) <= 1 + Rabs (c_excl cf).
Proof.
  intros Ha Hc'. apply concept_grp in Ha as (d & r & Hd & Ha). apply concept_grp in Hc' as (d' & r' & Hd' & Hc').
  pose proof (Rabs_pos (c_excl cf)) as P. assert (HG : In (grp d') (groups fds)) by (apply in_map; auto). apply in_split in HG as (pre & post & E).
  assert (HA : In (grp d) (groups fds)) by (apply in_map; auto). rewrite E in HA. apply in_app_or in HA.
  assert (Cases : grp d' = grp d \/ In (grp d) (pre ++ post)) by (destruct HA as [HA|[HA|HA]]; auto; right; apply in_app_iff; auto). destruct Cases as [Eg|Ho].
  - rewrite Eg in Hc'. rewrite (lw_inner cf fds NN NF Ln (relations s) arcs Arcs' NR Rel d a c r r' Hd Ha Hc').
    destruct (String.eqb a c); [rewrite Rabs_R0|]; lra.
  - destruct (lw_cross cf Hsep Ev Th Ca Sg ds targets n fds Plain Freq Sepd Some_rows D NN NF Ln (relations s) arcs Arcs' NR Rel pre (grp d') post (grp d) a c r r' E Ho Ha Hc') as [X1 X2].
    destruct (list_eq_dec Req_EM_T r r') as [Er|Er]; [rewrite (X1 Er)|rewrite (X2 Er), Rabs_R0; lra].
    pose proof (W_nonneg cf fds (grp d) (grp d')). pose proof (W_le (grp d) (grp d')). rewrite Rabs_pos_eq; lra.
Qed.

Variables (L : nat) (x : nat -> string -> R) (k : nat) (f : string -> nat -> R).
Hypothesis Oc : outcome s s' L x k f.
Variable b1 : list R.
Definition set_from (d : fdesc R) : Prop := forall c r, In (c, r) (grp d) -> (r = b1 -> initial s c = Some 1) /\ (r <> b1 -> initial s c = Some 0).
Definition unset (d : fdesc R) : Prop := forall c r, In (c, r) (grp d) -> initial s c = Some 0.
Hypothesis Started : forall d, In d fds -> set_from d \/ unset d.
Variable d0 : fdesc R.
Hypothesis Hd0 : In d0 fds.
Hypothesis Ht0 : fd_target d0 = false.
Hypothesis Hs0 : set_from d0.

Lemma start_of c v : In c (concepts s) -> initial s c = Some v -> x 0%nat c = v.
Proof. intros H E. rewrite (oc_start _ _ _ _ _ _ Oc c H) in E. now injection E. Qed.
Lemma in_range t c : (t <= L)%nat -> In c (concepts s) -> -1 <= x t c <= 1.
Proof.
  intros Ht Hcc. destruct t as [|t].
  - destruct (concept_grp c Hcc) as (d & r & Hd & Hr). destruct (Started d Hd) as [X|X].
    + destruct (X c r Hr) as [X1 X2]. destruct (list_eq_dec Req_EM_T r b1) as [E|E]; [rewrite (start_of c 1)|rewrite (start_of c 0)]; auto; lra.
    + rewrite (start_of c 0); eauto. lra.
  - unfold concepts in Hcc. apply dget_Some_In in Hcc as [nd Hn]. pose proof (oc_orbit _ _ _ _ _ _ Oc t c nd Ht Hn) as N.
    apply (common_step s b xc ac kw Hs Cm Hc NR) in N; auto. destruct N as (fn & F1 & F2). exact (telling_range _ _ _ _ _ _ Tl F1 F2).
Qed.
Notation sg := (sgn xc).
Notation gs := (groups fds).
Notation infl := (inflow gs lwt sg).
Lemma infl_sum y c : infl y c = Rsum (map (fun a => sg (y a) * lwt a c) (concepts s)).
Proof. unfold inflow. rewrite (groups_names fds Ln), All. reflexivity. Qed.
Lemma step_moves t : (t < L)%nat -> moves gs lwt sg (memw b) (act ac kw) (x t) (x (S t)).
Proof.
  intros Ht G c r HG Hcr. destruct (grp_of G c r HG Hcr) as (d & Hd & ->). pose proof (name_concept_in d c r Hd Hcr) as Ic. unfold concepts in Ic.
  apply dget_Some_In in Ic as [nd Hn]. rewrite infl_sum. apply (common_step s b xc ac kw Hs Cm Hc NR) with (n := nd); auto. now apply (oc_orbit _ _ _ _ _ _ Oc).
Qed.
Lemma memw_01 : 0 <= memw b <= 1.
Proof. unfold memw. destruct b; lra. Qed.
Lemma reach_pos : 1 <= reach xc.
Proof. unfold reach. destruct (String.eqb _ _); lra. Qed.
Lemma input_bound t c : (t <= L)%nat -> In c (concepts s) ->
  Rabs (infl (x t) c + memw b * sg (x t c)) <= reach xc * (1 + Rabs (c_excl cf)) * INR (S (length (concepts s))).
Proof.
  intros Ht Hcc. rewrite infl_sum, S_INR. pose proof reach_pos as Rp. pose proof memw_01 as M. pose proof (Rabs_pos (c_excl cf)) as P.
  assert (S1 : forall a, In a (concepts s) -> Rabs (sg (x t a)) <= reach xc) by (intros a Ha; apply sgn_reach; now apply in_range).
  assert (B1 : Rabs (Rsum (map (fun a => sg (x t a) * lwt a c) (concepts s))) <= INR (length (concepts s)) * (reach xc * (1 + Rabs (c_excl cf)))).
  { apply Rabs_Rsum. intros a Ha. rewrite Rabs_mult. apply Rmult_le_compat; auto using Rabs_pos. now apply lw_bound. }
  assert (B2 : Rabs (memw b * sg (x t c)) <= reach xc * (1 + Rabs (c_excl cf))).
  { rewrite Rabs_mult, (Rabs_pos_eq (memw b)) by lra. specialize (S1 c Hcc). pose proof (Rabs_pos (sg (x t c))). nra. }
  pose proof (Rabs_triang (Rsum (map (fun a => sg (x t a) * lwt a c) (concepts s))) (memw b * sg (x t c))). lra.
Qed.
Definition liv (v : R) : Prop := ac <> "sigmoid" -> SepFacts2.live kw v.
Lemma step_alive t : (t < L)%nat -> alive gs lwt sg (memw b) liv (x t).
Proof.
  intros Ht G c r HG Hcr Ns. destruct (grp_of G c r HG Hcr) as (d & Hd & ->). pose proof (name_concept_in d c r Hd Hcr) as Ic.
  pose proof (input_bound t c ltac:(lia) Ic) as B. destruct Tl as [[X _]|(_ & L1 & L2)]; [congruence|]. unfold SepFacts2.live.
  assert (B' := Rle_abs (- (infl (x t) c + memw b * sg (x t c)))). rewrite Rabs_Ropp in B'. set (l := parameter kw "lambda_val" 2) in *. set (v := infl _ _ + _) in *. set (bd := _ * INR _) in *.
  assert (l * - v <= l * bd) by (apply Rmult_le_compat_l; lra). lra.
Qed.
Lemma act_mono' u v y z : u <= v -> act ac kw u y -> act ac kw v z -> y <= z.
Proof. intros H (fn & F1 & F2) (fn' & F1' & F2'). assert (fn' = fn) by congruence. subst fn'. eapply (increasing_call ac kw fn u v); eauto. eapply telling_increasing; eauto. Qed.
Lemma act_strict' u v y z : liv v -> u < v -> act ac kw u y -> act ac kw v z -> y < z.
Proof. intros Hl H (fn & F1 & F2) (fn' & F1' & F2'). assert (fn' = fn) by congruence. subst fn'. exact (telling_strict _ _ _ _ _ _ _ _ Tl F1 Hl H F2 F2'). Qed.
Lemma start_leads A : In A gs -> leads b1 (x 0%nat) A.
Proof.
  intros HA c c' r' H1 H2 Ne. apply in_map_iff in HA as (d & <- & Hd).
  pose proof (name_concept_in d c b1 Hd H1) as I1. pose proof (name_concept_in d c' r' Hd H2) as I2.
  destruct (Started d Hd) as [X|X].
  - rewrite (start_of c 1), (start_of c' 0); auto; [lra|now apply (proj2 (X c' r' H2))|now apply (proj1 (X c b1 H1))].
  - rewrite (start_of c 0), (start_of c' 0); eauto. lra.
Qed.
Lemma start_strict : strictly_leads b1 (x 0%nat) (grp d0).
Proof.
  intros c c' r' H1 H2 Ne. pose proof (name_concept_in d0 c b1 Hd0 H1) as I1. pose proof (name_concept_in d0 c' r' Hd0 H2) as I2.
  rewrite (start_of c 1), (start_of c' 0); auto; [lra|now apply (proj2 (Hs0 c' r' H2))|now apply (proj1 (Hs0 c b1 H1))].
Qed.
Hypothesis Own : c_excl cf <= memw b.
Lemma leads_all t A : (t <= L)%nat -> In A gs -> leads b1 (x t) A.
Proof.
  intros Ht HA. apply (orbit_leads gs lwt (c_excl cf) (W cf fds)) with (sg := sg) (mem := memw b) (act := act ac kw) (L := L); auto.
  - rewrite (groups_names fds Ln). exact NN.
  - intros G c c' r HG H1 H2. apply in_map_iff in HG as (d & <- & Hd). exact (grp_block_inj cf Hsep ds targets fds Plain D d c c' r Hd H1 H2).
  - intros B G c r HB HG H1. apply in_map_iff in HG as (d' & <- & Hd'). apply in_map_iff in HB as (d & <- & Hd).
    exact (grp_block_all cf Hsep ds targets n fds Plain Sepd Some_rows D d d' c r Hd Hd' H1).
  - intros G a c r r' HG H1 H2. apply in_map_iff in HG as (d & <- & Hd).
    exact (lw_inner cf fds NN NF Ln (relations s) arcs Arcs' NR Rel d a c r r' Hd H1 H2).
  - intros pre G post B a c r r' E HB H1 H2. exact (lw_cross cf Hsep Ev Th Ca Sg ds targets n fds Plain Freq Sepd Some_rows D NN NF Ln (relations s) arcs Arcs' NR Rel pre G post B a c r r' E HB H1 H2).
  - apply W_nonneg.
  - apply sgn_mono.
  - apply act_mono'.
  - apply step_moves.
  - apply start_leads.
Qed.
Lemma leads_strictly d : In d fds -> fd_target d = true ->
  strictly_leads b1 (x 1%nat) (grp d) /\ (c_excl cf < memw b -> forall t, (1 <= t <= L)%nat -> strictly_leads b1 (x t) (grp d)).
Proof.
  intros Hd Ht. apply (orbit_strict gs lwt (c_excl cf) (W cf fds)) with (sg := sg) (mem := memw b) (act := act ac kw) (live := liv); auto.
  - rewrite (groups_names fds Ln). exact NN.
  - intros G c c' r HG H1 H2. apply in_map_iff in HG as (d' & <- & Hd'). exact (grp_block_inj cf Hsep ds targets fds Plain D d' c c' r Hd' H1 H2).
  - intros B G c r HB HG H1. apply in_map_iff in HG as (d' & <- & Hd'). apply in_map_iff in HB as (d2 & <- & Hd2).
    exact (grp_block_all cf Hsep ds targets n fds Plain Sepd Some_rows D d2 d' c r Hd2 Hd' H1).
  - intros G a c r r' HG H1 H2. apply in_map_iff in HG as (d' & <- & Hd').
    exact (lw_inner cf fds NN NF Ln (relations s) arcs Arcs' NR Rel d' a c r r' Hd' H1 H2).
  - intros pre G post B a c r r' E HB H1 H2. exact (lw_cross cf Hsep Ev Th Ca Sg ds targets n fds Plain Freq Sepd Some_rows D NN NF Ln (relations s) arcs Arcs' NR Rel pre G post B a c r r' E HB H1 H2).
  - apply W_nonneg.
  - apply sgn_mono.
  - apply act_mono'.
  - apply act_strict'.
  - intros t Htl. split; [now apply step_moves|now apply step_alive].
  - apply start_leads.
  - apply in_map; auto.
  - apply (oc_steps _ _ _ _ _ _ Oc).
  - assert (HG : In (grp d) gs) by (apply in_map; auto). apply in_split in HG as (pre & post & E). exists pre, post, (grp d0). split; auto.
    pose proof (tgt_grp cf Hsep ds targets n fds Plain Sepd Some_rows D NN Ln) as TG.
    split; [|split; [rewrite W_class; [lra|now rewrite TG|now rewrite TG]|exact start_strict]].
    assert (HA : In (grp d0) gs) by (apply in_map; auto). rewrite E in HA. apply in_app_or in HA. apply in_app_iff.
    destruct HA as [HA|[HA|HA]]; auto. exfalso. pose proof (TG d Hd) as T1. pose proof (TG d0 Hd0) as T0. rewrite <- HA in T0. congruence.
Qed.
Hypothesis Dec : (m_decision s = "LAST" /\ c_excl cf < memw b) \/ (m_decision s = "MEAN" /\ (m_debug s = true \/ m_oob s' = false)).
Hypothesis He : (0 <= m_extra s)%Z.
Lemma value_bound c v : In c (concepts s) -> value s' c = Some v -> -1 <= v.
Proof.
  intros Hcc Hv. destruct (oc_value _ _ _ _ _ _ Oc c Hcc) as (dd & w & _ & E1 & E2). assert (w = v) by congruence. subst w.
  apply (decision_range (-1) 1 dd _ _ _) in E1; [lra|]. apply Forall_forall. intros z Hz. apply in_map_iff in Hz as (j & <- & Hj). apply in_seq in Hj.
  destruct (oc_some _ _ _ _ _ _ Oc c j Hcc ltac:(lia)) as (i & a & Hi & Ha & ->). now apply in_range.
Qed.
Lemma winner d c c' r' : In d fds -> fd_target d = true -> In (c, b1) (grp d) -> In (c', r') (grp d) -> r' <> b1 ->
  exists v v', value s' c = Some v /\ value s' c' = Some v' /\ v' < v.
Proof.
  intros Hd Ht H1 H2 Ne. pose proof (name_concept_in d c b1 Hd H1) as I1. pose proof (name_concept_in d c' r' Hd H2) as I2.
  destruct (oc_value _ _ _ _ _ _ Oc c I1) as (dd & v & G1 & E1 & V1). destruct (oc_value _ _ _ _ _ _ Oc c' I2) as (dd' & v' & G2 & E2 & V2).
  assert (dd' = dd) by congruence. subst dd'. exists v, v'. split; auto. split; auto.
  destruct (leads_strictly d Hd Ht) as [S1 S2]. pose proof (oc_len _ _ _ _ _ _ Oc) as Lk. pose proof (oc_cells _ _ _ _ _ _ Oc) as Ce.
  apply (decision_lt dd (f c) (f c') k (Z.of_nat k - m_extra s - 1)); auto; try lia.
  destruct Dec as [[Q Q2]|[Q Q2]]; rewrite Q in G1; injection G1 as <-; [left|right]; split; auto.
  - intros j Hj. rewrite !Ce by (auto; lia). apply (S2 Q2 j) with (c := c) (b' := r'); auto. lia.
  - split.
    + intros [|j] Hj; [rewrite !(oc_first _ _ _ _ _ _ Oc Q2) by auto|rewrite !Ce by (auto; lia)].
      * apply (leads_all 0 (grp d)) with (b' := r'); auto; [lia|apply in_map; auto].
      * apply (leads_all (S j) (grp d)) with (b' := r'); auto; [lia|apply in_map; auto].
    + rewrite !Ce by (auto; lia). apply S1 with (b' := r'); auto.
Qed.
End Winner.
