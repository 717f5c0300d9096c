(** SepFacts8.v — rectifying maps fitted on data whose columns determine the classes: only
    concepts that occur with the class of the row get a positive value (C94). *)
From Coq Require Import Reals Lra Permutation.
From Verif Require Import Base BaseFacts Num Functions Spec SortFacts RealFacts FunctionsFacts RlFacts Fcm FcmSpec FcmBasics FcmInv FcmInv2 FcmInv3 FcmRun FcmRun2 FcmOrder DynSpec Dynamics Dynamics2 FcmVec5 VecSpec LearnUtils LearnSpec LearnFacts Assoc Estimator EstSpec AssocSpec AssocFacts AssocFacts2 AssocFacts3 AssocFacts4 AssocUnique AssocNames AssocNames2 AssocGen AssocRow AssocPredict AssocResult EstFacts EstFacts5 EstFacts8 PropAssoc SepSpec SepFacts SepFacts2 SepFacts3 SepFacts4 SepFacts5 SepFacts7.
Local Open Scope R_scope.

Lemma Rsum_nonpos {A} (g : A -> R) l : (forall a, In a l -> g a <= 0) -> Rsum (map g l) <= 0.
Proof.
  induction l as [|a l IH]; intros H; cbn [map]; rewrite ?Rsum_nil, ?Rsum_cons1; [lra|].
  pose proof (H a (or_introl eq_refl)). specialize (IH (fun z Hz => H z (or_intror Hz))). lra.
Qed.
Lemma Rsum_above {A} (g : A -> R) l a : (forall z, In z l -> 0 <= g z) -> In a l -> g a <= Rsum (map g l).
Proof.
  intros H Ha. induction l as [|z l IH]; [easy|]. cbn [map]. rewrite Rsum_cons1. pose proof (H z (or_introl eq_refl)) as Hz.
  assert (N : 0 <= Rsum (map g l)).
  { clear - H. induction l as [|w l IH]; cbn [map]; rewrite ?Rsum_nil, ?Rsum_cons1; [lra|]. pose proof (H w (or_intror (or_introl eq_refl))).
    assert (0 <= Rsum (map g l)); [|lra]. apply IH. intros z' [->|Hz']; apply H; cbn; auto. }
  destruct Ha as [->|Ha]; [lra|]. specialize (IH (fun w Hw => H w (or_intror Hw)) Ha). lra.
Qed.
Lemma nth_combine_both {A B} k : forall (l : list A) (l' : list B) p, nth_error (combine l l') k = Some p -> nth_error l k = Some (fst p) /\ nth_error l' k = Some (snd p).
Proof. induction k as [|k IH]; intros [|x l] [|z l'] p E; cbn in E |- *; try discriminate; [injection E as <-; auto|auto]. Qed.

Lemma pair_eq_dec (p q : string * string) : {p = q} + {p <> q}.
Proof. decide equality; apply string_dec. Qed.

Section Cone.
Variable cf : gconf R.
Hypothesis Hsep : c_sep cf = "___".
Hypothesis Ev : c_eval cf = rel_supp.
Hypothesis Th : 0 <= c_thr cf.
Hypothesis Fv : favours (c_caus cf).
Hypothesis Sg : c_sign cf = None.
Hypothesis Ex : c_excl cf <= 0.
Variables (ds : dataset R) (targets : list string) (n : nat) (fds : list (fdesc R)).
Hypothesis Plain : forall f c, In (f, c) ds -> plain_column cf c.
Hypothesis Freq : forall f c, In (f, c) ds -> frequent (c_thr cf) c.
Hypothesis Lens : forall f c, In (f, c) ds -> col_length c = n.
Definition cls (i j : nat) : Prop := forall f c, In (f, c) ds -> In f targets -> nth_error (col_cells c) i = nth_error (col_cells c) j.
Hypothesis Det : forall f c i j, In (f, c) ds -> (i < n)%nat -> (j < n)%nat -> nth_error (col_cells c) i = nth_error (col_cells c) j -> cls i j.
Hypothesis Some_rows : (0 < n)%nat.
Hypothesis D : Forall2 (described cf targets) ds fds.
Hypothesis NN : NoDup (flat_map fd_names fds).
Hypothesis NF : NoDup (map fd_feat fds).
Hypothesis Ln : Forall (fun d => length (fd_rows d) = length (fd_names d)) fds.

Notation named f v := (append (cell_str v) (append "___" f)).
Notation gin := (grp_In cf Hsep ds targets fds Plain D).
Lemma clen f c : In (f, c) ds -> length (col_cells c) = n.
Proof. intros H. rewrite <- (Lens f c H). destruct c; cbn; now rewrite map_length. Qed.
Lemma cell_at f c i : In (f, c) ds -> (i < n)%nat -> exists v, nth_error (col_cells c) i = Some v /\ plain_cell v.
Proof.
  intros H Hi. destruct (nth_error (col_cells c) i) as [v|] eqn:E.
  - exists v. split; auto. eapply plain_cells; [eapply Plain; eauto|eapply nth_error_In; eauto].
  - apply nth_error_None in E. rewrite (clen f c H) in E. lia.
Qed.
Lemma cls_sym i j : cls i j -> cls j i.
Proof. intros H f c H1 H2. symmetry. now apply (H f). Qed.
Lemma cls_trans i j k : cls i j -> cls j k -> cls i k.
Proof. intros H H' f c H1 H2. rewrite (H f c H1 H2). now apply (H' f). Qed.
Lemma hit_row_of d a r : In d fds -> In (a, r) (grp d) -> hit_row n r /\ c_thr cf * INR n < Rsum r.
Proof.
  intros H Ha. destruct (gin d H) as (col & Hi & _ & X). apply X in Ha. destruct Ha as (v & Hv & _ & ->).
  assert (P : plain_cell v) by (eapply plain_cells; eauto). split; [rewrite <- (clen _ _ Hi); now apply ind_hit|].
  apply In_nth_error in Hv as [i Ei]. destruct (Freq _ _ Hi i v Ei) as (js & N1 & N2 & N3). rewrite (Lens _ _ Hi) in N3.
  pose proof (ind_count (col_cells col) v 0 js N2 N1 P). lra.
Qed.
Lemma grp_some d : In d fds -> exists a r, In (a, r) (grp d).
Proof.
  intros H. destruct (gin d H) as (col & Hi & _ & X). destruct (cell_at _ _ 0%nat Hi Some_rows) as (v & Hv & _).
  exists (named (fd_feat d) v), (ind (col_cells col) v). apply X. exists v. split; [eapply nth_error_In; eauto|auto].
Qed.
(** the samples a concept holds for *)
Lemma row_hit d a r col : In d fds -> In (a, r) (grp d) -> In (fd_feat d, col) ds ->
  (forall c', In (fd_feat d, c') ds -> c' = col) -> exists v, a = named (fd_feat d) v /\ plain_cell v /\ In v (col_cells col) /\ forall j, nth_error r j = Some 1 <-> nth_error (col_cells col) j = Some v.
Proof.
  intros H Ha Hi Un. destruct (gin d H) as (col' & Hi' & _ & X). rewrite (Un col' Hi') in X. apply X in Ha as (v & Hv & -> & ->).
  assert (P : plain_cell v) by (apply (plain_cells cf col); [eapply Plain; exact Hi|exact Hv]). exists v. split; auto. split; auto. split; auto. intros j. split.
  - intros E. destruct (nth_error (col_cells col) j) as [w|] eqn:Ew; [|unfold ind in E; rewrite nth_error_map, Ew in E; discriminate].
    rewrite (ind_nth _ _ _ _ Ew) in E. destruct (same_cell w v) eqn:S; [|injection E; lra].
    assert (Pw : plain_cell w) by (apply (plain_cells cf col); [eapply Plain; exact Hi|eapply nth_error_In; eauto]). f_equal. now apply same_cell_iff.
  - intros E. rewrite (ind_nth _ _ _ _ E). now rewrite same_cell_refl.
Qed.
Hypothesis NK : NoDup (dkeys ds).
Lemma col_one f c c' : In (f, c) ds -> In (f, c') ds -> c' = c.
Proof. intros H1 H2. apply In_dget in H1; auto. apply In_dget in H2; auto. congruence. Qed.
(** concepts that hold for a sample of the class of sample [i] *)
Definition inside (i : nat) (r : list R) : Prop := exists j, (j < n)%nat /\ nth_error r j = Some 1 /\ cls i j.
Lemma inside_all d a r i j : In d fds -> In (a, r) (grp d) -> inside i r -> nth_error r j = Some 1 -> (j < n)%nat -> cls i j.
Proof.
  intros H Ha (k & Hk & Ek & Ck) Ej Hj. destruct (gin d H) as (col & Hi & _ & _).
  destruct (row_hit d a r col H Ha Hi) as (v & _ & _ & _ & X); [intros; eapply col_one; eauto|].
  apply X in Ek. apply X in Ej. apply (cls_trans i k j Ck). apply (Det _ _ k j Hi); auto. congruence.
Qed.
Lemma inside_dec d a r i : In d fds -> In (a, r) (grp d) -> (i < n)%nat -> inside i r \/ ~ inside i r.
Proof.
  intros H Ha Hi. destruct (hit_row_of d a r H Ha) as [(Lr & I1 & _) _]. apply In_nth_error in I1 as [j Hj].
  assert (Hjn : (j < n)%nat) by (rewrite <- Lr; apply nth_error_Some; congruence).
  assert (Cd : cls i j \/ ~ cls i j).
  { assert (G : forall l, incl l ds -> (forall f c, In (f, c) l -> In f targets -> nth_error (col_cells c) i = nth_error (col_cells c) j) \/
       ~ (forall f c, In (f, c) l -> In f targets -> nth_error (col_cells c) i = nth_error (col_cells c) j)).
    { induction l as [|[f c] l IH]; intros Hl; [left; intros f c []|]. destruct IH as [IH|IH]; [intros z Hz; apply Hl; now right| |].
      - destruct (in_dec string_dec f targets) as [It|It].
        + assert (Hf : In (f, c) ds) by (apply Hl; now left). destruct (cell_at f c i Hf Hi) as (v & Ev' & Pv). destruct (cell_at f c j Hf Hjn) as (w & Ew & Pw).
          destruct (same_cell v w) eqn:S.
          * apply same_cell_iff in S; auto. subst w. left. intros f' c' [E|Hc] Ht; [injection E as <- <-; congruence|eauto].
          * right. intros Y. specialize (Y f c (or_introl eq_refl) It). assert (v = w) by congruence. subst w. rewrite same_cell_refl in S; auto. discriminate.
        + left. intros f' c' [E|Hc] Ht; [injection E as <- <-; contradiction|eauto].
      - right. intros Y. apply IH. intros f' c' Hc. apply Y. now right. }
    apply (G ds (incl_refl _)). }
  destruct Cd as [C|C]; [left; exists j; auto|right]. intros Y. apply C. now apply (inside_all d a r i j).
Qed.
Lemma apart d d' a b r r' i : In d fds -> In d' fds -> In (a, r) (grp d) -> In (b, r') (grp d') -> inside i r -> ~ inside i r' ->
  forall xy, In xy (combine r r') -> fst xy * snd xy = 0.
Proof.
  intros H H' Ha Hb Ir Ir' xy Hxy. apply In_nth_error in Hxy as [k Hk]. apply nth_combine_both in Hk as [K1 K2].
  destruct (hit_row_of d a r H Ha) as [(Lr & _ & Fr) _]. destruct (hit_row_of d' b r' H' Hb) as [(Lr' & _ & Fr') _].
  rewrite Forall_forall in Fr, Fr'. destruct (Fr _ (nth_error_In _ _ K1)) as [-> |E1]; [lra|]. destruct (Fr' _ (nth_error_In _ _ K2)) as [-> |E2]; [lra|].
  exfalso. apply Ir'. assert (Hkn : (k < n)%nat) by (rewrite <- Lr; apply nth_error_Some; congruence). exists k. split; auto. split; [congruence|].
  apply (inside_all d a r i k H Ha Ir); auto. congruence.
Qed.
(** a concept of a target that holds for the class holds for all of the class *)
Lemma target_full d u r i j : In d fds -> fd_target d = true -> In (u, r) (grp d) -> inside i r -> (j < n)%nat -> cls i j -> nth_error r j = Some 1.
Proof.
  intros H Ht Hu (k & Hk & Ek & Ck) Hj Cj. destruct (gin d H) as (col & Hi & Ty & _).
  destruct (row_hit d u r col H Hu Hi) as (v & _ & _ & _ & X); [intros; eapply col_one; eauto|]. apply X. apply X in Ek. rewrite <- Ek.
  assert (It : In (fd_feat d) targets).
  { unfold fd_target in Ht. rewrite Ty in Ht. destruct (str_mem (fd_feat d) targets) eqn:M; [now apply str_mem_In|discriminate]. }
  exact (cls_trans j i k (cls_sym _ _ Cj) Ck (fd_feat d) col Hi It).
Qed.
Lemma target_under d d' a u r r' i : In d fds -> In d' fds -> In (a, r) (grp d) -> fd_target d' = true -> In (u, r') (grp d') -> inside i r -> inside i r' -> under r r'.
Proof.
  intros H H' Ha Ht Hu Ir Ir' xy Hxy. apply In_nth_error in Hxy as [k Hk]. apply nth_combine_both in Hk as [K1 K2].
  destruct (hit_row_of d a r H Ha) as [(Lr & _ & Fr) _]. rewrite Forall_forall in Fr. destruct (Fr _ (nth_error_In _ _ K1)) as [E|E]; auto.
  right. assert (Hkn : (k < n)%nat) by (rewrite <- Lr; apply nth_error_Some; congruence). rewrite E in K1.
  pose proof (target_full d' u r' i k H' Ht Hu Ir' Hkn (inside_all d a r i k H Ha Ir K1 Hkn)). congruence.
Qed.
Lemma target_one d u u' r r' i : In d fds -> fd_target d = true -> In (u, r) (grp d) -> In (u', r') (grp d) -> inside i r -> inside i r' -> u = u'.
Proof.
  intros H Ht Hu Hu' Ir (k & Hk & Ek & Ck). pose proof (target_full d u r i k H Ht Hu Ir Hk Ck) as E. destruct (gin d H) as (col & Hi & _ & _).
  destruct (row_hit d u r col H Hu Hi) as (v & -> & _ & _ & X); [intros; eapply col_one; eauto|].
  destruct (row_hit d u' r' col H Hu' Hi) as (v' & -> & _ & _ & X'); [intros; eapply col_one; eauto|].
  apply X in E. apply X' in Ek. congruence.
Qed.

(** ** Weights *)
Variables (s s' : fcm R) (b : bool) (xc ac : string) (kw : args R).
Hypothesis NR : NoDup (map fst (relations s)).
Hypothesis Rel : forall a b w, In (a, b, w) (relations s) <-> exclusion cf fds a b w \/ association cf fds a b w.
Notation arcs := (m_arcs s).
Notation lwt := (lw arcs).
Notation arcs' := (Arcs' s).
Lemma cross_rel d d' a c r r' w : In d fds -> In d' fds -> d <> d' -> In (a, r) (grp d) -> In (c, r') (grp d') ->
  (In (a, c, w) (relations s) <-> (c_featrel cf = true \/ fd_target d <> fd_target d') /\ link cf (fd_target d) (fd_target d') r r' w).
Proof.
  intros IA IG Ne Ha Hc. pose proof (in_grp_name fds Ln _ _ _ IA Ha) as Na. pose proof (in_grp_name fds Ln _ _ _ IG Hc) as Nc.
  rewrite Rel. split.
  - intros [X|X].
    + destruct X as (_ & _ & d2 & i & j & Hd & _ & X1 & X2). apply nth_error_In in X1, X2.
      assert (d = d2) by (apply (owner_unique fds d d2 a); auto). assert (d' = d2) by (apply (owner_unique fds d' d2 c); auto). congruence.
    + destruct X as (k' & l' & A & B & i & j & ra & rb & _ & HA' & HB' & Hf & X1 & X2 & X3 & X4 & X5).
      assert (A = d) by (apply (owner_unique fds A d a); auto; eapply nth_error_In; eauto).
      assert (B = d') by (apply (owner_unique fds B d' c); auto; eapply nth_error_In; eauto). subst A B.
      rewrite (row_of fds NN Ln d a r ra), (row_of fds NN Ln d' c r' rb); auto; eapply nth_grp; eauto.
  - intros [Hf X]. right. destruct (grp_nth _ _ _ Ha) as (i & I1 & I2). destruct (grp_nth _ _ _ Hc) as (j & J1 & J2).
    apply In_nth_error in IA as [k Hk]. apply In_nth_error in IG as [l Hl].
    exists k, l, d, d', i, j, r, r'. split; [intros ->; congruence|]. auto 10.
Qed.
Lemma fds_eq_dec d d' : In d fds -> In d' fds -> d = d' \/ d <> d'.
Proof.
  intros H H'. destruct (string_dec (fd_feat d) (fd_feat d')) as [E|E]; [left|right; congruence].
  clear - NF H H' E. induction fds as [|z l IH]; [easy|]. cbn [map] in NF. apply NoDup_cons_iff in NF as [Nz NF'].
  destruct H as [->|H], H' as [->|H']; auto; exfalso; apply Nz; [rewrite E|rewrite <- E]; now apply in_map.
Qed.
Lemma lw_out d d' a c r r' i : In d fds -> In d' fds -> In (a, r) (grp d) -> In (c, r') (grp d') -> inside i r -> ~ inside i r' -> lwt a c <= 0.
Proof.
  intros H H' Ha Hc Ir Ir'. destruct (fds_eq_dec d d' H H') as [<-|Ne].
  - rewrite (lw_inner cf fds NN NF Ln (relations s) arcs arcs' NR Rel d a c r r' H Ha Hc). destruct (String.eqb a c); lra.
  - right. apply (lw_none (relations s) arcs arcs'). intros w Hw. apply (cross_rel d d' a c r r' w H H' Ne Ha Hc) in Hw as [_ Hw]. revert Hw. apply link_disjoint; auto.
    now apply (apart d d' a c r r' i).
Qed.
Lemma lw_class d d' a u r r' i : In d fds -> In d' fds -> fd_target d' = true -> In (a, r) (grp d) -> In (u, r') (grp d') -> inside i r -> inside i r' -> 0 <= lwt a u.
Proof.
  intros H H' Ht Ha Hu Ir Ir'. destruct (fds_eq_dec d d' H H') as [<-|Ne].
  - rewrite (lw_inner cf fds NN NF Ln (relations s) arcs arcs' NR Rel d a u r r' H Ha Hu).
    rewrite (target_one d a u r r' i H Ht Ha Hu Ir Ir'), String.eqb_refl. lra.
  - destruct (hit_row_of d a r H Ha) as [Hh _]. destruct (hit_row_of d' u r' H' Hu) as [Hh' _]. pose proof (target_under d d' a u r r' i H H' Ha Ht Hu Ir Ir') as Un.
    destruct (in_dec pair_eq_dec (a, u) (map fst (relations s))) as [I1|I1].
    + apply in_map_iff in I1 as ([[a' u'] w] & E & Hw). cbn in E. injection E as -> ->. rewrite (lw_in cf fds (relations s) arcs arcs' NR Rel a u w Hw).
      apply (cross_rel d d' a u r r' w H H' Ne Ha Hu) in Hw as [_ Hw]. pose proof (link_under_pos cf Fv Sg n r r' _ _ w Hh Hh' Un Hw). lra.
    + right. symmetry. apply (lw_none (relations s) arcs arcs'). intros w Hw. apply I1. apply in_map_iff. exists (a, u, w). auto.
Qed.
Lemma lw_feature d d' a u r r' i : In d fds -> In d' fds -> fd_target d = false -> fd_target d' = true -> In (a, r) (grp d) -> In (u, r') (grp d') ->
  inside i r -> inside i r' -> 0 < lwt a u.
Proof.
  intros H H' Hf Ht Ha Hu Ir Ir'. assert (Ne : d <> d') by congruence.
  destruct (hit_row_of d a r H Ha) as [Hh Hq]. destruct (hit_row_of d' u r' H' Hu) as [Hh' _]. pose proof (target_under d d' a u r r' i H H' Ha Ht Hu Ir Ir') as Un.
  destruct (link_under cf Ev Fv Sg n r r' (fd_target d) (fd_target d') Hh Hh' Un Hq (or_intror (conj Hf Ht))) as (w & Hw & Pw).
  rewrite (lw_in cf fds (relations s) arcs arcs' NR Rel a u w); auto. apply (cross_rel d d' a u r r' w H H' Ne Ha Hu). split; auto. right. congruence.
Qed.

(** ** Values *)
Hypothesis Hs : sane s.
Hypothesis Cm : common s b xc ac kw.
Hypothesis Hc : callable ac kw.
Hypothesis Rc : rectifying ac kw.
Hypothesis Kx : xc <> "PAPAGEORGIUS".
Hypothesis All : concepts s = flat_map fd_names fds.
Variable i : nat.
Hypothesis Hi : (i < n)%nat.
Hypothesis Start : forall d c r v, In d fds -> In (c, r) (grp d) -> initial s c = Some v -> 0 <= v <= 1 /\ (~ inside i r -> v = 0).
Lemma sgn_id v : sgn xc v = v.
Proof. unfold sgn. apply String.eqb_neq in Kx. now rewrite Kx. Qed.
Lemma concept_in d c r : In d fds -> In (c, r) (grp d) -> In c (concepts s).
Proof. intros Hd H. rewrite All. apply in_flat_map. exists d. split; auto. unfold grp in H. now apply in_combine_l in H. Qed.
Lemma grp_of_concept c : In c (concepts s) -> exists d r, In d fds /\ In (c, r) (grp d).
Proof.
  rewrite All. intros H. apply in_flat_map in H as (d & Hd & H). exists d. rewrite <- (grp_names fds Ln d Hd) in H. apply in_map_iff in H as ([c' r] & E & H).
  cbn in E. subst c'. eauto.
Qed.
Section Orbit.
Variables (L : nat) (x : nat -> string -> R).
Hypothesis Orb : orbit (m_topo s) (m_arcs s) x L.
Hypothesis Sta : forall c, In c (concepts s) -> initial s c = Some (x 0%nat c).
Lemma step_act t c : (t < L)%nat -> In c (concepts s) -> act ac kw (Rsum (map (fun a => x t a * lwt a c) (concepts s)) + memw b * x t c) (x (S t) c).
Proof.
  intros Ht Ic. unfold concepts in Ic. apply dget_Some_In in Ic as [nd Hn]. pose proof (Orb t c nd Ht Hn) as N.
  apply (common_step s b xc ac kw Hs Cm Hc NR) in N; auto. rewrite sgn_id in N. erewrite map_ext; [exact N|]. intros a. cbn. now rewrite sgn_id.
Qed.
Lemma cone t : (t <= L)%nat -> forall d c r, In d fds -> In (c, r) (grp d) -> 0 <= x t c <= 1 /\ (~ inside i r -> x t c = 0).
Proof.
  induction t as [|t IH]; intros Ht d c r Hd Hcr; pose proof (concept_in d c r Hd Hcr) as Ic.
  - apply (Start d c r); auto.
  - destruct (step_act t c ltac:(lia) Ic) as (fn & F1 & F2). destruct (rectify ac kw fn _ _ Rc F1 F2) as (R1 & R2 & _). split; auto.
    intros No. apply R2. destruct (IH ltac:(lia) d c r Hd Hcr) as [_ X]. rewrite (X No). 
    assert (Rsum (map (fun a => x t a * lwt a c) (concepts s)) <= 0); [|lra]. apply Rsum_nonpos. intros a Ha.
    destruct (grp_of_concept a Ha) as (d2 & r2 & Hd2 & Ha2). destruct (IH ltac:(lia) d2 a r2 Hd2 Ha2) as [Y1 Y2].
    destruct (inside_dec d2 a r2 i Hd2 Ha2 Hi) as [I2|I2]; [|rewrite (Y2 I2); lra].
    pose proof (lw_out d2 d a c r2 r i Hd2 Hd Ha2 Hcr I2 No). nra.
Qed.
Variables (d0 : fdesc R) (a0 : string) (r0 : list R).
Hypothesis Hd0 : In d0 fds.
Hypothesis Ht0 : fd_target d0 = false.
Hypothesis Ha0 : In (a0, r0) (grp d0).
Hypothesis In0 : inside i r0.
Hypothesis St0 : initial s a0 = Some 1.
Variables (d : fdesc R) (u : string) (r : list R).
Hypothesis Hd : In d fds.
Hypothesis Htd : fd_target d = true.
Hypothesis Hu : In (u, r) (grp d).
Hypothesis Inu : inside i r.
Lemma terms_nonneg t a : (t <= L)%nat -> In a (concepts s) -> 0 <= x t a * lwt a u.
Proof.
  intros Ht Ha. destruct (grp_of_concept a Ha) as (d2 & r2 & Hd2 & Ha2). destruct (cone t Ht d2 a r2 Hd2 Ha2) as [Y1 Y2].
  destruct (inside_dec d2 a r2 i Hd2 Ha2 Hi) as [I2|I2]; [|rewrite (Y2 I2); lra].
  pose proof (lw_class d2 d a u r2 r i Hd2 Hd Htd Ha2 Hu I2 Inu). apply Rmult_le_pos; lra.
Qed.
Lemma wins_first : (1 <= L)%nat -> 0 < x 1%nat u.
Proof.
  intros HL. destruct (step_act 0 u ltac:(lia) (concept_in d u r Hd Hu)) as (fn & F1 & F2). destruct (rectify ac kw fn _ _ Rc F1 F2) as (_ & _ & R3). apply R3.
  pose proof (concept_in d0 a0 r0 Hd0 Ha0) as I0. pose proof (Rsum_above (fun a => x 0%nat a * lwt a u) (concepts s) a0 (fun z Hz => terms_nonneg 0 z ltac:(lia) Hz) I0) as A. cbn beta in A.
  assert (E : x 0%nat a0 = 1) by (rewrite (Sta a0 I0) in St0; now injection St0). rewrite E in A.
  pose proof (lw_feature d0 d a0 u r0 r i Hd0 Hd Ht0 Htd Ha0 Hu In0 Inu). destruct (cone 0 ltac:(lia) d u r Hd Hu) as [C _].
  unfold memw. destruct b; lra.
Qed.
Lemma wins_always t : b = true -> (1 <= t <= L)%nat -> 0 < x t u.
Proof.
  intros Hb. induction t as [|t IH]; intros Ht; [lia|]. destruct t as [|t]; [apply wins_first; lia|].
  destruct (step_act (S t) u ltac:(lia) (concept_in d u r Hd Hu)) as (fn & F1 & F2). destruct (rectify ac kw fn _ _ Rc F1 F2) as (_ & _ & R3). apply R3.
  pose proof (concept_in d u r Hd Hu) as I0. pose proof (Rsum_above (fun a => x (S t) a * lwt a u) (concepts s) u (fun z Hz => terms_nonneg (S t) z ltac:(lia) Hz) I0) as A. cbn beta in A.
  pose proof (terms_nonneg (S t) u ltac:(lia) I0). specialize (IH ltac:(lia)). unfold memw. rewrite Hb. lra.
Qed.
End Orbit.
Variables (L : nat) (x : nat -> string -> R) (k : nat) (f : string -> nat -> R).
Hypothesis Oc : outcome s s' L x k f.
Hypothesis Dec : (m_decision s = "LAST" /\ b = true) \/ (m_decision s = "MEAN" /\ (m_debug s = true \/ m_oob s' = false)).
Hypothesis He : (0 <= m_extra s)%Z.
Notation cone' := (cone L x (oc_orbit _ _ _ _ _ _ Oc) (oc_start _ _ _ _ _ _ Oc)).
Lemma cone_bound c v : In c (concepts s) -> value s' c = Some v -> -1 <= v.
Proof.
  intros Hcc Hv. destruct (oc_value _ _ _ _ _ _ Oc c Hcc) as (dd & w & _ & E1 & E2). assert (w = v) by congruence. subst w.
  apply (decision_range (-1) 1 dd _ _ _) in E1; [lra|]. apply Forall_forall. intros z Hz. apply in_map_iff in Hz as (j & <- & Hj). apply in_seq in Hj.
  destruct (oc_some _ _ _ _ _ _ Oc c j Hcc ltac:(lia)) as (l & a & Hl & Ha & ->). destruct (grp_of_concept a Ha) as (d & r & Hd & Har). destruct (cone' l Hl d a r Hd Har). lra.
Qed.
Lemma cone_winner d0 a0 r0 d c r c' r' : In d0 fds -> fd_target d0 = false -> In (a0, r0) (grp d0) -> inside i r0 -> initial s a0 = Some 1 ->
  In d fds -> fd_target d = true -> In (c, r) (grp d) -> inside i r -> In (c', r') (grp d) -> ~ inside i r' ->
  exists v v', value s' c = Some v /\ value s' c' = Some v' /\ v' < v.
Proof.
  intros Hd0 Ht0 Ha0 In0 St0 Hd Ht H1 Ir H2 Ir'. pose proof (concept_in d c r Hd H1) as I1. pose proof (concept_in d c' r' Hd H2) as I2.
  destruct (oc_value _ _ _ _ _ _ Oc c I1) as (dd & v & G1 & E1 & V1). destruct (oc_value _ _ _ _ _ _ Oc c' I2) as (dd' & v' & G2 & E2 & V2).
  assert (dd' = dd) by congruence. subst dd'. exists v, v'. split; auto. split; auto.
  pose proof (oc_len _ _ _ _ _ _ Oc) as Lk. pose proof (oc_cells _ _ _ _ _ _ Oc) as Ce.
  pose proof (wins_first L x (oc_orbit _ _ _ _ _ _ Oc) (oc_start _ _ _ _ _ _ Oc) d0 a0 r0 Hd0 Ht0 Ha0 In0 St0 d c r Hd Ht H1 Ir (oc_steps _ _ _ _ _ _ Oc)) as W1.
  assert (Z : forall j, (j <= L)%nat -> x j c' = 0) by (intros j Hj; now apply (cone' j Hj d c' r' Hd H2)).
  apply (decision_lt dd (f c) (f c') k (Z.of_nat k - m_extra s - 1)); auto; try lia.
  destruct Dec as [[Q Q2]|[Q Q2]]; rewrite Q in G1; injection G1 as <-; [left|right]; split; auto.
  - intros j Hj. rewrite !Ce, Z by (auto; lia).
    apply (wins_always L x (oc_orbit _ _ _ _ _ _ Oc) (oc_start _ _ _ _ _ _ Oc) d0 a0 r0 Hd0 Ht0 Ha0 In0 St0 d c r Hd Ht H1 Ir j Q2). lia.
  - split.
    + intros [|j] Hj; [rewrite !(oc_first _ _ _ _ _ _ Oc Q2) by auto|rewrite !Ce by (auto; lia)]; rewrite Z by lia.
      * apply (cone' 0%nat ltac:(lia) d c r Hd H1).
      * apply (cone' (S j) ltac:(lia) d c r Hd H1).
    + rewrite !Ce, Z by (auto; lia). exact W1.
Qed.
End Cone.
