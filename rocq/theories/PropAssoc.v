(** PropAssoc.v — properties C43 to C48: maps generated from data and predictions
    made with them. *)
From Coq Require Import Permutation Reals Lra.
From Verif Require Import Base BaseFacts Num RealFacts Functions Fcm FcmSpec FcmInv FcmRun FcmRun2 FcmOrder LoaderSpec LearnUtils LearnSpec LearnFacts Assoc AssocSpec AssocFacts AssocFacts2 AssocFacts3 AssocFacts4 AssocFacts5 AssocNames AssocNames2 Estimator EstFacts EstFacts3 EstSpec EstFacts4 AssocGen AssocPredict AssocResult AssocOrder AssocRange AssocUnique AssocRow AssocLabel QNum EstExamples.

Section General.
Context {F : Type} {N : Num F}.
Variable cf : gconf F.
(** sets may be iterated in any order *)
Hypothesis HO : reorders (c_ord cf).
(** true of floats as well *)
Hypothesis mul_comm : forall a b : F, nmul a b = nmul b a.

Lemma fit_map x y (e0 e e' : est F) : estimator e0 e -> readable_data cf (join_frames x y) -> fit cf x y e = (e', Ok tt) ->
  exists fds, Forall2 (described cf (dkeys y)) (join_frames x y) fds /\ concepts (e_map e') = flat_map fd_names fds /\ NoDup (concepts (e_map e')) /\
    Forall (fun d => length (fd_rows d) = length (fd_names d)) fds /\ NoDup (map fd_feat fds) /\ NoDup (map fst (relations (e_map e'))) /\
    forall a b w, In (a, b, w) (relations (e_map e')) <-> exclusion cf fds a b w \/ association cf fds a b w.
Proof.
  intros HE RD HF. pose proof RD as (Hsep & ND & _).
  destruct (fit_tidy cf Hsep x y e0 e e' HO mul_comm HE RD HF) as (fds & T & D & Nn & Ln & Eg & dc & ops & Hp & Hr).
  exists fds. pose proof (td_all _ _ T) as Ta. rewrite Eg in Ta. split; auto. split; auto. split; [now rewrite Ta|]. split; auto. split; [apply (td_feats _ _ T)|]. rewrite Hr. split.
  - destruct (plan_build_spec cf _ _ _ _ _ _ Hp) as (rest & E & _ & Dn & Rl & _). cbn in E. subst rest. rewrite Rl.
    destruct (rels_ends cf fds HO []) as [X _]; auto. cbn [app]. now rewrite Dn.
  - apply (all_rels_In cf HO mul_comm _ _ _ _ _ ND Hp).
Qed.
Lemma names_apart (fds : list (fdesc F)) k l A B c : NoDup (map fd_feat fds) -> NoDup (flat_map fd_names fds) ->
  nth_error fds k = Some A -> nth_error fds l = Some B -> In c (fd_names A) -> In c (fd_names B) -> k = l.
Proof.
  intros NF NN HA HB HcA HcB. assert (E : A = B) by (apply (owner_unique fds A B c); auto; eapply nth_error_In; eauto). subst B.
  apply NoDup_nth_error with (l := map fd_feat fds); auto.
  - rewrite map_length. apply nth_error_Some. congruence.
  - now rewrite !nth_error_map, HA, HB.
Qed.

(** ** C43 *)
Theorem C43_exclusion_relations : forall x y (e0 e e' : est F),
  estimator e0 e -> readable_data cf (join_frames x y) -> fit cf x y e = (e', Ok tt) ->
  exists fds, Forall2 (described cf (dkeys y)) (join_frames x y) fds /\
    concepts (e_map e') = flat_map fd_names fds /\ NoDup (concepts (e_map e')) /\
    forall d a b w, In d fds -> In a (fd_names d) -> In b (fd_names d) ->
      (In (a, b, w) (relations (e_map e')) <-> a <> b /\ w = c_excl cf /\ neqb (c_excl cf) n0 = false).
Proof.
  intros x y e0 e e' HE RD HF. destruct (fit_map x y e0 e e' HE RD HF) as (fds & D & Cn & Nd & Ln & Nf & Nr & R).
  exists fds. split; auto. split; auto. split; auto. intros d a b w Hd Ha Hb. rewrite R. rewrite Cn in Nd. split.
  - intros [(E & -> & d' & i & j & Hd' & Hij & Hi & Hj)|(k & l & A & B & i & j & ra & rb & Hkl & HA & HB & _ & Hi & _ & Hj & _)].
    + split; auto. intros ->. apply Hij. apply (NoDup_nth_error (fd_names d')); [now apply (names_of_NoDup fds)|apply nth_error_Some; congruence|congruence].
    + exfalso. assert (A = d) by (apply (owner_unique fds A d a); auto; eapply nth_error_In; eauto).
      assert (B = d) by (apply (owner_unique fds B d b); auto; eapply nth_error_In; eauto). subst A B.
      apply Hkl. apply (names_apart fds k l d d a); auto.
  - intros (Hab & -> & E). left. split; auto. split; auto. apply In_nth_error in Ha as [i Hi]. apply In_nth_error in Hb as [j Hj].
    exists d, i, j. split; auto. split; [congruence|auto].
Qed.
Theorem C43_no_self_relation : forall x y (e0 e e' : est F) a w,
  estimator e0 e -> readable_data cf (join_frames x y) -> fit cf x y e = (e', Ok tt) -> ~ In (a, a, w) (relations (e_map e')).
Proof.
  intros x y e0 e e' a w HE RD HF H. destruct (C43_exclusion_relations x y e0 e e' HE RD HF) as (fds & D & Cn & Nd & R).
  destruct (fit_map x y e0 e e' HE RD HF) as (fds' & D' & Cn' & Nd' & Ln' & Nf' & Nr' & R').
  assert (exists d, In d fds' /\ In a (fd_names d)) as (d & Hd & Ha).
  { apply R' in H as [(_ & _ & d & i & j & Hd & _ & Hi & _)|(k & l & A & B & i & j & ra & rb & _ & HA & _ & _ & Hi & _)]; [exists d|exists A]; (split; [auto; eapply nth_error_In; eauto|eapply nth_error_In; eauto]). }
  assert (In a (flat_map fd_names fds)) as Ia by (rewrite <- Cn, Cn'; apply in_flat_map; eauto).
  apply in_flat_map in Ia as (d2 & Hd2 & Ha2). apply (R d2 a a w) in H; auto. now destruct H.
Qed.
(** without any condition on names, two-way exclusion is still complete *)
Theorem C43_any_names : forall x y (e0 e e' : est F),
  estimator e0 e -> NoDup (dkeys (join_frames x y)) -> fit cf x y e = (e', Ok tt) ->
  exists fds, Forall2 (described cf (dkeys y)) (join_frames x y) fds /\
    (forall c, In c (concepts (e_map e')) <-> exists d, In d fds /\ In c (fd_names d)) /\
    forall a b w, In (a, b, w) (relations (e_map e')) <-> exclusion cf fds a b w \/ association cf fds a b w.
Proof.
  intros x y e0 e e' HE ND HF. destruct (generated cf x y e0 e e' HO mul_comm HE ND HF) as (fds & _ & D & _ & _ & Cn & R).
  exists fds. split; auto. split; auto. intros c. rewrite Cn, inserts_In, in_flat_map. cbn. tauto.
Qed.

(** ** C44 *)
Theorem C44_associations : forall x y (e0 e e' : est F),
  estimator e0 e -> readable_data cf (join_frames x y) -> fit cf x y e = (e', Ok tt) ->
  exists fds, Forall2 (described cf (dkeys y)) (join_frames x y) fds /\
    forall k l A B i j a b ra rb w, k <> l -> nth_error fds k = Some A -> nth_error fds l = Some B ->
      nth_error (fd_names A) i = Some a -> nth_error (fd_rows A) i = Some ra ->
      nth_error (fd_names B) j = Some b -> nth_error (fd_rows B) j = Some rb ->
      (In (a, b, w) (relations (e_map e')) <->
       (c_featrel cf = true \/ fd_target A <> fd_target B) /\ link cf (fd_target A) (fd_target B) ra rb w).
Proof.
  intros x y e0 e e' HE RD HF. destruct (fit_map x y e0 e e' HE RD HF) as (fds & D & Cn & Nd & Ln & Nf & Nr & R). rewrite Cn in Nd.
  exists fds. split; auto. intros k l A B i j a b ra rb w Hkl HA HB Ha Hra Hb Hrb. rewrite R. 
  assert (IA : In A fds) by (eapply nth_error_In; eauto). assert (IB : In B fds) by (eapply nth_error_In; eauto).
  assert (Ia : In a (fd_names A)) by (eapply nth_error_In; eauto). assert (Ib : In b (fd_names B)) by (eapply nth_error_In; eauto). split.
  - intros [(_ & _ & d & i' & j' & Hd & _ & Hi & Hj)|(k' & l' & A' & B' & i' & j' & ra' & rb' & _ & HA' & HB' & Hf & Hi & Hri & Hj & Hrj & L)].
    + exfalso. assert (A = d) by (apply (owner_unique fds A d a); auto; eapply nth_error_In; eauto).
      assert (B = d) by (apply (owner_unique fds B d b); auto; eapply nth_error_In; eauto). subst A B. apply Hkl. apply (names_apart fds k l d d a); auto.
    + assert (A' = A) by (apply (owner_unique fds A' A a); auto; eapply nth_error_In; eauto).
      assert (B' = B) by (apply (owner_unique fds B' B b); auto; eapply nth_error_In; eauto). subst A' B'.
      assert (i' = i). { apply (NoDup_nth_error (fd_names A)); [now apply (names_of_NoDup fds)|apply nth_error_Some; congruence|congruence]. }
      assert (j' = j). { apply (NoDup_nth_error (fd_names B)); [now apply (names_of_NoDup fds)|apply nth_error_Some; congruence|congruence]. }
      subst i' j'. rewrite Hra in Hri. rewrite Hrb in Hrj. injection Hri as <-. injection Hrj as <-. auto.
  - intros [Hf L]. right. exists k, l, A, B, i, j, ra, rb. auto 12.
Qed.
Theorem C44_weights : forall x y (e0 e e' : est F) a b w,
  estimator e0 e -> readable_data cf (join_frames x y) -> fit cf x y e = (e', Ok tt) ->
  In (a, b, w) (relations (e_map e')) -> neqb w n0 = false.
Proof.
  intros x y e0 e e' a b w HE RD HF Hw. destruct (fit_map x y e0 e e' HE RD HF) as (fds & D & Cn & Nd & Ln & Nf & Nr & R).
  destruct (proj1 (R a b w) Hw) as [(E & Ew & Ex)|(k & l & A & B & i & j & ra & rb & Hkl & HA & HB & Hf & Hi & Hri & Hj & Hrj & L)]; [now rewrite Ew|].
  destruct L as (_ & c & ev & v & s & L). apply L.
Qed.
(** at most one relation from a concept to another *)
Theorem C44_no_duplicates : forall x y (e0 e e' : est F),
  estimator e0 e -> readable_data cf (join_frames x y) -> fit cf x y e = (e', Ok tt) -> NoDup (map fst (relations (e_map e'))).
Proof.
  intros x y e0 e e' HE RD HF. now destruct (fit_map x y e0 e e' HE RD HF) as (fds & _ & _ & _ & _ & _ & Nr & _).
Qed.

(** ** C45 *)
Theorem C45_same_relations : forall o x y (e0 e e1 : est F), reorders o ->
  estimator e0 e -> NoDup (dkeys (join_frames x y)) -> fit cf x y e = (e1, Ok tt) ->
  exists e2, fit (with_order cf o) x y e = (e2, Ok tt) /\
    concepts (e_map e2) = concepts (e_map e1) /\ Permutation (relations (e_map e2)) (relations (e_map e1)) /\
    forall f, dget (e_feats e2) f = dget (e_feats e1) f.
Proof.
  intros o x y e0 e e1 Ho HE ND HF.
  destruct (fit_order cf o x y e0 e e1 HO Ho HE ND HF) as (e2 & s & ops & ops' & fds & HF2 & (B1 & B2 & B3 & B4) & _ & M1 & M2 & Sh & Bd & Bd' & Hp & Hp' & R1 & R2 & _).
  exists e2. split; auto. destruct (shuffled_rels _ _ Sh) as [Sr Sa].
  destruct (plan_build_spec cf _ _ _ _ _ _ Hp) as (rest & E & D & Dn & Rl & An & Nm & _ & Cn & Ln). cbn in E. subst rest.
  destruct (plan_build_spec (with_order cf o) _ _ _ _ _ _ Hp') as (rest & E & D' & Dn' & Rl' & An' & Nm' & _ & Cn' & Ln'). cbn in E. subst rest.
  destruct (run_building (m_default s) [] ops s B4 eq_refl Bd) as (Q1 & Q2 & _); auto.
  { apply Forall_forall. intros q Hq Hc. rewrite Forall_forall in Cn. destruct (Cn q Hq Hc) as (d & _ & _ & Hd). eauto. }
  { intros z []. }
  destruct (run_building (m_default s) [] ops' s B4 eq_refl Bd') as (Q1' & Q2' & _); auto.
  { apply Forall_forall. intros q Hq Hc. rewrite Forall_forall in Cn'. destruct (Cn' q Hq Hc) as (d & _ & _ & Hd). eauto. }
  { intros z []. }
  rewrite M1, M2, Q1, Q1', Q2, Q2', Sa. split; auto. split; [apply Permutation_app_head; now apply Permutation_sym|]. intros f.
  destruct R1 as (_ & _ & _ & R1 & R1'), R2 as (_ & _ & _ & R2 & R2'). unfold e_gen in *. cbn [g_feats] in *.
  assert (K : forall d, In d fds -> dget (e_feats e2) (fd_feat d) = dget (e_feats e1) (fd_feat d)) by (intros d Hd; destruct (R1 d Hd) as [-> _], (R2 d Hd) as [-> _]; auto).
  destruct (dget (e_feats e2) f) as [x2|] eqn:E2.
  - assert (Hf : In f (map fd_feat fds)) by (apply R2'; congruence). apply in_map_iff in Hf as (d & <- & Hd). rewrite <- K, E2; auto.
  - destruct (dget (e_feats e1) f) as [x1|] eqn:E1; auto. assert (Hf : In f (map fd_feat fds)) by (apply R1'; congruence). apply in_map_iff in Hf as (d & <- & Hd).
    rewrite K in E2; congruence.
Qed.
End General.

Lemma Rcomm : forall a b : R, nmul a b = nmul b a.
Proof. exact Rmult_comm. Qed.
(** ** C44 with the confidence measure: weights in [-1, 1] *)
Theorem C44_range : forall (cf : gconf R) x y (e0 e e' : est R) a b w,
  reorders (c_ord cf) -> estimator e0 e -> NoDup (dkeys (join_frames x y)) -> fit cf x y e = (e', Ok tt) ->
  c_caus cf = rel_conf -> (-1 <= c_excl cf <= 1)%R -> fair_disc cf ->
  In (a, b, w) (relations (e_map e')) -> (-1 <= w <= 1)%R.
Proof.
  intros cf x y e0 e e' a b w HO HE ND HF Hc He HD H.
  destruct (generated cf x y e0 e e' HO Rcomm HE ND HF) as (fds & _ & D & _ & _ & _ & R).
  apply (generated_range cf (dkeys y) (join_frames x y) fds a b w); auto. now apply R.
Qed.

(** ** C45: predictions *)
Theorem C45_same_predictions : forall (cf : gconf R) o x y (e0 e e1 : est R),
  reorders (c_ord cf) -> reorders o -> healthy e0 e -> m_debug (e_map e0) = true ->
  NoDup (dkeys (join_frames x y)) -> fit cf x y e = (e1, Ok tt) ->
  exists e2, fit (with_order cf o) x y e = (e2, Ok tt) /\
    forall x' out, snd (predict (with_order cf o) x' e2) = Ok out <-> snd (predict cf x' e1) = Ok out.
Proof.
  intros cf o x y e0 e e1 HO Ho HH Db ND HF. pose proof (healthy_estimator _ _ HH) as HE.
  destruct (C45_same_relations cf HO o x y e0 e e1 Ho HE ND HF) as (e2 & HF2 & Ec & _ & Ef).
  destruct (fit_order cf o x y e0 e e1 HO Ho HE ND HF) as (e2' & s & ops & ops' & fds & HF2' & (B1 & B2 & B3 & B4) & _ & M1 & M2 & Sh & Bd & Bd' & _ & _ & _ & _ & P1 & P2 & G1 & G2).
  rewrite HF2 in HF2'. injection HF2' as <-. exists e2. split; auto.
  pose proof (healthy_fit _ _ _ _ _ _ HH HF) as H1. pose proof (healthy_fit _ _ _ _ _ _ HH HF2) as H2.
  pose proof (healthy_sane _ _ H1) as S1. pose proof (healthy_sane _ _ H2) as S2.
  assert (D1 : m_debug (e_map e1) = true) by (rewrite (estimator_debug _ _ (healthy_estimator _ _ H1)); auto).
  assert (D2 : m_debug (e_map e2) = true) by (rewrite (estimator_debug _ _ (healthy_estimator _ _ H2)); auto).
  assert (g1 : g_fcm (e_gen e1) = e_map e1) by (unfold e_gen; now rewrite P1). assert (g2 : g_fcm (e_gen e2) = e_map e2) by (unfold e_gen; now rewrite P2).
  assert (Sm : sim (e_map e1) (e_map e2)) by (rewrite M1, M2; apply shuffled_sim; auto; apply sim_refl).
  assert (Sm' : sim (e_map e2) (e_map e1)) by now apply sim_sym.
  intros x' out. rewrite !predict_ok; auto; try (rewrite ?g1, ?g2; split; [auto|congruence]).
  change (predict_row (with_order cf o)) with (predict_row cf).
  split; intros (ps & H & ->); exists ps; (split; [|reflexivity]); (eapply Forall2_impl'; [|exact H]); cbv beta; intros r p Hp.
  - apply (predict_sim cf r (e_gen e2) (e_gen e1)); rewrite ?g1, ?g2; auto.
  - apply (predict_sim cf r (e_gen e1) (e_gen e2)); rewrite ?g1, ?g2; auto.
Qed.

(** ** C46 *)
Theorem C46_most_activated : forall (cf : gconf R) x y (e0 e e' e2 : est R) r g' p,
  reorders (c_ord cf) -> healthy e0 e -> readable_data cf (join_frames x y) -> fit cf x y e = (e', Ok tt) -> used e' e2 ->
  predict_row cf r (e_gen e2) = (g', Ok p) ->
  exists fds, Forall2 (described cf (dkeys y)) (join_frames x y) fds /\
    dkeys p = map fd_feat (filter (fun d => String.eqb (fd_type d) TYPE_DECISION && negb (Nat.eqb (length (fd_names d)) 0)) fds) /\
    forall d, In d fds -> fd_type d = TYPE_DECISION -> fd_names d <> [] ->
      exists acts i t, Forall2 (fun c v => value (g_fcm g') c = Some v) (fd_names d) acts /\ first_best acts i /\
        nth_error (fd_names d) i = Some (append t (append "___" (fd_feat d))) /\ readable t /\
        dget p (fd_feat d) = Some (class_cell t).
Proof.
  intros cf x y e0 e e' e2 r g' p HO HH RD HF HU HP. pose proof RD as (Hsep & _).
  pose proof (healthy_estimator _ _ HH) as HE. pose proof (healthy_fit _ _ _ _ _ _ HH HF) as H1. pose proof (healthy_used _ _ _ H1 HU) as H2.
  pose proof (healthy_sane _ _ H2) as S2.
  destruct (fit_tidy cf Hsep x y e0 e e' HO Rcomm HE RD HF) as (fds & T & D & Nn & Ln & Eg & _).
  destruct (fit_base cf x y e0 e e' HE HF) as (_ & _ & Pn). destruct (used_moved e' e2 Pn HU) as (M & P2 & _).
  assert (g2 : g_fcm (e_gen e2) = e_map e2) by (unfold e_gen; now rewrite P2).
  pose proof (tidy_moved _ _ _ M T) as T2. unfold predict_row in HP.
  destruct (sthen _ _ (e_gen e2)) as [g3 [u|er]] eqn:E3; [|discriminate].
  assert (M3 : moved (e_gen e2) g3).
  { unfold sthen in E3. pose proof (moved_on OpClearExec (e_gen e2) eq_refl) as M1. change (step OpClearExec) with (clear_execution (F := R)) in M1.
    destruct (on_fcm clear_execution (e_gen e2)) as [g1 [v|er]]; [|discriminate]. cbn [fst] in M1.
    pose proof (moved_set_row cf r g1) as M4. unfold set_row in M4. rewrite E3 in M4. eapply moved_trans; eauto. }
  assert (S3 : sane (g_fcm g3)) by (apply (moved_sane _ _ M3); now rewrite g2).
  pose proof (tidy_moved _ _ _ M3 T2) as T3.
  destruct (result_spec cf Hsep fds g3 g' p T3 S3 HP) as (_ & _ & Ep).
  pose proof (moved_result cf g3) as M5. rewrite HP in M5. cbn [fst] in M5. pose proof (tidy_moved _ _ _ M5 T3) as T5.
  exists fds. split; auto. split.
  - rewrite Ep. clear. induction fds as [|d l IH]; auto. cbn [flat_map filter map dkeys]. unfold dkeys in *. rewrite map_app, IH. unfold is_class.
    destruct (String.eqb (fd_type d) TYPE_DECISION); auto. now destruct (fd_names d).
  - intros d Hd Ht Hn.
    assert (Ed : dget p (fd_feat d) = Some (class_cell (fst (best_class (outs_of cf (g_fcm g') d))))).
    { rewrite Ep. pose proof (td_feats _ _ T) as Nf. clear - Nf Hd Ht Hn.
      induction fds as [|z l IH]; [easy|]. cbn [map] in Nf. apply NoDup_cons_iff in Nf as [Nz Nf]. cbn [flat_map].
      destruct Hd as [->|Hd].
      - unfold is_class. rewrite Ht, String.eqb_refl. destruct (fd_names d) eqn:En; [congruence|]. cbn. now rewrite String.eqb_refl.
      - assert (Ne : fd_feat z <> fd_feat d) by (intros E; apply Nz; rewrite E; now apply in_map).
        destruct (is_class z); [|now apply IH]. destruct (fd_names z); [now apply IH|]. cbn [app dget fst]. apply String.eqb_neq in Ne. 
        rewrite String.eqb_sym in Ne. rewrite Ne. now apply IH. }
    set (acts := map (val (g_fcm g')) (fd_names d)).
    assert (Ev : Forall2 (fun c v => value (g_fcm g') c = Some v) (fd_names d) acts).
    { unfold acts. assert (G : forall c, In c (fd_names d) -> value (g_fcm g') c = Some (val (g_fcm g') c)).
      { intros c Hc. assert (Ic : In c (concepts (g_fcm g'))) by (apply (td_concepts _ _ T5); eauto).
        unfold val. unfold value, get_concept_value. unfold concepts in Ic. apply dget_Some_In in Ic as [n Hc']. now rewrite Hc'. }
      clear - G. induction (fd_names d) as [|c l IH]; constructor; [apply G; now left|apply IH; intros; apply G; now right]. }
    assert (On : outs_of cf (g_fcm g') d <> []) by (unfold outs_of; destruct (fd_names d); [congruence|discriminate]).
    assert (Nt : forall i c, nth_error (fd_names d) i = Some c -> c = append (text_of cf c) (append "___" (fd_feat d)) /\ readable (text_of cf c)).
    { intros i c Hi. apply nth_error_In in Hi. destruct (td_name _ _ T d c Hd Hi) as (t & -> & Rt). unfold text_of.
      rewrite (info_name cf Hsep) by (auto; apply (td_clean _ _ T d Hd)). auto. }
    assert (Na : forall i c, nth_error (fd_names d) i = Some c -> nth_error (outs_of cf (g_fcm g') d) i = Some (text_of cf c, val (g_fcm g') c) /\ nth_error acts i = Some (val (g_fcm g') c)).
    { intros i c Hi. unfold outs_of, acts. now rewrite !nth_error_map, Hi. }
    assert (Nb : forall i z, nth_error (outs_of cf (g_fcm g') d) i = Some z -> exists c, nth_error (fd_names d) i = Some c /\ z = (text_of cf c, val (g_fcm g') c)).
    { intros i z Hi. unfold outs_of in Hi. rewrite nth_error_map in Hi. destruct (nth_error (fd_names d) i) as [c|]; [|discriminate]. injection Hi as <-. eauto. }
    assert (Ia : forall v, In v acts -> exists z, In z (outs_of cf (g_fcm g') d) /\ snd z = v).
    { intros v Hv. unfold acts in Hv. apply in_map_iff in Hv as (c & <- & Hc). exists (text_of cf c, val (g_fcm g') c). split; auto. unfold outs_of. apply in_map_iff. eauto. }
    destruct (best_spec (outs_of cf (g_fcm g') d) _ On eq_refl) as [(i & v & B1 & B2 & B3 & B4)|[(v & B1) B2]].
    + destruct (Nb _ _ B1) as (c & Hc & Ez). injection Ez as Et Ev'. exists acts, i, (text_of cf c). split; auto.
      destruct (Nt _ _ Hc) as [N1 N2]. split; [|split; [now rewrite <- N1|split; [auto|now rewrite Ed, Et]]].
      left. exists v. destruct (Na _ _ Hc) as [_ A2]. split; [now rewrite Ev'|]. split; auto. split.
      * intros v' Hv'. destruct (Ia v' Hv') as (z & Hz & <-). now apply B3.
      * intros j v' Hj Hv'. assert (Hl : exists c', nth_error (fd_names d) j = Some c').
        { destruct (nth_error (fd_names d) j) eqn:E; [eauto|]. apply nth_error_None in E. assert (nth_error acts j = None) by (apply nth_error_None; unfold acts; now rewrite map_length). congruence. }
        destruct Hl as (c' & Hc'). destruct (Na _ _ Hc') as [A3 A4]. rewrite A4 in Hv'. injection Hv' as <-. now apply (B4 j _ Hj A3).
    + destruct (Nb _ _ B1) as (c & Hc & Ez). injection Ez as Et Ev'. exists acts, 0%nat, (text_of cf c). split; auto.
      destruct (Nt _ _ Hc) as [N1 N2]. split; [|split; [now rewrite <- N1|split; [auto|now rewrite Ed, Et]]].
      right. split; auto. intros v' Hv'. destruct (Ia v' Hv') as (z & Hz & <-). now apply B2.
Qed.
(** how the label of a class is read from its text *)
Theorem C46_labels : (forall {F} z, (0 <= z)%Z -> class_cell (F := F) (str_of_Z z) = CInt z) /\
  (forall {F} z, (z < 0)%Z -> class_cell (F := F) (str_of_Z z) = CStr (str_of_Z z)) /\
  (forall {F} t, (t = "" \/ exists a c b, t = append a (String c b) /\ ~ (48 <= nat_of_ascii c <= 57)%nat) -> class_cell (F := F) t = CStr t).
Proof.
  split; [intros; now apply nat_label|]. split; [intros; now apply neg_label|].
  intros F t [->|(a & c & b & -> & H)]; [reflexivity|]. apply text_label.
  assert (G : all_digits (append a (String c b)) = false).
  { induction a as [|z a IH]; cbn [append all_digits]; [|now rewrite IH, andb_false_r]. unfold is_digit.
    destruct (Nat.leb_spec 48 (nat_of_ascii c)), (Nat.leb_spec (nat_of_ascii c) 57); auto. exfalso. apply H. lia. }
  unfold isnumeric. destruct (append a (String c b)) eqn:E; auto. 
Qed.

(** ** C47 *)
Theorem C47_names_parsed : forall {F} {N : Num F} (cf : gconf F) f t, c_sep cf = "___" ->
  (get_feature_and_info cf (append t (append "___" f)) = Ok (f, t) <->
   ~ occurs "___" t /\ (forall u, t <> append u "_") /\ ~ occurs "___" f).
Proof.
  intros F N cf f t Hs. split.
  - intros H. apply (info_only cf Hs) in H as [[H1 H2] H3]. auto.
  - intros (H1 & H2 & H3). apply (info_name cf Hs); auto. split; auto.
Qed.

(** ** C48 *)
Section C48.
Context {F : Type} {N : Num F}.
(** the row set by predict before inference *)
Definition set_inputs (cf : gconf F) (r : list (string * cell F)) (g g' : gen F) : Prop :=
  sthen (on_fcm clear_execution) (sfold (fun fv => init_concept_by_feature_data cf (fst fv) (snd fv)) r) g = (g', Ok tt).
Definition plain_row (r : list (string * cell F)) : Prop :=
  NoDup (map fst r) /\ forall f t, In (f, CStr t) r -> readable t.
Definition ready_model (cf : gconf F) x y (e0 e2 : est F) : Prop :=
  reorders (c_ord cf) /\ readable_data cf (join_frames x y) /\ dc_func (m_default (e_map e0)) <> "fuzzy" /\
  exists e e', estimator e0 e /\ fit cf x y e = (e', Ok tt) /\ used e' e2.
Hypothesis mul_comm : forall a b : F, nmul a b = nmul b a.

Theorem C48_text : forall (cf : gconf F) x y e0 e2 f l r t g', ready_model cf x y e0 e2 -> In (f, ColStr l) (join_frames x y) ->
  plain_row r -> In (f, CStr t) r -> set_inputs cf r (e_gen e2) g' ->
  forall u, In u l -> value (g_fcm g') (append u (append "___" f)) = Some (if String.eqb u t then n1 else n0).
Proof.
  intros cf x y e0 e2 f l r t g' (HO & RD & Df & e & e' & HE & HF & HU) Hc [N1 N2] Hr HS u Hu. pose proof RD as (Hsep & _).
  eapply (row_values cf Hsep x y e0 e e' e2 f (ColStr l) (unique str_leb String.eqb l) _ r (CStr t) t g'); eauto.
  - apply LvStr, (unique_spec _ _ str_total_order).
  - exact I.
  - now apply (unique_spec _ _ str_total_order).
Qed.
Theorem C48_integers : forall (cf : gconf F) x y e0 e2 f l us r v z g', ready_model cf x y e0 e2 -> In (f, ColInt l) (join_frames x y) ->
  distinct_sorted Z.leb l us -> (length us < 10)%nat -> c_infer cf = true ->
  plain_row r -> In (f, v) r -> v = CInt z \/ (exists q, v = CFlt q /\ c_trunc cf q = Ok z) -> set_inputs cf r (e_gen e2) g' ->
  forall u, In u l -> value (g_fcm g') (append (str_of_Z u) (append "___" f)) = Some (if Z.eqb u z then n1 else n0).
Proof.
  intros cf x y e0 e2 f l us r v z g' (HO & RD & Df & e & e' & HE & HF & HU) Hc Hd Hl Hi [N1 N2] Hr Hv HS u Hu. pose proof RD as (Hsep & _).
  assert (Ht : cell_text cf v = Ok (str_of_Z z)) by (destruct Hv as [->|(q & -> & Hq)]; cbn; [|rewrite Hq]; reflexivity).
  rewrite (row_values cf Hsep x y e0 e e' e2 f (ColInt l) (map str_of_Z us) (indicators Z.eqb l us) r v (str_of_Z z) g'); eauto.
  - f_equal. destruct (Z.eqb_spec u z) as [->|Ne]; [now rewrite String.eqb_refl|]. destruct (String.eqb_spec (str_of_Z u) (str_of_Z z)) as [E|E]; auto. now apply str_of_Z_inj in E.
  - now apply LvInt.
  - split; auto. now rewrite map_length.
  - apply in_map. now apply Hd.
Qed.
(** a boolean or float-valued discrete feature never activates a training concept *)
Theorem C48_booleans_never : forall (cf : gconf F) x y e0 e2 f l r b g', ready_model cf x y e0 e2 -> In (f, ColBool l) (join_frames x y) ->
  plain_row r -> In (f, CBool b) r -> set_inputs cf r (e_gen e2) g' ->
  forall u : bool, In u l -> value (g_fcm g') (append (if u then "True" else "False") (append "___" f)) = Some n0.
Proof.
  intros cf x y e0 e2 f l r b g' (HO & RD & Df & e & e' & HE & HF & HU) Hc [N1 N2] Hr HS u Hu. pose proof RD as (Hsep & _).
  assert (Hu' : In u (unique implb Bool.eqb l)) by now apply (unique_spec _ _ bool_total_order).
  rewrite (row_values cf Hsep x y e0 e e' e2 f (ColBool l) (map (fun b : bool => if b then "True" else "False") (unique implb Bool.eqb l)) (indicators Bool.eqb l (unique implb Bool.eqb l)) r (CBool b) (str_of_Z (if b then 1 else 0)) g'); eauto.
  - now destruct u, b.
  - apply LvBool, (unique_spec _ _ bool_total_order).
  - exact I.
  - apply in_map_iff. eauto.
Qed.
Theorem C48_floats_never : forall (cf : gconf F) x y e0 e2 f l r v t g', ready_model cf x y e0 e2 -> In (f, ColFlt l) (join_frames x y) ->
  c_infer cf = true -> (length (unique nleb neqb l) < 10)%nat -> (forall q z, c_fstr cf q <> str_of_Z z) ->
  plain_row r -> In (f, v) r -> (forall s, v <> CStr s) -> cell_text cf v = Ok t -> set_inputs cf r (e_gen e2) g' ->
  forall u, In u (unique nleb neqb l) -> value (g_fcm g') (append (c_fstr cf u) (append "___" f)) = Some n0.
Proof.
  intros cf x y e0 e2 f l r v t g' (HO & RD & Df & e & e' & HE & HF & HU) Hc Hi Hl Hf [N1 N2] Hr Hv Ht HS u Hu. pose proof RD as (Hsep & _).
  rewrite (row_values cf Hsep x y e0 e e' e2 f (ColFlt l) (map (c_fstr cf) (unique nleb neqb l)) (indicators neqb l (unique nleb neqb l)) r v t g'); eauto.
  - f_equal. destruct (String.eqb_spec (c_fstr cf u) t) as [E|E]; auto. exfalso. destruct v as [s|b|z|q]; cbn in Ht.
    + now apply (Hv s).
    + injection Ht as <-. now apply Hf in E.
    + injection Ht as <-. now apply Hf in E.
    + destruct (c_trunc cf q) as [z|]; [|discriminate]. injection Ht as <-. now apply Hf in E.
  - apply (LvFlt cf l).
  - split; auto. now rewrite map_length.
  - now apply in_map.
Qed.
End C48.

Print Assumptions C43_exclusion_relations.
Print Assumptions C43_no_self_relation.
Print Assumptions C43_any_names.
Print Assumptions C44_associations.
Print Assumptions C44_weights.
Print Assumptions C44_no_duplicates.
Print Assumptions C44_range.
Print Assumptions C45_same_relations.
Print Assumptions C45_same_predictions.
Print Assumptions C46_most_activated.
Print Assumptions C46_labels.
Print Assumptions C47_names_parsed.
Print Assumptions C48_text.
Print Assumptions C48_integers.
Print Assumptions C48_booleans_never.
Print Assumptions C48_floats_never.

(** ** The hypotheses can be met *)
Example C43_example : exists fds, Forall2 (described qcf (dkeys qy)) (join_frames qx qy) fds /\
  concepts (e_map qe1) = flat_map fd_names fds /\ length (concepts (e_map qe1)) = 8%nat /\
  In ("a___f", "b___f", c_excl qcf) (relations (e_map qe1)) /\ In ("v___c", "u___c", c_excl qcf) (relations (e_map qe1)).
Proof.
  destruct (C43_exclusion_relations qcf q_orders q_comm qx qy qe0 qe0 qe1 qe_estimator q_readable qe_fit) as (fds & D & E & _).
  exists fds. split; auto. split; auto. vm_compute. auto 50.
Qed.
Example C44_example : In ("1___n", "a___f", QArith_base.Qmake 2 3) (relations (e_map qe1)) /\ ~ In ("u___c", "b___f") (map fst (relations (e_map qe1))) /\
  NoDup (map fst (relations (e_map qe1))).
Proof.
  split; [vm_compute; auto 50|]. split; [vm_compute; intuition discriminate|].
  exact (C44_no_duplicates qcf q_orders q_comm qx qy qe0 qe0 qe1 qe_estimator q_readable qe_fit).
Qed.
Example C45_example : reorders (@rev string) /\
  (let e2 := fst (fit (with_order qcf (@rev string)) qx qy qe0) in
   relations (e_map e2) <> relations (e_map qe1) /\ snd (predict (with_order qcf (@rev string)) qx e2) = snd (predict qcf qx qe1)).
Proof. split; [intros l; apply Permutation_sym, Permutation_rev|]. split; [vm_compute; discriminate|vm_compute; reflexivity]. Qed.
Example C46_example : snd (predict qcf qx qe1) = Ok [("c", [CStr "u"; CStr "v"; CStr "u"; CStr "v"])] /\ healthy qe0 qe0 /\
  class_cell (F := R) "12" = CInt 12 /\ class_cell (F := R) "-1" = CStr "-1" /\ class_cell (F := R) "a1" = CStr "a1".
Proof. split; [vm_compute; reflexivity|]. split; [exact qe_healthy|]. repeat split. Qed.
Example C47_example : get_feature_and_info qcf "a_b___x_y" = Ok ("x_y", "a_b") /\ get_feature_and_info qcf "a____x" = Ok ("_x", "a") /\
  get_feature_and_info qcf "a___b___x" = Ok ("b", "a").
Proof. now vm_compute. Qed.
Example C48_example :
  let g' := fst (sthen (on_fcm clear_execution) (sfold (fun fv => init_concept_by_feature_data qcf (fst fv) (snd fv))
              [("f", CStr "b"); ("n", CInt 1); ("t", CBool true)]) (e_gen qe1)) in
  ready_model qcf qx qy qe0 qe1 /\ set_inputs qcf [("f", CStr "b"); ("n", CInt 1); ("t", CBool true)] (e_gen qe1) g' /\
  value (g_fcm g') "b___f" = Some n1 /\ value (g_fcm g') "1___n" = Some n1 /\
  value (g_fcm g') "a___f" = Some n0 /\ value (g_fcm g') "True___t" = Some n0 /\ value (g_fcm g') "False___t" = Some n0.
Proof.
  cbv zeta. split; [|vm_compute; auto 10]. split; [exact q_orders|]. split; [exact q_readable|]. split; [discriminate|].
  exists qe0, qe1. split; [exact qe_estimator|]. split; [exact qe_fit|exact qe_used].
Qed.
