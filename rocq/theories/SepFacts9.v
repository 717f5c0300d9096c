(** SepFacts9.v — estimators with a rectifying activation function, trained on data whose columns
    determine the classes: rows that resemble the data are classified right (C94). *)
From Coq Require Import Permutation Reals Lra.
From Verif Require Import Base BaseFacts Num Functions Spec RealFacts FunctionsFacts Fcm FcmSpec FcmBasics FcmInv FcmInv2 FcmInv3 FcmIter FcmRun FcmRun2 FcmRun3 FcmOrder DynSpec Dynamics Dynamics2 VecSpec FcmVec5 FcmVec6 FcmTotal LearnUtils LearnSpec LearnFacts Assoc AssocSpec AssocFacts AssocFacts2 AssocFacts3 AssocFacts4 AssocNames AssocNames2 Estimator EstFacts EstFacts2 EstFacts3 EstSpec EstFacts4 AssocGen AssocPredict AssocResult AssocRow EstFacts5 EstFacts6 EstFacts7 EstFacts9 SepSpec SepFacts SepFacts2 SepFacts3 SepFacts4 SepFacts5 SepFacts6 SepFacts7 SepFacts8.
Local Open Scope R_scope.

Section Rows.
Variable cf : gconf R.
Hypothesis Hsep : c_sep cf = "___".
Hypothesis Ev : c_eval cf = rel_supp.
Hypothesis Th : 0 <= c_thr cf.
Hypothesis Fv : favours (c_caus cf).
Hypothesis Sg : c_sign cf = None.
Hypothesis Ex : c_excl cf <= 0.
Variables (ds : dataset R) (targets : list string) (n : nat) (fds : list (fdesc R)).
Hypothesis Plain : forall f c, In (f, c) ds -> plain_column cf c.
Hypothesis Freq : forall f c, In (f, c) ds -> frequent (c_thr cf) c.
Hypothesis Lens : forall f c, In (f, c) ds -> col_length c = n.
Hypothesis Det : forall f c i j, In (f, c) ds -> (i < n)%nat -> (j < n)%nat -> nth_error (col_cells c) i = nth_error (col_cells c) j -> cls ds targets i j.
Hypothesis Some_rows : (0 < n)%nat.
Hypothesis Reads : readable_data cf ds.
Hypothesis D : Forall2 (described cf targets) ds fds.
Hypothesis NN : NoDup (flat_map fd_names fds).
Hypothesis Ln : Forall (fun d => length (fd_rows d) = length (fd_names d)) fds.
Variables (de : string) (b : bool) (xc ac : string) (kw : args R) (k : nat).
Hypothesis Hc : callable ac kw.
Hypothesis Rc : rectifying ac kw.
Hypothesis Kx : xc <> "PAPAGEORGIUS".
Hypothesis Dm : (de = "LAST" /\ b = true) \/ de = "MEAN".
Notation trained := (trained cf fds de b xc ac kw k).
Notation trained_moved := (trained_moved cf fds de b xc ac kw k).
Notation inside := (inside ds targets n).
Lemma keys_nodup : NoDup (dkeys ds).
Proof. apply Reads. Qed.
(** a row whose cells all occur with the class of sample [i] *)
Definition row_of_class (i : nat) (r : list (string * cell R)) : Prop :=
  (i < n)%nat /\ r <> [] /\ NoDup (map fst r) /\ forall f v, In (f, v) r -> ~ In f targets /\
    exists c j, In (f, c) ds /\ nth_error (col_cells c) j = Some v /\ cls ds targets i j.
Lemma class_right i r g g' p : trained g -> row_of_class i r -> predict_row cf r g = (g', Ok p) ->
  (de = "MEAN" -> m_debug (g_fcm g) = true \/ m_oob (g_fcm g') = false) ->
  forall f c v, In (f, c) ds -> In f targets -> nth_error (col_cells c) i = Some v ->
  labels (append_all [] p) f = [label v].
Proof.
  intros T (Hi & Rne & Rnd & Rcl) HP Ho f c v Hf Hft Hv.
  pose proof (tr_tidy _ _ _ _ _ _ _ _ _ T) as Td. pose proof (tr_sane _ _ _ _ _ _ _ _ _ T) as Sn.
  unfold predict_row, sthen in HP.
  pose proof (moved_on OpClearExec g eq_refl) as M1. change (step OpClearExec) with (clear_execution (F := R)) in M1.
  assert (O1 : snd (on_fcm clear_execution g) = Ok tt).
  { unfold on_fcm. pose proof (proj1 (clear_values (g_fcm g))) as Q. destruct (clear_execution (g_fcm g)); exact Q. }
  assert (Sy1 : synced (g_fcm (fst (on_fcm clear_execution g)))).
  { unfold on_fcm. pose proof (synced_clear (g_fcm g)) as X. destruct (clear_execution (g_fcm g)). exact X. }
  assert (V1 : forall z, In z (concepts (g_fcm g)) -> value (g_fcm (fst (on_fcm clear_execution g))) z = Some 0).
  { intros z Hz. destruct (clear_values (g_fcm g)) as [_ X]. unfold on_fcm. destruct (X z Hz) as [X1 _]. destruct (clear_execution (g_fcm g)). exact X1. }
  destruct (on_fcm clear_execution g) as [g1 r1]. cbn [fst snd] in M1, O1, Sy1, V1. subst r1.
  change (sfold (fun fv : string * cell R => init_concept_by_feature_data cf (fst fv) (snd fv)) r g1) with (set_row cf r g1) in HP.
  destruct (set_row cf r g1) as [g2 [u|er]] eqn:E2; [|discriminate]. destruct u.
  pose proof (trained_moved _ _ M1 T) as T1.
  assert (M2 : moved g1 g2) by (pose proof (moved_set_row cf r g1) as M; rewrite E2 in M; exact M).
  pose proof (trained_moved _ _ M2 T1) as T2.
  pose proof (types cf Hsep ds targets fds Plain D) as types.
  assert (Dg : discrete_gen g1).
  { intros f' dd Hd t Ht. assert (K : dget (g_feats g1) f' <> None) by congruence. destruct (td_only _ _ (tr_tidy _ _ _ _ _ _ _ _ _ T1) f' K) as (d' & Hd' & Hf').
    pose proof (td_known _ _ (tr_tidy _ _ _ _ _ _ _ _ _ T1) d' Hd') as X. rewrite Hf', Hd in X. injection X as ->. cbn in Ht. injection Ht as <-. now apply types. }
  assert (Uf : unfuzzy (g_fcm g1)).
  { intros z nd Hz. destruct (tr_common _ _ _ _ _ _ _ _ _ T1 z nd Hz) as (_ & _ & _ & C4 & _). exists ac. split; auto. now apply (common_plain ac kw). }
  assert (Sy2 : synced (g_fcm g2)) by (pose proof (synced_row cf r g1 Dg Uf Sy1) as X; rewrite E2 in X; exact X).
  assert (CE1 : concepts (g_fcm g1) = concepts (g_fcm g)) by (destruct (moved_wframe _ _ M1) as (W & _); exact (statics_keys _ _ W)).
  assert (CE2 : concepts (g_fcm g2) = concepts (g_fcm g1)) by (destruct (moved_wframe _ _ M2) as (W & _); exact (statics_keys _ _ W)).
  pose proof (cell_read cf ds Plain Reads) as cell_read.
  assert (Good : good_row r).
  { split; auto. intros f' str H. destruct (Rcl f' _ H) as (_ & c' & j & Hc' & Hn & _). apply nth_error_In in Hn. exact (cell_read f' c' _ Hc' Hn). }
  (* the values the run starts from *)
  assert (Ic : forall d z rr, In d fds -> In (z, rr) (grp d) -> In z (fd_names d)) by (intros d z rr Hd Hz; exact (in_grp_name fds Ln d z rr Hd Hz)).
  assert (St : forall d z rr w, In d fds -> In (z, rr) (grp d) -> initial (g_fcm g2) z = Some w -> (w = 0 \/ w = 1 /\ inside i rr)).
  { intros d z rr w0 Hd Hz Hw0. pose proof (Ic d z rr Hd Hz) as Hzn. assert (Izc : In z (concepts (g_fcm g))) by (apply (td_concepts _ _ Td); eauto).
    assert (Izc2 : In z (concepts (g_fcm g2))) by (now rewrite CE2, CE1).
    destruct (in_dec string_dec (fd_feat d) (map fst r)) as [Hr|Hr].
    - apply in_map_iff in Hr as ([f' w] & Ef & Hw). cbn in Ef. subst f'.
      destruct (Rcl _ _ Hw) as (_ & c' & j & Hc' & Hn & Cj). pose proof (nth_error_In _ _ Hn) as Hwi.
      assert (Pw : plain_cell w) by (apply (plain_cells cf c'); eauto).
      assert (Vz : value (g_fcm g2) z = option_map (fun x => if String.eqb z (append (cell_str w) (append "___" (fd_feat d))) then n1 else x) (value (g_fcm g1) z)).
      { apply (row_sets cf Hsep fds r g1 g2 d w (cell_str w) z (tr_tidy _ _ _ _ _ _ _ _ _ T1)); auto; [rewrite (tr_func _ _ _ _ _ _ _ _ _ T1); now apply (common_plain ac kw)|now apply types|now apply text_plain]. }
      rewrite (V1 z Izc) in Vz. cbn [option_map] in Vz. pose proof (synced_initial _ _ _ Sy2 Izc2 Vz) as Iz. rewrite Hw0 in Iz.
      destruct (String.eqb_spec z (append (cell_str w) (append "___" (fd_feat d)))) as [Ez|_]; [right|left; now injection Iz].
      split; [now injection Iz|]. exists j. assert (Hjn : (j < n)%nat) by (rewrite <- (clen ds n Lens _ _ Hc'); apply nth_error_Some; congruence). split; auto. split; auto.
      destruct (grp_In cf Hsep ds targets fds Plain D d Hd) as (c2 & Hc2 & _ & X). assert (c2 = c') by (eapply col_unique; eauto). subst c2.
      assert (Rw : In (append (cell_str w) (append "___" (fd_feat d)), ind (col_cells c') w) (grp d)) by (apply X; eauto).
      rewrite Ez in Hz. rewrite (row_of fds NN Ln d _ rr _ Hd Hz Rw), (ind_nth _ _ _ _ Hn), same_cell_refl; auto.
    - assert (Vz : value (g_fcm g2) z = value (g_fcm g1) z) by (apply (row_other cf Hsep fds r d z g1 g2 (Ok tt) (tr_tidy _ _ _ _ _ _ _ _ _ T1)); auto; apply Good).
      rewrite (V1 z Izc) in Vz. pose proof (synced_initial _ _ _ Sy2 Izc2 Vz) as Iz. left. rewrite Hw0 in Iz. now injection Iz. }
  assert (Start : forall d z rr w, In d fds -> In (z, rr) (grp d) -> initial (g_fcm g2) z = Some w -> 0 <= w <= 1 /\ (~ inside i rr -> w = 0)).
  { intros d z rr w Hd Hz Hw. destruct (St d z rr w Hd Hz Hw) as [->|[-> Y]]; split; try lra; try (intros; contradiction). }
  (* the run *)
  destruct (result_spec cf Hsep fds g2 g' p (tr_tidy _ _ _ _ _ _ _ _ _ T2) (tr_sane _ _ _ _ _ _ _ _ _ T2) HP) as (Er & _ & Ep).
  assert (Db : m_debug (g_fcm g2) = m_debug (g_fcm g)).
  { pose proof (moved_wframe _ _ (moved_trans _ _ _ M1 M2)) as (_ & _ & W3). now apply settings_max in W3. }
  destruct r as [|[f0 v0] rest] eqn:Er0; [congruence|]. rewrite <- Er0 in *. assert (H0r : In (f0, v0) r) by (rewrite Er0; now left).
  destruct (Rcl f0 v0 H0r) as (Nt0 & c0 & j0 & Hc0 & Hn0 & Cj0). destruct (feat_desc cf ds targets fds D f0 c0 Hc0) as (d0 & Hd0 & Ef0).
  assert (Td0 : fd_target d0 = false).
  { destruct (types d0 Hd0) as (_ & -> & _). rewrite Ef0. destruct (str_mem f0 targets) eqn:X; auto. apply str_mem_In in X. contradiction. }
  assert (S0 : exists a0 r0, In (a0, r0) (grp d0) /\ inside i r0 /\ initial (g_fcm g2) a0 = Some 1).
  { destruct (grp_In cf Hsep ds targets fds Plain D d0 Hd0) as (c2 & Hc2 & _ & X). rewrite Ef0 in Hc2. assert (c2 = c0) by (eapply col_unique; eauto). subst c2.
    pose proof (nth_error_In _ _ Hn0) as Hvi. assert (Pv : plain_cell v0) by (apply (plain_cells cf c0); eauto).
    exists (append (cell_str v0) (append "___" (fd_feat d0))), (ind (col_cells c0) v0). split; [apply X; eauto|]. split.
    - exists j0. split; [rewrite <- (clen ds n Lens _ _ Hc0); apply nth_error_Some; congruence|]. split; auto. rewrite (ind_nth _ _ _ _ Hn0), same_cell_refl; auto.
    - assert (Hzn : In (append (cell_str v0) (append "___" (fd_feat d0))) (fd_names d0)) by (apply (Ic d0 _ (ind (col_cells c0) v0) Hd0); apply X; eauto).
      assert (Izc : In (append (cell_str v0) (append "___" (fd_feat d0))) (concepts (g_fcm g))) by (apply (td_concepts _ _ Td); eauto).
      apply synced_initial; auto; [now rewrite CE2, CE1|].
      rewrite (row_sets cf Hsep fds r g1 g2 d0 v0 (cell_str v0) _ (tr_tidy _ _ _ _ _ _ _ _ _ T1)); auto.
      + rewrite (V1 _ Izc). cbn [option_map]. now rewrite String.eqb_refl.
      + rewrite (tr_func _ _ _ _ _ _ _ _ _ T1). now apply (common_plain ac kw).
      + now apply types.
      + rewrite Ef0. exact H0r.
      + now apply text_plain. }
  destruct S0 as (a0 & r0 & Ha0 & In0 & St0).
  pose proof (td_feats _ _ Td) as NF.
  assert (Oc : exists L x k2 f2, outcome (g_fcm g2) (g_fcm g') L x k2 f2).
  { destruct (tr_engine _ _ _ _ _ _ _ _ _ T2) as [[E1 E3]|[E1 E3]].
    - apply iter_outcome; auto. apply T2.
    - apply vec_outcome; auto; try apply T2.
      + apply (common_regular _ b xc ac kw); auto; apply T2.
      + apply (common_responsive _ b xc ac kw); auto; apply T2.
      + intros X. assert (Y : In a0 (concepts (g_fcm g2))) by (apply (td_concepts _ _ (tr_tidy _ _ _ _ _ _ _ _ _ T2)); exists d0; split; auto; eapply Ic; eauto). rewrite X in Y. exact Y.
      + intros L x Orb Sx t z Ht Hz. rewrite (td_all _ _ (tr_tidy _ _ _ _ _ _ _ _ _ T2)) in Hz. apply in_flat_map in Hz as (d & Hd & Hz).
        rewrite <- (grp_names fds Ln d Hd) in Hz. apply in_map_iff in Hz as ([z' rr] & Ez & Hzr). cbn in Ez. subst z'.
        pose proof (cone cf Hsep Ev Th Ex ds targets n fds Plain Freq Lens Det Some_rows D NN NF Ln keys_nodup (g_fcm g2) b xc ac kw (tr_nodup _ _ _ _ _ _ _ _ _ T2) (tr_rels _ _ _ _ _ _ _ _ _ T2)
          (tr_sane _ _ _ _ _ _ _ _ _ T2) (tr_common _ _ _ _ _ _ _ _ _ T2) Hc Rc Kx (td_all _ _ (tr_tidy _ _ _ _ _ _ _ _ _ T2)) i Hi Start L x Orb Sx t Ht d z rr Hd Hzr). lra. }
  destruct Oc as (L & x & k2 & f2 & Oc).
  (* the winning class *)
  destruct (feat_desc cf ds targets fds D f c Hf) as (d & Hd & Ef). destruct (grp_In cf Hsep ds targets fds Plain D d Hd) as (c2 & Hc2 & _ & X).
  rewrite Ef in Hc2. assert (c2 = c) by (eapply col_unique; eauto). subst c2. pose proof (nth_error_In _ _ Hv) as Hvi.
  assert (Pv : plain_cell v) by (apply (plain_cells cf c); eauto).
  set (wn := append (cell_str v) (append "___" (fd_feat d))) in *.
  assert (Hw : In (wn, ind (col_cells c) v) (grp d)) by (apply X; eauto).
  assert (Iw : inside i (ind (col_cells c) v)).
  { exists i. split; auto. split; [rewrite (ind_nth _ _ _ _ Hv), same_cell_refl; auto|]. intros f' c' _ _. reflexivity. }
  assert (Cls : is_class d = true) by (destruct (types d Hd) as (_ & _ & ->); rewrite Ef; now apply str_mem_In).
  assert (Tgt : fd_target d = true) by (destruct (types d Hd) as (_ & -> & _); rewrite Ef; now apply str_mem_In).
  assert (Dec : (m_decision (g_fcm g2) = "LAST" /\ b = true) \/ (m_decision (g_fcm g2) = "MEAN" /\ (m_debug (g_fcm g2) = true \/ m_oob (g_fcm g') = false))).
  { rewrite (tr_decision _ _ _ _ _ _ _ _ _ T2), Db. destruct Dm as [[Q1 Q2]|Q1]; [left; auto|right; auto]. }
  assert (Hex : (0 <= m_extra (g_fcm g2))%Z) by (destruct (sane_parts _ (tr_sane _ _ _ _ _ _ _ _ _ T2)) as (_ & _ & _ & _ & _ & Q); lia).
  assert (Win : forall z rr, In (z, rr) (grp d) -> ~ inside i rr -> exists w w', value (g_fcm g') wn = Some w /\ value (g_fcm g') z = Some w' /\ w' < w).
  { intros z rr Hz Nz. apply (cone_winner cf Hsep Ev Th Fv Sg Ex ds targets n fds Plain Freq Lens Det Some_rows D NN NF Ln keys_nodup (g_fcm g2) (g_fcm g') b xc ac kw
      (tr_nodup _ _ _ _ _ _ _ _ _ T2) (tr_rels _ _ _ _ _ _ _ _ _ T2) (tr_sane _ _ _ _ _ _ _ _ _ T2) (tr_common _ _ _ _ _ _ _ _ _ T2) Hc Rc Kx (td_all _ _ (tr_tidy _ _ _ _ _ _ _ _ _ T2)) i Hi Start L x k2 f2 Oc
      Dec Hex d0 a0 r0 d wn (ind (col_cells c) v) z rr); auto. }
  pose proof (cone_bound cf Hsep Ev Th Ex ds targets n fds Plain Freq Lens Det Some_rows D NN NF Ln keys_nodup (g_fcm g2) (g_fcm g') b xc ac kw
      (tr_nodup _ _ _ _ _ _ _ _ _ T2) (tr_rels _ _ _ _ _ _ _ _ _ T2) (tr_sane _ _ _ _ _ _ _ _ _ T2) (tr_common _ _ _ _ _ _ _ _ _ T2) Hc Rc Kx (td_all _ _ (tr_tidy _ _ _ _ _ _ _ _ _ T2)) i Hi Start L x k2 f2 Oc) as Vb.
  assert (Best : fst (best_class (outs_of cf (g_fcm g') d)) = cell_str v).
  { assert (Tx : text_of cf wn = cell_str v).
    { unfold text_of, wn. rewrite (info_name cf Hsep); auto; [eapply cell_read; eauto|apply (td_clean _ _ Td d Hd)]. }
    apply best_unique with (v := val (g_fcm g') wn).
    - unfold outs_of. rewrite <- Tx. apply in_map_iff. exists wn. split; auto. eapply Ic; eauto.
    - intros z Hz. unfold outs_of in Hz. apply in_map_iff in Hz as (z' & <- & Hz). cbn [snd].
      assert (Iz : In z' (concepts (g_fcm g2))) by (apply (td_concepts _ _ (tr_tidy _ _ _ _ _ _ _ _ _ T2)); eauto).
      destruct (oc_value _ _ _ _ _ _ Oc z' Iz) as (_ & w & _ & _ & Vw). unfold val. rewrite Vw. exact (Vb z' w Iz Vw).
    - intros t' v' Hin Ne. unfold outs_of in Hin. apply in_map_iff in Hin as (z & E & Hz). injection E as <- <-.
      rewrite <- (grp_names fds Ln d Hd) in Hz. apply in_map_iff in Hz as ([z' rr] & Ez & Hz). cbn in Ez. subst z'.
      assert (Nr : ~ inside i rr).
      { intros Y. apply Ne. rewrite <- Tx. f_equal. exact (target_one cf Hsep ds targets n fds Plain D keys_nodup d z wn rr _ i Hd Tgt Hz Hw Y Iw). }
      destruct (Win z rr Hz Nr) as (w & w' & W1 & W2 & W3). unfold val. rewrite W1, W2. exact W3. }
  rewrite labels_row, Ep, (label_text v Pv). clear - Hd Cls Best Ef Hw Ic Td.
  pose proof (td_feats _ _ Td) as Nf. pose proof (Ic d wn _ Hd Hw) as Hne. clear Ic Td Hw.
  induction fds as [|z l IH]; [easy|]. cbn [map] in Nf. apply NoDup_cons_iff in Nf as [Nz Nf]. cbn [flat_map]. rewrite flat_map_app.
  assert (Rest : forall (q : fdesc R) (l : list (fdesc R)), fd_feat q = f -> ~ In (fd_feat q) (map fd_feat l) -> flat_map (fun fv : string * cell R => if String.eqb f (fst fv) then [snd fv] else [])
     (flat_map (fun d1 => if is_class d1 then match fd_names d1 with [] => [] | _ :: _ => [(fd_feat d1, class_cell (fst (best_class (outs_of cf (g_fcm g') d1))))] end else []) l) = []).
  { intros q l' Eq Nq. rewrite Eq in Nq. clear IH. induction l' as [|z' l' IH]; auto. cbn [flat_map]. rewrite flat_map_app, IH by (intros Y; apply Nq; now right).
    destruct (is_class z'); auto. destruct (fd_names z'); auto. cbn [flat_map fst]. destruct (String.eqb_spec f (fd_feat z')) as [Y|_]; auto. exfalso. apply Nq. left. auto. }
  destruct Hd as [->|Hd].
  - rewrite (Rest d l Ef Nz), Cls. destruct (fd_names d); [easy|]. cbn [flat_map fst snd]. rewrite Ef, String.eqb_refl, Best. reflexivity.
  - rewrite IH by auto. assert (Ne : f <> fd_feat z) by (intros E; apply Nz; rewrite <- E, <- Ef; now apply in_map). apply String.eqb_neq in Ne.
    destruct (is_class z); auto. destruct (fd_names z); auto. cbn [flat_map fst]. now rewrite Ne.
Qed.

(** ** Tables *)
Lemma table_right idx rows : Forall2 row_of_class idx rows -> forall g acc g' out, trained g -> predict_rows cf rows acc g = (g', Ok out) ->
  (de = "MEAN" -> m_debug (g_fcm g) = true \/ m_oob (g_fcm g') = false) ->
  forall f c, In (f, c) ds -> In f targets -> labels out f = labels acc f ++ map label (pick idx (col_cells c)).
Proof.
  induction 1 as [|i r idx rows H1 _ IH]; intros g acc g' out T HP Ho f c Hf Ht; cbn [predict_rows] in HP.
  - injection HP as _ <-. cbn. now rewrite app_nil_r.
  - pose proof (moved_predict cf r g) as M. destruct (predict_row cf r g) as [g1 [p|er]] eqn:E; [|discriminate]. cbn [fst] in M.
    pose proof (moved_predict_rows cf rows (append_all acc p) g1) as M2. rewrite HP in M2. cbn [fst] in M2.
    assert (Db : m_debug (g_fcm g1) = m_debug (g_fcm g)) by (pose proof (moved_wframe _ _ M) as (_ & _ & W3); now apply settings_max in W3).
    assert (Hi : (i < n)%nat) by apply H1. destruct (nth_error (col_cells c) i) as [v|] eqn:Ev'.
    2: { apply nth_error_None in Ev'. rewrite (clen ds n Lens f c Hf) in Ev'. lia. }
    rewrite (IH g1 (append_all acc p) g' out (trained_moved _ _ M T) HP) with (c := c); auto.
    + cbn [pick flat_map]. rewrite Ev'. cbn [app map]. rewrite labels_all, <- (labels_row p f).
      rewrite (class_right i r g g1 p T H1 E) with (c := c) (v := v); auto; [now rewrite <- app_assoc|].
      intros De. destruct (Ho De) as [Q|Q]; auto. right. now apply (moved_oob _ _ M2).
    + now rewrite Db.
Qed.
Variables x y : dataset R.
Hypothesis Hx : forall f c, In (f, c) x -> In (f, c) ds /\ ~ In f targets.
Hypothesis Hy : forall f c, In (f, c) ds -> In f targets -> In (f, c) y.
Lemma Forall2_len {A B} (P : A -> B -> Prop) l l' : Forall2 P l l' -> length l = length l'.
Proof. induction 1; cbn; congruence. Qed.
Lemma Forall2_nth {A B} (P : A -> B -> Prop) l l' : Forall2 P l l' -> forall j a, nth_error l j = Some a -> exists z, nth_error l' j = Some z /\ P a z.
Proof. induction 1 as [|a z l l' H _ IH]; intros [|j] a' E; cbn in E; try discriminate; [injection E as <-; exists z; auto|now apply IH]. Qed.
Lemma resembles_rows src x' : resembles n src x' x y -> Forall2 row_of_class src (iterrows x').
Proof.
  intros (Hne & Hnd & Hsrc & Hcol). unfold iterrows.
  assert (Len : forall f c', In (f, c') x' -> col_length c' = length src).
  { intros f c' Hf. destruct (Hcol f c' Hf) as (c & _ & F2). rewrite <- col_cells_length. symmetry. exact (Forall2_len _ _ _ F2). }
  assert (Fr : frame_rows x' = length src).
  { destruct x' as [|[f c'] rest]; [congruence|]. cbn [frame_rows]. apply (Len f c'). now left. }
  rewrite Fr. apply Forall2_seq. intros j i Hj.
  assert (Hi : (i < n)%nat) by (rewrite Forall_forall in Hsrc; apply Hsrc; eapply nth_error_In; eauto).
  assert (Cell : forall f c', In (f, c') x' -> exists c v l, In (f, c) x /\ nth_error (col_cells c) l = Some v /\ cls ds targets i l /\ nth_error (col_cells c') j = Some v /\ plain_cell v).
  { intros f c' Hf. destruct (Hcol f c' Hf) as (c & Hc' & F2). destruct (Hx f c Hc') as [Hd _].
    destruct (Forall2_nth _ _ _ F2 j i Hj) as (v & Hv & l & Hl & Cl). exists c, v, l. split; auto. split; auto. split; [intros g cg Hg Ht; symmetry; eapply Cl; eauto|].
    split; auto. apply (plain_cells cf c); eauto. eapply nth_error_In; eauto. }
  assert (NoF : existsb (fun c : string * column R => is_float_col (snd c)) x' = false).
  { destruct (existsb _ x') eqn:E; auto. apply existsb_exists in E as ([f c'] & Hf & E). cbn [snd] in E.
    destruct (Cell f c' Hf) as (c & v & l0 & _ & _ & _ & Hv & Pv). destruct c' as [l|l|l|l]; try discriminate. cbn [col_cells] in Hv.
    apply nth_error_In in Hv. apply in_map_iff in Hv as (q & <- & _). now elim Pv. }
  rewrite NoF, andb_false_r.
  assert (Rows : forall l, incl l x' -> map fst (flat_map (fun c : string * column R => match nth_error (col_cells (snd c)) j with Some v => [(fst c, upcast false v)] | None => [] end) l) = dkeys l).
  { induction l as [|[f c'] l IH]; intros Hl; auto. cbn [flat_map]. destruct (Cell f c' (Hl _ (or_introl eq_refl))) as (c & v & l0 & _ & _ & _ & Hv & _). cbn [snd fst]. rewrite Hv.
    cbn [app map fst dkeys]. f_equal. apply IH. intros z Hz. apply Hl. now right. }
  split; auto. split; [|split].
  - intros E. specialize (Rows x' (incl_refl _)). rewrite E in Rows. cbn in Rows. destruct x'; [congruence|discriminate].
  - rewrite Rows by apply incl_refl. exact Hnd.
  - intros f v Hv. apply in_flat_map in Hv as ([f' c'] & Hf & Hv). cbn [fst snd] in Hv. destruct (Cell f' c' Hf) as (c & w & l0 & Hcx & Hw1 & Cw & Hw2 & Pw).
    rewrite Hw2 in Hv. destruct Hv as [Hv|[]]. assert (Ew : upcast false w = w) by (destruct w; reflexivity). rewrite Ew in Hv. injection Hv as <- <-.
    destruct (Hx f' c Hcx) as [Hd Hn]. split; auto. exists c, l0. auto.
Qed.
End Rows.
