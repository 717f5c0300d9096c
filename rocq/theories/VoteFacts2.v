(** VoteFacts2.v — the weights of a trained estimator are votes, and the class with the most votes is predicted (C114). *)
From Coq Require Import Permutation Reals Lra.
From Verif Require Import Base BaseFacts Num Functions Spec RealFacts FunctionsFacts RlFacts Fcm FcmSpec FcmBasics FcmInv FcmInv2 FcmInv3 FcmIter FcmRun FcmRun2 FcmRun3 FcmOrder DynSpec Dynamics Dynamics2 VecSpec FcmVec5 FcmVec6 FcmTotal LearnUtils LearnSpec LearnFacts Assoc AssocSpec AssocFacts AssocFacts2 AssocFacts3 AssocFacts4 AssocNames AssocNames2 Estimator EstFacts EstFacts2 EstFacts3 EstSpec EstFacts4 AssocGen AssocPredict AssocResult AssocRow EstFacts5 EstFacts6 EstFacts7 EstFacts8 EstFacts9 SepSpec SepFacts SepFacts2 SepFacts3 SepFacts4 SepFacts5 SepFacts6 SepFacts7 SepFacts8 SepFacts9 VoteSpec VoteFacts.
Local Open Scope R_scope.

(** ** Counting *)
Definition is_one (l : list R) (j : nat) : bool := match nth_error l j with Some v => Reqb v 1 | None => false end.
Lemma Rsum_ones l : Forall (fun v => v = 0 \/ v = 1) l -> Rsum l = INR (length (filter (is_one l) (seq 0 (length l)))).
Proof.
  induction l as [|v l IH] using rev_ind; intros H; [reflexivity|]. apply Forall_app in H as [H1 H2]. inversion H2; subst.
  rewrite app_length. cbn [length]. rewrite seq_app, filter_app, app_length, plus_INR.
  assert (E : filter (is_one (l ++ [v])) (seq 0 (length l)) = filter (is_one l) (seq 0 (length l))).
  { apply filter_ext_in. intros j Hj. apply in_seq in Hj. unfold is_one. rewrite nth_error_app1 by lia. reflexivity. }
  rewrite E, <- IH by auto. cbn [seq filter Nat.add]. unfold is_one at 1. rewrite nth_error_app2, Nat.sub_diag by lia. cbn [nth_error].
  assert (A : Rsum (l ++ [v]) = Rsum l + v).
  { clear. induction l as [|z l IH]; cbn [app]; rewrite ?Rsum_cons1, ?Rsum_nil; [lra|]. rewrite IH. lra. }
  rewrite A. destruct (Reqb_spec v 1) as [->|Hv]; cbn [length INR]; [lra|]. destruct H3; [lra|contradiction].
Qed.
Lemma rows_count n P k l : rows_with n P k -> length l = n -> Forall (fun v => v = 0 \/ v = 1) l -> (forall j, (j < n)%nat -> nth_error l j = Some 1 <-> P j) -> Rsum l = INR k.
Proof.
  intros (js & N & <- & H) Ll F E. rewrite (Rsum_ones l F). f_equal. apply Nat.le_antisymm; apply NoDup_incl_length.
  - apply NoDup_filter, seq_NoDup.
  - intros j Hj. apply filter_In in Hj as [H1 H2]. apply in_seq in H1. unfold is_one in H2. destruct (nth_error l j) as [v|] eqn:Ej; [|discriminate].
    destruct (Reqb_spec v 1) as [->|]; [|discriminate]. apply H. split; [lia|]. apply E; [lia|auto].
  - exact N.
  - intros j Hj. apply H in Hj as [H1 H2]. apply filter_In. split; [apply in_seq; lia|]. unfold is_one. apply E in H2; auto. rewrite H2. now destruct (Reqb_spec 1 1).
Qed.
Definition common_sum (ra rb : list R) : R := Rsum (map (fun xy => fst xy * snd xy) (combine ra rb)).
Lemma coefs_R n ra rb c : length ra = n -> length rb = n -> coefs ra rb c ->
  c = (common_sum ra rb, Rsum ra - common_sum ra rb, Rsum rb - common_sum ra rb, INR n - Rsum ra - Rsum rb + common_sum ra rb).
Proof.
  intros La Lb (_ & ->). rewrite !nsum_Rsum. change nmul with Rmult. change nsub with Rminus. change n1 with 1. unfold common_sum.
  revert ra rb La Lb. induction n as [|n IH]; intros [|x ra] [|z rb] La Lb; try discriminate.
  - cbn [combine map]. rewrite !Rsum_nil. cbn [INR]. apply tuple4; lra.
  - cbn [combine map]. rewrite !Rsum_cons1. cbn in La, Lb. specialize (IH ra rb ltac:(lia) ltac:(lia)).
    injection IH as E2 E3 E4. cbn [fst snd]. rewrite E2, E3, E4, S_INR. apply tuple4; lra.
Qed.
Lemma ind_count_is n c v m : plain_cell v -> length (col_cells c) = n -> (forall w, In w (col_cells c) -> plain_cell w) -> rows_with n (holds c v) m ->
  Rsum (ind (col_cells c) v) = INR m.
Proof.
  intros Pv Ll Pc Hm. apply (rows_count n (holds c v) m); auto.
  - unfold ind. now rewrite map_length.
  - apply Forall_forall. intros q Hq. unfold ind in Hq. apply in_map_iff in Hq as (w & <- & _). destruct (same_cell w v); auto.
  - intros j Hj. unfold holds. destruct (nth_error (col_cells c) j) as [w|] eqn:Ej; [|apply nth_error_None in Ej; lia].
    rewrite (ind_nth _ _ _ _ Ej). pose proof (Pc w (nth_error_In _ _ Ej)) as Pw. destruct (same_cell w v) eqn:S.
    + apply same_cell_iff in S; auto. subst. tauto.
    + split; intros X; [injection X; lra|]. injection X as ->. rewrite same_cell_refl in S; auto. discriminate.
Qed.
Lemma both_count_is n c v cg w k : plain_cell v -> plain_cell w -> length (col_cells c) = n -> length (col_cells cg) = n ->
  (forall z, In z (col_cells c) -> plain_cell z) -> (forall z, In z (col_cells cg) -> plain_cell z) -> rows_with n (fun j => holds c v j /\ holds cg w j) k ->
  common_sum (ind (col_cells c) v) (ind (col_cells cg) w) = INR k.
Proof.
  intros Pv Pw Lc Lg Pc Pg Hk. unfold common_sum. apply (rows_count n _ k _ Hk).
  - rewrite map_length, combine_length. unfold ind. rewrite !map_length. lia.
  - apply Forall_forall. intros q Hq. apply in_map_iff in Hq as ([a a'] & <- & Hi). cbn [fst snd]. pose proof (in_combine_l _ _ _ _ Hi) as H1. pose proof (in_combine_r _ _ _ _ Hi) as H2.
    unfold ind in H1, H2. apply in_map_iff in H1 as (z & <- & _). apply in_map_iff in H2 as (z' & <- & _). destruct (same_cell z v), (same_cell z' w); lra.
  - intros j Hj. unfold holds. destruct (nth_error (col_cells c) j) as [a|] eqn:Ea; [|apply nth_error_None in Ea; lia].
    destruct (nth_error (col_cells cg) j) as [a'|] eqn:Ea'; [|apply nth_error_None in Ea'; lia].
    assert (En : nth_error (combine (ind (col_cells c) v) (ind (col_cells cg) w)) j = Some (if same_cell a v then 1 else 0, if same_cell a' w then 1 else 0)).
    { pose proof (ind_nth _ v _ _ Ea) as I1. pose proof (ind_nth _ w _ _ Ea') as I2. revert I1 I2. generalize (ind (col_cells c) v), (ind (col_cells cg) w).
      clear. induction j as [|j IH]; intros [|p l] [|q l'] I1 I2; cbn in *; try discriminate; [congruence|auto]. }
    rewrite nth_error_map, En. cbn [option_map fst snd]. pose proof (Pc a (nth_error_In _ _ Ea)) as P1. pose proof (Pg a' (nth_error_In _ _ Ea')) as P2.
    destruct (same_cell a v) eqn:S1.
    + apply same_cell_iff in S1; auto. subst. destruct (same_cell a' w) eqn:S2.
      * apply same_cell_iff in S2; auto. subst. split; auto. intros _. f_equal. lra.
      * split; [intros X; injection X; lra|]. intros [_ X]. injection X as ->. rewrite same_cell_refl in S2; auto. discriminate.
    + split; [intros X; injection X; lra|]. intros [X _]. injection X as ->. rewrite same_cell_refl in S1; auto. discriminate.
Qed.

Section Rows.
Variable cf : gconf R.
Hypothesis Hsep : c_sep cf = "___".
Hypothesis OW : one_way cf.
Variables (ds : dataset R) (targets : list string) (n : nat) (fds : list (fdesc R)).
Hypothesis Plain : forall f c, In (f, c) ds -> plain_column cf c.
Hypothesis Lens : forall f c, In (f, c) ds -> col_length c = n.
Hypothesis Some_rows : (0 < n)%nat.
Hypothesis Reads : readable_data cf ds.
Hypothesis D : Forall2 (described cf targets) ds fds.
Hypothesis NN : NoDup (flat_map fd_names fds).
Hypothesis Ln : Forall (fun d => length (fd_rows d) = length (fd_names d)) fds.
Hypothesis UR : c_featrel cf = false \/ forall d d', In d fds -> In d' fds -> d <> d' -> fd_target d <> fd_target d'.
Variables (b : bool) (xc : string) (k : nat).
Hypothesis Kx : xc <> "PAPAGEORGIUS".
Notation trained := (trained cf fds "MEAN" b xc "saturation" [] k).
Notation named f v := (append (cell_str v) (append "___" f)).
Lemma plains f c v : In (f, c) ds -> In v (col_cells c) -> plain_cell v.
Proof. intros H. apply (plain_cells cf c). eapply Plain; eauto. Qed.
Lemma keys_one : NoDup (dkeys ds).
Proof. apply Reads. Qed.

(** the weight from a feature value to a class value is its vote *)
Lemma lw_vote (s : fcm R) d d' c cg v w q : NoDup (map fst (relations s)) -> NoDup (map fd_feat fds) ->
  (forall a b w, In (a, b, w) (relations s) <-> exclusion cf fds a b w \/ association cf fds a b w) ->
  In d fds -> In d' fds -> fd_target d = false -> fd_target d' = true -> In (fd_feat d, c) ds -> In (fd_feat d', cg) ds ->
  In v (col_cells c) -> In w (col_cells cg) -> vote (c_caus cf) (c_thr cf) n c v cg w q ->
  lw (m_arcs s) (named (fd_feat d) v) (named (fd_feat d') w) = q.
Proof.
  intros NR NF Rel Hd Hd' Td Td' Hc Hg Hv Hw (p & m & l & Hp & Hm & Hl & Hq). destruct OW as (Ev & Th & Sg & _).
  assert (Ne : d <> d') by congruence.
  assert (Gd : forall e col z, In e fds -> In (fd_feat e, col) ds -> In z (col_cells col) -> In (named (fd_feat e) z, ind (col_cells col) z) (grp e)).
  { intros e col z He Hcol Hz. destruct (grp_In cf Hsep ds targets fds Plain D e He) as (c2 & Hc2 & _ & X). assert (c2 = col) by (eapply col_unique; eauto). subst c2. apply X; eauto. }
  pose proof (Gd d c v Hd Hc Hv) as Ha. pose proof (Gd d' cg w Hd' Hg Hw) as Hb.
  pose proof (plains _ _ _ Hc Hv) as Pv. pose proof (plains _ _ _ Hg Hw) as Pw.
  pose proof (clen ds n Lens _ _ Hc) as Lc. pose proof (clen ds n Lens _ _ Hg) as Lg.
  set (ra := ind (col_cells c) v) in *. set (rb := ind (col_cells cg) w) in *.
  assert (La : length ra = n) by (unfold ra, ind; now rewrite map_length). assert (Lb : length rb = n) by (unfold rb, ind; now rewrite map_length).
  assert (Co : forall co, coefs ra rb co -> co = (INR p, INR m - INR p, INR l - INR p, INR n - INR m - INR l + INR p)).
  { intros co Hco. rewrite (coefs_R n ra rb co La Lb Hco).
    unfold ra, rb. rewrite (both_count_is n c v cg w p Pv Pw Lc Lg (fun z => plains _ _ z Hc) (fun z => plains _ _ z Hg) Hp).
    rewrite (ind_count_is n c v m Pv Lc (fun z => plains _ _ z Hc) Hm), (ind_count_is n cg w l Pw Lg (fun z => plains _ _ z Hg) Hl). reflexivity. }
  assert (Hn : 0 < INR n) by (apply lt_0_INR; lia).
  assert (Su : forall e, measure (c_eval cf) (INR p, INR m - INR p, INR l - INR p, INR n - INR m - INR l + INR p) e <-> e = INR p / INR n).
  { intros e. rewrite Ev. cbn [measure]. unfold rel_supp. 
    rewrite pdiv_R by (rnum; lra). split; [intros E; apply Ok_inj in E; subst e; rnum; f_equal; f_equal; lra|].
    intros ->. rnum. f_equal. f_equal. f_equal. lra. }
  assert (Cmp : Rabs (INR p / INR n) = INR p / INR n).
  { apply Rabs_pos_eq. apply Rmult_le_pos; [apply pos_INR|]. left. now apply Rinv_0_lt_compat. }
  assert (Rw : forall w0, In (named (fd_feat d) v, named (fd_feat d') w, w0) (relations s) <-> link cf false true ra rb w0).
  { intros w0. pose proof (cross_rel cf fds NN Ln s Rel d d' _ _ ra rb w0 Hd Hd' Ne Ha Hb) as X. rewrite Td, Td' in X. split; [intros Y; now apply X|]. intros Y. apply X. split; [right; discriminate|exact Y]. }
  destruct Hq as [[Hk ->]|[Hk Hq]].
  - apply (lw_none (relations s) _ (Arcs' s)). intros w0 Hw0. apply Rw in Hw0 as (_ & co & e & v0 & s0 & H1 & H2 & H3 & _). apply Co in H1. subst co. apply Su in H2. subst e.
    apply Rltb_true in H3. change nabs with Rabs in H3. rewrite Cmp in H3. apply (Rmult_lt_compat_r (INR n)) in H3; auto. unfold Rdiv in H3. rewrite Rmult_assoc, Rinv_l in H3 by lra. lra.
  - destruct (Req_dec q 0) as [->|Hq0].
    + apply (lw_none (relations s) _ (Arcs' s)). intros w0 Hw0. apply Rw in Hw0 as (_ & co & e & v0 & s0 & H1 & _ & _ & H4 & H5 & -> & H6). apply Co in H1. subst co.
      cbn [measure] in H4. rewrite Hq in H4. apply Ok_inj in H4. subst v0. apply Reqb_false in H6. apply H6. rnum. ring.
    + apply (lw_in cf fds (relations s) _ (Arcs' s) NR Rel). apply Rw. split; [right; now right|].
      exists (INR p, INR m - INR p, INR l - INR p, INR n - INR m - INR l + INR p), (INR p / INR n), q, 1.
      assert (Hco : exists co, coefs ra rb co) by (eexists; split; [congruence|cbv zeta; reflexivity]). destruct Hco as [co Hco]. pose proof (Co co Hco). subst co.
      split; auto. split; [now apply Su|]. split.
      { apply Rltb_true. change nabs with Rabs. rewrite Cmp. apply (Rmult_lt_reg_r (INR n)); auto. unfold Rdiv. rewrite Rmult_assoc, Rinv_l by lra. lra. }
      split; [exact Hq|]. split; [unfold sign_of; rewrite Sg; reflexivity|]. split; [rnum; lra|]. apply Reqb_false. exact Hq0.
Qed.

(** ** Rows *)
Lemma NoDup_by_key {A B C} (g : A * B -> C) (r : list (A * B)) : (forall p q, In p r -> In q r -> g p = g q -> fst p = fst q) -> NoDup (map fst r) -> NoDup (map g r).
Proof.
  induction r as [|p r IH]; intros H N; cbn [map] in *; [constructor|]. apply NoDup_cons_iff in N as [Np N]. constructor.
  - intros Hi. apply in_map_iff in Hi as (q & E & Hq). apply Np. rewrite <- (H q p); auto; [now apply in_map|now right|now left].
  - apply IH; auto. intros q q' Hq Hq'. apply H; now right.
Qed.
Definition known_row (r : list (string * cell R)) : Prop :=
  NoDup (map fst r) /\ forall f v, In (f, v) r -> ~ In f targets /\ exists c, In (f, c) ds /\ In v (col_cells c).
Definition row_poll (r : list (string * cell R)) (cg : column R) (w : cell R) (q : R) : Prop :=
  exists qs, Forall2 (fun fv q => exists c, In (fst fv, c) ds /\ In (snd fv) (col_cells c) /\ vote (c_caus cf) (c_thr cf) n c (snd fv) cg w q) r qs /\ q = Rsum qs.
Definition row_elects (r : list (string * cell R)) (cg : column R) (w : cell R) : Prop :=
  In w (col_cells cg) /\ exists q, row_poll r cg w q /\ 0 < q /\
  forall w', In w' (col_cells cg) -> w' <> w -> exists q', row_poll r cg w' q' /\ q' < q /\ q' < 1.
Lemma row_elected r g g' p : trained g -> known_row r -> predict_row cf r g = (g', Ok p) ->
  m_debug (g_fcm g) = true \/ m_oob (g_fcm g') = false ->
  forall f c v, In (f, c) ds -> In f targets -> row_elects r c v -> labels (append_all [] p) f = [label v].
Proof.
  intros T (Rnd & Rcl) HP Ho f c v Hf Hft (Hvi & q & Hq & Pq & Rest0).
  pose proof (tr_tidy _ _ _ _ _ _ _ _ _ T) as Td. pose proof (tr_sane _ _ _ _ _ _ _ _ _ T) as Sn.
  unfold predict_row, sthen in HP.
  pose proof (moved_on OpClearExec g eq_refl) as M1. change (step OpClearExec) with (clear_execution (F := R)) in M1.
  assert (O1 : snd (on_fcm clear_execution g) = Ok tt).
  { unfold on_fcm. pose proof (proj1 (clear_values (g_fcm g))) as Q. destruct (clear_execution (g_fcm g)); exact Q. }
  assert (Sy1 : synced (g_fcm (fst (on_fcm clear_execution g)))).
  { unfold on_fcm. pose proof (synced_clear (g_fcm g)) as X. destruct (clear_execution (g_fcm g)). exact X. }
  assert (V1 : forall z, In z (concepts (g_fcm g)) -> value (g_fcm (fst (on_fcm clear_execution g))) z = Some 0).
  { intros z Hz. destruct (clear_values (g_fcm g)) as [_ X]. unfold on_fcm. destruct (X z Hz) as [X1 _]. destruct (clear_execution (g_fcm g)). exact X1. }
  destruct (on_fcm clear_execution g) as [g1 r1]. cbn [fst snd] in M1, O1, Sy1, V1. subst r1.
  change (sfold (fun fv : string * cell R => init_concept_by_feature_data cf (fst fv) (snd fv)) r g1) with (set_row cf r g1) in HP.
  destruct (set_row cf r g1) as [g2 [u|er]] eqn:E2; [|discriminate]. destruct u.
  pose proof (trained_moved cf fds "MEAN" b xc "saturation" [] k _ _ M1 T) as T1.
  assert (M2 : moved g1 g2) by (pose proof (moved_set_row cf r g1) as M; rewrite E2 in M; exact M).
  pose proof (trained_moved cf fds "MEAN" b xc "saturation" [] k _ _ M2 T1) as T2.
  pose proof (types cf Hsep ds targets fds Plain D) as types.
  assert (Sc : callable "saturation" (@nil (string * argval R))) by (left; split; [cbn; tauto|auto]).
  assert (Dg : discrete_gen g1).
  { intros f' dd Hd t Ht. assert (K : dget (g_feats g1) f' <> None) by congruence. destruct (td_only _ _ (tr_tidy _ _ _ _ _ _ _ _ _ T1) f' K) as (d' & Hd' & Hf').
    pose proof (td_known _ _ (tr_tidy _ _ _ _ _ _ _ _ _ T1) d' Hd') as X. rewrite Hf', Hd in X. injection X as ->. cbn in Ht. injection Ht as <-. now apply types. }
  assert (Uf : unfuzzy (g_fcm g1)).
  { intros z nd Hz. destruct (tr_common _ _ _ _ _ _ _ _ _ T1 z nd Hz) as (_ & _ & _ & C4 & _). exists "saturation". split; auto. discriminate. }
  assert (Sy2 : synced (g_fcm g2)) by (pose proof (synced_row cf r g1 Dg Uf Sy1) as X; rewrite E2 in X; exact X).
  assert (CE1 : concepts (g_fcm g1) = concepts (g_fcm g)) by (destruct (moved_wframe _ _ M1) as (W & _); exact (statics_keys _ _ W)).
  assert (CE2 : concepts (g_fcm g2) = concepts (g_fcm g1)) by (destruct (moved_wframe _ _ M2) as (W & _); exact (statics_keys _ _ W)).
  pose proof (cell_read cf ds Plain Reads) as cell_read.
  assert (Good : good_row r).
  { split; auto. intros f' str H. destruct (Rcl f' _ H) as (_ & c' & Hc' & Hn). exact (cell_read f' c' _ Hc' Hn). }
  assert (Ic : forall d z rr, In d fds -> In (z, rr) (grp d) -> In z (fd_names d)) by (intros d z rr Hd Hz; exact (in_grp_name fds Ln d z rr Hd Hz)).
  assert (Gd : forall e col z, In e fds -> In (fd_feat e, col) ds -> In z (col_cells col) -> In (named (fd_feat e) z, ind (col_cells col) z) (grp e)).
  { intros e col z He Hcol Hz. destruct (grp_In cf Hsep ds targets fds Plain D e He) as (c2 & Hc2 & _ & X). assert (c2 = col) by (eapply col_unique; eauto). subst c2. apply X; eauto. }
  (* the values the run starts from *)
  assert (St : forall d z rr, In d fds -> In (z, rr) (grp d) ->
    (exists w, In (fd_feat d, w) r /\ z = named (fd_feat d) w /\ initial (g_fcm g2) z = Some 1) \/
    (initial (g_fcm g2) z = Some 0 /\ forall w, In (fd_feat d, w) r -> z <> named (fd_feat d) w)).
  { intros d z rr Hd Hz. pose proof (Ic d z rr Hd Hz) as Hzn. assert (Izc : In z (concepts (g_fcm g))) by (apply (td_concepts _ _ Td); eauto).
    assert (Izc2 : In z (concepts (g_fcm g2))) by (now rewrite CE2, CE1).
    destruct (in_dec string_dec (fd_feat d) (map fst r)) as [Hr|Hr].
    - apply in_map_iff in Hr as ([f' w] & Ef & Hw). cbn in Ef. subst f'.
      destruct (Rcl _ _ Hw) as (_ & c' & Hc' & Hwi).
      assert (Pw : plain_cell w) by (eapply plains; eauto).
      assert (Vz : value (g_fcm g2) z = option_map (fun x => if String.eqb z (named (fd_feat d) w) then n1 else x) (value (g_fcm g1) z)).
      { apply (row_sets cf Hsep fds r g1 g2 d w (cell_str w) z (tr_tidy _ _ _ _ _ _ _ _ _ T1)); auto; [rewrite (tr_func _ _ _ _ _ _ _ _ _ T1); discriminate|now apply types|now apply text_plain]. }
      rewrite (V1 z Izc) in Vz. cbn [option_map] in Vz. pose proof (synced_initial _ _ _ Sy2 Izc2 Vz) as Iz.
      destruct (String.eqb_spec z (named (fd_feat d) w)) as [Ez|Nz]; [left; exists w; auto|right]. split; auto.
      intros w' Hw' Ez. apply Nz. rewrite Ez. f_equal. f_equal.
      apply In_dget in Hw; auto. apply In_dget in Hw'; auto. congruence.
    - assert (Vz : value (g_fcm g2) z = value (g_fcm g1) z) by (apply (row_other cf Hsep fds r d z g1 g2 (Ok tt) (tr_tidy _ _ _ _ _ _ _ _ _ T1)); auto; apply Good).
      rewrite (V1 z Izc) in Vz. pose proof (synced_initial _ _ _ Sy2 Izc2 Vz) as Iz. right. split; auto. intros w Hw. exfalso. apply Hr. apply in_map_iff. exists (fd_feat d, w). auto. }
  assert (Start : forall d z rr w, In d fds -> In (z, rr) (grp d) -> initial (g_fcm g2) z = Some w -> w = 0 \/ w = 1 /\ fd_target d = false).
  { intros d z rr w Hd Hz Hw. destruct (St d z rr Hd Hz) as [(w0 & Hr & _ & E)|(E & _)]; [right|left; congruence]. split; [congruence|].
    destruct (types d Hd) as (_ & -> & _). destruct (Rcl _ _ Hr) as (Nt & _). destruct (str_mem (fd_feat d) targets) eqn:X; auto. apply str_mem_In in X. contradiction. }
  assert (One : forall d z rr z' rr', In d fds -> In (z, rr) (grp d) -> In (z', rr') (grp d) -> initial (g_fcm g2) z = Some 1 -> initial (g_fcm g2) z' = Some 1 -> z = z').
  { intros d z rr z' rr' Hd Hz Hz' E1 E1'. destruct (St d z rr Hd Hz) as [(w0 & Hr & -> & _)|(E & _)]; [|rewrite E in E1; injection E1; lra].
    destruct (St d z' rr' Hd Hz') as [(w0' & Hr' & -> & _)|(E & _)]; [|rewrite E in E1'; injection E1'; lra].
    apply In_dget in Hr; auto. apply In_dget in Hr'; auto. congruence. }
  pose proof (td_feats _ _ Td) as NF.
  (* the run *)
  destruct (result_spec cf Hsep fds g2 g' p (tr_tidy _ _ _ _ _ _ _ _ _ T2) (tr_sane _ _ _ _ _ _ _ _ _ T2) HP) as (Er & _ & Ep).
  assert (Db : m_debug (g_fcm g2) = m_debug (g_fcm g)).
  { pose proof (moved_wframe _ _ (moved_trans _ _ _ M1 M2)) as (_ & _ & W3). now apply settings_max in W3. }
  destruct (feat_desc cf ds targets fds D f c Hf) as (d & Hd & Ef). rewrite <- Ef in Hf.
  pose proof (Gd d c v Hd Hf Hvi) as Hw.
  pose proof (td_all _ _ (tr_tidy _ _ _ _ _ _ _ _ _ T2)) as All.
  pose proof (tr_nodup _ _ _ _ _ _ _ _ _ T2) as NR. pose proof (tr_rels _ _ _ _ _ _ _ _ _ T2) as Rel.
  pose proof (tr_sane _ _ _ _ _ _ _ _ _ T2) as Sn2. pose proof (tr_common _ _ _ _ _ _ _ _ _ T2) as Cm.
  assert (Oc : exists L x k2 f2, outcome (g_fcm g2) (g_fcm g') L x k2 f2).
  { destruct (tr_engine _ _ _ _ _ _ _ _ _ T2) as [[E1 E3]|[E1 E3]].
    - apply iter_outcome; auto.
    - apply vec_outcome; auto.
      + apply (common_regular _ b xc "saturation" []); auto.
      + apply (common_responsive _ b xc "saturation" []); auto.
      + intros X. assert (Y : In (named (fd_feat d) v) (concepts (g_fcm g2))) by (apply (td_concepts _ _ (tr_tidy _ _ _ _ _ _ _ _ _ T2)); exists d; split; auto; eapply Ic; eauto). rewrite X in Y. exact Y.
      + intros L x Orb Sx t z Ht Hz.
        pose proof (vals cf fds Ln UR (g_fcm g2) b xc NR Sn2 Cm Kx All Start L x Orb Sx t z Ht Hz). lra. }
  destruct Oc as (L & x & k2 & f2 & Oc).
  (* the votes *)
  assert (Names : forall h w0, In (h, w0) r -> exists e ch, In e fds /\ fd_feat e = h /\ In (h, ch) ds /\ In w0 (col_cells ch) /\ fd_target e = false /\ In (named h w0, ind (col_cells ch) w0) (grp e)).
  { intros h w0 H. destruct (Rcl h w0 H) as (Nt & ch & Hch & Hw0). destruct (feat_desc cf ds targets fds D h ch Hch) as (e & He & Eh). exists e, ch.
    split; auto. split; auto. split; auto. split; auto. split.
    - destruct (types e He) as (_ & -> & _). rewrite Eh. destruct (str_mem h targets) eqn:X; auto. apply str_mem_In in X. contradiction.
    - rewrite <- Eh in Hch |- *. now apply Gd. }
  set (act_names := map (fun fv : string * cell R => named (fst fv) (snd fv)) r).
  assert (NA : NoDup act_names).
  { apply NoDup_by_key; auto. intros [h w0] [h' w0'] H H' E. cbn [fst snd] in *. destruct (Names h w0 H) as (e & ch & He & <- & _ & _ & _ & G1). destruct (Names h' w0' H') as (e' & ch' & He' & <- & _ & _ & _ & G2).
    f_equal. rewrite E in G1. exact (same_grp fds NN Ln e e' _ _ _ He He' G1 G2). }
  assert (NC : NoDup (concepts (g_fcm g2))) by (rewrite All; exact NN).
  pose proof (oc_start _ _ _ _ _ _ Oc) as Sta.
  assert (Tgt : fd_target d = true) by (destruct (types d Hd) as (_ & -> & _); rewrite Ef; now apply str_mem_In).
  assert (Inp : forall w0 q0, In w0 (col_cells c) -> row_poll r c w0 q0 -> inputs (g_fcm g2) x 0 (named (fd_feat d) w0) = q0).
  { intros w0 q0 Hw0 (qs & F2 & ->). unfold inputs. rewrite (Rsum_marked (fun a => lw (m_arcs (g_fcm g2)) a (named (fd_feat d) w0)) (x 0%nat) (concepts (g_fcm g2)) act_names NC NA).
    - unfold act_names. rewrite map_map. f_equal. clear - F2 Names NR NF Rel Hd Tgt Hf Hw0 OW Hsep Plain Lens Some_rows Reads D NN Ln.
      assert (G : forall l qs, incl l r -> Forall2 (fun fv q => exists c0, In (fst fv, c0) ds /\ In (snd fv) (col_cells c0) /\ vote (c_caus cf) (c_thr cf) n c0 (snd fv) c w0 q) l qs ->
        map (fun fv : string * cell R => lw (m_arcs (g_fcm g2)) (named (fst fv) (snd fv)) (named (fd_feat d) w0)) l = qs).
      { induction l as [|[h z] l IH]; intros qs' Hl F; inversion F; subst; cbn [map fst snd] in *; auto. f_equal.
        - destruct H1 as (ch & Hch & Hz & Vo). destruct (Names h z (Hl _ (or_introl eq_refl))) as (e & ch' & He & Eh & _ & _ & Te & _). subst h.
          apply (lw_vote (g_fcm g2) e d ch c z w0); auto.
        - apply IH; auto. intros a Ha. apply Hl. now right. }
      apply G; [apply incl_refl|exact F2].
    - intros a Ha. apply in_map_iff in Ha as ([h z] & <- & H). destruct (Names h z H) as (e & ch & He & <- & _ & _ & _ & G). exact (concept_in fds (g_fcm g2) All e _ _ He G).
    - intros a Ha. apply in_map_iff in Ha as ([h z] & <- & H). destruct (Names h z H) as (e & ch & He & <- & _ & _ & _ & G). pose proof (concept_in fds (g_fcm g2) All e _ _ He G) as Ia.
      cbn [fst snd]. destruct (St e _ _ He G) as [(_ & _ & _ & E)|(_ & X)]; [rewrite Sta in E by auto; now injection E|now elim (X z H)].
    - intros a Ha Na. destruct (grp_of_concept fds Ln (g_fcm g2) All a Ha) as (e & ra & He & G). destruct (St e a ra He G) as [(z & H & -> & _)|(E & _)].
      + exfalso. apply Na. apply in_map_iff. exists (fd_feat e, z). auto.
      + rewrite Sta in E by auto. now injection E. }
  pose proof (Inp v q Hvi Hq) as Iq.
  set (wn := named (fd_feat d) v) in *.
  assert (Pv : plain_cell v) by (eapply plains; eauto).
  assert (Cls : is_class d = true) by (destruct (types d Hd) as (_ & _ & ->); rewrite Ef; now apply str_mem_In).
  assert (Dec : m_decision (g_fcm g2) = "MEAN" /\ (m_debug (g_fcm g2) = true \/ m_oob (g_fcm g') = false)).
  { rewrite (tr_decision _ _ _ _ _ _ _ _ _ T2), Db. auto. }
  assert (Hex : (0 <= m_extra (g_fcm g2))%Z) by (destruct (sane_parts _ Sn2) as (_ & _ & _ & _ & _ & Q); lia).
  assert (Win : forall z rr, In (z, rr) (grp d) -> z <> wn -> exists w w', value (g_fcm g') wn = Some w /\ value (g_fcm g') z = Some w' /\ w' < w).
  { intros z rr Hz Nz. destruct (grp_In cf Hsep ds targets fds Plain D d Hd) as (c2 & Hc2 & _ & X). assert (c2 = c) by (eapply col_unique; eauto). subst c2.
    pose proof Hz as Hz'. apply X in Hz' as (w0 & Hw0 & -> & _). destruct (Rest0 w0 Hw0) as (q' & Hq' & L1 & L2); [intros ->; now apply Nz|]. pose proof (Inp w0 q' Hw0 Hq') as Iq'.
    apply (vote_winner cf OW fds NN NF Ln UR (g_fcm g2) (g_fcm g') b xc NR Rel Sn2 Cm Kx All Start One L x k2 f2 Oc Dec Hex d wn _ _ rr Hd Tgt Hw Hz);
      rewrite ?Iq, ?Iq'; auto. }
  pose proof (vote_bound cf fds Ln UR (g_fcm g2) (g_fcm g') b xc NR Sn2 Cm Kx All Start L x k2 f2 Oc) as Vb.
  assert (Best : fst (best_class (outs_of cf (g_fcm g') d)) = cell_str v).
  { assert (Tx : text_of cf wn = cell_str v).
    { unfold text_of, wn. rewrite (info_name cf Hsep); auto; [eapply cell_read; eauto|apply (td_clean _ _ Td d Hd)]. }
    apply best_unique with (v := val (g_fcm g') wn).
    - unfold outs_of. rewrite <- Tx. apply in_map_iff. exists wn. split; auto. eapply Ic; eauto.
    - intros z Hz. unfold outs_of in Hz. apply in_map_iff in Hz as (z' & <- & Hz). cbn [snd].
      assert (Iz : In z' (concepts (g_fcm g2))) by (apply (td_concepts _ _ (tr_tidy _ _ _ _ _ _ _ _ _ T2)); eauto).
      destruct (oc_value _ _ _ _ _ _ Oc z' Iz) as (_ & w & _ & _ & Vw). unfold val. rewrite Vw. exact (Vb z' w Iz Vw).
    - intros t' v' Hin Ne. unfold outs_of in Hin. apply in_map_iff in Hin as (z & E & Hz). injection E as <- <-.
      rewrite <- (grp_names fds Ln d Hd) in Hz. apply in_map_iff in Hz as ([z' rr] & Ez & Hz). cbn in Ez. subst z'.
      assert (Nr : z <> wn) by (intros ->; now apply Ne).
      destruct (Win z rr Hz Nr) as (w & w' & W1 & W2 & W3). unfold val. rewrite W1, W2. exact W3. }
  rewrite labels_row, Ep, (label_text v Pv). clear - Hd Cls Best Ef Hw Ic Td.
  pose proof (td_feats _ _ Td) as Nf. pose proof (Ic d wn _ Hd Hw) as Hne. clear Ic Td Hw.
  induction fds as [|z l IH]; [easy|]. cbn [map] in Nf. apply NoDup_cons_iff in Nf as [Nz Nf]. cbn [flat_map]. rewrite flat_map_app.
  assert (Rest : forall (q : fdesc R) (l : list (fdesc R)), fd_feat q = f -> ~ In (fd_feat q) (map fd_feat l) -> flat_map (fun fv : string * cell R => if String.eqb f (fst fv) then [snd fv] else [])
     (flat_map (fun d1 => if is_class d1 then match fd_names d1 with [] => [] | _ :: _ => [(fd_feat d1, class_cell (fst (best_class (outs_of cf (g_fcm g') d1))))] end else []) l) = []).
  { intros q l' Eq Nq. rewrite Eq in Nq. clear IH. induction l' as [|z' l' IH]; auto. cbn [flat_map]. rewrite flat_map_app, IH by (intros Y; apply Nq; now right).
    destruct (is_class z'); auto. destruct (fd_names z'); auto. cbn [flat_map fst]. destruct (String.eqb_spec f (fd_feat z')) as [Y|_]; auto. exfalso. apply Nq. left. auto. }
  destruct Hd as [->|Hd].
  - rewrite (Rest d l Ef Nz), Cls. destruct (fd_names d); [easy|]. cbn [flat_map fst snd]. rewrite Ef, String.eqb_refl, Best. reflexivity.
  - rewrite IH by auto. assert (Ne : f <> fd_feat z) by (intros E; apply Nz; rewrite <- E, <- Ef; now apply in_map). apply String.eqb_neq in Ne.
    destruct (is_class z); auto. destruct (fd_names z); auto. cbn [flat_map fst]. now rewrite Ne.
Qed.

(** ** Tables *)
Lemma table_elected f c : In (f, c) ds -> In f targets -> forall rows ws, Forall2 (fun r w => known_row r /\ row_elects r c w) rows ws ->
  forall g acc g' out, trained g -> predict_rows cf rows acc g = (g', Ok out) -> m_debug (g_fcm g) = true \/ m_oob (g_fcm g') = false ->
  labels out f = labels acc f ++ map label ws.
Proof.
  intros Hf Ht. induction 1 as [|r w rows ws [H1 H1'] _ IH]; intros g acc g' out T HP Ho; cbn [predict_rows] in HP.
  - injection HP as _ <-. cbn. now rewrite app_nil_r.
  - pose proof (moved_predict cf r g) as M. destruct (predict_row cf r g) as [g1 [p|er]] eqn:E; [|discriminate]. cbn [fst] in M.
    pose proof (moved_predict_rows cf rows (append_all acc p) g1) as M2. rewrite HP in M2. cbn [fst] in M2.
    assert (Db : m_debug (g_fcm g1) = m_debug (g_fcm g)) by (pose proof (moved_wframe _ _ M) as (_ & _ & W3); now apply settings_max in W3).
    rewrite (IH g1 (append_all acc p) g' out (trained_moved cf fds "MEAN" b xc "saturation" [] k _ _ M T) HP).
    + cbn [map]. rewrite labels_all, <- (labels_row p f).
      rewrite (row_elected r g g1 p T H1 E) with (c := c) (v := w); auto; [now rewrite <- app_assoc|].
      destruct Ho as [Q|Q]; auto. right. now apply (moved_oob _ _ M2).
    + now rewrite Db.
Qed.
End Rows.
