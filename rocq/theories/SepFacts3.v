(** SepFacts3.v — the map fitted on separated data, as groups of concepts (C93). *)
From Coq Require Import Reals Lra Permutation.
From Verif Require Import Base BaseFacts Num Functions Spec SortFacts RealFacts FunctionsFacts Fcm FcmSpec FcmBasics FcmInv DynSpec FcmVec5 VecSpec LearnUtils LearnSpec LearnFacts Assoc Estimator EstSpec AssocSpec AssocFacts AssocFacts2 AssocFacts3 AssocFacts4 AssocUnique AssocNames AssocNames2 AssocGen AssocRow AssocPredict AssocResult EstFacts EstFacts5 EstFacts8 PropAssoc SepSpec SepFacts SepFacts2.
Local Open Scope R_scope.

(** ** Rows of plain columns *)
Definition cell_str (v : cell R) : string := match v with CStr t => t | CInt z => str_of_Z z | _ => "" end.
Definition same_cell (v w : cell R) : bool :=
  match v, w with CStr a, CStr b => String.eqb a b | CInt a, CInt b => Z.eqb a b | _, _ => false end.
Definition ind (l : list (cell R)) (v : cell R) : list R := map (fun w => if same_cell w v then 1 else 0) l.
Definition plain_cell (v : cell R) : Prop := match v with CStr _ | CInt _ => True | _ => False end.
Lemma same_cell_iff v w : plain_cell v -> same_cell v w = true <-> v = w.
Proof.
  destruct v, w; cbn; intros []; try (split; discriminate).
  - rewrite String.eqb_eq. split; congruence.
  - rewrite Z.eqb_eq. split; congruence.
Qed.
Lemma plain_cells cf c v : plain_column cf c -> In v (col_cells c) -> plain_cell v.
Proof. destruct c; cbn; intros H Hv; try contradiction; apply in_map_iff in Hv as (? & <- & _); exact I. Qed.
Lemma same_cell_refl v : plain_cell v -> same_cell v v = true.
Proof. intros H. now apply same_cell_iff. Qed.

Lemma combine_map2 {A B C} (f : A -> B) (g : A -> C) l : combine (map f l) (map g l) = map (fun a => (f a, g a)) l.
Proof. induction l; cbn; congruence. Qed.
Lemma described_plain cf targets f c d : plain_column cf c -> described cf targets (f, c) d ->
  fd_feat d = f /\ fd_type d = (if str_mem f targets then TYPE_DECISION else TYPE_SIMPLE) /\
  forall a r, In (a, r) (combine (fd_names d) (fd_rows d)) <->
    exists v, In v (col_cells c) /\ a = append (cell_str v) (append (c_sep cf) f) /\ r = ind (col_cells c) v.
Proof.
  intros Hp D. assert (Few : forall l, c = ColInt l -> forall us, distinct_sorted Z.leb l us -> (length us < 10)%nat).
  { intros l -> us [S I]. destruct Hp as (_ & few & Hf & Hi).
    assert (ND : NoDup us). { clear - S. induction S as [|z l Hs IH Hf]; constructor; auto. intros Hin. rewrite Forall_forall in Hf. destruct (Hf z Hin) as [_ H]. congruence. }
    assert (incl us few) by (intros z Hz; apply Hi; now apply I). pose proof (NoDup_incl_length ND H). lia. }
  inversion D as [f' c' texts rows L I E1 E2|f' c' texts ind' data n vals ms rows L I Nm _ _ _ E1 E2]; subst.
  - cbn [fd_feat fd_type fd_names fd_rows]. split; auto. split; auto.
    inversion L as [l us S|l us S|l us S|l us]; subst; try contradiction; cbn [col_cells]; intros a r; unfold indicators; rewrite ?map_map, combine_map2;
      destruct S as [_ S]; split.
    + intros H. apply in_map_iff in H as (u & E & Hu). injection E as <- <-. exists (CStr u). split; [apply in_map, S; auto|]. split; [reflexivity|].
      unfold ind. rewrite map_map. reflexivity.
    + intros (v & Hv & -> & ->). apply in_map_iff in Hv as (u & <- & Hu). apply in_map_iff. exists u. split; [|now apply S]. unfold ind. rewrite map_map. reflexivity.
    + intros H. apply in_map_iff in H as (u & E & Hu). injection E as <- <-. exists (CInt u). split; [apply in_map, S; auto|]. split; [reflexivity|].
      unfold ind. rewrite map_map. reflexivity.
    + intros (v & Hv & -> & ->). apply in_map_iff in Hv as (u & <- & Hu). apply in_map_iff. exists u. split; [|now apply S]. unfold ind. rewrite map_map. reflexivity.
  - exfalso. apply I. destruct c as [l|l|l|l]; cbn in *; auto; try contradiction. destruct Hp as [Hi Hp]. split; auto. inversion L as [| |l' us S|]; subst. rewrite map_length. eapply Few; eauto.
Qed.
Lemma ind_hit l v : In v l -> plain_cell v -> hit_row (length l) (ind l v).
Proof.
  intros H P. unfold hit_row, ind. split; [apply map_length|]. split.
  - apply in_map_iff. exists v. rewrite same_cell_refl; auto.
  - apply Forall_forall. intros r Hr. apply in_map_iff in Hr as (w & <- & _). destruct (same_cell w v); auto.
Qed.
Lemma ind_nth l v i w : nth_error l i = Some w -> nth_error (ind l v) i = Some (if same_cell w v then 1 else 0).
Proof. intros H. unfold ind. now rewrite nth_error_map, H. Qed.
Lemma ind_inj l v w : In v l -> plain_cell v -> ind l v = ind l w -> v = w.
Proof.
  intros H P E. apply In_nth_error in H as [i Hi]. pose proof (ind_nth l v i v Hi) as E1. pose proof (ind_nth l w i v Hi) as E2.
  rewrite same_cell_refl in E1 by auto. rewrite E, E2 in E1. destruct (same_cell v w) eqn:S; [now apply same_cell_iff in S|]. injection E1. lra.
Qed.
Lemma ind_count l v (thr : R) js : (forall j, In j js -> nth_error l j = Some v) -> NoDup js -> plain_cell v -> INR (length js) <= Rsum (ind l v).
Proof.
  intros Hj ND P. 
  assert (E : Rsum (ind l v) = INR (length (filter (fun w => same_cell w v) l))).
  { unfold ind. clear. induction l as [|w l IH]; cbn [map filter]; [reflexivity|]. rewrite Rsum_cons1, IH. destruct (same_cell w v); cbn [length]; rewrite ?S_INR; lra. }
  rewrite E. apply le_INR.
  set (pos := filter (fun i => match nth_error l i with Some w => same_cell w v | None => false end) (seq 0 (length l))).
  assert (L : length pos = length (filter (fun w => same_cell w v) l)).
  { unfold pos. clear. 
    assert (G : forall l pre, length (filter (fun i => match nth_error (pre ++ l) i with Some w => same_cell w v | None => false end) (seq (length pre) (length l))) = length (filter (fun w => same_cell w v) l)).
    { clear. induction l as [|w l IH]; intros pre; cbn [length seq filter]; [reflexivity|].
      rewrite nth_error_app2, Nat.sub_diag by lia. cbn [nth_error]. specialize (IH (pre ++ [w])). rewrite app_length in IH. cbn [length] in IH.
      rewrite Nat.add_1_r in IH. rewrite <- app_assoc in IH. cbn [app] in IH. destruct (same_cell w v); cbn [length]; now rewrite IH. }
    exact (G l []). }
  rewrite <- L. apply NoDup_incl_length; auto. intros j Hi. apply filter_In. specialize (Hj j Hi). split.
  - apply in_seq. split; [lia|]. apply nth_error_Some. congruence.
  - rewrite Hj. now apply same_cell_refl.
Qed.

(** ** Separated data *)
Section Fitted.
Variable cf : gconf R.
Hypothesis Hsep : c_sep cf = "___".
Hypothesis Ev : c_eval cf = rel_supp.
Hypothesis Th : 0 <= c_thr cf.
Hypothesis Ca : c_caus cf = rel_conf \/ c_caus cf = rel_pos_inf.
Hypothesis Sg : c_sign cf = None.
Variables (ds : dataset R) (targets : list string) (n : nat) (fds : list (fdesc R)).
Hypothesis Plain : forall f c, In (f, c) ds -> plain_column cf c.
Hypothesis Freq : forall f c, In (f, c) ds -> frequent (c_thr cf) c.
Hypothesis Sepd : separated n ds.
Hypothesis Some_rows : (0 < n)%nat.
Hypothesis D : Forall2 (described cf targets) ds fds.
Hypothesis NN : NoDup (flat_map fd_names fds).
Hypothesis NF : NoDup (map fd_feat fds).
Hypothesis Ln : Forall (fun d => length (fd_rows d) = length (fd_names d)) fds.

Notation named f v := (append (cell_str v) (append "___" f)).
Definition grp (d : fdesc R) : list (string * list R) := combine (fd_names d) (fd_rows d).
Definition groups := map grp fds.
Lemma col_of d : In d fds -> exists f c, In (f, c) ds /\ described cf targets (f, c) d.
Proof. intros H. destruct (Forall2_In_r _ _ _ _ D H) as ([f c] & Hi & Hd). eauto. Qed.
Lemma cells_len f c : In (f, c) ds -> length (col_cells c) = n.
Proof. intros H. destruct Sepd as [L _]. rewrite <- (L f c H). destruct c; cbn; now rewrite map_length. Qed.
(** the concepts of a group: one for every value of its column *)
Lemma grp_In d : In d fds -> exists c, In (fd_feat d, c) ds /\ fd_type d = (if str_mem (fd_feat d) targets then TYPE_DECISION else TYPE_SIMPLE) /\
  forall a r, In (a, r) (grp d) <-> exists v, In v (col_cells c) /\ a = named (fd_feat d) v /\ r = ind (col_cells c) v.
Proof.
  intros H. destruct (col_of d H) as (f & c & Hi & Hd). destruct (described_plain _ _ _ _ _ (Plain f c Hi) Hd) as (<- & Ty & X). rewrite Hsep in X. eauto.
Qed.
Lemma grp_names d : In d fds -> map fst (grp d) = fd_names d.
Proof.
  intros H. rewrite Forall_forall in Ln. specialize (Ln d H). unfold grp. clear - Ln. revert Ln. generalize (fd_rows d). induction (fd_names d) as [|a l IH]; intros [|r rs] E; cbn in *; try congruence; auto.
  f_equal. apply IH. lia.
Qed.
Lemma groups_names : flat_map (fun G => map fst G) groups = flat_map fd_names fds.
Proof.
  unfold groups. rewrite flat_map_concat_map, map_map, <- flat_map_concat_map. apply flat_map_ext_in. intros d Hd. now apply grp_names.
Qed.
(** the block of sample [i]: the samples that equal it *)
Lemma same_block f c f' c' i v v' : In (f, c) ds -> In (f', c') ds -> nth_error (col_cells c) i = Some v -> nth_error (col_cells c') i = Some v' ->
  ind (col_cells c) v = ind (col_cells c') v'.
Proof.
  intros H H' E E'. assert (Hi : (i < n)%nat) by (rewrite <- (cells_len f c H); apply nth_error_Some; congruence).
  assert (nth_ext_error : forall (l l' : list R), (forall k, nth_error l k = nth_error l' k) -> l = l').
  { clear. induction l as [|a l IH]; intros [|b l'] X; auto; [specialize (X 0%nat); discriminate|specialize (X 0%nat); discriminate|].
    pose proof (X 0%nat) as X0. injection X0 as ->. f_equal. apply IH. intros k. exact (X (S k)). }
  apply nth_ext_error. intros k. destruct (Nat.lt_ge_cases k n) as [Hk|Hk].
  - destruct (nth_error (col_cells c) k) as [w|] eqn:Ew; [|apply nth_error_None in Ew; rewrite (cells_len f c H) in Ew; lia].
    destruct (nth_error (col_cells c') k) as [w'|] eqn:Ew'; [|apply nth_error_None in Ew'; rewrite (cells_len f' c' H') in Ew'; lia].
    rewrite (ind_nth _ _ _ _ Ew), (ind_nth _ _ _ _ Ew'). f_equal.
    assert (Pw : plain_cell w) by (apply (plain_cells cf c); [eapply Plain; eauto|eapply nth_error_In; eauto]).
    assert (Pw' : plain_cell w') by (apply (plain_cells cf c'); [eapply Plain; eauto|eapply nth_error_In; eauto]).
    assert (X : same_cell w v = true <-> same_cell w' v' = true).
    { rewrite !same_cell_iff by auto. destruct Sepd as [_ Sp]. split; intros ->.
      - pose proof (Sp f c f' c' k i H H' Hk Hi) as Y. rewrite Ew, E, Ew', E' in Y. specialize (Y eq_refl). congruence.
      - pose proof (Sp f' c' f c k i H' H Hk Hi) as Y. rewrite Ew, E, Ew', E' in Y. specialize (Y eq_refl). congruence. }
    destruct (same_cell w v), (same_cell w' v'); auto; destruct X as [X1 X2]; [discriminate X1; auto|discriminate X2; auto].
  - rewrite !(proj2 (nth_error_None _ _)); auto; unfold ind; rewrite map_length; [rewrite (cells_len f' c' H')|rewrite (cells_len f c H)]; lia.
Qed.
Lemma other_col f c f' c' i v : In (f, c) ds -> In (f', c') ds -> nth_error (col_cells c) i = Some v -> exists v', nth_error (col_cells c') i = Some v'.
Proof.
  intros H H' E. destruct (nth_error (col_cells c') i) as [w|] eqn:Ew; [eauto|]. apply nth_error_None in Ew. rewrite (cells_len f' c' H') in Ew.
  assert (i < n)%nat by (rewrite <- (cells_len f c H); apply nth_error_Some; congruence). lia.
Qed.
Lemma grp_block_all d d' c b : In d fds -> In d' fds -> In (c, b) (grp d') -> exists a, In (a, b) (grp d).
Proof.
  intros H H' Hc. destruct (grp_In d H) as (col & Hi & _ & X). destruct (grp_In d' H') as (col' & Hi' & _ & X').
  apply X' in Hc as (v' & Hv' & -> & ->). apply In_nth_error in Hv' as [i Ei]. destruct (other_col _ _ _ _ _ _ Hi' Hi Ei) as [v Ev'].
  exists (named (fd_feat d) v). apply X. exists v. split; [eapply nth_error_In; eauto|]. split; auto. symmetry. eapply same_block; eauto.
Qed.
Lemma grp_block_inj d c c' b : In d fds -> In (c, b) (grp d) -> In (c', b) (grp d) -> c = c'.
Proof.
  intros H Hc Hc'. destruct (grp_In d H) as (col & Hi & _ & X). apply X in Hc as (v & Hv & -> & E). apply X in Hc' as (v' & Hv' & -> & E').
  assert (v = v') by (apply (ind_inj (col_cells col)); auto; [eapply plain_cells; eauto|congruence]). now subst.
Qed.
Lemma grp_ne d : In d fds -> exists a r, In (a, r) (grp d).
Proof.
  intros H. destruct (grp_In d H) as (col & Hi & _ & X). destruct (col_cells col) as [|v l] eqn:E.
  - pose proof (cells_len _ _ Hi) as L. rewrite E in L. cbn in L. lia.
  - exists (named (fd_feat d) v), (ind (v :: l) v). apply X. exists v. split; [now left|auto].
Qed.
Lemma grp_hit d a r : In d fds -> In (a, r) (grp d) -> hit_row n r /\ c_thr cf * INR n < Rsum r.
Proof.
  intros H Ha. destruct (grp_In d H) as (col & Hi & _ & X). apply X in Ha. destruct Ha as (v & Hv & _ & ->).
  assert (P : plain_cell v) by (eapply plain_cells; eauto). split; [rewrite <- (cells_len _ _ Hi); now apply ind_hit|].
  apply In_nth_error in Hv as [i Ei]. destruct (Freq _ _ Hi i v Ei) as (js & N1 & N2 & N3). destruct Sepd as [L _]. rewrite (L _ _ Hi) in N3.
  pose proof (ind_count (col_cells col) v 0 js N2 N1 P). lra.
Qed.
Lemma grp_disjoint d d' a b r r' : In d fds -> In d' fds -> In (a, r) (grp d) -> In (b, r') (grp d') -> r <> r' ->
  forall xy, In xy (combine r r') -> fst xy * snd xy = 0.
Proof.
  intros H H' Ha Hb Ne xy Hxy. destruct (grp_In d H) as (col & Hi & _ & X). destruct (grp_In d' H') as (col' & Hi' & _ & X').
  apply X in Ha as (v & Hv & _ & ->). apply X' in Hb as (v' & Hv' & _ & ->).
  apply In_nth_error in Hxy as [k Hk]. destruct xy as [p q]. cbn [fst snd].
  assert (K : nth_error (ind (col_cells col) v) k = Some p /\ nth_error (ind (col_cells col') v') k = Some q).
  { clear - Hk. revert Hk. generalize (ind (col_cells col) v), (ind (col_cells col') v'). revert k. induction k as [|k IH]; intros [|x1 l1] [|x2 l2] E; cbn in E |- *; try discriminate.
    - injection E as -> ->. auto.
    - auto. }
  destruct K as [K1 K2]. destruct (nth_error (col_cells col) k) as [w|] eqn:Ew.
  2: { unfold ind in K1. rewrite nth_error_map, Ew in K1. discriminate. }
  destruct (nth_error (col_cells col') k) as [w'|] eqn:Ew'.
  2: { unfold ind in K2. rewrite nth_error_map, Ew' in K2. discriminate. }
  rewrite (ind_nth _ _ _ _ Ew) in K1. rewrite (ind_nth _ _ _ _ Ew') in K2. injection K1 as <-. injection K2 as <-.
  destruct (same_cell w v) eqn:S1; [|lra]. destruct (same_cell w' v') eqn:S2; [|lra].
  exfalso. apply Ne. apply same_cell_iff in S1; [|eapply plain_cells; [apply (Plain _ _ Hi)|eapply nth_error_In; eauto]]. apply same_cell_iff in S2; [|eapply plain_cells; [apply (Plain _ _ Hi')|eapply nth_error_In; eauto]].
  subst. exact (same_block _ _ _ _ k v v' Hi Hi' Ew Ew').
Qed.

(** ** Weights *)
Variable rels : list (string * string * R).
Variable arcs : list (string * R * string).
Hypothesis Arcs : rels = map (fun a => let '(d, w, o) := a in (o, d, w)) arcs.
Hypothesis NR : NoDup (map fst rels).
Hypothesis Rel : forall a b w, In (a, b, w) rels <-> exclusion cf fds a b w \/ association cf fds a b w.
Definition lw (a c : string) : R := last_weight arcs a c.
Lemma lw_in a c w : In (a, c, w) rels -> lw a c = w.
Proof.
  unfold lw. rewrite Arcs in *. clear Rel Arcs. induction arcs as [|[[d u] o] l IH] using rev_ind; [easy|].
  rewrite map_app in *. cbn [map] in *. rewrite map_app in NR. cbn [map fst] in NR. rewrite last_weight_snoc. intros H. apply in_app_iff in H as [H|[H|[]]].
  - destruct (String.eqb_spec o a) as [->|]; cbn [andb]; [destruct (String.eqb_spec d c) as [->|]|].
    + exfalso. apply NoDup_remove_2 in NR. rewrite app_nil_r in NR. apply NR. apply in_map_iff. exists (a, c, w). auto.
    + apply IH; auto. apply NoDup_remove_1 in NR. now rewrite app_nil_r in NR.
    + apply IH; auto. apply NoDup_remove_1 in NR. now rewrite app_nil_r in NR.
  - injection H as -> -> ->. now rewrite !String.eqb_refl.
Qed.
Lemma lw_none a c : (forall w, ~ In (a, c, w) rels) -> lw a c = 0.
Proof.
  intros H. apply last_weight_none. intros X. apply in_map_iff in X as ([[d w] o] & E & X). injection E as -> ->. apply (H w). rewrite Arcs. apply in_map_iff. exists (c, w, a). auto.
Qed.
Lemma in_grp_name d a r : In d fds -> In (a, r) (grp d) -> In a (fd_names d).
Proof. intros H X. rewrite <- (grp_names d H). apply in_map_iff. exists (a, r). auto. Qed.
Lemma nth_grp d i a r : nth_error (fd_names d) i = Some a -> nth_error (fd_rows d) i = Some r -> In (a, r) (grp d).
Proof.
  unfold grp. generalize (fd_names d), (fd_rows d). revert i. induction i as [|i IH]; intros [|x l] [|y l']; cbn; try discriminate.
  - intros [= ->] [= ->]. now left.
  - intros H1 H2. right. now apply IH.
Qed.
Lemma grp_nth d a r : In (a, r) (grp d) -> exists i, nth_error (fd_names d) i = Some a /\ nth_error (fd_rows d) i = Some r.
Proof.
  unfold grp. generalize (fd_names d), (fd_rows d). induction l as [|x l IH]; intros [|y l']; cbn; try easy.
  intros [E|H]; [injection E as -> ->; exists 0%nat; auto|]. destruct (IH _ H) as (i & H1 & H2). exists (S i). auto.
Qed.
Lemma row_of d a r r' : In d fds -> In (a, r) (grp d) -> In (a, r') (grp d) -> r = r'.
Proof.
  intros H H1 H2. assert (ND : NoDup (map fst (grp d))).
  { rewrite (grp_names d H). apply in_split in H as (p & q & E). rewrite E, flat_map_app in NN. cbn [flat_map] in NN. exact (NoDup_mid _ _ _ NN). }
  clear - H1 H2 ND. induction (grp d) as [|[x y] l IH]; [easy|]. cbn [map fst] in ND. apply NoDup_cons_iff in ND as [Nz ND].
  destruct H1 as [E1|H1], H2 as [E2|H2]; auto.
  - congruence.
  - injection E1 as -> ->. exfalso. apply Nz. apply in_map_iff. exists (a, r'). auto.
  - injection E2 as -> ->. exfalso. apply Nz. apply in_map_iff. exists (a, r). auto.
Qed.
Lemma lw_inner d a c b b' : In d fds -> In (a, b) (grp d) -> In (c, b') (grp d) -> lw a c = if String.eqb a c then 0 else c_excl cf.
Proof.
  intros H Ha Hc. pose proof (in_grp_name _ _ _ H Ha) as Na. pose proof (in_grp_name _ _ _ H Hc) as Nc.
  assert (NoAssoc : forall w, ~ association cf fds a c w).
  { intros w (k & l & A & B & i & j & ra & rb & Nkl & HA & HB & _ & X1 & _ & X2 & _). apply Nkl.
    assert (A = d) by (apply (owner_unique fds A d a); auto; eapply nth_error_In; eauto).
    assert (B = d) by (apply (owner_unique fds B d c); auto; eapply nth_error_In; eauto). subst A B.
    apply (names_apart fds k l d d a); auto. }
  assert (NDn : NoDup (fd_names d)). { apply in_split in H as (p & q & E). rewrite E, flat_map_app in NN. cbn [flat_map] in NN. exact (NoDup_mid _ _ _ NN). }
  destruct (String.eqb_spec a c) as [<-|Ne].
  - apply lw_none. intros w Hw. apply Rel in Hw as [Hw|Hw]; [|now apply (NoAssoc w)].
    destruct Hw as (_ & _ & d' & i & j & Hd' & Nij & X1 & X2).
    assert (d' = d) by (apply (owner_unique fds d' d a); auto; eapply nth_error_In; eauto). subst d'. apply Nij.
    apply (proj1 (NoDup_nth_error _) NDn); [apply nth_error_Some; congruence|congruence].
  - destruct (Req_dec (c_excl cf) 0) as [Z|Z].
    + rewrite Z. apply lw_none. intros w Hw. apply Rel in Hw as [Hw|Hw]; [|now apply (NoAssoc w)]. destruct Hw as (Hw & _). apply Reqb_false in Hw. now apply Hw.
    + apply lw_in. apply Rel. left. split; [now apply Reqb_false|]. split; auto.
      apply In_nth_error in Na as [i Hi]. apply In_nth_error in Nc as [j Hj]. exists d, i, j. split; auto. split; [|auto]. intros ->. congruence.
Qed.
Definition tgt (G : list (string * list R)) : bool :=
  match G with (a, _) :: _ => existsb (fun d => fd_target d && str_mem a (fd_names d)) fds | [] => false end.
Lemma tgt_grp d : In d fds -> tgt (grp d) = fd_target d.
Proof.
  intros H. destruct (grp_ne d H) as (a0 & r0 & Hne). destruct (grp d) as [|[a r] G] eqn:E; [easy|]. cbn [tgt].
  assert (Ha : In a (fd_names d)) by (apply (in_grp_name d a r); auto; rewrite E; now left).
  destruct (fd_target d) eqn:T.
  - apply existsb_exists. exists d. split; auto. rewrite T. cbn. now apply str_mem_In.
  - destruct (existsb _ _) eqn:X; auto. apply existsb_exists in X as (d' & Hd' & X). apply andb_true_iff in X as [X1 X2]. apply str_mem_In in X2.
    assert (d' = d) by (apply (owner_unique fds d' d a); auto). congruence.
Qed.
Definition W (A G : list (string * list R)) : R :=
  if (c_featrel cf || xorb (tgt A) (tgt G)) && (c_double cf || (negb (tgt A) && tgt G)) then 1 else 0.
Lemma W_nonneg A G : 0 <= W A G.
Proof. unfold W. destruct (_ && _); lra. Qed.
Lemma grp_split pre G post A : groups = pre ++ G :: post -> In A (pre ++ post) ->
  exists k l dA dG, k <> l /\ nth_error fds k = Some dA /\ nth_error fds l = Some dG /\ A = grp dA /\ G = grp dG.
Proof.
  intros E HA. unfold groups in E.
  assert (Hl : nth_error (map grp fds) (length pre) = Some G) by (rewrite E, nth_error_app2, Nat.sub_diag by lia; reflexivity).
  rewrite nth_error_map in Hl. destruct (nth_error fds (length pre)) as [dG|] eqn:EG; [|discriminate]. injection Hl as <-.
  assert (Hk : exists k, k <> length pre /\ nth_error (map grp fds) k = Some A).
  { rewrite E. apply in_app_iff in HA as [HA|HA]; apply In_nth_error in HA as [i Hi].
    - assert (i < length pre)%nat by (apply nth_error_Some; congruence). exists i. split; [lia|]. now rewrite nth_error_app1.
    - exists (length pre + S i)%nat. split; [lia|]. rewrite nth_error_app2 by lia. now replace (length pre + S i - length pre)%nat with (S i) by lia. }
  destruct Hk as (k & Nk & Hk). rewrite nth_error_map in Hk. destruct (nth_error fds k) as [dA|] eqn:EA; [|discriminate]. injection Hk as <-.
  exists k, (length pre), dA, dG. auto.
Qed.
Lemma lw_cross pre G post A a c b b' : groups = pre ++ G :: post -> In A (pre ++ post) -> In (a, b) A -> In (c, b') G ->
  (b = b' -> lw a c = W A G) /\ (b <> b' -> lw a c = 0).
Proof.
  intros E HA Ha Hc. destruct (grp_split pre G post A E HA) as (k & l & dA & dG & Nkl & Hk & Hl & -> & ->).
  assert (IA : In dA fds) by (eapply nth_error_In; eauto). assert (IG : In dG fds) by (eapply nth_error_In; eauto).
  pose proof (in_grp_name _ _ _ IA Ha) as Na. pose proof (in_grp_name _ _ _ IG Hc) as Nc.
  assert (NoEx : forall w, ~ exclusion cf fds a c w).
  { intros w (_ & _ & d & i & j & Hd & _ & X1 & X2). apply nth_error_In in X1, X2.
    assert (dA = d) by (apply (owner_unique fds dA d a); auto). assert (dG = d) by (apply (owner_unique fds dG d c); auto). subst.
    apply Nkl. apply (names_apart fds k l d d a); auto. }
  assert (As : forall w, In (a, c, w) rels <-> (c_featrel cf = true \/ fd_target dA <> fd_target dG) /\ link cf (fd_target dA) (fd_target dG) b b' w).
  { intros w. rewrite Rel. split.
    - intros [X|X]; [now apply NoEx in X|]. destruct X as (k' & l' & A & B & i & j & ra & rb & _ & HA' & HB' & Hf & X1 & X2 & X3 & X4 & X5).
      assert (A = dA) by (apply (owner_unique fds A dA a); auto; eapply nth_error_In; eauto).
      assert (B = dG) by (apply (owner_unique fds B dG c); auto; eapply nth_error_In; eauto). subst A B.
      rewrite (row_of dA a b ra), (row_of dG c b' rb); auto; eapply nth_grp; eauto.
    - intros [Hf X]. right. destruct (grp_nth _ _ _ Ha) as (i & I1 & I2). destruct (grp_nth _ _ _ Hc) as (j & J1 & J2).
      exists k, l, dA, dG, i, j, b, b'. auto 10. }
  split.
  - intros <-. destruct (grp_hit dA a b IA Ha) as [Hh Hf].
    assert (Lk : forall w, link cf (fd_target dA) (fd_target dG) b b w <-> (c_double cf = true \/ (fd_target dA = false /\ fd_target dG = true)) /\ w = 1) by (intros; apply (link_same cf Ev Ca Sg n); auto).
    unfold W. rewrite !tgt_grp by auto. destruct (_ && _) eqn:X.
    + apply andb_true_iff in X as [X1 X2]. apply lw_in. apply As. split.
      * apply orb_true_iff in X1 as [X1|X1]; auto. right. intros Y. rewrite Y, xorb_nilpotent in X1. discriminate.
      * apply Lk. split; auto. apply orb_true_iff in X2 as [X2|X2]; auto. right. apply andb_true_iff in X2 as [X2 X3]. apply negb_true_iff in X2. auto.
    + apply lw_none. intros w Hw. apply As in Hw as [Hf1 Hw]. apply Lk in Hw as [Hw _]. apply andb_false_iff in X as [X|X]; apply orb_false_iff in X as [X1 X2].
      * destruct Hf1 as [Y|Y]; [congruence|]. apply Y. destruct (fd_target dA), (fd_target dG); auto; discriminate.
      * destruct Hw as [Y|[Y1 Y2]]; [congruence|]. rewrite Y1, Y2 in X2. discriminate.
  - intros Ne. apply lw_none. intros w Hw. apply As in Hw as [_ Hw]. revert Hw. apply link_disjoint; auto. now apply (grp_disjoint dA dG a c).
Qed.
Lemma W_class A G : tgt A = false -> tgt G = true -> W A G = 1.
Proof. intros HA HG. unfold W. rewrite HA, HG. cbn [xorb negb andb]. now rewrite !orb_true_r. Qed.
End Fitted.
