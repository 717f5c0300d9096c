(** PropShift.v — C103: the zero point of a continuous feature. *)
From Coq Require Import Reals Lra Lia Permutation QArith.
From Verif Require Import Base BaseFacts Num RealFacts QNum Functions Spec Fcm FcmSpec LearnUtils Discret Assoc AssocSpec AssocFacts AssocFacts4 AssocNames AssocNames2 AssocUnique AssocRange AssocPredict LoaderSpec EstExamples Estimator EstSpec EstFacts EstFacts4
  LearnSpec LearnFacts DiscretFacts DiscretFacts2 Pipeline PipeFacts PipeFacts2 FcmRename ShiftFacts ShiftFacts2 PropRename PropAssoc PropEstimator2 PropRows PropPipeline PropPipeline2.
Local Close Scope Q_scope.
Local Open Scope R_scope.

(** ** Statement *)
(** the columns of decimal numbers moved, each by its own constant *)
Definition shift_column (d : R) (c : column R) : column R := match c with ColFlt l => ColFlt (map (fun v => v + d) l) | _ => c end.
Definition shift_data (b : string -> R) (x : dataset R) : dataset R := map (fun fc => (fst fc, shift_column (b (fst fc)) (snd fc))) x.
(** the outcomes of predicting several frames one after the other *)
Fixpoint predictions {F} {N : Num F} (cf : gconf F) (tests : list (dataset F)) (e : est F) : list (res (dict (list (cell F)))) :=
  match tests with [] => [] | t :: tests => snd (predict cf t e) :: predictions cf tests (fst (predict cf t e)) end.
(** the values of the moved features were trained with or are on the positive side before and after *)
Definition in_reach (b : string -> R) (x t : dataset R) : Prop := forall f c, In (f, c) t ->
  (b f = 0 \/ exists l, c = ColFlt l /\ forall z, In z l -> (exists l0, In (f, ColFlt l0) x /\ In z l0) \/ 0 <= z /\ 0 <= z + b f) /\
  (forall l str, c = ColStr l -> In str l -> readable str).

(** ** Proof *)
Lemma shift_mds b x : shift_data b x = mds b x.
Proof. reflexivity. Qed.
Lemma outcome_res {A} (r r' : res A) : same_res eq r r' -> same_outcome eq r r'.
Proof. auto. Qed.
Section Proof.
Variables (cf : gconf R) (b : string -> R) (x y : dataset R).
Hypothesis Hsep : c_sep cf = "___"%string.
Hypothesis ND : NoDup (dkeys (join_frames x y)).
Hypothesis Hb : forall f, b f <> 0 -> exists l, In (f, ColFlt l) x /\ (c_infer cf = true -> varied l) /\ exists v, In v l /\ v <= 0 /\ v + b f <= 0.
Lemma joined_l f c : In (f, c) x -> In (f, c) (join_frames x y).
Proof. intros H. apply in_or_app. now left. Qed.
Lemma same_col f c c' : In (f, c) (join_frames x y) -> In (f, c') (join_frames x y) -> c = c'.
Proof. intros H H'. apply (In_dget _ _ _ ND) in H. apply (In_dget _ _ _ ND) in H'. congruence. Qed.
Lemma join_shift : join_frames (mds b x) y = mds b (join_frames x y).
Proof.
  assert (E : dkeys (mds b x) = dkeys x) by (unfold mds, dkeys; rewrite map_map; reflexivity).
  unfold join_frames. rewrite E. unfold mds at 2. rewrite map_app. fold (mds b x). f_equal. rewrite map_map. apply map_ext_in. intros [f c] Hi. cbn [fst snd].
  set (f' := if str_mem f (dkeys x) then append f "_class" else f).
  assert (Z : b f' = 0).
  { destruct (Req_dec (b f') 0) as [|Hn]; auto. exfalso. destruct (Hb _ Hn) as (l & Hl & _). unfold join_frames, dkeys in ND. rewrite map_app in ND.
    apply (NoDup_app_disj _ _ ND f'); [apply (in_map fst _ _ Hl)|]. rewrite map_map. apply in_map_iff. exists (f, c). now split. }
  now rewrite Z, mcol_zero.
Qed.
End Proof.

(** ** C103 *)
(** Measuring a continuous feature from another zero point: the names of the
    concepts, all the relations and every prediction stay the same, if the values
    reach down to zero or below, before and after, and the new values to predict
    from are nonnegative before and after.  (numpy's straight line through the
    curve moves with the data; its random start does not depend on it.) *)
Theorem C103_zero_point : forall (cf : gconf R) strategy curve rand b e0 e x y,
  c_sep cf = "___"%string -> reorders (c_ord cf) -> c_disc cf = generator_disc strategy curve rand ->
  In strategy ["cmeans-gap"; "cmeans-sil"; "cmeans-cfe"; "rl-cmeans"]%string -> sampled curve rand ->
  (forall f us, curve f (map (fun v => v + b f) us) = map (fun v => v + b f) (curve f us)) ->
  (forall f us, rand f (map (fun v => v + b f) us) = rand f us) ->
  estimator e0 e -> readable_data cf (join_frames x y) ->
  (forall f, b f <> 0 -> exists l, In (f, ColFlt l) x /\ (c_infer cf = true -> varied l) /\ exists v, In v l /\ v <= 0 /\ v + b f <= 0) ->
  same_outcome eq (snd (fit cf x y e)) (snd (fit cf (shift_data b x) y e)) /\
  forall e1 e2, fit cf x y e = (e1, Ok tt) -> fit cf (shift_data b x) y e = (e2, Ok tt) ->
    dkeys (m_topo (e_map e2)) = dkeys (m_topo (e_map e1)) /\ relations (e_map e2) = relations (e_map e1) /\
    forall tests, Forall (in_reach b x) tests -> Forall2 (same_outcome eq) (predictions cf tests e1) (predictions cf (map (shift_data b) tests) e2).
Proof.
  intros cf st curve rand b e0 e x y Hsep HO Hd Hst Hs Hc Hr HE RD Hb. pose proof RD as (_ & ND & HRd).
  assert (HF : fair_disc cf) by now apply (gen_disc_fair st curve rand).
  assert (HM : Forall (movable cf b) (join_frames x y)).
  { apply Forall_forall. intros [f c] Hi. split; [apply (HRd f c Hi)|]. cbn [fst snd]. destruct (Req_dec (b f) 0) as [|Hn]; [now left|right].
    destruct (Hb f Hn) as (l & Hl & Hv & v & V1 & V2 & V3). exists l. split; [apply (same_col x y ND f); auto; now apply joined_l|]. split; [exact Hv|]. split.
    - rewrite Hd. unfold generator_disc. rewrite unique_shift. unfold sh at 2 3. rewrite Hc, Hr. apply disc_shift. lia.
    - intros n vals ms E. destruct (HF _ _ _ _ _ E) as (A & B & C). right. split; [exact A|]. split; [intros m Hm; now apply C|]. split; [exact B|]. exists v. auto. }
  change (shift_data b x) with (mds b x).
  destruct (fit_move cf Hsep b x y (mds b x) e0 e HE HM (join_shift cf b x y ND Hb)) as [S1 S2]. split; [exact S1|].
  intros e1 e2 F1 F2. rewrite F1, F2 in S2. specialize (S2 eq_refl). cbn [fst] in S2. subst e2.
  split; [cbn; unfold dkeys, ren_dict; rewrite map_map; reflexivity|]. split.
  { unfold relations. cbn. rewrite map_map. apply map_ext. now intros [[? ?] ?]. }
  set (train := fun f z => exists l0, In (f, ColFlt l0) x /\ In z l0).
  assert (K : known cf train (e_map e1)).
  { apply (fit_known cf Hsep train x y e0 e e1); auto. intros f z (l0 & I0 & Iz) c Hi. rewrite (same_col x y ND f c (ColFlt l0) Hi); [exact Iz|now apply joined_l]. }
  destruct (@fit_tidy R RNum cf Hsep x y e0 e e1 HO (fun a b => Rmult_comm a b) HE RD F1) as (fds & T & D & _ & _ & Eg & _).
  destruct (fit_soft cf x y e0 e e1 Hsep HO (gen_disc_sound cf st curve rand Hd Hst Hs) HE RD F1) as [Sf _].
  assert (I : inv cf train fds (e_gen e1)) by (rewrite <- Eg in K, Sf; exact (conj T (conj K Sf))).
  destruct (fit_base cf x y e0 e e1 HE F1) as (_ & _ & Hp).
  assert (Hz : forall d, In d fds -> is_fuzzy_type (fd_type d) = false -> b (fd_feat d) = 0).
  { intros d Hi Hn. assert (exists fc, In fc (join_frames x y) /\ described cf (dkeys y) fc d) as (fc & Ifc & Df).
    { clear - D Hi. induction D as [|fc d' ds fds' H D IH]; [easy|]. destruct Hi as [->|Hi]; [exists fc; split; [now left|exact H]|]. destruct (IH Hi) as (fc' & A & B). exists fc'. split; [now right|exact B]. }
    inversion Df as [f c texts rows L Di|f c texts ind data n vals ms rows L Di Nu Ec]; subst; cbn [fd_feat fd_type] in *.
    - destruct (Req_dec (b f) 0) as [|Hn0]; auto. exfalso. destruct (Hb f Hn0) as (l & Hl & Hv & _). rewrite (same_col x y ND f c (ColFlt l) Ifc (joined_l x y _ _ Hl)) in *.
      cbn in Di. destruct Di as [Ci Lt]. specialize (Hv Ci). apply varied_iff in Hv. inversion L; subst. rewrite map_length in Lt. unfold us in Lt. lia.
    - destruct (str_mem f (dkeys y)); discriminate. }
  clear - Hsep Hz I Hp. intros tests Ht. revert e1 Hp I. induction Ht as [|t tests Hx Ht IH]; intros e1 Hp I; [constructor|].
  destruct (predict_move cf Hsep b train fds Hz t e1 Hp I Hx) as (A & B & C & D). cbn [map predictions]. change (shift_data b t) with (mds b t). constructor; [exact B|]. rewrite A. now apply IH.
Qed.
Print Assumptions C103_zero_point.

(** ** Without the conditions *)
(** Measuring from another zero point should never matter, so it should not matter
    either for a column of positive numbers, tested on the training values.  It
    does: the stored scaled values are (v + |min|) / (|min| + max), which is the
    position between minimum and maximum only if the minimum is not positive. *)
Section Refuted.
Definition q_settings : gconf Q :=
  with_disc "cmeans-gap" (fun _ us => us) (fun _ _ _ => [])
    (mkGconf "___" (-1 # 1)%Q false false rel_conf rel_supp 0%Q None (1 # 2)%Q true (fun _ => "x"%string) (fun _ => Ok 0%Z) (fun l => l) (fun _ _ => Err EUndef)).
(** ten consecutive numbers after [d], and the numbers half-way *)
Definition q_column (d : Z) : list Q := map (fun i => inject_Z (Z.of_nat i + d)) (seq 1 10).
Definition q_halves (d : Z) : list Q := map (fun i => Qred (inject_Z (Z.of_nat i + d) + (1 # 2)))%Q (seq 1 10).
(** trained on the column and the labels, tested on another column *)
Definition q_run (train : list Q) (labels : list string) (test : list Q) : res (dict (list (cell Q))) :=
  (e0 <- init_est (F := Q) 4 2 (1 # 1024)%Q "LAST" true "KOSKO" "saturation" [] true ;;
   let '(e1, r) := fit q_settings [("f"%string, ColFlt train)] [("c"%string, ColStr labels)] e0 in
   _ <- r ;; snd (predict q_settings [("f"%string, ColFlt test)] e1))%res.
Definition said (labels : list string) : res (dict (list (cell Q))) := Ok [("c"%string, map (@CStr Q) labels)].
Theorem C103_positive_refuted :
  let labels := (repeat "u"%string 2 ++ repeat "v"%string 8) in
  Forall2 (fun v v' => v' == v + (-5 # 1))%Q (q_column 0) (q_column (-5)) /\ Forall (fun v => 0 < v)%Q (q_column 0) /\
  q_run (q_column 0) labels (q_column 0) = said ["u"; "u"; "u"; "v"; "v"; "v"; "v"; "u"; "v"; "v"]%string /\
  q_run (q_column (-5)) labels (q_column (-5)) = said ["u"; "u"; "u"; "v"; "v"; "v"; "v"; "v"; "v"; "v"]%string.
Proof. split; [repeat constructor|]. split; [repeat constructor|]. split; vm_compute; reflexivity. Qed.
(** Nor for negative numbers not seen in training: the membership of a negative
    number half-way between two known ones is interpolated with its absolute
    value. *)
Theorem C103_negative_refuted :
  let labels := (repeat "u"%string 5 ++ repeat "v"%string 5) in
  Forall2 (fun v v' => v' == v + (-20 # 1))%Q (q_column (-6)) (q_column (-26)) /\ Forall2 (fun v v' => v' == v + (-20 # 1))%Q (q_halves (-6)) (q_halves (-26)) /\
  Exists (fun v => v <= 0)%Q (q_column (-6)) /\ Exists (fun v => v <= 0)%Q (q_column (-26)) /\
  q_run (q_column (-6)) labels (q_halves (-6)) = said ["u"; "u"; "v"; "v"; "u"; "u"; "v"; "v"; "v"; "v"]%string /\
  q_run (q_column (-26)) labels (q_halves (-26)) = said ["u"; "u"; "u"; "u"; "u"; "u"; "u"; "u"; "u"; "v"]%string.
Proof. split; [repeat constructor|]. split; [repeat constructor|]. split; [apply Exists_cons_hd; discriminate|]. split; [apply Exists_cons_hd; discriminate|]. split; vm_compute; reflexivity. Qed.
End Refuted.
Print Assumptions C103_positive_refuted.
Print Assumptions C103_negative_refuted.

(** ** Non-vacuity *)
(** one continuous feature from -9 to 0, moved down by 7; one class *)
Definition down : list Z := map (fun i => (Z.of_nat i - 9)%Z) (seq 0 10).
Definition zx : dataset R := [("f"%string, ColFlt (map IZR down))].
Definition zt : dataset R := [("f"%string, ColFlt ([10; 12] ++ map IZR down))].
Definition zb (f : string) : R := if String.eqb f "f" then -7 else 0.
Definition zcf : gconf R :=
  with_disc "cmeans-cfe" flat_curve even_rand
    (mkGconf "___" (-1) false false rel_pos_inf rel_supp 0 None 0 true (fun r => str_of_Z (up r)) (fun _ => Ok 0%Z) (fun l => l) (fun _ _ => Err EUndef)).
Lemma z_up z : up (IZR z) = (z + 1)%Z.
Proof. symmetry. apply tech_up; rewrite plus_IZR; lra. Qed.
Lemma z_varied : varied (map IZR down).
Proof.
  exists (map IZR down). split; [|split; [rewrite map_length; cbn; lia|apply incl_refl]]. apply FinFun.Injective_map_NoDup; [intros a b; apply eq_IZR|].
  unfold down. apply FinFun.Injective_map_NoDup; [intros a b; lia|apply seq_NoDup].
Qed.
Lemma z_names : NoDup (dkeys (join_frames zx ly)).
Proof. cbn. repeat constructor; cbn; intuition discriminate. Qed.
Lemma z_readable : readable_data zcf (join_frames zx ly).
Proof.
  split; [reflexivity|]. split; [exact z_names|]. intros f c [H|[H|[]]]; injection H as <- <-; (split; [intros H; apply occurs_b in H; discriminate|]); cbn [readable_values].
  - assert (U : forall r, In r (unique nleb neqb (map IZR down)) -> exists z, r = IZR z).
    { intros r Hr. apply (proj2 (unique_spec _ _ R_total_order (map IZR down))) in Hr. apply in_map_iff in Hr as (z & <- & _). eauto. }
    split.
    + apply NoDup_map_in; [|apply (unique_NoDup _ _ R_total_order)]. intros r r' Hr Hr' E. cbn in E. apply str_of_Z_inj in E. destruct (U r Hr) as [z ->], (U r' Hr') as [z' ->]. rewrite !z_up in E. f_equal. lia.
    + apply Forall_forall. intros t Ht. apply in_map_iff in Ht as (r & <- & _). apply int_readable.
  - repeat (apply Forall_cons; [apply one_readable; discriminate|]); apply Forall_nil.
Qed.
Lemma z_fit : exists e', fit zcf zx ly ve0 = (e', Ok tt).
Proof.
  eapply (C100_fit_never_fails zcf "cmeans-cfe" flat_curve even_rand 10 zx ly ve0 ve0); auto; try (cbn; auto 10; fail).
  - exact C100_sampled.
  - intros l. apply Permutation_refl.
  - discriminate.
  - exact v_healthy.
  - exact z_names.
  - intros f c [H|[H|[]]]; injection H as <- <-; reflexivity.
Qed.
Lemma z_predict e' : fit zcf zx ly ve0 = (e', Ok tt) -> exists out, snd (predict zcf zt e') = Ok out.
Proof.
  intros HF. apply (C101_vectorized zcf "cmeans-cfe" flat_curve even_rand 5 2 (nlit 1 1000) "MEAN" true "KOSKO" "saturation" [] ve0 ve0 e' e' zx ly zt); auto; try (cbn; auto 10; fail).
  - intros l. apply Permutation_refl.
  - exact C100_sampled.
  - lia.
  - left. cbn. auto.
  - discriminate.
  - exact v_healthy.
  - exact z_readable.
  - exists "f"%string, (ColFlt (map IZR down)). split; [now left|]. cbn. lia.
  - apply o_used.
  - intros f c' [H|[]]. injection H as <- <-. eexists. split; [now left|]. intros texts rows l _ E. discriminate.
  - intros r f q _ _. now exists 0%Z.
Qed.
Lemma only_one {A B} (P : A -> B -> Prop) a b : Forall2 P [a] [b] -> P a b.
Proof. intros H. now inversion H. Qed.
Example C103_nonvacuous : exists e1 e2 out, fit zcf zx ly ve0 = (e1, Ok tt) /\ fit zcf (shift_data zb zx) ly ve0 = (e2, Ok tt) /\
  snd (predict zcf zt e1) = Ok out /\ snd (predict zcf (shift_data zb zt) e2) = Ok out.
Proof.
  destruct z_fit as [e1 F1]. destruct (z_predict e1 F1) as [out P1].
  destruct (C103_zero_point zcf "cmeans-cfe" flat_curve even_rand zb ve0 ve0 zx ly) as [A B]; auto; try (cbn; auto 10; fail).
  - intros l. apply Permutation_refl.
  - exact C100_sampled.
  - intros f us. unfold even_rand. now rewrite map_length.
  - apply healthy_estimator. exact v_healthy.
  - exact z_readable.
  - intros f Hn. unfold zb in Hn. destruct (String.eqb_spec f "f") as [E|E]; [rewrite E; clear Hn|now elim Hn]. exists (map IZR down). split; [now left|]. split; [intros _; exact z_varied|].
    exists (-9). split; [left; reflexivity|]. unfold zb. cbn [String.eqb Ascii.eqb]. cbn. lra.
  - rewrite F1 in A. destruct (fit zcf (shift_data zb zx) ly ve0) as [e2 [[]|er]] eqn:F2; [|contradiction].
    exists e1, e2, out. repeat (split; auto). destruct (B e1 e2 F1 eq_refl) as (_ & _ & C).
    assert (T : Forall (in_reach zb zx) [zt]).
    { constructor; [|constructor]. intros f c [H|[]]. injection H as <- <-. split; [|intros l str E; discriminate]. right. eexists. split; [reflexivity|].
      intros z Hz. change (In z ([10; 12] ++ map IZR down)) in Hz. apply in_app_iff in Hz as [Hz|Hz]; [right|left; exists (map IZR down); split; [now left|exact Hz]]. unfold zb. cbn [String.eqb]. cbn. destruct Hz as [<-|[<-|[]]]; lra. }
    specialize (C [zt] T). change (Forall2 (same_outcome eq) [snd (predict zcf zt e1)] [snd (predict zcf (shift_data zb zt) e2)]) in C. pose proof (only_one _ _ _ C) as Q. clear - P1 Q.
    rewrite P1 in Q. destruct (snd (predict zcf (shift_data zb zt) e2)) as [out2|]; cbn in Q; [now subst|contradiction].
Qed.
