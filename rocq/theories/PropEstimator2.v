(** PropEstimator2.v — properties C75 to C80: what predict returns, when fitting and
    predicting succeed, continuous targets, shared column names and the
    fit_inclination option. *)
From Coq Require Import QArith Reals Lra Permutation.
From Verif Require Import Base BaseFacts Num RealFacts QNum Functions Fcm FcmSpec DynSpec LoaderSpec FcmInv FcmRun FcmRun2 FcmRun3 FcmTotal LearnUtils LearnSpec LearnFacts Assoc AssocSpec AssocFacts2 AssocNames AssocNames2 AssocUnique AssocGen AssocLabel Estimator EstInput EstFacts EstFacts3 EstSpec EstFacts4 AssocRow EstFacts5 EstFacts6 EstFacts7 EstFacts8 EstExamples PropAssoc.
Local Open Scope nat_scope.
Local Open Scope string_scope.

Section General.
Context {F : Type} {N : Num F}.
(** the column of the training data that feature [f] of the fitted model stands for:
    the one of [x] if there is one, otherwise the one of [y] *)
Definition stands_for (x y : dataset F) (f : string) (c : column F) : Prop :=
  In (f, c) x \/ (In (f, c) y /\ ~ In f (dkeys x)).
(** a discrete target with the texts of its values *)
Definition class_target (cf : gconf F) (x y : dataset F) (f : string) (c : column F) (texts : list string) : Prop :=
  stands_for x y f c /\ In f (dkeys y) /\ texts <> [] /\ is_discrete cf c texts /\ exists rows, levels cf c texts rows.
(** an estimator fitted with [x] and [y], possibly used before (without a failing
    fit) and afterwards (no further fit) *)
Definition trained (cf : gconf F) (x y : dataset F) (e : est F) : Prop :=
  exists e0 e1 e2, healthy e0 e1 /\ fit cf x y e1 = (e2, Ok tt) /\ used e2 e /\
    (m_debug (e_map e0) = false -> concepts (e_map e2) <> []).

Lemma joined x y f c : In (f, c) (join_frames (F := F) x y) <->
  In (f, c) x \/ (In (f, c) y /\ ~ In f (dkeys x)) \/ exists g, In (g, c) y /\ In g (dkeys x) /\ f = append g "_class".
Proof.
  unfold join_frames. rewrite in_app_iff, in_map_iff. split.
  - intros [H|([g c'] & E & H)]; auto. right. cbn [fst snd] in E. injection E as <- ->. destruct (str_mem g (dkeys x)) eqn:M.
    + right. exists g. apply str_mem_In in M. auto.
    + left. split; auto. intros X. apply str_mem_In in X. congruence.
  - intros [H|[[H1 H2]|(g & H1 & H2 & ->)]]; auto; right.
    + exists (f, c). cbn [fst snd]. split; auto. destruct (str_mem f (dkeys x)) eqn:M; auto. apply str_mem_In in M. contradiction.
    + exists (g, c). cbn [fst snd]. split; auto. apply str_mem_In in H2. now rewrite H2.
Qed.
Lemma key_In {A} (d : dict A) k a : In (k, a) d -> In k (dkeys d).
Proof. intros H. now apply (in_map fst) in H. Qed.
Lemma keys_nodup_cols (d : dataset F) k a b : NoDup (dkeys d) -> In (k, a) d -> In (k, b) d -> a = b.
Proof.
  induction d as [|[k' v] d IH]; intros ND H1 H2; [easy|]. cbn in ND. apply NoDup_cons_iff in ND as [N1 ND].
  destruct H1 as [H1|H1], H2 as [H2|H2]; auto; try congruence.
  - injection H1 as -> ->. exfalso. apply N1. now apply key_In in H2.
  - injection H2 as -> ->. exfalso. apply N1. now apply key_In in H1.
Qed.
Lemma class_suffix g : append g "_class" <> g.
Proof. induction g as [|a g IH]; [discriminate|]. intros [=]. auto. Qed.
Lemma joined_target x y f c : NoDup (dkeys (join_frames (F := F) x y)) -> In f (dkeys y) ->
  (In (f, c) (join_frames x y) <-> stands_for x y f c).
Proof.
  intros ND Hy. rewrite joined. unfold stands_for. split; [|tauto]. intros [H|[H|(g & H1 & H2 & ->)]]; auto. exfalso.
  assert (ND' : NoDup (map fst x ++ map (fun q : string * column F => if str_mem (fst q) (dkeys x) then append (fst q) "_class" else fst q) y)).
  { unfold join_frames, dkeys in ND. rewrite map_app, map_map in ND. exact ND. }
  clear ND. rename ND' into ND.
  assert (P : forall k, In k (map fst x) -> ~ In k (map (fun q : string * column F => if str_mem (fst q) (dkeys x) then append (fst q) "_class" else fst q) y)).
  { intros k Hk Hk'. exact (NoDup_app_disj _ _ ND k Hk Hk'). }
  apply in_map_iff in Hy as ([k v] & Ek & Hv). cbn [fst] in Ek. subst k.
  destruct (str_mem (append g "_class") (dkeys x)) eqn:M.
  - apply str_mem_In in M. apply (P _ M). apply in_map_iff. exists (g, c). cbn [fst]. apply str_mem_In in H2. now rewrite H2.
  - apply NoDup_app_right in ND. clear P. revert ND H1 Hv. apply str_mem_In in H2. clear - H2 M.
    induction y as [|[k w] y IH]; intros ND H1 Hv; [easy|]. cbn [map fst] in ND. apply NoDup_cons_iff in ND as [N1 ND].
    destruct H1 as [H1|H1], Hv as [Hv|Hv]; auto.
    + injection H1 as -> ->. injection Hv as E _. symmetry in E. now apply class_suffix in E.
    + injection H1 as -> ->. rewrite H2 in N1. apply N1. apply in_map_iff. exists (append g "_class", v). cbn [fst]. now rewrite M.
    + injection Hv as -> ->. rewrite M in N1. apply N1. apply in_map_iff. exists (g, c). cbn [fst]. now rewrite H2.
Qed.
Lemma class_is cf x y f c texts : NoDup (dkeys (join_frames (F := F) x y)) ->
  class_target cf x y f c texts -> class_column cf x y f texts.
Proof. intros ND (H1 & H2 & H3 & H4 & rows & H5). exists c, rows. repeat split; auto. now apply joined_target. Qed.
Lemma class_of cf x y f texts : NoDup (dkeys (join_frames (F := F) x y)) ->
  class_column cf x y f texts -> exists c, class_target cf x y f c texts.
Proof. intros ND (c & rows & H1 & H2 & H3 & H4 & H5). exists c. split; [now apply joined_target in H1|]. eauto 10. Qed.

Lemma class_twice x y f cx cy : NoDup (dkeys (join_frames (F := F) x y)) -> In (f, cx) x -> In (f, cy) y ->
  In (append f "_class") (dkeys x) \/ In (append f "_class") (dkeys y) -> False.
Proof.
  intros ND Hx Hy H.
  assert (J : In (append f "_class", cy) (join_frames x y)) by (apply joined; right; right; exists f; apply key_In in Hx; auto).
  destruct H as [H|H].
  - apply in_map_iff in H as ([k c] & Ek & H). cbn [fst] in Ek. subst k. unfold join_frames, dkeys in ND. rewrite map_app in ND.
    apply (NoDup_app_disj _ _ ND (append f "_class")); [now apply (in_map fst) in H|].
    apply in_map_iff. exists (append f "_class", cy). split; auto. apply in_map_iff. exists (f, cy). cbn [fst snd]. split; auto.
    apply key_In in Hx. apply str_mem_In in Hx. unfold dkeys in Hx. now rewrite Hx.
  - pose proof H as H'. apply (joined_target _ _ _ cy ND H) in J as [J|[J1 J2]].
    + unfold join_frames, dkeys in ND. rewrite map_app in ND. apply (NoDup_app_disj _ _ ND (append f "_class")); [now apply (in_map fst) in J|].
      apply in_map_iff. exists (append f "_class", cy). split; auto. apply in_map_iff. exists (f, cy). cbn [fst snd]. split; auto.
      apply key_In in Hx. apply str_mem_In in Hx. unfold dkeys in Hx. now rewrite Hx.
    + unfold join_frames, dkeys in ND. rewrite map_app, map_map in ND. apply NoDup_app_right in ND. fold (dkeys x) in ND.
      assert (M : str_mem (append f "_class") (map fst x) = false) by (destruct (str_mem _ _) eqn:M; auto; apply str_mem_In in M; contradiction).
      assert (M2 : str_mem f (map fst x) = true) by (apply str_mem_In; now apply key_In in Hx).
      clear - ND J1 Hy M M2. induction y as [|[k c] y IH]; [easy|]. cbn [map fst snd] in ND. apply NoDup_cons_iff in ND as [N1 ND].
      destruct J1 as [J1|J1], Hy as [Hy|Hy]; auto.
      * injection J1 as -> ->. injection Hy as E. first [now apply class_suffix in E|symmetry in E; now apply class_suffix in E].
      * injection J1 as -> ->. unfold dkeys in N1. rewrite M in N1. apply N1. apply in_map_iff. exists (f, cy). cbn [fst]. now rewrite M2.
      * injection Hy as -> ->. unfold dkeys in N1. rewrite M2 in N1. apply N1. apply in_map_iff. exists (append f "_class", cy). cbn [fst]. now rewrite M.
Qed.

(** ** C75 *)
(** predict answers for the discrete targets that occurred with a value in training,
    with one label per row, each the label of a training value *)
Theorem C75_labels : forall cf x y e x' out, c_sep cf = "___" -> reorders (c_ord cf) -> (forall a b : F, nmul a b = nmul b a) ->
  readable_data cf (join_frames x y) -> trained cf x y e -> snd (predict cf x' e) = Ok out ->
  (forall f, In f (dkeys out) -> exists c texts, class_target cf x y f c texts) /\
  (forall f c texts, class_target cf x y f c texts -> length (labels out f) = frame_rows x' /\
     forall v, In v (labels out f) -> exists t, In t texts /\ v = class_cell t).
Proof.
  intros cf x y e x' out Hs HO HM RD (e0 & e1 & e2 & HH & HF & HU & Dc) HP. pose proof RD as (_ & ND & _).
  destruct (predict_shape cf Hs HO HM x y e0 e1 e2 e x' out HH RD HF HU Dc HP) as [K1 K2]. split.
  - intros f Hf. destruct (K1 f Hf) as (texts & Ht). destruct (class_of _ _ _ _ _ ND Ht) as (c & Hc). eauto.
  - intros f c texts Ht. apply K2. eapply class_is; eauto.
Qed.
(** text targets: the labels are texts of the training column, unless they look like numbers *)
Theorem C75_text : forall cf x y e x' out f l, c_sep cf = "___" -> reorders (c_ord cf) -> (forall a b : F, nmul a b = nmul b a) ->
  readable_data cf (join_frames x y) -> trained cf x y e -> snd (predict cf x' e) = Ok out ->
  stands_for x y f (ColStr l) -> In f (dkeys y) -> l <> [] ->
  (forall t, In t l -> t = "" \/ exists a ch b, t = append a (String ch b) /\ ~ (48 <= Ascii.nat_of_ascii ch <= 57)) ->
  length (labels out f) = frame_rows x' /\ forall v, In v (labels out f) -> exists t, In t l /\ v = CStr t.
Proof.
  intros cf x y e x' out f l Hs HO HM RD HT HP Hf Hy Hl Hd. destruct (C75_labels cf x y e x' out Hs HO HM RD HT HP) as [_ K].
  pose proof (levels_desc cf (ColStr l)) as L. cbn [discrete_desc fst snd] in L.
  set (us := unique str_leb String.eqb l) in *.
  assert (U : forall t, In t us -> In t l) by (intros t; apply unique_In).
  assert (Un : us <> []).
  { pose proof (unique_spec _ _ str_total_order l) as [_ Du]. fold us in Du. destruct l as [|t l]; [congruence|]. intros E. rewrite E in Du. apply (Du t). now left. }
  destruct (K f (ColStr l) us) as [K1 K2].
  - split; auto. split; auto. split; auto. split; [exact I|eauto].
  - split; auto. intros v Hv. destruct (K2 v Hv) as (t & Ht & ->). exists t. split; auto. apply C46_labels. auto.
Qed.
(** whole-number targets without negative values: the labels are numbers of the training column *)
Theorem C75_numbers : forall cf x y e x' out f l, c_sep cf = "___" -> reorders (c_ord cf) -> (forall a b : F, nmul a b = nmul b a) ->
  readable_data cf (join_frames x y) -> trained cf x y e -> snd (predict cf x' e) = Ok out ->
  stands_for x y f (ColInt l) -> In f (dkeys y) -> l <> [] -> c_infer cf = true ->
  (exists few, length few < 10 /\ incl l few) -> (forall z, In z l -> (0 <= z)%Z) ->
  length (labels out f) = frame_rows x' /\ forall v, In v (labels out f) -> exists z, In z l /\ v = CInt z.
Proof.
  intros cf x y e x' out f l Hs HO HM RD HT HP Hf Hy Hl Hi (few & Lf & If) Hd. destruct (C75_labels cf x y e x' out Hs HO HM RD HT HP) as [_ K].
  pose proof (levels_desc cf (ColInt l)) as L. cbn [discrete_desc fst snd] in L.
  set (us := unique Z.leb Z.eqb l) in *.
  pose proof (unique_spec _ _ Z_total_order l) as [Ss Du]. fold us in Ss, Du.
  assert (Un : us <> []).
  { destruct l as [|t l]; [congruence|]. intros E. rewrite E in Du. apply (Du t). now left. }
  destruct (K f (ColInt l) (map str_of_Z us)) as [K1 K2].
  - split; auto. split; auto. split; [intros E; apply map_eq_nil in E; congruence|]. split; [|eauto].
    split; auto. rewrite map_length. apply Nat.le_lt_trans with (2 := Lf). apply NoDup_incl_length; [|intros z Hz; apply If, Du, Hz].
    now apply strictly_sorted_NoDup in Ss.
  - split; auto. intros v Hv. destruct (K2 v Hv) as (t & Ht & ->). apply in_map_iff in Ht as (z & <- & Hz). exists z. apply Du in Hz. split; auto.
    apply C46_labels. auto.
Qed.

(** ** C76 *)
(** After a fit with discrete columns, predicting never fails (iterative engine): the
    activation function must accept its arguments, the decision must not be EXITED,
    the columns must be known and their texts readable. *)
Theorem C76_predict_succeeds : forall cf mi ex sd de me xc ac kw e0 e1 e2 e x y x',
  c_sep cf = "___" -> reorders (c_ord cf) -> (forall a b : F, nmul a b = nmul b a) ->
  init_est mi ex sd de me xc ac kw false = Ok e0 -> callable ac kw -> de <> "EXITED" ->
  (de <> "LAST" -> forall k, (0 < k)%Z -> neqb (nofZ (Num := N) k) n0 = false) ->
  healthy e0 e1 -> fit cf x y e1 = (e2, Ok tt) -> used e2 e ->
  readable_data cf (join_frames x y) ->
  (forall f c, In (f, c) (join_frames x y) -> exists texts rows, levels cf c texts rows /\ is_discrete cf c texts) ->
  (forall f c, In (f, c) x' -> In f (dkeys (join_frames x y)) /\ (forall l, c = ColStr l -> Forall readable l)) ->
  (forall q, exists z, c_trunc cf q = Ok z) ->
  exists out, snd (predict cf x' e) = Ok out.
Proof. intros. eapply (predict_succeeds cf); eauto. Qed.

(** ** C77 *)
(** Fitting discrete columns of the same length never fails when the measures are
    defined everywhere: on a new estimator, and on a used one with the iterative
    engine. *)
Theorem C77_fit_succeeds : forall cf n x y e0 e, reorders (c_ord cf) -> (forall a b : F, nmul a b = nmul b a) ->
  (forall c, (exists v, measure (c_eval cf) c v) /\ (exists v, measure (c_caus cf) c v) /\
     forall f, c_sign cf = Some f -> exists v, measure f c v) ->
  healthy e0 e -> (e = e0 \/ m_debug (e_map e0) = true) -> NoDup (dkeys (join_frames x y)) ->
  (forall f c, In (f, c) (join_frames x y) -> col_length c = n /\ exists texts rows, levels cf c texts rows /\ is_discrete cf c texts) ->
  exists e', fit cf x y e = (e', Ok tt).
Proof.
  intros cf n x y e0 e HO HM Hm HH Hw ND Hc. apply (fit_succeeds cf HM HO (fun r => length r = n)) with (e0 := e0); auto.
  - intros ra rb H1 H2. destruct (same_length_coefs ra rb) as [c Hcc]; [congruence|]. exists c. split; auto. apply Hm.
  - now apply healthy_estimator.
  - destruct Hw as [->|D]; [now left|]. right. now left.
  - intros f c Hi. destruct (Hc f c Hi) as [<- Hl]. split; auto. intros r. apply desc_length.
Qed.

(** ** C78 *)
(** A target with too many different numbers is never predicted ... *)
Theorem C78_continuous_unpredicted : forall cf x y e x' out f c, c_sep cf = "___" -> reorders (c_ord cf) -> (forall a b : F, nmul a b = nmul b a) ->
  readable_data cf (join_frames x y) -> trained cf x y e -> snd (predict cf x' e) = Ok out ->
  stands_for x y f c -> (forall texts rows, levels cf c texts rows -> ~ is_discrete cf c texts) -> dget out f = None.
Proof.
  intros cf x y e x' out f c Hs HO HM RD HT HP Hf Hc. pose proof RD as (_ & ND & _).
  destruct (C75_labels cf x y e x' out Hs HO HM RD HT HP) as [K _]. destruct (dget out f) eqn:E; auto. exfalso.
  destruct (K f) as (c' & texts & K1 & K2 & _ & K4 & rows & K5); [apply dget_Some_In; eauto|].
  apply (joined_target _ _ _ _ ND K2) in K1, Hf. pose proof (keys_nodup_cols _ _ _ _ ND K1 Hf). subst c'. exact (Hc _ _ K5 K4).
Qed.
(** ... so scoring it fails: the columns before it are compared, then KeyError *)
Theorem C78_score_fails : forall cf x y e x' y' f c c' v, c_sep cf = "___" -> reorders (c_ord cf) -> (forall a b : F, nmul a b = nmul b a) ->
  readable_data cf (join_frames x y) -> trained cf x y e ->
  stands_for x y f c -> (forall texts rows, levels cf c texts rows -> ~ is_discrete cf c texts) ->
  In (f, c') y' -> col_length c' > 0 -> snd (score cf x' y' e) <> Ok v.
Proof.
  intros cf x y e x' y' f c c' v Hs HO HM RD HT Hf Hc Hy Hl H. apply score_ok in H as (_ & out & Ho & Hcov & _).
  pose proof (C78_continuous_unpredicted cf x y e x' out f c Hs HO HM RD HT Ho Hf Hc) as E.
  specialize (Hcov f c' Hy). unfold labels in Hcov. rewrite E in Hcov. cbn [length] in Hcov.
  assert (length (col_cells c') = col_length c') by (destruct c'; apply map_length). lia.
Qed.
Theorem C78_score_key_error : forall cf x y e x' y' f c c' out, c_sep cf = "___" -> reorders (c_ord cf) -> (forall a b : F, nmul a b = nmul b a) ->
  readable_data cf (join_frames x y) -> trained cf x y e ->
  stands_for x y f c -> (forall texts rows, levels cf c texts rows -> ~ is_discrete cf c texts) ->
  snd (predict cf x' e) = Ok out -> col_length c' > 0 -> snd (score cf x' ((f, c') :: y') e) = Err (EKey f).
Proof.
  intros cf x y e x' y' f c c' out Hs HO HM RD HT Hf Hc Ho Hl.
  pose proof (C78_continuous_unpredicted cf x y e x' out f c Hs HO HM RD HT Ho Hf Hc) as E.
  assert (G : e_generated e = true).
  { destruct (e_generated e) eqn:G; auto. unfold predict in Ho. rewrite G in Ho. discriminate. }
  unfold score. rewrite G. destruct (predict cf x' e) as [e3 r]. cbn [snd] in Ho |- *. subst r. cbn [rbind rfold].
  assert (X : score_column out (0, 0) (f, c') = Err (EKey f)); [|now rewrite X].
  unfold score_column. cbn [fst snd]. destruct c' as [l|l|l|l]; (destruct l as [|z l]; [cbn in Hl; lia|]);
    cbn [col_length col_cells length seq map combine rfold fst snd]; unfold dget_exn; rewrite E; reflexivity.
Qed.

(** ** C79 *)
(** A name used for a feature and for a target: only the feature is predicted, the
    target column never. *)
Theorem C79_shared_name : forall cf x y e x' out f cx, c_sep cf = "___" -> reorders (c_ord cf) -> (forall a b : F, nmul a b = nmul b a) ->
  readable_data cf (join_frames x y) -> trained cf x y e -> snd (predict cf x' e) = Ok out ->
  In (f, cx) x -> In f (dkeys y) ->
  dget out (append f "_class") = None /\
  forall texts rows v, levels cf cx texts rows -> is_discrete cf cx texts -> In v (labels out f) -> exists t, In t texts /\ v = class_cell t.
Proof.
  intros cf x y e x' out f cx Hs HO HM RD HT HP Hx Hy. pose proof RD as (_ & ND & _).
  destruct (C75_labels cf x y e x' out Hs HO HM RD HT HP) as [K1 K2]. split.
  - destruct (dget out (append f "_class")) eqn:E; auto. exfalso.
    destruct (K1 (append f "_class")) as (c' & texts & _ & Q2 & _); [apply dget_Some_In; eauto|].
    apply in_map_iff in Hy as ([k cy] & Ek & Hy). cbn [fst] in Ek. subst k.
    assert (J : In (append f "_class", cy) (join_frames x y)) by (apply joined; right; right; exists f; apply key_In in Hx; auto).
    apply (joined_target _ _ _ _ ND Q2) in J as [J|[J1 J2]].
    + assert (In (append f "_class", cy) (join_frames x y)) by (apply joined; auto).
      apply (class_twice x y f cx cy ND Hx Hy). left. now apply key_In in J.
    + apply (class_twice x y f cx cy ND Hx Hy). right. exact Q2.
  - intros texts rows v L D Hv. destruct texts as [|t0 texts].
    + exfalso. assert (Hk : In f (dkeys out)) by (unfold labels in Hv; destruct (dget out f) eqn:E; [apply dget_Some_In; eauto|easy]).
      destruct (K1 f Hk) as (c' & texts & Q1 & Q2 & Q3 & _ & rows' & Q5). apply (joined_target _ _ _ _ ND Q2) in Q1.
      assert (Q0 : In (f, cx) (join_frames x y)) by (apply joined; auto). pose proof (keys_nodup_cols _ _ _ _ ND Q1 Q0). subst c'.
      pose proof (levels_perm cf _ _ _ _ _ L Q5) as P. apply Permutation_nil in P. congruence.
    + apply (K2 f cx (t0 :: texts)); auto. split; [now left|]. split; auto. split; [discriminate|]. eauto.
Qed.
End General.

(** In exact arithmetic the measures of the code never fail on discrete columns. *)
Theorem C77_discrete_never_fails : forall (cf : gconf R) n x y e0 e, reorders (c_ord cf) ->
  In (c_eval cf) named_measures -> In (c_caus cf) named_measures -> (forall f, c_sign cf = Some f -> In f named_measures) ->
  healthy e0 e -> (e = e0 \/ m_debug (e_map e0) = true) -> NoDup (dkeys (join_frames x y)) ->
  (forall f c, In (f, c) (join_frames x y) -> col_length c = n /\ exists texts rows, levels cf c texts rows /\ is_discrete cf c texts) ->
  exists e', fit cf x y e = (e', Ok tt).
Proof.
  intros cf n x y e0 e HO H1 H2 H3 HH Hw ND Hc. apply (@fit_succeeds R RNum cf (fun a b => Rmult_comm a b) HO (hit_row n)) with (e0 := e0); auto.
  - intros ra rb. apply hit_rated. now split.
  - now apply healthy_estimator.
  - destruct Hw as [->|D]; auto.
  - intros f c Hi. destruct (Hc f c Hi) as [<- Hl]. split; auto. intros r. apply desc_hit_row.
Qed.

(** ** C80 *)
Section Inclination.
Context {F : Type} {N : Num F}.
(** estimators that differ at most in the generator's own, empty map *)
Definition twins (a b : est F) : Prop :=
  a = b \/ (e_map a = e_map b /\ e_feats a = e_feats b /\ e_proc a = e_proc b /\ e_generated a = false /\ e_generated b = false /\
    exists p q, e_priv a = Some p /\ e_priv b = Some q /\ m_topo p = [] /\ m_topo q = []).
Lemma twins_fit cf x y a b : twins a b -> fit cf x y a = fit cf x y b.
Proof.
  intros [->|(H1 & H2 & H3 & H4 & H5 & p & q & P1 & P2 & T1 & T2)]; auto. unfold fit.
  rewrite (reset_blank (e_gen a)) by (unfold e_gen; cbn; now rewrite P1). rewrite (reset_blank (e_gen b)) by (unfold e_gen; cbn; now rewrite P2).
  rewrite P1, P2, H1, H4, H5. reflexivity.
Qed.
Lemma twins_predict cf x a b : twins a b -> snd (predict cf x a) = snd (predict cf x b) /\ twins (fst (predict cf x a)) (fst (predict cf x b)).
Proof.
  intros T. destruct T as [->|T]; [split; auto; now left|]. destruct T as (H1 & H2 & H3 & H4 & H5 & H6).
  unfold predict. rewrite H4, H5. cbn. split; auto. right. auto 10.
Qed.
Lemma twins_score cf x y a b : twins a b -> snd (score cf x y a) = snd (score cf x y b) /\ twins (fst (score cf x y a)) (fst (score cf x y b)).
Proof.
  intros T. destruct T as [->|T]; [split; auto; now left|]. destruct T as (H1 & H2 & H3 & H4 & H5 & H6).
  unfold score. rewrite H4, H5. cbn. split; auto. right. auto 10.
Qed.
Lemma twins_runs calls a b : twins a b -> twins (eruns calls a) (eruns calls b) /\ (existsb is_fit calls = true -> eruns calls a = eruns calls b).
Proof.
  unfold eruns. revert a b. induction calls as [|c calls IH]; intros a b T; cbn [fold_left existsb]; [split; [auto|discriminate]|].
  destruct c as [cf x y|cf x|cf x y]; cbn [edo is_fit orb].
  - rewrite (twins_fit cf x y a b T). split; [now left|auto].
  - destruct (twins_predict cf x a b T) as [_ T']. destruct (predict cf x a), (predict cf x b). cbn [fst] in *. apply IH; auto.
  - destruct (twins_score cf x y a b T) as [_ T']. destruct (score cf x y a), (score cf x y b). cbn [fst] in *. apply IH; auto.
Qed.
(** fit_inclination changes nothing: whatever was called before, fitting, predicting
    and scoring give the same, the maps are equal, and from the first fit on the
    estimators are *)
Theorem C80_no_effect : forall max_it extra_steps stability_diff decision mem excitation activation kwargs vectorized e1 e2,
  init_est_fit true max_it extra_steps stability_diff decision mem excitation activation kwargs vectorized = Ok e1 ->
  init_est_fit false max_it extra_steps stability_diff decision mem excitation activation kwargs vectorized = Ok e2 ->
  forall calls (cf : gconf F) x y,
    fit cf x y (eruns calls e1) = fit cf x y (eruns calls e2) /\
    snd (predict cf x (eruns calls e1)) = snd (predict cf x (eruns calls e2)) /\
    snd (score cf x y (eruns calls e1)) = snd (score cf x y (eruns calls e2)) /\
    e_map (eruns calls e1) = e_map (eruns calls e2) /\
    (existsb is_fit calls = true -> eruns calls e1 = eruns calls e2).
Proof.
  intros mi ex sd de me xc ac kw vec e1 e2 H1 H2 calls cf x y.
  assert (T : twins e1 e2).
  { unfold init_est_fit in H1, H2. apply rbind_ok in H1 as (e & He & H1). rewrite He in H2. cbn [rbind] in H2. injection H2 as <-. injection H1 as <-.
    assert (e_generated e = false) by (unfold init_est in He; apply rbind_ok in He as (? & _ & He); apply rbind_ok in He as (? & _ & He); apply rbind_ok in He as (? & _ & He); now injection He as <-).
    assert (P : exists q, e_priv e = Some q /\ m_topo q = []).
    { unfold init_est in He. apply rbind_ok in He as (? & _ & He). apply rbind_ok in He as (? & _ & He). apply rbind_ok in He as (q & Hq & He). injection He as <-.
      exists q. split; auto. now apply init_fcm_shape in Hq as (-> & _). }
    right. cbn [e_map e_feats e_proc e_generated e_priv]. repeat (split; auto). destruct P as (q & -> & Tq). cbn [option_map]. eauto 10. }
  destruct (twins_runs calls e1 e2 T) as [T' E]. split; [now apply twins_fit|]. split; [now apply twins_predict|]. split; [now apply twins_score|].
  split; auto. destruct T' as [->|T']; auto. apply T'.
Qed.
(** nor for the generator alone: building replaces its map *)
Theorem C80_generator : forall (cf : gconf F) ds targets s features processed p q,
  build_fcm cf ds targets s (mkGen features processed p) = build_fcm cf ds targets s (mkGen features processed q).
Proof. reflexivity. Qed.

(** ** C81 *)
(** Arrays and lists of rows: features are called 0, 1, ..., targets continue the
    numbering, so no name occurs twice. *)
Theorem C81_arrays : forall (xs ys : list (column F)), exists x y,
  map snd x = xs /\ map snd y = ys /\ NoDup (dkeys (join_frames x y)) /\ dkeys (join_frames x y) = (dkeys x ++ dkeys y)%list /\
  (forall i f, nth_error (dkeys x) i = Some f -> f = str_of_Z (Z.of_nat i)) /\
  (forall i f, nth_error (dkeys y) i = Some f -> f = str_of_Z (Z.of_nat (length xs + i))) /\
  forall (cf : gconf F) e,
    (fit_input cf (IArr2 xs) (IArr2 ys) e = fit cf x y e /\ score_input cf (IArr2 xs) (IArr2 ys) e = score cf x y e /\ predict_input cf (IArr2 xs) e = predict cf x e) /\
    (fit_input cf (IList2 xs) (IList2 ys) e = fit cf x y e /\ score_input cf (IList2 xs) (IList2 ys) e = score cf x y e /\ predict_input cf (IList2 xs) e = predict cf x e) /\
    (fit_input cf (IFrame x) (IFrame y) e = fit cf x y e /\ score_input cf (IFrame x) (IFrame y) e = score cf x y e /\ predict_input cf (IFrame x) e = predict cf x e) /\
    (forall c, ys = [c] -> fit_input cf (IArr2 xs) (IArr1 c) e = fit cf x y e /\ fit_input cf (IList2 xs) (IList1 c) e = fit cf x y e).
Proof.
  intros xs ys. exists (numbered 0 xs), (numbered (length xs) ys).
  assert (Sn : forall s (l : list (column F)), map snd (numbered s l) = l).
  { intros s l. unfold numbered. generalize 0. induction l as [|c l IH]; intros k; cbn; auto. now rewrite IH. }
  assert (Fs : forall s (l : list (column F)), dkeys (numbered s l) = map (fun i => str_of_Z (Z.of_nat (i + s))) (seq 0 (length l))).
  { intros s l. unfold numbered, dkeys. generalize 0. induction l as [|c l IH]; intros k; cbn; auto. now rewrite IH. }
  assert (Nt : forall s (l : list (column F)) i f, nth_error (dkeys (numbered s l)) i = Some f -> f = str_of_Z (Z.of_nat (i + s)) /\ i < length l).
  { intros s l i f H. rewrite Fs, nth_error_map in H. destruct (nth_error (seq 0 (length l)) i) as [k|] eqn:E; [|discriminate].
    assert (L : i < length l) by (rewrite <- (seq_length (length l) 0); apply nth_error_Some; congruence).
    rewrite (nth_error_nth' _ 0) in E by (rewrite seq_length; auto). rewrite seq_nth in E by auto. injection E as <-. injection H as <-. auto. }
  assert (Dj : forall f, In f (dkeys (numbered (length xs) ys)) -> ~ In f (dkeys (numbered 0 xs))).
  { intros f H1 H2. apply In_nth_error in H1 as [i H1], H2 as [j H2]. apply Nt in H1 as [-> H1], H2 as [H2 H3]. apply str_of_Z_inj in H2. lia. }
  assert (K : dkeys (join_frames (numbered 0 xs) (numbered (length xs) ys)) = (dkeys (numbered 0 xs) ++ dkeys (numbered (length xs) ys))%list).
  { unfold join_frames, dkeys at 1. rewrite map_app, map_map. f_equal. apply map_ext_in. intros [f c] H. cbn [fst snd].
    destruct (str_mem f (dkeys (numbered 0 xs))) eqn:M; auto. apply str_mem_In in M. apply key_In in H. now apply Dj in H. }
  assert (Nd : forall s (l : list (column F)), NoDup (dkeys (numbered s l))).
  { intros s l. rewrite Fs. apply FinFun.Injective_map_NoDup; [|apply seq_NoDup]. intros a b E. apply str_of_Z_inj in E. lia. }
  split; auto. split; auto. split; [rewrite K; apply NoDup_app_intro; auto; intros a Ha Hb; now apply Dj in Hb|]. split; auto.
  split; [intros i f H; apply Nt in H as [-> _]; do 2 f_equal; lia|]. split; [intros i f H; apply Nt in H as [-> _]; do 2 f_equal; lia|].
  assert (Sc : forall (cf : gconf F) x y e, (if e_generated e then score cf x y e else (e, Err (EExc "There is no FCM generated, the fit method mus be called first"))) = score cf x y e).
  { intros cf x y e. unfold score. destruct (e_generated e); reflexivity. }
  intros cf e. unfold fit_input, score_input, predict_input, validate_dual_input. cbn [width to_data_frame rbind]. rewrite !Sc.
  repeat split; auto; intros; subst; reflexivity.
Qed.
(** Features must have two dimensions and a shape: dictionaries are refused by fit
    and score, though predict takes them. *)
Theorem C81_refused : forall (cf : gconf F) y e,
  (forall d, fit_input cf (IDict d) y e = (e, Err EAttr)) /\
  (forall c, fit_input cf (IArr1 c) y e = (e, Err EIndex) /\ fit_input cf (IList1 c) y e = (e, Err EIndex)) /\
  (forall s c, fit_input cf (ISeries s c) y e = (e, Err EIndex)) /\
  fit_input cf IOther y e = (e, Err EAttr) /\
  forall d n, (forall f c, In (f, c) d -> col_length c = n) -> predict_input cf (IDict d) e = predict cf d e.
Proof.
  intros cf y e. repeat (split; [reflexivity|]). split; [intros; split; reflexivity|]. repeat (split; [reflexivity|]).
  intros d n H. unfold predict_input. cbn [to_data_frame].
  assert (X : forallb (fun c => Nat.eqb (col_length (snd c)) (frame_rows d)) d = true); [|now rewrite X].
  apply forallb_forall. intros [f c] Hc. apply Nat.eqb_eq. cbn [snd]. rewrite (H _ _ Hc). destruct d as [|[f' c'] d]; [easy|]. cbn. symmetry. apply (H f' c'). now left.
Qed.
(** Every other kind of input: a Series and a dictionary of equally long lists act as
    the data frame they stand for, one-dimensional arrays and lists given to predict
    are the column 0, and anything else is refused with the estimator unchanged. *)
Theorem C81_other_inputs : forall (cf : gconf F) x e,
  (forall s c, fit_input cf (IFrame x) (ISeries s c) e = fit cf x [(s, c)] e /\
     score_input cf (IFrame x) (ISeries s c) e = score cf x [(s, c)] e /\
     predict_input cf (ISeries s c) e = predict cf [(s, c)] e) /\
  (forall d n, (forall f c, In (f, c) d -> col_length c = n) ->
     fit_input cf (IFrame x) (IDict d) e = fit cf x d e /\ score_input cf (IFrame x) (IDict d) e = score cf x d e) /\
  (forall d f g c c', In (f, c) d -> In (g, c') d -> col_length c <> col_length c' ->
     fit_input cf (IFrame x) (IDict d) e = (e, Err EValue) /\ predict_input cf (IDict d) e = (e, Err EValue)) /\
  (forall c, predict_input cf (IArr1 c) e = predict cf [("0", c)] e /\ predict_input cf (IList1 c) e = predict cf [("0", c)] e) /\
  fit_input cf (IFrame x) IOther e =
    (e, Err (EExc "Cannot load provided y structure, please use a pandas DataFrame like object.")) /\
  predict_input cf IOther e =
    (e, Err (EExc "Cannot load provided x structure, please use a pandas DataFrame like object.")) /\
  forall a b, e_generated e = false -> exists m, score_input cf a b e = (e, Err (EExc m)).
Proof.
  assert (Sc : forall (cf : gconf F) x y e, (if e_generated e then score cf x y e else (e, Err (EExc "There is no FCM generated, the fit method mus be called first"))) = score cf x y e).
  { intros cf x y e. unfold score. destruct (e_generated e); reflexivity. }
  intros cf x e. split; [|split; [|split; [|split; [|split; [|split]]]]].
  - intros s c. split; [reflexivity|]. split; [|reflexivity]. apply Sc.
  - intros d n H.
    assert (X : forallb (fun c => Nat.eqb (col_length (snd c)) (frame_rows d)) d = true).
    { apply forallb_forall. intros [f c] Hc. apply Nat.eqb_eq. cbn [snd]. rewrite (H _ _ Hc). destruct d as [|[f' c'] d]; [easy|]. cbn. symmetry. apply (H f' c'). now left. }
    unfold fit_input, score_input, validate_dual_input. cbn [width to_data_frame rbind]. rewrite X. cbn [rbind]. rewrite Sc. auto.
  - intros d f g c c' H1 H2 Hn.
    assert (X : forallb (fun c => Nat.eqb (col_length (snd c)) (frame_rows d)) d = false).
    { apply Bool.not_true_iff_false. rewrite forallb_forall. intros G. apply Hn.
      pose proof (proj1 (Nat.eqb_eq _ _) (G _ H1)). pose proof (proj1 (Nat.eqb_eq _ _) (G _ H2)). cbn [snd] in *. congruence. }
    unfold fit_input, predict_input, validate_dual_input. cbn [width to_data_frame rbind]. rewrite X. auto.
  - intros c. split; reflexivity.
  - reflexivity.
  - reflexivity.
  - intros a b G. unfold score_input. rewrite G. eauto.
Qed.
End Inclination.

(** ** Non-vacuity *)
Lemma used_self {F} {N : Num F} (e : est F) : used e e.
Proof. now exists []. Qed.
Lemma q_trained : trained qcf qx qy qe1.
Proof. exists qe0, qe0, qe1. split; [exact qe_healthy|]. split; [exact qe_fit|]. split; [exact qe_used|]. discriminate. Qed.
Lemma one_readable (ch : Ascii.ascii) : ch <> "_"%char -> readable (String ch "").
Proof.
  intros Hc. split.
  - intros H. apply occurs_b in H. cbn [occursb String.prefix] in H. destruct (Ascii.ascii_dec "_" ch); [congruence|discriminate].
  - intros [|c' [|c'' t]] H; try discriminate. injection H as ->. congruence.
Qed.
Lemma q_discrete : forall f c, In (f, c) (join_frames qx qy) -> exists texts rows, levels qcf c texts rows /\ is_discrete qcf c texts.
Proof.
  intros f c H. exists (fst (discrete_desc qcf c)), (snd (discrete_desc qcf c)). split; [apply levels_desc|].
  destruct H as [H|[H|[H|[H|[]]]]]; injection H as <- <-; cbn; auto. split; [reflexivity|]. repeat constructor.
Qed.
Example C75_nonvacuous : snd (predict qcf qx qe1) = Ok [("c", [CStr "u"; CStr "v"; CStr "u"; CStr "v"])] /\ (forall v, In v [CStr (F := Q) "u"; CStr "v"; CStr "u"; CStr "v"] -> exists t, In t ["u"; "v"; "u"; "v"] /\ v = CStr t) /\ stands_for qx qy "c" (ColStr ["u"; "v"; "u"; "v"]).
Proof.
  assert (P : snd (predict qcf qx qe1) = Ok [("c", [CStr "u"; CStr "v"; CStr "u"; CStr "v"])]) by (vm_compute; reflexivity).
  assert (S : stands_for qx qy "c" (ColStr ["u"; "v"; "u"; "v"])).
  { right. split; [now left|]. cbn. intuition discriminate. }
  split; auto. split; auto.
  destruct (C75_text qcf qx qy qe1 qx _ "c" ["u"; "v"; "u"; "v"] eq_refl q_orders q_comm q_readable q_trained P S) as [_ K]; auto.
  - now left.
  - discriminate.
  - intros t [<-|[<-|[<-|[<-|[]]]]]; right; exists ""; eexists; exists ""; (split; [reflexivity|]); cbv; lia.
Qed.
Example C76_nonvacuous : exists out, snd (predict qcf qx qe1) = Ok out.
Proof.
  apply (C76_predict_succeeds qcf 5 2 (nlit 1 1000) "MEAN" true "KOSKO" "saturation" [] qe0 qe0 qe1 qe1 qx qy qx); auto.
  - apply q_orders.
  - apply q_comm.
  - left. split; auto. cbn. auto.
  - discriminate.
  - intros _ k Hk. destruct k; try discriminate; reflexivity.
  - exact qe_healthy.
  - exact qe_used.
  - exact q_readable.
  - exact q_discrete.
  - intros f c [H|[H|[H|[]]]]; injection H as <- <-; (split; [cbn; auto|]); intros l [= <-].
    repeat (apply Forall_cons; [apply one_readable; discriminate|]); apply Forall_nil.
  - intros q. now exists 0%Z.
Qed.
(** a measure that is defined everywhere *)
Definition qcf_total : gconf Q :=
  mkGconf "___" (nofZ (-1)) true true rel_conf (fun p q r t => Ok p) n0 None n0 true (fun _ => "x") (fun _ => Ok 0%Z)
    (fun l => l) (fun _ _ => Err EUndef).
Example C77_nonvacuous : exists e', fit qcf_total qx qy qe1 = (e', Ok tt).
Proof.
  apply (C77_fit_succeeds qcf_total 4 qx qy qe0 qe1).
  - exact q_orders.
  - exact q_comm.
  - intros [[[p q] r] t]. split; [eexists; reflexivity|]. split; [|discriminate]. cbn [measure c_caus qcf_total]. unfold rel_conf.
    destruct (neqb (nadd p q) n0) eqn:E; [eauto|]. unfold pdiv. rewrite E. eauto.
  - exact (healthy_fit _ _ _ _ _ _ qe_healthy qe_fit).
  - right. reflexivity.
  - apply q_readable.
  - intros f c H. split; [|exists (fst (discrete_desc qcf_total c)), (snd (discrete_desc qcf_total c)); split; [apply levels_desc|]];
      destruct H as [H|[H|[H|[H|[]]]]]; injection H as <- <-; cbn; auto. split; [reflexivity|]. repeat constructor.
Qed.
Definition rcf : gconf R :=
  mkGconf "___" (-1)%R true true rel_pos_inf rel_supp 0%R (Some rel_lift) 0%R true (fun _ => "x") (fun _ => Ok 0%Z) (fun l => l) (fun _ _ => Err EUndef).
Definition rx : dataset R := [("f", ColStr ["a"; "b"]); ("t", ColBool [true; false])].
Definition ry : dataset R := [("c", ColStr ["u"; "v"])].
Example C77_real_nonvacuous : forall e0 e, healthy e0 e -> m_debug (e_map e0) = true -> exists e', fit rcf rx ry e = (e', Ok tt).
Proof.
  intros e0 e HH D. apply (C77_discrete_never_fails rcf 2 rx ry e0 e); auto; try (cbn; tauto).
  - intros l. apply Permutation_refl.
  - intros f [= <-]. cbn. tauto.
  - cbn. repeat constructor; cbn; intuition discriminate.
  - intros f c H. split; [|exists (fst (discrete_desc rcf c)), (snd (discrete_desc rcf c)); split; [apply levels_desc|]];
      destruct H as [H|[H|[H|[]]]]; injection H as <- <-; cbn; auto.
Qed.
(** an empty column: the measure fails, the fit does not *)
Example C77_measure_fails : rel_supp (F := R) 0%R 0%R 0%R 0%R = Err EZeroDiv.
Proof. unfold rel_supp. rnum. destruct (Reqb_spec (0 + 0 + 0 + 0)%R 0%R); [reflexivity|lra]. Qed.

(** numbers taken as continuous; membership in two clusters *)
Definition ccf : gconf Q :=
  mkGconf "___" (nofZ (-1)) true true rel_conf rel_supp n0 None n0 false (fun _ => "x") (fun _ => Ok 0%Z)
    (fun l => l) (fun _ _ => Ok (2%nat, [nofZ 1; nofZ 2], [[nofZ 1; nofZ 0]; [nofZ 0; nofZ 1]])).
Definition cx : dataset Q := [("f", ColStr ["a"; "b"; "a"; "b"])].
Definition cy : dataset Q := [("c", ColInt [1; 2; 1; 1]%Z)].
Example C78_nonvacuous : exists e, trained ccf cx cy e /\ snd (predict ccf cx e) = Ok [] /\ snd (score ccf cx cy e) = Err (EKey "c").
Proof.
  exists (fst (fit ccf cx cy qe0)). assert (HF : fit ccf cx cy qe0 = (fst (fit ccf cx cy qe0), Ok tt)).
  { assert (X : snd (fit ccf cx cy qe0) = Ok tt) by (vm_compute; reflexivity). destruct (fit ccf cx cy qe0). cbn in *. now subst. }
  assert (T : trained ccf cx cy (fst (fit ccf cx cy qe0))).
  { exists qe0, qe0, (fst (fit ccf cx cy qe0)). split; [exact qe_healthy|]. split; [exact HF|]. split; [apply used_self|]. intros Hd. discriminate Hd. }
  assert (P : snd (predict ccf cx (fst (fit ccf cx cy qe0))) = Ok []) by (vm_compute; reflexivity).
  split; [exact T|]. split; [exact P|].
  apply (C78_score_key_error ccf cx cy _ cx [] "c" (ColInt [1; 2; 1; 1]%Z) (ColInt [1; 2; 1; 1]%Z) []); [reflexivity|..].
  - apply q_orders.
  - apply q_comm.
  - split; [reflexivity|]. split; [cbn; repeat constructor; cbn; intuition discriminate|].
    intros f c [H|[H|[]]]; injection H as <- <-; (split; [intros H; apply occurs_b in H; discriminate|cbn; auto]).
    repeat (apply Forall_cons; [apply one_readable; discriminate|]); apply Forall_nil.
  - exact T.
  - right. split; [now left|]. cbn. intuition discriminate.
  - intros texts rows _ [X _]. discriminate.
  - exact P.
  - cbn. lia.
Qed.
(** with a shared name the labels do not come from the target column *)
Definition sx : dataset Q := [("c", ColStr ["a"; "b"; "a"; "b"])].
Theorem C79_labels_from_target_refuted : exists (cf : gconf Q) x y e out, trained cf x y e /\ readable_data cf (join_frames x y) /\
  snd (predict cf x e) = Ok out /\ y = [("c", ColStr ["u"; "v"; "u"; "v"])] /\
  labels out "c" = [CStr "a"; CStr "b"; CStr "a"; CStr "b"] /\ snd (score cf x y e) = Ok n0.
Proof.
  exists qcf, sx, qy, (fst (fit qcf sx qy qe0)), [("c", [CStr "a"; CStr "b"; CStr "a"; CStr "b"])].
  assert (HF : fit qcf sx qy qe0 = (fst (fit qcf sx qy qe0), Ok tt)).
  { assert (X : snd (fit qcf sx qy qe0) = Ok tt) by (vm_compute; reflexivity). destruct (fit qcf sx qy qe0). cbn in *. now subst. }
  split; [|split; [|split; [vm_compute; reflexivity|split; [reflexivity|split; [reflexivity|vm_compute; reflexivity]]]]].
  - exists qe0, qe0, (fst (fit qcf sx qy qe0)). split; [exact qe_healthy|]. split; [exact HF|]. split; [apply used_self|]. intros Hd. discriminate Hd.
  - split; [reflexivity|]. split; [cbn; repeat constructor; cbn; intuition discriminate|].
    intros f c [H|[H|[]]]; injection H as <- <-; (split; [intros H; apply occurs_b in H; discriminate|cbn; auto]);
    repeat (apply Forall_cons; [apply one_readable; discriminate|]); apply Forall_nil.
Qed.
Example C80_nonvacuous : exists e1 e2, init_est_fit (F := Q) true 5 2 (nlit 1 1000) "MEAN" true "KOSKO" "saturation" [] false = Ok e1 /\
  init_est_fit (F := Q) false 5 2 (nlit 1 1000) "MEAN" true "KOSKO" "saturation" [] false = Ok e2 /\ e1 <> e2 /\
  snd (fit qcf qx qy e1) = Ok tt.
Proof.
  exists (made (init_est_fit (F := Q) true 5 2 (nlit 1 1000) "MEAN" true "KOSKO" "saturation" [] false)),
         (made (init_est_fit (F := Q) false 5 2 (nlit 1 1000) "MEAN" true "KOSKO" "saturation" [] false)).
  split; [vm_compute; reflexivity|]. split; [vm_compute; reflexivity|]. split; [|vm_compute; reflexivity].
  intros E. apply (f_equal (fun e => option_map m_fit (e_priv e))) in E. vm_compute in E. discriminate.
Qed.
(** a fit_inclination that reached the map would change arguments of activation functions *)
Definition qr0 : est Q := Eval vm_compute in
  made (init_est (F := Q) 5 2 (nlit 1 1000) "MEAN" true "KOSKO" "relm" [("lambda_val", AScal (nofZ 2))] false).
Example C80_would_matter : let m := set_fit (Some (nlit 75 100)) (e_map qr0) in
  let functions s := map (fun cn => nd_args (snd cn)) (m_topo (F := Q) s) in
  functions (g_fcm (fst (build_fcm qcf (join_frames qx qy) (dkeys qy) m (mkGen [] [] m)))) <> functions (e_map (fst (fit qcf qx qy qr0))).
Proof. vm_compute. discriminate. Qed.
(** targets given as an array are numbered after the features, which may hit the
    name of a feature *)
Definition ax : dataset Q := [("1", ColStr ["a"; "b"; "a"; "b"])].
Theorem C81_frame_and_array_refuted : exists (cf : gconf Q) e x l out,
  snd (fit_input cf (IFrame x) (IArr1 (ColStr l)) e) = Ok tt /\
  snd (predict_input cf (IFrame x) (fst (fit_input cf (IFrame x) (IArr1 (ColStr l)) e))) = Ok out /\
  In (CStr "a") (labels out "1") /\ ~ In "a" l.
Proof.
  exists qcf, qe0, ax, ["u"; "v"; "u"; "v"], [("1", [CStr "a"; CStr "b"; CStr "a"; CStr "b"])].
  split; [vm_compute; reflexivity|]. split; [vm_compute; reflexivity|]. split; [now left|]. cbn. intuition discriminate.
Qed.
Example C81_nonvacuous : snd (fit_input qcf (IList2 [ColStr ["a"; "b"]; ColInt [1; 2]%Z]) (IList1 (ColStr ["u"; "v"])) qe0) = Ok tt /\
  snd (predict_input qcf (IList2 [ColStr ["a"; "b"]; ColInt [1; 2]%Z])
         (fst (fit_input qcf (IList2 [ColStr ["a"; "b"]; ColInt [1; 2]%Z]) (IList1 (ColStr ["u"; "v"])) qe0))) = Ok [("2", [CStr "u"; CStr "v"])].
Proof. split; vm_compute; reflexivity. Qed.

Example C81_series_nonvacuous : snd (fit_input qcf (IFrame qx) (ISeries "c" (ColStr ["u"; "v"; "u"; "v"])) qe0) = Ok tt /\
  snd (fit_input qcf (IFrame qx) (IDict [("c", ColStr ["u"; "v"; "u"; "v"])]) qe0) = Ok tt /\
  snd (fit_input qcf (IFrame qx) (IDict [("c", ColStr ["u"; "v"]); ("d", ColStr ["u"])]) qe0) = Err EValue.
Proof. repeat split; vm_compute; reflexivity. Qed.

Print Assumptions C75_labels.
Print Assumptions C75_text.
Print Assumptions C75_numbers.
Print Assumptions C76_predict_succeeds.
Print Assumptions C77_fit_succeeds.
Print Assumptions C77_discrete_never_fails.
Print Assumptions C78_continuous_unpredicted.
Print Assumptions C78_score_fails.
Print Assumptions C78_score_key_error.
Print Assumptions C79_shared_name.
Print Assumptions C79_labels_from_target_refuted.
Print Assumptions C80_no_effect.
Print Assumptions C80_generator.
Print Assumptions C81_arrays.
Print Assumptions C81_refused.
Print Assumptions C81_other_inputs.
Print Assumptions C81_frame_and_array_refuted.
