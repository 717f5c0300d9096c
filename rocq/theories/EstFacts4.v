(** EstFacts4.v — predictions of several rows, and scores. *)
From Coq Require Import Permutation Reals Lra.
From Verif Require Import Base BaseFacts Num Functions Fcm FcmSpec FcmBasics FcmInv FcmInv2 FcmInv3 FcmIter FcmRun FcmRun2 FcmRun3 VecSpec FcmVec FcmVec2 FcmVec3 FcmView LearnUtils LearnSpec LearnFacts Assoc Estimator AssocSpec AssocFacts AssocFacts2 EstFacts EstFacts2 EstFacts3 EstSpec.

Lemma filter_length_le' {A} (p : A -> bool) l : (length (filter p l) <= length l)%nat.
Proof. induction l as [|a l IH]; cbn; auto. destruct (p a); cbn; lia. Qed.

Section EstFacts4.
Context {F : Type} {N : Num F}.
Implicit Types (g h : gen F) (s : fcm F) (e : est F).

(** ** Healthy estimators *)
Lemma fits_app l l' e : fits_ok (l ++ l') e <-> fits_ok l e /\ fits_ok l' (eruns l e).
Proof.
  revert e. induction l as [|c l IH]; intros e; cbn [fits_ok app].
  - unfold eruns. cbn. tauto.
  - rewrite IH. unfold eruns. cbn [fold_left]. tauto.
Qed.
Lemma eruns_app l l' e : eruns (l ++ l') e = eruns l' (eruns l e).
Proof. apply fold_left_app. Qed.
Lemma healthy_estimator e0 e : healthy e0 e -> estimator e0 e.
Proof. intros [H (l & _ & ->)]. split; auto. now exists l. Qed.
Lemma healthy_trail e0 e : healthy e0 e -> trail e0 e.
Proof.
  intros [(mi & ex & sd & de & me & xc & ac & kw & vec & H0) (l & Hl & ->)]. apply init_est_spec in H0 as (P & B & G & _).
  now apply fits_trail.
Qed.
Lemma healthy_sane e0 e : healthy e0 e -> sane (e_map e).
Proof.
  intros H. pose proof (healthy_trail _ _ H) as T. destruct H as [(mi & ex & sd & de & me & xc & ac & kw & vec & H0) _]. eapply est_sane; eauto.
Qed.
Lemma healthy_fit cf x y e0 e e' : healthy e0 e -> fit cf x y e = (e', Ok tt) -> healthy e0 e'.
Proof.
  intros [H (l & Hl & ->)] E. split; auto. exists (l ++ [EFit cf x y]). split.
  - apply fits_app. split; auto. cbn [fits_ok edo is_fit]. rewrite E. auto.
  - rewrite eruns_app. cbn. now rewrite E.
Qed.
Lemma nofits_ok l e : forallb (fun c => negb (is_fit c)) l = true -> fits_ok (F := F) l e.
Proof.
  revert e. induction l as [|c l IH]; intros e; cbn [fits_ok forallb]; auto. intros H. apply andb_true_iff in H as [H1 H2]. split; auto.
  intros X. rewrite X in H1. discriminate.
Qed.
Lemma healthy_used e0 e e' : healthy e0 e -> used e e' -> healthy e0 e'.
Proof.
  intros [H (l & Hl & ->)] (l' & Hl' & ->). split; auto. exists (l ++ l'). split; [|symmetry; apply eruns_app].
  apply fits_app. split; auto. now apply nofits_ok.
Qed.
Lemma predict_moved cf x e : e_priv e = None -> moved (e_gen e) (e_gen (fst (predict cf x e))) /\ e_priv (fst (predict cf x e)) = None /\
  e_generated (fst (predict cf x e)) = e_generated e.
Proof.
  intros P. unfold predict. destruct (e_generated e) eqn:G; [|cbn; rewrite G; split; [apply moved_refl|auto]].
  pose proof (moved_predict_rows cf (iterrows x) [] (e_gen e)) as M. destruct (predict_rows _ _ _ _) as [g r]. cbn [fst] in *.
  split; [|cbn; auto]. unfold e_gen at 2. cbn. destruct g. exact M.
Qed.
Lemma used_moved e e' : e_priv e = None -> used e e' -> moved (e_gen e) (e_gen e') /\ e_priv e' = None /\ e_generated e' = e_generated e.
Proof.
  intros P (l & Hl & ->). revert e P. induction l as [|c l IH]; intros e P; [split; [apply moved_refl|auto]|].
  cbn [forallb] in Hl. apply andb_true_iff in Hl as [H1 H2].
  assert (X : moved (e_gen e) (e_gen (fst (edo c e))) /\ e_priv (fst (edo c e)) = None /\ e_generated (fst (edo c e)) = e_generated e).
  { destruct c as [cf x y|cf x|cf x y]; [discriminate| |].
    - cbn [edo]. pose proof (predict_moved cf x e P) as M. destruct (predict cf x e). exact M.
    - cbn [edo]. pose proof (score_est cf x y e) as Es. destruct (score cf x y e) as [e1 r]. cbn in Es |- *. rewrite Es.
      pose proof (predict_moved cf x e P) as M. destruct (e_generated e) eqn:Eg; [exact M|]. split; [apply moved_refl|auto]. }
  destruct X as (X1 & X2 & X3). unfold eruns. cbn [fold_left]. destruct (IH H2 _ X2) as (Y1 & Y2 & Y3). unfold eruns in *.
  split; [eapply moved_trans; eauto|]. split; auto. congruence.
Qed.
Lemma healthy_priv e0 e : estimator e0 e -> e_generated e = true -> e_priv e = None.
Proof.
  intros [(mi & ex & sd & de & me & xc & ac & kw & vec & H0) (l & ->)] G. apply init_est_spec in H0 as (P & B & G0 & _).
  assert (X : forall l e, state_of e0 e -> (e_generated e = false \/ e_priv e = None) -> (e_generated (eruns l e) = false \/ e_priv (eruns l e) = None)).
  { clear l G. induction l as [|c l IH]; intros e S Ge; auto. unfold eruns. cbn [fold_left].
    assert (Y : state_of e0 (fst (edo c e)) /\ (e_generated (fst (edo c e)) = false \/ e_priv (fst (edo c e)) = None)).
    { destruct c; cbn [edo].
      + destruct (fit_cases cf x y e0 e B S) as [(er & _ & _ & Pn & Se & Pn')|(s & A & _ & _ & Em & _ & _ & Pn & _)]; (split; [|now right]).
        * right. split; auto. destruct S as [(q & Hq & _)|[_ S]]; congruence.
        * right. split; auto. rewrite Em. destruct (build_keeps cf (join_frames x y) (dkeys y) s (mkGen [] [] s)) as (ops & Bu & E & _).
          rewrite E. rewrite builds_settings by auto. clear - A. unfold alike, core in A. congruence.
      + destruct (predict_state cf x e0 e S Ge) as (P0 & P1 & P2). destruct (predict cf x e) as [e1 r]. cbn in *. split; auto.
        destruct Ge as [Ge|Ge]; [left; congruence|right; auto].
      + pose proof (score_est cf x y e) as Es. destruct (score cf x y e) as [e1 r]. cbn in Es |- *. rewrite Es.
        destruct (predict_state cf x e0 e S Ge) as (P0 & P1 & P2). destruct (e_generated e) eqn:Eg; auto.
        split; auto. destruct Ge as [Ge|Ge]; [discriminate|right; auto]. }
    destruct Y as [Y1 Y2]. apply IH; auto. }
  destruct (X l e0) as [X1|X1]; auto; [|congruence]. destruct P as (p & P1 & P2). left. eauto.
Qed.

(** ** Rows *)
Lemma pick_length {A} is (l : list A) : Forall (fun i => i < length l)%nat is -> length (pick is l) = length is.
Proof.
  induction 1 as [|i is Hi _ IH]; auto. unfold pick in *. cbn. rewrite app_length, IH. apply nth_error_Some in Hi. now destruct (nth_error l i).
Qed.
Lemma pick_nth {A} is (l : list A) k i : Forall (fun i => i < length l)%nat is -> nth_error is k = Some i -> nth_error (pick is l) k = nth_error l i.
Proof.
  intros H. revert k. induction H as [|j is Hj _ IH]; intros k Hk; [now destruct k|]. unfold pick in *. cbn. apply nth_error_Some in Hj.
  destruct (nth_error l j) as [a|] eqn:E; [|congruence]. destruct k; cbn in *; [injection Hk as <-; now rewrite E|auto].
Qed.
Lemma pick_map {A B} (f : A -> B) is l : pick is (map f l) = map f (pick is l).
Proof.
  unfold pick. induction is as [|i is IH]; auto. cbn. rewrite map_app, <- IH. f_equal. rewrite nth_error_map. now destruct (nth_error l i).
Qed.
Lemma pick_all {A} (l : list A) : pick (seq 0 (length l)) l = l.
Proof.
  assert (G : forall post pre, flat_map (fun i => match nth_error (pre ++ post) i with Some a => [a] | None => [] end) (seq (length pre) (length post)) = post :> list A).
  { induction post as [|a post IH]; intros pre; auto. cbn [length seq flat_map]. rewrite nth_error_app2, Nat.sub_diag by lia. cbn [nth_error app]. f_equal.
    specialize (IH (pre ++ [a])). rewrite <- app_assoc, app_length in IH. cbn in IH. now rewrite Nat.add_1_r in IH. }
  apply (G l []).
Qed.
Definition pick_col is (c : column F) : column F :=
  match c with
  | ColStr l => ColStr (pick is l) | ColBool l => ColBool (pick is l)
  | ColInt l => ColInt (pick is l) | ColFlt l => ColFlt (pick is l)
  end.
Lemma pick_cells is c : col_cells (pick_col is c) = pick is (col_cells (F := F) c).
Proof. destruct c; cbn; now rewrite pick_map. Qed.
Lemma cells_length c : length (col_cells (F := F) c) = col_length c.
Proof. destruct c; cbn; apply map_length. Qed.
(** the i-th row of a table *)
Definition row_at (x : dataset F) (i : nat) : row :=
  flat_map (fun c => match nth_error (col_cells (snd c)) i with
                     | Some v => [(fst c, upcast (forallb (fun c => is_numeric_col (snd c)) x && existsb (fun c => is_float_col (snd c)) x) v)]
                     | None => []
                     end) x.
Lemma forallb_map' {A B} (p : B -> bool) (f : A -> B) l : forallb p (map f l) = forallb (fun a => p (f a)) l.
Proof. induction l; cbn; congruence. Qed.
Lemma existsb_map' {A B} (p : B -> bool) (f : A -> B) l : existsb p (map f l) = existsb (fun a => p (f a)) l.
Proof. induction l; cbn; congruence. Qed.
Lemma iterrows_pick n x is : table n x -> Forall (fun i => i < n)%nat is -> iterrows (pick_rows is x) = map (row_at x) is.
Proof.
  intros [Hx Ht] Hi. unfold iterrows.
  assert (E1 : forallb (fun c : string * column F => is_numeric_col (snd c)) (pick_rows is x) && existsb (fun c => is_float_col (snd c)) (pick_rows is x)
     = forallb (fun c => is_numeric_col (snd c)) x && existsb (fun c => is_float_col (snd c)) x).
  { unfold pick_rows. rewrite forallb_map', existsb_map'. f_equal.
    - clear. induction x as [|[f c] x IH]; [auto|]. cbn [forallb]. f_equal; [now destruct c|exact IH].
    - clear. induction x as [|[f c] x IH]; [auto|]. cbn [existsb]. f_equal; [now destruct c|exact IH]. }
  rewrite E1.
  assert (E2 : frame_rows (pick_rows is x) = length is).
  { destruct x as [|[f c] x]; [congruence|]. unfold pick_rows. cbn. specialize (Ht f c (or_introl eq_refl)).
    change (col_length (pick_col is c) = length is). rewrite <- cells_length, pick_cells. apply pick_length. now rewrite cells_length, Ht. }
  rewrite E2. 
  assert (G : forall k i, nth_error is k = Some i -> flat_map (fun c : string * column F => match nth_error (col_cells (snd c)) k with
                                   | Some v => [(fst c, upcast (forallb (fun c => is_numeric_col (snd c)) x && existsb (fun c => is_float_col (snd c)) x) v)]
                                   | None => []
                                   end) (pick_rows is x) = row_at x i).
  { intros k i Hk. unfold row_at. generalize (forallb (fun c : string * column F => is_numeric_col (snd c)) x && existsb (fun c => is_float_col (snd c)) x). intros up.
    clear Hx E1 E2. induction x as [|[f c] x IH]; auto. unfold pick_rows in *. cbn [map flat_map fst snd]. rewrite IH by (intros f' c' H; apply (Ht f'); now right). f_equal.
    fold (pick_col is c). rewrite pick_cells, (pick_nth _ _ _ i); auto. now rewrite cells_length, (Ht f c (or_introl eq_refl)). }
  apply nth_error_ext. intros k. rewrite !nth_error_map.
  destruct (nth_error is k) as [i|] eqn:E.
  - assert (Hk : (k < length is)%nat) by (apply nth_error_Some; congruence).
    rewrite (nth_error_nth' _ 0%nat) by now rewrite seq_length. rewrite seq_nth by auto. cbn [option_map plus]. f_equal. now apply G.
  - apply nth_error_None in E. replace (nth_error (seq 0 (length is)) k) with (@None nat); [reflexivity|]. symmetry. apply nth_error_None. now rewrite seq_length.
Qed.
Lemma pick_rows_all n (x : dataset F) : table n x -> pick_rows (seq 0 n) x = x.
Proof.
  intros [_ H]. unfold pick_rows. rewrite <- (map_id x) at 2. apply map_ext_in. intros [f c] Hc. cbn [fst snd]. f_equal. specialize (H f c Hc).
  destruct c; cbn in H; subst n; now rewrite pick_all.
Qed.

(** ** Results *)
Lemma labels_append acc f' v f : labels (dappend acc f' v) f = labels acc f ++ (if String.eqb f f' then [v] else []) :> list (cell F).
Proof.
  unfold labels, dappend. destruct (dget acc f') as [l|] eqn:E.
  - destruct (String.eqb_spec f f') as [->|Ne].
    + rewrite dget_dset_same, E. reflexivity.
    + rewrite dget_dset_other by auto. now rewrite app_nil_r.
  - destruct (String.eqb_spec f f') as [->|Ne].
    + rewrite dget_dset_same, E. reflexivity.
    + rewrite dget_dset_other by auto. now rewrite app_nil_r.
Qed.
Lemma labels_all acc p f : labels (append_all acc p) f = labels acc f ++ flat_map (fun fv => if String.eqb f (fst fv) then [snd fv] else []) p :> list (cell F).
Proof.
  unfold append_all. revert acc. induction p as [|[f' v] p IH]; intros acc; cbn [fold_left flat_map]; [now rewrite app_nil_r|].
  rewrite IH, labels_append, <- app_assoc. reflexivity.
Qed.
Lemma labels_fold ps acc f : labels (fold_left append_all ps acc) f = labels acc f ++ flat_map (fun p => labels (append_all [] p) f) ps :> list (cell F).
Proof.
  revert acc. induction ps as [|p ps IH]; intros acc; cbn [fold_left flat_map]; [now rewrite app_nil_r|].
  rewrite IH, !labels_all, <- app_assoc. reflexivity.
Qed.
Lemma predict_ok cf x e out : usable (g_fcm (e_gen e)) -> e_generated e = true ->
  snd (predict cf x e) = Ok out <-> exists ps, Forall2 (fun r p => snd (predict_row cf r (e_gen e)) = Ok p) (iterrows x) ps /\ out = fold_left append_all ps [].
Proof.
  intros U G. unfold predict. rewrite G. rewrite <- predict_rows_spec by auto. now destruct (predict_rows _ _ _ _).
Qed.
Lemma Forall2_map_l {A B C} (P : B -> C -> Prop) (f : A -> B) l l' : Forall2 P (map f l) l' <-> Forall2 (fun a c => P (f a) c) l l'.
Proof.
  split.
  - revert l'. induction l as [|a l IH]; intros l' H; inversion H; subst; constructor; auto.
  - induction 1; cbn; constructor; auto.
Qed.
Lemma predict_one cf n x i e o : table n x -> (i < n)%nat -> usable (g_fcm (e_gen e)) -> e_generated e = true ->
  snd (predict cf (pick_rows [i] x) e) = Ok o <-> exists p, snd (predict_row cf (row_at x i) (e_gen e)) = Ok p /\ o = append_all [] p.
Proof.
  intros Ht Hi U G. rewrite predict_ok by auto. rewrite (iterrows_pick n) by auto. cbn [map]. split.
  - intros (ps & H & ->). inversion H as [|? p ? ps' Hp H']; subst. inversion H'; subst. exists p. auto.
  - intros (p & Hp & ->). exists [p]. split; auto.
Qed.
Lemma predict_many cf n x is e : table n x -> Forall (fun i => i < n)%nat is -> usable (g_fcm (e_gen e)) -> e_generated e = true ->
  ((exists out, snd (predict cf (pick_rows is x) e) = Ok out) <-> exists os, Forall2 (fun i o => snd (predict cf (pick_rows [i] x) e) = Ok o) is os) /\
  forall out os, snd (predict cf (pick_rows is x) e) = Ok out -> Forall2 (fun i o => snd (predict cf (pick_rows [i] x) e) = Ok o) is os ->
    forall f, labels out f = flat_map (fun o => labels o f) os.
Proof.
  intros Ht Hi U G.
  assert (K : forall os, Forall2 (fun i o => snd (predict cf (pick_rows [i] x) e) = Ok o) is os <->
     exists ps, Forall2 (fun i p => snd (predict_row cf (row_at x i) (e_gen e)) = Ok p) is ps /\ os = map (append_all []) ps).
  { induction Hi as [|i is Hi His IH]; intros os.
    - split; [intros H; inversion H; exists []; auto|]. intros (ps & H & ->). inversion H. constructor.
    - split.
      + intros H. inversion H as [|? o ? os' Ho H']; subst. apply IH in H' as (ps & H1 & ->).
        apply (predict_one cf n) in Ho as (p & Hp & ->); auto. exists (p :: ps). split; auto.
      + intros (ps & H & ->). inversion H as [|? p ? ps' Hp H']; subst. cbn [map]. constructor; [apply (predict_one cf n); eauto|]. apply IH. eauto. }
  assert (L : forall out, snd (predict cf (pick_rows is x) e) = Ok out <-> exists ps, Forall2 (fun i p => snd (predict_row cf (row_at x i) (e_gen e)) = Ok p) is ps /\ out = fold_left append_all ps []).
  { intros out. rewrite predict_ok, (iterrows_pick n) by auto. split; intros (ps & H & ->); exists ps; (split; [|reflexivity]); [rewrite Forall2_map_l in H|rewrite Forall2_map_l]; exact H. }
  split.
  - split.
    + intros (out & H). apply L in H as (ps & H & _). exists (map (append_all []) ps). apply K. eauto.
    + intros (os & H). apply K in H as (ps & H & _). exists (fold_left append_all ps []). apply L. eauto.
  - intros out os H1 H2 f. apply L in H1 as (ps & H1 & ->). apply K in H2 as (ps' & H2 & ->).
    assert (ps = ps'). { clear - H1 H2. revert ps' H2. induction H1 as [|i p is ps Hp _ IH]; intros ps' H2; inversion H2; subst; auto. f_equal; [congruence|auto]. }
    subst ps'. rewrite labels_fold. cbn [labels dget app]. now rewrite flat_map_concat_map, (flat_map_concat_map _ (map _ _)), map_map.
Qed.

(** ** Scores *)
Lemma same_label_eq a b : same_label a b = cell_eq (F := F) a b.
Proof. destruct a, b; reflexivity. Qed.
Definition sstep (predicted : dict (list (cell F))) (f : string) : nat * nat -> nat * cell F -> res (nat * nat) := fun acc iv =>
  (col <- dget_exn predicted f ;;
   p <- (match nth_error col (fst iv) with Some p => Ok p | None => Err (EKey f) end) ;;
   Ok (if cell_eq (snd iv) p then S (fst acc) else fst acc, S (snd acc)))%res.
Lemma sstep_eq predicted f (h t k : nat) v : sstep predicted f (h, t) (k, v) =
  match nth_error (labels predicted f) k with
  | Some p => Ok (if cell_eq v p then S h else h, S t)
  | None => Err (EKey f)
  end.
Proof.
  unfold sstep, labels, dget_exn. destruct (dget predicted f) as [col|]; cbn; [now destruct (nth_error col k)|]. now destruct k.
Qed.
Lemma rfold_column (cells : list (cell F)) f (predicted : dict (list (cell F))) : forall (k h t h' t' : nat),
  rfold (sstep predicted f) (combine (seq k (length cells)) cells) (h, t) = Ok (h', t') <->
  (length cells <= length (skipn k (labels predicted f)))%nat /\ t' = (t + length cells)%nat /\
  h' = (h + length (filter (fun lp => same_label (fst lp) (snd lp)) (combine cells (skipn k (labels predicted f)))))%nat.
Proof.
  induction cells as [|v cells IH]; intros k h t h' t'; cbn [length seq combine rfold filter].
  - split; [intros [= <- <-]; repeat split; lia|]. intros (_ & -> & ->). repeat f_equal; lia.
  - rewrite sstep_eq. destruct (nth_error (labels predicted f) k) as [p|] eqn:Ek; cbn [rbind].
    + assert (Es : skipn k (labels predicted f) = p :: skipn (S k) (labels predicted f)).
      { clear - Ek. revert k Ek. induction (labels predicted f) as [|c col IH]; intros k Ek; [destruct k; discriminate|]. destruct k; cbn in *; [congruence|]. now apply IH. }
      rewrite Es. cbn [length combine filter fst snd]. rewrite IH, same_label_eq. destruct (cell_eq v p); cbn [length]; split; intros (H1 & H2 & H3); repeat split; lia.
    + split; [discriminate|]. intros (H & _). apply nth_error_None in Ek. rewrite skipn_length in H. lia.
Qed.
Lemma rfold_labels (y : dataset F) predicted : forall h t h' t' : nat,
  rfold (score_column predicted) y (h, t) = Ok (h', t') <->
  covered predicted y /\ t' = (t + label_count y)%nat /\ h' = (h + hits predicted y)%nat.
Proof.
  unfold covered, label_count, hits, compared. induction y as [|[f c] y IH]; intros h t h' t'; cbn [rfold flat_map].
  - cbn. split; [intros [= <- <-]; split; [intros f c []|split; lia]|]. intros (_ & -> & ->). repeat f_equal; lia.
  - cbn [fst snd]. rewrite filter_app, !app_length.
    destruct (score_column predicted (h, t) (f, c)) as [[h1 t1]|er] eqn:E; cbn [rbind].
    + unfold score_column in E. cbn [fst snd] in E. rewrite <- cells_length in E. fold (sstep predicted f) in E. apply rfold_column in E. cbn [skipn] in E. destruct E as (E1 & E2 & E3).
      rewrite IH. split.
      * intros (H1 & H2 & H3). split; [|split; lia]. intros f' c' [[= <- <-]|H]; eauto.
      * intros (H1 & H2 & H3). split; [|split; lia]. intros f' c' H. apply H1. now right.
    + split; [discriminate|]. intros (H & _). exfalso. specialize (H f c (or_introl eq_refl)).
      assert (X : score_column predicted (h, t) (f, c) = Ok ((h + length (filter (fun lp => same_label (fst lp) (snd lp)) (combine (col_cells c) (labels predicted f))))%nat, (t + length (col_cells c))%nat)).
      { unfold score_column. cbn [fst snd]. rewrite <- cells_length. fold (sstep predicted f). apply rfold_column. cbn [skipn]. auto. }
      congruence.
Qed.
Lemma score_ok cf x y e v : snd (score cf x y e) = Ok v <->
  e_generated e = true /\ exists out, snd (predict cf x e) = Ok out /\ covered out y /\ pdiv (nat2F (hits out y)) (nat2F (label_count y)) = Ok v.
Proof.
  unfold score. destruct (e_generated e); [|split; [discriminate|intros [H _]; discriminate]].
  destruct (predict cf x e) as [e1 [out|er]]; cbn [fst snd rbind].
  - destruct (rfold (score_column out) y (0%nat, 0%nat)) as [[h t]|er] eqn:E; cbn [rbind].
    + apply rfold_labels in E as (E1 & E2 & E3). cbn in E2, E3. subst. split.
      * intros H. split; auto. exists out. auto.
      * intros (_ & out' & [= <-] & _ & H). exact H.
    + split; [discriminate|]. intros (_ & out' & [= <-] & H & _). exfalso.
      assert (X : rfold (score_column out) y (0%nat, 0%nat) = Ok (hits out y, label_count y)) by (apply rfold_labels; auto). congruence.
  - split; [discriminate|]. intros (_ & out & [=] & _).
Qed.
Lemma hits_le out (y : dataset F) : covered out y -> (hits out y <= label_count y)%nat.
Proof.
  intros H. unfold hits, label_count, compared. eapply Nat.le_trans; [apply filter_length_le'|].
  clear H. induction y as [|[f c] y IH]; cbn [flat_map]; auto. rewrite !app_length, combine_length. cbn [fst snd]. lia.
Qed.
End EstFacts4.
