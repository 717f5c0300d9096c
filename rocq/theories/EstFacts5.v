(** EstFacts5.v — what predict returns: which features, how many labels, and where
    the labels come from (C75, C78, C79). *)
From Coq Require Import Permutation.
From Verif Require Import Base BaseFacts Num Functions Fcm FcmSpec FcmRun FcmRun2 FcmRun3 LearnUtils LearnSpec LearnFacts Assoc AssocSpec AssocFacts AssocFacts2 AssocFacts3 AssocNames AssocNames2 Estimator EstFacts EstFacts3 EstSpec EstFacts4 AssocGen AssocPredict AssocResult AssocRow.

Section Shape.
Context {F : Type} {N : Num F}.
Variable cf : gconf F.
Hypothesis Hsep : c_sep cf = "___".
Hypothesis HO : reorders (c_ord cf).
Hypothesis mul_comm : forall a b : F, nmul a b = nmul b a.

Lemma best_In (outs : list (string * F)) : outs <> [] -> In (fst (best_class outs)) (map fst outs).
Proof.
  intros Ne. unfold best_class. destruct outs as [|[t v] l]; [congruence|].
  assert (G : forall l' b, In (fst b) (map fst ((t, v) :: l)) -> (forall z, In z l' -> In z ((t, v) :: l)) ->
    In (fst (fold_left (fun best vo => if nltb (snd best) (snd vo) then vo else best) l' b)) (map fst ((t, v) :: l))).
  { induction l' as [|z l' IH]; intros b Hb Hl; cbn [fold_left]; auto. apply IH.
    - destruct (nltb (snd b) (snd z)); auto. apply in_map. apply Hl. now left.
    - intros w Hw. apply Hl. now right. }
  apply G; [now left|auto].
Qed.
(** a row's answer *)
Lemma row_answer fds g r g' p : tidy fds g -> sane (g_fcm g) -> predict_row cf r g = (g', Ok p) ->
  exists g2, tidy fds g2 /\ p = flat_map (fun d => if is_class d then match fd_names d with [] => [] | _ => [(fd_feat d, class_cell (fst (best_class (outs_of cf (g_fcm g2) d))))] end else []) fds.
Proof.
  intros T S HP. unfold predict_row in HP.
  destruct (sthen _ _ g) as [g3 [u|er]] eqn:E3; [|discriminate].
  assert (M3 : moved g g3).
  { unfold sthen in E3. pose proof (moved_on OpClearExec g eq_refl) as M1. change (step OpClearExec) with (clear_execution (F := F)) in M1.
    destruct (on_fcm clear_execution g) as [g1 [v|er]]; [|discriminate]. cbn [fst] in M1.
    pose proof (moved_set_row cf r g1) as M4. unfold set_row in M4. rewrite E3 in M4. eapply moved_trans; eauto. }
  pose proof (moved_sane _ _ M3 S) as S3. pose proof (tidy_moved _ _ _ M3 T) as T3.
  destruct (result_spec cf Hsep fds g3 g' p T3 S3 HP) as (_ & _ & Ep).
  pose proof (moved_result cf g3) as M5. rewrite HP in M5. cbn [fst] in M5. exists g'. split; auto. now apply (tidy_moved _ _ _ M5).
Qed.
(** its entries *)
Definition told (fds : list (fdesc F)) (f : string) (v : cell F) : Prop :=
  exists d t, In d fds /\ fd_feat d = f /\ fd_type d = TYPE_DECISION /\ readable t /\
    In (append t (append "___" f)) (fd_names d) /\ v = class_cell t.
Lemma row_told fds g r g' p : tidy fds g -> sane (g_fcm g) -> predict_row cf r g = (g', Ok p) ->
  NoDup (map fst p) /\ (forall f v, In (f, v) p -> told fds f v) /\
  forall d, In d fds -> fd_type d = TYPE_DECISION -> fd_names d <> [] -> exists v, In (fd_feat d, v) p.
Proof.
  intros T S HP. destruct (row_answer _ _ _ _ _ T S HP) as (g2 & T2 & ->). split; [|split].
  - pose proof (td_feats _ _ T) as Nf. clear - Nf. induction fds as [|d l IH]; cbn [flat_map map]; [constructor|].
    cbn [map] in Nf. apply NoDup_cons_iff in Nf as [Nd Nf]. rewrite map_app. specialize (IH Nf).
    assert (X : forall f, In f (map fst (flat_map (fun d : fdesc F => if is_class d then match fd_names d with [] => [] | _ => [(fd_feat d, class_cell (F := F) (fst (best_class (outs_of cf (g_fcm g2) d))))] end else []) l)) -> In f (map fd_feat l)).
    { intros f Hf. apply in_map_iff in Hf as ([f' v] & <- & Hf). apply in_flat_map in Hf as (z & Hz & Hf). apply in_map_iff. exists z. split; auto.
      destruct (is_class z); [|easy]. destruct (fd_names z); [easy|]. destruct Hf as [[= <- _]|[]]. reflexivity. }
    destruct (is_class d); [|exact IH]. destruct (fd_names d); [exact IH|]. cbn. constructor; auto.
  - intros f v Hf. apply in_flat_map in Hf as (d & Hd & Hf). destruct (is_class d) eqn:Ec; [|easy].
    assert (On : fd_names d <> []) by (intros E; now rewrite E in Hf).
    assert (Hf' : (f, v) = (fd_feat d, class_cell (fst (best_class (outs_of cf (g_fcm g2) d))))) by (destruct (fd_names d); [easy|]; destruct Hf as [<-|[]]; reflexivity).
    injection Hf' as -> ->. clear Hf.
    assert (Oo : outs_of cf (g_fcm g2) d <> []) by (unfold outs_of; destruct (fd_names d); [congruence|discriminate]).
    pose proof (best_In _ Oo) as B. unfold outs_of in B at 2. rewrite map_map in B. cbn [fst] in B. apply in_map_iff in B as (c & Et & Hc).
    destruct (td_name _ _ T d c Hd Hc) as (t & -> & Rt).
    unfold text_of in Et. rewrite (info_name cf Hsep) in Et by (auto; apply (td_clean _ _ T d Hd)).
    exists d, t. apply String.eqb_eq in Ec. rewrite <- Et. auto 10.
  - intros d Hd Ht Hn. eexists. apply in_flat_map. exists d. split; auto. unfold is_class. rewrite Ht, String.eqb_refl.
    destruct (fd_names d); [congruence|]. left. reflexivity.
Qed.
Lemma labels_row p f : labels (append_all [] p) f = flat_map (fun fv => if String.eqb f (fst fv) then [snd fv] else []) p :> list (cell F).
Proof. now rewrite labels_all. Qed.
Lemma keys_append (acc : dict (list (cell F))) f v k : In k (dkeys (dappend acc f v)) <-> In k (dkeys acc) \/ k = f.
Proof.
  unfold dappend. rewrite dkeys_dset_In. tauto.
Qed.
Lemma keys_all (acc : dict (list (cell F))) p k : In k (dkeys (append_all acc p)) <-> In k (dkeys acc) \/ In k (map fst p).
Proof.
  unfold append_all. revert acc. induction p as [|[f v] p IH]; intros acc; cbn [fold_left map]; [cbn; tauto|].
  rewrite IH, keys_append. cbn. intuition auto.
Qed.
Lemma keys_rows ps (acc : dict (list (cell F))) k : In k (dkeys (fold_left append_all ps acc)) <-> In k (dkeys acc) \/ exists p, In p ps /\ In k (map fst p).
Proof.
  revert acc. induction ps as [|p ps IH]; intros acc; cbn [fold_left]; [firstorder|].
  rewrite IH, keys_all. firstorder subst; auto.
Qed.
Lemma Forall2_len {A B} (P : A -> B -> Prop) l l' : Forall2 P l l' -> length l = length l'.
Proof. induction 1; cbn; auto. Qed.
Lemma predict_told fds e x out : tidy fds (e_gen e) -> usable (g_fcm (e_gen e)) -> e_generated e = true ->
  snd (predict cf x e) = Ok out ->
  (forall f, In f (dkeys out) -> exists d, In d fds /\ fd_feat d = f /\ fd_type d = TYPE_DECISION /\ fd_names d <> []) /\
  (forall f v, In v (labels out f) -> told fds f v) /\
  forall d, In d fds -> fd_type d = TYPE_DECISION -> fd_names d <> [] -> length (labels out (fd_feat d)) = length (iterrows x).
Proof.
  intros T U G H. assert (S : sane (g_fcm (e_gen e))) by apply U. apply predict_ok in H as (ps & Hp & ->); auto.
  assert (Q : forall p, In p ps -> exists r g', predict_row cf r (e_gen e) = (g', Ok p)).
  { intros p Hi. clear - Hp Hi. induction Hp as [|r q rs qs Hr Hq IH]; [easy|]. destruct Hi as [<-|Hi]; auto.
    destruct (predict_row cf r (e_gen e)) as [g' o] eqn:E. cbn in Hr. subst. eauto. }
  split; [|split].
  - intros f Hf. apply keys_rows in Hf as [[]|(p & Hi & Hf)]. destruct (Q p Hi) as (r & g' & E).
    destruct (row_told _ _ _ _ _ T S E) as (_ & K & _). apply in_map_iff in Hf as ([f' v] & <- & Hf).
    destruct (K _ _ Hf) as (d & t & K1 & K2 & K3 & _ & K5 & _). exists d. repeat split; auto. intros En. now rewrite En in K5.
  - intros f v Hv. rewrite labels_fold in Hv. cbn [labels dget app] in Hv. apply in_flat_map in Hv as (p & Hi & Hv).
    rewrite labels_row in Hv. apply in_flat_map in Hv as ([f' w] & Hf & Hv). cbn [fst snd] in Hv.
    destruct (String.eqb_spec f f') as [<-|]; [|easy]. destruct Hv as [<-|[]]. destruct (Q p Hi) as (r & g' & E).
    destruct (row_told _ _ _ _ _ T S E) as (_ & K & _). now apply K.
  - intros d Hd Ht Hn. rewrite labels_fold. cbn [labels dget app]. rewrite (Forall2_len _ _ _ Hp). clear - Hsep Q T S Hd Ht Hn.
    induction ps as [|p ps IH]; auto. cbn [flat_map length]. rewrite app_length, IH by (intros q Hq; apply Q; now right).
    rewrite labels_row. destruct (Q p (or_introl eq_refl)) as (r & g' & E). destruct (row_told _ _ _ _ _ T S E) as (K1 & _ & K3).
    destruct (K3 d Hd Ht Hn) as [v Hv]. clear - K1 Hv.
    assert (X : length (flat_map (fun fv : string * cell F => if String.eqb (fd_feat d) (fst fv) then [snd fv] else []) p) = 1%nat); [|lia].
    induction p as [|[f w] p IH]; [easy|]. cbn [map fst] in K1. apply NoDup_cons_iff in K1 as [Nf K1]. cbn [flat_map fst snd].
    destruct Hv as [[= -> ->]|Hv].
    + rewrite String.eqb_refl. cbn. f_equal. clear - Nf. induction p as [|[f w] p IH]; auto. cbn [flat_map fst].
      destruct (String.eqb_spec (fd_feat d) f) as [E|E]; [exfalso; apply Nf; left; auto|]. apply IH. intros X. apply Nf. now right.
    + destruct (String.eqb_spec (fd_feat d) f) as [E|E]; [|now apply IH]. exfalso. apply Nf. rewrite <- E. now apply (in_map fst) in Hv.
Qed.
(** a feature of the training data that is predicted *)
Definition class_column (x y : dataset F) (f : string) (texts : list string) : Prop :=
  exists c rows, In (f, c) (join_frames x y) /\ In f (dkeys y) /\ levels cf c texts rows /\ is_discrete cf c texts /\ texts <> [].
Lemma Forall2_In_r {A B} (P : A -> B -> Prop) l l' b : Forall2 P l l' -> In b l' -> exists a, In a l /\ P a b.
Proof. induction 1; intros []; subst; firstorder. Qed.
Lemma predict_shape x y e0 e e' e2 x' out : healthy e0 e -> readable_data cf (join_frames x y) -> fit cf x y e = (e', Ok tt) -> used e' e2 ->
  (m_debug (e_map e0) = false -> concepts (e_map e') <> []) -> snd (predict cf x' e2) = Ok out ->
  (forall f, In f (dkeys out) -> exists texts, class_column x y f texts) /\
  (forall f texts, class_column x y f texts -> length (labels out f) = frame_rows x' /\ forall v, In v (labels out f) -> exists t, In t texts /\ v = class_cell t).
Proof.
  intros HH RD HF HU Dc HP. pose proof RD as (_ & ND & _).
  pose proof (healthy_estimator _ _ HH) as HE. pose proof (healthy_fit _ _ _ _ _ _ HH HF) as H1. pose proof (healthy_used _ _ _ H1 HU) as H2.
  pose proof (healthy_sane _ _ H2) as S2.
  destruct (fit_tidy cf Hsep x y e0 e e' HO mul_comm HE RD HF) as (fds & T & D & Nn & Ln & Eg & _).
  destruct (fit_base cf x y e0 e e' HE HF) as (_ & _ & Pn). destruct (used_moved e' e2 Pn HU) as (M & P2 & G2).
  assert (g2 : g_fcm (e_gen e2) = e_map e2) by (unfold e_gen; now rewrite P2).
  pose proof (tidy_moved _ _ _ M T) as T2.
  assert (G1 : e_generated e' = true).
  { unfold fit in HF. destruct (reset (e_gen e)) as [g1 [u|er]]; [|discriminate]. destruct (build_fcm _ _ _ _ _) as [g3 [u'|er]]; [|discriminate]. now injection HF as <-. }
  assert (U : usable (g_fcm (e_gen e2))).
  { rewrite g2. split; auto. rewrite (estimator_debug _ _ (healthy_estimator _ _ H2)). intros Dd X. apply (Dc Dd).
    rewrite <- Eg, (td_all _ _ T), <- (td_all _ _ T2), g2. exact X. }
  destruct (predict_told fds e2 x' out T2 U ltac:(congruence) HP) as (K1 & K2 & K3). split.
  - intros f Hf. destruct (K1 f Hf) as (d & Hd & <- & Ht & Hn). destruct (Forall2_In_r _ _ _ _ D Hd) as ([f c] & Hc & Hde).
    inversion Hde as [f' c' texts rows L Di Ef Ed|]; subst; cbn [fd_feat fd_type fd_names] in *; [|destruct (str_mem f (dkeys y)); discriminate].
    exists texts, c, rows. split; auto. split; [destruct (str_mem f (dkeys y)) eqn:E; [now apply str_mem_In|discriminate]|]. repeat split; auto. intros ->. now apply Hn.
  - intros f texts (c & rows & Hc & Hy & L & Di & Ne).
    assert (Hd : exists d, In d fds /\ described cf (dkeys y) (f, c) d).
    { clear - D Hc. induction D as [|a b l l' Hab HD IH]; [easy|]. destruct Hc as [->|Hc]; [exists b; split; [now left|auto]|]. destruct (IH Hc) as (d & ? & ?). exists d. split; auto. now right. }
    destruct Hd as (d & Hd & Hde). 
    assert (Xd : fd_feat d = f /\ fd_type d = TYPE_DECISION /\ exists texts', Permutation texts texts' /\ fd_names d = map (fun t => append t (append "___" f)) texts').
    { inversion Hde as [f' c' texts' rows' L' Di' Ef Ed|f' c' texts' ind data n vals mm rows' L' Di' Nu Hdisc Lr Hr Ef Ed]; subst; cbn [fd_feat fd_type fd_names].
      - apply str_mem_In in Hy. rewrite Hy, Hsep. pose proof (levels_perm _ _ _ _ _ _ L L') as P. eauto 10.
      - exfalso. apply Di'. pose proof (Permutation_length (levels_perm _ _ _ _ _ _ L L')) as E. unfold is_discrete in *. destruct c; auto; now rewrite <- E. }
    destruct Xd as (X1 & X2 & texts' & Pt & X3).
    assert (Hn : fd_names d <> []) by (rewrite X3; intros En; apply map_eq_nil in En; subst; apply Permutation_sym, Permutation_nil in Pt; congruence).
    specialize (K3 d Hd X2 Hn). rewrite X1 in K3. split; [rewrite K3; unfold iterrows; now rewrite map_length, seq_length|].
    intros v Hv. destruct (K2 f v Hv) as (d' & t & Y1 & Y2 & Y3 & Y4 & Y5 & Y6).
    assert (d' = d) as -> by (apply (same_desc fds); auto; [apply (td_feats _ _ T)|congruence]).
    exists t. split; auto. apply (Permutation_in t (Permutation_sym Pt)). rewrite X3 in Y5. apply in_map_iff in Y5 as (t' & Y5 & Y7). now apply append_cancel in Y5 as ->.
Qed.
End Shape.
