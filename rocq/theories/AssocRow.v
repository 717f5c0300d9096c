(** AssocRow.v — the concepts of a trained feature after a row has been set; labels. *)
From Coq Require Import Permutation Reals Lra.
From Verif Require Import Base BaseFacts Num Functions Fcm FcmSpec FcmBasics FcmInv FcmInv2 FcmInv3 FcmIter FcmRun FcmRun2 FcmRun3 FcmOrder VecSpec FcmVec FcmVec2 FcmVec3 FcmView LoaderSpec JoinFacts LearnUtils LearnSpec LearnFacts Assoc Estimator AssocSpec AssocFacts AssocFacts2 AssocFacts3 AssocFacts4 AssocFacts5 AssocNames AssocNames2 EstFacts EstFacts2 EstFacts3 EstSpec EstFacts4 AssocGen AssocPredict AssocResult AssocOrder AssocUnique.

Section Row.
Context {F : Type} {N : Num F}.
Implicit Types (g h : gen F) (s : fcm F) (e : est F).
Variable cf : gconf F.

Lemma distinct_perm {A} (leb : A -> A -> bool) (l us us' : list A) : distinct_sorted leb l us -> distinct_sorted leb l us' -> Permutation us us'.
Proof.
  intros [S1 I1] [S2 I2]. apply NoDup_Permutation.
  - clear - S1. induction S1 as [|z l Hs IH Hf]; constructor; auto. intros Hin. rewrite Forall_forall in Hf. destruct (Hf z Hin) as [_ H]. congruence.
  - clear - S2. induction S2 as [|z l Hs IH Hf]; constructor; auto. intros Hin. rewrite Forall_forall in Hf. destruct (Hf z Hin) as [_ H]. congruence.
  - intros z. rewrite I1, I2. tauto.
Qed.
Lemma levels_perm c t1 r1 t2 r2 : levels cf c t1 r1 -> levels cf c t2 r2 -> Permutation t1 t2.
Proof.
  intros H1 H2. destruct H1; inversion H2; subst.
  - eapply distinct_perm; eauto.
  - apply Permutation_map. eapply distinct_perm; eauto.
  - apply Permutation_map. eapply distinct_perm; eauto.
  - apply Permutation_refl.
Qed.
Lemma described_discrete targets f c texts rows d : described cf targets (f, c) d -> levels cf c texts rows -> is_discrete cf c texts ->
  fd_feat d = f /\ is_fuzzy_type (fd_type d) = false /\ forall t, In t texts -> In (append t (append (c_sep cf) f)) (fd_names d).
Proof.
  intros D L I. inversion D as [f' c' texts' rows' L' I' E1 E2|f' c' texts' ind data n vals ms rows' L' I' _ _ _ _ E1 E2]; subst.
  - cbn [fd_feat fd_type fd_names]. split; auto. split; [now destruct (str_mem f targets)|]. intros t Ht.
    apply in_map_iff. exists t. split; auto. eapply Permutation_in; [|exact Ht]. eapply levels_perm; eauto.
  - exfalso. apply I'. pose proof (Permutation_length (levels_perm _ _ _ _ _ L L')) as E. unfold is_discrete in *. destruct c; auto; now rewrite <- E.
Qed.
Lemma Forall2_In_l {A B} (P : A -> B -> Prop) l l' a : Forall2 P l l' -> In a l -> exists b, In b l' /\ P a b.
Proof.
  induction 1 as [|x y l l' H _ IH]; [easy|]. intros [<-|Hi]; [exists y; split; [now left|auto]|]. destruct (IH Hi) as (b & Hb & Hp). exists b. split; [now right|auto].
Qed.
Hypothesis Hsep : c_sep cf = "___".
(** clearing zeroes all values *)
Lemma cleared_values g g' c : on_fcm clear_execution g = (g', Ok tt) -> In c (concepts (g_fcm g)) -> value (g_fcm g') c = Some n0.
Proof.
  intros H Hc. unfold on_fcm in H. destruct (clear_values (g_fcm g)) as (_ & C). destruct (clear_execution (g_fcm g)) as [s' r]. injection H as <- ->. cbn [fst g_fcm set_fcm] in *.
  now apply C.
Qed.
Lemma append_cancel (a b c : string) : append a c = append b c -> a = b.
Proof.
  revert b. induction a as [|x a IH]; intros [|y b] E; auto.
  - exfalso. apply (f_equal String.length) in E. cbn in E. rewrite BaseFacts.append_length in E. lia.
  - exfalso. apply (f_equal String.length) in E. cbn in E. rewrite BaseFacts.append_length in E. lia.
  - cbn in E. injection E as -> E. f_equal. auto.
Qed.
Lemma row_values x y e0 e e' e2 f c texts rows r v t g' : reorders (c_ord cf) -> (forall a b : F, nmul a b = nmul b a) -> estimator e0 e ->
  readable_data cf (join_frames x y) -> fit cf x y e = (e', Ok tt) -> used e' e2 -> dc_func (m_default (e_map e0)) <> "fuzzy" ->
  In (f, c) (join_frames x y) -> levels cf c texts rows -> is_discrete cf c texts ->
  NoDup (map fst r) -> (forall f str, In (f, CStr str) r -> readable str) -> In (f, v) r -> cell_text cf v = Ok t ->
  sthen (on_fcm clear_execution) (sfold (fun fv => init_concept_by_feature_data cf (fst fv) (snd fv)) r) (e_gen e2) = (g', Ok tt) ->
  forall u, In u texts -> value (g_fcm g') (append u (append "___" f)) = Some (if String.eqb u t then n1 else n0).
Proof.
  intros HO comm HE RD HF HU Df Hc HL HI ND Hr Hv Ht HS u Hu.
  destruct (fit_tidy cf Hsep x y e0 e e' HO comm HE RD HF) as (fds & T & D & Nn & Ln & Eg & _).
  destruct (fit_base cf x y e0 e e' HE HF) as (ND' & K & Pn).
  destruct (used_moved e' e2 Pn HU) as (M & P2 & _).
  destruct (Forall2_In_l _ _ _ _ D Hc) as (d & Hd & Dd). destruct (described_discrete _ _ _ _ _ _ Dd HL HI) as (Ef & Tf & Tn). rewrite Hsep in Tn.
  pose proof (moved_wframe _ _ M) as (W1 & W2 & W3). rewrite Eg in W1, W2, W3.
  pose proof (tidy_moved _ _ _ M T) as T2.
  unfold sthen in HS. destruct (on_fcm clear_execution (e_gen e2)) as [g1 [[]|er]] eqn:E1; [|discriminate].
  assert (M1 : moved (e_gen e2) g1) by (pose proof (moved_on OpClearExec (e_gen e2) eq_refl) as M1; change (step OpClearExec) with (clear_execution (F := F)) in M1; rewrite E1 in M1; exact M1).
  pose proof (tidy_moved _ _ _ M1 T2) as T1.
  assert (Df1 : dc_func (m_default (g_fcm g1)) <> "fuzzy").
  { pose proof (moved_wframe _ _ M1) as (_ & _ & V3). apply settings_fit in V3 as [_ V3]. apply settings_fit in W3 as [_ W3]. rewrite V3, W3.
    destruct (fit_built _ _ _ _ _ _ HE HF) as (s & g2 & A & _ & _ & _ & _ & _).
    assert (S' : settings (e_map e') = settings (e_map e0)).
    { assert (HE' : estimator e0 e'). { destruct HE as [H0 (l & ->)]. split; auto. exists (l ++ [EFit cf x y]). rewrite eruns_app. cbn. now rewrite HF. }
      apply estimator_state in HE' as (_ & HE' & _). now apply est_settings. }
    apply settings_fit in S' as [_ S']. now rewrite S'. }
  pose proof (row_sets cf Hsep fds r g1 g' d v t (append u (append "___" f)) T1 Df1 (conj ND Hr) HS Hd Tf) as RS. rewrite Ef in RS.
  rewrite RS; auto.
  assert (Ru : In (append u (append "___" f)) (concepts (g_fcm (e_gen e2)))) by (apply (td_concepts _ _ T2); exists d; split; auto).
  rewrite (cleared_values _ _ _ E1 Ru). cbn [option_map]. f_equal.
  destruct (String.eqb_spec u t) as [->|Ne]; [now rewrite String.eqb_refl|].
  destruct (String.eqb_spec (append u (append "___" f)) (append t (append "___" f))) as [E|E]; auto. now apply append_cancel in E.
Qed.
End Row.
