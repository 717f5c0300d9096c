(** NameFacts2.v — predicting with other names of features and values (C106). *)
From Verif Require Import Base BaseFacts Num Functions Fcm FcmSpec FcmBasics FcmInv FcmInv2 FcmInv3 LoaderSpec LoaderFacts LearnUtils LearnSpec LearnFacts Assoc Estimator EstSpec AssocSpec AssocFacts AssocFacts2 AssocFacts3 AssocFacts4
  AssocNames AssocNames2 EstFacts EstFacts2 EstFacts3 EstFacts4 AssocGen AssocPredict FcmRename FcmRun FcmBasics NameFacts.

Section Names.
Context {F : Type} {N : Num F}.
Variable cf : gconf F.
Hypothesis Hsep : c_sep cf = "___".
Variable phi : string -> string.
Variable psi : string -> string -> string.
Hypothesis phi_inj : forall a b, phi a = phi b -> a = b.
Hypothesis psi_inj : forall f a b, psi f a = psi f b -> a = b.
Hypothesis phi_clean : forall f, ~ occurs "___" f -> ~ occurs "___" (phi f).
Hypothesis psi_readable : forall f v, readable v -> readable (psi f v).
Variable ord' : list string -> list string.
Variable disc' : string -> list F -> res (nat * list F * list (list F)).
Notation oconf := (oconf cf ord' disc').
Notation rho := (rho cf phi psi).
Notation reng := (reng cf phi psi).
Notation gkin := (gkin cf phi psi).
Notation mov := (mov cf phi psi).
Notation inj := (rho_inj cf Hsep phi psi phi_inj psi_inj phi_clean psi_readable).

(** ** One value *)
Definition rcell (f : string) (v : cell F) : cell F := match v with CStr s => CStr (psi f s) | _ => v end.
Definition suited (f : string) (v : cell F) : Prop := ~ occurs "___" f /\ match v with CStr s => readable s | _ => forall t, psi f t = t end.
Lemma num_cell f v : cell_num (rcell f v) = cell_num v.
Proof. now destruct v. Qed.
Lemma text_cell f v : suited f v -> cell_text oconf (rcell f v) = (t <- cell_text cf v ;; Ok (psi f t))%res /\ forall t, cell_text cf v = Ok t -> readable t.
Proof.
  intros [_ H]. destruct v as [s|b|z|x]; cbn in *; (split; [|intros t]).
  - reflexivity.
  - now intros [= <-].
  - now rewrite H.
  - intros [= <-]. apply int_readable.
  - now rewrite H.
  - intros [= <-]. apply int_readable.
  - destruct (c_trunc cf x); cbn; [now rewrite H|reflexivity].
  - destruct (c_trunc cf x); [|discriminate]. cbn. intros [= <-]. apply int_readable.
Qed.
Lemma mov_init_concept c x : mov (on_fcm (init_concept c x false)) (on_fcm (init_concept (rho c) x false)).
Proof. apply mov_on. intros s. apply (init_concept_ren rho inj). Qed.
Lemma mov_cell f v : suited f v -> mov (init_concept_by_feature_data cf f v) (init_concept_by_feature_data oconf (phi f) (rcell f v)).
Proof.
  intros Hs g. unfold init_concept_by_feature_data. destruct (text_cell f v Hs) as [Et Hr].
  match goal with |- gkin _ (let '(_, _) := ?a in _) (let '(_, _) := ?c in _) => assert (M : gkin eq a c) end.
  2:{ destruct M as [E S]. match goal with |- gkin _ (let '(_, _) := ?a in _) (let '(_, _) := ?c in _) => destruct a as [g1 [u|e]], c as [g2 [u'|e']] end; cbn in E, S; try contradiction; subst g2; split; cbn; auto. }
  apply (mov_swith cf phi psi eq); [intros; now apply type_ren|]. intros t ? <-.
  destruct (String.eqb t TYPE_FUZZY || String.eqb t TYPE_REGRESOR).
  - apply (mov_swith cf phi psi (named cf phi psi)); [intros; now apply names_ren|]. intros ns ? ->. apply mov_sfold. intros c _. rewrite num_cell. apply mov_swith_eq; [reflexivity|]. intros x. apply mov_init_concept.
  - intros g'. unfold swith. rewrite Et. destruct (cell_text cf v) as [text|e]; cbn [rbind]; [|apply gkin_ret; cbn; apply same_exn_refl].
    rewrite (name_full cf Hsep), (name_full' cf Hsep ord' disc'). destruct Hs as [Hf _]. rewrite <- (rho_full cf Hsep phi psi f text (Hr text eq_refl) Hf). apply mov_init_concept.
Qed.

(** ** The answer for a row *)
Definition proper (c : string) : Prop := exists f v, c = full f v /\ readable v /\ ~ occurs "___" f.
Lemma dkeys_set {A} (d : dict A) k v c : In c (dkeys (dset d k v)) -> c = k \/ In c (dkeys d).
Proof. rewrite dkeys_dset_In. tauto. Qed.
Lemma rfold_keys (f : dict F -> string -> res (dict F)) l : (forall acc c acc', f acc c = Ok acc' -> forall k, In k (dkeys acc') -> k = c \/ In k (dkeys acc)) ->
  forall acc acc', rfold f l acc = Ok acc' -> forall k, In k (dkeys acc') -> In k l \/ In k (dkeys acc).
Proof.
  intros H. induction l as [|c l IH]; intros acc acc' E k Hk; cbn [rfold] in E; [injection E as <-; auto|].
  destruct (f acc c) as [a|] eqn:Ea; [|discriminate]. cbn [rbind] in E. destruct (IH _ _ E k Hk) as [X|X]; [left; now right|]. destruct (H _ _ _ Ea k X) as [->|Y]; [left; now left|auto].
Qed.
Lemma final_keys (s : fcm F) st : get_final_state "target" [] s = Ok st -> forall k, In k (dkeys st) -> In k (dkeys (m_exec s)).
Proof.
  unfold get_final_state. cbn [length Nat.ltb Nat.leb]. intros H k Hk. apply (rfold_keys _ _) with (k := k) in H; [destruct H as [|[]]; auto| |exact Hk].
  intros acc c acc' E z Hz. unfold dget_exn in E. destruct (dget (m_topo s) c) as [n|]; [|discriminate]. cbn [rbind] in E. destruct (nd_type n) as [ty|]; [|discriminate]. cbn [oget rbind] in E.
  change (String.eqb "target" "any") with false in E. change (String.eqb "target" "target") with true in E. cbv iota in E.
  destruct (String.eqb ty "target"), (String.eqb ty TYPE_DECISION || String.eqb ty TYPE_REGRESOR); cbn in E; injection E as <-; auto; repeat (apply dkeys_set in Hz as [->|Hz]; [now left|]); auto.
Qed.
Definition rout (f : string) (l : list (string * F)) : list (string * F) := map (fun iv => (psi f (fst iv), snd iv)) l.
Definition routs (d : dict (list (string * F))) : dict (list (string * F)) := ren_dict phi rout d.
Definition grouped (d d' : dict (list (string * F))) : Prop := d' = routs d /\ Forall (fun p => snd p <> []) d.
Lemma append_grouped d f iv : Forall (fun p => snd p <> []) d -> dappend (routs d) (phi f) (psi f (fst iv), snd iv) = routs (dappend d f iv) /\ Forall (fun p => snd p <> []) (dappend d f iv).
Proof.
  intros H. unfold dappend. split.
  - unfold routs at 2. rewrite (dget_ren phi phi_inj rout). rewrite <- (dset_ren phi phi_inj rout). f_equal. destruct (dget d f); cbn; unfold rout; [now rewrite map_app|reflexivity].
  - set (l := match dget d f with Some l => l | None => [] end). clearbody l. induction H as [|[k w] d Hk Hd IH]; cbn [dset]; [constructor; [cbn; destruct l; discriminate|constructor]|].
    destruct (String.eqb f k); constructor; auto. cbn. destruct l; discriminate.
Qed.
Lemma groups_ren g st : (forall c, In c (dkeys st) -> proper c) -> same_res grouped (group_results cf g st) (group_results oconf (reng g) (ren_dict rho (fun _ x => x) st)).
Proof.
  intros H. unfold group_results. 
  assert (G : forall st, (forall c, In c (dkeys st) -> proper c) -> forall acc, Forall (fun p => snd p <> []) acc ->
    same_res grouped (rfold (fun acc cv => let '(concept, v) := cv in ('(feat_name, info) <- get_feature_and_info cf concept ;; t <- get_type g feat_name ;;
              Ok (if String.eqb t TYPE_FUZZY || String.eqb t TYPE_REGRESOR then acc else dappend acc feat_name (info, v)))%res) st acc)
      (rfold (fun acc cv => let '(concept, v) := cv in ('(feat_name, info) <- get_feature_and_info oconf concept ;; t <- get_type (reng g) feat_name ;;
              Ok (if String.eqb t TYPE_FUZZY || String.eqb t TYPE_REGRESOR then acc else dappend acc feat_name (info, v)))%res) (ren_dict rho (fun _ x => x) st) (routs acc))).
  2:{ apply (G st H []). constructor. }
  clear st H. induction st as [|[c v] st IH]; intros H acc Ha; cbn [rfold ren_dict map]; [split; auto|].
  destruct (H c (or_introl eq_refl)) as (f & t & -> & Ht & Hf). cbn [fst snd]. rewrite (rho_full cf Hsep phi psi f t Ht Hf). unfold full.
  rewrite (info_name cf Hsep f t Ht Hf), (info_name oconf Hsep (phi f) (psi f t)) by auto. cbn [rbind].
  pose proof (type_ren cf phi psi phi_inj g f) as T. destruct (get_type g f) as [ty|e], (get_type (reng g) (phi f)) as [ty'|e']; cbn in T; try contradiction; cbn [rbind]; [subst ty'|exact T].
  destruct (String.eqb ty TYPE_FUZZY || String.eqb ty TYPE_REGRESOR); [apply IH; auto; intros; apply H; now right|].
  destruct (append_grouped acc f (t, v) Ha) as [E1 E2]. cbn [fst snd] in E1. rewrite E1. apply IH; auto. intros; apply H; now right.
Qed.
Lemma best_ren f outs : outs <> [] -> fst (best_class (rout f outs)) = psi f (fst (best_class outs)).
Proof.
  intros H. unfold best_class. destruct outs as [|[t w] outs]; [easy|]. cbn [rout map fst snd].
  assert (G : forall l (b : string * F), fold_left (fun best vo => if nltb (snd best) (snd vo) then vo else best) (map (fun iv => (psi f (fst iv), snd iv)) l) (psi f (fst b), snd b) =
     (psi f (fst (fold_left (fun best vo => if nltb (snd best) (snd vo) then vo else best) l b)), snd (fold_left (fun best vo => if nltb (snd best) (snd vo) then vo else best) l b))).
  { induction l as [|[t' w'] l IH]; intros b; [reflexivity|]. cbn [map fold_left fst snd]. destruct (nltb (snd b) w'); [apply (IH (t', w'))|apply IH]. }
  pose proof (G ((t, w) :: outs) (t, nofZ (-1))) as X. cbn [map fst snd] in X. rewrite X. reflexivity.
Qed.
Definition same_label (r : string -> string) (c c' : cell F) : Prop := exists v, c = class_cell v /\ c' = class_cell (r v).
Definition answered (d d' : dict (cell F)) : Prop := Forall2 (fun p p' => fst p' = phi (fst p) /\ same_label (psi (fst p)) (snd p) (snd p')) d d'.
Lemma cells_ren d : Forall (fun p => snd p <> []) d -> answered (get_discrete_feature_result d) (get_discrete_feature_result (routs d)).
Proof.
  induction 1 as [|[f outs] d H _ IH]; cbn; [constructor|]. constructor; [|exact IH]. cbn [fst snd]. split; [reflexivity|]. exists (fst (best_class outs)). split; [reflexivity|]. f_equal. apply (best_ren f outs H).
Qed.
Lemma run_true g : gkin eq (on_fcm (run_inference true) g) (on_fcm (run_inference true) (reng g)).
Proof. apply mov_on. intros s. apply (run_ren rho inj). Qed.
Lemma result_ren g : (forall g', moved g g' -> forall c, In c (dkeys (m_exec (g_fcm g'))) -> proper c) -> gkin answered (get_inference_result cf g) (get_inference_result oconf (reng g)).
Proof.
  intros P. unfold get_inference_result. destruct (run_true g) as [E S].
  pose proof (moved_on (OpRun true) g eq_refl) as M. change (step (F := F) (OpRun true)) with (run_inference (F := F) true) in M.
  destruct (on_fcm (run_inference true) g) as [g1 [u|e]], (on_fcm (run_inference true) (reng g)) as [g2 [u'|e']]; cbn in E, S, M; try contradiction; subst g2; [|split; auto].
  split; [reflexivity|]. cbn [snd]. pose proof (final_state_ren rho inj same "target" [] (g_fcm g1)) as Fs. cbn [map] in Fs. cbn [NameFacts.reng g_fcm]. unfold rens.
  destruct (get_final_state "target" [] (g_fcm g1)) as [st|e] eqn:Es, (get_final_state "target" [] (ren rho same (g_fcm g1))) as [st'|e']; cbn in Fs; try contradiction; [|exact Fs].
  subst st'. cbn [rbind].
  assert (Hp : forall c, In c (dkeys st) -> proper c) by (intros c Hc; apply (P g1 M); now apply (final_keys _ st)).
  apply (same_bind _ _ _ _ _ _ (groups_ren g1 st Hp)). intros d d' [-> Hd]. cbn. now apply cells_ren.
Qed.

(** ** Rows and frames *)
Definition rrow (r : list (string * cell F)) : list (string * cell F) := map (fun fv => (phi (fst fv), rcell (fst fv) (snd fv))) r.
Definition suited_row (r : list (string * cell F)) : Prop := forall f v, In (f, v) r -> suited f v.
Definition inv (g : gen F) : Prop := forall g', moved g g' -> forall c, In c (dkeys (m_exec (g_fcm g'))) -> proper c.
Lemma inv_moved g g' : moved g g' -> inv g -> inv g'.
Proof. intros M I g2 M2. apply I. eapply moved_trans; eauto. Qed.
Lemma row_ren r : suited_row r -> forall g, inv g -> gkin answered (predict_row cf r g) (predict_row oconf (rrow r) (reng g)).
Proof.
  intros Hr g I. unfold predict_row.
  assert (K : mov (sthen (on_fcm clear_execution) (sfold (fun fv => init_concept_by_feature_data cf (fst fv) (snd fv)) r))
                  (sthen (on_fcm clear_execution) (sfold (fun fv => init_concept_by_feature_data oconf (fst fv) (snd fv)) (rrow r)))).
  { apply mov_sthen; [apply mov_on; intros s; apply (clear_execution_ren rho inj)|]. unfold rrow. apply mov_sfold. intros [f v] Hi. cbn [fst snd]. apply mov_cell. now apply Hr. }
  assert (M : moved g (fst (sthen (on_fcm clear_execution) (sfold (fun fv => init_concept_by_feature_data cf (fst fv) (snd fv)) r) g))).
  { unfold sthen. pose proof (moved_on OpClearExec g eq_refl) as M. change (step OpClearExec) with (clear_execution (F := F)) in M.
    destruct (on_fcm clear_execution g) as [g1 [u|e]]; cbn [fst] in M; auto. eapply moved_trans; [exact M|]. apply moved_sfold. intros; apply moved_init. }
  destruct (K g) as [E S]. destruct (sthen _ _ g) as [g1 [u|e]], (sthen _ _ (reng g)) as [g2 [u'|e']]; cbn in E, S, M; try contradiction; subst g2; [|split; auto].
  apply result_ren. intros g' M'. apply I. eapply moved_trans; eauto.
Qed.
Definition relabelled (d d' : dict (list (cell F))) : Prop := Forall2 (fun p p' => fst p' = phi (fst p) /\ Forall2 (same_label (psi (fst p))) (snd p) (snd p')) d d'.
Lemma dget_relabelled d d' f : relabelled d d' -> Forall2 (same_label (psi f)) (match dget d f with Some l => l | None => [] end) (match dget d' (phi f) with Some l => l | None => [] end).
Proof.
  induction 1 as [|[k l] [k' l'] d d' [H1 H2] _ IH]; cbn [dget]; [constructor|]. cbn in H1, H2. subst k'. rewrite (rho_eqb phi phi_inj). destruct (String.eqb_spec f k) as [->|]; auto.
Qed.
Lemma dset_relabelled d d' f l l' : relabelled d d' -> Forall2 (same_label (psi f)) l l' -> relabelled (dset d f l) (dset d' (phi f) l').
Proof.
  intros H Hl. induction H as [|[k w] [k' w'] d d' [H1 H2] Hd IH]; cbn [dset]; [constructor; [split; auto|constructor]|].
  cbn in H1, H2. subst k'. rewrite (rho_eqb phi phi_inj). destruct (String.eqb_spec f k) as [->|]; constructor; auto.
Qed.
Lemma append_relabelled d d' p p' : relabelled d d' -> answered p p' -> relabelled (append_all d p) (append_all d' p').
Proof.
  intros H HA. revert d d' H. induction HA as [|[f c] [f' c'] p p' [H1 H2] _ IH]; intros d d' H; [exact H|]. cbn in H1, H2. subst f'. cbn [append_all fold_left fst snd]. apply IH.
  unfold dappend. apply dset_relabelled; auto. apply Forall2_app; [now apply dget_relabelled|auto].
Qed.
Lemma rows_ren rows : (forall r, In r rows -> suited_row r) -> forall acc acc' g, inv g -> relabelled acc acc' ->
  gkin relabelled (predict_rows cf rows acc g) (predict_rows oconf (map rrow rows) acc' (reng g)) /\ inv (fst (predict_rows cf rows acc g)).
Proof.
  induction rows as [|r rows IH]; intros Hr acc acc' g I Ha; cbn [predict_rows map]; [split; [now apply gkin_ret|exact I]|].
  destruct (row_ren r (Hr r (or_introl eq_refl)) g I) as [E S]. pose proof (inv_moved _ _ (moved_predict cf r g) I) as I1.
  destruct (predict_row cf r g) as [g1 [p|e]], (predict_row oconf (rrow r) (reng g)) as [g2 [p'|e']]; cbn in E, S, I1; try contradiction; subst g2; [|split; [split; auto|exact I1]].
  apply IH; auto; [intros r' H; apply Hr; now right|]. now apply append_relabelled.
Qed.
Definition suited_frame (x : dataset F) : Prop := forall f c, In (f, c) x ->
  ~ occurs "___" f /\ match c with ColStr l => Forall readable l | _ => forall t, psi f t = t end.
Lemma rcol_same r (c : column F) : is_numeric_col (rcol r c) = is_numeric_col c /\ is_float_col (rcol r c) = is_float_col c /\ col_length (rcol r c) = col_length c.
Proof. destruct c; auto. cbn. now rewrite map_length. Qed.
Notation rds := (rds phi psi).
Lemma iterrows_ren x : suited_frame x -> iterrows (rds x) = map rrow (iterrows x) /\ forall r, In r (iterrows x) -> suited_row r.
Proof.
  intros H. unfold iterrows.
  assert (E1 : forallb (fun c => is_numeric_col (snd c)) (rds x) = forallb (fun c => is_numeric_col (snd c)) x).
  { unfold rds. clear H. induction x as [|[f c] x IH]; [reflexivity|]. cbn [map forallb]. rewrite IH. f_equal. apply rcol_same. }
  assert (E2 : existsb (fun c => is_float_col (snd c)) (rds x) = existsb (fun c => is_float_col (snd c)) x).
  { unfold rds. clear H E1. induction x as [|[f c] x IH]; [reflexivity|]. cbn [map existsb]. rewrite IH. f_equal. apply rcol_same. }
  assert (E3 : frame_rows (rds x) = frame_rows x).
  { destruct x as [|[f c] x]; [reflexivity|]. cbn. apply rcol_same. }
  rewrite E1, E2, E3. cbv zeta. set (up := _ && _). clearbody up. clear E1 E2 E3. split.
  - rewrite map_map. apply map_ext. intros i. induction x as [|[f c] x IH]; [reflexivity|]. cbn [NameFacts.rds map flat_map rname fst snd]. unfold rrow. rewrite map_app. f_equal.
    + destruct (H f c (or_introl eq_refl)) as [_ Hc]. destruct c as [l|l|l|l]; cbn [rcol col_cells]; rewrite ?map_map, !nth_error_map; destruct (nth_error l i); try reflexivity.
      cbn. destruct up; reflexivity.
    + apply IH. intros f' c' Hi. apply H. now right.
  - intros r Hr. apply in_map_iff in Hr as (i & <- & _). intros f v Hv. apply in_flat_map in Hv as ([f' c] & Hc & Hv). cbn [fst snd] in Hv.
    destruct (nth_error (col_cells c) i) as [w|] eqn:Ew; [|contradiction]. destruct Hv as [Hv|[]]. injection Hv as <- <-. apply nth_error_In in Ew.
    destruct (H f' c Hc) as [H1 H2]. split; [exact H1|]. destruct c as [l|l|l|l]; cbn in Ew; apply in_map_iff in Ew as (z & <- & Iz); cbn; auto; [|now destruct up].
    rewrite Forall_forall in H2. now apply H2.
Qed.
Lemma predict_names x e : e_priv e = None -> inv (e_gen e) -> suited_frame x ->
  fst (predict oconf (rds x) (rene cf phi psi e)) = rene cf phi psi (fst (predict cf x e)) /\ same_res relabelled (snd (predict cf x e)) (snd (predict oconf (rds x) (rene cf phi psi e))) /\
  e_priv (fst (predict cf x e)) = None /\ inv (e_gen (fst (predict cf x e))).
Proof.
  intros Hp I Hx. destruct (iterrows_ren x Hx) as [Ei Hr]. unfold predict. change (e_generated (rene cf phi psi e)) with (e_generated e).
  destruct (e_generated e) eqn:Ge; [|split; [reflexivity|split; [exact Logic.I|split; [exact Hp|exact I]]]].
  rewrite Ei. assert (Eg : e_gen (rene cf phi psi e) = reng (e_gen e)) by (unfold e_gen, rene, NameFacts.reng; cbn; now rewrite Hp).
  rewrite Eg. destruct (rows_ren (iterrows x) Hr [] [] (e_gen e) I (Forall2_nil _)) as [[E S] I'].
  destruct (predict_rows cf (iterrows x) [] (e_gen e)) as [g1 r1], (predict_rows oconf (map rrow (iterrows x)) [] (reng (e_gen e))) as [g2 r2]. cbn in E, S, I'. subst g2. cbn [fst snd].
  split; [unfold rene, e_shared; cbn; reflexivity|]. split; [exact S|]. split; [reflexivity|]. unfold e_gen, e_shared. cbn. now destruct g1.
Qed.

(** ** A fitted estimator *)
Lemma fit_proper x y e0 e e1 : reorders (c_ord cf) -> healthy e0 e -> readable_data cf (join_frames x y) -> fit cf x y e = (e1, Ok tt) -> inv (e_gen e1) /\ e_priv e1 = None.
Proof.
  intros HO HH (_ & ND & HR) HF. pose proof (healthy_estimator _ _ HH) as HE. destruct (fit_base cf x y e0 e e1 HE HF) as (_ & _ & Hp). split; [|exact Hp].
  pose proof (healthy_sane _ _ (healthy_fit _ _ _ _ _ _ HH HF)) as S1.
  destruct (fit_plan _ _ _ _ _ _ HO HE ND HF) as (s & ops & fds & A & B & Hpl & Hm & R & Hg).
  destruct (plan_build_spec cf _ _ _ _ _ _ Hpl) as (rest & E & D & Dn & Rl & An & Nm & Bd & Cn & Ln). cbn in E. subst rest.
  destruct B as (B1 & B2 & B3 & B4).
  destruct (run_building (m_default s) [] ops s B4 eq_refl Bd) as (Q1 & Q2 & _); auto.
  { apply Forall_forall. intros o Ho Hc. rewrite Forall_forall in Cn. destruct (Cn o Ho Hc) as (d & _ & _ & Hd). eauto. }
  { intros z []. }
  destruct (names_NoDup cf Hsep (dkeys y) _ fds ND HR D) as [N1 N2].
  assert (C : concepts (e_map e1) = flat_map fd_names fds).
  { rewrite Hm, Q2. unfold concepts. rewrite B1. cbn [dkeys map].
    change (flat_map added ops) with (flat_map (fun o : op F => match o with OpAddConcept n _ _ _ _ _ _ _ => [n] | _ => [] end) ops). rewrite Nm. now apply inserts_NoDup. }
  rewrite <- Hg in S1. intros g' M c Hc. destruct (sane_parts _ (moved_sane _ _ M S1)) as (_ & _ & K & _). unfold keys_eq in K. rewrite K in Hc.
  pose proof (moved_wframe _ _ M) as (W1 & _). rewrite (statics_keys _ _ W1), Hg in Hc. change (In c (concepts (e_map e1))) in Hc. rewrite C in Hc.
  apply in_flat_map in Hc as (d & Hd & Hc). destruct (N2 d c Hd Hc) as (t & E1 & E2 & E3 & _). exists (fd_feat d), t. auto.
Qed.

(** ** The score *)
Hypothesis same_digits : forall f v, isnumeric (psi f v) = isnumeric v.
Lemma eq_label f w c c' : same_label (psi f) c c' -> suited f w -> cell_eq (rcell f w) c' = cell_eq w c.
Proof.
  intros (v & -> & ->) [_ Hw]. unfold class_cell. rewrite same_digits. destruct w as [s|b|z|x]; cbn [rcell] in *.
  - destruct (isnumeric v); cbn; [reflexivity|]. apply (rho_eqb (psi f) (psi_inj f)).
  - now rewrite Hw.
  - now rewrite Hw.
  - now rewrite Hw.
Qed.
Lemma nth_label f (l l' : list (cell F)) i : Forall2 (same_label (psi f)) l l' -> match nth_error l i, nth_error l' i with Some c, Some c' => same_label (psi f) c c' | None, None => True | _, _ => False end.
Proof. intros H. revert i. induction H; intros [|i]; cbn; auto. apply IHForall2. Qed.
Lemma dget_relabelled' d d' f : relabelled d d' -> match dget d f, dget d' (phi f) with Some l, Some l' => Forall2 (same_label (psi f)) l l' | None, None => True | _, _ => False end.
Proof.
  induction 1 as [|[k l] [k' l'] d d' [H1 H2] _ IH]; cbn [dget]; [exact Logic.I|]. cbn in H1, H2. subst k'. rewrite (rho_eqb phi phi_inj). destruct (String.eqb_spec f k) as [->|]; auto.
Qed.
Lemma score_column_ren d d' f c acc : relabelled d d' -> ~ occurs "___" f /\ match c with ColStr l => Forall readable l | _ => forall t, psi f t = t end ->
  same_res eq (score_column d acc (f, c)) (score_column d' acc (rname phi psi (f, c))).
Proof.
  intros Hd [Hf Hc]. unfold score_column, rname. cbn [fst snd].
  assert (Hs : forall w, In w (col_cells c) -> suited f w).
  { intros w Hw. split; [exact Hf|]. destruct c as [l|l|l|l]; cbn in Hw; apply in_map_iff in Hw as (z & <- & Hz); auto. rewrite Forall_forall in Hc. now apply Hc. }
  assert (E : col_cells (rcol (psi f) c) = map (rcell f) (col_cells c)) by (destruct c; cbn; rewrite ?map_map; reflexivity).
  assert (El : col_length (rcol (psi f) c) = col_length c) by (destruct c; cbn; rewrite ?map_length; reflexivity).
  rewrite E, El. generalize (seq 0 (col_length c)). intros is. revert is acc. generalize (col_cells c) Hs. clear E El Hc Hs. intros cs.
  induction cs as [|w cs IH]; intros Hs [|i is] acc; try (cbn; reflexivity). cbn [map combine rfold fst snd].
  eapply same_bind; [|intros a ? <-; apply IH; intros; apply Hs; now right].
  pose proof (dget_relabelled' d d' f Hd) as G. unfold dget_exn. destruct (dget d f) as [l|], (dget d' (phi f)) as [l'|]; try contradiction; cbn [oget rbind]; [|exact Logic.I].
  pose proof (nth_label f l l' i G) as G2. destruct (nth_error l i) as [p|], (nth_error l' i) as [p'|]; try contradiction; cbn [rbind]; [|exact Logic.I].
  rewrite (eq_label f w p p' G2) by (apply Hs; now left). reflexivity.
Qed.
Lemma score_names x y e : e_priv e = None -> inv (e_gen e) -> suited_frame x -> suited_frame y ->
  fst (score oconf (rds x) (rds y) (rene cf phi psi e)) = rene cf phi psi (fst (score cf x y e)) /\ same_res eq (snd (score cf x y e)) (snd (score oconf (rds x) (rds y) (rene cf phi psi e))).
Proof.
  intros Hp I Hx Hy. unfold score. change (e_generated (rene cf phi psi e)) with (e_generated e). destruct (e_generated e); [|split; [reflexivity|exact Logic.I]].
  destruct (predict_names x e Hp I Hx) as (A & B & _). destruct (predict cf x e) as [e2 r], (predict oconf (rds x) (rene cf phi psi e)) as [e2' r']. cbn [fst snd] in *. split; [exact A|].
  apply (same_bind _ _ _ _ _ _ B). intros d d' Hd.
  assert (K : forall acc, same_res eq (rfold (score_column d) y acc) (rfold (score_column d') (rds y) acc)).
  { clear - Hd Hy phi_inj psi_inj same_digits. unfold NameFacts.rds. induction y as [|[f c] y' IH]; intros acc; [reflexivity|]. cbn [rfold map].
    pose proof (score_column_ren d d' f c acc Hd (Hy f c (or_introl eq_refl))) as S. apply (same_bind _ _ _ _ _ _ S). intros a ? <-. apply IH. intros f' c' H. apply Hy. now right. }
  apply (same_bind _ _ _ _ _ _ (K (0, 0))). intros [a b] ? <-. destruct (pdiv (nat2F a) (nat2F b)); cbn; [reflexivity|apply same_exn_refl].
Qed.
End Names.
