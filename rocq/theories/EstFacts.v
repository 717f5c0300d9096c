(** EstFacts.v — predicting a row depends only on the row and the fitted map. *)
From Verif Require Import Base BaseFacts Num Functions Fcm FcmSpec FcmBasics FcmInv FcmInv2 FcmInv3 FcmIter FcmRun FcmRun2 VecSpec FcmVec FcmVec2 FcmVec3 FcmView LearnUtils Assoc Estimator AssocFacts.

Section EstFacts.
Context {F : Type} {N : Num F}.
Implicit Types (g h : gen F) (s : fcm F).
Variable cf : gconf F.

Definition galike g h : Prop := g_feats g = g_feats h /\ g_proc g = g_proc h /\ alike (g_fcm g) (g_fcm h).
Definition gboth {X} (x y : gen F * res X) : Prop := galike (fst x) (fst y) /\ snd x = snd y.
Definition gsame {X} (f : gen F -> gen F * res X) : Prop := forall g h, galike g h -> gboth (f g) (f h).
Lemma gsame_sfold {A} (f : A -> gen F -> gen F * res unit) l : (forall a, gsame (f a)) -> gsame (sfold f l).
Proof.
  intros H. induction l as [|a l IH]; intros g h R; cbn [sfold]; [now split|].
  destruct (H a g h R) as [H1 H2]. destruct (f a g) as [g1 r1], (f a h) as [h1 r2]. cbn in *. subst r2.
  destruct r1; [now apply IH|now split].
Qed.
Lemma gsame_sthen f k : gsame (X := unit) f -> gsame (X := unit) k -> gsame (sthen f k).
Proof.
  intros H1 H2 g h R. unfold sthen. destruct (H1 g h R) as [H3 H4]. destruct (f g) as [g1 r1], (f h) as [h1 r2]. cbn in *. subst r2.
  destruct r1; [now apply H2|now split].
Qed.
Lemma gsame_swith {A} (r : gen F -> res A) k : (forall g h, galike g h -> r g = r h) -> (forall a, gsame (X := unit) (k a)) -> gsame (swith r k).
Proof. intros H1 H2 g h R. unfold swith. rewrite (H1 g h R). destruct (r h); [now apply H2|now split]. Qed.
Lemma gsame_on f : same alike f -> gsame (on_fcm f).
Proof.
  intros H g h (R1 & R2 & R3). unfold on_fcm. destruct (H _ _ R3) as [H1 H2]. destruct (f (g_fcm g)) as [s1 r1], (f (g_fcm h)) as [t1 r2].
  cbn in *. subst r2. split; [|reflexivity]. repeat split; auto.
Qed.
Lemma gsame_ret {X} (x : res X) : gsame (fun g => (g, x)).
Proof. intros g h R. now split. Qed.
Lemma gsame_set name f : gsame (X := unit) (fun g => (set_feat name f g, Ok tt)).
Proof. intros g h (R1 & R2 & R3). split; [|reflexivity]. unfold set_feat. cbn. now rewrite R1, R2. Qed.

(** ** Predicting *)
Lemma gsame_init f v : gsame (init_concept_by_feature_data cf f v).
Proof.
  unfold init_concept_by_feature_data. intros g h R.
  match goal with |- gboth (let '(_, _) := ?a g in _) _ => assert (G : gsame a) end.
  { apply gsame_swith; [intros ? ? (E & _); unfold get_type; now rewrite E|]. intros t. destruct (_ || _).
    - apply gsame_swith; [intros ? ? (E & _); unfold get_names; now rewrite E|]. intros ns. apply gsame_sfold. intros n.
      apply gsame_swith; [auto|]. intros x. apply gsame_on, same_init.
    - apply gsame_swith; [auto|]. intros t'. apply gsame_on, same_init. }
  destruct (G g h R) as [G1 G2].
  match goal with |- gboth (let '(_, _) := ?a in _) (let '(_, _) := ?b in _) => destruct a as [g1 r1], b as [h1 r2] end.
  cbn in *. subst r2. now split.
Qed.
(** calls that change only activations *)
Definition is_exec (o : op F) : bool :=
  match o with OpClearExec | OpInitConcept _ _ _ | OpRun _ => true | _ => false end.
Lemma exec_wframe o s : is_exec o = true -> wframe s (fst (step o s)).
Proof.
  destruct o; try discriminate; intros _; cbn [step].
  - apply frame_wframe, init_concept_frame.
  - apply frame_wframe, clear_exec_frame.
  - apply run_wframe.
Qed.
Definition moved g g' : Prop := g_feats g' = g_feats g /\ g_proc g' = g_proc g /\
  exists ops, forallb is_exec ops = true /\ g_fcm g' = run_ops ops (g_fcm g).
Lemma moved_refl g : moved g g.
Proof. split; auto. split; auto. now exists []. Qed.
Lemma moved_trans g h k : moved g h -> moved h k -> moved g k.
Proof.
  intros (A1 & A2 & o1 & A3 & A4) (B1 & B2 & o2 & B3 & B4). split; [congruence|]. split; [congruence|].
  exists (o1 ++ o2). rewrite forallb_app, A3, B3, run_ops_app, <- A4. auto.
Qed.
Lemma moved_on o g : is_exec o = true -> moved g (fst (on_fcm (step o) g)).
Proof.
  intros H. unfold on_fcm. destruct (step o (g_fcm g)) as [s r] eqn:E. split; auto. split; auto.
  exists [o]. cbn. rewrite H, E. auto.
Qed.
Lemma moved_sfold {A} (f : A -> gen F -> gen F * res unit) l g : (forall a g, moved g (fst (f a g))) -> moved g (fst (sfold f l g)).
Proof.
  intros H. revert g. induction l as [|a l IH]; intros g; cbn [sfold]; [apply moved_refl|].
  pose proof (H a g) as M. destruct (f a g) as [g1 [u|e]]; cbn in *; auto. eapply moved_trans; eauto.
Qed.
Lemma moved_init f v g : moved g (fst (init_concept_by_feature_data cf f v g)).
Proof.
  unfold init_concept_by_feature_data.
  match goal with |- context [let '(_, _) := ?a in _] => assert (M : moved g (fst a)) end.
  { unfold swith. destruct (get_type g f) as [t|]; [|apply moved_refl]. destruct (_ || _).
    - destruct (get_names g f) as [ns|]; [|apply moved_refl]. apply moved_sfold. intros n g'. unfold swith.
      destruct (cell_num v) as [x|]; [|apply moved_refl]. apply (moved_on (OpInitConcept n x false)). reflexivity.
    - destruct (cell_text cf v) as [t'|]; [|apply moved_refl]. apply (moved_on (OpInitConcept (name_concept cf f t') n1 false)). reflexivity. }
  match goal with |- context [let '(_, _) := ?a in _] => destruct a end. exact M.
Qed.
Lemma moved_result g : moved g (fst (get_inference_result cf g)).
Proof.
  unfold get_inference_result. pose proof (moved_on (OpRun true) g eq_refl) as M. change (step (F := F) (OpRun true)) with (run_inference (F := F) true) in M.
  destruct (on_fcm (run_inference true) g) as [g1 [u|e]]; exact M.
Qed.
Definition set_row (r : row) : gen F -> gen F * res unit := sfold (fun fv => init_concept_by_feature_data cf (fst fv) (snd fv)) r.
Lemma moved_set_row r g : moved g (fst (set_row r g)).
Proof. apply moved_sfold. intros a g'. apply moved_init. Qed.
Lemma moved_predict r g : moved g (fst (predict_row cf r g)).
Proof.
  unfold predict_row. rewrite (surjective_pairing (sthen _ _ g)). set (x := sthen _ _ g).
  assert (M : moved g (fst x)).
  { unfold x, sthen. pose proof (moved_on OpClearExec g eq_refl) as M. change (step (F := F) OpClearExec) with (clear_execution (F := F)) in M. destruct (on_fcm clear_execution g) as [g1 [u|e]]; cbn in M |- *; auto.
    eapply moved_trans; [exact M|]. apply moved_set_row. }
  destruct (snd x) as [u|e]; cbn; auto. eapply moved_trans; [exact M|]. apply moved_result.
Qed.
Lemma moved_sane g g' : moved g g' -> sane (g_fcm g) -> sane (g_fcm g').
Proof.
  intros (_ & _ & ops & Ho & ->) (a & b & c & d & e & f & k & l & s0 & l0 & H1 & H2 & E). rewrite E.
  exists a, b, c, d, e, f, k, l, s0, (l0 ++ ops). split; auto. split; [|now rewrite run_ops_app].
  apply ok_when_app. split; auto. clear - Ho. generalize (run_ops l0 s0). intros s. revert s.
  induction ops as [|o ops IH]; intros s; cbn; auto. cbn in Ho. apply andb_prop in Ho as [H1 H2]. split; auto. destruct o; discriminate.
Qed.
Lemma moved_wframe g g' : moved g g' -> wframe (g_fcm g) (g_fcm g').
Proof.
  intros (_ & _ & ops & Ho & ->). unfold run_ops. generalize (g_fcm g). induction ops as [|o ops IH]; intros s; cbn; [apply wframe_refl|].
  cbn in Ho. apply andb_prop in Ho as [H1 H2]. eapply wframe_trans; [now apply (exec_wframe o)|]. auto.
Qed.
Lemma sane_fresh s : sane s -> fresh_data s.
Proof.
  intros (a & b & c & d & e & f & k & l & s0 & ops & H1 & _ & E). apply reachable_fresh.
  exists a, b, c, d, e, f, k, l, s0, ops. auto.
Qed.
(** what a prediction needs of a map *)
Definition usable s : Prop := sane s /\ (m_debug s = false -> concepts s <> []).
Lemma usable_moved g g' : moved g g' -> usable (g_fcm g) -> usable (g_fcm g').
Proof.
  intros M [H1 H2]. split; [eapply moved_sane; eauto|]. destruct (moved_wframe _ _ M) as (W1 & _ & W3).
  apply settings_max in W3. unfold concepts in *. rewrite (statics_keys _ _ W1). intros D. apply H2. rewrite <- D. symmetry. apply W3.
Qed.
Lemma final_state_alike g h : galike g h -> get_final_state "target" [] (g_fcm g) = get_final_state "target" [] (g_fcm h).
Proof. intros (_ & _ & A). apply alike_touch in A as (? & ? & ? & ? & ->). reflexivity. Qed.
Lemma result_alike g h p : galike g h -> usable (g_fcm g) -> usable (g_fcm h) ->
  snd (get_inference_result cf g) = Ok p <-> snd (get_inference_result cf h) = Ok p.
Proof.
  intros R [U1 U2] [V1 V2]. destruct R as (R1 & R2 & R3). unfold get_inference_result, on_fcm.
  assert (T : forall s, concepts s <> [] -> m_topo s <> []) by (unfold concepts; intros s H E; apply H; now rewrite E).
  destruct (run_alike true (g_fcm g) (g_fcm h) R3) as [A B].
  { intros D. split; [now apply sane_fresh|]. split; [now apply sane_fresh|]. auto. }
  destruct (run_inference true (g_fcm g)) as [s1 r1], (run_inference true (g_fcm h)) as [t1 r2]. cbn [fst snd] in *.
  destruct r1 as [[]|e1], r2 as [[]|e2].
  - cbn [snd]. assert (G : galike (set_fcm s1 g) (set_fcm t1 h)) by (repeat split; auto).
    rewrite (final_state_alike _ _ G).
    assert (E : forall st, group_results cf (set_fcm s1 g) st = group_results cf (set_fcm t1 h) st).
    { intros st. unfold group_results, get_type. cbn [g_feats set_fcm]. now rewrite R1. }
    destruct (get_final_state _ _ _) as [st|]; cbn [rbind]; [rewrite E|]; tauto.
  - destruct B as [B _]. discriminate (B eq_refl).
  - destruct B as [_ B]. discriminate (B eq_refl).
  - cbn. split; discriminate.
Qed.
Lemma predict_alike r g h p : g_feats g = g_feats h -> g_proc g = g_proc h -> wframe (g_fcm g) (g_fcm h) -> usable (g_fcm g) -> usable (g_fcm h) ->
  snd (predict_row cf r g) = Ok p <-> snd (predict_row cf r h) = Ok p.
Proof.
  intros Ef Ep W Ug Uh. unfold predict_row, sthen. fold (set_row r).
  assert (Bg := sane_base _ (proj1 Ug)). assert (Bh := sane_base _ (proj1 Uh)).
  destruct Bg as (NDg & _ & Kg & _), Bh as (NDh & _ & Kh & _).
  pose proof (clear_alike _ _ NDg Kg NDh Kh W) as A.
  pose proof (proj1 (clear_spec _ NDg Kg)) as Og. pose proof (proj1 (clear_spec _ NDh Kh)) as Oh.
  pose proof (moved_on OpClearExec g eq_refl) as Mg. pose proof (moved_on OpClearExec h eq_refl) as Mh. change (step (F := F) OpClearExec) with (clear_execution (F := F)) in Mg, Mh.
  unfold on_fcm in *. destruct (clear_execution (g_fcm g)) as [s1 r1], (clear_execution (g_fcm h)) as [t1 r2]. cbn [fst snd] in *. subst r1 r2.
  assert (R : galike (set_fcm s1 g) (set_fcm t1 h)) by (repeat split; auto).
  assert (GS : gsame (set_row r)) by (apply gsame_sfold; intros a; apply gsame_init).
  destruct (GS _ _ R) as [G1 G2].
  pose proof (moved_set_row r (set_fcm s1 g)) as Ng. pose proof (moved_set_row r (set_fcm t1 h)) as Nh.
  assert (Ug' := usable_moved _ _ (moved_trans _ _ _ Mg Ng) Ug). assert (Uh' := usable_moved _ _ (moved_trans _ _ _ Mh Nh) Uh).
  destruct (set_row r (set_fcm s1 g)) as [g1 r1], (set_row r (set_fcm t1 h)) as [h1 r2]. cbn [fst snd] in *. subst r2.
  destruct r1 as [u|e]; [now apply result_alike|]. cbn. split; discriminate.
Qed.
Lemma predict_again r g g' p : moved g g' -> usable (g_fcm g) ->
  snd (predict_row cf r g') = Ok p <-> snd (predict_row cf r g) = Ok p.
Proof.
  intros M U. pose proof (usable_moved _ _ M U) as U'. pose proof (moved_wframe _ _ M) as W. destruct M as (M1 & M2 & _).
  symmetry. apply predict_alike; auto.
Qed.
Lemma Forall2_impl' {A B} (P Q : A -> B -> Prop) l l' : (forall a b, P a b -> Q a b) -> Forall2 P l l' -> Forall2 Q l l'.
Proof. intros H. induction 1; constructor; auto. Qed.
Lemma predict_rows_spec rows : forall acc g out, usable (g_fcm g) ->
  snd (predict_rows cf rows acc g) = Ok out <->
  exists ps, Forall2 (fun r p => snd (predict_row cf r g) = Ok p) rows ps /\ out = fold_left append_all ps acc.
Proof.
  induction rows as [|r rows IH]; intros acc g out U; cbn [predict_rows].
  - cbn. split.
    + intros [= <-]. exists []. auto.
    + intros (ps & H & ->). inversion H. reflexivity.
  - pose proof (moved_predict r g) as M. destruct (predict_row cf r g) as [g1 [p|e]] eqn:E; cbn [fst snd] in *.
    + rewrite IH by (eapply usable_moved; eauto). split.
      * intros (ps & H & ->). exists (p :: ps). split; [|reflexivity]. constructor; [now rewrite E|].
        eapply Forall2_impl'; [|exact H]. intros r' p' Hp. cbv beta in *. now apply (predict_again r' g g1 p' M U).
      * intros (ps & H & ->). inversion H as [|? p' ? ps' Hp H' E1 E2]; subst. rewrite E in Hp. cbn in Hp. injection Hp as <-.
        exists ps'. split; [|reflexivity]. eapply Forall2_impl'; [|exact H']. intros r' p' Hp. cbv beta in *. now apply (predict_again r' g g1 p' M U).
    + split; [discriminate|]. intros (ps & H & ->). inversion H as [|? p' ? ps' Hp H' E1 E2]; subst. rewrite E in Hp. discriminate.
Qed.
Lemma moved_predict_rows rows acc g : moved g (fst (predict_rows cf rows acc g)).
Proof.
  revert acc g. induction rows as [|r rows IH]; intros acc g; cbn [predict_rows]; [apply moved_refl|].
  pose proof (moved_predict r g) as M. destruct (predict_row cf r g) as [g1 [p|e]]; cbn [fst] in *; auto.
  eapply moved_trans; [exact M|apply IH].
Qed.
End EstFacts.
