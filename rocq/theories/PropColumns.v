(** PropColumns.v — the order of calls and columns: maps in both engines (C104), training and test data (C105). *)
From Coq Require Import Permutation Reals QArith Lra.
From Verif Require Import Base BaseFacts Num Functions Spec SortFacts RealFacts QNum Fcm FcmSpec VecSpec DynSpec FcmBasics FcmInv FcmInv2 FcmInv3 FcmIter FcmRun FcmRun2 FcmRun3 FcmOrder FcmView
  LoaderSpec LoaderFacts JoinFacts LearnUtils LearnSpec LearnFacts Assoc Estimator EstSpec AssocSpec AssocFacts AssocFacts2 AssocFacts3 AssocFacts4 AssocFacts5 AssocNames AssocNames2
  EstFacts EstFacts2 EstFacts3 EstFacts4 AssocGen AssocPredict AssocResult AssocOrder EstFacts5 AssocRange Pipeline PipeFacts PipeFacts2 PipeFacts3 ColOrder VecOrder ColOrder2 ColOrder3
  PropVec PropVec2 PropAssoc PropRows EstExamples  PropEstimator2  PropPipeline PropPipeline2.
Local Close Scope Q_scope.
Local Close Scope R_scope.

(** ** C104 *)
(** Two lists of add_concept and add_relation calls with the same calls, concepts
    before their relations in both, no name twice: the maps they build behave in the
    same way in the iterative engine.  (A run that takes up a former one, r = false,
    needs former runs without exceptions, as in C28.) *)
Theorem C104_iterative : forall ops ops' (s : fcm R) r s1,
  Permutation ops ops' -> forallb is_building ops = true -> announced [] ops -> announced [] ops' -> NoDup (flat_map added ops) -> m_fit s = None ->
  sane (run_ops ops s) -> sane (run_ops ops' s) -> (r = false -> sane_runs (run_ops ops s) /\ sane_runs (run_ops ops' s)) ->
  m_debug s = true -> run_inference r (run_ops ops s) = (s1, Ok tt) ->
  exists s2, run_inference r (run_ops ops' s) = (s2, Ok tt) /\ forall c, history s2 c = history s1 c /\ value s2 c = value s1 c.
Proof.
  intros ops ops' s r s1 P Bd A A' ND Fi Ss Ss' Sr Db Er. apply (sim_run_sane r (run_ops ops s)); auto.
  - assert (E : settings (run_ops ops s) = settings s) by (clear - Bd; revert s; induction ops as [|o ops IH]; intros s; [reflexivity|]; cbn [forallb] in Bd; apply andb_true_iff in Bd as [B1 B2]; unfold run_ops in *; cbn [fold_left]; rewrite (IH B2); now apply build_settings).
    apply settings_max in E as (_ & _ & _ & _ & _ & E). congruence.
  - now apply calls_perm.
Qed.
Print Assumptions C104_iterative.
(** The vectorized engine: no ordered pair related twice, no concept that can take
    the value 2, and a run that ends before the iteration limit. *)
Theorem C104_vectorized : forall ops ops' (s : fcm R) (r : bool) s1 s2,
  Permutation ops ops' -> forallb is_building ops = true -> announced [] ops -> announced [] ops' -> NoDup (flat_map added ops) -> m_fit s = None ->
  sane (run_ops ops s) -> sane (run_ops ops' s) -> m_debug s = false -> (1 <= m_maxit s)%Z -> concepts (run_ops ops s) <> [] ->
  NoDup (map fst (relations (run_ops ops s))) -> unmarked (run_ops ops s) ->
  (forall c, In c (concepts (run_ops ops s)) -> (if r then initial (run_ops ops s) c else value (run_ops ops s) c) <> Some 2%R) ->
  run_inference r (run_ops ops s) = (s1, Ok tt) -> run_inference r (run_ops ops' s) = (s2, Ok tt) -> m_oob s1 = false ->
  forall c, history s2 c = history s1 c /\ value s2 c = value s1 c.
Proof.
  intros ops ops' s r s1 s2 P Bd A A' ND Fi Ss Ss' Db Mx Nc Nr U I2 E1 E2 Ob.
  assert (E : settings (run_ops ops s) = settings s) by (clear - Bd; revert s; induction ops as [|o ops IH]; intros s; [reflexivity|]; cbn [forallb] in Bd; apply andb_true_iff in Bd as [B1 B2]; unfold run_ops in *; cbn [fold_left]; rewrite (IH B2); now apply build_settings).
  apply settings_max in E as (M1 & _ & _ & _ & _ & M6).
  apply (vec_run_sim r (run_ops ops s) (run_ops ops' s)); auto; try congruence. now apply calls_perm.
Qed.
Print Assumptions C104_vectorized.
(** the same for any two maps that differ in the order of concepts and relations only
    ([sim] as in C28), whatever calls built them *)
Theorem C104_vectorized_maps : forall (r : bool) (s t s' t' : fcm R), sane s -> sane t -> m_debug s = false -> concepts s <> [] -> (1 <= m_maxit s)%Z ->
  sim s t -> NoDup (map fst (relations s)) -> unmarked s -> (forall c, In c (concepts s) -> (if r then initial s c else value s c) <> Some 2%R) ->
  run_inference r s = (s', Ok tt) -> run_inference r t = (t', Ok tt) -> m_oob s' = false ->
  (m_oob t = false -> m_oob t' = false) /\ forall c, history t' c = history s' c /\ value t' c = value s' c.
Proof. exact vec_run_sim. Qed.
Print Assumptions C104_vectorized_maps.
(** no function but fuzzy, called with its own arguments, returns 2 *)
Theorem C104_functions_unmarked : forall s : fcm R,
  (forall c n, dget (m_topo s) c = Some n -> exists f a, nd_func n = Some f /\ nd_args n = Some a /\ callable f a) -> unmarked s.
Proof. intros s H. apply answering_unmarked. intros c n Hn. right. now apply (H c n). Qed.
Print Assumptions C104_functions_unmarked.
(** A run that reaches the iteration limit: the concept added second loses its first
    value, so the order in which two concepts were added changes the final value. *)
Definition xy_first : list (op Q) := [add_simple "x"; add_simple "y"; OpAddRelation "x" "y" (1#2)%Q; OpAddRelation "y" "x" (1#2)%Q].
Definition yx_first : list (op Q) := [add_simple "y"; add_simple "x"; OpAddRelation "x" "y" (1#2)%Q; OpAddRelation "y" "x" (1#2)%Q].
Theorem C104_limit_refuted :
  let s0 := qmap 3 2 true "MEAN" "saturation" in
  let run ops := run_inference true (vec_only (ops ++ [OpInitConcept "x" 1%Q true]) s0) in
  Permutation xy_first yx_first /\ snd (run xy_first) = Ok tt /\ snd (run yx_first) = Ok tt /\ m_oob (fst (run xy_first)) = true /\
  value (fst (run xy_first)) "y" = Some (3#4)%Q /\ value (fst (run yx_first)) "y" = Some (1#4)%Q.
Proof.
  cbv zeta. split; [apply perm_swap|]. vm_compute. repeat split.
Qed.
Print Assumptions C104_limit_refuted.
(** Two relations from x to y: the last one added counts. *)
Theorem C104_twice_refuted :
  let s0 := qmap 100 2 true "LAST" "saturation" in
  let run ops := run_inference true (vec_only ([add_simple "x"; add_simple "y"] ++ ops ++ [OpInitConcept "x" 1%Q true]) s0) in
  let l1 := [OpAddRelation "x" "y" (1#2)%Q; OpAddRelation "x" "y" (1#4)%Q] in
  let l2 := [OpAddRelation "x" "y" (1#4)%Q; OpAddRelation "x" "y" (1#2)%Q] in
  Permutation l1 l2 /\ snd (run l1) = Ok tt /\ snd (run l2) = Ok tt /\ m_oob (fst (run l1)) = false /\ m_oob (fst (run l2)) = false /\
  history (fst (run l1)) "y" <> history (fst (run l2)) "y".
Proof.
  cbv zeta. split; [apply perm_swap|]. vm_compute. repeat split; discriminate.
Qed.
Print Assumptions C104_twice_refuted.
(** the same two orders away from the limit, in both engines *)
Example C104_nonvacuous :
  let run d ops := run_inference true (run_ops (ops ++ [OpInitConcept "x" (1#2)%Q true; OpAttrDebug d]) (qmap 20 2 true "MEAN" "saturation")) in
  forallb is_building xy_first = true /\ announced [] xy_first /\ announced [] yx_first /\
  snd (run false xy_first) = Ok tt /\ m_oob (fst (run false xy_first)) = false /\
  history (fst (run false yx_first)) "y" = history (fst (run false xy_first)) "y" /\
  history (fst (run true yx_first)) "y" = history (fst (run true xy_first)) "y" /\
  value (fst (run false yx_first)) "x" = value (fst (run false xy_first)) "x" /\
  value (fst (run false xy_first)) "x" <> None /\ value (fst (run false xy_first)) "x" <> value (fst (run false xy_first)) "y".
Proof. vm_compute. repeat split; auto; discriminate. Qed.

(** ** C105 *)
(** Fitting with the columns in another order succeeds as well, with the same concepts,
    relations and features. *)
Theorem C105_same_map : forall (cf : gconf R) x x' y y' (e0 e e1 : est R),
  reorders (c_ord cf) -> estimator e0 e -> readable_data cf (join_frames x y) -> Permutation x x' -> Permutation y y' -> fit cf x y e = (e1, Ok tt) ->
  exists e2, fit cf x' y' e = (e2, Ok tt) /\ Permutation (concepts (e_map e1)) (concepts (e_map e2)) /\
    Permutation (relations (e_map e1)) (relations (e_map e2)) /\ forall f, dget (e_feats e2) f = dget (e_feats e1) f.
Proof.
  intros cf x x' y y' e0 e e1 HO HE RD Px Py HF. destruct (fit_columns cf HO x x' y y' e0 e e1 HE RD Px Py HF) as (e2 & H1 & _ & H2 & H3 & H4 & _). eauto.
Qed.
Print Assumptions C105_same_map.
(** iterative engine: the same predictions *)
Theorem C105_iterative : forall (cf : gconf R) x x' y y' (e0 e e1 : est R),
  reorders (c_ord cf) -> healthy e0 e -> m_debug (e_map e0) = true -> readable_data cf (join_frames x y) ->
  Permutation x x' -> Permutation y y' -> fit cf x y e = (e1, Ok tt) ->
  exists e2, fit cf x' y' e = (e2, Ok tt) /\
    forall tests out, snd (predict cf tests e1) = Ok out -> exists out', snd (predict cf tests e2) = Ok out' /\ forall f, dget out' f = dget out f.
Proof.
  intros cf x x' y y' e0 e e1 HO HH Db RD Px Py HF. pose proof (healthy_estimator _ _ HH) as HE.
  destruct (fit_columns cf HO x x' y y' e0 e e1 HE RD Px Py HF) as (e2 & HF2 & Si & _ & Pc & Ef & P1 & P2 & G1 & G2). exists e2. split; auto.
  pose proof (readable_perm cf _ _ (join_perm x x' y y' Px Py) RD) as RD'. pose proof RD as (Hsep & _).
  destruct (@fit_tidy R RNum cf Hsep x y e0 e e1 HO Rcomm HE RD HF) as (fds & T & _ & _ & _ & Eg & _).
  destruct (@fit_tidy R RNum cf Hsep x' y' e0 e e2 HO Rcomm HE RD' HF2) as (fds' & T' & _ & _ & _ & Eg' & _).
  pose proof (healthy_fit _ _ _ _ _ _ HH HF) as H1. pose proof (healthy_fit _ _ _ _ _ _ HH HF2) as H2.
  pose proof (healthy_sane _ _ H1) as S1. pose proof (healthy_sane _ _ H2) as S2.
  assert (D1 : m_debug (e_map e1) = true) by (rewrite (estimator_debug _ _ (healthy_estimator _ _ H1)); auto).
  assert (D2 : m_debug (e_map e2) = true) by (rewrite (estimator_debug _ _ (healthy_estimator _ _ H2)); auto).
  intros tests out Ho. apply predict_ok in Ho as (ps & Hp & ->); auto; [|rewrite Eg; split; [auto|congruence]].
  assert (X : exists ps', Forall2 (fun r p => snd (predict_row cf r (e_gen e2)) = Ok p) (iterrows tests) ps' /\
     Forall2 (fun p p' => (forall f, dget p' f = dget p f) /\ NoDup (dkeys p) /\ NoDup (dkeys p')) ps ps').
  { induction Hp as [|r p rows ps Hr Hp IH]; [exists []; split; constructor|]. destruct IH as (ps' & A & B).
    destruct (predict_row cf r (e_gen e1)) as [g' rr] eqn:E. cbn [snd] in Hr. subst rr.
    destruct (row_iter cf Hsep r fds fds' (e_gen e1) (e_gen e2) g' p) as (h' & p' & E' & Q); auto; rewrite ?Eg, ?Eg'; auto.
    { now apply sim_twin. }
    exists (p' :: ps'). split; constructor; auto. now rewrite E'. }
  destruct X as (ps' & A & B). exists (fold_left append_all ps' []). split.
  - apply predict_ok; auto; [rewrite Eg'; split; [auto|congruence]|]. eauto.
  - assert (G : forall acc acc' : dict (list (cell R)), (forall f, dget acc' f = dget acc f) -> forall f, dget (fold_left append_all ps' acc') f = dget (fold_left append_all ps acc) f).
    { clear - B. induction B as [|p p' ps ps' (Q1 & Q2 & Q3) B IH]; intros acc acc' Ha; [exact Ha|]. cbn [fold_left]. apply IH. now apply append_same. }
    apply G. reflexivity.
Qed.
Print Assumptions C105_iterative.
(** Vectorized engine, the default: the same predictions, as long as no run reaches
    the iteration limit.  [sound_disc] holds for the clustering strategies of the
    package (C100, C101). *)
Theorem C105_vectorized : forall (cf : gconf R) mi ex sd de me xc ac kw (e0 e e1 e2 e1' e2' : est R) x x' y y' tests out out',
  reorders (c_ord cf) -> sound_disc cf -> (forall f data n vals ms, c_disc cf f data = Ok (n, vals, ms) -> (0 < n)%nat) ->
  init_est mi ex sd de me xc ac kw true = Ok e0 -> (2 <= mi)%Z -> callable ac kw -> healthy e0 e ->
  readable_data cf (join_frames x y) -> (exists f c, In (f, c) (join_frames x y) /\ (0 < col_length c)%nat) ->
  Permutation x x' -> Permutation y y' -> fit cf x y e = (e1, Ok tt) -> fit cf x' y' e = (e2, Ok tt) ->
  predict cf tests e1 = (e1', Ok out) -> predict cf tests e2 = (e2', Ok out') -> m_oob (e_map e1') = false ->
  forall f, dget out' f = dget out f.
Proof.
  intros cf mi ex sd de me xc ac kw e0 e e1 e2 e1' e2' x x' y y' tests out out' HO HS HN H0 Hmi Hc HH RD Sr Px Py HF HF2 Hp Hp' Ob.
  pose proof (healthy_estimator _ _ HH) as HE. pose proof RD as (Hsep & _).
  destruct (fit_columns cf HO x x' y y' e0 e e1 HE RD Px Py HF) as (e2b & HF2' & Si & _ & _ & Ef & P1 & P2 & G1 & G2). rewrite HF2 in HF2'. injection HF2' as <-.
  pose proof (join_perm x x' y y' Px Py) as PJ. pose proof (readable_perm cf _ _ PJ RD) as RD'.
  assert (Sr' : exists f c, In (f, c) (join_frames x' y') /\ (0 < col_length c)%nat).
  { destruct Sr as (f & c & A & B). exists f, c. split; auto. eapply Permutation_in; eauto. }
  destruct (fit_firm cf Hsep HO HS HN mi ex sd de me xc ac kw e0 e e1 x y H0 Hmi Hc HH RD Sr HF) as (fds & Fm & _ & Eg & _).
  destruct (fit_firm cf Hsep HO HS HN mi ex sd de me xc ac kw e0 e e2 x' y' H0 Hmi Hc HH RD' Sr' HF2) as (fds' & Fm' & _ & Eg' & _).
  unfold predict in Hp, Hp'. rewrite G1 in Hp. rewrite G2 in Hp'.
  destruct (predict_rows cf (iterrows tests) [] (e_gen e1)) as [g' rr] eqn:E1. destruct (predict_rows cf (iterrows tests) [] (e_gen e2)) as [h' rr'] eqn:E2.
  injection Hp as He Hr. injection Hp' as He' Hr'. subst rr rr'.
  apply (rows_vec cf Hsep (iterrows tests) fds fds' (e_gen e1) (e_gen e2) [] [] g' h' out out'); auto.
  - rewrite Eg, Eg'. now apply sim_twin.
  - rewrite Eg. exact (C44_no_duplicates cf HO Rcomm x y e0 e e1 HE RD HF).
  - rewrite <- He in Ob. exact Ob.
Qed.
Print Assumptions C105_vectorized.
(** The columns of the data to predict: any order gives the same answer, or the same
    exception, in both engines. *)
Theorem C105_test_columns : forall {F} {N : Num F} (cf : gconf F) x y (e0 e e1 e2 : est F) n tests tests',
  reorders (c_ord cf) -> (forall a b : F, nmul a b = nmul b a) -> healthy e0 e -> readable_data cf (join_frames x y) -> fit cf x y e = (e1, Ok tt) -> used e1 e2 ->
  table n tests -> NoDup (dkeys tests) -> (forall f l, In (f, ColStr l) tests -> Forall readable l) -> Permutation tests tests' ->
  snd (predict cf tests' e2) = snd (predict cf tests e2) /\ forall out, snd (predict cf tests e2) = Ok out -> predict cf tests' e2 = predict cf tests e2.
Proof.
  intros F N cf x y e0 e e1 e2 n tests tests' HO Cm HH RD HF HU Tb ND Hr P. pose proof RD as (Hsep & _). pose proof (healthy_estimator _ _ HH) as HE.
  destruct (fit_tidy cf Hsep x y e0 e e1 HO Cm HE RD HF) as (fds & T & _ & _ & _ & Eg & _). destruct (fit_base cf x y e0 e e1 HE HF) as (_ & _ & P1).
  pose proof (healthy_sane _ _ (healthy_fit _ _ _ _ _ _ HH HF)) as S1.
  destruct (used_moved e1 e2 P1 HU) as (M & _). apply (predict_perm cf fds n); auto.
  - now apply (tidy_moved fds (e_gen e1)).
  - apply (moved_sane _ _ M). now rewrite Eg.
Qed.
Print Assumptions C105_test_columns.
(** The default engine at the limit: two columns of text in the other order, other
    labels.  The iterative engine gives the same labels for both orders. *)
Definition bits (n : N) (a b : string) : list string := map (fun i => if N.testbit n (N.of_nat i) then a else b) (seq 0 4).
Definition fcol : string * column Q := ("f", ColStr (bits 1 "p" "q")).
Definition gcol : string * column Q := ("g", ColStr (bits 2 "r" "s")).
Definition ccol : dataset Q := [("c", ColStr (bits 1 "u" "v"))].
Definition col_conf : gconf Q := mkGconf "___" (-(1))%Q true true rel_pos_inf rel_supp 0%Q None 0%Q true (fun _ => "x"%string) (fun _ => Ok 0%Z) (fun l => l) (fun _ _ => Err EUndef).
Definition labels_of (mi : Z) (vec : bool) (x tests : dataset Q) : res (dict (list (cell Q))) :=
  (e0 <- init_est mi 2 (1 # 1024)%Q "MEAN" true "KOSKO" "saturation" [] vec ;;
   let '(e1, r) := fit col_conf x ccol e0 in _ <- r ;; snd (predict col_conf tests e1))%res.
Definition limit_met (mi : Z) (x tests : dataset Q) : option bool :=
  match init_est mi 2 (1 # 1024)%Q "MEAN" true "KOSKO" "saturation" [] true with
  | Ok e0 => Some (m_oob (e_map (fst (predict col_conf tests (fst (fit col_conf x ccol e0)))))) | Err _ => None end.
Theorem C105_limit_refuted :
  labels_of 3 true [fcol; gcol] [fcol; gcol] <> labels_of 3 true [gcol; fcol] [fcol; gcol] /\
  (exists l l', labels_of 3 true [fcol; gcol] [fcol; gcol] = Ok [("c", l)] /\ labels_of 3 true [gcol; fcol] [fcol; gcol] = Ok [("c", l')]) /\
  limit_met 3 [fcol; gcol] [fcol; gcol] = Some true /\
  labels_of 3 false [fcol; gcol] [fcol; gcol] = labels_of 3 false [gcol; fcol] [fcol; gcol].
Proof.
  split; [vm_compute; discriminate|]. split; [do 2 eexists; split; vm_compute; reflexivity|]. split; vm_compute; reflexivity.
Qed.
Print Assumptions C105_limit_refuted.
Example C105_nonvacuous : Permutation [fcol; gcol] [gcol; fcol] /\ limit_met 50 [fcol; gcol] [fcol; gcol] = Some false /\
  labels_of 50 true [gcol; fcol] [fcol; gcol] = labels_of 50 true [fcol; gcol] [fcol; gcol] /\
  labels_of 50 true [gcol; fcol] [gcol; fcol] = labels_of 50 true [fcol; gcol] [fcol; gcol] /\
  exists l, labels_of 50 true [fcol; gcol] [fcol; gcol] = Ok [("c", l)].
Proof. split; [apply perm_swap|]. split; [vm_compute; reflexivity|]. split; [vm_compute; reflexivity|]. split; [vm_compute; reflexivity|]. eexists; vm_compute; reflexivity. Qed.
(** over the reals: two continuous features in both orders *)
Definition cx : dataset R := [("i"%string, ColInt (map Z.of_nat (seq 3 10))); ("j"%string, ColInt (map Z.of_nat (seq 5 10)))].
Definition cx' : dataset R := [("j"%string, ColInt (map Z.of_nat (seq 5 10))); ("i"%string, ColInt (map Z.of_nat (seq 3 10)))].
Example C105_nonvacuous_iterative : exists e1 e2 out out', fit (ocf (-1)) cx ly re0 = (e1, Ok tt) /\ fit (ocf (-1)) cx' ly re0 = (e2, Ok tt) /\
  snd (predict (ocf (-1)) cx e1) = Ok out /\ snd (predict (ocf (-1)) cx e2) = Ok out' /\ forall f, dget out' f = dget out f.
Proof.
  assert (RD : readable_data (ocf (-1)) (join_frames cx ly)).
  { split; [reflexivity|]. split; [cbn; repeat constructor; cbn; intuition discriminate|]. intros f c [H|[H|[H|[]]]]; injection H as <- <-; (split; [intros H; apply occurs_b in H; discriminate|]); cbn; auto.
    repeat (apply Forall_cons; [apply one_readable; discriminate|]); apply Forall_nil. }
  assert (HO : reorders (c_ord (ocf (-1)))) by (intros l; apply Permutation_refl).
  assert (HF : exists e1, fit (ocf (-1)) cx ly re0 = (e1, Ok tt)).
  { eapply (C100_fit_never_fails (ocf (-1)) "cmeans-cfe" flat_curve even_rand 10 cx ly re0 re0); auto; try (cbn; auto 10).
    - exact C100_sampled.
    - discriminate.
    - exact l_healthy.
    - cbn. repeat constructor; cbn; intuition discriminate.
    - intros f c [H|[H|[H|[]]]]; injection H as <- <-; reflexivity. }
  destruct HF as [e1 HF]. exists e1.
  destruct (C105_iterative (ocf (-1)) cx cx' ly ly re0 re0 e1) as (e2 & HF2 & HP); auto.
  { exact l_healthy. }
  { apply perm_swap. }
  exists e2.
  assert (X : exists out, snd (predict (ocf (-1)) cx e1) = Ok out).
  { apply (C101_excluding (ocf (-1)) "cmeans-cfe" flat_curve even_rand 5 2 (nlit 1 1000) "MEAN" true "KOSKO" "saturation" [] re0 re0 e1 e1 cx ly cx); auto; try (cbn; auto 10; fail).
    - exact C100_sampled.
    - cbn. lra.
    - left. cbn. auto.
    - discriminate.
    - exact l_healthy.
    - apply o_used.
    - intros f c texts rows [H|[H|[H|[]]]]; injection H as <- <-; cbn; intuition discriminate.
    - intros f c' [H|[H|[]]]; injection H as <- <-; eexists; (split; [cbn; eauto|]); intros texts rows l _ E; discriminate.
    - intros r f q _ _. now exists 0%Z. }
  destruct X as [out Ho]. destruct (HP cx out Ho) as (out' & Ho' & Es). exists out, out'. auto.
Qed.
