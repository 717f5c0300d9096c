(** SepFacts4.v — runs of maps whose concepts all work alike, with either engine (C93). *)
From Coq Require Import Reals Lra.
From Verif Require Import Base BaseFacts Num Functions Spec RealFacts FunctionsFacts Fcm FcmSpec FcmBasics FcmInv FcmInv2 FcmInv3 FcmIter FcmRun FcmRun2 FcmRun3 FcmOrder DynSpec Dynamics Dynamics2 VecSpec FcmVec FcmVec2 FcmVec3 FcmVec4 FcmVec5 FcmVec6 FcmTotal LearnUtils Assoc Estimator EstFacts SepSpec SepFacts SepFacts2.
Local Open Scope R_scope.

(** ** Overruns are never forgotten *)
Lemma mfold_oob {A} (f : A -> fcm R -> fcm R * res unit) l : (forall a s, m_oob (fst (f a s)) = m_oob s) -> forall s, m_oob (fst (mfold f l s)) = m_oob s.
Proof.
  intros H. induction l as [|a l IH]; intros s; cbn [mfold]; auto. specialize (H a s). destruct (f a s) as [s1 [u|e]]; cbn [fst] in *; [now rewrite IH|auto].
Qed.
Lemma frame_oob (s s' : fcm R) : frame s s' -> m_oob s' = m_oob s.
Proof. intros H. apply H. Qed.
Lemma vec_oob (s : fcm R) : m_oob s = true -> m_oob (fst (vectorized_inference s)) = true.
Proof.
  intros H. unfold vectorized_inference.
  match goal with |- m_oob (fst (match ?x with _ => _ end)) = _ => assert (P : m_oob (fst x) = true); [|destruct x as [s1 [c|e]]; cbn [fst] in *; [|auto]] end.
  { destruct (m_prepared s); [exact H|]. destruct (prepare s); exact H. }
  destruct (vc_functions c); [exact P|]. destruct (vectorized_run _ _ _ _ _ _ _ _ _ _) as [[[buf oob] k]|e]; [|exact P].
  cbn [m_maxit set_oob]. destruct (Nat.eqb _ 0); cbn [fst m_oob set_oob set_exec set_cache]; now rewrite P.
Qed.
Lemma run_oob r (s : fcm R) : m_oob s = true -> m_oob (fst (run_inference r s)) = true.
Proof.
  intros H. unfold run_inference. assert (P : m_oob (fst (if r then reset_execution s else (s, Ok tt))) = true).
  { destruct r; [|exact H]. rewrite (frame_oob _ _ (reset_frame s)). exact H. }
  destruct (if r then reset_execution s else (s, Ok tt)) as [s1 [u|e]]; cbn [fst] in *; [|exact P].
  assert (P2 : m_oob (fst (if m_debug s1 then iterative_inference s1 else vectorized_inference s1)) = true).
  { destruct (m_debug s1); [rewrite (frame_oob _ _ (iterative_frame s1)); exact P|now apply vec_oob]. }
  destruct (if m_debug s1 then _ else _) as [s2 [u2|e]]; cbn [fst] in *; [|exact P2].
  rewrite (mfold_oob finalize_one); auto. intros a s'. apply frame_oob, finalize_frame.
Qed.
Lemma moved_oob (g g' : gen R) : moved g g' -> m_oob (g_fcm g') = false -> m_oob (g_fcm g) = false.
Proof.
  intros (_ & _ & ops & Ho & ->) H. destruct (m_oob (g_fcm g)) eqn:E; auto. rewrite <- H. clear H. revert E Ho. generalize (g_fcm g).
  unfold run_ops. induction ops as [|o ops IH]; intros s E Ho; cbn [fold_left]; [auto|]. cbn [forallb] in Ho. apply andb_true_iff in Ho as [H1 H2].
  apply IH; auto. destruct o; try discriminate; cbn [step].
  - rewrite (frame_oob _ _ (init_concept_frame _ _ _ s)). exact E.
  - rewrite (frame_oob _ _ (clear_exec_frame s)). exact E.
  - now apply run_oob.
Qed.

(** ** Both engines follow the same recurrence *)
Lemma vec_orbit_orbit s x L : base s -> regular s -> responsive s -> vec_orbit (m_topo s) (m_arcs s) x L -> orbit (F := R) (m_topo s) (m_arcs s) x L.
Proof.
  intros B Rg Re O t c nd Ht Hn. destruct (Re c nd (x t) Hn) as [y Hy]. pose proof (next_vec s (x t) c nd y B Rg Hn Hy) as V. pose proof (O t c nd Ht Hn) as V'.
  assert (E : x (S t) c = y).
  { destruct V as (f & id & a & z & A1 & A2 & A3 & A4 & A5). destruct V' as (f' & id' & a' & z' & B1 & B2 & B3 & B4 & B5).
    assert (f' = f) by congruence. subst f'. assert (id' = id) by congruence. subst id'. assert (a' = a) by congruence. subst a'.
    cbv zeta in A4, B4. rewrite <- A4 in B4. subst z'. rewrite A5 in B5. now apply Ok_inj in B5. }
  now rewrite E.
Qed.
Record outcome (s s' : fcm R) (L : nat) (x : nat -> string -> R) (k : nat) (f : string -> nat -> R) : Prop := {
  oc_steps : (1 <= L)%nat;
  oc_orbit : orbit (m_topo s) (m_arcs s) x L;
  oc_start : forall c, In c (concepts s) -> initial s c = Some (x 0%nat c);
  oc_len : (2 <= k <= S L)%nat;
  oc_cells : forall c j, In c (concepts s) -> (1 <= j < k)%nat -> f c j = x j c;
  oc_first : m_debug s = true \/ m_oob s' = false -> forall c, In c (concepts s) -> f c 0%nat = x 0%nat c;
  oc_some : forall c j, In c (concepts s) -> (j < k)%nat -> exists i a, (i <= L)%nat /\ In a (concepts s) /\ f c j = x i a;
  oc_value : forall c, In c (concepts s) -> exists d v, get_decision_by_name (m_decision s) = Some d /\
     exec_decision d (map (f c) (seq 0 k)) (Z.of_nat k - m_extra s - 1) = Ok v /\ value s' c = Some v
}.
Lemma before_In cs c b : before cs c = Some b -> In b cs.
Proof.
  induction cs as [|a cs IH]; [discriminate|]. destruct cs as [|a' cs]; [discriminate|]. rewrite before_cons. destruct (String.eqb a' c).
  - intros [= ->]. now left.
  - intros H. right. now apply IH.
Qed.
Lemma iter_outcome s s' : sane s -> m_debug s = true -> (2 <= m_extra s)%Z -> run_inference true s = (s', Ok tt) ->
  exists L x k f, outcome s s' L x k f.
Proof.
  intros Hs Hd He E. destruct (run_track s s' Hs Hd E) as (L & x & T). exists L, x, (S L), (fun c j => x j c).
  destruct (tk_stop _ _ _ _ T) as [[Hl _] _]. assert (1 <= L)%nat by lia. constructor; auto; try lia.
  - apply (tk_orbit _ _ _ _ T).
  - apply (tk_start _ _ _ _ T).
  - intros c j Hc Hj. exists j, c. split; [lia|auto].
  - intros c Hc. destruct (tk_value _ _ _ _ T c _ Hc (tk_hist _ _ _ _ T c Hc)) as (d & v & D1 & D2 & D3). exists d, v.
    rewrite map_length, seq_length in D2. auto.
Qed.
Lemma vec_outcome s s' : sane s -> m_debug s = false -> regular s -> responsive s -> concepts s <> [] -> (3 <= m_maxit s)%Z ->
  (forall L x, orbit (m_topo s) (m_arcs s) x L -> (forall c, In c (concepts s) -> initial s c = Some (x 0%nat c)) ->
     forall t c, (t <= L)%nat -> In c (concepts s) -> x t c <> 2) ->
  run_inference true s = (s', Ok tt) -> exists L x k f, outcome s s' L x k f.
Proof.
  intros Hs Hd Rg Re Hc Hm H2 E. destruct (run_vectorized true s s' Hs Hd Hc ltac:(lia) E) as (L & x & col & V).
  pose proof (sane_base s Hs) as B. assert (O : orbit (m_topo s) (m_arcs s) x L) by (apply vec_orbit_orbit; auto; apply (vru_orbit _ _ _ _ _ _ V)).
  pose proof (vru_start _ _ _ _ _ _ V) as St. cbn [start] in St.
  destruct (concepts s) as [|c0 cs] eqn:Ec; [congruence|]. rewrite <- Ec in *.
  assert (H0 : hd_error (concepts s) = Some c0) by (rewrite Ec; reflexivity). assert (I0 : In c0 (concepts s)) by (rewrite Ec; now left).
  pose proof (vru_cut _ _ _ _ _ _ V c0 H0) as Cu. pose proof (vru_len _ _ _ _ _ _ V) as Ll.
  assert (ND : NoDup (concepts s)) by apply B.
  assert (Ek : col = Nat.min (S L) (Z.to_nat (m_maxit s) - 1)) by (apply (history_length s L x _ c0); auto; intros j Hj; now apply (H2 L x)).
  set (m := Z.to_nat (m_maxit s)) in *.
  assert (Cells : forall c j, In c (concepts s) -> (1 <= j < col)%nat -> recorded (concepts s) m L x c j = x j c).
  { intros c j _ Hj. now destruct (recorded_cut s m L x c c0 col j Cu ltac:(lia) ltac:(lia)) as [Q _]. }
  exists L, x, col, (recorded (concepts s) m L x). constructor; auto; try lia.
  - intros [Y|Y]; [congruence|]. intros c _. unfold recorded. cbn [Nat.eqb andb]. rewrite (vru_oob _ _ _ _ _ _ V) in Y. apply orb_false_iff in Y as [_ Y]. fold m in Y. rewrite Y. reflexivity.
  - intros c j Hcc Hj. destruct j as [|j].
    + unfold recorded. cbn [Nat.eqb andb]. destruct (Nat.leb m L) eqn:Em.
      * apply Nat.leb_le in Em. destruct (before (concepts s) c) as [b|] eqn:Eb; [exists m, b; split; [exact Em|]; split; auto; eapply before_In; eauto|].
        exists 0%nat, c. split; [lia|auto].
      * cbn [Nat.leb]. exists 0%nat, c. split; [lia|auto].
    + exists (S j), c. split; [lia|]. split; auto. apply Cells; auto. lia.
  - intros c Hcc. destruct (vru_value _ _ _ _ _ _ V c _ Hcc (vru_hist _ _ _ _ _ _ V c Hcc)) as (d & v & D1 & D2 & D3). exists d, v.
    rewrite map_length, seq_length in D2. auto.
Qed.

(** ** Maps whose concepts all work alike *)
Definition common (s : fcm R) (b : bool) (xc ac : string) (kw : args R) : Prop :=
  forall c n, dget (m_topo s) c = Some n -> nd_active n = Some true /\ nd_mem n = Some b /\ nd_exec n = Some xc /\ nd_func n = Some ac /\ nd_args n = Some kw.
Lemma common_moved g g' b xc ac kw : moved g g' -> common (g_fcm g) b xc ac kw -> common (g_fcm g') b xc ac kw.
Proof.
  intros M C c n Hn. pose proof (moved_wframe _ _ M) as (W1 & _). symmetry in W1. destruct (statics_dget _ _ c n W1 Hn) as (n' & Hn' & En).
  destruct (C c n' Hn') as (C1 & C2 & C3 & C4 & C5).
  pose proof (f_equal nd_active En) as E1. pose proof (f_equal nd_mem En) as E2. pose proof (f_equal nd_exec En) as E3. pose proof (f_equal nd_func En) as E4. pose proof (f_equal nd_args En) as E5.
  cbn in E1, E2, E3, E4, E5. repeat split; congruence.
Qed.
Section Common.
Variables (s : fcm R) (b : bool) (xc ac : string) (kw : args R).
Hypothesis Hs : sane s.
Hypothesis C : common s b xc ac kw.
Hypothesis Hc : callable ac kw.
Hypothesis NR : NoDup (map (fun r => fst r) (relations s)).
Definition sgn (v : R) : R := if String.eqb xc "PAPAGEORGIUS" then 2 * v - 1 else v.
Definition memw : R := if b then 1 else 0.
Lemma sgn_mono u v : u < v -> sgn u < sgn v.
Proof. unfold sgn. destruct (String.eqb _ _); lra. Qed.
Lemma sgn_reach v : -1 <= v <= 1 -> Rabs (sgn v) <= reach xc.
Proof. unfold sgn, reach. destruct (String.eqb _ _); intros H; apply Rabs_le; lra. Qed.
Lemma common_plain : ac <> "fuzzy".
Proof. intros E. rewrite E in Hc. destruct Hc as [[H _]|[[H _]|[[H _]|[H _]]]]; cbn in H; intuition discriminate. Qed.
Lemma common_regular : regular s.
Proof.
  split; auto. intros c n Hn. destruct (C c n Hn) as (C1 & C2 & C3 & C4 & C5). split; auto. split.
  - intros a Ha. assert (a = kw) by congruence. subst a.
    assert (E : kw = [] \/ exists k v, kw = [(k, AScal v)]).
    { destruct Hc as [[_ X]|[[_ [X|[l X]]]|[[_ [X|[l X]]]|[_ (l & _ & [X|[X _]])]]]]; subst; eauto. }
    destruct E as [->|(k & v & ->)]; cbn [dkeys map fst].
    + split; [constructor|]. intros m v H. discriminate.
    + split; [constructor; [easy|constructor]|]. intros m w H. cbn [dget] in H. destruct (String.eqb _ _); discriminate.
  - intros E. exfalso. apply common_plain. congruence.
Qed.
Lemma common_responsive : responsive s.
Proof. intros c n x Hn. destruct (C c n Hn) as (C1 & C2 & C3 & C4 & C5). now apply (callable_answers n ac kw). Qed.
Definition act (u y : R) : Prop := exists fn, get_function_by_name ac = Some fn /\ call_actv fn u kw = Ok y.
Lemma common_step x c n y : dget (m_topo s) c = Some n -> next_value (m_topo s) (m_arcs s) x c n y ->
  act (Rsum (map (fun a => sgn (x a) * last_weight (m_arcs s) a c) (concepts s)) + memw * sgn (x c)) y.
Proof.
  intros Hn (f & fn & a & z & A1 & A2 & A3 & A4 & A5). destruct (C c n Hn) as (C1 & C2 & C3 & C4 & C5).
  assert (f = ac) by congruence. subst f. assert (a = kw) by congruence. subst a. exists fn. split; auto.
  pose proof common_plain as Np. apply String.eqb_neq in Np. rewrite Np in A4. subst z.
  assert (E : total_input (m_topo s) (m_arcs s) x c n = Rsum (map (fun a => sgn (x a) * last_weight (m_arcs s) a c) (concepts s)) + memw * sgn (x c)).
  { rewrite total_input_R, C2. pose proof (sane_base s Hs) as (ND & Fu & K & A). rewrite inputs_agree; auto.
    - unfold concepts, dkeys. rewrite map_map. f_equal.
      + f_equal. apply map_ext_in. intros [a na] Ha. cbn [fst snd]. rewrite (signal_exec na xc).
        * unfold sgn. rnum. reflexivity.
        * apply In_dget in Ha; auto. now destruct (C a na Ha) as (_ & _ & X & _).
      + unfold memw. destruct b; [|lra]. rewrite (signal_exec n xc) by auto. unfold sgn. rnum. lra.
    - intros d w o H. now apply (A d w o).
    - intros o no Ho. now apply (C o no).
    - unfold relations in NR. rewrite map_map in NR. erewrite map_ext; [exact NR|]. intros [[d w] o]. reflexivity. }
  now rewrite <- E.
Qed.
End Common.
