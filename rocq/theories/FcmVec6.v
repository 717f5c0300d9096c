(** FcmVec6.v — when vectorized inference raises (C85). *)
From Verif Require Import Base BaseFacts Num Functions FunctionsFacts Fcm FcmSpec DynSpec FcmBasics FcmInv FcmInv2 FcmInv3 FcmIter FcmRun FcmRun2 FcmRun3 FcmTotal VecSpec FcmVec FcmVec2 FcmVec3 FcmVec4 FcmVec5.

Section VecTotal.
Context {F : Type} {N : Num F}.
Implicit Types s : fcm F.

Lemma vec_callable_answers (n : node F) f a : nd_func n = Some f -> nd_args n = Some a -> callable f a ->
  forall t arcs x c, exists y, vec_next t arcs x c n y.
Proof.
  intros Hf Ha C t arcs x c.
  assert (G : exists id, get_const_by_name f = Some id /\ forall z, exists y, exec_actv_function id z (process_function_args a) = Ok y).
  { destruct C as [[Hi ->]|[[Hi C]|[[Hi C]|(-> & l & Hl & C)]]].
    - cbn in Hi. destruct Hi as [<-|[<-|[<-|[]]]]; eexists; (split; [reflexivity|]); intros z; eexists; reflexivity.
    - cbn in Hi. destruct Hi as [<-|[<-|[<-|[]]]]; eexists; (split; [reflexivity|]); intros z;
        destruct C as [->|[l ->]]; eexists; reflexivity.
    - cbn in Hi. destruct Hi as [<-|[<-|[]]]; eexists; (split; [reflexivity|]); intros z;
        destruct C as [->|[l ->]]; eexists; reflexivity.
    - exists FUNC_RELM. split; [reflexivity|].
      assert (R : forall v, exists y, relm v l = Ok y).
      { intros v. unfold relm, pdiv. destruct (nltb v n0); eauto. rewrite Hl. cbn [rbind]. destruct (nltb n1 (ndiv v l)); eauto. }
      intros z. destruct C as [->|[-> ->]]; apply R. }
  destruct G as (id & G1 & G2). 
  set (z := let norm := if String.eqb f "fuzzy" then nd_sum n else n0 in if nltb n0 norm then ndiv (vec_input t arcs x c n) norm else vec_input t arcs x c n).
  destruct (G2 z) as [y Hy]. exists y, f, id, a, z. repeat split; auto.
Qed.

Notation d_fun s := (map (fun p => let '(id, _, _, _, _) := node_data (snd p) in id) (m_topo s)).
Notation d_arg s := (map (fun p => let '(_, v, _, _, _) := node_data (snd p) in v) (m_topo s)).
Notation d_mem s := (map (fun p => let '(_, _, m, _, _) := node_data (snd p) in m) (m_topo s)).
Notation d_norm s := (map (fun p => let '(_, _, _, x, _) := node_data (snd p) in x) (m_topo s)).
Notation d_avoid s := (map (fun p => papa (snd p)) (m_topo s)).
(** a step of the loop fails only where a concept's function fails *)
Lemma vec_node_total s mat v i c n : vdata s mat -> full s -> all_nodes vect_ok s -> length v = length (concepts s) ->
  nth_error (concepts s) i = Some c -> dget (m_topo s) c = Some n ->
  (exists y, vec_next (m_topo s) (m_arcs s) (at_pos s v) c n y) ->
  exists r, vec_node (d_fun s) (d_arg s) (d_norm s) (d_mem s) (d_avoid s) (emit (d_avoid s) v) mat i = Ok r.
Proof.
  intros VD Fu Vo L Ei En (y & f' & id' & a' & z & H1 & H2 & H3 & H4 & H5). unfold vec_node.
  assert (ND := vd_nodup _ _ VD).
  assert (Hi : i < length (concepts s)) by (apply nth_error_Some; congruence).
  assert (Lt : length (m_topo s) = length (concepts s)) by (unfold concepts, dkeys; now rewrite map_length).
  rewrite (vec_dot_input s mat v i c VD L Ei).
  rewrite nth_emit by (rewrite ?map_length; lia).
  rewrite (nth_map_topo s papa i c n false Ei En ND).
  rewrite (nth_map_topo s (fun n => let '(id, _, _, _, _) := node_data n in id) i c n (-1)%Z Ei En ND).
  rewrite (nth_map_topo s (fun n => let '(_, v, _, _, _) := node_data n in v) i c n [] Ei En ND).
  rewrite (nth_map_topo s (fun n => let '(_, _, m, _, _) := node_data n in m) i c n false Ei En ND).
  rewrite (nth_map_topo s (fun n => let '(_, _, _, x, _) := node_data n in x) i c n n0 Ei En ND).
  pose proof (Vo c n En) as V. unfold vect_ok in V.
  unfold node_data. rewrite H1, H2. rewrite H3 in V. rewrite V.
  unfold vec_input in H4. cbv zeta in H4. rewrite signal_papa, (at_pos_nth s v i c ND Ei) in H4. rewrite <- H4, H5. cbn [rbind]. eauto.
Qed.
Lemma vec_loop_total functions func_args reduce mem avoid mat n m min_diff extra fuel : length avoid = n ->
  (forall v, length v = n -> forall i, i < n -> exists r, vec_node functions func_args reduce mem avoid (emit avoid v) mat i = Ok r) ->
  forall v buf oob it ec step, length v = n ->
  (exists r, vec_loop fuel functions func_args reduce mem avoid mat n m min_diff extra (emit avoid v) buf oob it ec step = Ok r) \/
  vec_loop fuel functions func_args reduce mem avoid mat n m min_diff extra (emit avoid v) buf oob it ec step = Err EFuel.
Proof.
  intros La H. induction fuel as [|fuel IH]; intros v buf oob it ec step Lv; [now right|]. cbn [vec_loop].
  destruct (rmap_exists (vec_node functions func_args reduce mem avoid (emit avoid v) mat) (seq 0 n)) as [ys E].
  { intros i Hi. apply H; auto. apply in_seq in Hi. lia. }
  rewrite E. cbn [rbind]. destruct (fold_left _ _ _) as [buf' oob'].
  pose proof (emit_snd functions func_args reduce mem avoid mat n _ _ La E) as ->.
  pose proof (rmap_ok_length _ _ _ E) as Ly. rewrite seq_length in Ly.
  destruct (if nltb _ _ && _ then false else _); [|left; eauto].
  apply IH. now rewrite map_length.
Qed.
Lemma vec_engine_total s : base s -> all_nodes vect_ok s -> m_topo s <> [] -> m_prepared s = false -> (1 <= m_maxit s)%Z ->
  vec_responsive s -> exists s2, vectorized_inference s = (s2, Ok tt).
Proof.
  intros B Vo Ht P Hm HR. unfold vectorized_inference. rewrite P.
  destruct (prepare_ok s B) as (mat & E & Sq & HM). destruct B as (ND & Fu & K & A). change (NoDup (concepts s)) in ND.
  rewrite E. cbn [vc_functions vc_state vc_matrix vc_args vc_mem vc_norm vc_avoid m_topo m_maxit m_sdiff m_extra set_cache].
  change (map (fun p : string * node F => let '(_, _, _, _, b) := node_data (snd p) in b) (m_topo s)) with (d_avoid s).
  assert (VD : vdata s mat) by (constructor; auto).
  assert (Lt : length (m_topo s) = length (concepts s)) by (unfold concepts, dkeys; now rewrite map_length).
  set (v0 := map (fun p : string * node F => nd_value (snd p)) (m_topo s)).
  assert (Lv0 : length v0 = length (concepts s)) by (unfold v0; rewrite map_length; lia).
  assert (Est : match m_topo s with [] => v0 | _ :: _ => v0 end = v0) by (destruct (m_topo s); reflexivity).
  rewrite Est.
  match goal with |- exists _, match ?x with [] => _ | _ => _ end = _ => destruct x eqn:Ef; [destruct (m_topo s); [congruence|discriminate]|] end.
  rewrite <- Ef. clear Ef.
  match goal with |- context [vectorized_run ?a ?b ?c ?d ?e ?f ?g ?h ?i ?j] =>
    assert (TOT : exists r, vectorized_run a b c d e f g h i j = Ok r) end.
  { match goal with |- exists _, vectorized_run ?a ?b ?c ?d ?e ?f ?g ?h ?i ?j = _ => pose proof (vectorized_run_nofuel a b c d e f g h i j) as NF end.
    unfold vectorized_run in *. destruct (Z.ltb_spec (m_maxit s) 0); [lia|]. cbv zeta in *.
    destruct (fold_left _ _ _) as [buf oob]. change (map _ (combine v0 (d_avoid s))) with (emit (d_avoid s) v0) in *.
    match type of NF with ?t <> _ => assert (X : (exists r, t = Ok r) \/ t = Err EFuel); [|destruct X; [assumption|contradiction]] end.
    apply vec_loop_total; auto; [rewrite map_length; lia|].
    intros v Lv i Hi. rewrite Lv0 in Lv, Hi. destruct (nth_error (concepts s) i) as [c|] eqn:Ei; [|apply nth_error_None in Ei; lia].
    assert (Hc : In c (concepts s)) by (eapply nth_error_In; eauto). apply dget_Some_In in Hc as [n En].
    eapply (vec_node_total s mat v i c n); auto. }
  destruct TOT as [[[buf oob] k] ->]. cbn [m_maxit set_oob set_cache].
  destruct (Nat.eqb_spec (Z.to_nat (m_maxit s)) 0); [lia|]. eauto.
Qed.
Lemma vec_responsive_frame s s' : statics s' = statics s -> m_arcs s' = m_arcs s -> vec_responsive s -> vec_responsive s'.
Proof.
  intros S A H c n x Hn. destruct (statics_dget _ _ _ _ (eq_sym S) Hn) as (n' & Hn' & En').
  destruct (H c n' x Hn') as [y Hy]. exists y. rewrite A.
  eapply vec_next_static; [|exact En'|exact Hy]. exact (eq_sym S).
Qed.
Lemma vectorized_settings s : settings (fst (vectorized_inference s)) = settings s.
Proof.
  destruct (vectorized_inference s) as [s2 r] eqn:E2'. cbn [fst]. unfold vectorized_inference in E2'.
  repeat match type of E2' with
    | context [match prepare ?s with _ => _ end] => destruct (prepare s)
    | context [if m_prepared ?s then _ else _] => destruct (m_prepared s)
    | context [match m_cache ?s with _ => _ end] => destruct (m_cache s)
    | context [match vc_functions ?s with _ => _ end] => destruct (vc_functions s)
    | context [match vectorized_run ?a ?b ?c ?d ?e ?f ?g ?h ?i ?j with _ => _ end] => destruct (vectorized_run a b c d e f g h i j) as [[[? ?] ?]|]
    | context [if Nat.eqb ?a 0 then _ else _] => destruct (Nat.eqb a 0)
    end; injection E2' as <-; reflexivity.
Qed.

(** reporting from empty histories fails *)
Lemma decision_empty (d : decis) (p : Z) : (p < 0)%Z -> (d <> DLast -> neqb (nofZ (Num := N) 0) n0 = true) ->
  exists e, exec_decision d (@nil F) p = Err e.
Proof.
  intros Hp Hz. destruct d; cbn [exec_decision].
  - unfold decision_last. destruct (Z.ltb_spec 0 p); [lia|]. cbn. eauto.
  - unfold decision_mean. destruct (Z.leb_spec p 0); [|lia]. cbn. unfold pdiv. rewrite Hz by discriminate. eauto.
  - unfold decision_exited. destruct (Z.eqb_spec p 0) as [->|Hp0]; [lia|]. destruct (Z.leb_spec 0 p); [lia|]. cbn. eauto.
Qed.
Lemma finalize_exec l s : m_exec (fst (mfold finalize_one l s)) = m_exec s.
Proof.
  revert s. induction l as [|a l IH]; intros s; [reflexivity|]. cbn [mfold].
  assert (X : m_exec (fst (finalize_one a s)) = m_exec s).
  { unfold finalize_one. match goal with |- context [match ?r with Ok _ => _ | Err _ => _ end] => destruct r as [v|e]; [|reflexivity] end.
    destruct (dget (m_topo s) a); reflexivity. }
  destruct (finalize_one a s) as [s1 [u|e]]; cbn [fst] in *; [now rewrite IH|exact X].
Qed.
Lemma vec_outcome s : sane s -> m_debug s = false -> concepts s <> [] -> (1 <= m_maxit s)%Z ->
  (forall c, In c (concepts s) -> initial s c <> None) -> vec_responsive s ->
  exists col, (Z.of_nat col <= m_maxit s - 1)%Z /\
    (forall c, In c (concepts s) -> exists h, history (fst (run_inference true s)) c = Some h /\ length h = col) /\
    (forall c0 v, hd_error (concepts s) = Some c0 -> initial s c0 = Some v -> (col = 0 <-> m_maxit s = 1%Z \/ neqb v n2 = true)) /\
    ((m_decision s <> "LAST" -> neqb (nofZ (Num := N) 0) n0 = true /\ forall k, (0 < k)%Z -> neqb (nofZ (Num := N) k) n0 = false) ->
    (col = 0 -> exists e, snd (run_inference true s) = Err e) /\
    (0 < col -> snd (run_inference true s) =
      if String.eqb (m_decision s) "EXITED" && (Z.of_nat col =? m_extra s + 1)%Z then Err EValue else Ok tt)).
Proof.
  intros Hs D Hc Hm Hi HR. pose proof (from_fresh_reachable _ _ Hs) as Hr.
  pose proof (sane_base s Hs) as B. pose proof (reachable_extra s Hr) as He. pose proof (reachable_vect s Hr) as Vo.
  pose proof (reachable_fresh s Hr) as Fd. pose proof (sane_parts s Hs) as (ND & Hf & K & A & G & HE).
  assert (Hn : hist_ne s).
  { intros c h Hh ->. assert (Hcc : In c (concepts s)) by (unfold concepts; rewrite <- K; apply dget_Some_In; eauto).
    apply (Hi c Hcc). unfold initial, history. now rewrite Hh. }
  destruct (reset_values s K Hn ND) as [R1 R2]. pose proof (reset_frame s) as Fr.
  destruct (reset_execution s) as [s1 r1] eqn:E1. cbn [fst snd] in *. subst r1.
  pose proof (reset_runnable s s1 E1 B) as Rn.
  pose proof Fr as (S1 & A1 & Se1 & P1 & C1 & O1). pose proof (settings_max _ _ Se1) as (M1 & M2 & M3 & M4 & M5 & M6).
  pose proof (statics_keys _ _ S1) as K1.
  assert (B1 : base s1) by exact (conj (rn_nodup _ Rn) (conj (rn_full _ Rn) (conj (rn_keys _ Rn) (rn_arcs _ Rn)))).
  assert (T1 : m_topo s1 <> []). { intros X. apply Hc. unfold concepts. rewrite <- K1, X. reflexivity. }
  assert (V1o : all_nodes vect_ok (set_prepared false s1)) by (apply (all_ev vect_ok s); auto using vect_ok_inv).
  destruct (vec_engine_total (set_prepared false s1)) as [s2' E2']; auto.
  { cbn. lia. }
  { apply (vec_responsive_frame s); auto. }
  destruct (vectorized_current s1 (fresh_frame _ _ Fr Fd) T1) as [V1 V2].
  destruct (vectorized_inference s1) as [s2 r2] eqn:E2. rewrite E2' in V1, V2. cbn [fst snd] in V1, V2.
  assert (r2 = Ok tt) as -> by (destruct V2 as [(e & e' & _ & Q)|Q]; congruence).
  destruct (vec_engine_ok (set_prepared false s1) s2') as (L & x & VE); auto; try (cbn; lia).
  destruct VE as [X1 X2 X3 X4 X5 X6 X7]. clear X2 X5 X6 X7.
  unfold concepts in X4. cbn [m_topo m_arcs m_maxit m_oob m_extra m_sdiff set_prepared] in *.
  rewrite M1 in X3, X4. rewrite K1 in X4. fold (concepts s) in X4. destruct X4 as (col & X4 & X4').
  assert (Vt : m_topo s2 = m_topo s2' /\ m_exec s2 = m_exec s2') by (unfold visible in V1; injection V1; auto).
  destruct Vt as (Vt & Ve).
  assert (T2 : m_topo s2 = m_topo s1). { pose proof (vectorized_topo s1) as Q. rewrite E2 in Q. exact Q. }
  assert (Se2 : settings s2 = settings s1). { pose proof (vectorized_settings s1) as Q. rewrite E2 in Q. exact Q. }
  pose proof (settings_max _ _ Se2) as (_ & N2 & _ & _ & N5 & _).
  assert (K2 : dkeys (m_topo s2) = concepts s) by (rewrite T2; exact K1).
  destruct G as (_ & _ & _ & [d Hd]).
  assert (DL : d <> DLast -> m_decision s <> "LAST").
  { intros X Y. rewrite Y in Hd. cbn in Hd. congruence. }
  destruct (concepts s) as [|c0 cs] eqn:Ec; [congruence|].
  assert (Start : forall v, initial s c0 = Some v -> x 0 c0 = v).
  { intros v Hv. destruct (R2 c0 v Hv) as [Q _]. unfold value, get_concept_value in Q. destruct (dget (m_topo s1) c0) as [n|] eqn:En; [|discriminate].
    injection Q as <-. now apply X1. }
  assert (Hcol : col <= Z.to_nat (m_maxit s) - 1 /\ forall v, initial s c0 = Some v -> (col = 0 <-> m_maxit s = 1%Z \/ neqb v n2 = true)).
  { destruct (X4 c0 eq_refl) as (Y1 & Y2 & Y3). split; auto. intros v Hv. specialize (Start v Hv).
    assert (RC : recorded (c0 :: cs) (Z.to_nat (m_maxit s)) L x c0 0 = v).
    { unfold recorded. cbn [Nat.eqb andb]. rewrite (before_nth (c0 :: cs) 0 c0); [destruct (Nat.leb _ L); auto|rewrite <- Ec; exact ND|reflexivity]. }
    split.
    - intros ->. destruct (Z.eq_dec (m_maxit s) 1); auto. right. rewrite <- RC. apply Y3. lia.
    - intros [Q|Q]; [rewrite Q in Y1; cbn in Y1; lia|]. destruct col; auto. specialize (Y2 0 ltac:(lia)). congruence. }
  destruct Hcol as [Cle Ciff].
  assert (Lh : forall c, In c (c0 :: cs) -> exists h, dget (m_exec s2) c = Some h /\ length h = col).
  { intros c Hcc. exists (map (recorded (c0 :: cs) (Z.to_nat (m_maxit s)) L x c) (seq 0 col)). rewrite Ve. split; [now apply X4'|].
    now rewrite map_length, seq_length. }
  exists col. unfold run_inference. rewrite E1, M6, D, E2. split; [lia|].
  split. { intros c Hcc. unfold history. rewrite finalize_exec. now apply Lh. }
  split. { intros c v [= <-] Hv. now apply Ciff. }
  intros Hz. destruct (Nat.eq_dec col 0) as [Z0|Z0].
  - split; [|lia]. intros _. rewrite K2. cbn [mfold]. destruct (Lh c0 (or_introl eq_refl)) as (h & Hh & Hl). rewrite Z0 in Hl. destruct h; [|discriminate].
    assert (Hc0 : In c0 (dkeys (m_topo s2))) by (rewrite K2; now left). apply dget_Some_In in Hc0 as [n Hn0].
    unfold finalize_one at 1, dget_exn. rewrite Hh, Hn0. cbn [rbind]. rewrite N5, M5, Hd. cbn [rbind].
    destruct (decision_empty d (Z.of_nat (length (@nil F)) - m_extra s2 - 1)) as [e ->].
    + cbn. lia.
    + intros Q. apply Hz, DL, Q.
    + cbn [rbind]. eexists. reflexivity.
  - split; [lia|]. intros _. set (bad := match d with DExited => (Z.of_nat col =? m_extra s + 1)%Z | _ => false end).
    destruct (finalize_outcome (dkeys (m_topo s2)) s2 d bad) as [_ O2].
    { now rewrite N5, M5. }
    { rewrite K2. intros c Hcc. destruct (Lh c Hcc) as (h & Hh & Hl). assert (Hc' := Hcc). rewrite <- K2 in Hc'. apply dget_Some_In in Hc' as [n Hnn].
      exists h, n. split; auto. split; auto.
      assert (Hne : h <> []) by (intros ->; cbn in Hl; lia).
      pose proof (decision_outcome d h (Z.of_nat (length h) - m_extra s2 - 1) Hne ltac:(lia) (fun X => proj2 (Hz (DL X)))) as Q.
      rewrite N2, M2 in *. replace (Z.of_nat (length h) - m_extra s - 1 =? 0)%Z with (Z.of_nat col =? m_extra s + 1)%Z in Q; [exact Q|].
      rewrite Hl. destruct (Z.eqb_spec (Z.of_nat col) (m_extra s + 1)), (Z.eqb_spec (Z.of_nat col - m_extra s - 1) 0); auto; lia. }
    rewrite O2, K2. unfold bad. destruct (String.eqb_spec (m_decision s) "EXITED") as [X|X].
    + rewrite X in Hd. cbn in Hd. injection Hd as <-. cbn [andb]. destruct (_ =? _)%Z; reflexivity.
    + cbn [andb]. destruct d; auto. exfalso. unfold get_decision_by_name in Hd.
      destruct (String.eqb (m_decision s) "LAST"); [discriminate|]. destruct (String.eqb (m_decision s) "MEAN"); [discriminate|].
      destruct (String.eqb_spec (m_decision s) "EXITED"); congruence.
Qed.
(** the histories stay nonempty *)
Lemma vec_run_hist s c0 v : sane s -> m_debug s = false -> (2 <= m_maxit s)%Z ->
  (forall c, In c (concepts s) -> initial s c <> None) -> hd_error (concepts s) = Some c0 -> initial s c0 = Some v -> neqb v n2 = false ->
  vec_responsive s -> hist_ne (fst (run_inference true s)).
Proof.
  intros Hs D Hm Hi H0 Hv Hv2 HR.
  assert (Hc : concepts s <> []) by (destruct (concepts s); discriminate).
  destruct (vec_outcome s Hs D Hc ltac:(lia) Hi HR) as (col & _ & Lh & C0 & _).
  specialize (C0 c0 v H0 Hv). assert (P : 0 < col).
  { destruct col; [|lia]. exfalso. destruct (proj1 C0 eq_refl); [lia|congruence]. }
  assert (S' : sane (fst (run_inference true s))) by (apply (from_fresh_snoc s (OpRun true) Hs eq_refl)).
  destruct (sane_parts _ S') as (_ & _ & K' & _).
  assert (CE : concepts (fst (run_inference true s)) = concepts s).
  { destruct (run_wframe true s) as [Q _]. exact (statics_keys _ _ Q). }
  destruct (run_inference true s) as [s' r]. cbn [fst snd] in *.
  intros c h Hh ->. assert (Hcc : In c (concepts s')) by (unfold concepts; rewrite <- K'; apply dget_Some_In; eauto).
  rewrite CE in Hcc. destruct (Lh c Hcc) as (h & Hh' & Hl). unfold history in Hh'. rewrite Hh in Hh'. injection Hh' as <-. cbn in Hl. lia.
Qed.
Lemma vec_run_succeeds s c0 v : sane s -> m_debug s = false -> (2 <= m_maxit s)%Z ->
  (forall c, In c (concepts s) -> initial s c <> None) -> hd_error (concepts s) = Some c0 -> initial s c0 = Some v -> neqb v n2 = false ->
  vec_responsive s -> m_decision s <> "EXITED" ->
  (m_decision s <> "LAST" -> neqb (nofZ (Num := N) 0) n0 = true /\ forall k, (0 < k)%Z -> neqb (nofZ (Num := N) k) n0 = false) ->
  exists s', run_inference true s = (s', Ok tt).
Proof.
  intros Hs D Hm Hi H0 Hv Hv2 HR He Hz.
  assert (Hc : concepts s <> []) by (destruct (concepts s); discriminate).
  destruct (vec_outcome s Hs D Hc ltac:(lia) Hi HR) as (col & _ & Lh & C0 & X). destruct (X Hz) as [_ X']. clear X.
  specialize (C0 c0 v H0 Hv). assert (P : 0 < col).
  { destruct col; [|lia]. exfalso. destruct (proj1 C0 eq_refl); [lia|congruence]. }
  specialize (X' P). destruct (String.eqb_spec (m_decision s) "EXITED"); [contradiction|]. cbn [andb] in X'.
  destruct (run_inference true s) as [s' r]. cbn [fst snd] in *. subst. eauto.
Qed.
End VecTotal.
