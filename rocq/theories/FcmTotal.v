(** FcmTotal.v — when iterative inference raises (C73). *)
From Verif Require Import Base BaseFacts Num Functions FunctionsFacts Fcm FcmSpec DynSpec FcmInv FcmInv2 FcmInv3 FcmIter FcmRun FcmRun2 FcmRun3 FcmStop.

Section Total.
Context {F : Type} {N : Num F}.
Notation fcm := (fcm F).
Implicit Types (s : fcm).

Lemma callable_answers (n : node F) f a : nd_func n = Some f -> nd_args n = Some a -> callable f a ->
  forall t arcs x c, exists y, next_value t arcs x c n y.
Proof.
  intros Hf Ha C t arcs x c.
  assert (G : exists fn, get_function_by_name f = Some fn /\ f <> "fuzzy" /\ exists y, call_actv fn (total_input t arcs x c n) a = Ok y).
  { destruct C as [[Hi ->]|[[Hi C]|[[Hi C]|(-> & l & Hl & C)]]].
    - cbn in Hi. destruct Hi as [<-|[<-|[<-|[]]]]; eexists; (split; [reflexivity|]); (split; [discriminate|]); eexists; reflexivity.
    - cbn in Hi. destruct Hi as [<-|[<-|[<-|[]]]]; eexists; (split; [reflexivity|]); (split; [discriminate|]);
        destruct C as [->|[l ->]]; eexists; reflexivity.
    - cbn in Hi. destruct Hi as [<-|[<-|[]]]; eexists; (split; [reflexivity|]); (split; [discriminate|]);
        destruct C as [->|[l ->]]; eexists; reflexivity.
    - exists ARelm. split; [reflexivity|]. split; [discriminate|].
      assert (R : forall v, exists y, relm v l = Ok y).
      { intros v. unfold relm, pdiv. destruct (nltb v n0); eauto. rewrite Hl. cbn [rbind]. destruct (nltb n1 (ndiv v l)); eauto. }
      destruct C as [->|[-> ->]]; apply R. }
  destruct G as (fn & G1 & G2 & y & G3). exists y, f, fn, a, (total_input t arcs x c n). repeat split; auto.
  destruct (String.eqb_spec f "fuzzy"); congruence.
Qed.

(** a step of a responsive map succeeds *)
Definition resp s : Prop := forall c x, In c (dkeys (m_topo s)) -> exists y, next_fn (m_topo s) (m_arcs s) x c = Ok y.
Lemma responsive_resp s : full s -> responsive s -> resp s.
Proof.
  intros Hf H c x Hc. apply dget_Some_In in Hc as [n Hn]. destruct (H c n x Hn) as [y Hy]. exists y.
  apply (next_fn_value _ _ _ c n _ Hn (Hf _ _ Hn)), Hy.
Qed.
Lemma resp_frame s s' : statics s' = statics s -> m_arcs s' = m_arcs s -> resp s -> resp s'.
Proof.
  intros S A H c x Hc. rewrite (statics_keys s s' S) in Hc. destruct (H c x Hc) as [y Hy]. exists y.
  rewrite A, <- Hy. apply next_fn_static; auto.
Qed.
Lemma rmap_exists {A B} (f : A -> res B) l : (forall a, In a l -> exists b, f a = Ok b) -> exists bs, rmap f l = Ok bs.
Proof.
  induction l as [|a l IH]; intros H; [eexists; reflexivity|]. cbn [rmap].
  destruct (H a (or_introl eq_refl)) as [b Hb]. destruct IH as [bs Hbs]; [intros; apply H; now right|].
  rewrite Hb. cbn [rbind]. rewrite Hbs. eexists. reflexivity.
Qed.
Lemma inf_step_resp s : runnable s -> resp s -> exists s1, inf_step s = (s1, Ok tt) /\ resp s1.
Proof.
  intros R H. pose proof (inf_step_spec s R) as I.
  destruct (rmap_exists (next_fn (m_topo s) (m_arcs s) (vals (m_topo s))) (dkeys (m_topo s))) as [ys E]; [intros c Hc; now apply H|].
  rewrite E in I. destruct I as (y & _ & I). eexists. split; [exact I|].
  destruct (stepped_frame y s) as [_ (S & A & _)]. now apply (resp_frame s).
Qed.
(** the loop never raises but for want of fuel *)
Lemma iter_loop_resp fuel e s : runnable s -> resp s -> (forall c h, history s c = Some h -> 1 <= length h) ->
  ((1 < m_iters s)%Z -> forall c h, history s c = Some h -> 2 <= length h) ->
  snd (iter_loop fuel e s) = Ok tt \/ snd (iter_loop fuel e s) = Err EFuel.
Proof.
  revert e s. induction fuel as [|fuel IH]; intros e s R H H1 H2; cbn [iter_loop]; destruct (0 <? e)%Z; auto.
  assert (K : exists k, keep_execution s = Ok k).
  { unfold keep_execution. destruct (_ <=? _)%Z; [eauto|]. destruct (m_stab s); [|eauto].
    assert (ND : NoDup (dkeys (m_exec s))) by (rewrite (rn_keys _ R); apply R).
    destruct (is_stable_spec s ND) as (Z1 & Z2 & _). destruct (Z.le_gt_cases (m_iters s) 1) as [Hi|Hi].
    - rewrite Z1 by auto. cbn [rbind]. eauto.
    - destruct (Z2 Hi (H2 Hi)) as (b & -> & _). cbn [rbind]. eauto. }
  destruct K as [k ->]. destruct (inf_step_resp s R H) as (s1 & E & H'). rewrite E.
  destruct (inf_step_hist s s1 R E) as (R1 & N1 & G1).
  assert (L1 : forall c h, history s1 c = Some h -> 2 <= length h).
  { intros c h Hh. destruct (history s c) as [g|] eqn:Eg; [|rewrite (N1 c Eg) in Hh; discriminate].
    destruct (G1 c g Eg) as [v Hv]. rewrite Hh in Hv. injection Hv as ->. rewrite app_length. cbn. specialize (H1 c g Eg). lia. }
  apply IH; auto. intros c h Hh. specialize (L1 c h Hh). lia.
Qed.
Lemma steps_len s L s' k : runnable s -> steps s L s' -> (forall c h, history s c = Some h -> length h = k) ->
  forall c h, history s' c = Some h -> length h = k + L.
Proof.
  intros R H Hk. induction H as [|L s1 s2 H IH E]; intros c h Hh.
  - rewrite Nat.add_0_r. eauto.
  - pose proof (steps_runnable _ _ _ R H) as R1. destruct (inf_step_hist s1 s2 R1 E) as (_ & N1 & G1).
    destruct (history s1 c) as [g|] eqn:Eg; [|rewrite (N1 c Eg) in Hh; discriminate].
    destruct (G1 c g Eg) as [v Hv]. rewrite Hh in Hv. injection Hv as ->. rewrite app_length. cbn. rewrite (IH c g Eg). lia.
Qed.

(** the value reported at the end *)
Lemma decision_outcome (d : decis) (h : list F) (p : Z) : h <> [] -> (p < Z.of_nat (length h))%Z ->
  (d <> DLast -> forall k, (0 < k)%Z -> neqb (nofZ k) n0 = false) ->
  if match d with DExited => (p =? 0)%Z | _ => false end
  then exec_decision d h p = Err EValue else exists v, exec_decision d h p = Ok v.
Proof.
  intros Hh Hp Hz. destruct d; cbn [exec_decision].
  - unfold decision_last. destruct (Z.ltb_spec 0 p).
    + destruct h as [|x h]; [congruence|]. rewrite (zget_ok _ _ x) by lia. eauto.
    + destruct (rev h) as [|x t] eqn:E; eauto. apply (f_equal (@length F)) in E. rewrite rev_length in E. destruct h; [congruence|discriminate].
  - unfold decision_mean. destruct (Z.leb_spec p 0).
    + rewrite rmap_lget_firstn by lia. cbn [rbind]. unfold pdiv. rewrite Hz; [eauto|discriminate|]. destruct h; [congruence|cbn [length]; lia].
    + rewrite rmap_lget_firstn by lia. cbn [rbind]. unfold pdiv. rewrite Hz; [eauto|discriminate|lia].
  - unfold decision_exited. destruct (Z.eqb_spec p 0) as [->|Hp0]; [reflexivity|]. destruct (Z.leb_spec 0 p).
    + destruct h as [|x h]; [congruence|]. destruct (Z.to_nat p) as [|q] eqn:Eq; [lia|]. cbn [firstn max_list]. eauto.
    + destruct h as [|x h]; [congruence|]. cbn [max_list]. eauto.
Qed.
Lemma finalize_outcome l s d (bad : bool) : get_decision_by_name (m_decision s) = Some d ->
  (forall c, In c l -> exists h n, dget (m_exec s) c = Some h /\ dget (m_topo s) c = Some n /\
     if bad then exec_decision d h (Z.of_nat (length h) - m_extra s - 1) = Err EValue
     else exists v, exec_decision d h (Z.of_nat (length h) - m_extra s - 1) = Ok v) ->
  m_exec (fst (mfold finalize_one l s)) = m_exec s /\
  snd (mfold finalize_one l s) = (if bad then match l with [] => Ok tt | _ => Err EValue end else Ok tt).
Proof.
  revert s. induction l as [|a l IH]; intros s Hd H; cbn [mfold].
  - destruct bad; auto.
  - destruct (H a (or_introl eq_refl)) as (h & n & Hh & Hn & Hv).
    unfold finalize_one at 1 3, dget_exn. rewrite Hh, Hn. cbn [rbind]. rewrite Hd. cbn [rbind].
    destruct bad; [rewrite Hv; auto|]. destruct Hv as [v ->]. cbn [rbind].
    destruct (IH (put_node a (nd_set_value v n) s)) as [I1 I2]; [exact Hd| |].
    + intros c Hc. destruct (H c (or_intror Hc)) as (h' & n' & Hh' & Hn' & Hv'). exists h'. unfold put_node.
      cbn [m_exec m_topo m_extra set_topo]. destruct (String.eqb_spec c a) as [->|Hne].
      * eexists. rewrite dget_dset_same. auto.
      * exists n'. rewrite dget_dset_other by auto. auto.
    + split; [exact I1|exact I2].
Qed.

Lemma run_outcome s : sane s -> m_debug s = true -> (forall c, In c (concepts s) -> initial s c <> None) ->
  responsive s -> (m_decision s <> "LAST" -> forall k, (0 < k)%Z -> neqb (nofZ (Num := N) k) n0 = false) ->
  exists L, (forall c, In c (concepts s) -> exists h, history (fst (run_inference true s)) c = Some h /\ length h = S L) /\
    snd (run_inference true s) =
      (if String.eqb (m_decision s) "EXITED" && (Z.of_nat L =? m_extra s)%Z
       then match concepts s with [] => Ok tt | _ => Err EValue end else Ok tt).
Proof.
  intros Hs D Hi Hr Hz. pose proof (sane_base s Hs) as B. pose proof (sane_parts s Hs) as (ND & Hf & K & A & G & HE).
  assert (Hn : hist_ne s).
  { intros c h Hh ->. assert (Hc : In c (concepts s)) by (unfold concepts; rewrite <- K; apply dget_Some_In; eauto).
    apply (Hi c Hc). unfold initial, history. now rewrite Hh. }
  destruct (reset_values s K Hn ND) as [R1 R2]. pose proof (reset_frame s) as Fr.
  destruct (reset_execution s) as [s1 r1] eqn:E1. cbn [fst snd] in *. subst r1.
  pose proof (reset_runnable s s1 E1 B) as Rn.
  destruct Fr as (S1 & A1 & Se1 & _). pose proof (settings_max _ _ Se1) as (M1 & M2 & M3 & M4 & M5 & M6).
  pose proof (statics_keys s s1 S1) as K1.
  assert (L1 : forall c h, history (set_iters 1 s1) c = Some h -> length h = 1).
  { intros c h Hh. change (history (set_iters 1 s1) c) with (history s1 c) in Hh.
    assert (Hc : In c (concepts s)).
    { unfold concepts. rewrite <- K1, <- (rn_keys _ Rn). apply dget_Some_In. eauto. }
    destruct (initial s c) as [v|] eqn:Ev; [|now apply Hi in Hc]. destruct (R2 c v Ev) as [_ X]. rewrite Hh in X. injection X as ->. reflexivity. }
  assert (LP : exists s2, iterative_inference s1 = (s2, Ok tt)).
  { assert (RE : reachable s1).
    { pose proof (from_fresh_reachable _ _ Hs) as Re. pose proof (from_fresh_snoc s OpReset Hs eq_refl) as X. cbn [step] in X.
      rewrite E1 in X. exact (from_fresh_reachable _ _ X). }
    destruct (iterative_terminates s1 _ RE (Nat.le_refl _)) as [_ NF].
    destruct (iter_loop_resp (Z.to_nat (Z.max (m_maxit s1) 0 + m_extra s1)) (m_extra s1 - 1) (set_iters 1 s1)) as [X|X].
    - now apply runnable_iters.
    - apply (resp_frame s); auto. now apply responsive_resp.
    - intros c h Hh. rewrite (L1 c h Hh). lia.
    - cbn [m_iters set_iters]. lia.
    - unfold iterative_inference. cbn [m_maxit m_extra set_iters] in *. destruct (iter_loop _ _ _) as [s2 r2]. cbn [snd] in X. subst. eauto.
    - exfalso. apply NF. unfold iterative_inference. cbn [m_maxit m_extra set_iters]. exact X. }
  destruct LP as [s2 E2]. pose proof E2 as E2'. unfold iterative_inference in E2'. apply iter_loop_steps in E2' as [L St].
  pose proof (runnable_iters 1 s1 Rn) as Rn1. pose proof (steps_len _ _ _ 1 Rn1 St L1) as Ln.
  pose proof (steps_runnable _ _ _ Rn1 St) as Rn2.
  destruct (steps_orbit _ _ _ Rn1 St) as (x & _ & _ & _ & _ & XF & _).
  destruct XF as (S2 & _ & Se2 & _). pose proof (settings_max _ _ Se2) as (_ & N2 & _ & _ & N5 & _).
  cbn [m_extra m_decision set_iters] in N2, N5.
  assert (K2 : dkeys (m_topo s2) = concepts s).
  { rewrite (statics_keys _ _ S2). exact K1. }
  destruct G as (_ & _ & _ & [d Hd]).
  assert (DL : d <> DLast -> m_decision s <> "LAST").
  { intros X Y. rewrite Y in Hd. cbn in Hd. congruence. }
  set (bad := match d with DExited => (Z.of_nat L =? m_extra s)%Z | _ => false end).
  destruct (finalize_outcome (dkeys (m_topo s2)) s2 d bad) as [O1 O2].
  { now rewrite N5, M5. }
  { intros c Hc. assert (Hc' := Hc). apply dget_Some_In in Hc as [n Hnn]. rewrite <- (rn_keys _ Rn2) in Hc'. apply dget_Some_In in Hc' as [h Hh].
    exists h, n. split; auto. split; auto. pose proof (Ln c h Hh) as Lh.
    assert (Hne : h <> []) by (intros ->; cbn in Lh; lia).
    pose proof (decision_outcome d h (Z.of_nat (length h) - m_extra s2 - 1) Hne ltac:(lia) (fun X => Hz (DL X))) as Q.
    rewrite N2, M2 in *. replace (Z.of_nat (length h) - m_extra s - 1 =? 0)%Z with (Z.of_nat L =? m_extra s)%Z in Q; [exact Q|].
    rewrite Lh. destruct (Z.eqb_spec (Z.of_nat L) (m_extra s)), (Z.eqb_spec (Z.of_nat (1 + L) - m_extra s - 1) 0); auto; lia. }
  exists L. unfold run_inference. rewrite E1, M6, D, E2. split.
  - intros c Hc. rewrite <- K2, <- (rn_keys _ Rn2) in Hc. apply dget_Some_In in Hc as [h Hh]. exists h.
    unfold history. rewrite O1. split; auto. apply (Ln c h Hh).
  - rewrite O2, K2. unfold bad. destruct (String.eqb_spec (m_decision s) "EXITED") as [X|X].
    + rewrite X in Hd. cbn in Hd. injection Hd as <-. cbn [andb]. destruct (_ =? _)%Z; destruct (concepts s); reflexivity.
    + cbn [andb]. destruct d; auto. exfalso. unfold get_decision_by_name in Hd.
      destruct (String.eqb (m_decision s) "LAST"); [discriminate|]. destruct (String.eqb (m_decision s) "MEAN"); [discriminate|].
      destruct (String.eqb_spec (m_decision s) "EXITED"); congruence.
Qed.
Lemma run_succeeds s : sane s -> m_debug s = true -> (forall c, In c (concepts s) -> initial s c <> None) ->
  responsive s -> m_decision s <> "EXITED" -> (m_decision s <> "LAST" -> forall k, (0 < k)%Z -> neqb (nofZ (Num := N) k) n0 = false) ->
  exists s', run_inference true s = (s', Ok tt).
Proof.
  intros Hs D Hi Hr He Hz. destruct (run_outcome s Hs D Hi Hr Hz) as (L & _ & X).
  destruct (String.eqb_spec (m_decision s) "EXITED"); [contradiction|]. cbn [andb] in X.
  destruct (run_inference true s) as [s' r]. cbn [snd] in X. subst. eauto.
Qed.
End Total.
