(** PropVote.v — C114: an estimator whose relations lead from features to classes predicts the class with the most votes of
    the features; with a single feature and confidence or support that is the most frequent class of its value. *)
From Coq Require Import Permutation Reals Lra Lia QArith.
From Verif Require Import Base BaseFacts Num QNum Functions Spec RealFacts RlFacts FunctionsFacts Fcm FcmSpec FcmBasics FcmInv FcmInv2 FcmInv3 FcmIter FcmRun FcmRun2 FcmRun3 FcmOrder DynSpec Dynamics Dynamics2 VecSpec FcmVec5 FcmVec6 FcmTotal LearnUtils LearnSpec LearnFacts Assoc AssocSpec AssocFacts AssocFacts2 AssocFacts3 AssocFacts4 AssocUnique AssocNames AssocNames2 AssocLabel Estimator EstExamples EstFacts EstFacts2 EstFacts3 EstSpec EstFacts4 AssocGen AssocPredict AssocResult AssocRow EstFacts5 EstFacts6 EstFacts7 EstFacts8 EstFacts9 SepSpec SepFacts SepFacts2 SepFacts3 SepFacts4 SepFacts5 SepFacts6 SepFacts7 SepFacts8 SepFacts9 PropSeparated VoteSpec VoteFacts VoteFacts2.
From Verif Require PropAssoc PropEstimator2.
Local Close Scope Q_scope.
Local Open Scope R_scope.

Lemma vote_flip {A B} (P : A -> B -> Prop) l l' : Forall2 (fun b a => P a b) l' l -> Forall2 P l l'.
Proof. induction 1; constructor; auto. Qed.

Lemma cell_dec (v w : cell R) : {v = w} + {v <> w}.
Proof. decide equality; try apply string_dec; try apply Z.eq_dec; try apply Bool.bool_dec; apply Req_EM_T. Qed.
Lemma holds_dec c v j : {holds c v j} + {~ holds c v j}.
Proof. unfold holds. destruct (nth_error (col_cells c) j) as [w|]; [|right; discriminate]. destruct (cell_dec w v) as [->|N]; [left; auto|right; congruence]. Qed.
Lemma rows_dec n (P : nat -> Prop) (d : forall j, {P j} + {~ P j}) : exists k, rows_with n P k.
Proof.
  exists (length (filter (fun j => if d j then true else false) (seq 0 n))), (filter (fun j => if d j then true else false) (seq 0 n)).
  split; [apply NoDup_filter, seq_NoDup|]. split; auto. intros j. rewrite filter_In, in_seq. destruct (d j); intuition (try lia; discriminate).
Qed.
Lemma rows_le n (P Q : nat -> Prop) k m : rows_with n P k -> rows_with n Q m -> (forall j, P j -> Q j) -> (k <= m)%nat.
Proof.
  intros (l & N & <- & H) (l' & N' & <- & H') I. apply NoDup_incl_length; auto. intros j Hj. apply H'. apply H in Hj as [A B]. auto.
Qed.

Section Elected.
Variables (cf : gconf R) (n : nat) (x y : dataset R).
Hypothesis HO : reorders (c_ord cf).
Hypothesis HS : discrete_data cf n x y.

Lemma vote_join : join_frames x y = x ++ y.
Proof. apply join_apart. apply HS. Qed.
Theorem C114_fit : forall e0 e, c_eval cf = rel_supp -> In (c_caus cf) [rel_supp; rel_conf; rel_lift; rel_rodr; rel_pos_inf; rel_simple] ->
  c_sign cf = None -> healthy e0 e -> (e = e0 \/ m_debug (e_map e0) = true) ->
  exists e', fit cf x y e = (e', Ok tt).
Proof.
  intros e0 e Ev Ca Sg HH Hd. destruct HS as (RD & _ & Pl). apply (PropEstimator2.C77_discrete_never_fails cf n x y e0 e HO).
  - rewrite Ev. cbn. tauto.
  - cbn in Ca |- *. tauto.
  - intros f E. rewrite Sg in E. discriminate.
  - exact HH.
  - exact Hd.
  - rewrite vote_join. apply RD.
  - intros f c H. rewrite vote_join in H. destruct (Pl f c H). split; [auto|]. now apply plain_discrete.
Qed.
Lemma vote_plain f c : In (f, c) (x ++ y) -> plain_column cf c.
Proof. intros H. destruct HS as (_ & _ & Pl). now apply Pl in H. Qed.
Lemma vote_x f c : In (f, c) x -> In (f, c) (x ++ y) /\ ~ In f (dkeys y).
Proof.
  intros H. split; [apply in_or_app; auto|]. destruct HS as ((_ & ND & _) & _). unfold dkeys in ND. rewrite map_app in ND. intros Hy. apply (NoDup_app_disj _ _ ND f); auto.
  apply in_map_iff. exists (f, c). auto.
Qed.

Section Learned.
Variables (mi ex : Z) (sd : R) (me : bool) (xc : string) (vec : bool).
Variables e0 e e' e2 : est R.
Hypothesis HI : init_est mi ex sd "MEAN" me xc "saturation" [] vec = Ok e0.
Hypothesis HH : healthy e0 e.
Hypothesis HR : one_way cf.
Hypothesis HX : unrelated cf x y.
Hypothesis HF : fit cf x y e = (e', Ok tt).
Hypothesis HU : used e' e2.
Hypothesis Hx : xc <> "PAPAGEORGIUS".
Hypothesis Hiter : vec = false -> (2 <= ex)%Z.
Hypothesis Hvec : vec = true -> (3 <= mi)%Z.

Lemma vote_callable : callable "saturation" (@nil (string * argval R)).
Proof. left. split; [cbn; tauto|auto]. Qed.
Lemma vote_trained : exists fds, Forall2 (described cf (dkeys y)) (x ++ y) fds /\ NoDup (flat_map fd_names fds) /\
  Forall (fun d => length (fd_rows d) = length (fd_names d)) fds /\ e_generated e2 = true /\ e_map e2 = g_fcm (e_gen e2) /\ e_priv e2 = None /\
  trained cf fds "MEAN" me xc "saturation" [] (length (concepts (e_map e'))) (e_gen e2).
Proof.
  destruct HS as (RD & Nz & Pl). pose proof (healthy_estimator _ _ HH) as HE. pose proof RD as (Hsep & ND & _).
  pose proof (healthy_fit _ _ _ _ _ _ HH HF) as HH'. rewrite <- vote_join in RD, ND.
  destruct (@fit_tidy R RNum cf Hsep x y e0 e e' HO (fun a b => Rmult_comm a b) HE RD HF) as (fds & T & D & Nn & Ln & Eg & dc & ops & Hp & Hrel).
  destruct (fit_base cf x y e0 e e' HE HF) as (_ & _ & Pn). destruct (used_moved e' e2 Pn HU) as (M & P2 & G2).
  assert (g2 : e_map e2 = g_fcm (e_gen e2)) by (unfold e_gen; now rewrite P2).
  assert (G1 : e_generated e' = true).
  { unfold fit in HF. destruct (reset (e_gen e)) as [g1 [u|er]]; [|discriminate]. destruct (build_fcm _ _ _ _ _) as [g3 [u'|er]]; [|discriminate]. now injection HF as <-. }
  assert (St : settings (e_map e') = settings (e_map e0)).
  { apply est_settings. apply (estimator_state _ _ (healthy_estimator _ _ HH')). }
  pose proof (settings_max _ _ St) as (X1 & X2 & _ & _ & X5 & X6). pose proof (settings_fit _ _ St) as [_ X7].
  destruct (init_default _ _ _ _ _ _ _ _ _ _ HI) as (I1 & I2 & I3). destruct (init_default2 _ _ _ _ _ _ _ _ _ _ HI) as (I4 & I5 & I6 & I7 & I8).
  assert (Co : common (e_map e') me xc "saturation" []).
  { pose proof (fit_common cf x y e0 e e' HO HE ND HF) as Co. cbn zeta in Co. rewrite X7, I1, I2, I4, I5 in Co. apply Co.
    intros f c d Hi Hde. rewrite vote_join in Hi. destruct (described_plain cf _ _ _ _ (vote_plain f c Hi) Hde) as (_ & -> & _).
    destruct (str_mem f (dkeys y)); split; reflexivity. }
  exists fds. rewrite vote_join in D. split; [exact D|]. split; [exact Nn|]. split; [exact Ln|]. split; [congruence|]. split; [exact g2|]. split; [exact P2|].
  apply (trained_moved _ _ _ _ _ _ _ _ _ _ M). rewrite vote_join in Hp, ND. constructor.
  - exact T.
  - rewrite Eg. eapply healthy_sane; eauto.
  - now rewrite Eg.
  - now rewrite Eg.
  - rewrite Eg, Hrel. destruct (plan_build_spec cf _ _ _ _ _ _ Hp) as (rest & E & _ & Dn & Rl & _). cbn in E. subst rest. rewrite Rl.
    destruct (rels_ends cf fds HO []) as [X _]; auto. cbn [app]. now rewrite Dn.
  - rewrite Eg, Hrel. apply (@all_rels_In R RNum cf HO (fun a b => Rmult_comm a b) _ _ _ _ _ ND Hp).
  - rewrite Eg. congruence.
  - rewrite Eg, X7. exact I1.
  - rewrite Eg, X1, X2, X6, I6, I7, I8. destruct vec; [right|left]; (split; [reflexivity|]); [now apply Hvec|].
    specialize (Hiter eq_refl). destruct (Z.ltb_spec 0 ex); lia.
Qed.
Lemma vote_known m x' f c' v : known_data m x' x -> In (f, c') x' -> In v (col_cells c') ->
  exists c, In (f, c) (x ++ y) /\ ~ In f (dkeys y) /\ In v (col_cells c) /\ plain_cell v.
Proof.
  intros (_ & _ & P) H Hv. destruct (P f c' H) as (_ & c & Hc & In'). exists c. destruct (vote_x f c Hc) as [A B]. split; auto. split; auto. split; auto.
  apply (plain_cells cf c); auto. eapply vote_plain; eauto.
Qed.
Lemma vote_nofloat m x' : known_data m x' x -> forall f c' q, In (f, c') x' -> ~ In (CFlt q) (col_cells c').
Proof. intros P f c' q H Hq. destruct (vote_known m x' f c' _ P H Hq) as (c & _ & _ & _ & Y). exact Y. Qed.
(** the rows of a table without floats *)
Lemma vote_rows m x' : known_data m x' x -> iterrows x' =
  map (fun j => flat_map (fun c : string * column R => match nth_error (col_cells (snd c)) j with Some v => [(fst c, v)] | None => [] end) x') (seq 0 m).
Proof.
  intros P. unfold iterrows. pose proof P as (Ne & _ & Q). assert (Fr : frame_rows x' = m) by (destruct x' as [|[f c'] r]; [congruence|]; cbn [frame_rows]; apply (Q f c'); now left).
  rewrite Fr. destruct m as [|m]; [reflexivity|].
  assert (NoF : existsb (fun c : string * column R => is_float_col (snd c)) x' = false).
  { destruct (existsb _ x') eqn:E; auto. apply existsb_exists in E as ([f c'] & Hf & E). cbn [snd] in E. destruct c' as [l|l|l|l]; try discriminate.
    destruct (Q f _ Hf) as [Ll _]. cbn [col_length] in Ll. destruct l as [|q l]; [discriminate|]. exfalso. apply (vote_nofloat _ _ P f _ q Hf). now left. }
  rewrite NoF, andb_false_r. apply map_ext. intros j. rewrite !flat_map_concat_map. f_equal. apply map_ext. intros [f c]. cbn [fst snd].
  destruct (nth_error (col_cells c) j) as [v|]; auto. now destruct v.
Qed.
Lemma vote_row m x' j : known_data m x' x -> (j < m)%nat -> forall l, incl l x' ->
  exists r, flat_map (fun c : string * column R => match nth_error (col_cells (snd c)) j with Some v => [(fst c, v)] | None => [] end) l = r /\
  Forall2 (fun fc fv => fst fc = fst fv /\ nth_error (col_cells (snd fc)) j = Some (snd fv)) l r.
Proof.
  intros P Hj. induction l as [|[f c'] l IH]; intros Hl; [exists []; auto|]. destruct (IH (fun z Hz => Hl z (or_intror Hz))) as (r & Er & F).
  pose proof P as (_ & _ & Q). destruct (Q f c' (Hl _ (or_introl eq_refl))) as [Ll _]. rewrite <- col_cells_length in Ll. rewrite <- Ll in Hj. apply nth_error_Some in Hj.
  cbn [flat_map fst snd]. destruct (nth_error (col_cells c') j) as [v|] eqn:E; [|congruence]. exists ((f, v) :: r). cbn [app]. split; [now rewrite Er|]. constructor; auto.
Qed.
Lemma vote_text m x' f c : known_data m x' x -> In (f, c) x' -> In f (dkeys (x ++ y)) /\ forall l, c = ColStr l -> Forall readable l.
Proof.
  intros P H. pose proof P as (_ & _ & Q). destruct (Q f c H) as (_ & c0 & Hc & _). split.
  - apply in_map_iff. exists (f, c0). split; auto. apply in_or_app; auto.
  - intros l ->. apply Forall_forall. intros s Hs.
    destruct (vote_known m x' f _ (CStr s) P H) as (q & Hq & _ & Hin & _); [cbn [col_cells]; now apply in_map|].
    destruct HS as (RD & _ & Pl). destruct (Pl f q Hq) as [_ Pc]. destruct q as [l0|l0|l0|l0]; cbn [col_cells] in Hin; try (apply in_map_iff in Hin as (z & E & Hz); discriminate).
    apply in_map_iff in Hin as (z & E & Hz). injection E as ->. destruct RD as (_ & _ & R2). destruct (R2 f _ Hq) as [_ R3]. cbn in R3. rewrite Forall_forall in R3. now apply R3.
Qed.
Lemma vote_predicts m x' : known_data m x' x -> exists out, snd (predict cf x' e2) = Ok out.
Proof.
  intros P. destruct HS as (RD & Nz & Pl). pose proof RD as (Hsep & ND & _).
  assert (Ne : "MEAN" <> "LAST" -> forall k : Z, (0 < k)%Z -> @neqb R RNum (nofZ k) n0 = false).
  { intros _ k Hk. rnum. destruct (Reqb_spec (IZR k) 0); auto. apply eq_IZR in e1. lia. }
  assert (Dc : forall f c, In (f, c) (join_frames x y) -> exists texts rows, levels cf c texts rows /\ is_discrete cf c texts).
  { intros f c H. rewrite vote_join in H. apply plain_discrete. now apply Pl in H. }
  assert (Rx : forall f c, In (f, c) x' -> In f (dkeys (join_frames x y)) /\ (forall l, c = ColStr l -> Forall readable l)).
  { intros f c H. rewrite vote_join. eapply vote_text; eauto. }
  assert (Fl : forall r f q, In r (iterrows x') -> In (f, CFlt q) r -> exists z, c_trunc cf q = Ok z).
  { intros r f q Hrow Hq. exfalso. rewrite (vote_rows m x' P) in Hrow. apply in_map_iff in Hrow as (j & <- & _). apply in_flat_map in Hq as ([f' c'] & Hi & Hq). cbn [fst snd] in Hq.
    destruct (nth_error (col_cells c') j) as [v|] eqn:E; [|destruct Hq]. destruct Hq as [Hq|[]]. injection Hq as -> ->. apply nth_error_In in E. now apply (vote_nofloat m x' P f c' q). }
  rewrite <- vote_join in RD. pose proof vote_callable as Hc. destruct vec eqn:V.
  - apply (vec_predict_succeeds) with (mi := mi) (ex := ex) (sd := sd) (de := "MEAN") (me := me) (xc := xc) (ac := "saturation") (kw := []) (e0 := e0) (e := e) (e' := e') (x := x) (y := y); auto; try discriminate.
    + rnum. destruct (Reqb_spec 0 2); auto. lra.
    + rnum. destruct (Reqb_spec 1 2); auto. lra.
    + intros a b. apply Rmult_comm.
    + specialize (Hvec eq_refl). lia.
    + destruct P as (Hx' & _ & P). destruct x' as [|[f c'] r]; [congruence|]. destruct (P f c' (or_introl eq_refl)) as (_ & c & Hi & _). exists f, c.
      rewrite vote_join. split; [apply in_or_app; auto|]. destruct (Pl f c) as [-> _]; auto. apply in_or_app; auto.
    + intros Hl. split; [rnum; destruct (Reqb_spec 0 0); auto; lra|now apply Ne].
  - apply (predict_succeeds) with (mi := mi) (ex := ex) (sd := sd) (de := "MEAN") (me := me) (xc := xc) (ac := "saturation") (kw := []) (e0 := e0) (e := e) (e' := e') (x := x) (y := y); auto; try discriminate.
    intros a b. apply Rmult_comm.
Qed.
(** every row gets the elected class *)
Theorem C114_elected : forall m x', known_data m x' x ->
  (vec = true -> m_oob (e_map (fst (predict cf x' e2))) = false) ->
  exists out, snd (predict cf x' e2) = Ok out /\
    forall g cg ws, In (g, cg) y -> length ws = m -> (forall j w, nth_error ws j = Some w -> elected (c_caus cf) (c_thr cf) n x x' cg j w) ->
      labels out g = map label ws.
Proof.
  intros m x' P Ob. destruct (vote_predicts m x' P) as [out Ho]. exists out. split; auto. intros f c ws Hf Lw El.
  destruct vote_trained as (fds & D & Nn & Ln & G2 & g2 & P2 & T). destruct HS as (RD & Nz & Pl).
  assert (Hi : In (f, c) (x ++ y)) by (apply in_or_app; auto).
  assert (UR : c_featrel cf = false \/ forall d d', In d fds -> In d' fds -> d <> d' -> fd_target d <> fd_target d').
  { destruct HX as [E|[Lx Ly]]; [now left|right]. intros d d' Hd Hd' Nd Et. apply Nd.
    destruct (Forall2_In_r _ _ _ _ D Hd) as ([a ca] & Ha & Da). destruct (Forall2_In_r _ _ _ _ D Hd') as ([a' ca'] & Ha' & Da').
    destruct (described_plain cf _ _ _ _ (vote_plain a ca Ha) Da) as (Fa & Ta & _). destruct (described_plain cf _ _ _ _ (vote_plain a' ca' Ha') Da') as (Fa' & Ta' & _).
    apply (same_desc fds); auto; [apply (td_feats _ _ (tr_tidy _ _ _ _ _ _ _ _ _ T))|]. rewrite Fa, Fa'.
    unfold fd_target in Et. rewrite Ta, Ta' in Et.
    assert (One : forall (l : dataset R) p p', (length l <= 1)%nat -> In p l -> In p' l -> p = p').
    { intros [|z [|z' l]] p p' Hl Hp Hp'; cbn in Hl; try lia; destruct Hp, Hp'; try contradiction; congruence. }
    assert (Yk : forall b cb, In (b, cb) y -> str_mem b (dkeys y) = true) by (intros b cb Hb; apply str_mem_In, in_map_iff; exists (b, cb); auto).
    assert (Xk : forall b cb, In (b, cb) x -> str_mem b (dkeys y) = false).
    { intros b cb Hb. apply vote_x in Hb as [_ Hb]. destruct (str_mem b (dkeys y)) eqn:Es; auto. elim Hb. now apply str_mem_In. }
    apply in_app_or in Ha, Ha'. destruct Ha as [Ha|Ha], Ha' as [Ha'|Ha'].
    - pose proof (One x _ _ Lx Ha Ha'). congruence.
    - rewrite (Xk a ca Ha), (Yk a' ca' Ha') in Et. discriminate Et.
    - rewrite (Yk a ca Ha), (Xk a' ca' Ha') in Et. discriminate Et.
    - pose proof (One y _ _ Ly Ha Ha'). congruence. }
  unfold predict in Ho, Ob. rewrite G2 in Ho, Ob. destruct (predict_rows cf (iterrows x') [] (e_gen e2)) as [g' r] eqn:E. cbn [fst snd] in Ho, Ob. subst r.
  change (map label ws) with (labels (F:=R) [] f ++ map label ws).
  apply (table_elected cf (proj1 RD) HR (x ++ y) (dkeys y) n fds) with (b := me) (xc := xc) (k := length (concepts (e_map e')))
    (c := c) (rows := iterrows x') (g := e_gen e2) (acc := []) (g' := g') (out := out); auto.
  - intros h q H. now apply Pl in H.
  - intros h q H. now apply Pl in H.
  - apply in_map_iff. exists (f, c). auto.
  - rewrite (vote_rows m x' P), <- Lw. apply vote_flip, Forall2_seq. intros j w Hw. assert (Hj : (j < m)%nat) by (rewrite <- Lw; apply nth_error_Some; congruence).
    destruct (vote_row m x' j P Hj x' (incl_refl _)) as (r & -> & F).
    assert (Kf : map fst r = dkeys x') by (clear - F; unfold dkeys; induction F as [|? ? ? ? [H _] ? IH]; cbn [map]; congruence).
    split; [split|].
    + rewrite Kf. apply P.
    + intros a v Hv. destruct (Forall2_In_r _ _ _ _ F Hv) as ([a' c'] & Hc' & Ea & Ev). cbn [fst snd] in Ea, Ev. subst a'. apply nth_error_In in Ev.
      destruct (vote_known m x' a c' v P Hc' Ev) as (c0 & H0 & Nt & Hv0 & _). split; auto. exists c0. auto.
    + assert (Po : forall w0 q0, poll (c_caus cf) (c_thr cf) n x x' j c w0 q0 -> row_poll cf (x ++ y) n r c w0 q0).
      { intros w0 q0 (qs & Fq & ->). exists qs. split; auto. clear - F Fq. revert qs Fq. induction F as [|fc fv l r [H1 H2] F IH]; intros qs Fq; inversion Fq; subst; constructor; auto.
        destruct H3 as (c0 & v & Hc0 & Hv & Hin & V). rewrite H2 in Hv. injection Hv as <-. exists c0. rewrite <- H1. split; [apply in_or_app; auto|auto]. }
      destruct (El j w Hw) as (Hw0 & q & Hq & Pq & Rest). split; auto. exists q. split; auto. split; auto. intros w' Hw' Nw. destruct (Rest w' Hw' Nw) as (q' & Hq' & B). exists q'. auto.
  - destruct (tr_engine _ _ _ _ _ _ _ _ _ T) as [[Td _]|[Td _]]; [now left|right].
    rewrite <- g2, (estimator_debug _ _ (healthy_estimator _ _ (healthy_used _ _ _ (healthy_fit _ _ _ _ _ _ HH HF) HU))) in Td.
    destruct (init_default2 _ _ _ _ _ _ _ _ _ _ HI) as (_ & _ & _ & _ & I8). rewrite I8 in Td. destruct vec; [|discriminate].
    exact (Ob eq_refl).
Qed.
(** one column to classify by, and confidence or support: the most frequent class of every value *)
Theorem C114_majority : (c_caus cf = rel_conf \/ c_caus cf = rel_supp) -> forall m f c c',
  In (f, c) x -> col_length c' = m -> incl (col_cells c') (col_cells c) ->
  (vec = true -> m_oob (e_map (fst (predict cf [(f, c')] e2))) = false) ->
  exists out, snd (predict cf [(f, c')] e2) = Ok out /\
    forall g cg ws, In (g, cg) y -> length ws = m ->
      (forall j w, nth_error ws j = Some w -> exists v, nth_error (col_cells c') j = Some v /\ most_frequent (c_thr cf) n c v cg w) ->
      labels out g = map label ws.
Proof.
  intros Cs m f c c' Hc Lm Sub Ob.
  assert (K : known_data m [(f, c')] x).
  { split; [discriminate|]. split; [repeat constructor; intros []|]. intros f0 c0 [E|[]]. injection E as <- <-. split; auto. exists c. auto. }
  destruct (C114_elected m [(f, c')] K Ob) as (out & Ho & El). exists out. split; auto. intros g cg ws Hg Lw Mf. apply (El g cg ws Hg Lw).
  intros j w Hw. destruct (Mf j w Hw) as (v & Hv & k & Hk & Tk & Rest). destruct HR as (_ & Th & _).
  assert (Kp : 0 < INR k) by (pose proof (pos_INR n); assert (0 <= c_thr cf * INR n) by (apply Rmult_le_pos; auto); lra).
  assert (In_v : In v (col_cells c)) by (apply Sub; eapply nth_error_In; eauto).
  destruct (rows_dec n (holds c v) (holds_dec c v)) as [a Ha].
  assert (Le : forall k', rows_with n (fun j => holds c v j /\ holds cg w j) k' \/ (exists w', rows_with n (fun j => holds c v j /\ holds cg w' j) k') -> (k' <= a)%nat).
  { intros k' [H|[w' H]]; apply (rows_le n _ _ _ _ H Ha); tauto. }
  assert (Ka : INR k <= INR a) by (apply le_INR, Le; auto).
  assert (Np : 0 < INR n) by (destruct HS as (_ & Nz & _); apply lt_0_INR; lia).
  assert (An : INR a <= INR n).
  { apply le_INR. destruct Ha as (l & N & <- & H). rewrite <- (seq_length n 0). apply NoDup_incl_length; auto. intros i Hi. apply in_seq. apply H in Hi. lia. }
  assert (Vo : exists z, INR a <= z /\ forall w' k', rows_with n (fun j => holds c v j /\ holds cg w' j) k' -> c_thr cf * INR n < INR k' ->
     vote (c_caus cf) (c_thr cf) n c v cg w' (INR k' / z)).
  { destruct Cs as [->| ->]; [exists (INR a)|exists (INR n)]; (split; [lra|]); intros w' k' H Tk'; destruct (rows_dec n (holds cg w') (holds_dec cg w')) as [l Hl];
      exists k', a, l; (split; [exact H|]); (split; [exact Ha|]); (split; [exact Hl|]); right; (split; [exact Tk'|]).
    - unfold rel_conf, pdiv. rnum. replace (INR k' + (INR a - INR k')) with (INR a) by lra. destruct (Reqb_spec (INR a) 0); [lra|]. reflexivity.
    - unfold rel_supp, pdiv. rnum. replace (INR k' + (INR a - INR k') + (INR l - INR k') + (INR n - INR a - INR l + INR k')) with (INR n) by lra.
      destruct (Reqb_spec (INR n) 0); [lra|]. reflexivity. }
  destruct Vo as (z & Az & Vo). assert (Zp : 0 < z) by lra.
  assert (Po : forall w' q, vote (c_caus cf) (c_thr cf) n c v cg w' q -> poll (c_caus cf) (c_thr cf) n x [(f, c')] j cg w' q).
  { intros w' q V. exists [q]. split; [|cbn; lra]. constructor; [|constructor]. exists c, v. cbn [fst snd]. auto. }
  assert (Q1 : forall k', INR k' < INR k -> INR k' / z < INR k / z) by (intros k' H; apply Rmult_lt_compat_r; auto; now apply Rinv_0_lt_compat).
  assert (Qp : 0 < INR k / z) by (apply Rdiv_lt_0_compat; auto).
  assert (Q2 : INR k / z <= 1) by (apply (Rmult_le_reg_r z); auto; unfold Rdiv; rewrite Rmult_assoc, Rinv_l; lra).
  split.
  - destruct Hk as ([|i l] & _ & Ll & H); [cbn in Ll; subst k; cbn in Kp; lra|]. destruct (proj1 (H i) (or_introl eq_refl)) as (_ & _ & Hi). eapply nth_error_In; eauto.
  - exists (INR k / z). split; [now apply Po, Vo|]. split; auto. intros w' _ Nw. destruct (Rest w' Nw) as (k' & Hk' & Lt). apply lt_INR in Lt. specialize (Q1 k' Lt).
    destruct (Rle_or_lt (INR k') (c_thr cf * INR n)) as [T0|T0].
    + exists 0. split; [|lra]. apply Po. destruct (rows_dec n (holds cg w') (holds_dec cg w')) as [l Hl]. exists k', a, l. auto 8.
    + exists (INR k' / z). split; [now apply Po, Vo|lra].
Qed.
End Learned.
End Elected.
Print Assumptions C114_fit.
Print Assumptions C114_elected.
Print Assumptions C114_majority.

(** ** The conditions are needed *)
(** value a: three times v; value b: once u, twice v *)
Definition vx : dataset Q := [("f", ColStr ["a"; "a"; "a"; "b"; "b"; "b"])].
Definition vy : dataset Q := [("c", ColStr ["v"; "v"; "v"; "u"; "v"; "v"])].
Definition vnew : dataset Q := [("f", ColStr ["a"; "b"])].
(** three columns with a single value, and a class with the values u, u, v, v, v *)
Definition same3 (n : nat) : dataset Q := [("f", ColStr (repeat "a" n)); ("g", ColStr (repeat "a" n)); ("h", ColStr (repeat "a" n))].
Definition same_y : dataset Q := [("c", ColStr ["u"; "u"; "v"; "v"; "v"])].
Definition vcfg (caus : Q -> Q -> Q -> Q -> res Q) (exclusion : Q) (dbl : bool) : gconf Q :=
  mkGconf "___" exclusion dbl dbl caus rel_supp n0 None n0 true (fun _ => "x") (fun _ => Ok 0%Z) (fun l => l) (fun _ _ => Err EUndef).
Definition vrun (cf : gconf Q) (x y x' : dataset Q) (de xc : string) : res (list (cell Q)) :=
  (e0 <- init_est 20 5 (nlit 1 1000) de true xc "saturation" [] false ;;
   match fit cf x y e0 with (e1, Ok _) => (out <- snd (predict cf x' e1) ;; Ok (labels out "c")) | (_, Err e) => Err e end)%res.
Theorem C114_majority_refuted :
  (** all is well: both values occur most often with v *)
  vrun (vcfg rel_conf (nofZ (-1)) false) vx vy vnew "MEAN" "KOSKO" = Ok [CStr "v"; CStr "v"] /\
  (** the causality function the estimator uses by default: its rarer class for b, with relations in one direction or in both *)
  vrun (vcfg rel_pos_inf (nofZ (-1)) false) vx vy vnew "MEAN" "KOSKO" = Ok [CStr "v"; CStr "u"] /\
  vrun (vcfg rel_pos_inf (nofZ (-1)) true) vx vy vnew "MEAN" "KOSKO" = Ok [CStr "v"; CStr "u"] /\
  (** the last value *)
  vrun (vcfg rel_conf n0 false) vx vy vnew "LAST" "KOSKO" = Ok [CStr "v"; CStr "u"] /\
  (** the other excitation function *)
  vrun (vcfg rel_conf (nofZ (-1)) false) vx vy vnew "MEAN" "PAPAGEORGIUS" = Ok [CStr "v"; CStr "u"] /\
  (** three features that all favour v, with 3/5 against 2/5: both sums pass 1, and u is predicted *)
  vrun (vcfg rel_conf (nofZ (-1)) false) (same3 5) same_y (same3 1) "MEAN" "KOSKO" = Ok [CStr "u"] /\
  vrun (vcfg rel_conf (nofZ (-1)) true) (same3 5) same_y (same3 1) "MEAN" "KOSKO" = Ok [CStr "u"] /\
  (** one such feature alone: v *)
  vrun (vcfg rel_conf (nofZ (-1)) false) (firstn 1 (same3 5)) same_y (firstn 1 (same3 1)) "MEAN" "KOSKO" = Ok [CStr "v"].
Proof. repeat split; vm_compute; reflexivity. Qed.
Print Assumptions C114_majority_refuted.

(** ** Non-vacuity *)
Definition rvx : dataset R := [("f", ColStr ["a"; "a"; "a"; "b"; "b"; "b"])].
Definition rvy : dataset R := [("c", ColStr ["v"; "v"; "v"; "u"; "v"; "v"])].
Definition rvcf : gconf R := mkGconf "___" (-1) false true rel_conf rel_supp 0 None n0 true (fun _ => "x") (fun _ => Ok 0%Z) (fun l => l) (fun _ _ => Err EUndef).
Lemma rv_discrete : discrete_data rvcf 6 rvx rvy.
Proof.
  assert (S : forall c : Ascii.ascii, c <> "_"%char -> readable (String c "")).
  { intros c Hc. split.
    - intros H. apply occurs_b in H. cbn [occursb String.prefix] in H. destruct (Ascii.ascii_dec "_" c); [congruence|discriminate].
    - intros [|c' [|c'' t]] H; try discriminate. injection H as ->. congruence. }
  split; [|split; [lia|]].
  - split; [reflexivity|]. split.
    + cbn. repeat constructor; cbn; intuition discriminate.
    + intros f c [H|[H|[]]]; injection H as <- <-; (split; [intros H; apply occurs_b in H; discriminate|cbn; auto]);
        repeat (apply Forall_cons; [apply S; discriminate|]); apply Forall_nil.
  - intros f c [H|[H|[]]]; injection H as <- <-; split; cbn; auto.
Qed.
Lemma rv_rows c v cg w js : NoDup js -> (forall j, In j js <-> (j < 6)%nat /\ holds c v j /\ holds cg w j) -> rows_with 6 (fun j => holds c v j /\ holds cg w j) (length js).
Proof. intros N H. exists js. auto. Qed.
Lemma rv_most v w js b : (b < length js)%nat -> NoDup js -> 0 < INR (length js) ->
  (forall j, In j js <-> (j < 6)%nat /\ holds (ColStr ["a"; "a"; "a"; "b"; "b"; "b"]) v j /\ holds (ColStr ["v"; "v"; "v"; "u"; "v"; "v"]) w j) ->
  (forall w', w' <> w -> exists k', rows_with 6 (fun j => holds (ColStr ["a"; "a"; "a"; "b"; "b"; "b"]) v j /\ holds (ColStr ["v"; "v"; "v"; "u"; "v"; "v"]) w' j) k' /\ (k' <= b)%nat) ->
  most_frequent 0 6 (ColStr ["a"; "a"; "a"; "b"; "b"; "b"]) v (ColStr ["v"; "v"; "v"; "u"; "v"; "v"]) w.
Proof.
  intros L N P H1 H2. exists (length js). split; [now exists js|]. split; [lra|]. intros w' Nw. destruct (H2 w' Nw) as (k' & Hk & Lk). exists k'. split; auto. lia.
Qed.
Ltac sixrows := intros [|[|[|[|[|[|j]]]]]]; cbn; unfold holds; cbn; intuition (try discriminate; try lia; try congruence).
Example C114_nonvacuous : exists e0 e1, init_est 20 5 (1 / 1000) "MEAN" true "KOSKO" "saturation" [] false = Ok e0 /\ fit rvcf rvx rvy e0 = (e1, Ok tt) /\
  exists out, snd (predict rvcf [("f", ColStr ["b"; "a"])] e1) = Ok out /\ labels out "c" = [CStr "v"; CStr "v"].
Proof.
  eexists. assert (HI : init_est 20 5 (1 / 1000) "MEAN" true "KOSKO" "saturation" [] false = Ok _) by reflexivity.
  assert (HO : reorders (c_ord rvcf)) by (intros l; apply Permutation_refl).
  match type of HI with _ = Ok ?e => set (e0 := e) in * end.
  assert (HH : healthy e0 e0) by (split; [repeat eexists; exact HI|now exists []]).
  destruct (C114_fit rvcf 6 rvx rvy HO rv_discrete e0 e0) as [e1 HF]; auto; [cbn; tauto|].
  exists e1. split; [reflexivity|]. split; [exact HF|].
  destruct (C114_majority rvcf 6 rvx rvy HO rv_discrete 20 5 (1/1000) true "KOSKO" false e0 e0 e1 e1 HI HH) with (m := 2%nat) (f := "f") (c := ColStr (F := R) ["a"; "a"; "a"; "b"; "b"; "b"]) (c' := ColStr (F := R) ["b"; "a"])
    as (out & Ho & Lb).
  - split; [reflexivity|]. split; [cbn; lra|]. split; [reflexivity|]. split; [cbn; lra|reflexivity].
  - right. cbn. lia.
  - exact HF.
  - now exists [].
  - discriminate.
  - lia.
  - discriminate.
  - now left.
  - now left.
  - reflexivity.
  - cbn. intros v [<-|[<-|[]]]; cbn; tauto.
  - discriminate.
  - exists out. split; auto. rewrite (Lb "c" (ColStr ["v"; "v"; "v"; "u"; "v"; "v"]) [CStr "v"; CStr "v"]); [reflexivity|now left|reflexivity|].
    intros [|[|j]] w Hw; [| |now destruct j]; injection Hw as <-; eexists; (split; [reflexivity|]); cbn [c_thr rvcf].
    + apply (rv_most _ _ [4; 5]%nat 1); cbn [length]; try lia; try (repeat constructor; cbn; lia); [cbn; lra|sixrows|].
      intros w' Nw. destruct (cell_dec w' (CStr "u")) as [->|Nu].
      * exists 1%nat. split; [|lia]. apply (rv_rows _ _ _ _ [3]%nat); [repeat constructor; cbn; lia|sixrows].
      * exists 0%nat. split; [|lia]. apply (rv_rows _ _ _ _ []%nat); [constructor|sixrows].
    + apply (rv_most _ _ [0; 1; 2]%nat 0); cbn [length]; try lia; try (repeat constructor; cbn; lia); [cbn; lra|sixrows|].
      intros w' Nw. exists 0%nat. split; [|lia]. apply (rv_rows _ _ _ _ []%nat); [constructor|sixrows].
Qed.
