(** FcmRun2.v — consequences: ranges, order independence, inactive concepts,
    stability query, final states, activation defaults. *)
From Coq Require Import Reals Lra.
From Verif Require Import Base BaseFacts Num Functions Spec SortFacts RealFacts FunctionsFacts Fcm FcmSpec FcmInv FcmInv2 FcmInv3 FcmIter FcmRun.

Section Run2.
Context {F : Type} {N : Num F}.
Implicit Types s : fcm F.

(** ** C25 in user vocabulary *)
Lemma run_recurrence r s s' : sane s -> m_debug s = true -> (r = false -> sane_runs s) ->
  run_inference r s = (s', Ok tt) ->
  exists L x, orbit (m_topo s) (m_arcs s) x L /\
    (Z.of_nat L <= Z.max (m_maxit s - 1) 0 + (m_extra s - 1))%Z /\
    (m_stab s = false -> (2 <= m_extra s)%Z -> Z.of_nat L = (Z.max (m_maxit s - 1) 0 + (m_extra s - 1))%Z) /\
    (m_extra s = 1%Z -> L = 0) /\
    ((Z.of_nat L < m_maxit s)%Z -> forall c h k, history s' c = Some h -> (Z.of_nat k < m_extra s - 1)%Z ->
       exists h0 b a t, h = h0 ++ [b; a] ++ t /\ length t = S k /\ nltb (m_sdiff s) (nabs (nsub a b)) = false) /\
    forall c, In c (concepts s) ->
      (if r then initial s c else value s c) = Some (x 0 c) /\
      exists h, history s c = Some h /\ history s' c = Some ((if r then firstn 1 h else h) ++ map (fun t => x (S t) c) (seq 0 L)).
Proof.
  intros Hs D Q E. pose proof (sane_base s Hs) as B.
  assert (Q' : r = false -> quiet s) by (intros H; apply sane_runs_quiet; auto).
  destruct (run_ok r s s' D B Q' E) as (L & x & RD). exists L, x.
  pose proof (reachable_extra s (from_fresh_reachable _ _ Hs)) as HE.
  destruct (run_length r s s' L x RD D HE B Q' E) as (L1 & L2 & L3).
  split; [|split; [exact L1|split; [exact L3|split; [exact L2|split]]]].
  - intros t c n Ht Hn. destruct B as (_ & Hf & _). apply next_fn_value; auto; [now apply (Hf c)|].
    apply (rd_orbit _ _ _ _ _ RD); auto. apply dget_Some_In. eauto.
  - intros HL. exact (run_early r s s' L x RD D HE B Q' E HL).
  - intros c Hc. split; [exact (rd_x0 _ _ _ _ _ RD c Hc)|].
    destruct B as (_ & _ & K & _). assert (Hc' := Hc). unfold concepts in Hc'. rewrite <- K in Hc'.
    apply dget_Some_In in Hc' as [h Hh]. exists h. split; [exact Hh|].
    pose proof (rd_hist _ _ _ _ _ RD c Hc) as Hi. unfold history. rewrite Hi. unfold start. rewrite Hh.
    destruct r; [|reflexivity]. destruct h; reflexivity.
Qed.

(** ** C27, any predicate *)
Definition outputs (P : F -> Prop) s : Prop :=
  forall c n f fn a v y, dget (m_topo s) c = Some n -> nd_func n = Some f -> get_function_by_name f = Some fn ->
    nd_args n = Some a -> call_actv fn v a = Ok y -> P y.
Lemma run_values P r s s' : sane s -> m_debug s = true -> (r = false -> sane_runs s) ->
  run_inference r s = (s', Ok tt) -> outputs P s ->
  (forall c h, In c (concepts s) -> history s c = Some h -> Forall P (if r then firstn 1 h else h)) ->
  forall c h, In c (concepts s) -> history s' c = Some h -> Forall P h /\
    exists d v, get_decision_by_name (m_decision s) = Some d /\
       exec_decision d h (Z.of_nat (length h) - m_extra s - 1) = Ok v /\ value s' c = Some v.
Proof.
  intros Hs D Q E HO H0 c h Hc Hh. pose proof (sane_base s Hs) as B.
  assert (Q' : r = false -> quiet s) by (intros H; apply sane_runs_quiet; auto).
  destruct (run_ok r s s' D B Q' E) as (L & x & RD).
  split; [|exact (rd_final _ _ _ _ _ RD c h Hc Hh)].
  pose proof (rd_hist _ _ _ _ _ RD c Hc) as Hi. unfold history in Hh. rewrite Hi in Hh. injection Hh as <-.
  apply Forall_app. split.
  - destruct B as (_ & _ & K & _). assert (Hc' := Hc). unfold concepts in Hc'. rewrite <- K in Hc'.
    apply dget_Some_In in Hc' as [h' Hh']. specialize (H0 c h' Hc Hh'). unfold start. rewrite Hh'.
    destruct r; [|exact H0]. destruct h'; exact H0.
  - unfold traj. apply Forall_forall. intros y Hy. apply in_map_iff in Hy as (t & <- & Ht). apply in_seq in Ht.
    pose proof (rd_orbit _ _ _ _ _ RD t c ltac:(lia) Hc) as O.
    destruct B as (_ & Hf & _). apply dget_Some_In in Hc as [n Hn].
    apply (next_fn_value _ _ _ c n _ Hn (Hf _ _ Hn)) in O as (f & fn & a & z & O1 & O2 & O3 & _ & O5).
    eapply HO; eauto.
Qed.

(** ** C60 *)
Lemma is_stable_spec s : NoDup (dkeys (m_exec s)) ->
  ((m_iters s <= 1)%Z -> is_stable s = Ok false) /\
  ((1 < m_iters s)%Z -> (forall c h, history s c = Some h -> 2 <= length h) ->
    exists b, is_stable s = Ok b /\
      (b = true <-> forall c h0 y x, history s c = Some (h0 ++ [y; x]) -> nltb (m_sdiff s) (nabs (nsub x y)) = false)) /\
  ((1 < m_iters s)%Z -> (exists c h, history s c = Some h /\ length h < 2) -> is_stable s = Err EIndex).
Proof.
  intros ND. unfold is_stable. pose proof (is_stable_fold (m_sdiff s) (map snd (m_exec s)) true) as H'.
  assert (Hin : forall h, In h (map snd (m_exec s)) <-> exists c, history s c = Some h).
  { intros h. split.
    - intros H. apply in_map_iff in H as ([c h'] & E & H). cbn in E. subst h'. exists c. now apply In_dget.
    - intros [c H]. apply dget_In in H. apply in_map_iff. exists (c, h). auto. }
  split; [|split].
  - intros H. destruct (Z.ltb_spec 1 (m_iters s)); [lia|reflexivity].
  - intros H HL. destruct (Z.ltb_spec 1 (m_iters s)); [|lia].
    destruct (rfold _ _ true) as [b|e].
    + exists b. split; auto. destruct H' as [_ ->]. split.
      * intros [_ H1] c h0 y x Hc. apply (H1 h0 x y). apply Hin. eauto.
      * intros H1. split; auto. intros h0 x y Hi. apply Hin in Hi as [c Hc]. eapply H1, Hc.
    + destruct H' as (_ & h & Hi & Hl). apply Hin in Hi as [c Hc]. apply HL in Hc. lia.
  - intros H (c & h & Hc & Hl). destruct (Z.ltb_spec 1 (m_iters s)); [|lia].
    destruct (rfold _ _ true) as [b|e].
    + destruct H' as [H1 _]. destruct (H1 h) as (h0 & x & y & ->); [apply Hin; eauto|].
      rewrite app_length in Hl. cbn in Hl. lia.
    + destruct H' as [-> _]. reflexivity.
Qed.
Lemma stable_after_run s s' : sane s -> m_debug s = true -> run_inference true s = (s', Ok tt) ->
  (2 <= m_extra s)%Z ->
  exists b, is_stable s' = Ok b /\
    (b = true <-> forall c h0 y x, history s' c = Some (h0 ++ [y; x]) -> nltb (m_sdiff s) (nabs (nsub x y)) = false).
Proof.
  intros Hs D E HE. pose proof (sane_base s Hs) as B.
  destruct (run_ok true s s' D B ltac:(discriminate) E) as (L & x & RD).
  destruct (rd_keys _ _ _ _ _ RD) as [Ke Kt]. pose proof (rd_iters _ _ _ _ _ RD) as IL.
  assert (HL : 1 <= L).
  { destruct L; [|lia]. exfalso.
    destruct (run_decompose true s s' D B ltac:(discriminate) E) as (s1 & s2 & R1 & E1 & E2 & E3 & Fr1).
    destruct Fr1 as (_ & _ & S1 & _). apply settings_max in S1 as (M1 & M2 & M3 & M4 & _).
    assert (R2 : runnable s2).
    { unfold iterative_inference in E2. apply iter_loop_steps in E2 as [L' H]. eapply steps_runnable; [|exact H]. now apply runnable_iters. }
    destruct (finalize_all _ _ _ (rn_nodup _ R2) (fun c H => H) E3) as (_ & F2 & _).
    unfold iterative_inference in E2. cbn [m_maxit m_extra set_iters] in E2. rewrite M1, M2 in E2.
    destruct (Z.to_nat (Z.max (m_maxit s) 0 + m_extra s)) as [|fu] eqn:Ef; [lia|].
    cbn [iter_loop] in E2. destruct (Z.ltb_spec 0 (m_extra s - 1)); [|lia].
    destruct (keep_execution (set_iters 1 s1)) as [k|]; [|discriminate].
    destruct (inf_step (set_iters 1 s1)) as [s3 [u|e]] eqn:E4; [|discriminate]. destruct u.
    pose proof (inf_step_iters _ _ E4) as I4. cbn in I4.
    pose proof (inf_step_spec _ (runnable_iters 1 s1 R1)) as I. rewrite E4 in I.
    destruct (rmap _ _); [|destruct I; discriminate]. destruct I as (y & _ & I). injection I as I.
    assert (R3 : runnable s3) by (rewrite I; apply stepped_runnable; now apply runnable_iters).
    apply iter_loop_steps in E2 as [L' H']. destruct (steps_orbit _ _ _ R3 H') as (x' & _ & _ & _ & _ & _ & XI). lia. }
  assert (Ms : m_sdiff s' = m_sdiff s).
  { destruct (rd_frame _ _ _ _ _ RD) as (_ & _ & S & _). apply settings_max in S. apply S. }
  destruct (is_stable_spec s') as (_ & H2 & _); [rewrite Ke; apply B|]. rewrite <- Ms. apply H2; [lia|].
  intros c h Hh. assert (Hc : In c (dkeys (m_topo s))) by (rewrite <- Ke; apply dget_Some_In; eauto).
  pose proof (rd_hist _ _ _ _ _ RD c Hc) as Hi. unfold history in Hh. rewrite Hi in Hh. injection Hh as <-.
  pose proof (rd_x0 _ _ _ _ _ RD c Hc) as X0. unfold start_value, initial, history in X0. unfold start.
  destruct (dget (m_exec s) c) as [[|v h]|]; try discriminate. rewrite app_length. unfold traj. rewrite map_length, seq_length. cbn. lia.
Qed.
Lemma iters_reset s : m_iters (fst (reset_execution s)) = m_iters s.
Proof.
  unfold reset_execution. apply (mfold_ind (fun s' => m_iters s' = m_iters s)); auto.
  intros c s' <-. unfold reset_one. destruct (dget (m_topo s') c); [|reflexivity].
  unfold put_node at 1. cbn [m_exec set_topo]. destruct (dget (m_exec s') c) as [[|v h]|]; reflexivity.
Qed.
Lemma stable_after_reset s : sane s -> (1 < m_iters s)%Z -> concepts s <> [] -> snd (reset_execution s) = Ok tt ->
  is_stable (fst (reset_execution s)) = Err EIndex.
Proof.
  intros Hs HI Hc Hok. pose proof (sane_base s Hs) as B. pose proof (iters_reset s) as IR. pose proof (reset_frame s) as (S & _).
  destruct (reset_execution s) as [s1 r] eqn:E. cbn [fst snd] in *. subst r.
  destruct (reset_ok_hist s s1 E B) as [Hne E1]. pose proof (reset_runnable s s1 E B) as R1.
  destruct (is_stable_spec s1) as (_ & _ & H); [rewrite (rn_keys _ R1); apply R1|].
  apply H; [lia|]. unfold concepts in Hc. destruct (dkeys (m_topo s)) as [|c l] eqn:Ek; [congruence|].
  assert (Hin : In c (dkeys (m_exec s))) by (destruct B as (_ & _ & K & _); rewrite K, Ek; now left).
  apply dget_Some_In in Hin as [h Hh]. exists c. unfold history. rewrite E1. cbn [m_exec set_exec set_topo].
  rewrite dget_dmap, Hh. eexists. split; [reflexivity|]. destruct h as [|v h]; cbn; lia.
Qed.
Lemma vectorized_iters r s : m_debug s = false -> m_iters (fst (run_inference r s)) = m_iters s.
Proof.
  intros D. unfold run_inference.
  assert (I1 : m_iters (fst (if r then reset_execution s else (s, Ok tt))) = m_iters s) by (destruct r; [apply iters_reset|reflexivity]).
  assert (D1 : m_debug (fst (if r then reset_execution s else (s, Ok tt))) = false).
  { destruct r; [|exact D]. destruct (reset_frame s) as (_ & _ & S & _). apply settings_max in S. rewrite <- D. apply S. }
  destruct (if r then reset_execution s else (s, Ok tt)) as [s1 [u|e]]; cbn [fst] in *; [|exact I1].
  rewrite D1.
  assert (I2 : m_iters (fst (vectorized_inference s1)) = m_iters s1).
  { unfold vectorized_inference.
    match goal with |- m_iters (fst (match ?p with _ => _ end)) = _ =>
      assert (P : m_iters (fst p) = m_iters s1) by (destruct (m_prepared s1); [|destruct (prepare s1)]; reflexivity);
      destruct p as [s2 [c|e]]; cbn [fst] in P |- *; [|exact P] end.
    destruct (vc_functions c) as [|z l]; [exact P|].
    match goal with |- context [vectorized_run ?a ?b ?c ?d ?e ?f ?g ?h ?i ?j] =>
      destruct (vectorized_run a b c d e f g h i j) as [[[buf oob] k]|e'] end; [|exact P].
    cbn [m_maxit set_oob]. destruct (Nat.eqb _ 0); exact P. }
  destruct (vectorized_inference s1) as [s2 [u2|e2]]; cbn [fst] in *; [|congruence].
  rewrite <- I1, <- I2. apply (mfold_ind (fun s' => m_iters s' = m_iters s2)); auto. intros c s' <-.
  unfold finalize_one. match goal with |- context [match ?m with _ => _ end] => destruct m end; reflexivity.
Qed.

(** ** C29 *)
Lemma incoming_inactive t arcs x x' j c : (forall n, dget t j = Some n -> nd_active n = Some false) ->
  (forall o, o <> j -> x o = x' o) -> @incoming F N t arcs x c = incoming t arcs x' c.
Proof.
  intros Hj Hx. induction arcs as [|[[d w] o] arcs IH]; auto. cbn [incoming]. rewrite IH.
  destruct (dget t o) as [n|] eqn:En; auto. destruct (string_dec o j) as [->|Hne].
  - rewrite (Hj n En). rewrite andb_false_r. reflexivity.
  - rewrite (Hx o Hne). reflexivity.
Qed.
Lemma orbit_inactive t arcs (x x' : nat -> string -> F) L j :
  (forall n, dget t j = Some n -> nd_active n = Some false) -> orbit t arcs x L -> orbit t arcs x' L ->
  (forall c, In c (dkeys t) -> c <> j -> x 0 c = x' 0 c) ->
  (forall d w o, In (d, w, o) arcs -> In o (dkeys t)) ->
  forall k c, k <= L -> In c (dkeys t) -> c <> j -> x k c = x' k c.
Proof.
  intros Hj O1 O2 H0 Ha. induction k as [|k IH]; intros c Hk Hc Hne; [auto|].
  apply dget_Some_In in Hc as [n Hn].
  destruct (O1 k c n ltac:(lia) Hn) as (f & fn & a & z & A1 & A2 & A3 & A4 & A5).
  destruct (O2 k c n ltac:(lia) Hn) as (f' & fn' & a' & z' & B1 & B2 & B3 & B4 & B5).
  assert (T : total_input t arcs (x k) c n = total_input t arcs (x' k) c n).
  { unfold total_input.
    set (y := fun o => if in_dec string_dec o (dkeys t) then x k o else n0).
    set (y' := fun o => if in_dec string_dec o (dkeys t) then x' k o else n0).
    assert (I1 : incoming t arcs (x k) c = incoming t arcs y c).
    { apply incoming_ext; [intros o _; destruct (dget t o); auto|].
      intros o Ho. apply in_map_iff in Ho as ([[d w] o'] & E & Hin). cbn in E. subst o'. unfold y.
      destruct (in_dec string_dec o (dkeys t)); auto. exfalso. eauto. }
    assert (I2 : incoming t arcs (x' k) c = incoming t arcs y' c).
    { apply incoming_ext; [intros o _; destruct (dget t o); auto|].
      intros o Ho. apply in_map_iff in Ho as ([[d w] o'] & E & Hin). cbn in E. subst o'. unfold y'.
      destruct (in_dec string_dec o (dkeys t)); auto. exfalso. eauto. }
    rewrite I1, I2. rewrite (incoming_inactive t arcs y y' j c Hj).
    - rewrite (IH c ltac:(lia)); auto. apply dget_Some_In. eauto.
    - intros o Ho. unfold y, y'. destruct (in_dec string_dec o (dkeys t)); auto. apply IH; auto; lia. }
  rewrite A1 in B1. injection B1 as <-. rewrite A2 in B2. injection B2 as <-. rewrite A3 in B3. injection B3 as <-.
  rewrite T in A4. destruct (String.eqb f "fuzzy").
  - destruct A4 as [_ ->], B4 as [_ ->]. congruence.
  - subst. congruence.
Qed.

(** ** C33 *)
Definition select (keep : string -> node F -> bool) s : dict F :=
  map (fun p => (fst p, nd_value (snd p))) (filter (fun p => keep (fst p) (snd p)) (m_topo s)).
Lemma rfold_select (keep : string -> node F -> bool) (body : dict F -> string -> res (dict F)) (t : dict (node F)) :
  NoDup (dkeys t) ->
  (forall acc c n, In (c, n) t -> body acc c = Ok (if keep c n then dset acc c (nd_value n) else acc)) ->
  rfold body (dkeys t) [] = Ok (map (fun p => (fst p, nd_value (snd p))) (filter (fun p => keep (fst p) (snd p)) t)).
Proof.
  intros ND H.
  assert (G : forall t' acc, NoDup (dkeys t') -> (forall c, In c (dkeys t') -> ~ In c (dkeys acc)) ->
     (forall acc c n, In (c, n) t' -> body acc c = Ok (if keep c n then dset acc c (nd_value n) else acc)) ->
     rfold body (dkeys t') acc = Ok (acc ++ map (fun p => (fst p, nd_value (snd p))) (filter (fun p => keep (fst p) (snd p)) t'))).
  { induction t' as [|[c n] t' IH]; intros acc ND' Hacc H'; cbn [dkeys map rfold fst].
    - cbn. now rewrite app_nil_r.
    - rewrite (H' acc c n) by now left. cbn [rbind]. inversion ND' as [|? ? Hni ND'']; subst. cbn [filter fst snd].
      fold (dkeys t'). destruct (keep c n).
      + rewrite IH; auto.
        * rewrite dset_notin by (apply Hacc; now left). rewrite <- app_assoc. reflexivity.
        * intros c' Hc' Hin. apply dkeys_dset_In in Hin as [->|Hin]; [contradiction|]. apply (Hacc c'); auto. now right.
        * intros. apply H'. now right.
      + apply IH; auto; intros; [apply Hacc; now right|apply H'; now right]. }
  rewrite (G t [] ND); auto.
Qed.
Lemma final_state_names ct names s : sane s -> names <> [] ->
  get_final_state ct names s = Ok (select (fun c _ => str_mem c names) s).
Proof.
  intros Hs Hn. destruct (sane_parts s Hs) as (ND & Hf & K & _). unfold get_final_state.
  destruct names as [|a names]; [congruence|]. cbn [length Nat.ltb Nat.leb]. rewrite K.
  apply (rfold_select (fun c _ => str_mem c (a :: names))); auto. intros acc c n Hin.
  destruct (str_mem c (a :: names)); auto. unfold dget_exn. rewrite (In_dget _ _ _ ND Hin). reflexivity.
Qed.
Definition wanted (ct : string) (n : node F) : bool :=
  match nd_type n with
  | None => false
  | Some t => if String.eqb ct "any" then true
              else if String.eqb ct "target" then String.eqb t TYPE_DECISION || String.eqb t TYPE_REGRESOR
              else String.eqb t ct
  end.
Lemma dset_twice {A} (d : dict A) c (v : A) : dset (dset d c v) c v = dset d c v.
Proof. rewrite dset_id; auto. apply dget_dset_same. Qed.
Lemma final_state_type ct s : sane s -> get_final_state ct [] s = Ok (select (fun _ n => wanted ct n) s).
Proof.
  intros Hs. destruct (sane_parts s Hs) as (ND & Hf & K & _). unfold get_final_state. cbn [length Nat.ltb Nat.leb]. rewrite K.
  apply (rfold_select (fun _ n => wanted ct n)); auto. intros acc c n Hin. apply (In_dget _ _ _ ND) in Hin.
  unfold dget_exn. rewrite Hin. cbn [rbind]. destruct (Hf c n Hin) as (_ & Ht & _). unfold wanted.
  destruct (nd_type n) as [t|]; [|congruence]. cbn [oget rbind].
  destruct (String.eqb_spec ct "any") as [->|Ha].
  - cbn [String.eqb Ascii.eqb Bool.eqb]. destruct (String.eqb t "any"); [now rewrite dset_twice|reflexivity].
  - destruct (String.eqb ct "target"); [reflexivity|]. destruct (String.eqb t ct); reflexivity.
Qed.
End Run2.
