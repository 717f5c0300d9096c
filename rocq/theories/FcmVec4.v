(** FcmVec4.v — a vectorized run of a map, seen as a trajectory of its concepts. *)
From Verif Require Import Base BaseFacts Num Functions Fcm FcmSpec FcmBasics FcmInv FcmInv2 FcmInv3 FcmIter FcmRun FcmRun2 VecSpec FcmVec FcmVec2 FcmVec3.

Section VecRun.
Context {F : Type} {N : Num F}.
Implicit Types s : fcm F.

Lemma before_cons a b cs c : before (a :: b :: cs) c = if String.eqb b c then Some a else before (b :: cs) c.
Proof. reflexivity. Qed.
Lemma before_nth cs i c : NoDup cs -> nth_error cs i = Some c ->
  before cs c = match i with 0 => None | S j => nth_error cs j end.
Proof.
  revert i. induction cs as [|a cs IH]; intros i ND E; [destruct i; discriminate|].
  inversion ND as [|? ? Hni ND']; subst. destruct i as [|i].
  - injection E as ->. destruct cs as [|b cs]; [reflexivity|]. rewrite before_cons.
    destruct (String.eqb_spec b c) as [->|Hn]; [exfalso; apply Hni; now left|].
    destruct (before (b :: cs) c) eqn:Eb; auto. exfalso. 
    assert (In c (b :: cs)); [|contradiction]. clear -Eb. revert b Eb. induction cs as [|d cs IH]; intros b Eb; [discriminate|].
    rewrite before_cons in Eb. destruct (String.eqb_spec d c) as [->|]; [right; now left|]. right. eapply IH; eauto.
  - cbn [nth_error] in E. destruct cs as [|b cs]; [destruct i; discriminate|]. rewrite before_cons.
    destruct (String.eqb_spec b c) as [->|Hn].
    + pose proof (index_of_nth _ _ _ ND' E) as Q. cbn in Q. rewrite String.eqb_refl in Q. injection Q as <-. reflexivity.
    + rewrite (IH i ND' E). destruct i as [|i]; [cbn in E; congruence|]. reflexivity.
Qed.
Lemma fold_dset_dget {A} (g : nat -> A) cs a ex c : NoDup cs ->
  dget (fold_left (fun e (ic : nat * string) => dset e (snd ic) (g (fst ic))) (combine (seq a (length cs)) cs) ex) c =
  match index_of c cs with Some i => Some (g (a + i)) | None => dget ex c end.
Proof.
  revert a ex. induction cs as [|b cs IH]; intros a ex ND; [reflexivity|].
  inversion ND as [|? ? Hni ND']; subst. cbn [length seq combine fold_left fst snd index_of].
  rewrite IH by auto. rewrite dget_dset. destruct (String.eqb_spec c b) as [->|Hn].
  - replace (a + 0) with a by lia. destruct (index_of b cs) eqn:E; [|reflexivity]. exfalso. apply Hni.
    clear -E. revert n E. induction cs as [|d cs IH]; intros n E; [discriminate|]. cbn in E.
    destruct (String.eqb_spec b d) as [->|]; [now left|]. right. destruct (index_of b cs); [eauto|discriminate].
  - destruct (index_of c cs) as [i|]; [|reflexivity]. f_equal. f_equal. lia.
Qed.
Lemma find_sentinel_spec (row : list F) pos :
  match find_sentinel row pos with
  | Some k => exists j, k = pos + j /\ j < length row /\ neqb (nth j row n0) n2 = true /\ (forall i, i < j -> neqb (nth i row n0) n2 = false)
  | None => forall i, i < length row -> neqb (nth i row n0) n2 = false
  end.
Proof.
  revert pos. induction row as [|v row IH]; intros pos; cbn [find_sentinel]; [intros i Hi; cbn in Hi; lia|].
  destruct (neqb v n2) eqn:E.
  - exists 0. cbn. repeat split; auto; lia.
  - specialize (IH (S pos)). destruct (find_sentinel row (S pos)) as [k|].
    + destruct IH as (j & -> & L & Hj & Hb). exists (S j). cbn. repeat split; auto; try lia.
      intros [|i] Hi; [exact E|]. apply Hb. lia.
    + intros [|i] Hi; [exact E|]. cbn in *. apply IH. lia.
Qed.
Lemma nth_firstn {A} (l : list A) n i d : i < n -> nth i (firstn n l) d = nth i l d.
Proof.
  revert n i. induction l as [|a l IH]; intros [|n] [|i] H; cbn; try lia; auto. apply IH. lia.
Qed.
Lemma nth_skipn {A} (l : list A) n i d : nth i (skipn n l) d = nth (n + i) l d.
Proof. revert n. induction l as [|a l IH]; intros [|n]; cbn; auto. destruct i; reflexivity. Qed.

(** the concept at position i *)
Definition at_pos s (v : list F) (c : string) : F :=
  match index_of c (concepts s) with Some i => nth i v n0 | None => n0 end.
Lemma at_pos_nth s v i c : NoDup (concepts s) -> nth_error (concepts s) i = Some c -> at_pos s v c = nth i v n0.
Proof. intros ND E. unfold at_pos. now rewrite (index_of_nth _ _ _ ND E). Qed.
Lemma map_at_pos s v : NoDup (concepts s) -> length v = length (concepts s) -> map (at_pos s v) (concepts s) = v.
Proof.
  intros ND L. apply (nth_ext _ _ n0 n0); [now rewrite map_length|]. intros i Hi. rewrite map_length in Hi.
  destruct (nth_error (concepts s) i) as [c|] eqn:E; [|apply nth_error_None in E; lia].
  rewrite (nth_indep _ n0 (at_pos s v "")) by (rewrite map_length; lia). rewrite map_nth.
  rewrite (nth_error_nth _ _ "" E). now apply at_pos_nth.
Qed.

Definition papa (n : node F) : bool := match nd_exec n with Some e => String.eqb "PAPAGEORGIUS" e | None => false end.
Lemma signal_papa n (v : F) : signal n v = if papa n then nsub (nmul n2 v) n1 else v.
Proof.
  unfold signal, papa. destruct (nd_exec n) as [e|]; [|reflexivity].
  destruct (String.eqb_spec "PAPAGEORGIUS" e) as [<-|H]; [reflexivity|].
  repeat match goal with |- match match ?x with _ => _ end with _ => _ end = _ => destruct x | |- match ?x with _ => _ end = _ => destruct x end; try reflexivity; exfalso; apply H; reflexivity.
Qed.

Lemma nth_map_topo {A} s (g : node F -> A) i c n d : nth_error (concepts s) i = Some c -> dget (m_topo s) c = Some n ->
  NoDup (concepts s) -> nth i (map (fun p => g (snd p)) (m_topo s)) d = g n.
Proof.
  intros E H ND. unfold concepts, dkeys in *.
  destruct (nth_error (m_topo s) i) as [[c' n']|] eqn:Ei.
  - rewrite nth_error_map, Ei in E. cbn in E. injection E as ->.
    assert (In (c, n') (m_topo s)) by (eapply nth_error_In; eauto). apply In_dget in H0; auto. assert (n' = n) as -> by congruence.
    apply nth_error_nth. rewrite nth_error_map, Ei. reflexivity.
  - apply nth_error_None in Ei. assert (i < length (map fst (m_topo s))) by (apply nth_error_Some; congruence). rewrite map_length in *. lia.
Qed.

(** data of a complete map *)
Record vdata s (mat : list (list F)) : Prop := {
  vd_nodup : NoDup (concepts s);
  vd_square : square (length (concepts s)) mat;
  vd_mat : forall i j o d, nth_error (concepts s) i = Some o -> nth_error (concepts s) j = Some d ->
      nth j (nth i mat []) n0 = last_weight (m_arcs s) o d
}.
Lemma vec_dot_input s mat v j c : vdata s mat -> length v = length (concepts s) -> nth_error (concepts s) j = Some c ->
  vec_dot (emit (map (fun p => papa (snd p)) (m_topo s)) v) mat j =
  nsum (map (fun p => nmul (signal (snd p) (at_pos s v (fst p))) (last_weight (m_arcs s) (fst p) c)) (m_topo s)).
Proof.
  intros [ND [S1 S2] HM] L Ec. unfold vec_dot. f_equal.
  assert (Lt : length (m_topo s) = length (concepts s)) by (unfold concepts, dkeys; now rewrite map_length).
  assert (Le : length (emit (map (fun p => papa (snd p)) (m_topo s)) v) = length (concepts s)).
  { unfold emit. rewrite map_length, combine_length, map_length. lia. }
  assert (Lc : length (combine (emit (map (fun p => papa (snd p)) (m_topo s)) v) mat) = length (concepts s)) by (rewrite combine_length; lia).
  apply (nth_ext _ _ n0 n0); [rewrite !map_length; lia|]. intros i Hi. rewrite map_length, Lc in Hi.
  destruct (nth_error (m_topo s) i) as [[o n]|] eqn:Ei; [|apply nth_error_None in Ei; lia].
  assert (Eo : nth_error (concepts s) i = Some o) by (unfold concepts, dkeys; rewrite nth_error_map, Ei; reflexivity).
  assert (Er : nth_error (map (fun p => nmul (signal (snd p) (at_pos s v (fst p))) (last_weight (m_arcs s) (fst p) c)) (m_topo s)) i =
    Some (nmul (signal n (at_pos s v o)) (last_weight (m_arcs s) o c))) by (rewrite nth_error_map, Ei; reflexivity).
  rewrite (nth_error_nth _ _ n0 Er).
  rewrite (nth_indep _ n0 (nmul (fst (n0, @nil F)) (nth j (snd (n0, @nil F)) n0))) by (rewrite map_length; lia).
  rewrite (map_nth (fun p : F * list F => nmul (fst p) (nth j (snd p) n0))). rewrite combine_nth by (rewrite Le; lia). cbn [fst snd].
  rewrite (HM i j o c Eo Ec). f_equal. rewrite (at_pos_nth s v i o ND Eo). rewrite signal_papa. unfold emit.
  rewrite (nth_indep _ n0 ((fun sa : F * bool => if snd sa then nsub (nmul n2 (fst sa)) n1 else fst sa) (n0, false))) by (rewrite map_length, combine_length, map_length; lia).
  rewrite (map_nth (fun sa : F * bool => if snd sa then nsub (nmul n2 (fst sa)) n1 else fst sa)).
  rewrite combine_nth by (rewrite map_length; lia). cbn [fst snd].
  rewrite (nth_map_topo s papa i o n false Eo); auto. apply In_dget; auto. eapply nth_error_In; eauto.
Qed.
Lemma nth_emit avoid (v : list F) i : length avoid = length v -> i < length v ->
  nth i (emit avoid v) n0 = if nth i avoid false then nsub (nmul n2 (nth i v n0)) n1 else nth i v n0.
Proof.
  intros L Hi. unfold emit.
  rewrite (nth_indep _ n0 ((fun sa : F * bool => if snd sa then nsub (nmul n2 (fst sa)) n1 else fst sa) (n0, false))) by (rewrite map_length, combine_length; lia).
  rewrite (map_nth (fun sa : F * bool => if snd sa then nsub (nmul n2 (fst sa)) n1 else fst sa)).
  rewrite combine_nth by auto. reflexivity.
Qed.

Notation d_fun s := (map (fun p => let '(id, _, _, _, _) := node_data (snd p) in id) (m_topo s)).
Notation d_arg s := (map (fun p => let '(_, v, _, _, _) := node_data (snd p) in v) (m_topo s)).
Notation d_mem s := (map (fun p => let '(_, _, m, _, _) := node_data (snd p) in m) (m_topo s)).
Notation d_norm s := (map (fun p => let '(_, _, _, x, _) := node_data (snd p) in x) (m_topo s)).
Notation d_avoid s := (map (fun p => papa (snd p)) (m_topo s)).
Lemma vec_node_next s mat v i c n y e : vdata s mat -> full s -> all_nodes vect_ok s -> length v = length (concepts s) ->
  nth_error (concepts s) i = Some c -> dget (m_topo s) c = Some n ->
  vec_node (d_fun s) (d_arg s) (d_norm s) (d_mem s) (d_avoid s) (emit (d_avoid s) v) mat i = Ok (y, e) ->
  vec_next (m_topo s) (m_arcs s) (at_pos s v) c n y.
Proof.
  intros VD Fu Vo L Ei En H. unfold vec_node in H.
  assert (ND := vd_nodup _ _ VD).
  assert (Hi : i < length (concepts s)) by (apply nth_error_Some; congruence).
  assert (Lt : length (m_topo s) = length (concepts s)) by (unfold concepts, dkeys; now rewrite map_length).
  rewrite (vec_dot_input s mat v i c VD L Ei) in H.
  rewrite nth_emit in H by (rewrite ?map_length; lia).
  rewrite (nth_map_topo s papa i c n false Ei En ND) in H.
  rewrite (nth_map_topo s (fun n => let '(id, _, _, _, _) := node_data n in id) i c n (-1)%Z Ei En ND) in H.
  rewrite (nth_map_topo s (fun n => let '(_, v, _, _, _) := node_data n in v) i c n [] Ei En ND) in H.
  rewrite (nth_map_topo s (fun n => let '(_, _, m, _, _) := node_data n in m) i c n false Ei En ND) in H.
  rewrite (nth_map_topo s (fun n => let '(_, _, _, x, _) := node_data n in x) i c n n0 Ei En ND) in H.
  pose proof (Fu c n En) as (C1 & C2 & C3 & C4 & C5 & C6 & (ex & x & C7 & _) & (f & g & C8 & C9)).
  pose proof (Vo c n En) as V. unfold vect_ok in V.
  destruct (proj1 (names_agree f)) as [id Hid]; [eauto|].
  unfold node_data in H. rewrite C8, Hid in H.
  destruct (nd_args n) as [a|] eqn:Ea; [|congruence]. rewrite V in H.
  apply rbind_ok in H as (y' & Hy & H). injection H as -> _.
  exists f, id, a. eexists. split; [exact C8|]. split; [exact Hid|]. split; [exact Ea|]. split; [reflexivity|].
  rewrite <- Hy. unfold vec_input. cbv zeta. rewrite signal_papa. rewrite (at_pos_nth s v i c ND Ei). reflexivity.
Qed.

(** what the state after the engine (before the decision functions are applied) holds *)
Record vec_engine s s2 (L : nat) (x : nat -> string -> F) : Prop := {
  ve_start : forall c n, dget (m_topo s) c = Some n -> x 0 c = nd_value n;
  ve_orbit : vec_orbit (m_topo s) (m_arcs s) x L;
  ve_len : 1 <= L <= Z.to_nat (m_maxit s);
  ve_hist : exists col, (forall c0, hd_error (concepts s) = Some c0 -> cut (Z.to_nat (m_maxit s)) (recorded (concepts s) (Z.to_nat (m_maxit s)) L x c0) col) /\
     forall c, In c (concepts s) -> dget (m_exec s2) c = Some (map (recorded (concepts s) (Z.to_nat (m_maxit s)) L x c) (seq 0 col));
  ve_oob : m_oob s2 = (m_oob s || Nat.leb (Z.to_nat (m_maxit s)) L)%bool;
  ve_stop : L < Z.to_nat (m_maxit s) -> settled_for (Z.to_nat (m_extra s)) (m_sdiff s) (concepts s) x L;
  ve_first : forall j, 1 <= j < L -> ~ settled_for (Z.to_nat (m_extra s)) (m_sdiff s) (concepts s) x j
}.
Lemma calm_settled s (vs : nat -> list F) sd extra j : NoDup (concepts s) -> (forall k, k <= j -> length (vs k) = length (concepts s)) ->
  (calm sd extra vs j <-> settled_for (Z.to_nat extra) sd (concepts s) (fun k => at_pos s (vs k)) j).
Proof.
  intros ND HL. unfold calm, settled_for.
  assert (E : forall i, i <= j -> small sd vs i = settled sd (concepts s) (fun k => at_pos s (vs k)) i).
  { intros i Hi. unfold small, settled. rewrite !map_at_pos; auto; apply HL; lia. }
  split; intros [A B]; (split; [exact A|]); intros i Hi; [rewrite <- E by lia|rewrite E by lia]; auto.
Qed.
Lemma vec_engine_ok s s2 : base s -> all_nodes vect_ok s -> m_topo s <> [] -> m_prepared s = false ->
  (1 <= m_maxit s)%Z -> (1 <= m_extra s)%Z -> vectorized_inference s = (s2, Ok tt) ->
  exists L x, vec_engine s s2 L x.
Proof.
  intros B Vo Ht P Hm He H. unfold vectorized_inference in H. rewrite P in H.
  destruct (prepare_ok s B) as (mat & E & Sq & HM). destruct B as (ND & Fu & K & A). change (NoDup (concepts s)) in ND.
  rewrite E in H. cbn [vc_functions vc_state vc_matrix vc_args vc_mem vc_norm vc_avoid m_topo m_maxit m_sdiff m_extra set_cache] in H.
  change (map (fun p : string * node F => let '(_, _, _, _, b) := node_data (snd p) in b) (m_topo s)) with (d_avoid s) in H.
  assert (VD : vdata s mat) by (constructor; auto).
  set (m := Z.to_nat (m_maxit s)) in *.
  assert (Lt : length (m_topo s) = length (concepts s)) by (unfold concepts, dkeys; now rewrite map_length).
  set (v0 := map (fun p : string * node F => nd_value (snd p)) (m_topo s)) in *.
  assert (Lv0 : length v0 = length (concepts s)) by (unfold v0; rewrite map_length; lia).
  assert (Est : match m_topo s with [] => v0 | _ :: _ => v0 end = v0) by (destruct (m_topo s); reflexivity).
  rewrite Est in H.
  match type of H with match ?x with [] => _ | _ => _ end = _ => destruct x eqn:Ef in H; [destruct (m_topo s); [congruence|discriminate]|] end.
  rewrite <- Ef in H. clear Ef.
  match type of H with match ?x with Ok _ => _ | Err _ => _ end = _ => destruct x as [[[buf oob] k]|e] eqn:Er; [|discriminate] end.
  apply vectorized_run_spec in Er; [|rewrite map_length; lia|assumption..].
  destruct Er as (vs & L & VR). rewrite Lv0 in VR. fold m in VR.
  cbn [m_oob m_exec m_maxit set_oob set_cache] in H. fold m in H.
  destruct (Nat.eqb_spec m 0) as [|Hm0]; [lia|].
  injection H as <-.
  pose proof (vr_start _ _ _ _ _ _ _ _ _ _ _ _ _ _ VR) as V0.
  pose proof (vr_step _ _ _ _ _ _ _ _ _ _ _ _ _ _ VR) as VS.
  pose proof (vr_buf _ _ _ _ _ _ _ _ _ _ _ _ _ _ VR) as [VB1 VB2].
  pose proof (vr_oob _ _ _ _ _ _ _ _ _ _ _ _ _ _ VR) as VO.
  pose proof (vr_len _ _ _ _ _ _ _ _ _ _ _ _ _ _ VR) as VL.
  pose proof (vr_stop _ _ _ _ _ _ _ _ _ _ _ _ _ _ VR) as VST.
  pose proof (vr_first _ _ _ _ _ _ _ _ _ _ _ _ _ _ VR) as VF.
  cbn [fst snd] in *.
  assert (LV : forall k, k <= L -> length (vs k) = length (concepts s)).
  { intros [|j] Hj; [now rewrite V0|]. destruct (VS j Hj) as [Q _]. exact Q. }
  assert (Hn : 0 < length (concepts s)) by (rewrite <- Lt; destruct (m_topo s); [congruence|cbn; lia]).
  exists L, (fun k => at_pos s (vs k)). constructor.
  - intros c n En. destruct (index_of_spec c (concepts s)) as (i & _ & Ei); [apply dget_Some_In; eauto|].
    rewrite (at_pos_nth s _ i c ND Ei), V0. unfold v0. now apply (nth_map_topo s nd_value i c n n0 Ei).
  - intros t0 c n Ht0 En. destruct (index_of_spec c (concepts s)) as (i & _ & Ei); [apply dget_Some_In; eauto|].
    assert (Hi : i < length (concepts s)) by (apply nth_error_Some; congruence).
    destruct (VS t0 Ht0) as [_ Q]. destruct (Q i Hi) as [e Q'].
    rewrite (at_pos_nth s (vs (S t0)) i c ND Ei).
    eapply vec_node_next; eauto. apply LV. lia.
  - exact VL.
  - fold m.
    assert (CELL : forall i c k, nth_error (concepts s) i = Some c -> k < m ->
       buf_read m buf i k = recorded (concepts s) m L (fun k => at_pos s (vs k)) c k).
    { intros i c k0 Ei Hk. assert (Hi : i < length (concepts s)) by (apply nth_error_Some; congruence).
      rewrite VB2 by auto. unfold recorded. rewrite (before_nth _ _ _ ND Ei).
      destruct i as [|i].
      - cbn [Nat.ltb Nat.leb]. rewrite Bool.andb_false_r. cbn [andb]. rewrite !(at_pos_nth s _ 0 c ND Ei).
        destruct (Nat.eqb_spec k0 0) as [->|]; cbn [andb]; [|reflexivity]. destruct (Nat.leb m L); reflexivity.
      - replace (S i - 1) with i by lia.
        assert (Hi' : i < length (concepts s)) by lia. 
        destruct (nth_error (concepts s) i) as [b|] eqn:Eb; [|apply nth_error_None in Eb; lia].
        rewrite (at_pos_nth s _ i b ND Eb), !(at_pos_nth s _ (S i) c ND Ei).
        replace (Nat.ltb 0 (S i)) with true by reflexivity. rewrite Bool.andb_true_r. reflexivity. }
    assert (LB : forall i, i < length (concepts s) -> i * m + m <= length buf) by (intros i Hi; rewrite VB1; nia).
    assert (LR : forall i, i < length (concepts s) -> length (firstn m (skipn (i * m) buf)) = m).
    { intros i Hi. rewrite firstn_length, skipn_length. specialize (LB i Hi). lia. }
    assert (NR : forall i k, k < m -> nth k (firstn m (skipn (i * m) buf)) n0 = buf_read m buf i k).
    { intros i k0 Hk. rewrite nth_firstn, nth_skipn by auto. reflexivity. }
    set (col := match find_sentinel (firstn m buf) 0 with Some k0 => k0 | None => m - 1 end).
    exists col.
    assert (Hcol : forall c0, hd_error (concepts s) = Some c0 -> cut m (recorded (concepts s) m L (fun k0 => at_pos s (vs k0)) c0) col).
    { intros c0 E0. assert (E0' : nth_error (concepts s) 0 = Some c0) by (destruct (concepts s); exact E0).
      pose proof (find_sentinel_spec (firstn m buf) 0) as FS. unfold col.
      pose proof (LR 0 Hn) as L0. pose proof (NR 0) as N0. cbn [Nat.mul skipn] in L0, N0.
      destruct (find_sentinel (firstn m buf) 0) as [k0|].
      - destruct FS as (j & -> & Lj & Hj & Hb). rewrite L0 in Lj. cbn [Nat.add]. rewrite N0, (CELL 0 c0) in Hj by auto.
        split; [lia|]. split; [|intros _; exact Hj]. intros i Hi. specialize (Hb i Hi). rewrite N0, (CELL 0 c0) in Hb by (auto; lia). exact Hb.
      - rewrite L0 in FS. split; [lia|]. split; [|lia]. intros i Hi. specialize (FS i ltac:(lia)). rewrite N0, (CELL 0 c0) in FS by (auto; lia). exact FS. }
    split; [exact Hcol|].
    assert (Cle : col <= m - 1). { destruct (concepts s) as [|c0 l1] eqn:Ec; [cbn in Hn; lia|]. destruct (Hcol c0 eq_refl) as [Q _]. exact Q. }
    intros c Hc. cbn [m_exec set_exec]. unfold dkeys. rewrite map_length. fold (dkeys (m_topo s)).
    change (length (m_topo s)) with (length (m_topo s)). rewrite Lt. unfold concepts at 1.
    rewrite (fold_dset_dget (fun i => firstn col (firstn m (skipn (i * m) buf))) (dkeys (m_topo s)) 0 (m_exec s) c ND).
    destruct (index_of_spec c (concepts s) Hc) as (i & Ei & Ni). unfold concepts in Ei. rewrite Ei. cbn [Nat.add]. f_equal.
    assert (Hi : i < length (concepts s)) by (apply nth_error_Some; congruence).
    apply (nth_ext _ _ n0 n0); [rewrite firstn_length, LR, map_length, seq_length by auto; lia|].
    intros k0 Hk. rewrite firstn_length, LR in Hk by auto.
    rewrite nth_firstn, NR, (CELL i c) by (auto; lia).
    rewrite (nth_indep _ n0 (recorded (concepts s) m L (fun k1 => at_pos s (vs k1)) c 0)) by (rewrite map_length, seq_length; lia).
    rewrite map_nth, seq_nth by lia. reflexivity.
  - cbn [m_oob set_exec set_oob set_cache]. rewrite VO. destruct (Nat.eqb_spec (length (concepts s)) 0); [lia|]. reflexivity.
  - intros HL. apply calm_settled; auto.
  - intros j Hj Q. apply (VF j Hj). revert Q. apply calm_settled; auto. intros k0 Hk. apply LV. lia.
Qed.
End VecRun.
