(** DatasetFacts2.v — data frames made from rows. *)
From Verif Require Import Base BaseFacts LoaderSpec Dataset DatasetSpec DatasetFacts.

Section Frames.
Context {V : Type}.
Variable P : values V.
Let dv : V := v_text P "".
Definition cell_at (vrows : list (list V)) (i k : nat) : V := nth k (nth i vrows []) dv.
Definition colsof (header : list string) (vrows : list (list V)) : dict (list V) :=
  map (fun jk => (snd jk, map (fun r => nth (fst jk) r dv) vrows)) (combine (seq 0 (length header)) header).
Definition pairs_of (header : list string) (vrows : list (list V)) : list (string * V) := flat_map (combine header) vrows.

Lemma nth_combine_seq {A} (l : list A) k a : nth_error (combine (seq k (length l)) l) = nth_error (combine (seq k (length l)) l) -> nth_error l a = None \/ exists x, nth_error l a = Some x /\ nth_error (combine (seq k (length l)) l) a = Some (k + a, x)%nat.
Proof.
  intros _. revert k a. induction l as [|b l IH]; intros k a.
  - left. now destruct a.
  - destruct a as [|a].
    + right. exists b. cbn. now rewrite Nat.add_0_r.
    + cbn [length seq combine nth_error]. destruct (IH (S k) a) as [H|(x & H1 & H2)]; [now left|right]. exists x. split; auto. rewrite H2. f_equal. f_equal. lia.
Qed.
Lemma colsof_keys header vrows : dkeys (colsof header vrows) = header.
Proof.
  unfold colsof, dkeys. rewrite map_map. cbn [fst]. assert (G : forall k, map snd (combine (seq k (length header)) header) = header).
  { induction header as [|a l IH]; intros k; cbn; auto. now rewrite IH. }
  apply G.
Qed.
Lemma colsof_nth header vrows k a col : nth_error (colsof header vrows) k = Some (a, col) <-> nth_error header k = Some a /\ col = map (fun r => nth k r dv) vrows.
Proof.
  unfold colsof. rewrite nth_error_map. destruct (nth_combine_seq header 0 k eq_refl) as [H|(x & H1 & H2)].
  - assert (nth_error (combine (seq 0 (length header)) header) k = None) as ->.
    { apply nth_error_None. rewrite combine_length, seq_length, Nat.min_id. now apply nth_error_None. }
    rewrite H. split; [discriminate|]. intros [? _]; discriminate.
  - rewrite H1, H2. cbn [option_map fst snd Nat.add]. split.
    + intros [= <- <-]. auto.
    + now intros [[= ->] ->].
Qed.
Lemma addto_row header r k a : NoDup header -> length r = length header -> nth_error header k = Some a -> addto (combine header r) a = [nth k r dv].
Proof.
  revert r k. induction header as [|b l IH]; intros [|x r] k ND L H; try discriminate; [destruct k; discriminate|].
  apply NoDup_cons_iff in ND as [Nb ND]. unfold addto. cbn [combine filter fst]. destruct k as [|k]; cbn [nth_error nth] in *.
  - injection H as ->. rewrite String.eqb_refl. cbn [map snd]. f_equal.
    assert (G : forall r, filter (fun p : string * V => String.eqb (fst p) a) (combine l r) = []).
    { clear - Nb. induction l as [|c l IH]; intros [|y r]; cbn; auto. destruct (String.eqb_spec c a) as [->|]; [exfalso; apply Nb; now left|]. apply IH. intros H. apply Nb. now right. }
    now rewrite G.
  - assert (b <> a) as Ne by (intros ->; apply Nb; eapply nth_error_In; eauto). apply String.eqb_neq in Ne. rewrite Ne.
    injection L as L. exact (IH r k ND L H).
Qed.
Lemma addto_rows header vrows k a : NoDup header -> Forall (fun r => length r = length header) vrows -> nth_error header k = Some a ->
  addto (pairs_of header vrows) a = map (fun r => nth k r dv) vrows.
Proof.
  intros ND HL Hk. induction HL as [|r vrows Hr HL IH]; auto. unfold pairs_of. cbn [flat_map]. rewrite addto_app. rewrite (addto_row header r k a) by auto.
  cbn [map app]. f_equal. exact IH.
Qed.
Lemma filled header vrows : NoDup header -> Forall (fun r => length r = length header) vrows ->
  dmap (fun k l => l ++ addto (pairs_of header vrows) k) (empty_columns header) = colsof header vrows.
Proof.
  intros ND HL. destruct (empty_columns_spec (V := V) header) as (E1 & E2 & E3 & E4). specialize (E4 ND).
  assert (X : empty_columns (V := V) header = map (fun a => (a, [])) header).
  { revert E2 E4. generalize (empty_columns (V := V) header). clear. induction header as [|a l IH]; intros [|[k x] d] H E; try discriminate; auto.
    cbn in E. injection E as -> E. cbn [map]. rewrite (H a x) by now left. f_equal. apply IH; auto. intros k' l' Hk. apply (H k'). now right. }
  rewrite X. unfold dmap. rewrite map_map. cbn [fst snd app]. unfold colsof.
  assert (G : forall l k0, (forall k a, nth_error l k = Some a -> nth_error header (k0 + k) = Some a) ->
     map (fun x => (x, addto (pairs_of header vrows) x)) l = map (fun jk => (snd jk, map (fun r => nth (fst jk) r dv) vrows)) (combine (seq k0 (length l)) l)).
  { induction l as [|a l IH]; intros k0 H; auto. cbn [map length seq combine fst snd]. f_equal.
    - f_equal. apply addto_rows; auto. rewrite <- (H 0 a eq_refl) at 1. f_equal. lia.
    - apply IH. intros k b Hk. rewrite <- (H (S k) b Hk). f_equal. lia. }
  apply G. auto.
Qed.
Lemma frame_ok header vrows : header <> [] -> to_frame (colsof header vrows) = Ok (mkFrame (seq 0 (length vrows)) (colsof header vrows)).
Proof.
  intros Hn. unfold to_frame. destruct (colsof header vrows) as [|[k c] rest] eqn:E.
  - exfalso. apply (f_equal (@length _)) in E. unfold colsof in E. rewrite map_length, combine_length, seq_length, Nat.min_id in E. destruct header; [congruence|discriminate].
  - assert (L : forall k c, In (k, c) (colsof header vrows) -> length c = length vrows).
    { intros k' c' H. apply In_nth_error in H as [i H]. apply colsof_nth in H as [_ ->]. apply map_length. }
    rewrite E in L. assert (forallb (fun c' => Nat.eqb (length (snd c')) (length c)) rest = true) as ->.
    { apply forallb_forall. intros [k' c'] H. apply Nat.eqb_eq. cbn. rewrite (L k' c') by now right. symmetry. apply (L k c). now left. }
    rewrite (L k c) by now left. reflexivity.
Qed.
Lemma row_of_ok header vrows i r : Forall (fun r => length r = length header) vrows -> nth_error vrows i = Some r -> row_of (colsof header vrows) i = r.
Proof.
  intros HL Hi. assert (Lr : length r = length header) by (rewrite Forall_forall in HL; apply HL; eapply nth_error_In; eauto).
  unfold row_of, colsof. rewrite flat_map_concat_map, map_map. cbn [snd].
  assert (G : forall (l : list string) k0, concat (map (fun x : nat * string => match nth_error (map (fun r0 => nth (fst x) r0 dv) vrows) i with Some v => [v] | None => [] end) (combine (seq k0 (length l)) l)) = map (fun k => nth k r dv) (seq k0 (length l))).
  { induction l as [|a l IH]; intros k0; auto. cbn [length seq combine map concat fst]. rewrite nth_error_map, Hi. cbn [option_map app]. f_equal. apply IH. }
  rewrite G, <- Lr. clear. assert (G : forall (q : list V) k0 r0, (forall k, nth (k0 + k) r0 dv = nth k q dv) -> map (fun k => nth k r0 dv) (seq k0 (length q)) = q).
  { induction q as [|x q IH]; intros k0 r0 H; auto. cbn [length seq map]. f_equal.
    - specialize (H 0). now rewrite Nat.add_0_r in H.
    - apply IH. intros k. specialize (H (S k)). rewrite <- Nat.add_succ_comm in H. exact H. }
  now apply G.
Qed.
Lemma flat_nth {A} (l : list A) (d : A) (is : list nat) : Forall (fun i => i < length l)%nat is -> flat_map (fun i => match nth_error l i with Some v => [v] | None => [] end) is = map (fun i => nth i l d) is.
Proof. induction 1 as [|i is Hi His IH]; auto. cbn [flat_map map]. rewrite (nth_error_nth' l d Hi). cbn. now rewrite IH. Qed.
Definition firsts (vrows : list (list V)) : list nat :=
  filter (fun i => negb (existsb (fun j => row_eq P (nth j vrows []) (nth i vrows [])) (seq 0 i))) (seq 0 (length vrows)).
Lemma firsts_lt vrows : Forall (fun i => i < length vrows)%nat (firsts vrows).
Proof. apply Forall_forall. intros i Hi. apply filter_In in Hi as [Hi _]. apply in_seq in Hi. lia. Qed.
Lemma drop_ok header vrows : Forall (fun r => length r = length header) vrows -> Forall (Forall (fun v => v_hash P v = true)) vrows -> header <> [] ->
  exists cols, drop_duplicates P (mkFrame (seq 0 (length vrows)) (colsof header vrows)) = Ok (mkFrame (firsts vrows) cols) /\ dkeys cols = header /\
    forall k a col, nth_error cols k = Some (a, col) <-> nth_error header k = Some a /\ col = map (fun i => cell_at vrows i k) (firsts vrows).
Proof.
  intros HL HH Hn. unfold drop_duplicates. cbn [fr_cols fr_index].
  assert (forallb (fun c => forallb (v_hash P) (snd c)) (colsof header vrows) = true) as ->.
  { apply forallb_forall. intros [a col] H. apply In_nth_error in H as [k H]. apply colsof_nth in H as [Ha ->]. cbn. apply forallb_forall. intros v Hv.
    apply in_map_iff in Hv as (r & <- & Hr). rewrite Forall_forall in HH, HL. specialize (HH r Hr). rewrite Forall_forall in HH. apply HH. apply nth_In. rewrite HL by auto. apply nth_error_Some. congruence. }
  rewrite seq_length.
  assert (Ef : filter (is_first P (colsof header vrows)) (seq 0 (length vrows)) = firsts vrows).
  { apply filter_ext_in. intros i Hi. apply in_seq in Hi. unfold is_first. f_equal. assert (Hr : forall j, (j < length vrows)%nat -> row_of (colsof header vrows) j = nth j vrows []).
    { intros j Hj. apply row_of_ok; auto. now apply nth_error_nth'. }
    rewrite Hr by lia. assert (G : forall l, Forall (fun j => j < length vrows)%nat l -> existsb (fun j => row_eq P (row_of (colsof header vrows) j) (nth i vrows [])) l = existsb (fun j => row_eq P (nth j vrows []) (nth i vrows [])) l).
    { induction 1 as [|j l Hj _ IH]; auto. cbn. now rewrite IH, Hr. }
    apply G. apply Forall_forall. intros j Hj. apply in_seq in Hj. lia. }
  cbv zeta. rewrite Ef. eexists. split; [f_equal; f_equal|].
  - rewrite (flat_nth _ 0) by (rewrite seq_length; apply firsts_lt). rewrite <- (map_id (firsts vrows)) at 2. apply map_ext_in. intros i Hi. pose proof (firsts_lt vrows) as L. rewrite Forall_forall in L. rewrite seq_nth by auto. reflexivity.
  - split; [now rewrite dmap_keys, colsof_keys|]. intros k a col. unfold dmap. rewrite nth_error_map.
    destruct (nth_error (colsof header vrows) k) as [[a' col']|] eqn:E.
    + apply colsof_nth in E as [Ea ->]. cbn [option_map fst snd]. rewrite Ea. rewrite (flat_nth _ dv) by (rewrite map_length; apply firsts_lt).
      assert (X : map (fun i => nth i (map (fun r => nth k r dv) vrows) dv) (firsts vrows) = map (fun i => cell_at vrows i k) (firsts vrows)).
      { apply map_ext_in. intros i Hi. pose proof (firsts_lt vrows) as L. rewrite Forall_forall in L. unfold cell_at. rewrite (nth_indep _ dv (nth k [] dv)) by (rewrite map_length; auto). exact (map_nth (fun r => nth k r dv) vrows [] i). }
      rewrite X. split; [intros [= <- <-]; auto|]. now intros [[= ->] ->].
    + split; [discriminate|]. intros [H1 H2]. exfalso. assert (nth_error (colsof header vrows) k = Some (a, map (fun r => nth k r dv) vrows)) by (apply colsof_nth; auto). congruence.
Qed.
(** with a genuine equality of values, these are the first of equal rows *)
Lemma firsts_kept {A} (f : A -> V) (rows : list (list A)) : (forall a b, v_eq P (f a) (f b) = true <-> a = b) -> kept rows (firsts (map (map f) rows)).
Proof.
  intros He. assert (Re : forall a b, row_eq P (map f a) (map f b) = true <-> a = b).
  { induction a as [|x a IH]; intros [|y b]; cbn; split; try discriminate; auto.
    - intros H. apply andb_true_iff in H as [H1 H2]. apply He in H1. apply IH in H2. congruence.
    - intros [= -> ->]. apply andb_true_iff. split; [now apply He|now apply IH]. }
  split.
  - unfold firsts. assert (G : forall l, StronglySorted lt l -> forall p, StronglySorted lt (filter p l)).
    { induction 1 as [|a l Sl IH Fl]; intros p; cbn; [constructor|]. destruct (p a); auto. constructor; auto. apply Forall_forall. intros b Hb. apply filter_In in Hb as [Hb _]. rewrite Forall_forall in Fl. auto. }
    apply G. generalize 0 (length (map (map f) rows)). intros s n. revert s. induction n as [|n IH]; intros s; cbn; constructor; auto. apply Forall_forall. intros b Hb. apply in_seq in Hb. lia.
  - intros i. unfold firsts. rewrite filter_In, in_seq, map_length, negb_true_iff. cbn [Nat.add].
    assert (Hn : forall j, nth j (map (map f) rows) [] = map f (nth j rows [])) by (intros j; exact (map_nth (map f) rows [] j)). rewrite Hn. split.
    + intros [[_ Hi] H]. exists (nth i rows []). split; [now apply nth_error_nth'|]. intros j Hj E. apply not_true_iff_false in H. apply H. apply existsb_exists. exists j. split; [apply in_seq; lia|].
      rewrite Hn. apply Re. now apply nth_error_nth with (d := []) in E.
    + intros (r & Hr & Hj). assert (Hi : (i < length rows)%nat) by (apply nth_error_Some; congruence). split; [lia|]. apply not_true_iff_false. intros H. apply existsb_exists in H as (j & Hj' & E). apply in_seq in Hj'. rewrite Hn in E. apply Re in E.
      apply (Hj j); [lia|]. rewrite (nth_error_nth' rows []) by lia. rewrite E. apply nth_error_nth with (d := []) in Hr. now rewrite Hr.
Qed.
End Frames.
