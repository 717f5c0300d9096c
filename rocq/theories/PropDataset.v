(** PropDataset.v — properties C57 and C68: loading data sets from files. *)
From Coq Require Import QArith.
From Verif Require Import Base BaseFacts LoaderSpec Num QNum Functions Dataset DatasetSpec DatasetFacts DatasetFacts2 DatasetFacts3 DatasetFacts4.
Local Open Scope nat_scope.

(** ** Lines *)
Theorem C57_fields : forall line fs, fields line = fs <-> fields_of line fs.
Proof. exact fields_spec. Qed.
Theorem C57_strip : forall s, stripped s (strip s).
Proof. exact strip_spec. Qed.

Section Load.
Context {V : Type}.
Variable P : values V.
Hypothesis HP : text_values P.

Lemma texts_pairs header rows : texts_of P header rows = pairs_of header (map (map (v_text P)) rows).
Proof. unfold texts_of, pairs_of. induction rows as [|r rows IH]; auto. cbn [flat_map map]. now rewrite IH, combine_map_r. Qed.
Lemma full_length header rows : Forall (fun r => length r = length header) (full_rows header rows).
Proof. apply Forall_forall. intros r Hr. apply filter_In in Hr as [_ Hr]. now apply Nat.eqb_eq. Qed.
Lemma text_eq a b : v_eq P (v_text P a) (v_text P b) = true <-> a = b.
Proof. destruct (HP a) as (_ & _ & ->). apply String.eqb_eq. Qed.
Lemma text_rows (header : list string) rows : Forall (fun r => length r = length header) rows -> Forall (fun r => length r = length header) (map (map (v_text P)) rows).
Proof. induction 1 as [|r rows Hr _ IH]; cbn; constructor; auto. now rewrite map_length. Qed.
Lemma text_hash rows : Forall (Forall (fun v => v_hash P v = true)) (map (map (v_text P)) rows).
Proof. apply Forall_forall. intros r Hr. apply in_map_iff in Hr as (r' & <- & _). apply Forall_forall. intros v Hv. apply in_map_iff in Hv as (t & <- & _). apply HP. Qed.
Lemma text_cell rows i k : cell_at P (map (map (v_text P)) rows) i k = v_text P (nth k (nth i rows []) "").
Proof.
  unfold cell_at. replace (nth i (map (map (v_text P)) rows) []) with (map (v_text P) (nth i rows [])) by (symmetry; exact (map_nth (map (v_text P)) rows [] i)).
  apply map_nth.
Qed.
Lemma load_base h ls : NoDup (fields (strip h)) ->
  let header := fields (strip h) in let rows := full_rows header (map (fun l => fields (strip l)) ls) in
  exists fr, (cols <- rfold (csv_row P header) (map strip ls) (empty_columns header) ;; fr <- to_frame cols ;; drop_duplicates P fr)%res = Ok fr /\
    rfold (csv_row P header) (map strip ls) (empty_columns header) = Ok (colsof P header (map (map (v_text P)) rows)) /\
    kept rows (fr_index fr) /\ Forall (fun i => i < length rows)%nat (fr_index fr) /\ dkeys (fr_cols fr) = header /\
    (forall k a col, nth_error (fr_cols fr) k = Some (a, col) -> col = map (fun i => v_text P (nth k (nth i rows []) "")) (fr_index fr)).
Proof.
  intros ND header rows.
  destruct (empty_columns_spec (V := V) header) as (E1 & E2 & E3 & E4).
  assert (X : rfold (csv_row P header) (map strip ls) (empty_columns header) = Ok (colsof P header (map (map (v_text P)) rows))).
  { rewrite csv_rows_spec by (auto; apply E3). rewrite map_map. fold rows. rewrite texts_pairs. f_equal. apply filled; auto. apply text_rows, full_length. }
  rewrite X. cbn [rbind]. rewrite frame_ok by apply fields_nonempty. cbn [rbind].
  destruct (drop_ok P header (map (map (v_text P)) rows)) as (cols & D1 & D2 & D3); [apply text_rows, full_length|apply text_hash|apply fields_nonempty|].
  exists (mkFrame (firsts P (map (map (v_text P)) rows)) cols). cbn [fr_index fr_cols]. split; auto. split; auto.
  split; [apply firsts_kept; exact text_eq|]. split; [pose proof (firsts_lt P (map (map (v_text P)) rows)) as L; now rewrite map_length in L|]. split; auto.
  intros k a col H. apply D3 in H as [_ ->]. apply map_ext. intros i. apply text_cell.
Qed.

(** ** C57 *)
(** with different column names: exactly the rows as long as the header, each only
    the first time it occurs, every field in its own column *)
Theorem C57_rows_whole : forall h ls name, NoDup (fields (strip h)) ->
  let header := fields (strip h) in
  let rows := full_rows header (map (fun l => fields (strip l)) ls) in
  exists fr, load_csv_dataset P (h :: ls) name false = Ok fr /\ kept rows (fr_index fr) /\ dkeys (fr_cols fr) = header /\
    forall k a col, nth_error (fr_cols fr) k = Some (a, col) ->
      col = map (fun i => v_text P (nth k (nth i rows []) "")) (fr_index fr).
Proof.
  intros h ls name ND header rows. destruct (load_base h ls ND) as (fr & H1 & Hc & H2 & _ & H3 & H4). exists fr. split; auto.
  unfold load_csv_dataset. cbn [map]. cbv zeta. fold header in H1, Hc, H2, H3, H4 |- *. rewrite Hc in H1 |- *. cbn [rbind] in H1 |- *. now rewrite H1.
Qed.
(** factorize=True replaces every value by the number of different values seen before
    its first occurrence *)
Theorem C57_factorized : forall h ls name, NoDup (fields (strip h)) ->
  let header := fields (strip h) in
  let rows := full_rows header (map (fun l => fields (strip l)) ls) in
  rows <> [] ->
  exists fr, load_csv_dataset P (h :: ls) name true = Ok fr /\ kept rows (fr_index fr) /\ dkeys (fr_cols fr) = header /\
    forall k a col, nth_error (fr_cols fr) k = Some (a, col) ->
      exists ns, col = map (fun n => v_code P (Z.of_nat n)) ns /\
        Forall2 (fun i n => code_in string_dec (map (fun i => nth k (nth i rows []) "") (fr_index fr)) (nth k (nth i rows []) "") n) (fr_index fr) ns.
Proof.
  intros h ls name ND header rows Hne. destruct (load_base h ls ND) as (fr & H1 & Hc & H2 & Hl & H3 & H4). fold header in H1, Hc, H2, Hl, H3, H4. fold rows in H1, Hc, H2, Hl, H4.
  assert (Hi : fr_index fr <> []).
  { intros E. destruct rows as [|r rows']; [congruence|]. destruct H2 as [_ H2]. assert (In 0 (fr_index fr)) as K; [|rewrite E in K; destruct K].
    apply H2. exists r. split; auto. intros j Hj. lia. }
  set (T := fun k => map (fun i => nth k (nth i rows []) "") (fr_index fr)).
  assert (Hf : exists cs, rmap (fun c => (cu <- factorize P (snd c) ;; Ok (fst c, map (v_code P) (fst cu)))%res) (fr_cols fr) = Ok cs /\
     dkeys cs = dkeys (fr_cols fr) /\ forall k a col, nth_error cs k = Some (a, col) -> exists ns, col = map (fun n => v_code P (Z.of_nat n)) ns /\ Forall2 (fun x n => code_in string_dec (T k) x n) (T k) ns).
  { assert (G : forall l k0, (forall k a col, nth_error l k = Some (a, col) -> col = map (v_text P) (T (k0 + k))) -> exists cs, rmap (fun c => (cu <- factorize P (snd c) ;; Ok (fst c, map (v_code P) (fst cu)))%res) l = Ok cs /\
       dkeys cs = dkeys l /\ forall k a col, nth_error cs k = Some (a, col) -> exists ns, col = map (fun n => v_code P (Z.of_nat n)) ns /\ Forall2 (fun x n => code_in string_dec (T (k0 + k)) x n) (T (k0 + k)) ns).
    { induction l as [|[a col] l IH]; intros k0 H; [exists []; split; [reflexivity|split; [reflexivity|intros [|k]; discriminate]]|].
      pose proof (H 0 a col eq_refl) as Hcol. rewrite Nat.add_0_r in Hcol.
      destruct (codes_spec P string (v_text P) text_eq (fun t => proj1 (proj2 (HP t))) string_dec (T k0)) as (ns & Hns & HF).
      assert (Hfac : factorize P col = Ok (codes P col, uniques P col)).
      { unfold factorize. rewrite Hcol. assert (forallb (v_hash P) (map (v_text P) (T k0)) = true) as ->; auto. apply forallb_forall. intros v Hv. apply in_map_iff in Hv as (t & <- & _). apply HP. }
      destruct (IH (S k0)) as (cs & C1 & C2 & C3).
      { intros k b c Hk. rewrite Nat.add_succ_comm. exact (H (S k) b c Hk). }
      exists ((a, map (v_code P) (codes P col)) :: cs). split; [|split].
      - cbn [rmap fst snd]. rewrite Hfac. cbn [rbind fst snd]. rewrite C1. reflexivity.
      - cbn [dkeys map fst]. unfold dkeys in C2. now rewrite C2.
      - intros [|k] b c Hk; cbn [nth_error] in Hk.
        + injection Hk as <- <-. rewrite Nat.add_0_r. exists ns. split; auto. rewrite Hcol, Hns, map_map. reflexivity.
        + rewrite <- Nat.add_succ_comm. apply (C3 k b c Hk). }
    apply (G (fr_cols fr) 0). intros k a col Hk. cbn [Nat.add]. unfold T. rewrite map_map. exact (H4 k a col Hk). }
  destruct Hf as (cs & C1 & C2 & C3). exists (mkFrame (fr_index fr) cs). cbn [fr_index fr_cols]. split; [|split; [auto|split; [congruence|]]].
  - unfold load_csv_dataset. cbn [map]. cbv zeta. fold header. rewrite Hc in H1 |- *. cbn [rbind] in H1 |- *. rewrite H1. cbn [rbind].
    destruct (fr_index fr) eqn:E; [congruence|]. rewrite C1. reflexivity.
  - intros k a col Hk. destruct (C3 k a col Hk) as (ns & N1 & N2). exists ns. split; auto. unfold T in N2 at 2. 
    assert (M : forall (Q : string -> nat -> Prop) (g : nat -> string) l l', Forall2 Q (map g l) l' -> Forall2 (fun i n => Q (g i) n) l l').
    { clear. induction l as [|i l IH]; intros l' H; inversion H; subst; constructor; auto. }
    exact (M _ _ _ _ N2).
Qed.
(** codes tell values apart *)
Theorem C57_codes_faithful : forall (l : list string) x y n m, code_in string_dec l x n -> code_in string_dec l y m -> (n = m <-> x = y).
Proof.
  intros l x y n m Hx Hy. split.
  - intros <-. eapply code_in_inj; eauto.
  - intros <-. eapply code_in_fun; eauto.
Qed.
(** a column name used more often than another one makes loading any data fail *)
Theorem C57_uneven_names : forall h ls name factor a b,
  let header := fields (strip h) in
  let rows := full_rows header (map (fun l => fields (strip l)) ls) in
  rows <> [] -> In a header -> In b header -> count_occ string_dec header a <> count_occ string_dec header b ->
  exists msg, load_csv_dataset P (h :: ls) name factor = Err (EExc msg).
Proof.
  intros h ls name factor a b header rows Hne Ha Hb Hc.
  destruct (empty_columns_spec (V := V) header) as (E1 & E2 & E3 & E4).
  unfold load_csv_dataset. cbn [map]. cbv zeta. fold header. rewrite csv_rows_spec by (auto; apply E3). rewrite map_map. fold rows. cbn [rbind].
  set (cols := dmap (fun k l => l ++ addto (texts_of P header rows) k) (empty_columns header)).
  assert (Len : forall k l, In (k, l) cols -> length l = length rows * count_occ string_dec header k).
  { intros k l H. unfold cols, dmap in H. apply in_map_iff in H as ([k' l'] & [= <- <-] & H). cbn [fst snd]. rewrite (E2 k' l' H). cbn [app].
    pose proof (full_length header (map (fun l => fields (strip l)) ls)) as HL. fold rows in HL. clear - HL. induction HL as [|r rs Hr HL IH]; auto.
    unfold texts_of. cbn [flat_map length]. rewrite addto_app, app_length. fold (texts_of P header rs). rewrite IH. cbn [Nat.mul]. f_equal.
    unfold addto. rewrite map_length. revert r Hr. generalize header. induction header0 as [|c t IHt]; intros [|x r] L; try discriminate; auto.
    cbn [combine map filter fst count_occ]. destruct (string_dec c k') as [->|Ne].
    - rewrite String.eqb_refl. cbn [length]. f_equal. apply IHt. now injection L.
    - apply String.eqb_neq in Ne. rewrite Ne. apply IHt. now injection L. }
  assert (Ka : forall k, In k header -> exists l, In (k, l) cols).
  { intros k Hk. apply E3 in Hk. unfold cols. rewrite <- (dmap_keys (fun k l => l ++ addto (texts_of P header rows) k)) in Hk. unfold dkeys in Hk. apply in_map_iff in Hk as ([k' l] & <- & Hk). eauto. }
  assert (Tf : to_frame cols = Err EValue).
  { destruct (Ka a Ha) as [la Hla], (Ka b Hb) as [lb Hlb]. unfold to_frame. destruct cols as [|[k c] rest]; [easy|].
    destruct (forallb (fun c' => Nat.eqb (length (snd c')) (length c)) rest) eqn:E; auto. exfalso.
    assert (K : forall k' l', In (k', l') ((k, c) :: rest) -> length l' = length c).
    { intros k' l' [H|H]; [now injection H as <- <-|]. rewrite forallb_forall in E. specialize (E _ H). now apply Nat.eqb_eq in E. }
    pose proof (Len a la Hla) as L1. pose proof (Len b lb Hlb) as L2. rewrite (K a la Hla) in L1. rewrite (K b lb Hlb) in L2. apply Hc.
    assert (length rows <> 0) by (destruct rows; [congruence|discriminate]). rewrite L1 in L2. apply Nat.mul_cancel_l in L2; auto. }
  rewrite Tf. cbn [rbind]. eauto.
Qed.

(** ** C68: load_dataset *)
Context {F : Type} {N : Num F}.
(** one row of another length than the header, and nothing is loaded *)
Theorem C68_all_or_nothing : forall path h ls arff factor m (q : F), extension path = "csv"%string ->
  (exists l, In l ls /\ length (fields (strip l)) <> length (fields (strip h))) ->
  load_dataset P path (h :: ls) arff factor m q = Err (EExc "Unknown dataset format").
Proof.
  intros path h ls arff factor m q Hx (l & Hl & Ln). unfold load_dataset. rewrite Hx. cbn [String.eqb Ascii.eqb Bool.eqb].
  unfold read_csv. cbn [map]. cbv zeta.
  destruct (read_bad P (fields (strip h)) (map (fun s => fields (strip s)) ls) (empty_columns (fields (strip h)), ""%string)) as [e He].
  { exists (fields (strip l)). split; auto. apply in_map_iff. eauto. }
  rewrite rfold_map in He. rewrite rfold_map. now rewrite He.
Qed.
Lemma read_good h ls : NoDup (fields (strip h)) -> Forall (fun l => length (fields (strip l)) = length (fields (strip h))) ls ->
  exists last, read_csv P (h :: ls) = Ok (colsof P (fields (strip h)) (map (fun l => map (fun t => ev P (v_text P t)) (fields (strip l))) ls), last) /\
    ((forall l t, In l ls -> In t (fields (strip l)) -> v_eval P (v_text P t) = None) -> last = ""%string) /\
    ((exists l t, In l ls /\ In t (fields (strip l)) /\ v_eval P (v_text P t) <> None) -> In last (fields (strip h))).
Proof.
  intros ND HL. set (header := fields (strip h)) in *. unfold read_csv. cbn [map]. cbv zeta. fold header.
  destruct (empty_columns_spec (V := V) header) as (E1 & E2 & E3 & E4).
  assert (HL' : Forall (fun r => length r = length header) (map (fun l => fields (strip l)) ls)).
  { apply Forall_forall. intros r Hr. apply in_map_iff in Hr as (l & <- & Hl). rewrite Forall_forall in HL. auto. }
  pose proof (read_rows P header (map (fun l => fields (strip l)) ls) (empty_columns header) ""%string E1 (fun a Ha => proj2 (E3 a) Ha) HL') as R.
  rewrite rfold_map in R. rewrite rfold_map. rewrite R. rewrite (filled P); auto.
  - eexists. split; [rewrite map_map; reflexivity|]. split.
    + intros H. assert (G : forall rows la, (forall r t, In r rows -> In t r -> v_eval P (v_text P t) = None) -> fold_left (fun la r => last_eval P header la (map (v_text P) r)) rows la = la).
      { induction rows as [|r rows IH]; intros la K; auto. cbn [fold_left]. rewrite last_eval_none; [apply IH; intros r' t Hr'; apply (K r' t); now right|].
        intros x Hx. apply in_map_iff in Hx as (t & <- & Ht). apply (K r t); [now left|auto]. }
      apply G. intros r t Hr. apply in_map_iff in Hr as (l & <- & Hl). now apply H.
    + intros (l & t & Hl & Ht & Hev). assert (G : forall rows la, Forall (fun r => length r = length header) rows -> (In la header \/ exists r, In r rows /\ exists x, In x (map (v_text P) r) /\ v_eval P x <> None) ->
        In (fold_left (fun la r => last_eval P header la (map (v_text P) r)) rows la) header).
      { clear. induction rows as [|r rows IH]; intros la HL K; [destruct K as [K|(r & [] & _)]; exact K|]. inversion HL as [|? ? Hr HL']; subst. cbn [fold_left]. apply IH; auto.
        destruct K as [K|(r' & [<-|Hr'] & K)]; [left|left|right; eauto].
        - destruct (last_eval_in P header la (map (v_text P) r)) as [->|H]; auto.
        - apply last_eval_some; auto. now rewrite map_length. }
      apply G; auto. right. exists (fields (strip l)). split; [apply in_map_iff; eauto|]. exists (v_text P t). split; [now apply in_map|auto].
  - apply Forall_forall. intros r Hr. apply in_map_iff in Hr as (r' & <- & Hr'). rewrite map_length. rewrite Forall_forall in HL'. auto.
Qed.
(** a file of texts only (no field that literal_eval accepts) without a column called
    class (or an unnamed one) cannot be loaded *)
Theorem C68_text_only_refuted : forall path h ls arff factor m (q : F), extension path = "csv"%string ->
  NoDup (fields (strip h)) -> Forall (fun l => length (fields (strip l)) = length (fields (strip h))) ls ->
  (forall l t, In l ls -> In t (fields (strip l)) -> v_eval P (v_text P t) = None) ->
  ~ In "class"%string (fields (strip h)) -> ~ In ""%string (fields (strip h)) ->
  load_dataset P path (h :: ls) arff factor m q = Err (EKey "").
Proof.
  intros path h ls arff factor m q Hx ND HL He Hc Hn. destruct (read_good h ls ND HL) as (la & R & Hla & _). rewrite (Hla He) in R.
  unfold load_dataset. rewrite Hx. cbn [String.eqb Ascii.eqb Bool.eqb]. rewrite R.
  assert (G : forall k, ~ In k (fields (strip h)) -> dget (colsof P (fields (strip h)) (map (fun l => map (fun t => ev P (v_text P t)) (fields (strip l))) ls)) k = None).
  { intros k Hk. rewrite <- (colsof_keys P (fields (strip h)) (map (fun l => map (fun t => ev P (v_text P t)) (fields (strip l))) ls)) in Hk.
    revert Hk. generalize (colsof P (fields (strip h)) (map (fun l => map (fun t => ev P (v_text P t)) (fields (strip l))) ls)). induction d as [|[k' v] d IH]; intros H; auto. cbn [dget].
    destruct (String.eqb_spec k k') as [->|]; [exfalso; apply H; now left|]. apply IH. intros K. apply H. now right. }
  rewrite (G "class"%string Hc). unfold dget_exn. rewrite (G ""%string Hn). reflexivity.
Qed.
(** once the columns are read, loading continues alike for csv and arff files *)
Lemma after_read path arff ls header rows la factor m (q : F) :
  (if String.eqb (extension path) "arff" then read_arff P arff else if String.eqb (extension path) "csv" then read_csv P ls else Err (EExc "")) = Ok (colsof P header rows, la) ->
  header <> [] -> Forall (fun r => length r = length header) rows -> Forall (Forall (fun v => v_hash P v = true)) rows ->
  (In "class"%string header \/ In la header) ->
  load_dataset P path ls arff factor m q =
    match (cols <- (if factor then rmap (factor_column P m q) (colsof P header rows) else Ok (colsof P header rows)) ;; fr <- to_frame cols ;; drop_duplicates P fr)%res with
    | Ok fr => Ok fr
    | Err e => Err (EExc (append (base_name path) (append " " (exn_str e))))
    end.
Proof.
  intros R Hne Lr Hr Hc. unfold load_dataset. rewrite R.
  assert (G : forall k, In k header -> exists col, dget (colsof P header rows) k = Some col /\ factorize P col = Ok (codes P col, uniques P col)).
  { intros k Hk. rewrite <- (colsof_keys P header rows) in Hk. apply dget_Some_In in Hk as [col Hk]. exists col. split; auto. unfold factorize.
    assert (forallb (v_hash P) col = true) as ->; auto. apply dget_In in Hk. apply In_nth_error in Hk as [j Hk]. apply colsof_nth in Hk as [Hj ->]. apply forallb_forall. intros v Hv.
    apply in_map_iff in Hv as (r & <- & Hr'). rewrite Forall_forall in Hr, Lr. specialize (Hr r Hr'). rewrite Forall_forall in Hr. apply Hr. apply nth_In. rewrite Lr by auto. apply nth_error_Some. congruence. }
  assert (X : exists col, match dget (colsof P header rows) "class" with Some l => Ok l | None => dget_exn (colsof P header rows) la end = Ok col /\ factorize P col = Ok (codes P col, uniques P col)).
  { destruct (dget (colsof P header rows) "class") as [col|] eqn:E.
    - assert (Hk : In "class"%string header) by (rewrite <- (colsof_keys P header rows); apply dget_In in E; unfold dkeys; now apply (in_map fst) in E). destruct (G _ Hk) as (c & E' & Hf). rewrite E in E'. injection E' as <-. eauto.
    - destruct Hc as [Hc|Hc]; [destruct (G _ Hc) as (c & E' & _); congruence|]. destruct (G _ Hc) as (c & E' & Hf). exists c. unfold dget_exn. now rewrite E'. }
  destruct X as (col & -> & Hf). cbn [rbind]. rewrite Hf. reflexivity.
Qed.
Lemma after_ok {A} (r : res A) (f : exn -> res A) a : r = Ok a -> match r with Ok fr => Ok fr | Err e => f e end = Ok a.
Proof. now intros ->. Qed.
Lemma row_eq_Forall2 a b : row_eq P a b = true <-> Forall2 (fun x y => v_eq P x y = true) a b.
Proof.
  revert b. induction a as [|x a IH]; intros [|y b]; cbn; try (split; [discriminate|inversion 1]).
  - split; auto.
  - rewrite andb_true_iff, IH. split; [intros [? ?]; now constructor|inversion 1; auto].
Qed.
Lemma firsts_spec rows : StronglySorted lt (firsts P rows) /\
  forall i, In i (firsts P rows) <-> (i < length rows)%nat /\ forall j, (j < i)%nat -> ~ Forall2 (fun x y => v_eq P x y = true) (nth j rows []) (nth i rows []).
Proof.
  split.
  - unfold firsts. assert (GG : forall l, StronglySorted lt l -> forall p, StronglySorted lt (filter p l)).
    { induction 1 as [|a l Sl IH Fl]; intros p; cbn; [constructor|]. destruct (p a); auto. constructor; auto. apply Forall_forall. intros b Hb. apply filter_In in Hb as [Hb _]. rewrite Forall_forall in Fl. auto. }
    apply GG. generalize 0 (length rows). intros s n. revert s. induction n as [|n IH]; intros s; cbn; constructor; auto. apply Forall_forall. intros b Hb. apply in_seq in Hb. lia.
  - intros i. unfold firsts. rewrite filter_In, in_seq, negb_true_iff. split.
    + intros [[_ Hi] H]. split; auto. intros j Hj E. apply row_eq_Forall2 in E. apply not_true_iff_false in H. apply H. apply existsb_exists. exists j. split; auto. apply in_seq. lia.
    + intros [Hi H]. split; [lia|]. apply not_true_iff_false. intros E. apply existsb_exists in E as (j & Hj & E). apply in_seq in Hj. apply (H j); [lia|]. now apply row_eq_Forall2.
Qed.
(** plain loading of a table that was read *)
Definition loaded_plain (header : list string) (rows : list (list V)) (fr : frame V) : Prop :=
  dkeys (fr_cols fr) = header /\
  (forall k a col, nth_error (fr_cols fr) k = Some (a, col) -> col = map (fun i => nth k (nth i rows []) (v_text P "")) (fr_index fr)) /\
  StronglySorted lt (fr_index fr) /\
  forall i, In i (fr_index fr) <-> (i < length rows)%nat /\
    forall j, (j < i)%nat -> ~ Forall2 (fun x y => v_eq P x y = true) (nth j rows []) (nth i rows []).
(** the same with factorized columns *)
Definition loaded_factored (dec : forall a b : V, {a = b} + {a <> b}) (m : Z) (q : F)
    (header : list string) (rows : list (list V)) (fr : frame V) : Prop :=
  exists cols, dkeys (fr_cols fr) = header /\ length cols = length header /\
  (forall k col, nth_error cols k = Some col -> factored P dec m q (map (fun r => nth k r (v_text P "")) rows) col) /\
  (forall k a col, nth_error (fr_cols fr) k = Some (a, col) -> exists c, nth_error cols k = Some c /\ col = map (fun i => nth i c (v_text P "")) (fr_index fr)) /\
  StronglySorted lt (fr_index fr) /\
  forall i, In i (fr_index fr) <-> (i < length rows)%nat /\
    forall j, (j < i)%nat -> exists c, In c cols /\ nth j c (v_text P "") <> nth i c (v_text P "").
Lemma plain_ok header rows : header <> [] -> Forall (fun r => length r = length header) rows -> Forall (Forall (fun v => v_hash P v = true)) rows ->
  exists fr, (cols <- Ok (colsof P header rows) ;; fr <- to_frame cols ;; drop_duplicates P fr)%res = Ok fr /\ loaded_plain header rows fr.
Proof.
  intros Hne Lr Hr. destruct (drop_ok P header rows Lr Hr Hne) as (cols & D1 & D2 & D3).
  exists (mkFrame (firsts P rows) cols). cbn [rbind]. rewrite frame_ok by auto. cbn [rbind]. split; auto.
  destruct (firsts_spec rows) as [F1 F2]. split; auto. split; [|split; auto]. intros k a col Hk. apply D3 in Hk as [_ ->]. reflexivity.
Qed.
Lemma factored_ok dec m (q : F) header rows : (forall a b, v_eq P a b = true <-> a = b) -> (forall z, v_hash P (v_code P z) = true) -> neqb (nat2F (length rows)) n0 = false ->
  rows <> [] -> header <> [] -> Forall (fun r => length r = length header) rows -> Forall (Forall (fun v => v_hash P v = true)) rows ->
  exists fr, (cols <- rmap (factor_column P m q) (colsof P header rows) ;; fr <- to_frame cols ;; drop_duplicates P fr)%res = Ok fr /\ loaded_factored dec m q header rows fr.
Proof.
  intros He Hc Hz Hn Hne Lr Hr. rewrite (frows_cols P m q) by auto. cbn [rbind].
  set (fr' := frows P m q header rows).
  assert (Ln : length fr' = length rows) by (unfold fr', frows; now rewrite map_length, seq_length).
  assert (Lr' : Forall (fun r => length r = length header) fr').
  { apply Forall_forall. intros r H. unfold fr', frows in H. apply in_map_iff in H as (i & <- & _). now rewrite map_length, seq_length. }
  set (colk := fun k => map (fun r => nth k r (v_text P "")) rows).
  assert (Hcol : forall k, (k < length header)%nat -> Forall (fun v => v_hash P v = true) (colk k)).
  { intros k Hk. apply Forall_forall. intros v Hv. apply in_map_iff in Hv as (r & <- & H). rewrite Forall_forall in Hr, Lr. specialize (Hr r H). rewrite Forall_forall in Hr. apply Hr, nth_In. now rewrite (Lr r H). }
  assert (Hr' : Forall (Forall (fun v => v_hash P v = true)) fr').
  { apply Forall_forall. intros r H. unfold fr', frows in H. apply in_map_iff in H as (i & <- & Hi). apply in_seq in Hi. apply Forall_forall. intros v Hv. apply in_map_iff in Hv as (k & <- & Hk). apply in_seq in Hk.
    fold (colk k). assert (L : (i < length (fcol P m q (colk k)))%nat) by (rewrite fcol_length; unfold colk; rewrite map_length; lia). apply (nth_In _ (v_text P "")) in L.
    unfold fcol in L |- *. destruct (coded_column P m q (colk k)).
    - apply in_map_iff in L as (z & <- & _). apply Hc.
    - specialize (Hcol k ltac:(lia)). rewrite Forall_forall in Hcol. auto. }
  destruct (drop_ok P header fr' Lr' Hr' Hne) as (cols & D1 & D2 & D3).
  exists (mkFrame (firsts P fr') cols). rewrite frame_ok by auto. cbn [rbind]. split; auto.
  exists (map (fun k => fcol P m q (colk k)) (seq 0 (length header))). cbn [fr_cols fr_index].
  assert (Cell : forall i k, (i < length rows)%nat -> (k < length header)%nat -> nth k (nth i fr' []) (v_text P "") = nth i (fcol P m q (colk k)) (v_text P "")).
  { intros i k Hi Hk. unfold fr', frows. set (g := fun i => map (fun k => nth i (fcol P m q (colk k)) (v_text P "")) (seq 0 (length header))).
    change (nth k (nth i (map g (seq 0 (length rows))) []) (v_text P "") = nth i (fcol P m q (colk k)) (v_text P "")).
    rewrite (nth_indep (map g _) [] (g 0)) by (rewrite map_length, seq_length; lia). rewrite (map_nth g), seq_nth by lia. cbn [Nat.add].
    unfold g. set (h := fun k => nth i (fcol P m q (colk k)) (v_text P "")). change (nth k (map h (seq 0 (length header))) (v_text P "") = h k).
    rewrite (nth_indep (map h _) (v_text P "") (h 0)) by (rewrite map_length, seq_length; lia). rewrite (map_nth h), seq_nth by lia. reflexivity. }
  assert (Hk : forall k c, nth_error (map (fun k => fcol P m q (colk k)) (seq 0 (length header))) k = Some c <-> (k < length header)%nat /\ c = fcol P m q (colk k)).
  { intros k c. rewrite nth_error_map. destruct (lt_dec k (length header)) as [L|L].
    - rewrite (nth_error_nth' _ 0) by (now rewrite seq_length). rewrite seq_nth by auto. cbn. split; [intros [= <-]; auto|intros [_ ->]; auto].
    - assert (nth_error (seq 0 (length header)) k = None) as -> by (apply nth_error_None; rewrite seq_length; lia). cbn. split; [discriminate|intros [? _]; lia]. }
  destruct (firsts_spec fr') as [F1 F2].
  split; auto. split; [now rewrite map_length, seq_length|]. split; [|split; [|split; [exact F1|]]].
  - intros k col H. apply Hk in H as [L ->]. apply (fcol_factored P He dec m q). destruct rows; [congruence|discriminate].
  - intros k a col H. apply D3 in H as [Ha ->]. assert (L : (k < length header)%nat) by (apply nth_error_Some; congruence).
    exists (fcol P m q (colk k)). split; [now apply Hk|]. apply map_ext_in. intros i Hi. apply F2 in Hi as [Hi _]. rewrite Ln in Hi. now apply Cell.
  - intros i. rewrite F2, Ln. split; intros [Hi H]; split; auto; intros j Hj; specialize (H j Hj).
    + rewrite <- row_eq_Forall2, (row_eq_iff P He) in H.
      assert (Lj : length (nth j fr' []) = length header) by (rewrite Forall_forall in Lr'; apply Lr', nth_In; lia).
      assert (Li : length (nth i fr' []) = length header) by (rewrite Forall_forall in Lr'; apply Lr', nth_In; lia).
      assert (G : forall a b : list V, length a = length b -> a <> b -> exists k, (k < length a)%nat /\ nth k a (v_text P "") <> nth k b (v_text P "")).
      { clear - He. induction a as [|x a IH]; intros [|y b] L Ne; try discriminate; [congruence|]. destruct (v_eq P x y) eqn:E.
        - apply He in E as ->. destruct (IH b) as (k & K1 & K2); [now injection L|congruence|]. exists (S k). split; [cbn; lia|exact K2].
        - exists 0. split; [cbn; lia|]. cbn. intros ->. assert (v_eq P y y = true) by now apply He. congruence. }
      destruct (G _ _ (eq_trans Lj (eq_sym Li)) H) as (k & K1 & K2). rewrite Lj in K1. rewrite !Cell in K2 by lia.
      exists (fcol P m q (colk k)). split; auto. apply (nth_error_In _ k). now apply Hk.
    + destruct H as (c & Hc' & Ne). apply In_nth_error in Hc' as [k Hc']. apply Hk in Hc' as [L ->]. rewrite <- row_eq_Forall2, (row_eq_iff P He). intros E. apply Ne.
      rewrite <- !Cell by lia. now rewrite E.
Qed.
Lemma csv_read path h ls arff : extension path = "csv"%string ->
  let header := fields (strip h) in
  NoDup header -> Forall (fun l => length (fields (strip l)) = length header) ls ->
  (In "class"%string header \/ exists l t, In l ls /\ In t (fields (strip l)) /\ v_eval P (v_text P t) <> None) ->
  exists la, (if String.eqb (extension path) "arff" then read_arff P arff else if String.eqb (extension path) "csv" then read_csv P (h :: ls) else Err (EExc ""))
    = Ok (colsof P header (map (fun l => map (fun t => ev P (v_text P t)) (fields (strip l))) ls), la) /\ (In "class"%string header \/ In la header).
Proof.
  intros Hx header ND HL Hc. destruct (read_good h ls ND HL) as (la & R & _ & Hla). exists la. rewrite Hx. cbn [String.eqb Ascii.eqb Bool.eqb]. split; auto.
  destruct Hc as [Hc|Hc]; auto.
Qed.
(** otherwise (different column names, every row complete, hashable values) all rows
    are loaded, evaluated, without repetitions *)
Theorem C68_loaded : forall path h ls arff m (q : F), extension path = "csv"%string ->
  let header := fields (strip h) in
  NoDup header -> Forall (fun l => length (fields (strip l)) = length header) ls ->
  (forall l t, In l ls -> In t (fields (strip l)) -> v_hash P (ev P (v_text P t)) = true) ->
  (In "class"%string header \/ exists l t, In l ls /\ In t (fields (strip l)) /\ v_eval P (v_text P t) <> None) ->
  exists fr, load_dataset P path (h :: ls) arff false m q = Ok fr /\
    loaded_plain header (map (fun l => map (fun t => ev P (v_text P t)) (fields (strip l))) ls) fr.
Proof.
  intros path h ls arff m q Hx header ND HL Hh Hc. destruct (csv_read path h ls arff Hx ND HL Hc) as (la & R & Hla). fold header in R, Hla.
  set (rows := map (fun l => map (fun t => ev P (v_text P t)) (fields (strip l))) ls) in *.
  assert (Lr : Forall (fun r => length r = length header) rows).
  { apply Forall_forall. intros r Hr. apply in_map_iff in Hr as (l & <- & Hl). rewrite map_length. rewrite Forall_forall in HL. auto. }
  assert (Hr : Forall (Forall (fun v => v_hash P v = true)) rows).
  { apply Forall_forall. intros r Hr. apply in_map_iff in Hr as (l & <- & Hl). apply Forall_forall. intros v Hv. apply in_map_iff in Hv as (t & <- & Ht). now apply (Hh l t). }
  rewrite (after_read path arff (h :: ls) header rows la false m q) by (auto; apply fields_nonempty).
  destruct (plain_ok header rows (fields_nonempty _) Lr Hr) as (fr & E & H). exists fr. split; [|exact H]. exact (after_ok _ _ _ E).
Qed.
(** with factorize=True the columns are coded first *)
Theorem C68_factorized : forall dec path h ls arff m (q : F), extension path = "csv"%string ->
  (forall a b, v_eq P a b = true <-> a = b) -> (forall z, v_hash P (v_code P z) = true) -> neqb (nat2F (length ls)) n0 = false -> ls <> [] ->
  let header := fields (strip h) in
  NoDup header -> Forall (fun l => length (fields (strip l)) = length header) ls ->
  (forall l t, In l ls -> In t (fields (strip l)) -> v_hash P (ev P (v_text P t)) = true) ->
  (In "class"%string header \/ exists l t, In l ls /\ In t (fields (strip l)) /\ v_eval P (v_text P t) <> None) ->
  exists fr, load_dataset P path (h :: ls) arff true m q = Ok fr /\
    loaded_factored dec m q header (map (fun l => map (fun t => ev P (v_text P t)) (fields (strip l))) ls) fr.
Proof.
  intros dec path h ls arff m q Hx He Hcd Hz Hn header ND HL Hh Hc. destruct (csv_read path h ls arff Hx ND HL Hc) as (la & R & Hla). fold header in R, Hla.
  set (rows := map (fun l => map (fun t => ev P (v_text P t)) (fields (strip l))) ls) in *.
  assert (Lr : Forall (fun r => length r = length header) rows).
  { apply Forall_forall. intros r Hr. apply in_map_iff in Hr as (l & <- & Hl). rewrite map_length. rewrite Forall_forall in HL. auto. }
  assert (Hr : Forall (Forall (fun v => v_hash P v = true)) rows).
  { apply Forall_forall. intros r Hr. apply in_map_iff in Hr as (l & <- & Hl). apply Forall_forall. intros v Hv. apply in_map_iff in Hv as (t & <- & Ht). now apply (Hh l t). }
  rewrite (after_read path arff (h :: ls) header rows la true m q) by (auto; apply fields_nonempty).
  destruct (factored_ok dec m q header rows He Hcd) as (fr & E & H); auto; [unfold rows; now rewrite map_length|unfold rows; destruct ls; [congruence|discriminate]|apply fields_nonempty|]. exists fr. split; [|exact H]. exact (after_ok _ _ _ E).
Qed.
(** a parsed arff file: the same *)
Theorem C68_arff : forall dec path file header data m (q : F), extension path = "arff"%string ->
  header <> [] -> NoDup header -> Forall (fun r => length r = length header) data ->
  (forall r x, In r data -> In x r -> v_hash P (ev P x) = true) ->
  (In "class"%string header \/ exists r x, In r data /\ In x r /\ v_eval P x <> None) ->
  (exists fr, load_dataset P path file (Ok (header, data)) false m q = Ok fr /\ loaded_plain header (map (map (ev P)) data) fr) /\
  ((forall a b, v_eq P a b = true <-> a = b) -> (forall z, v_hash P (v_code P z) = true) -> neqb (nat2F (length data)) n0 = false -> data <> [] ->
   exists fr, load_dataset P path file (Ok (header, data)) true m q = Ok fr /\ loaded_factored dec m q header (map (map (ev P)) data) fr).
Proof.
  intros dec path file header data m q Hx Hne ND HL Hh Hc.
  destruct (empty_columns_spec (V := V) header) as (E1 & E2 & E3 & E4).
  set (rows := map (map (ev P)) data).
  assert (Lr : Forall (fun r => length r = length header) rows).
  { apply Forall_forall. intros r Hr. apply in_map_iff in Hr as (l & <- & Hl). rewrite map_length. rewrite Forall_forall in HL. auto. }
  assert (Hr : Forall (Forall (fun v => v_hash P v = true)) rows).
  { apply Forall_forall. intros r Hr. apply in_map_iff in Hr as (l & <- & Hl). apply Forall_forall. intros v Hv. apply in_map_iff in Hv as (t & <- & Ht). now apply (Hh l t). }
  assert (R : exists la, read_arff P (Ok (header, data)) = Ok (colsof P header rows, la) /\ (In "class"%string header \/ In la header)).
  { eexists. split.
    - unfold read_arff. cbn [rbind]. rewrite (arff_rows P header data _ _ E1 (fun a Ha => proj2 (E3 a) Ha) HL). rewrite (filled P); auto.
    - destruct Hc as [Hc|(r & x & H1 & H2 & H3)]; auto. right. apply arff_last; auto. right. exists r. split; auto. exists x. auto. }
  destruct R as (la & R & Hla).
  assert (R' : (if String.eqb (extension path) "arff" then read_arff P (Ok (header, data)) else if String.eqb (extension path) "csv" then read_csv P file else Err (EExc "")) = Ok (colsof P header rows, la)).
  { rewrite Hx. cbn [String.eqb Ascii.eqb Bool.eqb]. exact R. }
  split.
  - rewrite (after_read path _ file header rows la false m q) by auto. destruct (plain_ok header rows Hne Lr Hr) as (fr & E & H). exists fr. split; [|exact H]. exact (after_ok _ _ _ E).
  - intros He Hcd Hz Hn. rewrite (after_read path _ file header rows la true m q) by auto.
    destruct (factored_ok dec m q header rows He Hcd) as (fr & E & H); auto; [unfold rows; now rewrite map_length|unfold rows; destruct data; [congruence|discriminate]|]. exists fr. split; [|exact H]. exact (after_ok _ _ _ E).
Qed.
(** the extension decides how the file is read; other files are rejected *)
Theorem C68_extension : forall path e, extension path = e <-> path_end path e.
Proof. exact extension_iff. Qed.
Theorem C68_unknown_format : forall path e file arff factor m (q : F), path_end path e ->
  e <> "csv"%string -> e <> "arff"%string -> load_dataset P path file arff factor m q = Err (EExc "Unknown dataset format").
Proof.
  intros path e file arff factor m q He H1 H2. apply extension_iff in He as <-. unfold load_dataset. apply String.eqb_neq in H1, H2. now rewrite H1, H2.
Qed.
End Load.
Print Assumptions C57_fields.
Print Assumptions C57_strip.
Print Assumptions C57_rows_whole.
Print Assumptions C57_factorized.
Print Assumptions C57_codes_faithful.
Print Assumptions C57_uneven_names.
Print Assumptions C68_all_or_nothing.
Print Assumptions C68_text_only_refuted.
Print Assumptions C68_loaded.
Print Assumptions C68_factorized.
Print Assumptions C68_arff.
Print Assumptions C68_extension.
Print Assumptions C68_unknown_format.

(** ** The hypotheses can be met *)
Inductive pv : Type := PS (s : string) | PI (z : Z).
Definition Pv : values pv := mkValues pv PS PI
  (fun x => match x with PS "1" => Some (PI 1) | PS "2" => Some (PI 2) | _ => None end)
  (fun x => match x with PS _ => true | _ => false end) (fun x => match x with PI _ => true | _ => false end)
  (fun _ => true) (fun _ => false)
  (fun x y => match x, y with PS s, PS t => String.eqb s t | PI a, PI b => Z.eqb a b | _, _ => false end).
Example C57_example : text_values Pv /\
  load_csv_dataset Pv ["a,b "; "x,y"; "x,y,z"; " u,y"; "x,y"; ""]%string "ds" false =
    Ok (mkFrame [0; 1] [("a"%string, [PS "x"; PS "u"]); ("b"%string, [PS "y"; PS "y"])]) /\
  load_csv_dataset Pv ["a,b "; "x,y"; "x,y,z"; " u,y"; "x,y"; ""]%string "ds" true =
    Ok (mkFrame [0; 1] [("a"%string, [PI 0; PI 1]); ("b"%string, [PI 0; PI 0])]).
Proof. split; [intros s; repeat split|]. split; vm_compute; reflexivity. Qed.
Example C57_uneven_example : load_csv_dataset Pv ["a,b,a"; "x,y,z"]%string "ds" false = Err (EExc "ds value error").
Proof. vm_compute. reflexivity. Qed.
(** when all names are repeated equally often, rows are silently torn apart *)
Theorem C57_even_names_refuted : exists h l fr, load_csv_dataset Pv [h; l] "ds" false = Ok fr /\ length (fields (strip l)) = 2 /\
  fr_cols fr = [("a"%string, [PS "x"; PS "y"])] /\ fields (strip h) = ["a"; "a"]%string.
Proof. exists "a,a"%string, "x,y"%string. eexists. split; [vm_compute; reflexivity|]. vm_compute. auto. Qed.
Print Assumptions C57_even_names_refuted.
Example C68_example : extension "data/iris.csv" = "csv"%string /\
  load_dataset (F := Q) Pv "data/iris.csv" ["a,b"; "1,y"; "2,y"; "1,y"]%string (Err EUndef) false 10 (1 # 5)%Q =
    Ok (mkFrame [0; 1] [("a"%string, [PI 1; PI 2]); ("b"%string, [PS "y"; PS "y"])]) /\
  load_dataset (F := Q) Pv "data/iris.csv" ["a,b"; "1,y"; "2"]%string (Err EUndef) false 10 (1 # 5)%Q = Err (EExc "Unknown dataset format") /\
  load_dataset (F := Q) Pv "data/iris.csv" ["a,b"; "x,y"; "u,y"]%string (Err EUndef) false 10 (1 # 5)%Q = Err (EKey "").
Proof. vm_compute. auto. Qed.
Example C68_factorized_example : path_end "a/b.c/data.arff" "arff" /\ path_end "d.x/data" "data" /\
  (forall a b, v_eq Pv a b = true <-> a = b) /\ (forall z, v_hash Pv (v_code Pv z) = true) /\
  load_dataset (F := Q) Pv "iris.csv" ["a,b"; "1,y"; "2,y"; "1,y"; "2,z"]%string (Err EUndef) true 10 (1 # 5)%Q =
    Ok (mkFrame [0; 1; 3] [("a"%string, [PI 0; PI 1; PI 1]); ("b"%string, [PI 0; PI 0; PI 1])]) /\
  load_dataset (F := Q) Pv "iris.csv" ["a,b"; "1,y"; "2,y"; "1,y"; "2,z"]%string (Err EUndef) true 1 (1 # 2)%Q =
    Ok (mkFrame [0; 1; 3] [("a"%string, [PI 1; PI 2; PI 2]); ("b"%string, [PI 0; PI 0; PI 1])]) /\
  load_dataset (F := Q) Pv "d/iris.arff" [] (Ok (["a"; "b"]%string, [[PS "1"; PS "y"]; [PS "2"; PS "y"]])) false 1 (1 # 2)%Q =
    Ok (mkFrame [0; 1] [("a"%string, [PI 1; PI 2]); ("b"%string, [PS "y"; PS "y"])]).
Proof.
  split; [apply extension_iff; reflexivity|]. split; [apply extension_iff; reflexivity|]. split.
  { intros [s|z] [t|y]; cbn; try (split; discriminate); [rewrite String.eqb_eq|rewrite Z.eqb_eq]; split; congruence. }
  split; [reflexivity|]. vm_compute. auto.
Qed.
