(** FcmVec.v — facts about the vectorized engine: its buffer and its stop rule. *)
From Verif Require Import Base BaseFacts Num Functions Fcm FcmSpec VecSpec.

Section Buf.
Context {F : Type} {N : Num F}.
Implicit Types (buf col : list F).

Definition wcol (m a k : nat) col buf : list F :=
  fold_left (fun b iy => upd b (fst iy * m + k) (snd iy)) (combine (seq a (length col)) col) buf.
Lemma wcol_length m a k col buf : length (wcol m a k col buf) = length buf.
Proof.
  unfold wcol. revert a buf. induction col as [|y col IH]; intros a buf; cbn; auto.
  rewrite IH. apply upd_length.
Qed.
Lemma wcol_nth m a k col buf p : 1 <= m -> p < length buf ->
  nth p (wcol m a k col buf) n0 =
    match (p - k) / m - a with
    | q => if (Nat.leb k p && Nat.eqb ((p - k) mod m) 0 && Nat.leb a ((p - k) / m) && Nat.ltb q (length col))%bool
           then nth q col n0 else nth p buf n0
    end.
Proof.
  intros Hm. unfold wcol. revert a buf. induction col as [|y col IH]; intros a buf Hp; cbn [combine seq length fold_left fst snd].
  - rewrite Bool.andb_comm. reflexivity.
  - rewrite IH by now rewrite upd_length. rewrite nth_upd.
    pose proof (Nat.div_mod (p - k) m ltac:(lia)) as DM. pose proof (Nat.mod_upper_bound (p - k) m ltac:(lia)).
    destruct (Nat.leb_spec k p) as [Hk|Hk]; cbn [andb].
    2:{ destruct (Nat.eqb_spec p (a * m + k)); [lia|]. reflexivity. }
    destruct (Nat.eqb_spec ((p - k) mod m) 0) as [Hr|Hr]; cbn [andb].
    2:{ destruct (Nat.eqb_spec p (a * m + k)) as [E|]; [|reflexivity]. exfalso. apply Hr. subst p.
        replace (a * m + k - k) with (a * m) by lia. apply Nat.mod_mul. lia. }
    set (q := (p - k) / m) in *. assert (Pq : p = q * m + k) by lia.
    destruct (Nat.leb_spec a q) as [Ha|Ha]; destruct (Nat.leb_spec (S a) q) as [Ha'|Ha']; try lia; cbn [andb].
    + replace (q - a) with (S (q - S a)) by lia. cbn [nth].
      change (Nat.ltb (S (q - S a)) (S (length col))) with (Nat.ltb (q - S a) (length col)).
      destruct (Nat.ltb_spec (q - S a) (length col)); [reflexivity|].
      destruct (Nat.eqb_spec p (a * m + k)) as [E|]; [|reflexivity]. exfalso. nia.
    + assert (q = a) by lia. replace (q - a) with 0 by lia. cbn [nth Nat.ltb Nat.leb].
      destruct (Nat.eqb_spec p (a * m + k)) as [E|E]; [|exfalso; nia].
      rewrite E in Hp. apply Nat.ltb_lt in Hp. unfold Nat.ltb in *. cbn [Nat.leb] in Hp |- *. rewrite Hp. reflexivity.
    + destruct (Nat.eqb_spec p (a * m + k)) as [E|]; [|reflexivity]. exfalso. nia.
Qed.

Lemma read_wcol m k col buf i j : 1 <= m -> k <= m -> j < m -> (i * m + j < length buf) ->
  buf_read m (wcol m 0 k col buf) i j =
    if Nat.eqb k m then (if Nat.eqb j 0 && Nat.ltb 0 i && Nat.ltb (i - 1) (length col) then nth (i - 1) col n0 else buf_read m buf i j)%bool
    else (if Nat.eqb j k && Nat.ltb i (length col) then nth i col n0 else buf_read m buf i j)%bool.
Proof.
  intros Hm Hk Hj Hp. unfold buf_read. rewrite wcol_nth by auto. rewrite Nat.sub_0_r, Bool.andb_true_r.
  destruct (Nat.eqb_spec k m) as [->|Hkm].
  - destruct i as [|i].
    + destruct (Nat.leb_spec m (0 * m + j)); [lia|]. cbn [andb]. rewrite Bool.andb_false_r. reflexivity.
    + destruct (Nat.leb_spec m (S i * m + j)); [|lia].
      replace (S i * m + j - m) with (j + i * m) by lia.
      rewrite Nat.mod_add, Nat.div_add, Nat.mod_small, Nat.div_small by lia. cbn [andb Nat.ltb Nat.leb].
      replace (S i - 1) with i by lia. rewrite Bool.andb_true_r. reflexivity.
  - destruct (Nat.leb_spec k (i * m + j)) as [H|H]; cbn [andb].
    + destruct (Nat.eqb_spec j k) as [->|Hjk].
      * replace (i * m + k - k) with (i * m) by lia. rewrite Nat.mod_mul, Nat.div_mul by lia. reflexivity.
      * cbn [andb]. destruct (Nat.eqb_spec ((i * m + j - k) mod m) 0) as [E|]; [|reflexivity].
        exfalso. pose proof (Nat.div_mod (i * m + j - k) m ltac:(lia)) as DM. rewrite E in DM.
        set (q := (i * m + j - k) / m) in *. assert (i * m + j = q * m + k) by lia.
        assert (i = q) by (destruct (Nat.lt_trichotomy i q) as [|[|]]; [nia|auto|nia]). nia.
    + destruct (Nat.eqb_spec j k) as [->|]; [lia|reflexivity].
Qed.
(** the model's write loop, column by column *)
Lemma write_fold m k (ys : list (F * F)) buf oob a n : length ys = n ->
  fold_left (fun (bo : list F * bool) iy => buf_write m (fst bo) (snd bo) (fst iy) k (fst (snd iy)))
    (combine (seq a n) ys) (buf, oob) =
  (wcol m a k (map fst ys) buf, (oob || (negb (Nat.eqb n 0) && negb (Nat.ltb k m)))%bool).
Proof.
  intros <-. unfold wcol. rewrite map_length. revert a buf oob. induction ys as [|y ys IH]; intros a buf oob; cbn [fold_left combine seq length map fst snd].
  - now rewrite Bool.orb_false_r.
  - match goal with |- fold_left _ _ ?b = _ => change b with (upd buf (a * m + k) (fst y), orb oob (negb (Nat.ltb k m))) end.
    rewrite IH. f_equal. generalize (Nat.ltb k m). intros b. destruct ys, oob, b; reflexivity.
Qed.
Lemma write_fold0 m k (ys : list F) buf oob a n : length ys = n ->
  fold_left (fun (bo : list F * bool) iy => buf_write m (fst bo) (snd bo) (fst iy) k (snd iy))
    (combine (seq a n) ys) (buf, oob) =
  (wcol m a k ys buf, (oob || (negb (Nat.eqb n 0) && negb (Nat.ltb k m)))%bool).
Proof.
  intros <-. unfold wcol. revert a buf oob. induction ys as [|y ys IH]; intros a buf oob; cbn [fold_left combine seq length map fst snd].
  - now rewrite Bool.orb_false_r.
  - match goal with |- fold_left _ _ ?b = _ => change b with (upd buf (a * m + k) y, orb oob (negb (Nat.ltb k m))) end.
    rewrite IH. f_equal. generalize (Nat.ltb k m). intros b. destruct ys, oob, b; reflexivity.
Qed.

(** ** The loop.  [node i st]: what is computed for position i from the (emitted) state [st]. *)
Section Loop.
Variables (functions : list Z) (func_args : list (list F)) (reduce : list F)
  (memory_usage avoid : list bool) (mat : list (list F)) (n m : nat) (min_diff : F) (extra : Z).
Notation node := (vec_node functions func_args reduce memory_usage avoid).
Notation loop := (vec_loop).
Notation emit := (emit avoid).
Notation vstep := (vstep functions func_args reduce memory_usage avoid mat n).
Notation small := (small min_diff).
Notation calm := (calm min_diff extra).
Notation holds := (holds n m).
Notation vec_result := (vec_result functions func_args reduce memory_usage avoid mat n m min_diff extra).
Lemma emit_snd st ys : length avoid = n -> rmap (node st mat) (seq 0 n) = Ok ys -> map snd ys = emit (map fst ys).
Proof.
  intros La H. pose proof (rmap_ok_length _ _ _ H) as Ly. rewrite seq_length in Ly.
  apply rmap_ok_Forall2 in H. unfold VecSpec.emit. apply list_eq_nth with (d := n0).
  - rewrite !map_length, combine_length, map_length. lia.
  - rewrite map_length. intros i Hi. 
    rewrite (nth_indep _ n0 (snd (n0, n0))) by (rewrite map_length; lia). rewrite map_nth.
    rewrite (nth_indep _ n0 ((fun sa : F * bool => if snd sa then nsub (nmul n2 (fst sa)) n1 else fst sa) (n0, false)))
      by (rewrite map_length, combine_length, map_length; lia).
    rewrite (map_nth (fun sa : F * bool => if snd sa then nsub (nmul n2 (fst sa)) n1 else fst sa)).
    rewrite combine_nth by (rewrite map_length; lia). cbn [fst snd].
    rewrite (nth_indep (map fst ys) n0 (fst (n0, n0))) by (rewrite map_length; lia). rewrite map_nth.
    assert (Hn : node st mat i = Ok (nth i ys (n0, n0))).
    { clear -H Hi Ly. revert i Hi. 
      assert (G : forall l zs, Forall2 (fun a b => node st mat a = Ok b) l zs -> forall i, i < length zs -> node st mat (nth i l 0) = Ok (nth i zs (n0, n0))).
      { induction 1; intros i Hi; [cbn in Hi; lia|]. destruct i; cbn; auto. apply IHForall2. cbn in Hi. lia. }
      intros i Hi. specialize (G _ _ H i Hi). rewrite seq_nth in G by lia. exact G. }
    unfold vec_node in Hn. apply rbind_ok in Hn as (y & _ & E). injection E as E. rewrite <- E. reflexivity.
Qed.
Lemma rmap_vstep v ys : length avoid = n -> rmap (node (emit v) mat) (seq 0 n) = Ok ys -> vstep v (map fst ys).
Proof.
  intros La H. pose proof (rmap_ok_length _ _ _ H) as Ly. rewrite seq_length in Ly.
  apply rmap_ok_Forall2 in H. split; [now rewrite map_length|]. intros i Hi. exists (snd (nth i ys (n0, n0))).
  rewrite (nth_indep _ n0 (fst (n0, n0))) by (rewrite map_length; lia). rewrite map_nth.
  assert (G : forall l zs, Forall2 (fun a b => node (emit v) mat a = Ok b) l zs -> forall i, i < length zs -> node (emit v) mat (nth i l 0) = Ok (nth i zs (n0, n0))).
  { induction 1; intros i' Hi'; [cbn in Hi'; lia|]. destruct i'; cbn; auto. apply IHForall2. cbn in Hi'. lia. }
  specialize (G _ _ H i ltac:(lia)). rewrite seq_nth in G by lia. cbn [Nat.add] in G. rewrite G. now destruct (nth i ys (n0, n0)).
Qed.

Lemma holds_write vs k buf col : 1 <= m -> S k <= m -> length col = n -> vs (S k) = col ->
  holds vs k buf -> holds vs (S k) (wcol m 0 (S k) col buf).
Proof.
  intros Hm Hk Hc Hv [HL HB]. split; [now rewrite wcol_length|]. intros i j Hi Hj.
  rewrite read_wcol; auto; [|rewrite HL; nia]. rewrite (HB i j Hi Hj).
  replace (Nat.leb m k) with false by (symmetry; apply Nat.leb_gt; lia). rewrite Bool.andb_false_r.
  rewrite Hc.
  destruct (Nat.eqb_spec (S k) m) as [E|E].
  - rewrite (proj2 (Nat.leb_le m (S k))) by lia. rewrite Bool.andb_true_r.
    destruct (Nat.eqb_spec j 0) as [->|]; cbn [andb].
    + destruct (Nat.ltb_spec 0 i); cbn [andb].
      * destruct (Nat.ltb_spec (i - 1) n); [|lia]. now rewrite <- E, Hv.
      * reflexivity.
    + rewrite (proj2 (Nat.leb_le j k)), (proj2 (Nat.leb_le j (S k))) by lia. reflexivity.
  - rewrite (proj2 (Nat.leb_gt m (S k))) by lia. rewrite Bool.andb_false_r.
    destruct (Nat.eqb_spec j (S k)) as [->|Hjk]; cbn [andb].
    + destruct (Nat.ltb_spec i n); [|lia]. rewrite Nat.leb_refl. now rewrite Hv.
    + destruct (Nat.leb_spec j k), (Nat.leb_spec j (S k)); try lia; reflexivity.
Qed.
Lemma map_read_col vs k buf j : holds vs k buf -> length (vs j) = n -> j <= k -> j < m -> (j = 0 -> k < m) ->
  map (fun i => buf_read m buf i j) (seq 0 n) = vs j.
Proof.
  intros [_ HB] Lv Hk Hj H0. apply list_eq_nth with (d := n0).
  - now rewrite map_length, seq_length.
  - rewrite map_length, seq_length. intros i Hi.
    rewrite (nth_indep _ n0 (buf_read m buf 0 j)) by now rewrite map_length, seq_length.
    rewrite (map_nth (fun i => buf_read m buf i j) (seq 0 n) 0 i). rewrite seq_nth by auto. cbn.
    rewrite HB by auto. destruct (Nat.eqb_spec j 0).
    + rewrite (proj2 (Nat.leb_gt m k)) by auto. rewrite Bool.andb_false_r. now rewrite (proj2 (Nat.leb_le j k)).
    + cbn [andb]. now rewrite (proj2 (Nat.leb_le j k)).
Qed.

Definition vs_ext (vs vs' : nat -> list F) (k : nat) := forall j, j <= k -> vs j = vs' j.
Lemma holds_ext vs vs' k buf : vs_ext vs vs' k -> k < m -> holds vs k buf -> holds vs' k buf.
Proof.
  intros E Hk [HL HB]. split; auto. intros i j Hi Hj. rewrite HB by auto.
  rewrite (proj2 (Nat.leb_gt m k)) by auto. rewrite Bool.andb_false_r.
  destruct (Nat.leb_spec j k); [now rewrite E|reflexivity].
Qed.
(** [r]: number of steps at the end that were all calm *)
Definition run_len (vs : nat -> list F) (k r : nat) : Prop :=
  r <= k /\ (forall i, k - r < i <= k -> small vs i = true) /\ (r = k \/ small vs (k - r) = false).
Lemma small_ext vs vs' k j : vs_ext vs vs' k -> j <= k -> small vs j = small vs' j.
Proof. intros E H. unfold VecSpec.small. rewrite E, (E (j - 1)) by lia. reflexivity. Qed.
Lemma run_len_ext vs vs' k r : vs_ext vs vs' k -> run_len vs k r -> run_len vs' k r.
Proof.
  intros E (H1 & H2 & H3). split; auto. split.
  - intros i Hi. rewrite <- (small_ext vs vs' k) by (auto; lia). now apply H2.
  - destruct H3 as [|H3]; auto. right. rewrite <- (small_ext vs vs' k) by (auto; lia). exact H3.
Qed.
Lemma calm_ext vs vs' k j : vs_ext vs vs' k -> j <= k -> calm vs j -> calm vs' j.
Proof. intros E Hj [H1 H2]. split; auto. intros i Hi. rewrite <- (small_ext vs vs' k) by (auto; lia). now apply H2. Qed.

Lemma vec_loop_spec fuel v0 vs k st buf oob it ec r res :
  length avoid = n -> 1 <= m -> (1 <= extra)%Z ->
  vs 0 = v0 -> length (vs 0) = n -> (forall j, j < k -> vstep (vs j) (vs (S j))) ->
  st = emit (vs k) -> holds vs k buf -> oob = false -> k < m ->
  (it = Z.of_nat m - Z.of_nat k)%Z -> run_len vs k r -> (Z.of_nat r < extra)%Z -> (ec = extra - Z.of_nat r)%Z ->
  (forall j, 1 <= j <= k -> ~ calm vs j) ->
  vec_loop fuel functions func_args reduce memory_usage avoid mat n m min_diff extra st buf oob it ec (S k) = Ok res ->
  exists vs' L, vec_result v0 res vs' L.
Proof.
  intros La Hm He. revert vs k st buf oob it ec r.
  induction fuel as [|fuel IH]; intros vs k st buf oob it ec r V0 LV VS Est HB Eo Hk Eit HR Hr Eec HC; cbn [vec_loop]; [discriminate|].
  intros H. apply rbind_ok in H as (ys & Hys & H). subst st oob ec it.
  pose proof (rmap_ok_length _ _ _ Hys) as Ly. rewrite seq_length in Ly.
  pose proof (rmap_vstep _ _ La Hys) as HS. pose proof (emit_snd _ _ La Hys) as HE.
  rewrite (write_fold m (S k) ys buf false 0 n Ly) in H. cbn [orb] in H.
  set (w := map fst ys) in *. set (vs' := fun j => if Nat.leb j k then vs j else w).
  assert (EX : vs_ext vs vs' k). { intros j Hj. unfold vs'. now rewrite (proj2 (Nat.leb_le j k)). }
  assert (Vk : vs' (S k) = w). { unfold vs'. now rewrite (proj2 (Nat.leb_gt (S k) k)) by lia. }
  assert (Lw : length w = n) by apply HS.
  assert (LVk : forall j, j <= S k -> length (vs' j) = n).
  { intros j Hj. destruct (Nat.eq_dec j (S k)) as [->|]; [now rewrite Vk|]. rewrite <- EX by lia.
    destruct j; [exact LV|]. now destruct (VS j ltac:(lia)) as [-> _]. }
  assert (VS' : forall j, j < S k -> vstep (vs' j) (vs' (S j))).
  { intros j Hj. destruct (Nat.eq_dec j k) as [->|].
    - rewrite Vk, <- (EX k) by lia. exact HS.
    - rewrite <- (EX j), <- (EX (S j)) by lia. apply VS. lia. }
  pose proof (holds_write vs' k buf w Hm Hk Lw Vk (holds_ext _ _ _ _ EX Hk HB)) as HB'.
  set (buf' := wcol m 0 (S k) w buf) in *.
  change (S (S k) - 1) with (S k - 0) in H. rewrite Nat.sub_0_r in H. replace (S (S k) - 2) with k in H by lia.
  set (lastit := (Z.of_nat m - Z.of_nat k - 1 <=? 0)%Z) in *.
  set (diff := nltb _ min_diff) in H.
  assert (Hdiff : S k < m -> diff = small vs' (S k)).
  { intros HSk. unfold diff, VecSpec.small. rewrite (map_read_col vs' (S k) buf' (S k) HB'), (map_read_col vs' (S k) buf' k HB') by (try apply LVk; lia).
    replace (S k - 1) with k by lia. reflexivity. }
  assert (V0' : vs' 0 = v0) by (rewrite <- EX by lia; exact V0).
  assert (HC' : forall j, 1 <= j <= k -> ~ calm vs' j).
  { intros j Hj Hc. apply (HC j Hj). apply (calm_ext vs' vs k); auto; [|lia]. intros i Hi. symmetry. now apply EX. }
  destruct lastit eqn:Elast; unfold lastit in Elast.
  - apply Z.leb_le in Elast. assert (m = S k) by lia. cbn [negb] in H.
    assert (Hres : res = (buf', (negb (Nat.eqb n 0) && negb (Nat.ltb (S k) m))%bool, S (S k))).
    { destruct diff; cbn [andb] in H; [destruct (_ =? 0)%Z in H|]; congruence. }
    exists vs', (S k). subst res. split; cbn [fst snd]; auto; try lia.
    + rewrite Nat.ltb_antisym, Bool.negb_involutive. reflexivity.
    + intros j Hj. apply HC'. lia.
  - apply Z.leb_gt in Elast. assert (HSk : S k < m) by lia. specialize (Hdiff HSk). cbn [negb] in H.
    assert (HO : (negb (Nat.eqb n 0) && negb (Nat.ltb (S k) m))%bool = false).
    { rewrite (proj2 (Nat.ltb_lt (S k) m)) by lia. apply Bool.andb_false_r. }
    rewrite HO in H.
    pose proof (run_len_ext _ _ _ _ EX HR) as HR'. destruct HR' as (R1 & R2 & R3).
    destruct diff eqn:Ed; cbn [andb] in H.
    + assert (HRn : run_len vs' (S k) (S r)).
      { split; [lia|]. split.
        - intros i Hi. destruct (Nat.eq_dec i (S k)) as [->|]; [now rewrite <- Hdiff|]. apply R2. lia.
        - destruct R3 as [->|R3]; auto. }
      destruct (Z.eqb_spec (extra - Z.of_nat r - 1) 0) as [Ez|Ez].
      * injection H as <-. exists vs', (S k). split; cbn [fst snd]; auto; try lia.
        -- rewrite (proj2 (Nat.leb_gt m (S k))) by lia. symmetry. apply Bool.andb_false_r.
        -- intros _. destruct HRn as (Q1 & Q2 & _). split; [lia|]. intros i Hi. apply Q2. lia.
        -- intros j Hj. apply HC'. lia.
      * apply (IH vs' (S k) (map snd ys) buf' false (Z.of_nat m - Z.of_nat k - 1)%Z (extra - Z.of_nat r - 1)%Z (S r)); auto; try lia.
        -- rewrite Vk. exact HE.
        -- intros j Hj Hc. destruct (Nat.eq_dec j (S k)) as [->|]; [|apply (HC' j); auto; lia].
           destruct HRn as (Q1 & Q2 & Q3). destruct Hc as [C1 C2]. destruct Q3 as [Q3|Q3]; [lia|].
           rewrite C2 in Q3; [discriminate|lia].
    + apply (IH vs' (S k) (map snd ys) buf' false (Z.of_nat m - Z.of_nat k - 1)%Z extra 0); auto; try lia.
      * rewrite Vk. exact HE.
      * split; [lia|]. split; [intros; lia|]. right. now rewrite Nat.sub_0_r, <- Hdiff.
      * intros j Hj Hc. destruct (Nat.eq_dec j (S k)) as [->|]; [|apply (HC' j); auto; lia].
        destruct Hc as [C1 C2]. rewrite C2 in Hdiff; [discriminate|lia].
Qed.
End Loop.


Lemma vectorized_run_spec state mat functions func_args reduce mem avoid mx min_diff extra res :
  length avoid = length state -> (1 <= mx)%Z -> (1 <= extra)%Z ->
  vectorized_run state mat functions func_args reduce mem avoid mx min_diff extra = Ok res ->
  exists vs L, vec_result functions func_args reduce mem avoid mat (length state) (Z.to_nat mx) min_diff extra state res vs L.
Proof.
  intros La Hm He H. unfold vectorized_run in H. destruct (Z.ltb_spec mx 0); [lia|].
  set (m := Z.to_nat mx) in *. assert (Hm1 : 1 <= m) by lia.
  rewrite (write_fold0 m 0 state _ false 0 (length state) eq_refl) in H.
  rewrite (proj2 (Nat.ltb_lt 0 m)) in H by lia. cbn [negb] in H. rewrite Bool.andb_false_r in H. cbn [orb] in H.
  eapply (vec_loop_spec functions func_args reduce mem avoid mat (length state) m min_diff extra (S m) state (fun _ => state) 0 _ _ _ _ _ 0); [..|exact H]; auto; try lia.
  - split; [rewrite wcol_length; apply repeat_length|]. intros i j Hi Hj.
    assert (HL : i * m + j < length (repeat (n2 : F) (length state * m))) by (rewrite repeat_length; nia).
    rewrite read_wcol by (auto; lia). rewrite (proj2 (Nat.eqb_neq 0 m)) by lia.
    rewrite (proj2 (Nat.leb_gt m 0)) by lia. rewrite Bool.andb_false_r.
    rewrite (proj2 (Nat.ltb_lt i (length state))) by auto. rewrite Bool.andb_true_r.
    destruct j; cbn; [reflexivity|]. unfold buf_read. rewrite (nth_indep _ n0 n2) by exact HL. apply nth_repeat.
  - split; [lia|]. split; [intros; lia|auto].
Qed.
End Buf.
