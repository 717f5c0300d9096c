(** AssocNames.v — concept names and their parts. *)
From Coq Require Import DecimalString DecimalFacts DecimalPos DecimalZ.
From Verif Require Import Base BaseFacts Num Functions Fcm FcmSpec LoaderSpec JoinFacts LearnUtils LearnSpec LearnFacts Assoc AssocSpec AssocFacts.

(** ** Reading a name back *)
Notation "'sep3'" := "___".
Lemma us_split v d acc : ~ occurs sep3 (append v "__") ->
  split_go sep3 (append v (append sep3 d)) acc 0 = append acc v :: split_go sep3 d "" 0.
Proof.
  revert acc. induction v as [|c v IH]; intros acc H.
  - rewrite append_nil'. change (append "" (append sep3 d)) with (String "_" (append "__" d)).
    cbn [split_go]. replace (prefix sep3 (String "_" (append "__" d))) with true.
    + reflexivity.
    + symmetry. apply prefix_iff. now exists d.
  - change (append (String c v) (append sep3 d)) with (String c (append v (append sep3 d))). cbn [split_go].
    destruct (prefix sep3 (String c (append v (append sep3 d)))) eqn:E.
    + exfalso. apply prefix_iff in E as [b E]. apply H.
      assert (X : append (append (String c v) "__") (append "_" d) = append sep3 b).
      { rewrite append_assoc'. exact E. }
      apply append_split in X as [b' X]; [|rewrite length_append; cbn; lia]. exists "", b'. exact X.
    + rewrite IH.
      * rewrite append_assoc'. reflexivity.
      * intros X. apply H. cbn. now apply occurs_tail.
Qed.
Lemma parse_ok v f : ~ occurs sep3 (append v "__") -> ~ occurs sep3 f -> split_go sep3 (append v (append sep3 f)) "" 0 = [v; f].
Proof. intros H1 H2. rewrite us_split by auto. now rewrite split_none. Qed.
Lemma parse_only v f : nth_error (split_go sep3 (append v (append sep3 f)) "" 0) 0 = Some v ->
  nth_error (split_go sep3 (append v (append sep3 f)) "" 0) 1 = Some f -> ~ occurs sep3 (append v "__") /\ ~ occurs sep3 f.
Proof.
  intros H0 H1.
  assert (A : ~ occurs sep3 (append v "__")).
  { intros (a & b & E). assert (X : append v (append sep3 f) = append a (append sep3 (append b (append "_" f)))).
    { change (append sep3 f) with (append "__" (append "_" f)). rewrite <- append_assoc', E, !append_assoc'. reflexivity. }
    rewrite X in H0. destruct (split_first_short sep3 a (append b (append "_" f)) "") as (p & l & Hp & Hl & _); [discriminate|].
    rewrite Hp in H0. cbn in H0. injection H0 as ->. apply (f_equal String.length) in E. rewrite !length_append in E. cbn in E, Hl. lia. }
  split; auto. intros (a & b & E). rewrite us_split in H1 by auto. cbn in H1.
  destruct (split_first_short sep3 a b "") as (p & l & Hp & Hl & _); [discriminate|]. rewrite <- E in Hp. rewrite Hp in H1. cbn in H1. injection H1 as ->.
  apply (f_equal String.length) in E. rewrite !length_append in E. cbn in E, Hl. lia.
Qed.
Fixpoint last_char (s : string) : option ascii :=
  match s with EmptyString => None | String c t => match last_char t with None => Some c | x => x end end.
Lemma last_char_spec s c : last_char s = Some c <-> exists u, s = append u (String c "").
Proof.
  revert c. induction s as [|a s IH]; intros c; cbn.
  - split; [discriminate|]. intros (u & E). destruct u; discriminate.
  - destruct (last_char s) as [x|] eqn:E.
    + rewrite IH. split.
      * intros (u & ->). now exists (String a u).
      * intros (u & H). destruct u as [|b u]; cbn in H; [injection H as _ ->; discriminate|]. injection H as _ ->. eauto.
    + split.
      * intros [= ->]. destruct s as [|b s]; [now exists ""|]. cbn in E. destruct (last_char s); discriminate.
      * intros (u & H). destruct u as [|b u]; cbn in H; [now injection H as -> _|]. injection H as _ ->.
        assert (X : None = Some c) by (apply IH; eauto). discriminate.
Qed.
Lemma append_inj_l (a b c : string) : append a b = append a c -> b = c.
Proof. induction a; cbn; auto. intros [= H]. auto. Qed.
Lemma append_snoc_inj (a b : string) x y : append a (String x "") = append b (String y "") -> a = b /\ x = y.
Proof.
  revert b. induction a as [|c a IH]; intros [|d b]; cbn; intros H; injection H; auto.
  - intros E. destruct b; discriminate.
  - intros E. destruct a; discriminate.
  - intros E ->. apply IH in E as [-> ->]. auto.
Qed.
Lemma us_tail v : ~ occurs sep3 (append v "__") <-> ~ occurs sep3 v /\ forall u, v <> append u "_".
Proof.
  split.
  - intros H. split.
    + intros (a & b & ->). apply H. exists a, (append b "__"). now rewrite !append_assoc'.
    + intros u ->. apply H. exists u, "". now rewrite append_assoc'.
  - intros [H1 H2] (a & b & E).
    (* the last characters of both sides *)
    assert (L : forall s, s = "" \/ exists u c, s = append u (String c "")).
    { clear. induction s as [|c s [->|(u & d & ->)]]; [now left|right; now exists "", c|right; now exists (String c u), d]. }
    destruct (L b) as [->|(b1 & c1 & ->)].
    + change (append v "__") with (append v (append "_" "_")) in E. change (append sep3 "") with (append (append "_" "_") "_") in E.
      rewrite <- !append_assoc' in E. apply append_snoc_inj in E as [E _]. apply append_snoc_inj in E as [E _]. now apply (H2 a).
    + assert (E' : append (append v "_") "_" = append (append a (append sep3 b1)) (String c1 "")) by (rewrite !append_assoc' in *; exact E).
      apply append_snoc_inj in E' as [E1 _]. destruct (L b1) as [->|(b2 & c2 & ->)].
      * assert (E2 : append v "_" = append (append a "__") "_") by (rewrite append_assoc'; exact E1).
        apply append_snoc_inj in E2 as [E2 _]. apply (H2 (append a "_")). rewrite append_assoc'. exact E2.
      * assert (E2 : append v "_" = append (append a (append sep3 b2)) (String c2 "")) by (rewrite !append_assoc' in *; exact E1).
        apply append_snoc_inj in E2 as [E2 _]. apply H1. now exists a, b2.
Qed.

(** ** Numbers as text *)
Definition plain (c : ascii) : Prop := c <> "_"%char.
Fixpoint all_plain (s : string) : Prop := match s with EmptyString => True | String c t => plain c /\ all_plain t end.
Lemma uint_plain d : all_plain (NilEmpty.string_of_uint d).
Proof. induction d; cbn; auto; split; auto; discriminate. Qed.
Lemma int_plain z : all_plain (str_of_Z z).
Proof.
  unfold str_of_Z, NilZero.string_of_int, NilZero.string_of_uint. destruct (Z.to_int z) as [d|d].
  - destruct d; try (apply (uint_plain)); cbn; repeat split; discriminate.
  - split; [discriminate|]. destruct d; try (apply (uint_plain)); cbn; repeat split; discriminate.
Qed.
Lemma plain_app a b : all_plain (append a b) <-> all_plain a /\ all_plain b.
Proof. induction a; cbn; tauto. Qed.
Lemma plain_ok s : all_plain s -> ~ occurs sep3 (append s "__").
Proof.
  intros H. apply us_tail. split.
  - intros (a & b & ->). rewrite !plain_app in H. destruct H as (_ & H & _). cbn in H. now destruct H as [H _].
  - intros u ->. rewrite plain_app in H. destruct H as [_ H]. cbn in H. now destruct H as [H _].
Qed.
Lemma str_of_Z_inj z z' : str_of_Z z = str_of_Z z' -> z = z'.
Proof.
  unfold str_of_Z. intros H. apply (f_equal NilZero.int_of_string) in H.
  assert (X : forall z, Z.to_int z <> Decimal.Pos Decimal.Nil /\ Z.to_int z <> Decimal.Neg Decimal.Nil).
  { clear. intros [|p|p]; cbn; split; try discriminate; intros [= E]; now apply (DecimalPos.Unsigned.to_uint_nonnil p). }
  rewrite !NilZero.isi in H by apply X. injection H as H. apply (f_equal Z.of_int) in H. now rewrite !DecimalZ.of_to in H.
Qed.
