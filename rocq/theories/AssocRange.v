(** AssocRange.v — the weights of generated relations lie between -1 and 1. *)
From Coq Require Import Reals Lra.
From Verif Require Import Base BaseFacts Num RealFacts Functions FunctionsFacts Spec Fcm FcmSpec LearnUtils LearnSpec LearnFacts Assoc AssocSpec AssocFacts AssocFacts4.
Local Open Scope R_scope.

Lemma indicators_in01 {A} (eqb : A -> A -> bool) (l us : list A) row : In row (indicators (F := R) eqb l us) -> in01 row.
Proof.
  intros H. apply in_map_iff in H as (u & <- & _). apply Forall_forall. intros x Hx. apply in_map_iff in Hx as (v & <- & _).
  destruct (eqb v u); rnum; lra.
Qed.
(** a discretization whose knots include the data *)
Definition fair_disc (cf : gconf R) : Prop := forall f data n vals ms, c_disc cf f data = Ok (n, vals, ms) ->
  increasing_list vals /\ (forall x, In x data -> In x vals) /\ forall memb, In memb ms -> length memb = length vals /\ in01 memb.
Lemma described_in01 cf targets fc d row : fair_disc cf -> described cf targets fc d -> In row (fd_rows d) -> in01 row.
Proof.
  intros HD H Hr. inversion H; subst; cbn [fd_rows] in Hr.
  - match goal with L : levels _ _ _ _ |- _ => destruct L end; now apply indicators_in01 in Hr.
  - apply In_nth_error in Hr as [k Hk].
    match goal with X : forall k row, nth_error rows k = Some row -> _ |- _ => destruct (X k row Hk) as (memb & Hm & Hf) end.
    match goal with X : c_disc _ _ _ = Ok _ |- _ => destruct (HD _ _ _ _ _ X) as (Inc & Sub & Ms) end.
    destruct (Ms memb (nth_error_In _ _ Hm)) as [Ml Mi].
    apply Forall_forall. intros z Hz. apply In_nth_error in Hz as [i Hi].
    assert (G : exists x, In x data /\ fuzzy_set x memb vals = Ok z).
    { clear - Hf Hi. revert i Hi. induction Hf as [|x w l l' Hx _ IH]; intros [|i] Hi; cbn in Hi; try discriminate.
      - injection Hi as ->. exists x. split; [now left|auto].
      - destruct (IH i Hi) as (x' & A & B). exists x'. split; [now right|auto]. }
    destruct G as (x & Hx & Hz). pose proof (Sub x Hx) as Hxv. apply In_nth_error in Hxv as [j Hj].
    assert (Lj : (j < length memb)%nat) by (rewrite Ml; apply nth_error_Some; congruence).
    destruct (nth_error memb j) as [m|] eqn:Em; [|apply nth_error_None in Em; lia].
    rewrite (fuzzy_at_knot x memb vals j m Inc) in Hz; auto.
    + injection Hz as <-. apply nth_error_In in Em. unfold in01 in Mi. rewrite Forall_forall in Mi. now apply Mi.
    + intros [Hn Hin]. apply nth_error_In in Hj. unfold in01 in Hin. rewrite Forall_forall in Hin. apply Hin in Hj. lra.
Qed.
Lemma link_range cf ta tb ra rb w : c_caus cf = rel_conf -> in01 ra -> in01 rb -> link cf ta tb ra rb w -> -1 <= w <= 1.
Proof.
  intros Hc Ha Hb (_ & c & e & v & s & Hco & _ & _ & Hv & Hs & -> & _). rewrite Hc in Hv. destruct c as [[[p q] r] t].
  destruct (calc_concepts_coefficient ra rb) as [[c1 c2]|] eqn:E.
  2: { apply calc_none_iff in E. destruct Hco. congruence. }
  pose proof E as E'. apply calc_coefs in E' as [E' _]; [|intros; rnum; lra].
  rewrite (coefs_fun _ _ _ _ E' Hco) in E. destruct (calc_degrees ra rb _ _ _ _ _ E Ha Hb) as (H1 & H2 & H3 & H4 & _).
  destruct (rel_conf_spec p q r t H1 H2) as (x & Ex & Rx & _). cbn [measure] in Hv. rewrite Ex in Hv. injection Hv as <-.
  assert (Hs' : s = 1 \/ s = -1).
  { unfold sign_of in Hs. destruct (c_sign cf) as [f|]; [|left; rewrite Hs; rnum; reflexivity].
    destruct Hs as (y & _ & ->). destruct (nltb y (c_signcut cf)); rnum; [right|left]; reflexivity. }
  rnum. destruct Hs' as [-> | ->]; lra.
Qed.
Lemma generated_range cf targets ds fds a b w : c_caus cf = rel_conf -> -1 <= c_excl cf <= 1 -> fair_disc cf ->
  Forall2 (described cf targets) ds fds -> exclusion cf fds a b w \/ association cf fds a b w -> -1 <= w <= 1.
Proof.
  intros Hc He HD Hds [(_ & -> & _)|H]; auto. destruct H as (k & l & A & B & i & j & ra & rb & _ & HA & HB & _ & _ & Ha & _ & Hb & L).
  assert (G : forall d row, In d fds -> In row (fd_rows d) -> in01 row).
  { clear - HD Hds. induction Hds as [|fc d ds fds Hd _ IH]; intros d' row; [easy|]. intros [<-|H] Hr; [|now apply (IH d')].
    eapply described_in01; eauto. }
  apply (link_range cf (fd_target A) (fd_target B) ra rb w Hc); auto.
  - apply (G A); [now apply nth_error_In in HA|now apply nth_error_In in Ha].
  - apply (G B); [now apply nth_error_In in HB|now apply nth_error_In in Hb].
Qed.
