(** EstFacts8.v — in exact arithmetic no relation measure fails on discrete columns (C77). *)
From Coq Require Import Reals Lra Lia.
From Verif Require Import Base BaseFacts Num RealFacts Functions FunctionsFacts Spec Fcm FcmSpec LearnUtils LearnSpec LearnFacts Assoc AssocSpec AssocFacts AssocFacts4 Estimator EstSpec EstFacts7.
Local Open Scope R_scope.

(** the measures of the class Relation (functions.py:606-688) *)
Definition named_measures : list (R -> R -> R -> R -> res R) :=
  [rel_supp; rel_conf; rel_lift; rel_rodr; rel_odr; rel_pos_inf; rel_bayes; rel_simple].
Lemma pdiv_ok (x y : R) : y <> 0 -> pdiv x y = Ok (x / y).
Proof. intros H. unfold pdiv. rnum. destruct (Reqb_spec y 0); [contradiction|reflexivity]. Qed.
Lemma div_nz x y : 0 < x -> 0 < y -> x / y <> 0.
Proof. intros. apply Rgt_not_eq. now apply Rdiv_lt_0_compat. Qed.
Lemma measures_total f a b c d : In f named_measures -> 0 <= a -> 0 <= b -> 0 <= c -> 0 <= d -> 0 < a + b -> 0 < a + c ->
  exists v, f a b c d = Ok v.
Proof.
  intros Hf Ha Hb Hc Hd H1 H2.
  assert (T : 0 < a + b + c + d) by lra.
  destruct Hf as [<-|[<-|[<-|[<-|[<-|[<-|[<-|[<-|[]]]]]]]]].
  - unfold rel_supp. change nadd with Rplus. rewrite pdiv_ok by lra. eauto.
  - unfold rel_conf. change nadd with Rplus. destruct (neqb _ _); eauto. rewrite pdiv_ok by lra. eauto.
  - unfold rel_lift. change nadd with Rplus. rewrite !pdiv_ok by lra. cbn [rbind]. rewrite pdiv_ok by (apply div_nz; lra). eauto.
  - unfold rel_rodr. change nadd with Rplus. change neqb with Reqb. change n0 with 0. destruct (Reqb_spec (b + c) 0); eauto. rewrite pdiv_ok by auto. eauto.
  - unfold rel_odr. change nmul with Rmult. change neqb with Reqb. change n0 with 0. destruct (Reqb_spec (b * c) 0); eauto. rewrite pdiv_ok by auto. eauto.
  - unfold rel_pos_inf. change nadd with Rplus. change neqb with Reqb. change n0 with 0.
    destruct (Reqb_spec (b + c) 0), (Reqb_spec (a + d) 0); repeat (rewrite pdiv_ok by (first [assumption|lra]); cbn [rbind]);
      repeat match goal with |- context [if ?x then _ else _] => destruct x end; eauto.
  - unfold rel_bayes. change nadd with Rplus. cbv zeta. do 2 (rewrite (pdiv_ok _ (a + b + c + d)) by lra; cbn [rbind]). destruct (nltb _ _); eauto.
    rewrite (pdiv_ok _ (a + b + c + d)) by lra. cbn [rbind]. rewrite pdiv_ok by (apply div_nz; lra). eauto.
  - unfold rel_simple. change nadd with Rplus. destruct (neqb a b); eauto. destruct (negb _); rewrite pdiv_ok by lra; eauto.
Qed.

(** a row of a discrete column *)
Definition hit_row (n : nat) (r : list R) : Prop := length r = n /\ In 1 r /\ Forall (fun v => v = 0 \/ v = 1) r.
Lemma Rsum_le_In l v : Forall (fun x => 0 <= x) l -> In v l -> v <= Rsum l.
Proof.
  induction 1 as [|x l Hx Hl IH]; intros Hv; [easy|]. cbn [Rsum fold_right]. fold (Rsum l).
  destruct Hv as [<-|Hv]; [pose proof (Rsum_nonneg l Hl); lra|specialize (IH Hv); lra].
Qed.
Lemma hit_coefs n ra rb c : hit_row n ra -> hit_row n rb -> coefs ra rb c ->
  let '(p, q, r, t) := c in 0 <= p /\ 0 <= q /\ 0 <= r /\ 0 <= t /\ 0 < p + q /\ 0 < p + r.
Proof.
  intros (La & Ia & Fa) (Lb & Ib & Fb) (Ll & ->).
  assert (A : in01 ra) by (apply Forall_impl with (2 := Fa); intros x []; lra).
  assert (B : in01 rb) by (apply Forall_impl with (2 := Fb); intros x []; lra).
  rewrite !nsum_Rsum. change nmul with Rmult. change nsub with Rminus. change n1 with 1.
  set (l := combine ra rb).
  assert (G : forall f : R * R -> R, (forall x y, 0 <= x <= 1 -> 0 <= y <= 1 -> 0 <= f (x, y)) -> Forall (fun x => 0 <= x) (map f l)).
  { intros f Hf. apply Forall_forall. intros z Hz. apply in_map_iff in Hz as ([x y] & <- & Hz).
    destruct (combine_in01 ra rb (x, y) A B Hz). apply Hf; auto. }
  assert (P1 : Rsum (map (fun xy => fst xy * snd xy) l) + Rsum (map (fun xy => fst xy * (1 - snd xy)) l) = Rsum (map fst l)).
  { rewrite <- Rsum_map_plus. f_equal. apply map_ext. intros [x y]. cbn. lra. }
  assert (P2 : Rsum (map (fun xy => fst xy * snd xy) l) + Rsum (map (fun xy => (1 - fst xy) * snd xy) l) = Rsum (map snd l)).
  { rewrite <- Rsum_map_plus. f_equal. apply map_ext. intros [x y]. cbn. lra. }
  split; [apply Rsum_nonneg, G; intros; cbn [fst snd]; apply Rmult_le_pos; lra|].
  split; [apply Rsum_nonneg, G; intros; cbn [fst snd]; apply Rmult_le_pos; lra|].
  split; [apply Rsum_nonneg, G; intros; cbn [fst snd]; apply Rmult_le_pos; lra|].
  split; [apply Rsum_nonneg, G; intros; cbn [fst snd]; apply Rmult_le_pos; lra|].
  rewrite P1, P2.
  assert (S1 : forall (a b : list R), length a = length b -> map fst (combine a b) = a /\ map snd (combine a b) = b).
  { induction a as [|x a IH]; intros [|y b] E; try discriminate; auto. cbn in *. injection E as E. destruct (IH b E) as [-> ->]. auto. }
  destruct (S1 ra rb Ll) as [E1 E2]. unfold l. rewrite E1, E2.
  pose proof (Rsum_le_In ra 1) as X. pose proof (Rsum_le_In rb 1) as Y.
  assert (Forall (fun x => 0 <= x) ra) by (apply Forall_impl with (2 := Fa); intros x []; lra).
  assert (Forall (fun x => 0 <= x) rb) by (apply Forall_impl with (2 := Fb); intros x []; lra).
  specialize (X H Ia). specialize (Y H0 Ib). lra.
Qed.
Definition named_conf (cf : gconf R) : Prop := In (c_eval cf) named_measures /\ In (c_caus cf) named_measures /\
  forall f, c_sign cf = Some f -> In f named_measures.
Lemma hit_rated cf n ra rb : named_conf cf -> hit_row n ra -> hit_row n rb -> exists c, coefs ra rb c /\ rated cf c.
Proof.
  intros (H1 & H2 & H3) A B. destruct (same_length_coefs ra rb) as [c Hc]; [destruct A, B; congruence|]. exists c. split; auto.
  pose proof (hit_coefs n ra rb c A B Hc) as P. destruct c as [[[p q] r] t]. destruct P as (P1 & P2 & P3 & P4 & P5 & P6).
  split; [|split].
  - now apply measures_total.
  - now apply measures_total.
  - intros f Hf. apply measures_total; auto.
Qed.
Lemma desc_hit_row cf c r : In r (snd (discrete_desc cf c)) -> hit_row (col_length c) r.
Proof.
  intros H. split; [eapply desc_length; eauto|]. apply desc_hit in H; [exact H|]. intros a. rnum. destruct (Reqb_spec a a); auto.
Qed.
