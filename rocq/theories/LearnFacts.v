(** LearnFacts.v — facts about the model of learning/utils.py. *)
From Coq Require Import Reals Lra.
From Verif Require Import Base BaseFacts Num Spec RealFacts Functions LearnUtils LearnSpec.

Section Any.
Context {F : Type} {N : Num F}.

Lemma calc_none_iff (a b : list F) : calc_concepts_coefficient a b = None <-> length a <> length b.
Proof.
  unfold calc_concepts_coefficient. destruct (Nat.eqb_spec (length a) (length b)) as [E|E].
  - destruct (fold_left _ _ _) as [[[? ?] ?] ?]. split; [discriminate|tauto].
  - tauto.
Qed.
Lemma calc_shape (a b : list F) p q : calc_concepts_coefficient a b = Some (p, q) ->
  let '(ab, anb, nab, nanb) := p in q = (ab, nab, anb, nanb).
Proof.
  unfold calc_concepts_coefficient. destruct (Nat.eqb_spec (length a) (length b)) as [E|E]; [|discriminate].
  destruct (fold_left _ _ _) as [[[? ?] ?] ?]. intros H. inversion H. reflexivity.
Qed.

(** ** np.unique *)
Section Unique.
Context {A : Type} (leb eqb : A -> A -> bool) (T : total_order leb eqb).
Lemma uinsert_In x l y : In y (uinsert leb eqb x l) <-> y = x \/ In y l.
Proof.
  induction l as [|z l IH]; simpl; [intuition congruence|].
  destruct (eqb x z) eqn:E.
  - apply (to_eq _ _ T) in E. subst z. simpl. intuition congruence.
  - destruct (leb x z); simpl; [intuition congruence|]. rewrite IH. intuition congruence.
Qed.
Lemma uinsert_sorted x l : strictly_sorted leb l -> strictly_sorted leb (uinsert leb eqb x l).
Proof.
  induction 1 as [|z l Hs IH Hf]; simpl; [repeat constructor|].
  destruct (eqb x z) eqn:E; [constructor; auto|].
  assert (Hne : x <> z) by (intros ->; rewrite (proj2 (to_eq _ _ T z z) eq_refl) in E; discriminate).
  destruct (leb x z) eqn:L.
  - constructor; [constructor; auto|]. constructor; [auto|].
    rewrite Forall_forall in *. intros y Hy. destruct (Hf y Hy) as [H1 H2]. split.
    + eapply (to_trans _ _ T); eauto.
    + intros ->. apply H2. apply (to_anti _ _ T); auto.
  - constructor; [auto|]. rewrite Forall_forall in *. intros y Hy. apply uinsert_In in Hy as [->|Hy]; auto.
    split; [|congruence]. destruct (to_total _ _ T x z); congruence.
Qed.
Lemma unique_spec l : distinct_sorted leb l (unique leb eqb l).
Proof.
  split.
  - induction l; simpl; [constructor|]. now apply uinsert_sorted.
  - induction l as [|a l IH]; simpl; intros x; [tauto|]. rewrite uinsert_In, IH. intuition congruence.
Qed.
Lemma strictly_sorted_NoDup l : strictly_sorted leb l -> NoDup l.
Proof.
  induction 1 as [|z l Hs IH Hf]; constructor; auto. intros Hin.
  rewrite Forall_forall in Hf. destruct (Hf z Hin) as [_ H]. congruence.
Qed.
Lemma unique_NoDup l : NoDup (unique leb eqb l).
Proof. apply strictly_sorted_NoDup, unique_spec. Qed.
Lemma unique_id l : strictly_sorted leb l -> unique leb eqb l = l.
Proof.
  induction 1 as [|z l Hs IH Hf]; [reflexivity|]. cbn [unique fold_right]. fold (unique leb eqb l). rewrite IH.
  destruct l as [|y l]; [reflexivity|]. inversion Hf as [|? ? [H1 H2] ?]; subst. simpl.
  destruct (eqb z y) eqn:E; [apply (to_eq _ _ T) in E; congruence|]. now rewrite H1.
Qed.
End Unique.
Lemma unique_length {A} (leb eqb : A -> A -> bool) l : length (unique leb eqb l) <= length l.
Proof.
  induction l as [|a l IH]; simpl; auto.
  assert (H : forall x l, length (uinsert leb eqb x l) <= S (length l)).
  { intros x l0. induction l0 as [|y l0 IH0]; simpl; auto.
    destruct (eqb x y); simpl; [lia|]. destruct (leb x y); simpl; lia. }
  specialize (H a (unique leb eqb l)). lia.
Qed.

(** ** The feature matrix *)
Lemma feature_entry {A} (eqb : A -> A -> bool) vals us i j :
  entry (gen_discrete_feature_matrix (F := F) eqb vals us) i j =
  match nth_error us i, nth_error vals j with
  | Some u, Some v => Some (if eqb v u then n1 else n0)
  | _, _ => None
  end.
Proof.
  unfold entry, gen_discrete_feature_matrix. rewrite nth_error_map.
  destruct (nth_error us i) as [u|]; simpl; [|reflexivity].
  rewrite nth_error_map. destruct (nth_error vals j); reflexivity.
Qed.
Lemma feature_shape {A} (eqb : A -> A -> bool) vals us :
  shape (length us) (length vals) (gen_discrete_feature_matrix (F := F) eqb vals us).
Proof.
  unfold shape, gen_discrete_feature_matrix. split; [apply map_length|].
  apply Forall_forall. intros r Hr. apply in_map_iff in Hr as (u & <- & _). apply map_length.
Qed.
Lemma one_hot {A} (leb eqb : A -> A -> bool) (T : total_order leb eqb) vals us j v :
  distinct_sorted leb vals us -> nth_error vals j = Some v ->
  exists i, nth_error us i = Some v /\
    entry (gen_discrete_feature_matrix (F := F) eqb vals us) i j = Some n1 /\
    forall k x, k <> i -> entry (gen_discrete_feature_matrix (F := F) eqb vals us) k j = Some x -> x = n0.
Proof.
  intros (Hs & Hin) Hv.
  assert (Hv' : In v us) by (apply Hin; eapply nth_error_In; eauto).
  apply In_nth_error in Hv' as (i & Hi). exists i. split; [auto|].
  rewrite feature_entry, Hi, Hv, (proj2 (to_eq _ _ T v v) eq_refl). split; [auto|].
  intros k x Hk Hx. rewrite feature_entry, Hv in Hx. destruct (nth_error us k) as [u|] eqn:Eu; [|discriminate].
  destruct (eqb v u) eqn:E; [|congruence]. apply (to_eq _ _ T) in E. subst u.
  exfalso. apply Hk. apply strictly_sorted_NoDup in Hs.
  apply (proj1 (NoDup_nth_error us) Hs); [apply nth_error_Some; congruence|congruence].
Qed.
End Any.

Local Open Scope R_scope.
(** ** Contingency coefficients over the reals *)
Lemma coeff_fold l p q r s :
  fold_left coeff_step l (p, q, r, s) =
  (p + Rsum (map (fun xy => fst xy * snd xy) l), q + Rsum (map (fun xy => fst xy * (1 - snd xy)) l),
   r + Rsum (map (fun xy => (1 - fst xy) * snd xy) l), s + Rsum (map (fun xy => (1 - fst xy) * (1 - snd xy)) l)).
Proof.
  revert p q r s. induction l as [|[x y] l IH]; intros p q r s; cbn [fold_left map Rsum fold_right fst snd].
  - f_equal; [f_equal; [f_equal|]|]; unfold Rsum; simpl; lra.
  - unfold coeff_step at 2. rnum. rewrite IH. unfold Rsum.
    cbn [fold_right]. f_equal; [f_equal; [f_equal|]|]; lra.
Qed.
Lemma calc_R (a b : list R) : length a = length b ->
  calc_concepts_coefficient a b =
  let l := combine a b in
  let ab := Rsum (map (fun xy => fst xy * snd xy) l) in
  let anb := Rsum (map (fun xy => fst xy * (1 - snd xy)) l) in
  let nab := Rsum (map (fun xy => (1 - fst xy) * snd xy) l) in
  let nanb := Rsum (map (fun xy => (1 - fst xy) * (1 - snd xy)) l) in
  Some ((ab, anb, nab, nanb), (ab, nab, anb, nanb)).
Proof.
  intros E. unfold calc_concepts_coefficient. rewrite (proj2 (Nat.eqb_eq _ _) E).
  unfold n0. cbn [nofZ RNum]. rewrite coeff_fold. cbv zeta. rewrite !Rplus_0_l. reflexivity.
Qed.
Lemma combine_swap {A B} (a : list A) (b : list B) :
  combine b a = map (fun p => (snd p, fst p)) (combine a b).
Proof. revert b; induction a as [|x a IH]; intros [|y b]; simpl; auto. now rewrite IH. Qed.
Lemma calc_swap (a b : list R) p q :
  calc_concepts_coefficient a b = Some (p, q) -> calc_concepts_coefficient b a = Some (q, p).
Proof.
  intros H. assert (E : length a = length b).
  { destruct (Nat.eq_dec (length a) (length b)); auto. apply (calc_none_iff (F := R)) in n. congruence. }
  rewrite calc_R in H by auto. rewrite calc_R by auto. cbv zeta in *.
  rewrite (combine_swap a b), !map_map. cbn [fst snd].
  apply (f_equal (fun o => match o with Some x => x | None => (p, q) end)) in H. apply (f_equal Some) in H.
  rewrite (map_ext (fun x : R * R => snd x * fst x) (fun x => fst x * snd x)) by (intros; lra).
  rewrite (map_ext (fun x : R * R => snd x * (1 - fst x)) (fun x => (1 - fst x) * snd x)) by (intros; lra).
  rewrite (map_ext (fun x : R * R => (1 - snd x) * fst x) (fun x => fst x * (1 - snd x))) by (intros; lra).
  rewrite (map_ext (fun x : R * R => (1 - snd x) * (1 - fst x)) (fun x => (1 - fst x) * (1 - snd x))) by (intros; lra).
  inversion H. reflexivity.
Qed.
Lemma combine_in01 a b xy : in01 a -> in01 b -> In xy (combine a b) ->
  0 <= fst xy <= 1 /\ 0 <= snd xy <= 1.
Proof.
  unfold in01. rewrite !Forall_forall. intros Ha Hb H. destruct xy as [x y]. simpl.
  split; [apply Ha; eapply in_combine_l; eauto|apply Hb; eapply in_combine_r; eauto].
Qed.
Lemma calc_degrees (a b : list R) ab anb nab nanb q :
  calc_concepts_coefficient a b = Some ((ab, anb, nab, nanb), q) -> in01 a -> in01 b ->
  0 <= ab /\ 0 <= anb /\ 0 <= nab /\ 0 <= nanb /\ ab + anb + nab + nanb = INR (length a).
Proof.
  intros H Ha Hb. assert (E : length a = length b).
  { destruct (Nat.eq_dec (length a) (length b)); auto. apply (calc_none_iff (F := R)) in n. congruence. }
  rewrite calc_R in H by auto. cbv zeta in H.
  assert (G : forall f : R * R -> R, (forall x y, 0 <= x <= 1 -> 0 <= y <= 1 -> 0 <= f (x, y)) ->
             0 <= Rsum (map f (combine a b))).
  { intros f Hf. apply Rsum_nonneg. apply Forall_forall. intros z Hz. apply in_map_iff in Hz as ([x y] & <- & Hz).
    destruct (combine_in01 a b (x, y) Ha Hb Hz). apply Hf; auto. }
  inversion H; subst; clear H.
  split; [|split; [|split; [|split]]];
    [apply G; intros; cbn [fst snd]; apply Rmult_le_pos; lra..|].
  rewrite <- !Rsum_map_plus.
  rewrite (map_ext _ (fun _ => 1)) by (intros; lra).
  clear -E. revert b E. induction a as [|x a IH]; intros [|y b] E; try discriminate.
  - reflexivity.
  - cbn [combine map Rsum fold_right]. cbn [length] in *. rewrite S_INR, <- (IH b) by lia. unfold Rsum. lra.
Qed.
Lemma Rsum_howmany {A} (f : A -> R) (p : A -> bool) l : (forall x, f x = b2R (p x)) ->
  Rsum (map f l) = INR (howmany p l).
Proof.
  intros Hf. unfold howmany. induction l as [|x l IH]; [reflexivity|].
  cbn [map Rsum fold_right filter]. fold (Rsum (map f l)). rewrite IH, Hf. unfold b2R.
  destruct (p x); cbn [length]; rewrite ?S_INR; lra.
Qed.
Lemma calc_counts (a b : list bool) : length a = length b ->
  calc_concepts_coefficient (map b2R a) (map b2R b) =
  let n p := INR (howmany p (combine a b)) in
  Some ((n (fun xy => fst xy && snd xy)%bool, n (fun xy => fst xy && negb (snd xy))%bool,
         n (fun xy => negb (fst xy) && snd xy)%bool, n (fun xy => negb (fst xy) && negb (snd xy))%bool),
        (n (fun xy => fst xy && snd xy)%bool, n (fun xy => negb (fst xy) && snd xy)%bool,
         n (fun xy => fst xy && negb (snd xy))%bool, n (fun xy => negb (fst xy) && negb (snd xy))%bool)).
Proof.
  intros E. rewrite calc_R by now rewrite !map_length. cbv zeta.
  assert (C : combine (map b2R a) (map b2R b) = map (fun p => (b2R (fst p), b2R (snd p))) (combine a b)).
  { clear E. revert b; induction a as [|x a IH]; intros [|y b]; simpl; auto. now rewrite IH. }
  rewrite C, !map_map. cbn [fst snd].
  rewrite (Rsum_howmany _ (fun xy => fst xy && snd xy)%bool) by (intros [[] []]; unfold b2R; simpl; lra).
  rewrite (Rsum_howmany _ (fun xy => fst xy && negb (snd xy))%bool) by (intros [[] []]; unfold b2R; simpl; lra).
  rewrite (Rsum_howmany _ (fun xy => negb (fst xy) && snd xy)%bool) by (intros [[] []]; unfold b2R; simpl; lra).
  rewrite (Rsum_howmany _ (fun xy => negb (fst xy) && negb (snd xy))%bool) by (intros [[] []]; unfold b2R; simpl; lra).
  reflexivity.
Qed.
