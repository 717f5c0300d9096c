(** RealFacts.v — lemmas about the [RNum] instance and derived list operations. *)
From Coq Require Export Reals Lra.
From Verif Require Import Base BaseFacts Num Spec.
Local Open Scope R_scope.

Lemma Rltb_true x y : Rltb x y = true <-> x < y.
Proof. destruct (Rltb_spec x y); intuition congruence. Qed.
Lemma Rltb_false x y : Rltb x y = false <-> y <= x.
Proof. destruct (Rltb_spec x y); intuition (try congruence; try lra). Qed.
Lemma Rleb_true x y : Rleb x y = true <-> x <= y.
Proof. destruct (Rleb_spec x y); intuition congruence. Qed.
Lemma Rleb_false x y : Rleb x y = false <-> y < x.
Proof. destruct (Rleb_spec x y); intuition (try congruence; try lra). Qed.
Lemma Reqb_true x y : Reqb x y = true <-> x = y.
Proof. destruct (Reqb_spec x y); intuition congruence. Qed.
Lemma Reqb_false x y : Reqb x y = false <-> x <> y.
Proof. destruct (Reqb_spec x y); intuition congruence. Qed.

(** Unfold the number class at R. *)
Ltac rnum :=
  cbn [nadd nsub nmul ndiv nabs nltb nleb neqb nofZ nexp nln nsqrt npow neps RNum] in *;
  unfold pdiv, nlit, nat2F in *; unfold n0, n1, n2, nm1 in *;
  cbn [nadd nsub nmul ndiv nabs nltb nleb neqb nofZ nexp nln nsqrt npow neps RNum] in *.
Ltac rcase :=
  repeat match goal with
  | |- context [Rltb ?a ?b] => destruct (Rltb_spec a b)
  | |- context [Rleb ?a ?b] => destruct (Rleb_spec a b)
  | |- context [Reqb ?a ?b] => destruct (Reqb_spec a b)
  end.
Ltac rcase_in H :=
  repeat match type of H with
  | context [Rltb ?a ?b] => destruct (Rltb_spec a b)
  | context [Rleb ?a ?b] => destruct (Rleb_spec a b)
  | context [Reqb ?a ?b] => destruct (Reqb_spec a b)
  end.

Lemma fold_left_Rplus l a : fold_left Rplus l a = a + Rsum l.
Proof.
  revert a; induction l as [|x l IH]; intros a; simpl; [lra|]. rewrite IH. lra.
Qed.
Lemma nsum_Rsum (l : list R) : nsum l = Rsum l.
Proof. unfold nsum. rnum. rewrite fold_left_Rplus. lra. Qed.
Lemma Rsum_app l l' : Rsum (l ++ l') = Rsum l + Rsum l'.
Proof. induction l; simpl; [lra|]. rewrite IHl. lra. Qed.
Lemma Rsum_Permutation l l' : Permutation l l' -> Rsum l = Rsum l'.
Proof. induction 1; simpl; lra. Qed.
Lemma Rsum_bounds lo hi l : Forall (fun x => lo <= x <= hi) l ->
  INR (length l) * lo <= Rsum l <= INR (length l) * hi.
Proof.
  induction 1 as [|x l H _ IH]; [simpl; lra|]. cbn [length Rsum fold_right]. rewrite S_INR.
  change (fold_right Rplus 0 l) with (Rsum l). lra.
Qed.
Lemma Rsum_nonneg l : Forall (fun x => 0 <= x) l -> 0 <= Rsum l.
Proof. induction 1; simpl; lra. Qed.
Lemma Rsum_map_scal {A} (f : A -> R) c l : Rsum (map (fun x => c * f x) l) = c * Rsum (map f l).
Proof. induction l; simpl; [lra|]. rewrite IHl. lra. Qed.
Lemma Rsum_map_plus {A} (f g : A -> R) l :
  Rsum (map (fun x => f x + g x) l) = Rsum (map f l) + Rsum (map g l).
Proof. induction l; simpl; [lra|]. rewrite IHl. lra. Qed.
Lemma Rsum_repeat c n : Rsum (repeat c n) = INR n * c.
Proof. induction n; [simpl; lra|]. rewrite S_INR. simpl. rewrite IHn. lra. Qed.

Lemma pmax_spec (l : list R) a : is_max (a :: l) (pmax a l).
Proof.
  unfold pmax. revert a; induction l as [|x l IH]; intros a; simpl.
  - split; simpl; auto. intros y [->|[]]. lra.
  - rnum. destruct (Rltb_spec a x) as [H|H].
    + destruct (IH x) as [H1 H2]. split.
      * simpl in *. tauto.
      * intros y [->|[->|Hy]].
        -- apply Rle_trans with x; [lra|]. apply H2; simpl; auto.
        -- apply H2; simpl; auto.
        -- apply H2; simpl; auto.
    + destruct (IH a) as [H1 H2]. split.
      * simpl in *. tauto.
      * intros y [->|[->|Hy]].
        -- apply H2; simpl; auto.
        -- apply Rle_trans with a; [lra|]. apply H2; simpl; auto.
        -- apply H2; simpl; auto.
Qed.
Lemma pmin_spec (l : list R) a : is_min (a :: l) (pmin a l).
Proof.
  unfold pmin. revert a; induction l as [|x l IH]; intros a; simpl.
  - split; simpl; auto. intros y [->|[]]. lra.
  - rnum. destruct (Rltb_spec x a) as [H|H].
    + destruct (IH x) as [H1 H2]. split.
      * simpl in *. tauto.
      * intros y [->|[->|Hy]].
        -- apply Rle_trans with x; [|lra]. apply H2; simpl; auto.
        -- apply H2; simpl; auto.
        -- apply H2; simpl; auto.
    + destruct (IH a) as [H1 H2]. split.
      * simpl in *. tauto.
      * intros y [->|[->|Hy]].
        -- apply H2; simpl; auto.
        -- apply Rle_trans with a; [|lra]. apply H2; simpl; auto.
        -- apply H2; simpl; auto.
Qed.
Lemma max_list_spec (l : list R) : l <> [] -> exists m, max_list l = Ok m /\ is_max l m.
Proof. destruct l as [|a l]; [congruence|]. intros _. exists (pmax a l). split; auto. apply pmax_spec. Qed.
Lemma min_list_spec (l : list R) : l <> [] -> exists m, min_list l = Ok m /\ is_min l m.
Proof. destruct l as [|a l]; [congruence|]. intros _. exists (pmin a l). split; auto. apply pmin_spec. Qed.
Lemma is_max_unique l m m' : is_max l m -> is_max l m' -> m = m'.
Proof. intros [H1 H2] [H3 H4]. apply Rle_antisym; auto. Qed.
Lemma is_min_unique l m m' : is_min l m -> is_min l m' -> m = m'.
Proof. intros [H1 H2] [H3 H4]. apply Rle_antisym; auto. Qed.
Lemma is_max_perm l l' m : Permutation l l' -> is_max l m -> is_max l' m.
Proof.
  intros HP [H1 H2]. split.
  - eapply Permutation_in; eauto.
  - intros x Hx. apply H2. eapply Permutation_in; [|eauto]. now symmetry.
Qed.
Lemma is_min_perm l l' m : Permutation l l' -> is_min l m -> is_min l' m.
Proof.
  intros HP [H1 H2]. split.
  - eapply Permutation_in; eauto.
  - intros x Hx. apply H2. eapply Permutation_in; [|eauto]. now symmetry.
Qed.
