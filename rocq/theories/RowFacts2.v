(** RowFacts2.v — reordering or repeating the rows of a training set (C91, C92). *)
From Coq Require Import Reals Lra Lia Permutation.
From Verif Require Import Base BaseFacts Num RealFacts Functions FunctionsFacts Spec Fcm LearnUtils LearnSpec LearnFacts Assoc AssocFacts2 Discret DiscretFacts2 Estimator RowSpec RowFacts.

(** ** Picking positions *)
Definition pick {A} (p : list nat) (l : list A) : list A :=
  flat_map (fun i => match nth_error l i with Some a => [a] | None => [] end) p.
Lemma taken_cons {A} i p (l l' : list A) : taken (i :: p) l l' -> i < length l ->
  exists a t, nth_error l i = Some a /\ l' = a :: t /\ taken p l t.
Proof.
  intros [H1 H2] Hi. destruct l' as [|a t]; [discriminate|]. exists a, t. pose proof (H2 0 i eq_refl) as H. cbn in H.
  split; [auto|]. split; [reflexivity|]. split; [now injection H1|]. intros j k Hj. exact (H2 (S j) k Hj).
Qed.
Lemma taken_pick {A} p : forall (l l' : list A), taken p l l' -> Forall (fun i => i < length l) p -> l' = pick p l.
Proof.
  induction p as [|i p IH]; intros l l' H Hp; [destruct H as [H _]; now destruct l'|].
  inversion Hp as [|x y H1 H2]; subst. destruct (taken_cons _ _ _ _ H H1) as (a & t & E & -> & Ht).
  cbn [pick flat_map]. rewrite E. cbn [app]. f_equal. now apply IH.
Qed.
Lemma pick_seq {A} (l : list A) : pick (seq 0 (length l)) l = l.
Proof.
  assert (G : forall l (pre : list A), pick (seq (length pre) (length l)) (pre ++ l) = l).
  { clear l. induction l as [|a l IH]; intros pre; [reflexivity|]. cbn [length seq pick flat_map].
    rewrite nth_error_app2, Nat.sub_diag by lia. cbn [nth_error app]. f_equal. specialize (IH (pre ++ [a])).
    rewrite app_length, <- app_assoc in IH. cbn [length app] in IH. rewrite Nat.add_1_r in IH. exact IH. }
  exact (G l []).
Qed.
Lemma pick_app {A} p q (l : list A) : pick (p ++ q) l = pick p l ++ pick q l.
Proof. apply flat_map_app. Qed.
Lemma pick_every {A} k n p (l : list A) : every k n p -> length l = n -> Permutation (pick p l) (concat (repeat l k)).
Proof.
  intros H <-. apply Permutation_trans with (pick (concat (repeat (seq 0 (length l)) k)) l); [now apply Permutation_flat_map|].
  clear H. induction k as [|k IH]; [constructor|]. cbn [repeat concat]. rewrite pick_app, pick_seq. now apply Permutation_app_head.
Qed.
Lemma every_below k n p : every k n p -> Forall (fun i => i < n) p.
Proof.
  intros H. apply Forall_forall. intros i Hi. apply (Permutation_in _ H) in Hi. apply in_concat in Hi as (l & Hl & Hi).
  apply repeat_spec in Hl as ->. apply in_seq in Hi. lia.
Qed.
Lemma pick_map {A B} (f : A -> B) p l : pick p (map f l) = map f (pick p l).
Proof.
  induction p as [|i p IH]; [reflexivity|]. cbn [pick flat_map]. unfold pick in IH. rewrite IH, map_app. f_equal.
  rewrite nth_error_map. now destruct (nth_error l i).
Qed.
Lemma nth_combine {A B} : forall i (a : list A) (b : list B), nth_error (combine a b) i =
  match nth_error a i, nth_error b i with Some x, Some y => Some (x, y) | _, _ => None end.
Proof.
  induction i as [|i IH]; intros [|x a] [|y b]; cbn; auto. now destruct (nth_error a i).
Qed.
Lemma pick_combine {A B} p : forall (a : list A) (b : list B), length a = length b -> pick p (combine a b) = combine (pick p a) (pick p b).
Proof.
  induction p as [|i p IH]; intros a b E; [reflexivity|]. cbn [pick flat_map]. unfold pick in IH. rewrite IH by auto. rewrite nth_combine.
  destruct (nth_error a i) as [x|] eqn:Ea, (nth_error b i) as [y|] eqn:Eb; cbn; auto; exfalso.
  - apply nth_error_None in Eb. assert (i < length a) by (apply nth_error_Some; congruence). lia.
  - apply nth_error_None in Ea. assert (i < length b) by (apply nth_error_Some; congruence). lia.
Qed.
Lemma pick_length {A} p (l : list A) : Forall (fun i => i < length l) p -> length (pick p l) = length p.
Proof.
  induction 1 as [|i p Hi Hp IH]; [reflexivity|]. cbn [pick flat_map]. rewrite app_length. unfold pick in IH. rewrite IH.
  apply nth_error_Some in Hi. destruct (nth_error l i); [reflexivity|congruence].
Qed.
Lemma in_concat_repeat {A} k (l : list A) v : 0 < k -> In v (concat (repeat l k)) <-> In v l.
Proof.
  intros Hk. split; intros H.
  - apply in_concat in H as (m & Hm & H). now apply repeat_spec in Hm as ->.
  - destruct k; [lia|]. cbn. apply in_or_app. now left.
Qed.
Lemma pick_In {A} k n p (l : list A) v : every k n p -> 0 < k -> length l = n -> In v (pick p l) <-> In v l.
Proof.
  intros H Hk Hl. rewrite <- (in_concat_repeat k l v Hk). pose proof (pick_every k n p l H Hl) as P.
  split; apply Permutation_in; [exact P|now apply Permutation_sym].
Qed.
Lemma rmap_pick {A B} (f : A -> res B) (l : list A) : forall r, rmap f l = Ok r -> forall p, rmap f (pick p l) = Ok (pick p r).
Proof.
  intros r E.
  assert (G : forall i, match nth_error l i with Some a => exists b, f a = Ok b /\ nth_error r i = Some b | None => nth_error r i = None end).
  { revert r E. induction l as [|a l IH]; intros r E.
    - injection E as <-. now intros [].
    - cbn [rmap] in E. destruct (f a) as [b|e] eqn:Ea; [|discriminate]. cbn [rbind] in E. destruct (rmap f l) as [t|e]; [|discriminate]. cbn in E.
      injection E as <-. intros [|i]; cbn; [eauto|]. apply (IH t eq_refl). }
  induction p as [|i p IH]; [reflexivity|]. cbn [pick flat_map]. specialize (G i). destruct (nth_error l i) as [a|].
  - destruct G as (b & Hb & ->). cbn [app rmap]. rewrite Hb. cbn [rbind]. unfold pick in IH. now rewrite IH.
  - rewrite G. exact IH.
Qed.
Lemma rmap_length {A B} (f : A -> res B) : forall l r, rmap f l = Ok r -> length r = length l.
Proof.
  induction l as [|a l IH]; intros r E; [injection E as <-; reflexivity|]. cbn [rmap] in E.
  destruct (f a) as [b|e]; [|discriminate]. cbn [rbind] in E. destruct (rmap f l) as [t|e]; [|discriminate]. cbn in E.
  injection E as <-. cbn. f_equal. now apply IH.
Qed.

(** ** Values that occur *)
Lemma sorted_same {A} (leb eqb : A -> A -> bool) (T : total_order leb eqb) : forall u u',
  strictly_sorted leb u -> strictly_sorted leb u' -> (forall v, In v u <-> In v u') -> u = u'.
Proof.
  induction u as [|a u IH]; intros [|b u'] S S' H; auto; [destruct (proj2 (H b)); now left|destruct (proj1 (H a)); now left|].
  apply StronglySorted_inv in S as [S1 S2], S' as [S1' S2']. rewrite Forall_forall in S2, S2'.
  assert (E : a = b).
  { destruct (proj1 (H a) (or_introl eq_refl)) as [E|Ha]; [auto|]. destruct (proj2 (H b) (or_introl eq_refl)) as [E|Hb]; [auto|].
    apply (to_anti _ _ T); [apply S2|apply S2']; auto. }
  subst b. f_equal. apply IH; auto. intros v. split; intros Hv.
  - destruct (proj1 (H v) (or_intror Hv)) as [<-|E]; auto. destruct (S2 a Hv). congruence.
  - destruct (proj2 (H v) (or_intror Hv)) as [<-|E]; auto. destruct (S2' a Hv). congruence.
Qed.
Lemma unique_same {A} (leb eqb : A -> A -> bool) (T : total_order leb eqb) l l' : (forall v, In v l <-> In v l') -> unique leb eqb l = unique leb eqb l'.
Proof.
  intros H. destruct (unique_spec _ _ T l) as [U1 U2], (unique_spec _ _ T l') as [V1 V2].
  apply (sorted_same leb eqb T); auto. intros v. rewrite U2, V2. apply H.
Qed.

(** ** Coefficients *)
Local Open Scope R_scope.
Lemma Rsum_repeat k (l : list R) : Rsum (concat (repeat l k)) = INR k * Rsum l.
Proof. induction k as [|k IH]; [cbn; lra|]. cbn [repeat concat]. rewrite Rsum_app, IH, S_INR. lra. Qed.
Lemma map_repeat_concat {A B} (f : A -> B) k l : map f (concat (repeat l k)) = concat (repeat (map f l) k).
Proof. induction k as [|k IH]; [reflexivity|]. cbn [repeat concat]. now rewrite map_app, IH. Qed.
Lemma coef_pick k n p (f : R * R -> R) a b : every k n p -> length a = n -> length b = n ->
  Rsum (map f (combine (pick p a) (pick p b))) = INR k * Rsum (map f (combine a b)).
Proof.
  intros H Ha Hb. rewrite <- pick_combine by congruence.
  rewrite (Rsum_Permutation _ (map f (concat (repeat (combine a b) k)))).
  - now rewrite map_repeat_concat, Rsum_repeat.
  - apply Permutation_map. apply (pick_every k n); auto. rewrite combine_length. lia.
Qed.

Section Taken.
Variable cf : gconf R.
Variables (k n : nat) (p : list nat).
Hypothesis Hp : every k n p.
Hypothesis Hk : (0 < k)%nat.
Hypothesis Hscale : k = 1%nat \/ (proportional (c_eval cf) /\ proportional (c_caus cf) /\ forall f, c_sign cf = Some f -> proportional f).
Hypothesis Hdisc : by_values (c_disc cf).
Definition rowrel (a a' : list R) : Prop := length a = n /\ a' = pick p a.

Lemma call4_scaled f (c : coeffs R) : k = 1%nat \/ proportional f ->
  call4 f (let '(x, y, z, w) := c in (INR k * x, INR k * y, INR k * z, INR k * w)) = call4 f c.
Proof.
  destruct c as [[[x y] z] w]. intros [E|Hf].
  - rewrite E. cbn [INR call4]. now rewrite !Rmult_1_l.
  - cbn [call4]. apply Hf. now apply lt_0_INR.
Qed.
Lemma agree_scaled (c : coeffs R) : agree cf c (let '(x, y, z, w) := c in (INR k * x, INR k * y, INR k * z, INR k * w)).
Proof.
  split; [|split]; [symmetry; apply call4_scaled; tauto..|].
  unfold rel_sign. destruct (c_sign cf) as [f|] eqn:E; [|reflexivity]. rewrite call4_scaled; [reflexivity|].
  destruct Hscale as [|(_ & _ & H)]; auto.
Qed.
Lemma taken_agree a a' b b' cc : rowrel a a' -> rowrel b b' -> calc_concepts_coefficient a b = Some cc ->
  exists cc', calc_concepts_coefficient a' b' = Some cc' /\ agree cf (fst cc) (fst cc') /\ agree cf (snd cc) (snd cc').
Proof.
  intros [La ->] [Lb ->] E. rewrite calc_R in E by congruence. injection E as <-.
  pose proof (every_below _ _ _ Hp) as Hb.
  rewrite calc_R by (rewrite !pick_length; auto; [rewrite Lb|rewrite La]; auto). cbv zeta. rewrite !(coef_pick k n p) by auto.
  eexists. split; [reflexivity|]. cbn [fst snd]. split; apply (agree_scaled (_, _, _, _)).
Qed.
Lemma matrix_rel {A} (eqb : A -> A -> bool) l u : length l = n ->
  Forall2 rowrel (gen_discrete_feature_matrix eqb l u) (gen_discrete_feature_matrix eqb (pick p l) u).
Proof.
  intros Hl. unfold gen_discrete_feature_matrix. induction u as [|v u IH]; cbn [map]; constructor; auto.
  split; [now rewrite map_length|]. now rewrite pick_map.
Qed.
Lemma unique_pick {A} (leb eqb : A -> A -> bool) (T : total_order leb eqb) l : length l = n -> unique leb eqb (pick p l) = unique leb eqb l.
Proof. intros H. apply (unique_same leb eqb T). intros v. now apply (pick_In k n). Qed.
Lemma taken_floats c c' : taken_column p c c' -> col_length c = n -> as_floats c' = pick p (as_floats c) /\ (as_floats c = [] \/ length (as_floats c) = n).
Proof.
  intros H Hl. pose proof (every_below _ _ _ Hp) as Hb.
  destruct c, c'; cbn [taken_column col_length] in *; try contradiction; cbn [as_floats].
  - split; [|auto]. clear. induction p; auto. cbn. now destruct a.
  - split; [|auto]. clear. induction p; auto. cbn. now destruct a.
  - rewrite <- Hl in Hb. rewrite (taken_pick _ _ _ H Hb), pick_map, map_length. auto.
  - rewrite <- Hl in Hb. rewrite (taken_pick _ _ _ H Hb). auto.
Qed.
Lemma pick_nil {A} : pick p (@nil A) = [].
Proof. clear. induction p as [|i q IH]; auto. cbn. now destruct i. Qed.
Lemma taken_crel name c c' : taken_column p c c' -> col_length c = n -> crel cf rowrel name c c'.
Proof.
  intros H Hl. pose proof (every_below _ _ _ Hp) as Hb. destruct (taken_floats c c' H Hl) as [E Z].
  split; [destruct c, c'; try contradiction; exact I|]. split; [|split; [|split]].
  - destruct c, c'; try contradiction; cbn [taken_column col_length] in *; rewrite <- Hl in Hb; pose proof (taken_pick _ _ _ H Hb) as ->; cbn [discrete_desc fst];
      [rewrite (unique_pick _ _ str_total_order)|rewrite (unique_pick _ _ bool_total_order)|rewrite (unique_pick _ _ Z_total_order)|rewrite (unique_pick _ _ R_total_order)]; auto.
  - destruct c, c'; try contradiction; cbn [taken_column col_length] in *; rewrite <- Hl in Hb; pose proof (taken_pick _ _ _ H Hb) as ->; cbn [discrete_desc snd];
      [rewrite (unique_pick _ _ str_total_order)|rewrite (unique_pick _ _ bool_total_order)|rewrite (unique_pick _ _ Z_total_order)|rewrite (unique_pick _ _ R_total_order)]; auto; now apply matrix_rel.
  - intros x Hx. rewrite E, <- Hx. apply Hdisc. intros v. destruct Z as [->|Z]; [rewrite pick_nil; tauto|]. now apply (pick_In k n).
  - intros Hn memb vals row Hr. rewrite E. exists (pick p row). split; [now apply rmap_pick|]. split; [|reflexivity].
    rewrite (rmap_length _ _ _ Hr). destruct c; try discriminate; cbn [as_floats col_length] in *; [now rewrite map_length|auto].
Qed.
Lemma taken_dsrel x x' : taken_frame p x x' -> (forall f c, In (f, c) x -> col_length c = n) -> dsrel cf rowrel x x'.
Proof.
  unfold taken_frame, dsrel. induction 1 as [|[f c] [f' c'] x x' [E H] HH IH]; intros Hn; constructor.
  - cbn [fst snd] in *. subst f'. split; auto. apply taken_crel; auto. apply (Hn f c). now left.
  - apply IH. intros g d Hg. apply (Hn g d). now right.
Qed.
Lemma taken_keys (x x' : dataset R) : taken_frame p x x' -> dkeys x = dkeys x'.
Proof. unfold taken_frame. induction 1 as [|a b x x' [E H] HH IH]; auto. unfold dkeys in *. cbn [map]. now rewrite E, IH. Qed.
Lemma taken_join (x x' y y' : dataset R) : taken_frame p x x' -> taken_frame p y y' -> taken_frame p (join_frames x y) (join_frames x' y').
Proof.
  intros Hx Hy. unfold join_frames. apply Forall2_app; [exact Hx|]. rewrite <- (taken_keys x x' Hx). clear Hx. induction Hy as [|a b y y' [E H] HH IH]; constructor; auto.
  cbn [fst snd]. rewrite <- E. auto.
Qed.
Lemma taken_fit x y x' y' e e1 : (forall f c, In (f, c) (x ++ y) -> col_length c = n) -> taken_frame p x x' -> taken_frame p y y' ->
  fit cf x y e = (e1, Ok tt) -> exists e1', fit cf x' y' e = (e1', Ok tt) /\ e_map e1' = e_map e1 /\
    forall xt yt, snd (predict cf xt e1') = snd (predict cf xt e1) /\ snd (score cf xt yt e1') = snd (score cf xt yt e1).
Proof.
  intros Hn Hx Hy Hf.
  destruct (sim_fit cf rowrel taken_agree x y x' y' e e1) as (e1' & E1 & R1); auto.
  - apply taken_dsrel; [now apply taken_join|]. intros f c Hi. unfold join_frames in Hi. apply in_app_or in Hi as [Hi|Hi]; [apply (Hn f); apply in_or_app; auto|].
    apply in_map_iff in Hi as ([g d] & E & Hi). injection E as _ <-. apply (Hn g). apply in_or_app. auto.
  - now apply taken_keys.
  - exists e1'. split; [exact E1|]. split; [symmetry; apply R1|]. intros xt yt. split; symmetry; [now apply (predict_rel cf rowrel)|now apply (score_rel cf rowrel)].
Qed.
End Taken.
