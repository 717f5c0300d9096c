(** DiscretFacts.v — change points and the three-cluster fallback. *)
From Coq Require Import Reals Lra.
From Verif Require Import Base BaseFacts Num Spec RealFacts Functions LearnUtils LearnSpec LearnFacts
  Cmeans CmeansFacts RlCmeans RlFacts Discret.

(** ** Change points *)
Section CP.
Local Open Scope R_scope.
Variables (values : list R) (n : nat) (mi : R).
Hypothesis Hn : n = length values.
Hypothesis Hmi : 0 < mi.

Fixpoint spaced (pts : list (nat * R)) : Prop :=
  match pts with
  | p :: ((q :: _) as t) => INR (fst q) + INR n * mi <= INR (fst p) /\ spaced t
  | _ => True
  end.
Definition placed (b : nat) (pts : list (nat * R)) : Prop :=
  Forall (fun p => (fst p < b)%nat /\ nth_error values (fst p) = Some (snd p)) pts.
Lemma placed_mono b b' pts : (b <= b')%nat -> placed b pts -> placed b' pts.
Proof using Type. clear Hn Hmi. intros H. apply Forall_impl. intros p [H1 H2]. split; [lia|auto]. Qed.
Lemma too_close_spec from to : reflect (INR to - INR from < INR n * mi) (too_close n mi from to).
Proof. unfold too_close. rewrite !nat2F_INR. rnum. apply Rltb_spec. Qed.
Definition cp_inv (b : nat) (st : cp_state (F := R)) : Prop := placed b (cp_pts st) /\ spaced (cp_pts st).

Notation prune := (cp_prune n mi).
Lemma prune_old value pts : placed value pts -> spaced pts -> prune value pts = pts.
Proof.
  intros H1 H2. destruct pts as [|p [|q t]]; auto. cbn [cp_prune]. inversion H1 as [|? ? [Hp _] _]; subst.
  destruct H2 as [H2 _]. destruct (too_close_spec (fst q) value) as [C|C]; auto.
  exfalso. apply lt_INR in Hp. lra.
Qed.
Lemma prune_new value a pts : placed value pts -> spaced pts ->
  spaced (prune value ((value, a) :: pts)) /\
  (prune value ((value, a) :: pts) = (value, a) :: pts \/ prune value ((value, a) :: pts) = pts).
Proof.
  intros H1 H2. destruct pts as [|q t]; [simpl; auto|]. cbn [cp_prune].
  destruct (too_close_spec (fst q) value) as [C|C]; [auto|]. split; [|auto].
  split; [cbn [fst]; lra|auto].
Qed.
Lemma cp_step_ok st value : (S value < n)%nat -> cp_inv value st ->
  exists st', cp_step values n mi st value = Ok st' /\ cp_inv (S value) st'.
Proof.
  intros Hv [H1 H2]. unfold cp_step, nbget.
  destruct (nth_error values value) as [a|] eqn:Ea; [|apply nth_error_None in Ea; lia].
  replace (value + 1)%nat with (S value) by lia.
  destruct (nth_error values (S value)) as [b|] eqn:Eb; [|apply nth_error_None in Eb; lia].
  cbn [rbind]. set (jump := nabs (nsub a b)).
  set (st2 := cp_fall value a jump (cp_rise value a jump st)).
  assert (G : cp_pts st2 = cp_pts st \/ cp_pts st2 = (value, a) :: cp_pts st).
  { unfold st2, cp_fall, cp_rise. clearbody jump. rnum. destruct (Rltb_spec (Rabs (cp_mean st)) jump) as [C|C]; cbn [andb];
      destruct (cp_grow st) eqn:Eg; cbn [andb negb].
    - destruct (Rltb_spec jump (Rabs (cp_mean st))) as [D|D]; [lra|]. cbn [andb]. auto.
    - cbn [cp_mean cp_grow cp_pts]. destruct (Rltb_spec jump (Rabs (cp_mean st))) as [D|D]; [lra|]. auto.
    - destruct (Rltb_spec jump (Rabs (cp_mean st))) as [D|D]; cbn [andb]; rewrite ?Eg; auto.
    - destruct (Rltb_spec jump (Rabs (cp_mean st))) as [D|D]; cbn [andb]; rewrite ?Eg; auto. }
  eexists. split; [reflexivity|]. unfold cp_inv. cbn [cp_pts].
  destruct G as [->| ->].
  - rewrite prune_old by auto. split; [eapply placed_mono; [|eauto]; lia|auto].
  - destruct (prune_new value a (cp_pts st) H1 H2) as [P1 P2]. split; [|auto].
    assert (Q : placed (S value) ((value, a) :: cp_pts st)).
    { constructor; [cbn [fst snd]; split; [lia|auto]|]. eapply placed_mono; [|eauto]; lia. }
    destruct P2 as [->| ->]; [auto|]. inversion Q; auto.
Qed.
Lemma cp_loop_ok k : forall b st, (b + k < n)%nat \/ k = 0%nat -> cp_inv b st ->
  exists st', rfold (cp_step values n mi) (seq b k) st = Ok st' /\ cp_inv (b + k) st'.
Proof.
  induction k as [|k IH]; intros b st Hb Hi.
  - exists st. split; [reflexivity|]. now rewrite Nat.add_0_r.
  - destruct Hb as [Hb|Hb]; [|lia]. cbn [seq rfold].
    destruct (cp_step_ok st b) as (st1 & E1 & I1); [lia|auto|]. rewrite E1. cbn [rbind].
    destruct (IH (S b) st1) as (st2 & E2 & I2); [left; lia|auto|]. exists st2. split; [auto|].
    replace (b + S k)%nat with (S b + k)%nat by lia. auto.
Qed.
Lemma spaced_cons p pts : spaced (p :: pts) <-> match pts with [] => True | q :: _ => INR (fst q) + INR n * mi <= INR (fst p) end /\ spaced pts.
Proof. destruct pts; simpl; tauto. Qed.
End CP.

Section CP2.
Local Open Scope R_scope.
Lemma spaced_nth n mi pts : spaced n mi pts -> forall i p q, nth_error pts i = Some p -> nth_error pts (S i) = Some q ->
  INR (fst q) + INR n * mi <= INR (fst p).
Proof.
  induction pts as [|a pts IH]; intros H i p q Hp Hq; [destruct i; discriminate|].
  apply spaced_cons in H as [H1 H2]. destruct i as [|i].
  - simpl in Hp, Hq. inversion Hp; subst. destruct pts; [discriminate|]. simpl in Hq. inversion Hq; subst. auto.
  - apply (IH H2 i); auto.
Qed.
Lemma nth_error_rev {A} (l : list A) i : (i < length l)%nat -> nth_error (rev l) i = nth_error l (length l - S i).
Proof.
  intros H. destruct l as [|d l0]; [simpl in H; lia|]. set (l := d :: l0) in *.
  rewrite (nth_error_nth' (rev l) d) by now rewrite rev_length. rewrite rev_nth by auto.
  symmetry. apply nth_error_nth'. lia.
Qed.
Lemma spaced_total n gap xs : 0 <= gap -> spaced_positions n gap xs -> forall i x0 x,
  nth_error xs 0 = Some x0 -> nth_error xs i = Some x -> INR x0 + INR i * gap <= INR x.
Proof.
  intros Hg [_ H] i. induction i as [|i IH]; intros x0 x H0 Hx.
  - rewrite H0 in Hx. inversion Hx; subst. simpl. lra.
  - destruct (nth_error xs i) as [y|] eqn:Ey; [|apply nth_error_None in Ey; assert (S i < length xs)%nat by (apply nth_error_Some; congruence); lia].
    specialize (IH x0 y H0 eq_refl). destruct (H i y x Ey Hx) as [_ Q]. rewrite S_INR. lra.
Qed.
Lemma change_points_ok (values : list R) mc : (0 < mc)%nat ->
  exists xs ys, estimate_change_points values mc = Ok (xs, ys) /\
    spaced_positions (length values) (INR (length values) / INR mc) xs /\
    length ys = length xs /\ (forall i x, nth_error xs i = Some x -> nth_error ys i = nth_error values x) /\
    (length xs <= mc)%nat.
Proof.
  intros Hmc. apply lt_0_INR in Hmc as HmcR. unfold estimate_change_points. rewrite nat2F_INR, pdiv_R by lra. cbn [rbind].
  set (n := length values). set (mi := n1 / INR mc).
  assert (Hmi : 0 < mi) by (unfold mi; rnum; apply Rdiv_lt_0_compat; lra).
  destruct (cp_loop_ok values n mi eq_refl (n - 1) 0 (mkCP [] false n0)) as (st & E & I1 & I2).
  { lia. } { split; [constructor|exact I]. }
  rewrite E. cbn [rbind]. rewrite Nat.add_0_l in I1. 
  assert (G : exists pts, cp_finish values n mi (cp_pts st) = Ok pts /\ placed values n pts /\ spaced n mi pts).
  { destruct (cp_pts st) as [|p [|q t]] eqn:Ep.
    - eexists. split; [reflexivity|]. split; [constructor|exact I].
    - eexists. split; [reflexivity|]. split; [eapply placed_mono; [|exact I1]; lia|exact I2].
    - inversion I1 as [|? ? [Hp _] I1']; subst. unfold cp_finish, nbget.
      destruct (nth_error values (n - 1)) as [lst|] eqn:El; [|apply nth_error_None in El; unfold n in *; lia].
      cbn [rbind]. assert (Pn : placed values n (p :: q :: t)) by (eapply placed_mono; [|exact I1]; lia).
      apply spaced_cons in I2 as [I2 I3].
      destruct (too_close_spec n mi (fst p) (n - 1)) as [C|C]; eexists; (split; [reflexivity|]).
      + split; [constructor; [split; [cbn [fst]; lia|exact El]|inversion Pn; auto]|].
        apply spaced_cons. split; [|auto]. cbn [fst]. apply lt_INR in Hp. lra.
      + split; [constructor; [split; [cbn [fst]; lia|exact El]|auto]|].
        apply spaced_cons. split; [cbn [fst]; lra|]. apply spaced_cons. auto. }
  destruct G as (pts & Epts & Hp & Hs).
  rewrite Epts. cbn [rbind]. do 2 eexists. split; [reflexivity|].
  assert (Hgap : INR n * mi = INR n / INR mc) by (unfold mi; rnum; field; lra).
  assert (Hpos : spaced_positions n (INR n / INR mc) (map fst (rev pts))).
  { split.
    - intros i x Hx. rewrite nth_error_map in Hx. destruct (nth_error (rev pts) i) as [p|] eqn:Ei; [|discriminate].
      simpl in Hx. inversion Hx; subst. apply nth_error_In in Ei. apply in_rev in Ei. unfold placed in Hp. rewrite Forall_forall in Hp.
      apply Hp; auto.
    - intros i x y Hx Hy. rewrite nth_error_map in Hx, Hy.
      destruct (nth_error (rev pts) i) as [p|] eqn:Ei; [|discriminate].
      destruct (nth_error (rev pts) (S i)) as [q|] eqn:Ej; [|discriminate].
      simpl in Hx, Hy. inversion Hx; inversion Hy; subst.
      assert (S i < length pts)%nat by (rewrite <- rev_length; apply nth_error_Some; congruence).
      rewrite nth_error_rev in Ei, Ej by lia.
      replace (length pts - S i)%nat with (S (length pts - S (S i))) in Ei by lia.
      pose proof (spaced_nth n mi pts Hs _ _ _ Ej Ei) as Q. rewrite <- Hgap. split; [|lra].
      apply INR_lt. assert (0 < INR n * mi); [|lra]. apply Rmult_lt_0_compat; auto. apply lt_0_INR.
      apply nth_error_In in Ei. unfold placed in Hp. rewrite Forall_forall in Hp. destruct (Hp _ Ei). lia. }
  split; [exact Hpos|]. split; [now rewrite !map_length|]. split.
  - intros i x Hx. rewrite nth_error_map in *. destruct (nth_error (rev pts) i) as [p|] eqn:Ei; [|discriminate].
    simpl in *. inversion Hx; subst. apply nth_error_In in Ei. apply in_rev in Ei. unfold placed in Hp. rewrite Forall_forall in Hp.
    symmetry. apply Hp; auto.
  - rewrite map_length, rev_length. destruct (Nat.le_gt_cases (length pts) mc) as [L|L]; auto. exfalso.
    assert (L' : (mc < length (map fst (rev pts)))%nat) by (rewrite map_length, rev_length; auto).
    destruct (nth_error (map fst (rev pts)) 0) as [x0|] eqn:E0; [|apply nth_error_None in E0; lia].
    destruct (nth_error (map fst (rev pts)) mc) as [x|] eqn:Ex; [|apply nth_error_None in Ex; lia].
    assert (Hg : 0 <= INR n / INR mc). { apply Rmult_le_pos; [apply pos_INR|left; apply Rinv_0_lt_compat; auto]. }
    pose proof (spaced_total n _ _ Hg Hpos mc x0 x E0 Ex) as Q.
    assert (Hxn : (x < n)%nat) by (destruct Hpos as [H _]; eapply H; eauto). apply lt_INR in Hxn.
    pose proof (pos_INR x0). replace (INR mc * (INR n / INR mc)) with (INR n) in Q by (field; lra). lra.
Qed.
End CP2.

(** ** The three-cluster fallback: closed form, for every number type *)
Section Three.
Context {F : Type} {N : Num F}.
Lemma make_odd_spec (l : list F) : 2 <= length l ->
  exists vals, make_odd l = Ok vals /\
    ((Nat.odd (length l) = true /\ vals = l) \/
     (exists pre a b post, l = pre ++ a :: b :: post /\ length pre = length post /\
        vals = pre ++ a :: middle_value a b :: b :: post)).
Proof.
  intros Hl. unfold make_odd. destruct (Nat.even (length l)) eqn:Ev.
  - apply Nat.even_spec in Ev as (k & Ek). assert (Hk : 1 <= k) by lia.
    destruct l as [|x0 l0] eqn:El; [simpl in Hl; lia|]. rewrite <- El in *. clear El.
    assert (Hd : Nat.div2 (length l) = k) by (rewrite Ek; apply Nat.div2_double). rewrite Hd.
    destruct (nth_error l (k - 1)) as [a|] eqn:Ea; [|apply nth_error_None in Ea; lia].
    destruct (nth_error_split _ _ Ea) as (pre & r & E1 & E2).
    destruct r as [|b post]; [apply (f_equal (@length F)) in E1; rewrite app_length in E1; simpl in E1; lia|].
    assert (Hlp : length pre = length post).
    { apply (f_equal (@length F)) in E1. rewrite app_length in E1. simpl in E1. lia. }
    assert (Eb : nth_error l (k - 1 + 1) = Some b).
    { rewrite E1, nth_error_app2 by lia. replace (k - 1 + 1 - length pre) with 1 by lia. reflexivity. }
    assert (Elen : match length l with 0 => Err EIndex | _ => (a <- lget l (k - 1) ;; b <- lget l (k - 1 + 1) ;;
       Ok (firstn (k - 1 + 1) l ++ [middle_value a b] ++ skipn (k - 1 + 1) l))%res end
       = Ok (pre ++ a :: middle_value a b :: b :: post)).
    { destruct (length l) as [|q]; [lia|]. unfold lget. rewrite Ea. cbn [rbind]. rewrite Eb. cbn [rbind].
      f_equal. rewrite E1.
      rewrite firstn_app, skipn_app, firstn_all2, skipn_all2 by lia.
      replace (k - 1 + 1 - length pre) with 1 by lia. cbn [firstn skipn app]. rewrite <- app_assoc. reflexivity. }
    eexists. split; [exact Elen|]. right. exists pre, a, b, post. auto.
  - eexists. split; [reflexivity|]. left. rewrite <- Nat.negb_even, Ev. auto.
Qed.

(** membership triple of the i-th of 2k+1 values *)
Definition three_row (k i : nat) : F * F * F :=
  let up (j : nat) := ndiv (nat2F j) (nat2F (k + 1)) in
  if Nat.eqb i 0 then (n1, n0, n0)
  else if Nat.eqb i (2 * k) then (n0, n0, n1)
  else if Nat.eqb i (k + 1) then (n0, n1, n0)
  else if Nat.eqb i k then (n0, up k, n0)
  else if Nat.ltb i k then (nsub n1 (up i), up i, n0)
  else (n0, up (2 * k - i), nsub n1 (up (2 * k - i))).

Definition partial_row (k p i : nat) : F * F * F :=
  let up (j : nat) := ndiv (nat2F j) (nat2F (k + 1)) in
  if Nat.eqb i k then (if Nat.ltb k p then (n0, up k, n0) else (n0, n0, n0))
  else if Nat.ltb i k then (if Nat.ltb i p then (nsub n1 (up i), up i, n0) else (n0, n0, n0))
  else (if Nat.ltb (2 * k - i) p then (n0, up (2 * k - i), nsub n1 (up (2 * k - i))) else (n0, n0, n0)).

Lemma list_ext_nth {A} (l : list A) (f : nat -> A) n :
  length l = n -> (forall i, i < n -> nth_error l i = Some (f i)) -> l = map f (seq 0 n).
Proof.
  intros H1 H2. apply nth_error_ext'; [now rewrite map_length, seq_length|].
  intros i Hi. rewrite H2 by lia. rewrite nth_error_map. rewrite (nth_error_nth' _ 0) by (rewrite seq_length; lia).
  rewrite seq_nth by lia. reflexivity.
Qed.
Lemma zset_nth {A} (l : list A) i v : i < length l -> zset l (Z.of_nat i) v = Ok (upd l i v).
Proof. intros H. rewrite zset_ok by lia. now rewrite Nat2Z.id. Qed.
Lemma zget_nth {A} (l : list A) i x : nth_error l i = Some x -> zget l (Z.of_nat i) = Ok x.
Proof.
  intros H. unfold zget. destruct (Z.ltb_spec (Z.of_nat i) 0); [lia|]. unfold lget. rewrite Nat2Z.id, H. reflexivity.
Qed.
Lemma nth_error_upd_same {A} (l : list A) i v : i < length l -> nth_error (upd l i v) i = Some v.
Proof. intros H. rewrite nth_error_upd, Nat.eqb_refl. apply Nat.ltb_lt in H. now rewrite H. Qed.
Lemma nth_error_upd_other {A} (l : list A) i j v : j <> i -> nth_error (upd l i v) j = nth_error l j.
Proof. intros H. rewrite nth_error_upd. destruct (Nat.eqb_spec j i); congruence. Qed.
Lemma fill_pos_ok k p m : 1 <= k -> p <= k -> length m = 2 * k + 1 ->
  (forall i, i < 2 * k + 1 -> nth_error m i = Some (partial_row k p i)) ->
  exists m', fill_pos (k + 1) (2 * Z.of_nat k) m p = Ok m' /\ length m' = 2 * k + 1 /\
    forall i, i < 2 * k + 1 -> nth_error m' i = Some (partial_row k (S p) i).
Proof.
  intros Hk Hp Hm Hi. unfold fill_pos.
  set (y := ndiv (nat2F p) (nat2F (k + 1))). cbv zeta.
  rewrite zset_nth by lia. cbn [rbind].
  replace (2 * Z.of_nat k - Z.of_nat p)%Z with (Z.of_nat (2 * k - p)) by lia.
  destruct (Nat.eq_dec p k) as [->|Hne].
  - replace (2 * k - k) with k by lia.
    rewrite (zget_nth _ k (nsub n1 y, y, n0)) by (apply nth_error_upd_same; lia). cbn [rbind].
    rewrite zset_nth by (rewrite upd_length; lia). cbn [rbind].
    rewrite (zget_nth _ k (n0, y, n0)) by (apply nth_error_upd_same; rewrite upd_length; lia). cbn [rbind].
    rewrite zset_nth by (rewrite !upd_length; lia).
    eexists. split; [reflexivity|]. split; [now rewrite !upd_length|].
    intros i Hlt. destruct (Nat.eq_dec i k) as [->|Hik].
    + rewrite nth_error_upd_same by (rewrite !upd_length; lia). unfold partial_row. rewrite Nat.eqb_refl.
      destruct (Nat.ltb_spec k (S k)); [reflexivity|lia].
    + rewrite !nth_error_upd_other by auto. rewrite Hi by auto. f_equal. unfold partial_row.
      destruct (Nat.eqb_spec i k); [congruence|]. destruct (Nat.ltb_spec i k).
      * destruct (Nat.ltb_spec i k), (Nat.ltb_spec i (S k)); auto; lia.
      * destruct (Nat.ltb_spec (2 * k - i) k), (Nat.ltb_spec (2 * k - i) (S k)); auto; lia.
  - assert (Hrow : nth_error m (2 * k - p) = Some (n0, n0, n0)).
    { rewrite Hi by lia. f_equal. unfold partial_row. destruct (Nat.eqb_spec (2 * k - p) k); [lia|].
      destruct (Nat.ltb_spec (2 * k - p) k); [lia|]. destruct (Nat.ltb_spec (2 * k - (2 * k - p)) p); [lia|reflexivity]. }
    rewrite (zget_nth _ (2 * k - p) (n0, n0, n0)) by (rewrite nth_error_upd_other by lia; auto). cbn [rbind].
    rewrite zset_nth by (rewrite upd_length; lia). cbn [rbind].
    rewrite (zget_nth _ p (nsub n1 y, y, n0)) by (rewrite nth_error_upd_other by lia; apply nth_error_upd_same; lia).
    cbn [rbind]. rewrite zset_nth by (rewrite !upd_length; lia).
    eexists. split; [reflexivity|]. split; [now rewrite !upd_length|].
    intros i Hlt. destruct (Nat.eq_dec i (2 * k - p)) as [->|H1].
    + rewrite nth_error_upd_same by (rewrite !upd_length; lia). unfold partial_row.
      destruct (Nat.eqb_spec (2 * k - p) k); [lia|]. destruct (Nat.ltb_spec (2 * k - p) k); [lia|].
      replace (2 * k - (2 * k - p)) with p by lia. destruct (Nat.ltb_spec p (S p)); [reflexivity|lia].
    + rewrite !nth_error_upd_other by auto. destruct (Nat.eq_dec i p) as [->|H2].
      * rewrite nth_error_upd_same by lia. unfold partial_row. destruct (Nat.eqb_spec p k); [lia|].
        destruct (Nat.ltb_spec p k); [|lia]. destruct (Nat.ltb_spec p (S p)); [reflexivity|lia].
      * rewrite nth_error_upd_other by auto. rewrite Hi by auto. f_equal. unfold partial_row.
        destruct (Nat.eqb_spec i k).
        -- destruct (Nat.ltb_spec k p), (Nat.ltb_spec k (S p)); auto; lia.
        -- destruct (Nat.ltb_spec i k).
           ++ destruct (Nat.ltb_spec i p), (Nat.ltb_spec i (S p)); auto; lia.
           ++ destruct (Nat.ltb_spec (2 * k - i) p), (Nat.ltb_spec (2 * k - i) (S p)); auto; lia.
Qed.
Lemma fill_loop_ok k c : forall p m, 1 <= k -> p + c <= k + 1 -> length m = 2 * k + 1 ->
  (forall i, i < 2 * k + 1 -> nth_error m i = Some (partial_row k p i)) ->
  exists m', rfold (fill_pos (k + 1) (2 * Z.of_nat k)) (seq p c) m = Ok m' /\ length m' = 2 * k + 1 /\
    forall i, i < 2 * k + 1 -> nth_error m' i = Some (partial_row k (p + c) i).
Proof.
  induction c as [|c IH]; intros p m Hk Hp Hm Hi.
  - exists m. rewrite Nat.add_0_r. auto.
  - cbn [seq rfold]. destruct (fill_pos_ok k p m Hk ltac:(lia) Hm Hi) as (m1 & E & L & I1). rewrite E. cbn [rbind].
    destruct (IH (S p) m1 Hk ltac:(lia) L I1) as (m2 & E2 & L2 & I2). exists m2.
    replace (p + S c) with (S p + c) by lia. auto.
Qed.
Lemma nth_error_repeat' {A} (x : A) n i : i < n -> nth_error (repeat x n) i = Some x.
Proof. revert i. induction n; intros [|i] H; simpl; try lia; auto. apply IHn. lia. Qed.
Lemma create_three_spec (l : list F) : 2 <= length l ->
  exists vals k, make_odd l = Ok vals /\ 1 <= k /\ length vals = 2 * k + 1 /\
    create_three_clusters l = Ok (vals,
      let m := map (three_row k) (seq 0 (2 * k + 1)) in
      [map (fun c => fst (fst c)) m; map (fun c => snd (fst c)) m; map snd m]).
Proof.
  intros Hl. destruct (make_odd_spec l Hl) as (vals & E & H). exists vals.
  assert (Ho : exists k, 1 <= k /\ length vals = 2 * k + 1).
  { destruct H as [[H ->]|(pre & a & b & post & E1 & E2 & ->)].
    - apply Nat.odd_spec in H as (k & Hk). exists k. lia.
    - exists (length post + 1). rewrite app_length. simpl. lia. }
  destruct Ho as (k & Hk & Lk). exists k. split; [auto|]. split; [auto|]. split; [auto|].
  unfold create_three_clusters. rewrite E. cbn [rbind]. rewrite Lk.
  assert (Hd : Nat.div2 (2 * k + 1) = k) by (rewrite Nat.add_1_r; apply Nat.div2_succ_double). rewrite Hd.
  replace (Z.of_nat (2 * k + 1) - 1)%Z with (2 * Z.of_nat k)%Z by lia.
  destruct (fill_loop_ok k (k + 1) 0 (repeat (n0, n0, n0) (2 * k + 1))) as (m & Em & Lm & Im); auto; try lia.
  { apply repeat_length. }
  { intros i Hi. rewrite nth_error_repeat' by auto. f_equal. unfold partial_row.
    destruct (Nat.eqb i k); [destruct (Nat.ltb_spec k 0); auto; lia|].
    destruct (Nat.ltb i k); [destruct (Nat.ltb_spec i 0); auto; lia|].
    destruct (Nat.ltb_spec (2 * k - i) 0); auto; lia. }
  rewrite Em. cbn [rbind].
  change 0%Z with (Z.of_nat 0). rewrite zset_nth by lia. cbn [rbind].
  rewrite zset_nth by (rewrite upd_length; lia). cbn [rbind].
  replace (2 * Z.of_nat k)%Z with (Z.of_nat (2 * k)) by lia.
  rewrite zset_nth by (rewrite !upd_length; lia). cbn [rbind].
  assert (EM : upd (upd (upd m 0 (n1, n0, n0)) (k + 1) (n0, n1, n0)) (2 * k) (n0, n0, n1)
             = map (three_row k) (seq 0 (2 * k + 1))).
  { apply list_ext_nth; [now rewrite !upd_length|]. intros i Hi. unfold three_row.
    destruct (Nat.eqb_spec i 0) as [->|H0].
    { rewrite !nth_error_upd_other by lia. apply nth_error_upd_same. lia. }
    destruct (Nat.eqb_spec i (2 * k)) as [->|H1].
    { apply nth_error_upd_same. rewrite !upd_length. lia. }
    rewrite nth_error_upd_other by auto.
    destruct (Nat.eqb_spec i (k + 1)) as [->|H2].
    { apply nth_error_upd_same. rewrite !upd_length. lia. }
    rewrite !nth_error_upd_other by auto. rewrite Im by auto. f_equal. unfold partial_row.
    destruct (Nat.eqb_spec i k).
    { destruct (Nat.ltb_spec k (0 + (k + 1))); [reflexivity|lia]. }
    destruct (Nat.ltb_spec i k).
    { destruct (Nat.ltb_spec i (0 + (k + 1))); [reflexivity|lia]. }
    destruct (Nat.ltb_spec (2 * k - i) (0 + (k + 1))); [reflexivity|lia]. }
  rewrite EM. reflexivity.
Qed.
End Three.
