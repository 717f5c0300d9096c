(** SepFacts2.v — facts used for separated data: strict comparisons of activations
    and decisions, the winning class, links between blocks (C93). *)
From Coq Require Import Reals Lra.
From Verif Require Import Base BaseFacts Num Functions Spec SortFacts RealFacts FunctionsFacts RlFacts Fcm FcmSpec DynSpec FcmOrder FcmVec5 Dynamics2 LearnUtils LearnSpec LearnFacts Assoc Estimator AssocSpec AssocResult EstSpec EstFacts8 SepSpec SepFacts.
Local Open Scope R_scope.

(** ** Activation *)
Lemma hip_strict l u v : 0 < l -> - (l * v) < 500 -> u < v -> sigmoid_hip u l < sigmoid_hip v l.
Proof.
  intros Hl Hv Huv. rewrite !sigmoid_hip_eq, !hip_alt.
  assert (Rmin 500 (- (l * v)) < Rmin 500 (- (l * u))).
  { rewrite (Rmin_right 500 (- (l * v))) by lra. pose proof (Rmult_lt_compat_l l u v Hl Huv). unfold Rmin. destruct (Rle_dec _ _); lra. }
  pose proof (exp_increasing _ _ H) as E. pose proof (exp_pos (Rmin 500 (- (l * v)))). pose proof (exp_pos (Rmin 500 (- (l * u)))).
  assert (/ (1 + exp (Rmin 500 (- (l * u)))) < / (1 + exp (Rmin 500 (- (l * v))))).
  { apply Rinv_lt_contravar; [apply Rmult_lt_0_compat; lra|lra]. }
  unfold Rdiv. lra.
Qed.
Definition live (a : args R) (v : R) : Prop := - (parameter a "lambda_val" 2 * v) < 500.
Lemma telling_strict f a k fn u v y z : telling f a k -> get_function_by_name f = Some fn ->
  (f <> "sigmoid" -> live a v) -> u < v ->
  call_actv fn u a = Ok y -> call_actv fn v a = Ok z -> y < z.
Proof.
  intros Hf Hg Hv Huv.
  destruct Hf as [[-> Hl]|[[<-|[<-|[]]] [Hl Hk]]]; injection Hg as <-; cbn [call_actv]; intros E1 E2;
    apply rbind_ok in E1 as (? & _ & E1); apply rbind_ok in E2 as (? & _ & E2);
    (apply rbind_ok in E1 as (l & El & E1); apply rbind_ok in E2 as (l' & El' & E2);
         rewrite El in El'; injection El' as <-; apply kw_parameter in El; unfold n1, n2, nm1 in El; cbn [nofZ RNum] in El;
         unfold live in Hv; rewrite <- El in Hl; try rewrite <- El in Hv).
  - apply Ok_inj in E1; apply Ok_inj in E2; subst y z. now apply sigmoid_mono.
  - apply Ok_inj in E1; apply Ok_inj in E2; subst y z. apply hip_strict; auto. apply Hv. discriminate.
  - apply Ok_inj in E1; apply Ok_inj in E2; subst y z. apply hip_strict; auto. apply Hv. discriminate.
Qed.
Lemma telling_increasing f a k : telling f a k -> increasing_function f a.
Proof. intros [[-> H]|[H [H' _]]]; unfold increasing_function; [right; left|right; right; left]; split; auto; lra. Qed.
Lemma telling_range f a k fn u y : telling f a k -> get_function_by_name f = Some fn -> call_actv fn u a = Ok y -> -1 <= y <= 1.
Proof.
  intros Hf Hg.
  destruct Hf as [[-> Hl]|[[<-|[<-|[]]] [Hl Hk]]]; injection Hg as <-; cbn [call_actv]; intros E1;
    apply rbind_ok in E1 as (? & _ & E1); try (apply rbind_ok in E1 as (l & El & E1)); apply Ok_inj in E1; subst y.
  - pose proof (sigmoid_range u l). lra.
  - pose proof (sigmoid_hip_range u l). lra.
  - pose proof (sigmoid_hip_range u l). lra.
Qed.

(** ** Decisions *)
Lemma nth_map_seq {A} (f : nat -> A) n k : (k < n)%nat -> nth_error (map f (seq 0 n)) k = Some (f k).
Proof. intros H. rewrite nth_error_map, (nth_error_nth' _ 0%nat) by (now rewrite seq_length). now rewrite seq_nth. Qed.
Lemma firstn_map_seq {A} (f : nat -> A) n k : (k <= n)%nat -> firstn k (map f (seq 0 n)) = map f (seq 0 k).
Proof.
  intros H. replace n with (k + (n - k))%nat by lia. rewrite seq_app, map_app, firstn_app, map_length, seq_length.
  replace (k - k)%nat with 0%nat by lia. cbn [firstn]. rewrite app_nil_r. rewrite firstn_all2; auto. now rewrite map_length, seq_length.
Qed.
Lemma decision_lt d (f1 f2 : nat -> R) n p v1 v2 : (2 <= n)%nat -> (p < Z.of_nat n)%Z ->
  (d = DLast /\ (forall k, (1 <= k < n)%nat -> f2 k < f1 k)) \/
  (d = DMean /\ (forall k, (k < n)%nat -> f2 k <= f1 k) /\ f2 1%nat < f1 1%nat) ->
  exec_decision d (map f1 (seq 0 n)) p = Ok v1 -> exec_decision d (map f2 (seq 0 n)) p = Ok v2 -> v2 < v1.
Proof.
  intros Hn Hp Hd E1 E2.
  destruct (Z.leb_spec p 0) as [P|P].
  - destruct Hd as [[-> H]|[-> [H H1]]].
    + assert (G : forall f : nat -> R, exec_decision DLast (map f (seq 0 n)) p = Ok (f (n - 1)%nat)).
      { intros f. replace n with (n - 1 + 1)%nat at 1 by lia. rewrite seq_app, map_app. cbn [seq map]. 
        replace (0 + (n - 1))%nat with (n - 1)%nat by lia. apply decision_last_nonpos; auto. }
      rewrite G in E1, E2. apply Ok_inj in E1. apply Ok_inj in E2. subst. apply H. lia.
    + assert (G : forall f : nat -> R, exec_decision DMean (map f (seq 0 n)) p = Ok (Rsum (map f (seq 0 n)) / INR n)).
      { intros f. cbn [exec_decision]. rewrite decision_mean_nonpos; auto; [|intros X; apply (f_equal (@length R)) in X; rewrite map_length, seq_length in X; cbn in X; lia]. now rewrite map_length, seq_length. }
      rewrite G in E1, E2. apply Ok_inj in E1. apply Ok_inj in E2. subst. unfold Rdiv. apply Rmult_lt_compat_r.
      * apply Rinv_0_lt_compat, lt_0_INR. lia.
      * apply (Rsum_lt _ _ _ 1%nat); auto; [intros k Hk; apply in_seq in Hk; apply H; lia|apply in_seq; lia].
  - set (q := Z.to_nat p). assert (Hq : p = Z.of_nat q) by (unfold q; lia).
    destruct Hd as [[-> H]|[-> [H H1]]].
    + assert (G : forall f : nat -> R, exec_decision DLast (map f (seq 0 n)) p = Ok (f q)).
      { intros f. apply decision_last_pos; auto. apply nth_map_seq. lia. }
      rewrite G in E1, E2. apply Ok_inj in E1. apply Ok_inj in E2. subst v1 v2. apply H. lia.
    + assert (G : forall f : nat -> R, exec_decision DMean (map f (seq 0 n)) p = Ok (Rsum (map f (seq 0 (q + 1))) / (IZR p + 1))).
      { intros f. cbn [exec_decision]. rewrite decision_mean_pos by (rewrite map_length, seq_length; lia). fold q. rewrite firstn_map_seq by lia. reflexivity. }
      rewrite G in E1, E2. apply Ok_inj in E1. apply Ok_inj in E2. subst v1 v2. unfold Rdiv. apply Rmult_lt_compat_r.
      * apply Rinv_0_lt_compat. pose proof (IZR_lt 0 p P). lra.
      * apply (Rsum_lt _ _ _ 1%nat); auto; [intros k Hk; apply in_seq in Hk; apply H; lia|apply in_seq; lia].
Qed.

(** ** The winning class *)
Lemma best_unique (outs : list (string * R)) t v : In (t, v) outs -> (forall z, In z outs -> -1 <= snd z) ->
  (forall t' v', In (t', v') outs -> t' <> t -> v' < v) -> fst (best_class outs) = t.
Proof.
  intros Hi Hlo Hm. assert (Ne : outs <> []) by (intros ->; easy).
  destruct (best_spec outs _ Ne eq_refl) as [(i & w & B1 & B2 & B3 & B4)|[(w & B1) B2]].
  - apply nth_error_In in B1. destruct (string_dec (fst (best_class outs)) t) as [E|E]; auto. specialize (Hm _ _ B1 E). specialize (B3 _ Hi). cbn [snd] in B3. lra.
  - apply nth_error_In in B1. destruct (string_dec (fst (best_class outs)) t) as [E|E]; auto. specialize (Hm _ _ B1 E).
    specialize (Hlo _ B1). specialize (B2 _ Hi). cbn [snd] in *. lra.
Qed.

(** ** Links between blocks *)
Lemma same_coefs n r c : hit_row n r -> coefs r r c -> c = (Rsum r, 0, 0, INR n - Rsum r).
Proof.
  intros (L & _ & F) (_ & ->). rewrite !nsum_Rsum. change nmul with Rmult. change nsub with Rminus. change n1 with 1.
  assert (E : forall f : R -> R -> R, map (fun xy => f (fst xy) (snd xy)) (combine r r) = map (fun x => f x x) r).
  { clear. intros f. induction r as [|x r IH]; auto. cbn. now rewrite IH. }
  rewrite (E Rmult), (E (fun x y => x * (1 - y))), (E (fun x y => (1 - x) * y)), (E (fun x y => (1 - x) * (1 - y))).
  assert (E1 : Rsum (map (fun x => x * x) r) = Rsum r).
  { clear - F. induction F as [|x r Hx _ IH]; auto. cbn [map]. rewrite !Rsum_cons1, IH. destruct Hx as [->| ->]; lra. }
  assert (E2 : forall f, (forall x, x = 0 \/ x = 1 -> f x = 0) -> Rsum (map f r) = 0).
  { intros f Hf. clear - F Hf. induction F as [|x r Hx _ IH]; cbn [map]; rewrite ?Rsum_nil, ?Rsum_cons1; auto. rewrite IH, (Hf x Hx). lra. }
  assert (E3 : Rsum (map (fun x => (1 - x) * (1 - x)) r) = INR n - Rsum r).
  { rewrite <- L. clear - F. induction F as [|x r Hx _ IH]; cbn [map length]; rewrite ?Rsum_nil, ?Rsum_cons1; [cbn; lra|]. rewrite IH, S_INR. destruct Hx as [->| ->]; lra. }
  rewrite E1, E3, (E2 (fun x => x * (1 - x))), (E2 (fun x => (1 - x) * x)); auto; intros x [->| ->]; lra.
Qed.
Lemma hit_pos n r : hit_row n r -> 0 < Rsum r <= INR n /\ 0 < INR n.
Proof.
  intros (L & I & F). assert (P : Forall (fun x => 0 <= x) r) by (apply Forall_impl with (2 := F); intros x []; lra).
  pose proof (Rsum_le_In r 1 P I). assert (Rsum r <= INR n).
  { rewrite <- L. clear - F. induction F as [|x r Hx _ IH]; cbn [length]; rewrite ?Rsum_nil, ?Rsum_cons1; [cbn; lra|]. rewrite S_INR. destruct Hx as [->| ->]; lra. }
  lra.
Qed.
Section Link.
Variable cf : gconf R.
Hypothesis Ev : c_eval cf = rel_supp.
Hypothesis Th : 0 <= c_thr cf.
Hypothesis Ca : c_caus cf = rel_conf \/ c_caus cf = rel_pos_inf.
Hypothesis Sg : c_sign cf = None.
Lemma supp_same n r : hit_row n r -> rel_supp (Rsum r) 0 0 (INR n - Rsum r) = Ok (Rsum r / INR n).
Proof. intros H. apply hit_pos in H. unfold rel_supp. rewrite pdiv_R; [|rnum; lra]. rnum. f_equal. f_equal. lra. Qed.
Lemma caus_same n r : hit_row n r -> measure (c_caus cf) (Rsum r, 0, 0, INR n - Rsum r) 1.
Proof.
  intros H. apply hit_pos in H. cbn [measure]. destruct Ca as [-> | ->].
  - unfold rel_conf. destruct (neqb _ n0) eqn:E; [apply Reqb_true in E; rnum; lra|]. rewrite pdiv_R by (rnum; lra). rnum. f_equal. field. lra.
  - unfold rel_pos_inf. rewrite (proj2 (Reqb_true _ _)) by (rnum; lra). rewrite pdiv_R by (rnum; lra). cbn [rbind].
    destruct (neqb (nadd (Rsum r) (INR n - Rsum r)) n0) eqn:E; [apply Reqb_true in E; rnum; lra|].
    rewrite pdiv_R by (rnum; lra). cbn [rbind]. rewrite pdiv_R by (rnum; lra). cbn [rbind].
    rewrite (proj2 (Rltb_true _ _)); [|rnum; unfold Rdiv; rewrite !Rmult_0_l; apply Rmult_lt_0_compat; [lra|apply Rinv_0_lt_compat; lra]].
    rnum. f_equal. field. lra.
Qed.
Lemma measure_det f (c : coeffs R) u v : measure f c u -> measure f c v -> u = v.
Proof. destruct c as [[[a b] d] e]. cbn. intros H1 H2. rewrite H1 in H2. now apply Ok_inj in H2. Qed.
Lemma coefs_self r : exists c, coefs r r c.
Proof. eexists. split; [reflexivity|]. cbv zeta. reflexivity. Qed.
Lemma link_same n r ta tb w : hit_row n r -> c_thr cf * INR n < Rsum r ->
  (link cf ta tb r r w <-> (c_double cf = true \/ (ta = false /\ tb = true)) /\ w = 1).
Proof.
  intros H Hf. pose proof (hit_pos n r H) as [Hp Hn].
  destruct (coefs_self r) as [c0 Hc0]. pose proof (same_coefs n r c0 H Hc0) as E0. subst c0. split.
  - intros [Hw (c & e & v & s & Hc & _ & _ & Hv & Hs & -> & _)]. rewrite (same_coefs n r c H Hc) in Hv.
    pose proof (measure_det _ _ _ _ Hv (caus_same n r H)) as ->. unfold sign_of in Hs. rewrite Sg in Hs. subst s. split; [|rnum; lra].
    destruct Hw as [Hw|[(_ & c1 & c2 & v1 & v2 & K1 & K2 & M1 & M2 & Hl)|Hw]]; auto.
    rewrite (same_coefs n r c1 H K1) in M1. rewrite (same_coefs n r c2 H K2) in M2. pose proof (measure_det _ _ _ _ M1 M2) as ->.
    apply Rltb_true in Hl. lra.
  - intros [Hw ->]. split; [destruct Hw; [now left|right; now right]|].
    exists (Rsum r, 0, 0, INR n - Rsum r), (Rsum r / INR n), 1, 1. split; auto. split; [rewrite Ev; now apply supp_same|].
    split.
    { apply Rltb_true. rnum. rewrite Rabs_pos_eq; [|apply Rmult_le_pos; [lra|left; now apply Rinv_0_lt_compat]].
      apply (Rmult_lt_reg_r (INR n)); auto. unfold Rdiv. rewrite Rmult_assoc, Rinv_l by lra. lra. }
    split; [now apply caus_same|]. split; [unfold sign_of; rewrite Sg; reflexivity|]. split; [rnum; lra|]. apply Reqb_false. rnum. lra.
Qed.
Lemma link_disjoint ra rb ta tb w : (forall xy, In xy (combine ra rb) -> fst xy * snd xy = 0) -> ~ link cf ta tb ra rb w.
Proof.
  intros H [_ (c & e & v & s & Hc & He & Hl & _)]. destruct Hc as [_ ->]. rewrite Ev in He. cbn [measure] in He.
  assert (Z : nsum (map (fun xy : R * R => nmul (fst xy) (snd xy)) (combine ra rb)) = 0).
  { rewrite nsum_Rsum. change nmul with Rmult. clear - H. induction (combine ra rb) as [|z l IH]; cbn [map]; rewrite ?Rsum_nil, ?Rsum_cons1; auto.
    rewrite (H z) by now left. rewrite IH; [lra|]. intros; apply H; now right. }
  rewrite Z in He. unfold rel_supp, pdiv in He. destruct (neqb _ n0) eqn:E; [discriminate|]. apply Ok_inj in He. subst e.
  apply Rltb_true in Hl. revert Hl. rnum. unfold Rdiv. rewrite Rmult_0_l, Rabs_R0. lra.
Qed.
End Link.
