(** RlFacts.v — facts about the robust c-means model, over the reals. *)
From Coq Require Import Reals Lra.
From Verif Require Import Base BaseFacts Num Spec RealFacts Functions LearnUtils LearnSpec LearnFacts CmeansFacts RlCmeans.
Local Open Scope R_scope.

Lemma rmap_const {A B} (f : A -> res B) (g : A -> B) l : (forall a, In a l -> f a = Ok (g a)) -> rmap f l = Ok (map g l).
Proof.
  induction l as [|a l IH]; intros H; [reflexivity|]. cbn [rmap]. rewrite (H a (or_introl eq_refl)).
  cbn [rbind]. rewrite IH by (intros; apply H; simpl; auto). reflexivity.
Qed.
Lemma pdiv_R a b : b <> 0 -> pdiv a b = Ok (a / b).
Proof. intros H. unfold pdiv. rnum. destruct (Reqb_spec b 0); congruence. Qed.
Lemma nat2F_INR n : nat2F (F := R) n = INR n.
Proof. unfold nat2F. cbn [nofZ RNum]. symmetry. apply INR_IZR_INZ. Qed.
Lemma rescale_spec (l : list R) : l <> [] -> Forall (fun x => 0 < x) l ->
  Forall (fun x => 0 < x <= 1) (rescale l) /\ Rsum (rescale l) = 1.
Proof. apply normalize_column_spec. Qed.

(** ** compute_u *)
Lemma compute_u_ok (data v alpha : list R) r1 r2 : r2 <> 0 -> length v = length alpha -> alpha <> [] ->
  exists u, compute_u data v alpha r1 r2 = Ok u /\ row_partition (length data) (length alpha) u.
Proof.
  intros Hr Hl Ha. unfold compute_u.
  set (term := fun (x : R) (va : R * R) =>
     exp ((- (Rabs (x - fst va) * Rabs (x - fst va)) + r1 * ln (snd va)) / r2)).
  assert (T : forall x, rmap (fun va => compute_u_term x (fst va) (snd va) r1 r2) (combine v alpha)
                    = Ok (map (term x) (combine v alpha))).
  { intros x. apply rmap_const. intros va _. unfold compute_u_term, nopp. rewrite pdiv_R by auto. cbn [rbind].
    unfold term. rnum. do 2 f_equal. f_equal. f_equal. lra. }
  assert (Hne : combine v alpha <> []).
  { destruct v, alpha; try discriminate; try congruence. }
  assert (P : forall x, 0 < Rsum (map (term x) (combine v alpha))).
  { intros x. apply Rsum_pos; [intros E; apply map_eq_nil in E; congruence|].
    apply Forall_forall. intros y Hy. apply in_map_iff in Hy as (z & <- & _). apply exp_pos. }
  rewrite (rmap_const _ (fun x => normalize_column (map (term x) (combine v alpha)))).
  - eexists. split; [reflexivity|]. split.
    + split; [apply map_length|]. apply Forall_forall. intros row Hrow. apply in_map_iff in Hrow as (x & <- & _).
      rewrite normalize_column_length, map_length, combine_length. lia.
    + apply Forall_forall. intros row Hrow. apply in_map_iff in Hrow as (x & <- & _).
      apply normalize_column_spec; [intros E; apply map_eq_nil in E; congruence|].
      apply Forall_forall. intros y Hy. apply in_map_iff in Hy as (z & <- & _). apply exp_pos.
  - intros x _. rewrite T. cbn [rbind]. unfold normalize_column. apply rmap_const. intros t _.
    rewrite nsum_Rsum, pdiv_R by (specialize (P x); lra). reflexivity.
Qed.

(** ** update_alpha keeps the total *)
Lemma fold_add_const (g : list R -> R) (u : list (list R)) k a :
  fold_left (fun acc r => acc + (g r + k)) u a = a + Rsum (map g u) + INR (length u) * k.
Proof.
  revert a. induction u as [|r u IH]; intros a; cbn [fold_left map Rsum fold_right length].
  - unfold Rsum; simpl; lra.
  - rewrite IH, S_INR. unfold Rsum. lra.
Qed.
Lemma Rsum_double (u : list (list R)) (c : nat) : Forall (fun r => length r = c) u ->
  Rsum (map (fun k => Rsum (map (fun r => nth k r 0) u)) (seq 0 c)) = Rsum (map Rsum u).
Proof.
  induction 1 as [|r u Hr H IH].
  - change (Rsum (map (fun _ : nat => 0) (seq 0 c)) = 0). generalize (seq 0 c). intros l.
    induction l; unfold Rsum in *; simpl in *; lra.
  - cbn [map]. cbn [Rsum fold_right]. fold (Rsum (map Rsum u)). rewrite <- IH.
    transitivity (Rsum (map (fun k => nth k r 0 + Rsum (map (fun r => nth k r 0) u)) (seq 0 c))); [reflexivity|].
    rewrite Rsum_map_plus. f_equal. subst c. f_equal.
    clear. induction r as [|x r IH]; [reflexivity|]. cbn [length seq map nth]. f_equal.
    rewrite <- seq_shift, map_map. exact IH.
Qed.
Lemma Rsum_map_const {A} (f : A -> R) c l : (forall x, In x l -> f x = c) -> Rsum (map f l) = INR (length l) * c.
Proof.
  induction l as [|a l IH]; intros H; [simpl; unfold Rsum; simpl; lra|]. cbn [map Rsum fold_right length].
  rewrite S_INR. fold (Rsum (map f l)). rewrite IH by (intros; apply H; simpl; auto).
  rewrite (H a (or_introl eq_refl)). lra.
Qed.
Lemma map_combine_snd {A B C} (f : B -> C) (a : list A) (b : list B) : length a = length b ->
  map (fun p => f (snd p)) (combine a b) = map f b.
Proof. revert b; induction a as [|x a IH]; intros [|y b] H; try discriminate; simpl; auto. f_equal. apply IH. simpl in H; lia. Qed.
Lemma map_combine_fst {A B C} (f : A -> C) (a : list A) (b : list B) : length a = length b ->
  map (fun p => f (fst p)) (combine a b) = map f a.
Proof. revert b; induction a as [|x a IH]; intros [|y b] H; try discriminate; simpl; auto. f_equal. apply IH. simpl in H; lia. Qed.
Lemma update_alpha_ok n (u : list (list R)) (alpha : list R) r1 r3 : (0 < n)%nat -> r1 <> 0 ->
  row_partition n (length alpha) u -> Rsum alpha = 1 ->
  exists na, update_alpha u alpha r1 r3 = Ok na /\ length na = length alpha /\ Rsum na = 1.
Proof.
  intros Hn Hr ((Hu & Hc) & Hrow) Ha. unfold update_alpha.
  set (L := nsum (map (fun a => nmul a (log2 a)) alpha)).
  set (g := fun ka : nat * R => (Rsum (map (fun r => nth (fst ka) r 0) u) + INR n * (r3 / r1 * snd ka * (log2 (snd ka) - L))) / INR n).
  assert (HnR : INR n <> 0) by (apply lt_0_INR in Hn; lra).
  rewrite (rmap_const _ g).
  - eexists. split; [reflexivity|]. split; [rewrite map_length, combine_length, seq_length; lia|].
    unfold g. rewrite <- (map_map (fun ka => Rsum (map (fun r => nth (fst ka) r 0) u) + INR n * (r3 / r1 * snd ka * (log2 (snd ka) - L))) (fun x => x / INR n)).
    rewrite Rsum_div, Rsum_map_plus.
    rewrite (map_combine_fst (fun k => Rsum (map (fun r => nth k r 0) u))) by (rewrite seq_length; auto).
    rewrite (map_combine_snd (fun a => INR n * (r3 / r1 * a * (log2 a - L)))) by (rewrite seq_length; auto).
    rewrite Rsum_double by auto.
    rewrite (Rsum_map_const Rsum 1) by (intros r Hr'; rewrite Forall_forall in Hrow; apply Hrow; auto).
    rewrite Hu.
    rewrite (map_ext _ (fun a => (INR n * (r3 / r1)) * (a * log2 a + - L * a))) by (intros; rnum; ring).
    rewrite Rsum_map_scal, Rsum_map_plus, Rsum_map_scal, map_id, Ha.
    unfold L. rewrite nsum_Rsum. rnum. field. split; auto.
  - intros [k a] _. rewrite pdiv_R by auto. cbn [rbind].
    rnum. fold L.
    pose proof (fold_add_const (fun r => nth k r 0) u (r3 / r1 * a * (log2 a - L)) 0) as Q.
    rewrite Hu in Q. rewrite Q. clear Q. rewrite Hu. fold (nat2F (F := R) n). 
    change (IZR (Z.of_nat n)) with (nat2F (F := R) n). rewrite nat2F_INR.
    destruct (Reqb_spec (INR n) 0); [congruence|]. unfold g. cbn [fst snd]. f_equal. f_equal. lra.
Qed.

(** ** update_r3 raises nothing as long as there are two clusters *)
Lemma shares_lt1 (a : list R) x : (2 <= length a)%nat -> shares a -> In x a -> 0 < x < 1.
Proof.
  intros Hl [Hp Hs] Hx. rewrite Forall_forall in Hp. split; [auto|].
  apply in_split in Hx as (l1 & l2 & ->). rewrite Rsum_app in Hs. cbn [Rsum fold_right] in Hs.
  fold (Rsum l2) in Hs. rewrite app_length in Hl. simpl in Hl.
  assert (0 < Rsum (l1 ++ l2)).
  { apply Rsum_pos; [intros E; apply (f_equal (@length R)) in E; rewrite app_length in E; simpl in E; lia|].
    apply Forall_forall. intros y Hy. apply Hp. rewrite in_app_iff in *. simpl. tauto. }
  rewrite Rsum_app in H. unfold Rsum in *. cbn [fold_right] in Hs. lra.
Qed.
Lemma Rsum_neg l : l <> [] -> Forall (fun x => x < 0) l -> Rsum l < 0.
Proof.
  intros Hn H. destruct H as [|x l Hx H]; [congruence|]. cbn [Rsum fold_right].
  assert (G : fold_right Rplus 0 l <= 0). { clear -H. induction H; simpl; lra. } lra.
Qed.
Lemma ln_neg x : 0 < x < 1 -> ln x < 0.
Proof. intros H. rewrite <- ln_1. apply ln_increasing; lra. Qed.
Lemma update_r3_ok n (u : list (list R)) (alpha na : list R) : (0 < n)%nat -> (2 <= length alpha)%nat ->
  shares alpha -> length u = n -> exists r, update_r3 alpha na u = Ok r.
Proof.
  intros Hn Hl Hsh Hu. unfold update_r3. rewrite Hu, !nat2F_INR.
  assert (HnR : INR n <> 0) by (apply lt_0_INR in Hn; lra).
  rewrite (rmap_const _ (fun k => nsum (mcol u k) / INR n)) by (intros; rewrite pdiv_R; auto).
  cbn [rbind].
  assert (HcR : INR (length alpha) <> 0) by (assert (0 < length alpha)%nat by lia; apply lt_0_INR in H; lra).
  rewrite pdiv_R by auto. cbn [rbind].
  set (ku := map _ (seq 0 (length alpha))).
  destruct (max_list_spec ku) as (mk & Ek & _).
  { unfold ku. destruct alpha; [simpl in Hl; lia|discriminate]. }
  rewrite Ek. cbn [rbind].
  set (S0 := nsum (map (fun a => nmul a (nln a)) alpha)).
  assert (HS : S0 < 0).
  { unfold S0. rewrite nsum_Rsum. apply Rsum_neg; [destruct alpha; [simpl in Hl; lia|discriminate]|].
    apply Forall_forall. intros y Hy. apply in_map_iff in Hy as (a & <- & Ha).
    pose proof (shares_lt1 alpha a Hl Hsh Ha) as Q. pose proof (ln_neg a Q). rnum.
    rewrite <- (Rmult_0_r a). apply Rmult_lt_compat_l; lra. }
  destruct (max_list_spec (map (fun a => nmul a S0) alpha)) as (mv & Ev & Hin & _).
  { destruct alpha; [simpl in Hl; lia|discriminate]. }
  rewrite Ev. cbn [rbind]. apply in_map_iff in Hin as (a & <- & Ha).
  pose proof (shares_lt1 alpha a Hl Hsh Ha) as Q.
  rewrite pdiv_R; [eexists; reflexivity|]. unfold nopp. rnum.
  assert (a * S0 < 0) by (rewrite <- (Rmult_0_r a); apply Rmult_lt_compat_l; lra). lra.
Qed.

(** ** Dropping clusters *)
Lemma keep_incl {A} mask (l : list A) x : In x (keep mask l) -> In x l.
Proof.
  unfold keep. intros H. apply in_map_iff in H as ([b y] & <- & H). apply filter_In in H as [H _].
  apply in_combine_r in H. auto.
Qed.
Lemma keep_length {A} mask (l : list A) : length mask = length l -> length (keep mask l) = howmany (fun b => b) mask.
Proof.
  unfold keep, howmany. revert l. induction mask as [|b mask IH]; intros [|x l] H; try discriminate; [reflexivity|].
  cbn [combine filter fst]. simpl in H. destruct b; cbn [map length]; rewrite IH by lia; reflexivity.
Qed.
Lemma keep_bound {A} mask (l : list A) : (length (keep mask l) <= length l)%nat.
Proof.
  unfold keep. rewrite map_length. revert l. induction mask as [|b mask IH]; intros [|x l]; simpl; try lia.
  destruct b; simpl; specialize (IH l); lia.
Qed.
Lemma keep_map_In {A} (p : A -> bool) l x : In x (keep (map p l) l) <-> In x l /\ p x = true.
Proof.
  unfold keep. induction l as [|y l IH]; simpl; [tauto|]. destruct (p y) eqn:E; simpl; rewrite IH; intuition congruence.
Qed.
Lemma keep_mask_R (alpha : list R) n : (0 < n)%nat ->
  keep_mask alpha n = Ok (map (fun a => negb (Rltb a (1 / INR n))) alpha).
Proof.
  intros Hn. apply lt_0_INR in Hn. unfold keep_mask. apply rmap_const. intros a _.
  rewrite nat2F_INR, pdiv_R by lra. reflexivity.
Qed.
(** pigeonhole: of at most n shares adding up to 1, one is at least 1/n *)
Lemma some_large (a : list R) n : (0 < length a <= n)%nat -> Rsum a = 1 -> exists x, In x a /\ 1 / INR n <= x.
Proof.
  intros [Hl Hn] Hs.
  destruct (Exists_dec (fun x => 1 / INR n <= x) a (fun x => Rle_dec _ _)) as [E|E].
  - apply Exists_exists in E as (x & H1 & H2). eauto.
  - exfalso. assert (Hlt : Forall (fun x => x < 1 / INR n) a).
    { apply Forall_forall. intros x Hx. apply Rnot_le_lt. intros H. apply E. apply Exists_exists. eauto. }
    assert (HnR : 0 < INR n) by (apply lt_0_INR; lia).
    assert (G : Rsum a < INR (length a) * (1 / INR n)).
    { clear -Hlt Hl. destruct Hlt as [|x a Hx H]; [simpl in Hl; lia|]. clear Hl.
      revert x Hx. induction H as [|y a Hy H IH]; intros x Hx.
      - cbn [length Rsum fold_right]. simpl INR. lra.
      - specialize (IH y Hy). cbn [length Rsum fold_right] in *. rewrite S_INR. lra. }
    assert (INR (length a) * (1 / INR n) <= 1).
    { apply Rmult_le_reg_r with (INR n); auto. replace (INR (length a) * (1 / INR n) * INR n) with (INR (length a)) by (field; lra).
      rewrite Rmult_1_l. apply le_INR; auto. }
    lra.
Qed.
Lemma resize_ok n (na : list R) (u : list (list R)) : (0 < length na <= n)%nat -> Rsum na = 1 ->
  row_partition n (length na) u ->
  exists a' u', resize_references na u = Ok (a', u') /\
    (1 <= length a' <= length na)%nat /\ shares a' /\ row_partition n (length a') u'.
Proof.
  intros Hl Hs ((Hu & Hc) & Hrow). unfold resize_references. rewrite Hu, keep_mask_R by lia. cbn [rbind].
  set (mask := map _ na). do 2 eexists. split; [reflexivity|].
  assert (Hk : keep mask na <> []).
  { destruct (some_large na n Hl Hs) as (x & Hx & Hge). intros E.
    assert (In x (keep mask na)). { unfold mask. apply keep_map_In. split; auto. apply negb_true_iff. now apply Rltb_false. }
    rewrite E in H. contradiction. }
  assert (HnR : 0 < INR n) by (apply lt_0_INR; lia).
  assert (Hp : Forall (fun x => 0 < x) (keep mask na)).
  { apply Forall_forall. intros x Hx. unfold mask in Hx. apply keep_map_In in Hx as [_ Hx].
    apply negb_true_iff, Rltb_false in Hx. assert (0 < 1 / INR n) by (apply Rdiv_lt_0_compat; lra). lra. }
  assert (Hlen : length mask = length na) by apply map_length.
  assert (Hh : length (keep mask na) = howmany (fun b => b) mask) by (apply keep_length; auto).
  assert (Hr : length (rescale (keep mask na)) = howmany (fun b => b) mask) by (unfold rescale; rewrite map_length; auto).
  split. { rewrite Hr, <- Hh. pose proof (keep_bound mask na). destruct (keep mask na); [congruence|simpl in *; lia]. }
  split. { destruct (rescale_spec _ Hk Hp) as [H1 H2]. split; auto. eapply Forall_impl; [|exact H1]. simpl; intros; lra. }
  rewrite Hr. split.
  - split; [rewrite map_length; auto|]. apply Forall_forall. intros row Hin. apply in_map_iff in Hin as (r & <- & Hin).
    unfold rescale. rewrite map_length. apply keep_length. rewrite Forall_forall in Hc. rewrite (Hc r Hin). auto.
  - apply Forall_forall. intros row Hin. apply in_map_iff in Hin as (r & <- & Hin).
    rewrite Forall_forall in Hc, Hrow. destruct (Hrow r Hin) as [Hr1 _]. apply rescale_spec.
    + intros E. apply (f_equal (@length R)) in E. rewrite keep_length in E by (rewrite (Hc r Hin); auto).
      rewrite <- Hh in E. destruct (keep mask na); [congruence|discriminate].
    + apply Forall_forall. intros x Hx. apply keep_incl in Hx. rewrite Forall_forall in Hr1. specialize (Hr1 x Hx). lra.
Qed.

(** ** Centres stay between the extreme data *)
Lemma update_v_hull lo hi n (data : list R) (u : list (list R)) c : (0 < n)%nat -> length data = n -> row_partition n c u ->
  Forall (fun x => lo <= x <= hi) data -> Forall (fun x => lo <= x <= hi) (update_v data u c).
Proof.
  intros Hn Hd ((Hu & Hc) & Hrow) Hx. unfold update_v. apply Forall_forall. intros y Hy.
  apply in_map_iff in Hy as (k & <- & Hk). apply in_seq in Hk.
  assert (E : zip_with (fun x r => nmul x (nth k r n0)) data u = zip_with nmul (mcol u k) data).
  { assert (L : length data = length u) by lia. clear -L. unfold zip_with, mcol.
    revert u L. induction data as [|x data IH]; intros [|r u] L; try discriminate; [reflexivity|].
    cbn [combine map fst snd]. rewrite IH by (simpl in L; lia). f_equal. rnum. lra. }
  rewrite E. apply weighted_mean_bounds.
  - rewrite mcol_length. lia.
  - intros Q. apply (f_equal (@length R)) in Q. rewrite mcol_length in Q. simpl in Q. lia.
  - apply Forall_forall. intros w Hw. unfold mcol in Hw. apply in_map_iff in Hw as (r & <- & Hr).
    rewrite Forall_forall in Hc, Hrow. destruct (Hrow r Hr) as [H1 _]. rewrite Forall_forall in H1.
    apply H1. apply nth_In. rewrite (Hc r Hr). lia.
  - auto.
Qed.

(** ** The loop *)
Definition rl_good (data v alpha : list R) (u : list (list R)) : Prop :=
  length v = length alpha /\ (1 <= length alpha <= length data)%nat /\ shares alpha /\
  row_partition (length data) (length alpha) u /\
  (forall lo hi, Forall (fun x => lo <= x <= hi) data -> Forall (fun x => lo <= x <= hi) v).
Lemma rl_loop_ok k : forall data err t r1 r2 r3 (v alpha : list R) ou,
  r2 <> 0 -> length v = length alpha -> (2 <= length alpha <= length data)%nat -> shares alpha ->
  (forall u, ou = Some u -> rl_good data v alpha u) ->
  exists v' ou' alpha' t', rl_loop k data err t r1 r2 r3 v alpha ou = Ok (v', ou', alpha', t') /\
    (t <= t' <= t + Z.of_nat k)%Z /\ (k = 0%nat -> ou' = ou) /\
    ((0 < k)%nat -> exists u', ou' = Some u' /\ rl_good data v' alpha' u').
Proof.
  induction k as [|k IH]; intros data err t r1 r2 r3 v alpha ou Hr2 Hv Hl Hsh Hou.
  - do 4 eexists. split; [reflexivity|]. split; [lia|]. split; [auto|lia].
  - cbn [rl_loop].
    destruct (compute_u_ok data v alpha r1 r2 Hr2 Hv) as (u & Eu & Hu); [destruct alpha; [simpl in Hl; lia|discriminate]|].
    rewrite Eu. cbn [rbind].
    set (r1' := nexp (ndiv (nofZ (- t)) (nofZ 10))). set (r2' := nexp (ndiv (nofZ (- t)) (nofZ 100))).
    assert (P1 : 0 < r1') by apply exp_pos. assert (P2 : 0 < r2') by apply exp_pos.
    destruct (update_alpha_ok (length data) u alpha r1' r3) as (na & Ena & Lna & Sna); auto; try lia; try lra.
    { apply Hsh. }
    rewrite Ena. cbn [rbind].
    destruct (update_r3_ok (length data) u alpha na) as (r3' & Er3); auto; try lia.
    { apply Hu. }
    rewrite Er3. cbn [rbind].
    destruct (resize_ok (length data) na u) as (a' & u' & Er & La' & Sa' & Hu'); auto; try lia.
    { rewrite Lna. auto. }
    rewrite Er. cbn [rbind].
    generalize (if ((100 <=? t)%Z && Nat.eqb (length alpha) (length a'))%bool then n0 else r3'). intros r3''.
    assert (Hlv : length (update_v data u' (length a')) = length a') by (unfold update_v; now rewrite map_length, seq_length).
    assert (G : rl_good data (update_v data u' (length a')) a' u').
    { split; [auto|]. split; [lia|]. split; [auto|]. split; [auto|].
      intros lo hi Hx. eapply update_v_hull with (n := length data); auto; lia. }
    destruct (Nat.eqb (length a') 1 || _)%bool eqn:Estop.
    + do 4 eexists. split; [reflexivity|]. split; [lia|]. split; [lia|]. intros _. eauto.
    + apply orb_false_iff in Estop as [E1 _]. apply Nat.eqb_neq in E1.
      destruct (IH data err (t + 1)%Z r1' r2' r3'' (update_v data u' (length a')) a' (Some u'))
        as (v2 & ou2 & a2 & t2 & E2 & B1 & B2 & B3); auto; try lia; try lra.
      { intros u0 Q. inversion Q; subst. auto. }
      do 4 eexists. split; [exact E2|]. split; [lia|]. split; [lia|]. intros _.
      destruct k as [|k]; [|apply B3; lia].
      rewrite (B2 eq_refl). exists u'. split; [auto|]. simpl in E2. inversion E2; subst. auto.
Qed.
Lemma rl_fuzzy_cmeans_ok (data : list R) err max_iter : (2 <= length data)%nat -> (2 <= max_iter)%Z ->
  exists v u alpha t, rl_fuzzy_cmeans data err max_iter = Ok (v, Some u, alpha, t) /\
    rl_good data v alpha u /\ (1 <= t <= max_iter)%Z.
Proof.
  intros Hd Hm. unfold rl_fuzzy_cmeans. rewrite nat2F_INR.
  assert (HnR : 0 < INR (length data)) by (apply lt_0_INR; lia).
  rewrite pdiv_R by lra. cbn [rbind].
  destruct (rl_loop_ok (Z.to_nat (max_iter - 1)) data err 1 n1 n1 n1 data (repeat (1 / INR (length data)) (length data)) None)
    as (v & ou & alpha & t & E & B1 & _ & B3).
  - rnum. lra.
  - now rewrite repeat_length.
  - rewrite repeat_length. lia.
  - split.
    + apply Forall_forall. intros x Hx. apply repeat_spec in Hx. subst x. apply Rdiv_lt_0_compat; lra.
    + rewrite Rsum_repeat. field. lra.
  - discriminate.
  - destruct B3 as (u & -> & G); [lia|]. exists v, u, alpha, t. split; [exact E|]. split; [auto|lia].
Qed.
Lemma rl_one_point (x : R) err max_iter : (2 <= max_iter)%Z ->
  rl_fuzzy_cmeans [x] err max_iter = Err EZeroDiv.
Proof.
  intros Hm. unfold rl_fuzzy_cmeans. rewrite nat2F_INR. cbn [length]. rewrite pdiv_R by (simpl; lra). cbn [rbind repeat].
  destruct (Z.to_nat (max_iter - 1)) as [|k] eqn:Ek; [lia|]. cbn [rl_loop].
  change (INR 1) with 1. replace (n1 / 1) with 1 by (rnum; lra).
  destruct (compute_u_ok [x] [x] [1] n1 n1) as (u & Eu & Hu); [rnum; lra|auto|discriminate|]. rewrite Eu. cbn [rbind].
  destruct (update_alpha_ok 1 u [1] (nexp (ndiv (nofZ (- (1))) (nofZ 10))) n1) as (na & Ena & Lna & Sna); auto.
  { pose proof (exp_pos (IZR (-1) / IZR 10)). cbn [nexp ndiv nofZ RNum]. simpl. lra. }
  { simpl. lra. }
  rewrite Ena. cbn [rbind]. unfold update_r3.
  destruct Hu as ((Hu & _) & _). cbn [length] in Hu. rewrite Hu. cbn [length seq rmap].
  rewrite !nat2F_INR. cbn [INR]. rewrite pdiv_R by lra. cbn [rbind]. rewrite pdiv_R by lra. cbn [rbind max_list map pmax fold_left].
  unfold pdiv, nopp. unfold nsum. cbn [map fold_left]. rnum. rewrite ln_1.
  destruct (Reqb_spec (0 - 1 * (0 + 1 * 0)) 0) as [Q|Q]; [reflexivity|lra].
Qed.

(** ** RlFuzzyCmeans.predict *)
Lemma rl_nearest_fold (x : R) centers : forall rest p best md,
  centers <> [] -> (0 < p)%nat -> (best < p)%nat ->
  (forall i c, nth_error rest i = Some c -> nth_error centers (p + i) = Some c) ->
  length centers = (p + length rest)%nat ->
  (exists cb, nth_error centers best = Some cb /\ md = Rabs (cb - x)) ->
  (forall i c, (i < p)%nat -> nth_error centers i = Some c -> md <= Rabs (c - x)) ->
  (forall i c, (i < best)%nat -> nth_error centers i = Some c -> md < Rabs (c - x)) ->
  let r := fold_left (fun (acc : R * nat) pc => let '(min_dist, best) := acc in
                       let '(pos, c) := pc in
                       let d := nabs (nsub c x) in
                       if nltb d min_dist then (d, pos) else (min_dist, best))
        (combine (seq p (length rest)) rest) (md, best) in
  (exists cb, nth_error centers (snd r) = Some cb /\ fst r = Rabs (cb - x)) /\
  (forall i c, nth_error centers i = Some c -> fst r <= Rabs (c - x)) /\
  (forall i c, (i < snd r)%nat -> nth_error centers i = Some c -> fst r < Rabs (c - x)).
Proof.
  induction rest as [|c rest IH]; intros p best md Hc Hp Hb Hr Hl H1 H2 H3.
  - cbn. split; [auto|]. split; [|auto]. intros i c Hi. apply (H2 i c); auto.
    assert (i < length centers)%nat by (apply nth_error_Some; congruence). simpl in Hl. lia.
  - cbn [length seq combine fold_left]. rnum.
    assert (Ec : nth_error centers p = Some c) by (rewrite <- (Nat.add_0_r p); apply Hr; reflexivity).
    assert (Hr' : forall i c0, nth_error rest i = Some c0 -> nth_error centers (S p + i) = Some c0).
    { intros i c0 Hi. rewrite Nat.add_succ_comm. apply Hr. exact Hi. }
    destruct (Rltb_spec (Rabs (c - x)) md) as [Hlt|Hge].
    + apply IH; auto; try lia.
      * simpl in Hl. lia.
      * exists c. auto.
      * intros i c0 Hi E. destruct (Nat.eq_dec i p) as [->|]; [rewrite Ec in E; injection E as <-; lra|].
        assert (md <= Rabs (c0 - x)) by (apply (H2 i); [lia|auto]). lra.
      * intros i c0 Hi E. assert (md <= Rabs (c0 - x)) by (apply (H2 i); auto). lra.
    + apply IH; auto; try lia.
      * simpl in Hl. lia.
      * intros i c0 Hi E. destruct (Nat.eq_dec i p) as [->|]; [rewrite Ec in E; injection E as <-; lra|].
        apply (H2 i); [lia|auto].
Qed.
Lemma rl_predict_nearest (data centers : list R) : centers <> [] ->
  exists labels, rl_predict data centers = Ok labels /\ length labels = length data /\
    forall j x k, nth_error data j = Some x -> nth_error labels j = Some k ->
      exists ck, nth_error centers k = Some ck /\
        (forall i ci, nth_error centers i = Some ci -> Rabs (ck - x) <= Rabs (ci - x)) /\
        (forall i ci, (i < k)%nat -> nth_error centers i = Some ci -> Rabs (ck - x) < Rabs (ci - x)).
Proof.
  intros Hc.
  assert (One : forall x, exists k, rl_nearest x centers = Ok k /\ exists ck, nth_error centers k = Some ck /\
        (forall i ci, nth_error centers i = Some ci -> Rabs (ck - x) <= Rabs (ci - x)) /\
        (forall i ci, (i < k)%nat -> nth_error centers i = Some ci -> Rabs (ck - x) < Rabs (ci - x))).
  { intros x. destruct centers as [|c0 rest] eqn:E0; [congruence|]. unfold rl_nearest. eexists. split; [reflexivity|].
    destruct (rl_nearest_fold x (c0 :: rest) rest 1 0 (Rabs (c0 - x))) as ((cb & A1 & A2) & A3 & A4); auto; try lia.
    { exists c0. auto. }
    { intros i ci Hi E. destruct i; [|lia]. injection E as <-. lra. }
    exists cb. rnum. rewrite <- A2. auto. }
  unfold rl_predict. induction data as [|x data IH].
  - exists []. split; [reflexivity|]. split; [reflexivity|]. intros [|j] x k H; discriminate.
  - destruct IH as (ls & E & L & H). destruct (One x) as (k & Ek & Hk). exists (k :: ls). cbn [rmap]. rewrite Ek. cbn [rbind]. rewrite E.
    split; [reflexivity|]. split; [simpl; lia|]. intros [|j] y ky Hj Hl.
    + injection Hj as <-. injection Hl as <-. exact Hk.
    + apply (H j y ky Hj Hl).
Qed.
