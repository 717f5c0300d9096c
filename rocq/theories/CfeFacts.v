(** CfeFacts.v — lemmas about the combined fuzzy entropy (C116). *)
From Coq Require Import Reals Lra Permutation.
From Verif Require Import Base BaseFacts Num Spec RealFacts Functions LearnUtils LearnSpec LearnFacts
  Cmeans CmeansFacts RlCmeans RlFacts Discret DiscretFacts DiscretFacts2 SilFacts CfeSpec.
Local Open Scope R_scope.

Lemma ln2_pos : 0 < ln 2.
Proof. rewrite <- ln_1. apply ln_increasing; lra. Qed.
Lemma ln_below x : 0 < x -> ln x <= x - 1.
Proof. intros H. pose proof (exp_ineq1_le (ln x)) as E. rewrite exp_ln in E by auto. lra. Qed.
Lemma ln_above a m : 0 < a -> 0 < m -> a - m <= a * ln (a / m).
Proof.
  intros Ha Hm. assert (E : ln (a / m) = - ln (m / a)). { rewrite <- ln_Rinv by now apply Rdiv_lt_0_compat. f_equal. field. lra. }
  rewrite E. pose proof (ln_below (m / a) (Rdiv_lt_0_compat _ _ Hm Ha)) as L.
  apply (Rmult_le_compat_l a) in L; [|lra]. replace (a * (m / a - 1)) with (m - a) in L by (field; lra). lra.
Qed.
Lemma lg_mult a x : a * lg x = (a * ln x) / ln 2.
Proof. unfold lg. field. pose proof ln2_pos. lra. Qed.
Lemma apart_self u : 0 < u < 1 -> apart u u = 0.
Proof.
  intros H. unfold apart. replace ((u + u) / 2) with u by lra. replace (u / u) with 1 by (field; lra). replace ((1 - u) / (1 - u)) with 1 by (field; lra).
  unfold lg. rewrite ln_1. unfold Rdiv. lra.
Qed.
Lemma apart_bounds u v : 0 < u < 1 -> 0 < v < 1 -> 0 <= apart u v < 1.
Proof.
  intros Hu Hv. set (m := (u + v) / 2). assert (Hm : 0 < m < 1) by (unfold m; lra). pose proof ln2_pos as P. unfold apart. fold m. split.
  - rewrite !lg_mult. pose proof (ln_above u m ltac:(lra) ltac:(lra)). pose proof (ln_above (1 - u) (1 - m) ltac:(lra) ltac:(lra)).
    rewrite <- Rdiv_plus_distr. apply Rmult_le_pos; [lra|]. left. now apply Rinv_0_lt_compat.
  - assert (L : forall a b, 0 < a -> 0 < b -> a < 2 * b -> lg (a / b) < 1).
    { intros a b Ha Hb Hab. unfold lg. apply (Rmult_lt_reg_r (ln 2)); auto. unfold Rdiv. rewrite Rmult_assoc, Rinv_l, Rmult_1_r, Rmult_1_l by lra.
      apply ln_increasing; [now apply Rdiv_lt_0_compat|]. apply (Rmult_lt_reg_r b); auto. rewrite Rmult_assoc, Rinv_l by lra. lra. }
    pose proof (L u m ltac:(lra) ltac:(lra) ltac:(unfold m; lra)) as L1. pose proof (L (1 - u) (1 - m) ltac:(lra) ltac:(lra) ltac:(unfold m; lra)) as L2.
    apply (Rmult_lt_compat_l u) in L1; [|lra]. apply (Rmult_lt_compat_l (1 - u)) in L2; [|lra]. lra.
Qed.
Lemma undecided_bounds u : 0 < u < 1 -> 0 < undecided u <= 1.
Proof.
  intros H. pose proof ln2_pos as P. unfold undecided. rewrite !lg_mult. split.
  - assert (A : forall x, 0 < x < 1 -> x * ln x < 0).
    { intros x Hx. assert (ln x < 0) by (rewrite <- ln_1; apply ln_increasing; lra). pose proof (Rmult_lt_compat_l x _ _ (proj1 Hx) H0). lra. }
    pose proof (A u H). pose proof (A (1 - u) ltac:(lra)). rewrite <- Rdiv_plus_distr. replace (- ((u * ln u + (1 - u) * ln (1 - u)) / ln 2)) with ((- (u * ln u + (1 - u) * ln (1 - u))) / ln 2) by (field; lra).
    apply Rdiv_lt_0_compat; lra.
  - rewrite <- Rdiv_plus_distr. apply (Rmult_le_reg_r (ln 2)); auto. replace (- ((u * ln u + (1 - u) * ln (1 - u)) / ln 2) * ln 2) with (- (u * ln u + (1 - u) * ln (1 - u))) by (field; lra).
    assert (A : forall x, 0 < x < 1 -> - (x * ln x) <= x * ln 2 + (/ 2 - x)).
    { intros x Hx. pose proof (ln_above x (/ 2) ltac:(lra) ltac:(lra)) as L. replace (x / / 2) with (2 * x) in L by field. rewrite ln_mult in L by lra.
      rewrite Rmult_plus_distr_l in L. lra. }
    pose proof (A u H). pose proof (A (1 - u) ltac:(lra)). lra.
Qed.

(** ** Sums *)
Lemma Rsum_cons x l : Rsum (x :: l) = x + Rsum l.
Proof. reflexivity. Qed.
Lemma sum_ext l f g : (forall c, In c l -> f c = g c) -> sum_over l f = sum_over l g.
Proof. intros H. unfold sum_over. f_equal. now apply map_ext_in. Qed.
Lemma sum_perm l l' f : Permutation l l' -> sum_over l f = sum_over l' f.
Proof. intros H. apply Rsum_Permutation. now apply Permutation_map. Qed.
Lemma sum_scal l k f : sum_over l (fun c => k * f c) = k * sum_over l f.
Proof. apply Rsum_map_scal. Qed.
Lemma sum_plus l f g : sum_over l (fun c => f c + g c) = sum_over l f + sum_over l g.
Proof. apply Rsum_map_plus. Qed.
Lemma sum_ge0 l f : (forall c, In c l -> 0 <= f c) -> 0 <= sum_over l f.
Proof. intros H. apply Rsum_ge0. intros x Hx. apply in_map_iff in Hx as (c & <- & Hc). auto. Qed.
Lemma sum_swap l l' (f : list R * R -> list R * R -> R) : sum_over l (fun c => sum_over l' (f c)) = sum_over l' (fun d => sum_over l (fun c => f c d)).
Proof.
  induction l as [|c l IH].
  - induction l' as [|d l' IH]; [reflexivity|]. unfold sum_over, Rsum in *. cbn in *. lra.
  - change (sum_over l' (f c) + sum_over l (fun c => sum_over l' (f c)) = sum_over l' (fun d => f c d + sum_over l (fun c => f c d))).
    rewrite IH. symmetry. apply sum_plus.
Qed.
Lemma square_pos x : 0 <= square x.
Proof. apply (Rle_0_sqr x). Qed.
Lemma square_gt x : x <> 0 -> 0 < square x.
Proof. apply (Rsqr_pos_lt x). Qed.

(** ** The parts *)
Definition inner (n : nat) (l : clustering) : Prop := (forall c, In c l -> length (fst c) = n /\ forall u, In u (fst c) -> 0 < u < 1).
Lemma rows_apart_self r : (forall u, In u r -> 0 < u < 1) -> rows_apart r r = 0.
Proof.
  unfold rows_apart. induction r as [|u r IH]; intros H; [reflexivity|]. cbn [combine map fst snd]. rewrite Rsum_cons, apart_self, IH; [lra|intros; apply H; now right|apply H; now left].
Qed.
Lemma rows_apart_bounds r : forall s, (forall u, In u r -> 0 < u < 1) -> (forall u, In u s -> 0 < u < 1) -> 0 <= rows_apart r s <= INR (length r).
Proof.
  unfold rows_apart. induction r as [|u r IH]; intros s Hr Hs; [cbn; lra|]. cbn [length]. rewrite S_INR.
  destruct s as [|v s]; cbn [combine map fst snd].
  - pose proof (pos_INR (length r)). cbn. lra.
  - pose proof (apart_bounds u v (Hr u (or_introl eq_refl)) (Hs v (or_introl eq_refl))). pose proof (IH s (fun x h => Hr x (or_intror h)) (fun x h => Hs x (or_intror h))) as Q. rewrite Rsum_cons. lra.
Qed.
Lemma separation_ge0 n l : inner n l -> (2 <= length l)%nat -> 0 <= separation l.
Proof.
  intros H Hl. unfold separation. assert (2 <= INR (length l)) by (apply le_INR in Hl; cbn in Hl; lra).
  apply Rmult_le_pos.
  - left. apply Rdiv_lt_0_compat; [lra|]. apply Rmult_lt_0_compat; lra.
  - apply Rmult_le_pos; [lra|]. apply sum_ge0. intros c Hc. apply sum_ge0. intros d Hd. apply rows_apart_bounds; [apply H|apply H]; auto.
Qed.
Lemma undecidedness_bounds data l : inner (length data) l -> data <> [] -> l <> [] -> 0 < undecidedness data l <= 1.
Proof.
  intros H Hd Hl. unfold undecidedness. assert (Pd : 0 < INR (length data)) by (apply lt_0_INR; destruct data; [congruence|cbn; lia]).
  assert (Pl : 0 < INR (length l)) by (apply lt_0_INR; destruct l; [congruence|cbn; lia]).
  assert (B : forall c, In c l -> 0 < Rsum (map undecided (fst c)) / INR (length data) <= 1).
  { intros c Hc. destruct (H c Hc) as [Lc Hu]. split.
    - apply Rdiv_lt_0_compat; auto. apply Rsum_pos.
      + intros E. apply map_eq_nil in E. rewrite E in Lc. cbn in Lc. destruct data; [congruence|discriminate].
      + apply Forall_map, Forall_forall. intros u Iu. now apply undecided_bounds, Hu.
    - apply (Rmult_le_reg_r (INR (length data))); auto. unfold Rdiv. rewrite Rmult_assoc, Rinv_l, Rmult_1_r, Rmult_1_l by lra. rewrite <- Lc.
      destruct (Rsum_bounds 0 1 (map undecided (fst c))) as [_ Q]; [|rewrite map_length in Q; lra].
      apply Forall_map, Forall_forall. intros u Iu. pose proof (undecided_bounds u (Hu u Iu)). lra. }
  split.
  - apply Rdiv_lt_0_compat; auto. apply Rsum_pos; [intros E; apply map_eq_nil in E; auto|]. apply Forall_map, Forall_forall. intros c Hc. now apply B.
  - apply (Rmult_le_reg_r (INR (length l))); auto. unfold Rdiv at 1. rewrite Rmult_assoc, Rinv_l, Rmult_1_r, Rmult_1_l by lra.
    destruct (Rsum_bounds 0 1 (map (fun c => Rsum (map undecided (fst c)) / INR (length data)) l)) as [_ Q]; [|rewrite map_length in Q; unfold sum_over; lra].
    apply Forall_map, Forall_forall. intros c Hc. pose proof (B c Hc). lra.
Qed.
Lemma between_ge0 data l : (forall c u, In c l -> In u (fst c) -> 0 < u) -> 0 <= between data l.
Proof.
  intros H. apply sum_ge0. intros c Hc. apply Rmult_le_pos; [|apply square_pos]. apply Rsum_ge0. intros u Hu. left. eauto.
Qed.
Lemma spread_ge0 data : 0 <= spread data.
Proof. apply Rsum_ge0. intros x Hx. apply in_map_iff in Hx as (y & <- & _). apply square_pos. Qed.
Lemma spread_pos data : (exists x y, In x data /\ In y data /\ x <> y) -> 0 < spread data.
Proof.
  intros (x & y & Hx & Hy & N). apply Rsum_gt0.
  - intros z Hz. apply in_map_iff in Hz as (w & <- & _). apply square_pos.
  - destruct (Req_dec x (average data)) as [E|E].
    + exists (square (y - average data)). split; [apply in_map_iff; eauto|]. apply square_gt. lra.
    + exists (square (x - average data)). split; [apply in_map_iff; eauto|]. apply square_gt. lra.
Qed.
Lemma average_sum data : data <> [] -> Rsum data = INR (length data) * average data.
Proof. intros H. unfold average. field. apply not_0_INR. destruct data; [congruence|discriminate]. Qed.
(** the sum of the squared distances of all points from a number *)
Lemma all_distances data z : data <> [] -> Rsum (map (fun x => square (x - z)) data) = spread data + INR (length data) * square (z - average data).
Proof.
  intros H. unfold spread. set (a := average data). pose proof (average_sum data H) as S. fold a in S. clearbody a. clear H.
  assert (G : forall l, Rsum (map (fun x => square (x - z)) l) = Rsum (map (fun x => square (x - a)) l) + 2 * (a - z) * (Rsum l - INR (length l) * a) + INR (length l) * square (z - a)).
  { induction l as [|x l IH]; [cbn; unfold square; lra|]. cbn [map length]. rewrite S_INR, !Rsum_cons, IH. unfold square. ring. }
  rewrite G, S. ring.
Qed.

(** ** The sum of all memberships *)
Lemma Rsum_swap {A B} (f : A -> B -> R) (l : list A) (l' : list B) :
  Rsum (map (fun a => Rsum (map (f a) l')) l) = Rsum (map (fun b => Rsum (map (fun a => f a b) l)) l').
Proof.
  induction l as [|a l IH].
  - cbn [map]. symmetry. change (Rsum []) with 0. induction l' as [|b l' IH]; [reflexivity|]. cbn [map]. rewrite Rsum_cons, IH. lra.
  - cbn [map]. rewrite Rsum_cons, IH, <- Rsum_map_plus. reflexivity.
Qed.
Lemma row_by_places (r : list R) : r = map (fun j => nth j r 0) (seq 0 (length r)).
Proof.
  induction r as [|x r IH]; [reflexivity|]. cbn [length seq map nth]. f_equal. rewrite <- seq_shift, map_map. cbn [nth]. exact IH.
Qed.
Lemma column_sum (m : list (list R)) c n j : shape c n m -> (j < n)%nat -> Rsum (column_of m j) = Rsum (map (fun r => nth j r 0) m).
Proof.
  intros [_ H] Hj. unfold column_of. induction H as [|r m Hr H IH]; [reflexivity|]. cbn [flat_map map]. rewrite Rsum_app, IH, Rsum_cons.
  destruct (nth_error r j) as [x|] eqn:E; [|apply nth_error_None in E; lia]. rewrite (nth_error_nth _ _ 0 E). cbn. lra.
Qed.
Lemma all_memberships (m : list (list R)) c n : fuzzy_partition c n m -> Rsum (map Rsum m) = INR n.
Proof.
  intros (S & _ & C). rewrite (map_ext_in _ (fun r => Rsum (map (fun j => nth j r 0) (seq 0 n)))).
  - rewrite (Rsum_swap (fun (r : list R) j => nth j r 0)). rewrite (map_ext_in _ (fun _ => 1)).
    + assert (G : forall l : list nat, Rsum (map (fun _ => 1) l) = INR (length l)).
      { induction l as [|a l IH]; [reflexivity|]. cbn [map length]. rewrite Rsum_cons, S_INR, IH. lra. }
      now rewrite G, seq_length.
    + intros j Hj. apply in_seq in Hj. rewrite <- (column_sum m c n j S); [apply C; lia|lia].
  - intros r Hr. destruct S as [_ S]. rewrite Forall_forall in S. rewrite (row_by_places r) at 1. now rewrite (S r Hr).
Qed.
Lemma inner_partition c n (m : list (list R)) z : (2 <= c)%nat -> fuzzy_partition c n m -> inner n (combine m z).
Proof.
  intros Hc (S & P & C) [r y] Hr. apply in_combine_l in Hr. cbn [fst]. pose proof S as [S1 S2]. rewrite Forall_forall in S2. split; [auto|]. intros u Hu.
  apply In_nth_error in Hr as (i & Hi). apply In_nth_error in Hu as (j & Hj).
  assert (Ej : (j < n)%nat) by (rewrite <- (S2 r (nth_error_In _ _ Hi)); apply nth_error_Some; congruence).
  assert (Eu : entry m i j = Some u) by (unfold entry; now rewrite Hi). destruct (P i j u Eu) as [P1 P2]. split; auto.
  set (k := if Nat.eqb i 0 then 1%nat else 0%nat). assert (Nk : k <> i) by (unfold k; destruct (Nat.eqb_spec i 0); lia).
  assert (Hk : (k < c)%nat) by (unfold k; destruct (Nat.eqb i 0); lia).
  destruct (nth_error m k) as [s|] eqn:Es; [|apply nth_error_None in Es; lia].
  assert (Ls : length s = n) by (apply S2; eapply nth_error_In; eauto).
  destruct (nth_error s j) as [v|] eqn:Ev; [|apply nth_error_None in Ev; lia].
  assert (Pv : 0 < v) by (apply (P k j v); unfold entry; now rewrite Es).
  specialize (C j Ej). rewrite (column_sum m c n j S Ej) in C.
  assert (G : forall (q : list (list R)) a b r s, a <> b -> (forall x, In x q -> 0 <= nth j x 0) -> nth_error q a = Some r -> nth_error q b = Some s ->
    nth j r 0 + nth j s 0 <= Rsum (map (fun x => nth j x 0) q)).
  { clear. induction q as [|x q IH]; intros a b r s N H Ha Hb; [destruct a; discriminate|]. cbn [map]. rewrite Rsum_cons.
    assert (Q : forall a r, nth_error q a = Some r -> nth j r 0 <= Rsum (map (fun x => nth j x 0) q)).
    { intros a' r' Ha'. apply Rsum_In_le.
      - apply Forall_map, Forall_forall. intros y Hy. apply H. now right.
      - apply in_map_iff. exists r'. split; [reflexivity|]. eapply nth_error_In; eauto. }
    destruct a as [|a], b as [|b]; cbn [nth_error] in Ha, Hb.
    - congruence.
    - injection Ha as ->. pose proof (Q b s Hb). lra.
    - injection Hb as ->. pose proof (Q a r Ha). lra.
    - pose proof (IH a b r s ltac:(congruence) (fun y h => H y (or_intror h)) Ha Hb). pose proof (H x (or_introl eq_refl)). lra. }
  pose proof (G m i k r s ltac:(congruence)) as L. rewrite (nth_error_nth _ _ 0 Hj), (nth_error_nth _ _ 0 Ev) in L.
  assert (u + v <= 1); [|lra]. rewrite <- C. apply L; auto. intros x Hx. apply In_nth_error in Hx as (a & Ha). destruct (nth_error x j) as [w|] eqn:Ew.
  - rewrite (nth_error_nth _ _ 0 Ew). left. apply (P a j w). unfold entry. now rewrite Ha.
  - rewrite nth_overflow; [lra|]. now apply nth_error_None.
Qed.

(** ** The score *)
Lemma log2_lg (x : R) : log2 x = lg x.
Proof. reflexivity. Qed.
Lemma cross_apart r s : cross_entropy r s = rows_apart r s.
Proof.
  unfold cross_entropy, rows_apart, zip_with. rewrite nsum_Rsum. f_equal. apply map_ext. intros [a b]. cbn [fst snd]. rewrite !log2_lg. unfold apart. rnum.
  replace (a / 2 + b / 2) with ((a + b) / 2) by lra. reflexivity.
Qed.
Lemma Rsum_concat (l : list (list R)) : Rsum (concat l) = Rsum (map Rsum l).
Proof. induction l as [|r l IH]; [reflexivity|]. cbn [concat map]. now rewrite Rsum_app, Rsum_cons, IH. Qed.
Lemma Rsum_filter {A} (p : A -> bool) (g : A -> R) l : (forall x, In x l -> p x = false -> g x = 0) -> Rsum (map g (filter p l)) = Rsum (map g l).
Proof.
  induction l as [|x l IH]; intros H; [reflexivity|]. cbn [filter map]. rewrite Rsum_cons, <- IH by (intros; apply H; auto; now right).
  destruct (p x) eqn:E; [cbn [map]; now rewrite Rsum_cons|]. rewrite (H x (or_introl eq_refl) E). lra.
Qed.
Lemma numbered_unique {A} (l : list A) : forall a k i x y, In (i, x) (combine (seq a k) l) -> In (i, y) (combine (seq a k) l) -> x = y.
Proof.
  induction l as [|z l IH]; intros a [|k] i x y Hx Hy; try now destruct Hx. cbn [seq combine] in *.
  destruct Hx as [Hx|Hx], Hy as [Hy|Hy].
  - congruence.
  - injection Hx as -> ->. apply in_combine_l, in_seq in Hy. lia.
  - injection Hy as -> ->. apply in_combine_l, in_seq in Hx. lia.
  - eapply IH; eauto.
Qed.
Lemma numbered_sum {A} (g : A -> R) (l : list A) : forall a, Rsum (map (fun p => g (snd p)) (combine (seq a (length l)) l)) = Rsum (map g l).
Proof. induction l as [|z l IH]; intros a; [reflexivity|]. cbn [length seq combine map snd]. now rewrite !Rsum_cons, IH. Qed.
Lemma numbered_in {A} (l : list A) i x : In (i, x) (combine (seq 0 (length l)) l) -> In x l.
Proof. apply in_combine_r. Qed.
Lemma sfce_sum (desc : list (list R)) : (forall r u, In r desc -> In u r -> 0 < u < 1) ->
  nsum (concat (map (fun ir => map (fun js => nadd (cross_entropy (snd ir) (snd js)) (cross_entropy (snd js) (snd ir)))
     (filter (fun js => negb (Nat.eqb (fst ir) (fst js))) (combine (seq 0 (length desc)) desc))) (combine (seq 0 (length desc)) desc)))
  = 2 * Rsum (map (fun r => Rsum (map (rows_apart r) desc)) desc).
Proof.
  intros H. rewrite nsum_Rsum, Rsum_concat, map_map.
  rewrite (map_ext_in _ (fun ir : nat * list R => (fun r => Rsum (map (fun s => rows_apart r s + rows_apart s r) desc)) (snd ir))).
  - rewrite (numbered_sum (fun r => Rsum (map (fun s => rows_apart r s + rows_apart s r) desc))).
    rewrite (map_ext _ (fun r => Rsum (map (rows_apart r) desc) + Rsum (map (fun s => rows_apart s r) desc))) by (intros; apply Rsum_map_plus).
    rewrite Rsum_map_plus, <- (Rsum_swap rows_apart). lra.
  - intros [i r] Hi. cbn [fst snd]. rewrite Rsum_filter.
    + rewrite (map_ext _ (fun js : nat * list R => (fun s => rows_apart r s + rows_apart s r) (snd js))) by (intros [j s]; cbn [snd]; rewrite !cross_apart; reflexivity).
      apply (numbered_sum (fun s => rows_apart r s + rows_apart s r)).
    + intros [j s] Hj Hf. cbn [fst snd] in *. apply Bool.negb_false_iff, Nat.eqb_eq in Hf. subst j. rewrite (numbered_unique desc 0 _ i s r Hj Hi), !cross_apart.
      rewrite rows_apart_self by (intros u; apply H; eapply numbered_in; eauto). cbn. lra.
Qed.
Lemma clusters_rows {A B} (d : list A) (z : list B) : length z = length d -> map fst (combine d z) = d.
Proof. revert z. induction d as [|r d IH]; intros [|y z] H; try discriminate; [reflexivity|]. cbn. f_equal. apply IH. now injection H. Qed.
Lemma sum_rows (d : list (list R)) z g : length z = length d -> sum_over (combine d z) (fun c => g (fst c)) = Rsum (map g d).
Proof. intros H. unfold sum_over. rewrite <- (map_map fst g). now rewrite clusters_rows. Qed.
Lemma norm_square (v : list R) : norm v * norm v = Rsum (map square v).
Proof.
  unfold norm. rnum. rewrite nsum_Rsum. apply sqrt_sqrt. apply Rsum_ge0. intros x Hx. apply in_map_iff in Hx as (y & <- & _). apply square_pos.
Qed.
Lemma cfe_combined data maxiter rand c desc cents : (2 <= c)%nat -> data <> [] -> fuzzy_partition c (length data) desc -> length cents = c ->
  est_cmeans data c maxiter None rand = Ok (desc, cents) -> cfe_score data maxiter rand c = Ok (desc, combined data (combine desc cents)).
Proof.
  intros Hc Hd P Lz E. pose proof (inner_partition c _ desc cents Hc P) as In. pose proof P as ((Ld & _) & _ & _).
  assert (Hu : forall r u, List.In r desc -> List.In u r -> 0 < u < 1).
  { intros r u Hr. assert (Hz : List.In r (map fst (combine desc cents))) by (rewrite clusters_rows by congruence; exact Hr).
    apply in_map_iff in Hz as (cl & <- & Hz). apply In. exact Hz. }
  assert (Pn : 0 < INR (length data)) by (apply lt_0_INR; destruct data; [congruence|cbn; lia]).
  assert (Pc : 2 <= INR c) by (apply le_INR in Hc; cbn in Hc; lra).
  assert (Lc : length (combine desc cents) = c) by (rewrite combine_length; lia).
  unfold cfe_score. rewrite E. cbn [rbind]. cbv zeta. do 2 f_equal. pose proof (sfce_sum desc Hu) as SF. rewrite Ld in SF. rewrite SF, !nat2F_INR.
  unfold combined, separation, undecidedness, grouping. rewrite Lc. pose proof ln2_pos as L2.
  assert (A1 : nsum (map (fun r => ndiv (nopp (nsum (map (fun x => nadd (nmul x (log2 x)) (nmul (nsub n1 x) (log2 (nsub n1 x)))) r))) (nmul (INR (length data)) (log2 n2))) desc)
    = sum_over (combine desc cents) (fun cl => Rsum (map undecided (fst cl)) / INR (length data))).
  { rewrite (sum_rows desc cents (fun r => Rsum (map undecided r) / INR (length data))) by congruence. rewrite nsum_Rsum. f_equal. apply map_ext. intros r.
    rewrite nsum_Rsum. assert (O : log2 (F := R) n2 = 1) by (rewrite log2_lg; unfold lg; rnum; field; lra). rewrite O. unfold nopp. rnum.
    assert (M : Rsum (map undecided r) = - Rsum (map (fun x => x * lg x + (1 - x) * lg (1 - x)) r)).
    { unfold undecided. induction r as [|x r IH]; [cbn; lra|]. cbn [map]. rewrite !Rsum_cons, IH. lra. }
    rewrite M. change (log2 (F := R)) with lg. field. lra. }
  rewrite A1. clear A1.
  assert (A2 : Rsum (map (fun r => Rsum (map (rows_apart r) desc)) desc) = sum_over (combine desc cents) (fun cl => sum_over (combine desc cents) (fun dl => rows_apart (fst cl) (fst dl)))).
  { rewrite <- (sum_rows desc cents (fun r => Rsum (map (rows_apart r) desc))) by congruence. apply sum_ext. intros cl _. symmetry. apply (sum_rows desc cents (rows_apart (fst cl))). congruence. }
  rewrite A2. clear A2.
  assert (A3 : nsum (map (fun rc => nmul (nsum (fst rc)) (nmul (nabs (nsub (snd rc) (ndiv (nsum data) (INR (length data))))) (nabs (nsub (snd rc) (ndiv (nsum data) (INR (length data))))))) (combine desc cents)) = between data (combine desc cents)).
  { rewrite nsum_Rsum. unfold between, sum_over. f_equal. apply map_ext. intros rc. rewrite !nsum_Rsum. rnum. unfold average, square. f_equal.
    set (q := snd rc - Rsum data / INR (length data)). rewrite <- Rabs_mult. apply Rabs_pos_eq. apply square_pos. }
  rewrite A3. clear A3.
  assert (A4 : nsum (map (fun rc => nsum (map (fun x => nmul x (nmul (norm (map (fun d => nsub d (snd rc)) data)) (norm (map (fun d => nsub d (snd rc)) data)))) (fst rc))) (combine desc cents))
    = INR (length data) * (spread data + between data (combine desc cents))).
  { rewrite nsum_Rsum. transitivity (sum_over (combine desc cents) (fun cl => spread data * Rsum (fst cl) + INR (length data) * (Rsum (fst cl) * square (snd cl - average data)))).
    - unfold sum_over. f_equal. apply map_ext. intros rc. rewrite nsum_Rsum. set (K := norm _). assert (EK : nmul K K = spread data + INR (length data) * square (snd rc - average data)).
      { change (nmul K K) with (K * K). unfold K. rewrite norm_square, map_map. change (Rsum (map (fun x => square (x - snd rc)) data) = spread data + INR (length data) * square (snd rc - average data)). now apply all_distances. }
      rewrite EK. rewrite (map_ext _ (fun x => (spread data + INR (length data) * square (snd rc - average data)) * x)) by (intros x; rnum; ring).
      rewrite (Rsum_map_scal (fun x => x)), map_id. ring.
    - rewrite sum_plus, !sum_scal. rewrite (sum_rows desc cents Rsum) by congruence. rewrite (all_memberships desc c _ P). unfold between. ring. }
  rewrite A4. clear A4. rnum. reflexivity.
Qed.
