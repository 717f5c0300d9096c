(** CmeansNOne.v — on one column the general algorithms are those of Cmeans.v and
    RlCmeans.v, over the reals. *)
From Coq Require Import Reals Lra.
From Verif Require Import Base BaseFacts Num Spec RealFacts Functions LearnUtils LearnSpec LearnFacts Cmeans CmeansFacts
  RlCmeans ClusterSpec CmeansN CmeansNFacts.
Local Open Scope R_scope.

(** a list of numbers as points with one coordinate *)
Definition col (l : list R) : list (list R) := map (fun x => [x]) l.
Lemma col_length l : length (col l) = length l.
Proof. apply map_length. Qed.
Lemma pdist_one (x y : R) : pdist [x] [y] = Rabs (x - y).
Proof.
  unfold pdist, norm. cbn [zip_with combine map fst snd]. rewrite nsum_Rsum. cbn [Rsum fold_right map]. rnum.
  rewrite Rplus_0_r. apply sqrt_Rsqr_abs.
Qed.
Lemma mcol_col l : mcol (col l) 0 = l.
Proof. unfold mcol, col. rewrite map_map. cbn [nth]. apply map_id. Qed.
Lemma mcols_col l : l <> [] -> mcols (col l) = 1%nat.
Proof. destruct l; [congruence|reflexivity]. Qed.
Lemma center_col data r : data <> [] -> centerN (col data) r = [ndiv (nsum (zip_with nmul r data)) (nsum r)].
Proof. intros H. unfold centerN. rewrite mcols_col by auto. cbn [seq map]. now rewrite mcol_col. Qed.
Lemma distances_col data centers : distancesN (col data) (col centers) = one_dimension_distance data centers.
Proof.
  unfold distancesN, one_dimension_distance, col. rewrite map_map. apply map_ext. intros c. rewrite map_map.
  apply map_ext. intros x. apply pdist_one.
Qed.
Lemma cmeans0_col data u m : data <> [] ->
  cmeans0N (col data) u m = ('(cntr, u', j, d) <- cmeans0 data u m ;; Ok (col cntr, u', j, d))%res.
Proof.
  intros Hd. unfold cmeans0N, cmeans0.
  set (um := map (map (fun x => npow x m)) (map (map (fun x => fmax x neps)) (normalize_columns u))).
  assert (E : map (centerN (col data)) um = col (map (fun r => ndiv (nsum (zip_with nmul r data)) (nsum r)) um)).
  { unfold col at 2. rewrite map_map. apply map_ext. intros r. now apply center_col. }
  rewrite E, distances_col. destruct (pdiv (nofZ (-2)) (nsub m n1)) as [e|x]; [|reflexivity]. cbn [rbind].
  destruct (normalize_power_columns _ e); reflexivity.
Qed.
Definition col_last (l : option (list R * list (list R))) : option (list (list R) * list (list R)) :=
  match l with Some (c, d) => Some (col c, d) | None => None end.
Lemma cmeans_loop_col k : forall data m err last u jm p, data <> [] ->
  cmeans_loopN k (col data) m err (col_last last) u jm p =
  ('(l, u', jm', p') <- cmeans_loop k data m err last u jm p ;; Ok (col_last l, u', jm', p'))%res.
Proof.
  induction k as [|k IH]; intros data m err last u jm p Hd; [reflexivity|].
  cbn [cmeans_loopN cmeans_loop]. rewrite cmeans0_col by auto.
  destruct (cmeans0 data u m) as [[[[cn u1] j] d]|e]; [|reflexivity]. cbn [rbind].
  destruct (nltb (mdist u1 u) err); [reflexivity|]. apply (IH data m err (Some (cn, d)) u1 _ _ Hd).
Qed.
Lemma cmeans_col data c m err maxiter init rand : data <> [] ->
  cmeansN (col data) c m err maxiter init rand =
  ('(cntr, u, u0, d, jm, p, fpc) <- cmeans data c m err maxiter init rand ;; Ok (col cntr, u, u0, d, jm, p, fpc))%res.
Proof.
  intros Hd. unfold cmeansN, cmeans. rewrite col_length.
  destruct (cmeans_start c (length data) _) as [us|e]; [|reflexivity]. cbn [rbind].
  rewrite (cmeans_loop_col _ data m err None us [] 0 Hd).
  destruct (cmeans_loop _ data m err None us [] 0) as [[[[l u] jm] p]|e]; [|reflexivity]. cbn [rbind].
  destruct (fp_coeff u); [|reflexivity]. cbn [rbind]. destruct l as [[cn d]|]; reflexivity.
Qed.
Lemma fuzzy_cmeans_col data c m err maxiter init rand : data <> [] ->
  fuzzy_cmeansN (col data) c m err maxiter init rand =
  ('(u, cntr) <- fuzzy_cmeans data c m err maxiter init rand ;; Ok (u, col cntr))%res.
Proof.
  intros Hd. unfold fuzzy_cmeansN, fuzzy_cmeans. rewrite cmeans_col by auto.
  destruct (cmeans data c m err maxiter init rand) as [[[[[[[cn u] u0] d] jm] p] f]|e]; reflexivity.
Qed.

(** ** Robust c-means *)
Lemma combine_col (v alpha : list R) : combine (col v) alpha = map (fun va => ([fst va], snd va)) (combine v alpha).
Proof. revert alpha. induction v as [|x v IH]; intros [|a alpha]; try reflexivity. cbn. f_equal. apply IH. Qed.
Lemma rmap_map {A B C} (f : B -> res C) (g : A -> B) l : rmap f (map g l) = rmap (fun a => f (g a)) l.
Proof. induction l as [|a l IH]; [reflexivity|]. cbn [map rmap]. now rewrite IH. Qed.
Lemma rmap_ext' {A B} (f g : A -> res B) l : (forall a, In a l -> f a = g a) -> rmap f l = rmap g l.
Proof.
  induction l as [|a l IH]; intros H; [reflexivity|]. cbn [rmap]. rewrite H, IH by (simpl; auto; intros; apply H; simpl; auto).
  reflexivity.
Qed.
Lemma compute_u_col data v alpha r1 r2 : compute_uN (col data) (col v) alpha r1 r2 = compute_u data v alpha r1 r2.
Proof.
  unfold compute_uN, compute_u. change (col data) with (map (fun x => [x]) data). rewrite rmap_map. apply rmap_ext'. intros x _.
  rewrite combine_col, rmap_map.
  replace (rmap (fun a => compute_uN_term [x] (fst ([fst a], snd a)) (snd ([fst a], snd a)) r1 r2) (combine v alpha))
    with (rmap (fun va => compute_u_term x (fst va) (snd va) r1 r2) (combine v alpha)); [reflexivity|].
  apply rmap_ext'. intros va _. unfold compute_uN_term, compute_u_term. cbn [fst snd]. rewrite pdist_one. reflexivity.
Qed.
Lemma update_v_col data u c : data <> [] -> update_vN (col data) u c = col (update_v data u c).
Proof.
  intros Hd. unfold update_vN, update_v. unfold col at 2. rewrite map_map. apply map_ext. intros k.
  unfold update_v1. rewrite mcols_col by auto. cbn [seq map]. rewrite mcol_col.
  assert (E : zip_with (fun x r => nmul x (nth k r n0)) data u = zip_with nmul data (mcol u k)).
  { clear. unfold zip_with, mcol. revert u. induction data as [|x data IH]; intros [|r u]; try reflexivity.
    cbn. f_equal. apply IH. }
  rewrite E. reflexivity.
Qed.
Lemma mdist_col a b : mdist (col a) (col b) = norm (zip_with nsub a b).
Proof.
  unfold mdist. f_equal. revert b. induction a as [|x a IH]; intros [|y b]; try reflexivity. cbn. f_equal. apply IH.
Qed.
Lemma rl_loop_col k : forall data err t r1 r2 r3 v alpha u, data <> [] ->
  rl_loopN k (col data) err t r1 r2 r3 (col v) alpha u =
  ('(v', u', a', t') <- rl_loop k data err t r1 r2 r3 v alpha u ;; Ok (col v', u', a', t'))%res.
Proof.
  induction k as [|k IH]; intros data err t r1 r2 r3 v alpha u Hd; [reflexivity|].
  cbn [rl_loopN rl_loop]. rewrite compute_u_col.
  destruct (compute_u data v alpha r1 r2) as [u1|e]; [|reflexivity]. cbn [rbind].
  destruct (update_alpha u1 alpha _ r3) as [na|e]; [|reflexivity]. cbn [rbind].
  destruct (update_r3 alpha na u1) as [r3'|e]; [|reflexivity]. cbn [rbind].
  destruct (resize_references na u1) as [[na' u2]|e]; [|reflexivity]. cbn [rbind].
  rewrite update_v_col, !col_length, mdist_col by auto.
  destruct (Nat.eqb (length na') 1 || _)%bool; [reflexivity|]. apply IH, Hd.
Qed.
Lemma rl_fuzzy_cmeans_col data err max_iter : data <> [] ->
  rl_fuzzy_cmeansN (col data) err max_iter =
  ('(v, u, a, t) <- rl_fuzzy_cmeans data err max_iter ;; Ok (col v, u, a, t))%res.
Proof.
  intros Hd. unfold rl_fuzzy_cmeansN, rl_fuzzy_cmeans. rewrite col_length.
  destruct (pdiv n1 (nat2F (length data))) as [a|e]; [|reflexivity]. cbn [rbind]. now apply rl_loop_col.
Qed.
Lemma rl_predict_col data centers : rlc_predict (Some (col centers)) (col data) = rl_predict data centers.
Proof.
  unfold rlc_predict, rl_predict. change (col data) with (map (fun x => [x]) data). rewrite rmap_map. apply rmap_ext'. intros x _.
  destruct centers as [|c0 rest]; [reflexivity|]. unfold rlc_nearest, rl_nearest. cbn [col map]. fold (col rest).
  rewrite col_length, pdist_one. do 2 f_equal.
  change (nabs (nsub c0 x)) with (Rabs (c0 - x)). generalize (Rabs (c0 - x), 0%nat). generalize 1%nat as s.
  induction rest as [|c rest IH]; intros s acc; [reflexivity|]. cbn [length seq combine col map fold_left].
  fold (col rest). destruct acc as [md b]. rewrite pdist_one. apply IH.
Qed.
