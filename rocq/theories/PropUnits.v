(** PropUnits.v — C107: the unit of a continuous feature. *)
From Coq Require Import Reals Lra Lia Permutation QArith.
From Verif Require Import Base BaseFacts Num RealFacts QNum Functions Spec Fcm FcmSpec LearnUtils Cmeans CmeansFacts RlCmeans ClusterSpec Discret Assoc AssocSpec AssocFacts AssocFacts4 AssocNames AssocNames2 AssocUnique AssocRange AssocPredict LoaderSpec EstExamples Estimator EstSpec EstFacts EstFacts4
  LearnSpec LearnFacts DiscretFacts DiscretFacts2 Pipeline PipeFacts PipeFacts2 FcmRename ShiftFacts ShiftFacts2 ScaleFacts ScaleFacts2 PropRename PropAssoc PropEstimator2 PropRows PropPipeline PropPipeline2 PropShift.
Local Close Scope Q_scope.
Local Open Scope R_scope.

(** ** Statement *)
Definition times (a : R) (l : list R) : list R := map (fun x => a * x) l.
(** the columns of decimal numbers in other units, each by its own factor *)
Definition scale_column (a : R) (c : column R) : column R := match c with ColFlt l => ColFlt (times a l) | _ => c end.
Definition scale_data (a : string -> R) (x : dataset R) : dataset R := map (fun fc => (fst fc, scale_column (a (fst fc)) (snd fc))) x.
(** numpy's eps: distances below it are raised to it *)
Definition smallest : R := / 4503599627370496.
Definition clear (a : R) (data cs : list R) : Prop := forall x c, In x data -> In c cs -> smallest <= Rabs (x - c) /\ smallest <= a * Rabs (x - c).
Definition gaps (data cs : list R) : list (list R) := map (fun c => map (fun x => Rabs (x - c)) data) cs.
(** at no iteration of c-means does a centre come closer to a value than eps, in
    either unit; the distances that strategy "cmeans-gap" starts with are not taken
    for the outcome of an iteration *)
Definition undisturbed (a : R) (strategy : string) (values fit : list R) (rand : nat -> list (list R)) : Prop :=
  (strategy = "cmeans-gap"%string -> forall xs ys, estimate_change_points fit 7 = Ok (xs, ys) -> (2 < length ys)%nat ->
     clear a values (removelast ys) /\
     forall k u cs, (2 <= k <= 200)%Z -> est_cmeans values (length ys - 1) k (Some (gaps values (removelast ys))) rand = Ok (u, cs) ->
       clear a values cs /\ (k = 2%Z -> nlit 1 10000 <= mdist u (gaps values (removelast ys)) /\ nlit 1 10000 <= mdist u (gaps (times a values) (removelast (times a ys))))) /\
  (strategy <> "cmeans-gap"%string -> forall c k u cs, (2 <= c <= 7)%nat -> (2 <= k <= 200)%Z -> est_cmeans values c k None rand = Ok (u, cs) -> clear a values cs).
(** the values of a feature in another unit were trained with, or are nonnegative,
    or the feature was trained with a number not between 0 and 1 in both units *)
Definition in_scale (a : string -> R) (x t : dataset R) : Prop := forall f c, In (f, c) t ->
  (a f = 1 \/ exists l, c = ColFlt l /\ forall z, In z l -> 0 <= z \/ exists l0, In (f, ColFlt l0) x /\ (In z l0 \/ exists v, In v l0 /\ (v < 0 \/ 1 < v /\ 1 < a f * v))) /\
  (forall l str, c = ColStr l -> In str l -> readable str).

(** ** Clustering *)
(** The memberships c-means finds do not depend on the unit and its centres are
    found in the unit of the data, from the same start *)
Theorem C107_clusters : forall a data c m error maxiter init rand, 0 < a -> (0 < c)%nat -> data <> [] -> m <> 1 ->
  shape c (length data) (match init with Some u => u | None => rand end) ->
  (forall k u cs, (2 <= k <= maxiter)%Z -> fuzzy_cmeans data c m error k init rand = Ok (u, cs) -> clear a data cs) ->
  fuzzy_cmeans (times a data) c m error maxiter init rand =
    match fuzzy_cmeans data c m error maxiter init rand with Ok (u, cs) => Ok (u, times a cs) | Err e => Err e end.
Proof. intros a data c m error maxiter init rand Ha Hc Hd Hm Hs H. change (times a data) with (ScaleFacts.sx a data). rewrite (clusters_sx a Ha data c m error maxiter init rand Hc Hd Hm Hs H). destruct (fuzzy_cmeans data c m error maxiter init rand) as [[u cs]|]; reflexivity. Qed.
Print Assumptions C107_clusters.

(** ** Proof *)
Section Proof.
Variables (cf : gconf R) (a : string -> R) (x y : dataset R).
Hypothesis ND : NoDup (dkeys (join_frames x y)).
Hypothesis Hb : forall f, a f <> 1 -> exists l, In (f, ColFlt l) x.
Lemma join_scale : join_frames (mds a x) y = mds a (join_frames x y).
Proof.
  assert (E : dkeys (mds a x) = dkeys x) by (unfold mds, dkeys; rewrite map_map; reflexivity).
  unfold join_frames. rewrite E. unfold mds at 2. rewrite map_app. fold (mds a x). f_equal. rewrite map_map. apply map_ext_in. intros [f c] Hi. cbn [fst snd].
  set (f' := if str_mem f (dkeys x) then append f "_class" else f).
  assert (Z : a f' = 1).
  { destruct (Req_dec (a f') 1) as [|Hn]; auto. exfalso. destruct (Hb _ Hn) as (l & Hl). unfold join_frames, dkeys in ND. rewrite map_app in ND.
    apply (NoDup_app_disj _ _ ND f'); [apply (in_map fst _ _ Hl)|]. rewrite map_map. apply in_map_iff. exists (f, c). now split. }
  now rewrite Z, mcol_one.
Qed.
End Proof.
Lemma undisturbed_apart a st mth values fit rand : dist_strategy st = Some (Some mth) -> In st ["cmeans-gap"; "cmeans-sil"; "cmeans-cfe"]%string ->
  (forall c, (2 <= c <= 7)%nat -> shape c (length values) (rand c)) -> undisturbed a st values fit rand -> apart a values 7 mth 200 fit rand.
Proof.
  intros Hd Hst Hs [H1 H2]. cbn in Hst.
  assert (G : st <> "cmeans-gap"%string -> forall c, (2 <= c <= 7)%nat -> shape c (length values) (rand c) /\ forall k u cs, (2 <= k <= 200)%Z -> est_cmeans values c k None rand = Ok (u, cs) -> far a values cs).
  { intros N c Hc. split; [now apply Hs|]. intros k u cs Hk E. exact (H2 N c k u cs Hc Hk E). }
  destruct Hst as [<-|[<-|[<-|[]]]]; cbn in Hd; injection Hd as <-; [exact (H1 eq_refl)|exact (G ltac:(discriminate))|exact (G ltac:(discriminate))].
Qed.

(** ** C107 *)
(** Measuring continuous features in other units: the names of the concepts, all
    the relations and every prediction stay the same, for the strategies built on
    c-means.  (numpy's straight line through the curve is in the unit of the data;
    its random start does not depend on it.) *)
Theorem C107_unit : forall (cf : gconf R) strategy curve rand a e0 e x y,
  c_sep cf = "___"%string -> reorders (c_ord cf) -> c_disc cf = generator_disc strategy curve rand ->
  In strategy ["cmeans-gap"; "cmeans-sil"; "cmeans-cfe"]%string -> sampled curve rand ->
  (forall f us, curve f (times (a f) us) = times (a f) (curve f us)) ->
  (forall f us, rand f (times (a f) us) = rand f us) ->
  estimator e0 e -> readable_data cf (join_frames x y) -> (forall f, 0 < a f) ->
  (forall f, a f <> 1 -> exists l, In (f, ColFlt l) x /\ l <> [] /\ (c_infer cf = true -> varied l) /\
     let values := unique nleb neqb l in undisturbed (a f) strategy values (curve f values) (rand f values)) ->
  same_outcome eq (snd (fit cf x y e)) (snd (fit cf (scale_data a x) y e)) /\
  forall e1 e2, fit cf x y e = (e1, Ok tt) -> fit cf (scale_data a x) y e = (e2, Ok tt) ->
    dkeys (m_topo (e_map e2)) = dkeys (m_topo (e_map e1)) /\ relations (e_map e2) = relations (e_map e1) /\
    forall tests, Forall (in_scale a x) tests -> Forall2 (same_outcome eq) (predictions cf tests e1) (predictions cf (map (scale_data a) tests) e2).
Proof.
  intros cf st curve rand a e0 e x y Hsep HO Hd Hst Hs Hc Hr HE RD Ha Hb. pose proof RD as (_ & ND & HRd).
  assert (Hst' : In st ["cmeans-gap"; "cmeans-sil"; "cmeans-cfe"; "rl-cmeans"]%string) by (cbn in *; tauto).
  assert (HF : fair_disc cf) by now apply (gen_disc_fair st curve rand).
  assert (Hm : exists mth, dist_strategy st = Some (Some mth)) by (cbn in Hst; destruct Hst as [<-|[<-|[<-|[]]]]; cbn; eauto). destruct Hm as [mth Hm].
  assert (Hb' : forall f, a f <> 1 -> exists l, In (f, ColFlt l) x) by (intros f Hn; destruct (Hb f Hn) as (l & Hl & _); eauto).
  assert (HM : Forall (movable cf a) (join_frames x y)).
  { apply Forall_forall. intros [f c] Hi. split; [apply (HRd f c Hi)|]. cbn [fst snd]. destruct (Req_dec (a f) 1) as [|Hn]; [now left|right].
    destruct (Hb f Hn) as (l & Hl & Hne & Hv & HU). exists l. split; [apply (same_col x y ND f); auto; now apply joined_l|]. split; [exact Hv|]. split.
    - rewrite Hd. unfold generator_disc. rewrite (unique_sx _ (Ha f)). change (ScaleFacts.sx (a f) (unique nleb neqb l)) with (times (a f) (unique nleb neqb l)). rewrite Hc, Hr. apply (disc_sx _ (Ha f)) with (mth := mth); [lia|exact Hm|].
      apply (undisturbed_apart (a f) st); auto. apply Hs.
    - intros n vals ms E. destruct (HF _ _ _ _ _ E) as (A & B & C). right. split; [exact A|]. split; [intros m Hm'; now apply C|]. split; [exact B|].
      intros ->. destruct l as [|z l]; [congruence|]. exact (B z (or_introl eq_refl)). }
  change (scale_data a x) with (mds a x).
  destruct (fit_move cf Hsep a Ha x y (mds a x) e0 e HE HM (join_scale a x y ND Hb')) as [S1 S2]. split; [exact S1|].
  intros e1 e2 F1 F2. rewrite F1, F2 in S2. specialize (S2 eq_refl). cbn [fst] in S2. subst e2.
  split; [cbn; unfold dkeys, ren_dict; rewrite map_map; reflexivity|]. split.
  { unfold relations. cbn. rewrite map_map. apply map_ext. now intros [[? ?] ?]. }
  set (train := fun f z => exists l0, In (f, ColFlt l0) x /\ In z l0).
  assert (K : ShiftFacts2.known cf train (e_map e1)).
  { apply (fit_known cf Hsep train x y e0 e e1); auto. intros f z (l0 & I0 & Iz) c Hi. rewrite (same_col x y ND f c (ColFlt l0) Hi); [exact Iz|now apply joined_l]. }
  destruct (@fit_tidy R RNum cf Hsep x y e0 e e1 HO (fun a b => Rmult_comm a b) HE RD F1) as (fds & T & D & _ & _ & Eg & _).
  destruct (fit_soft cf x y e0 e e1 Hsep HO (gen_disc_sound cf st curve rand Hd Hst' Hs) HE RD F1) as [Sf _].
  assert (I : inv cf train fds (e_gen e1)) by (rewrite <- Eg in K, Sf; exact (conj T (conj K Sf))).
  destruct (fit_base cf x y e0 e e1 HE F1) as (_ & _ & Hp).
  assert (Hz : forall d, In d fds -> is_fuzzy_type (fd_type d) = false -> a (fd_feat d) = 1).
  { intros d Hi Hn. assert (exists fc, In fc (join_frames x y) /\ described cf (dkeys y) fc d) as (fc & Ifc & Df).
    { clear - D Hi. induction D as [|fc d' ds fds' H D IH]; [easy|]. destruct Hi as [->|Hi]; [exists fc; split; [now left|exact H]|]. destruct (IH Hi) as (fc' & A & B). exists fc'. split; [now right|exact B]. }
    inversion Df as [f c texts rows L Di|f c texts ind data n vals ms rows L Di Nu Ec]; subst; cbn [fd_feat fd_type] in *.
    - destruct (Req_dec (a f) 1) as [|Hn0]; auto. exfalso. destruct (Hb f Hn0) as (l & Hl & _ & Hv & _). rewrite (same_col x y ND f c (ColFlt l) Ifc (joined_l x y _ _ Hl)) in *.
      cbn in Di. destruct Di as [Ci Lt]. specialize (Hv Ci). apply varied_iff in Hv. inversion L; subst. rewrite map_length in Lt. unfold us in Lt. lia.
    - destruct (str_mem f (dkeys y)); discriminate. }
  clear - Hsep Ha Hz I Hp. intros tests Ht. revert e1 Hp I. induction Ht as [|t tests Hx Ht IH]; intros e1 Hp I; [constructor|].
  assert (Hx' : suited_frame a train t).
  { intros f c Hi. destruct (Hx f c Hi) as [[H|(l & -> & H)] H']; (split; [|exact H']); [now left|right]. exists l. split; [reflexivity|]. intros z Hz'. unfold good_value, train.
    destruct (H z Hz') as [P|(l0 & I0 & [P|(v & Iv & P)])]; [right; now left|left; eauto|right; right; exists v; eauto]. }
  destruct (predict_move cf Hsep a Ha train fds Hz t e1 Hp I Hx') as (A & B & C & D). cbn [map predictions]. change (scale_data a t) with (mds a t). constructor; [exact B|]. rewrite A. now apply IH.
Qed.
Print Assumptions C107_unit.

(** ** Without the conditions *)
(** Units should never matter.  They do for negative numbers, if all training
    values lie between 0 and 1: there a negative number is taken for a negative
    activation.  Ten tenths, and ten numbers below zero, against the same in another
    unit *)
Definition q_tenths (k : positive) : list Q := map (fun i => Qred (Z.of_nat i # k))%Q (seq 1 10).
Definition q_minus (k : positive) : list Q := map (fun i => Qred (Z.opp (Z.of_nat i) # k))%Q (seq 1 10).
Theorem C107_negative_refuted :
  let labels := (repeat "u"%string 5 ++ repeat "v"%string 5) in
  Forall2 (fun v v' => v' == 10 * v)%Q (q_tenths 10) (q_tenths 1) /\ Forall2 (fun v v' => v' == 10 * v)%Q (q_minus 10) (q_minus 1) /\
  q_run (q_tenths 10) labels (q_minus 10) = said ["u"; "v"; "v"; "u"; "u"; "u"; "u"; "u"; "u"; "u"]%string /\
  q_run (q_tenths 1) labels (q_minus 1) = said (repeat "u"%string 10).
Proof. split; [repeat constructor|]. split; [repeat constructor|]. split; vm_compute; reflexivity. Qed.
Print Assumptions C107_negative_refuted.

(** Nor should they for c-means in a tiny unit.  But all distances below eps are
    raised to eps, so no value is nearer to one centre than to another *)
Ltac leq := repeat match goal with |- @cons _ _ _ = @cons _ _ _ => f_equal | |- @eq R _ _ => lra | |- [] = [] => reflexivity end.
Lemma sq_pow x : 0 < x -> Rpower x (-2) = / (x * x).
Proof. intros H. replace (-2) with (- (2)) by lra. rewrite Rpower_Ropp. replace 2 with (INR 2) by (cbn; lra). rewrite Rpower_pow by exact H. f_equal. cbn. ring. Qed.
Lemma column_two p q : smallest <= p <= q -> smallest <= p / q -> power_column (-2) [p; q] = [q * q / (p * p + q * q); p * p / (p * p + q * q)] /\ power_column (-2) [q; p] = [p * p / (p * p + q * q); q * q / (p * p + q * q)].
Proof.
  intros [H1 H2] H3. assert (P : 0 < smallest) by (apply Rinv_0_lt_compat; lra). assert (Hp : 0 < p) by lra. assert (Hq : 0 < q) by lra.
  assert (Hr : p / q <= 1) by (apply Rmult_le_reg_r with q; [lra|]; unfold Rdiv; rewrite Rmult_assoc, Rinv_l by lra; lra).
  assert (S1 : smallest <= 1) by lra.
  assert (F1 : fmax (p / q) neps = p / q) by (apply (floor_id (p / q)); exact H3). assert (F2 : fmax (q / q) neps = 1) by (replace (q / q) with 1 by (field; lra); apply (floor_id 1); exact S1).
  assert (E2 : nltb (-2) n0 = true) by (apply Rltb_true; cbn; lra).
  assert (Hpp : (p / q) / (p / q) = 1) by (field; lra). assert (Hpq : 1 / (p / q) = q / p) by (field; lra).
  assert (W1 : Rpower 1 (-2) = 1) by (rewrite sq_pow by lra; lra). assert (W2 : Rpower (q / p) (-2) = p * p / (q * q)).
  { rewrite sq_pow by (apply Rdiv_lt_0_compat; lra). field. lra. }
  assert (Sq : 0 < p * p + q * q) by nra.
  split; unfold power_column; cbn [scale_max map pmax fold_left]; rewrite E2.
  - replace (if nltb p q then q else p) with q by (unfold nltb; cbn; destruct (Rltb p q) eqn:E; [reflexivity|apply Rltb_false in E; lra]). change (ndiv p q) with (p / q). change (ndiv q q) with (q / q). rewrite F1, F2.
    cbn [scale_min map pmin fold_left]. replace (if nltb 1 (p / q) then 1 else p / q) with (p / q) by (destruct (nltb 1 (p / q)) eqn:E; [apply Rltb_true in E; lra|reflexivity]).
    change (ndiv (p / q) (p / q)) with (p / q / (p / q)). change (ndiv 1 (p / q)) with (1 / (p / q)). rewrite Hpp, Hpq. change (npow 1 (-2)) with (Rpower 1 (-2)). change (npow (q / p) (-2)) with (Rpower (q / p) (-2)). rewrite W1, W2.
    unfold normalize_column. cbn [map]. rewrite nsum_Rsum. unfold Rsum. cbn [fold_right]. rnum. f_equal; [field; nra|]. f_equal. field. nra.
  - replace (if nltb q p then p else q) with q by (unfold nltb; cbn; destruct (Rltb q p) eqn:E; [apply Rltb_true in E; lra|reflexivity]). change (ndiv p q) with (p / q). change (ndiv q q) with (q / q). rewrite F1, F2.
    cbn [scale_min map pmin fold_left]. replace (if nltb (p / q) 1 then p / q else 1) with (p / q) by (destruct (nltb (p / q) 1) eqn:E; [reflexivity|apply Rltb_false in E; lra]).
    change (ndiv (p / q) (p / q)) with (p / q / (p / q)). change (ndiv 1 (p / q)) with (1 / (p / q)). rewrite Hpp, Hpq. change (npow 1 (-2)) with (Rpower 1 (-2)). change (npow (q / p) (-2)) with (Rpower (q / p) (-2)). rewrite W1, W2.
    unfold normalize_column. cbn [map]. rewrite nsum_Rsum. unfold Rsum. cbn [fold_right]. rnum. f_equal; [field; nra|]. f_equal. field. nra.
Qed.
(** one iteration on two values, ten units apart, from memberships of three to one *)
Definition lean : list (list R) := [[3; 1]; [1; 3]].
Lemma one_step t p q : 0 < t -> p = fmax (t * 1) smallest -> q = fmax (t * 9) smallest -> smallest <= p / q ->
  fuzzy_cmeans [0; t * 10] 2 2 (1 / 10000) 2 (Some lean) [] = Ok ([[q * q / (p * p + q * q); p * p / (p * p + q * q)]; [p * p / (p * p + q * q); q * q / (p * p + q * q)]], [t * 1; t * 9]).
Proof.
  intros Ht Hp Hq Hr.
  assert (N : normalize_columns lean = [[3 / 4; 1 / 4]; [1 / 4; 3 / 4]]).
  { unfold normalize_columns, by_columns, lean, transpose, LearnUtils.mcol, normalize_column. cbn [length mcols map seq nth]. rewrite !nsum_Rsum. unfold Rsum. cbn [fold_right]. rnum. leq. }
  assert (P : 0 < smallest) by (apply Rinv_0_lt_compat; lra). assert (S4 : smallest <= 1 / 4) by (unfold smallest; lra).
  assert (F3 : fmax (3 / 4) neps = 3 / 4) by (apply (floor_id (3 / 4)); change (smallest <= 3 / 4); lra). assert (F1 : fmax (1 / 4) neps = 1 / 4) by (apply (floor_id (1 / 4)); exact S4).
  assert (W : forall x, 0 < x -> Rpower x 2 = x * x) by (intros x Hx; replace 2 with (INR 2) by (cbn; lra); rewrite Rpower_pow by exact Hx; cbn; ring).
  assert (C : centres [0; t * 10] lean 2 = [t * 1; t * 9]).
  { unfold centres. rewrite N. cbn [map]. rewrite F3, F1. change (npow (3 / 4) 2) with (Rpower (3 / 4) 2). change (npow (1 / 4) 2) with (Rpower (1 / 4) 2). rewrite !W by lra.
    unfold zip_with. cbn [combine map fst snd]. rewrite !nsum_Rsum. unfold Rsum. cbn [fold_right]. rnum. f_equal; [field|]. f_equal. field. }
  assert (D : map (map (fun x => fmax x neps)) (one_dimension_distance [0; t * 10] [t * 1; t * 9]) = [[p; q]; [q; p]]).
  { unfold one_dimension_distance. cbn [map]. rnum. replace (0 - t * 1) with (- (t * 1)) by ring. replace (t * 10 - t * 1) with (t * 9) by ring. replace (0 - t * 9) with (- (t * 9)) by ring. replace (t * 10 - t * 9) with (t * 1) by ring.
    rewrite !Rabs_Ropp, !Rabs_right by lra. rewrite Hp, Hq. reflexivity. }
  assert (Lp : smallest <= p) by (rewrite Hp; unfold fmax; rnum; destruct (Rltb _ _) eqn:E; [apply Rle_refl|apply Rltb_false in E; exact E]).
  assert (Lq : p <= q).
  { rewrite Hp, Hq. unfold fmax. rnum. destruct (Rltb (t * 1) _) eqn:E1, (Rltb (t * 9) _) eqn:E2; try apply Rltb_false in E1; try apply Rltb_false in E2; try apply Rltb_true in E1; try apply Rltb_true in E2; lra. }
  destruct (column_two p q (conj Lp Lq) Hr) as [K1 K2].
  assert (E : exists j d, cmeans0 [0; t * 10] lean 2 = Ok ([t * 1; t * 9], [[q * q / (p * p + q * q); p * p / (p * p + q * q)]; [p * p / (p * p + q * q); q * q / (p * p + q * q)]], j, d)).
  { unfold cmeans0. cbv zeta. fold (centres [0; t * 10] lean 2). rewrite C, D. unfold pdiv at 1. replace (neqb (nsub 2 n1) n0) with false by (symmetry; apply Reqb_false; cbn; lra). cbn [rbind].
    replace (ndiv (nofZ (-2)) (nsub 2 n1)) with (-2) by (cbn; field). unfold normalize_power_columns. assert (G : forallb (forallb (fun v => nleb n0 v)) [[p; q]; [q; p]] = true) by (rewrite <- D; apply floored_nonneg). rewrite G. cbn [rbind].
    replace (by_columns (power_column (-2)) [[p; q]; [q; p]]) with [[q * q / (p * p + q * q); p * p / (p * p + q * q)]; [p * p / (p * p + q * q); q * q / (p * p + q * q)]]; [eauto|].
    unfold by_columns, transpose, LearnUtils.mcol. cbn [length mcols map seq nth]. rewrite K1, K2. reflexivity. }
  destruct E as (j & d & E). unfold fuzzy_cmeans, cmeans. cbv zeta. cbn [length]. rewrite start_high.
  - cbn [rbind]. change (Z.to_nat (2 - 1)) with 1%nat. cbn [cmeans_loop]. rewrite E. cbn [rbind]. set (u := [[_; _]; [_; _]]).
    destruct (fp_coeff_ok 2 2 u) as [f Ef]; [lia|lia|split; [reflexivity|repeat constructor]|]. destruct (nltb (mdist u lean) (1 / 10000)); cbn [rbind]; rewrite Ef; reflexivity.
  - split; [reflexivity|repeat constructor].
  - intros r x Hr' Hx. change (smallest <= x). destruct Hr' as [<-|[<-|[]]]; destruct Hx as [<-|[<-|[]]]; lra.
Qed.
Theorem C107_tiny_refuted : let a := / 2 ^ 60 in
  fuzzy_cmeans [0; 10] 2 2 (1 / 10000) 2 (Some lean) [] = Ok ([[81 / 82; 1 / 82]; [1 / 82; 81 / 82]], [1; 9]) /\
  fuzzy_cmeans (times a [0; 10]) 2 2 (1 / 10000) 2 (Some lean) [] = Ok ([[1 / 2; 1 / 2]; [1 / 2; 1 / 2]], times a [1; 9]).
Proof.
  assert (P : 0 < smallest) by (apply Rinv_0_lt_compat; lra). assert (S1 : smallest <= 1 / 9) by (unfold smallest; lra).
  cbv zeta. split.
  - pose proof (one_step 1 1 9) as H. rewrite !Rmult_1_l in H. rewrite H; [|lra|symmetry; apply (floor_id 1); change (smallest <= 1); lra|symmetry; apply (floor_id 9); change (smallest <= 9); lra|lra].
    do 2 f_equal; leq.
  - set (a := / 2 ^ 60). assert (A : 0 < a) by (apply Rinv_0_lt_compat; apply pow_lt; lra).
    assert (A9 : a * 9 < smallest).
    { unfold a. replace (2 ^ 60) with (256 * 4503599627370496) by (cbn; lra). rewrite Rinv_mult. fold smallest. clear - P. lra. }
    assert (F : forall z, z < smallest -> fmax z smallest = smallest) by (intros z Hz; unfold fmax; destruct (nltb z smallest) eqn:E; [reflexivity|apply Rltb_false in E; lra]).
    unfold times. cbn [map]. rewrite Rmult_0_r. rewrite (one_step a smallest smallest); auto.
    + assert (H : smallest * smallest / (smallest * smallest + smallest * smallest) = 1 / 2) by (clear - P; generalize dependent smallest; intros z Hz; assert (z * z <> 0) by nra; field; nra). now rewrite H.
    + symmetry. apply F. lra.
    + symmetry. apply F. lra.
    + replace (smallest / smallest) with 1 by (field; lra). lra.
Qed.
Print Assumptions C107_tiny_refuted.
(** the first theorem does apply to the same values in a unit twice as large *)
Example C107_clusters_nonvacuous : fuzzy_cmeans (times 2 [0; 10]) 2 2 (1 / 10000) 2 (Some lean) [] = Ok ([[81 / 82; 1 / 82]; [1 / 82; 81 / 82]], times 2 [1; 9]).
Proof.
  rewrite C107_clusters.
  - now rewrite (proj1 C107_tiny_refuted).
  - lra.
  - lia.
  - discriminate.
  - lra.
  - split; [reflexivity|repeat constructor].
  - intros k u cs Hk. replace k with 2%Z by lia. rewrite (proj1 C107_tiny_refuted). intros E. injection E as _ <-. intros x c Hx Hc.
    assert (P : smallest <= 1) by (unfold smallest; lra).
    assert (G : 1 <= Rabs (x - c)); [|lra]. destruct Hx as [<-|[<-|[]]], Hc as [<-|[<-|[]]]; unfold Rabs; destruct (Rcase_abs _); lra.
Qed.

(** Nor for the strategy "rl-cmeans", whose memberships are exponentials of squared
    distances: one iteration on two values *)
Lemma robust_two D : exists v a t, let q := exp (- (D * D)) in
  rl_fuzzy_cmeans [0; D] (1 / 2000) 2 = Ok (v, Some [[1 / (1 + q); q / (1 + q)]; [q / (1 + q); 1 / (1 + q)]], a, t).
Proof.
  cbv zeta. set (q := exp (- (D * D))). assert (Hq : 0 < q) by apply exp_pos.
  unfold rl_fuzzy_cmeans. cbn [length]. unfold pdiv at 1. replace (neqb (nat2F 2) n0) with false by (symmetry; apply Reqb_false; cbn; lra). cbn [rbind].
  replace (ndiv n1 (nat2F 2)) with (1 / 2) by (cbn; lra). cbn [repeat]. change (Z.to_nat (2 - 1)) with 1%nat. cbn [rl_loop].
  assert (T : forall x v, compute_u_term x v (1 / 2) n1 n1 = Ok (exp (- (Rabs (x - v) * Rabs (x - v))) * (1 / 2))).
  { intros x v. unfold compute_u_term, pdiv, nopp. replace (neqb n1 n0) with false by (symmetry; apply Reqb_false; cbn; lra). cbn [rbind]. rnum. f_equal.
    replace ((0 - Rabs (x - v) * Rabs (x - v) + 1 * ln (1 / 2)) / 1) with (- (Rabs (x - v) * Rabs (x - v)) + ln (1 / 2)) by field. rewrite exp_plus, exp_ln by lra. reflexivity. }
  assert (Z0 : forall z w : R, w <> 0 -> pdiv z w = Ok (z / w)) by (intros z w Hw; unfold pdiv; replace (neqb w n0) with false by (symmetry; now apply Reqb_false); reflexivity).
  assert (A : forall x, Rabs x * Rabs x = x * x) by (intros x; unfold Rabs; destruct (Rcase_abs x); ring).
  assert (U : compute_u [0; D] [0; D] [1 / 2; 1 / 2] n1 n1 = Ok [[1 / (1 + q); q / (1 + q)]; [q / (1 + q); 1 / (1 + q)]]).
  { unfold compute_u. cbn [rmap combine fst snd]. rewrite !T, !A. cbn [rbind].
    replace (0 - 0) with 0 by ring. replace (D - D) with 0 by ring. replace (- (0 * 0)) with 0 by ring. replace ((0 - D) * (0 - D)) with (D * D) by ring. replace ((D - 0) * (D - 0)) with (D * D) by ring. fold q. rewrite exp_0, !nsum_Rsum. unfold Rsum. cbn [fold_right].
    unfold pdiv. rnum. rewrite !(proj2 (Reqb_false _ _)) by lra. cbn [rbind rmap]. apply f_equal. repeat match goal with |- @cons _ _ _ = @cons _ _ _ => f_equal | |- @eq R _ _ => field; lra | |- [] = [] => reflexivity end. }
  rewrite U. cbn [rbind].
  set (u := [[1 / (1 + q); q / (1 + q)]; [q / (1 + q); 1 / (1 + q)]]).
  assert (V : forall r, r <> 0 -> update_alpha u [1 / 2; 1 / 2] r n1 = Ok [1 / 2; 1 / 2]).
  { intros r Hr. unfold update_alpha, u. cbn [length map combine seq rmap]. rewrite !(Z0 n1 r Hr). cbn [rbind fold_left nth].
    rewrite !nsum_Rsum. unfold Rsum. cbn [fold_right]. set (L := log2 (1 / 2)). rewrite !(Z0 _ (nat2F 2)) by (cbn; lra). cbn [rbind].
    assert (H2 : (nat2F 2 : R) = 2) by (cbn; lra). rewrite H2. clearbody L. rnum. apply f_equal. repeat match goal with |- @cons _ _ _ = @cons _ _ _ => f_equal | |- @eq R _ _ => field; split; lra | |- [] = [] => reflexivity end. }
  assert (R1 : nexp (ndiv (nofZ (- (1))) (nofZ 10)) <> (0 : R)) by (apply Rgt_not_eq; apply exp_pos). rewrite (V _ R1). cbn [rbind].
  assert (R3 : exists r3, update_r3 [1 / 2; 1 / 2] [1 / 2; 1 / 2] u = Ok r3).
  { unfold update_r3. cbn [length seq rmap u]. rewrite !Z0 by (cbn; lra). cbn [rbind max_list map]. rewrite Z0; [cbn [rbind]; eauto|].
    rewrite !nsum_Rsum. unfold Rsum. cbn [fold_right]. unfold pmax. cbn [fold_left]. assert (Ln : ln (1 / 2) < 0) by (rewrite <- ln_1; apply ln_increasing; lra).
    unfold nopp. rnum. destruct (Rltb _ _); lra. }
  destruct R3 as [r3 R3]. rewrite R3. cbn [rbind].
  assert (K : resize_references [1 / 2; 1 / 2] u = Ok ([1 / 2; 1 / 2], u)).
  { unfold resize_references, keep_mask. cbn [length rmap u]. rewrite !Z0 by (cbn; lra). cbn [rbind].
    assert (H2 : (nat2F 2 : R) = 2) by (cbn; lra). rewrite H2. change (n1 / 2) with (1 / 2). replace (nltb (1 / 2) (1 / 2)) with false by (symmetry; apply Rltb_false; lra). cbn [negb rbind].
    unfold keep, rescale, u. cbn [combine filter fst snd map]. rewrite !nsum_Rsum. unfold Rsum. cbn [fold_right]. rnum. apply f_equal. f_equal;
    repeat match goal with |- @cons _ _ _ = @cons _ _ _ => f_equal | |- @eq R _ _ => field; lra | |- [] = [] => reflexivity end. }
  rewrite K. cbn [rbind]. destruct (_ || _); cbn [rl_loop]; eauto.
Qed.
Theorem C107_robust_refuted : exists v a t u v' a' t' u', rl_fuzzy_cmeans [0; 1] (1 / 2000) 2 = Ok (v, Some u, a, t) /\ rl_fuzzy_cmeans (times 10 [0; 1]) (1 / 2000) 2 = Ok (v', Some u', a', t') /\ u' <> u.
Proof.
  destruct (robust_two 1) as (v & a & t & E). destruct (robust_two 10) as (v' & a' & t' & E'). cbv zeta in E, E'. do 8 eexists. split; [exact E|]. unfold times. cbn [map]. rewrite Rmult_0_r, Rmult_1_r. split; [exact E'|].
  intros H. injection H as H _. assert (L : exp (- (10 * 10)) < exp (- (1 * 1))) by (apply exp_increasing; lra). pose proof (exp_pos (- (10 * 10))) as P1. pose proof (exp_pos (- (1 * 1))) as P2.
  set (p := exp (- (10 * 10))) in *. set (r := exp (- (1 * 1))) in *. clearbody p r. apply (f_equal Rinv) in H. unfold Rdiv in H. rewrite !Rmult_1_l, !Rinv_inv in H. lra.
Qed.
Print Assumptions C107_robust_refuted.

(** ** Non-vacuity *)
Lemma map_same {A B} (b : B) (l : list A) : map (fun _ => b) l = repeat b (length l).
Proof. induction l; [reflexivity|]. cbn. now f_equal. Qed.
Lemma nth_same {A} (g d : A) c j : (j < c)%nat -> nth j (repeat g c) d = g.
Proof. revert j. induction c; intros j Hj; [lia|]. destruct j; [reflexivity|]. cbn. apply IHc. lia. Qed.
(** c-means started with equal memberships: all centres are the mean, and stay *)
Lemma mcol_same_rows (r : list R) c j : LearnUtils.mcol (repeat r c) j = repeat (nth j r n0) c.
Proof. unfold LearnUtils.mcol. induction c; [reflexivity|]. cbn [repeat map]. now rewrite IHc. Qed.
Lemma columns_same (f : list R -> list R) (r : list R) g c : (0 < c)%nat -> (forall x, In x r -> f (repeat x c) = repeat g c) -> by_columns f (repeat r c) = repeat (repeat g (length r)) c.
Proof.
  intros Hc H. unfold by_columns. rewrite repeat_length. replace (mcols (repeat r c)) with (length r) by (destruct c; [lia|reflexivity]).
  assert (E : map f (transpose (length r) (repeat r c)) = repeat (repeat g c) (length r)).
  { unfold transpose. rewrite map_map. transitivity (map (fun _ : nat => repeat g c) (seq 0 (length r))).
    - apply map_ext_in. intros j Hj. apply in_seq in Hj. rewrite mcol_same_rows. apply H. apply nth_In. lia.
    - rewrite map_same. now rewrite seq_length. }
  rewrite E. unfold transpose. transitivity (map (fun _ : nat => repeat g (length r)) (seq 0 c)); [|rewrite map_same; now rewrite seq_length].
  apply map_ext_in. intros j Hj. apply in_seq in Hj. rewrite mcol_same_rows. f_equal. apply nth_same. lia.
Qed.
Lemma Rsum_same x n : Rsum (repeat x n) = INR n * x.
Proof. unfold Rsum. induction n as [|n IH]; [cbn; lra|]. cbn [repeat fold_right]. rewrite IH, S_INR. lra. Qed.
Lemma map_rep {A B} (f : A -> B) x n : map f (repeat x n) = repeat (f x) n.
Proof. induction n; [reflexivity|]. cbn. now f_equal. Qed.
Lemma normalize_same x c : (0 < c)%nat -> 0 < x -> normalize_column (repeat x c) = repeat (/ INR c) c.
Proof. intros Hc Hx. unfold normalize_column. rewrite map_rep, nsum_Rsum, Rsum_same. f_equal. rnum. apply lt_0_INR in Hc. field. lra. Qed.
Lemma pmax_same (x : R) n : pmax x (repeat x n) = x.
Proof. unfold pmax. induction n; [reflexivity|]. cbn [repeat fold_left]. now destruct (nltb x x). Qed.
Lemma pmin_same (x : R) n : pmin x (repeat x n) = x.
Proof. unfold pmin. induction n; [reflexivity|]. cbn [repeat fold_left]. now destruct (nltb x x). Qed.
Lemma power_same e x c : (0 < c)%nat -> 0 < x -> power_column e (repeat x c) = repeat (/ INR c) c.
Proof.
  intros Hc Hx. unfold power_column.
  assert (A : scale_max (repeat x c) = repeat 1 c) by (destruct c; [lia|]; cbn [repeat scale_max]; rewrite pmax_same; change (x :: repeat x c) with (repeat x (S c)); rewrite map_rep; change (1 :: repeat 1 c) with (repeat 1 (S c)); f_equal; rnum; field; lra).
  assert (B : scale_min (repeat 1 c) = repeat 1 c) by (destruct c; [lia|]; cbn [repeat scale_min]; rewrite pmin_same; change (1 :: repeat 1 c) with (repeat 1 (S c)); rewrite map_rep; f_equal; rnum; field).
  assert (C : map (fun v => fmax v neps) (repeat 1 c) = repeat 1 c) by (rewrite map_rep; f_equal; apply (floor_id 1); change (smallest <= 1); unfold smallest; lra).
  rewrite A, C. replace (if nltb e n0 then scale_min (repeat 1 c) else repeat 1 c) with (repeat 1 c) by (now destruct (nltb e n0)).
  rewrite map_rep. apply normalize_same; [exact Hc|]. apply Rpower_pos.
Qed.
Lemma even_runs data c m err k : data <> [] -> (2 <= c <= 7)%nat -> m <> 1 -> 0 < err -> (2 <= k)%Z ->
  exists u, fuzzy_cmeans data c m err k None (repeat (repeat 1 (length data)) c) = Ok (u, repeat (Rsum data / INR (length data)) c).
Proof.
  intros Hd Hc Hm He Hk. assert (Hn : (0 < length data)%nat) by (destruct data; [congruence|cbn; lia]). pose proof (lt_0_INR _ Hn) as Hn'. set (n := length data) in *.
  assert (Hc0 : (0 < c)%nat) by lia. assert (HcR : 0 < INR c) by now apply lt_0_INR. assert (Hc7 : INR c <= 7) by (replace 7 with (INR 7) by (cbn; lra); apply le_INR; lia).
  assert (Ic : smallest <= / INR c) by (apply Rinv_le_contravar; lra). assert (Ip : 0 < / INR c) by now apply Rinv_0_lt_compat.
  set (u := repeat (repeat (/ INR c) n) c).
  assert (N1 : forall x, 0 < x -> normalize_columns (repeat (repeat x n) c) = u).
  { intros x Hx. unfold normalize_columns. rewrite (columns_same _ _ (/ INR c)); [now rewrite repeat_length|exact Hc0|]. intros z Hz. apply repeat_spec in Hz. subst z. now apply normalize_same. }
  assert (C : centres data u m = repeat (Rsum data / INR n) c).
  { unfold centres, u. rewrite N1 by exact Ip. unfold u. rewrite !map_rep. f_equal. set (w := npow _ m). assert (Hw : 0 < w) by apply Rpower_pos.
    rewrite !nsum_Rsum, Rsum_same. replace (Rsum (zip_with nmul (repeat w n) data)) with (w * Rsum data).
    - rnum. field. lra.
    - unfold n. clear. unfold Rsum, zip_with. induction data as [|x data IH]; [cbn; ring|]. cbn [length repeat combine map fold_right fst snd]. rewrite <- IH. rnum. ring. }
  assert (E : exists j d, cmeans0 data u m = Ok (repeat (Rsum data / INR n) c, u, j, d)).
  { unfold cmeans0. cbv zeta. fold (centres data u m). rewrite C. set (dd := map (map (fun x => fmax x neps)) _).
    unfold pdiv at 1. replace (neqb (nsub m n1) n0) with false by (symmetry; apply Reqb_false; cbn; lra). cbn [rbind]. unfold normalize_power_columns. assert (G : forallb (forallb (fun v => nleb n0 v)) dd = true) by apply floored_nonneg. rewrite G. cbn [rbind].
    replace (by_columns _ dd) with u; [eauto|]. unfold dd, one_dimension_distance. rewrite !map_rep. set (row := map (fun x => fmax x neps) _). assert (Hl : length row = n) by (unfold row; now rewrite !map_length).
    rewrite (columns_same _ row (/ INR c)); [now rewrite Hl|exact Hc0|]. intros x Hx. apply power_same; [exact Hc0|]. unfold row in Hx. apply in_map_iff in Hx as (z & <- & _).
    assert (P : 0 < smallest) by (apply Rinv_0_lt_compat; lra). unfold fmax. change (@neps R RNum) with smallest. destruct (nltb z smallest) eqn:Ez; [exact P|]. apply Rltb_false in Ez. lra. }
  assert (Z : mdist u u = 0).
  { unfold mdist, norm. rewrite nsum_Rsum. replace (Rsum _) with 0; [apply sqrt_0|]. symmetry. assert (G : forall l : list R, (forall x, In x l -> x = 0) -> Rsum l = 0).
    { unfold Rsum. induction l as [|x l IH]; intros H; [reflexivity|]. cbn [fold_right]. rewrite IH by (intros; apply H; now right). rewrite (H x) by now left. ring. }
    apply G. intros x Hx. apply in_map_iff in Hx as (z & <- & Hz). assert (z = 0) as ->; [|rnum; ring]. apply in_concat in Hz as (l & Hl & Hz). unfold zip_with in Hl. apply in_map_iff in Hl as ([r r'] & <- & Hr). cbn [fst snd] in Hz.
    assert (r = r') as <- by (apply in_combine_l in Hr as H1; apply in_combine_r in Hr as H2; apply repeat_spec in H1; apply repeat_spec in H2; congruence).
    unfold zip_with in Hz. apply in_map_iff in Hz as ([p q] & <- & Hp). cbn [fst snd]. assert (p = q) as <-; [|rnum; ring].
    apply in_combine_l in Hr as H1. apply repeat_spec in H1. subst r. apply in_combine_l in Hp as H1. apply in_combine_r in Hp as H2. apply repeat_spec in H1. apply repeat_spec in H2. congruence. }
  destruct E as (j & d & E). exists u. unfold fuzzy_cmeans, cmeans. cbv zeta. fold n. rewrite N1 by lra. rewrite start_high.
  - cbn [rbind]. destruct (Z.to_nat (k - 1)) as [|k'] eqn:Ek; [lia|]. cbn [cmeans_loop]. rewrite E. cbn [rbind]. rewrite Z. replace (nltb 0 err) with true by (symmetry; now apply Rltb_true). cbn [rbind].
    destruct (fp_coeff_ok c n u Hc0 Hn) as [f Ef]; [|rewrite Ef; reflexivity]. split; [apply repeat_length|]. apply Forall_forall. intros r Hr. apply repeat_spec in Hr. subst r. apply repeat_length.
  - split; [apply repeat_length|]. apply Forall_forall. intros r Hr. apply repeat_spec in Hr. subst r. apply repeat_length.
  - intros r x Hr Hx. apply repeat_spec in Hr. subst r. apply repeat_spec in Hx. subst x. exact Ic.
Qed.
(** one continuous feature from -9 to 0, in a unit ten times smaller; one class *)
Definition za (f : string) : R := if String.eqb f "f" then 10 else 1.
Lemma down_unique : unique nleb neqb (map IZR down) = map IZR down.
Proof.
  destruct (unique_up (map IZR down)) as [A B]. apply increasing_same; [exact A| |exact B]. apply increasing_back. intros i j p q Hij Hp Hq. rewrite nth_error_map in Hp, Hq.
  destruct (nth_error down i) as [p'|] eqn:Ep; [|discriminate]. destruct (nth_error down j) as [q'|] eqn:Eq; [|discriminate]. injection Hp as <-. injection Hq as <-. apply IZR_lt.
  unfold down in Ep, Eq. rewrite nth_error_map in Ep, Eq. destruct (nth_error (seq 0 10) i) as [i'|] eqn:Ei; [|discriminate]. destruct (nth_error (seq 0 10) j) as [j'|] eqn:Ej; [|discriminate]. injection Ep as <-. injection Eq as <-.
  assert (Li : (i < 10)%nat) by (rewrite <- (seq_length 10 0); apply nth_error_Some; congruence). assert (Lj : (j < 10)%nat) by (rewrite <- (seq_length 10 0); apply nth_error_Some; congruence).
  apply nth_error_nth with (d := 0%nat) in Ei. apply nth_error_nth with (d := 0%nat) in Ej. rewrite seq_nth in Ei, Ej by assumption. lia.
Qed.
Lemma down_clear : clear 10 (map IZR down) (repeat (Rsum (map IZR down) / INR (length (map IZR down))) 7).
Proof.
  assert (M : Rsum (map IZR down) / INR (length (map IZR down)) = -9 / 2) by (rewrite map_length; unfold Rsum; cbn; lra). rewrite M. intros p q Hp Hq. apply repeat_spec in Hq. subst q.
  assert (G : 1 / 2 <= Rabs (p - -9 / 2)); [|unfold smallest; lra]. apply in_map_iff in Hp as (z & <- & Hz). assert (Hz' : (z <= -5 \/ -4 <= z)%Z) by lia. unfold Rabs. destruct Hz' as [L|L]; apply IZR_le in L; destruct (Rcase_abs _); lra.
Qed.
Example C107_undisturbed : undisturbed 10 "cmeans-cfe" (map IZR down) (flat_curve "f" (map IZR down)) (even_rand "f" (map IZR down)).
Proof.
  split; [discriminate|]. intros _ c k u cs Hc Hk E. unfold est_cmeans, even_rand in E.
  destruct (even_runs (map IZR down) c (nlit 5 2) (nlit 1 10000) k) as [w Ew]; [discriminate|exact Hc|exact m_not_1|unfold nlit; rnum; lra|lia|]. rewrite Ew in E. injection E as _ <-.
  intros p q Hp Hq. apply down_clear; [exact Hp|]. apply repeat_spec in Hq. subst q. now left.
Qed.
Example C107_nonvacuous : exists e1 e2 out, fit zcf zx ly ve0 = (e1, Ok tt) /\ fit zcf (scale_data za zx) ly ve0 = (e2, Ok tt) /\
  snd (predict zcf zt e1) = Ok out /\ snd (predict zcf (scale_data za zt) e2) = Ok out.
Proof.
  destruct z_fit as [e1 F1]. destruct (z_predict e1 F1) as [out P1].
  destruct (C107_unit zcf "cmeans-cfe" flat_curve even_rand za ve0 ve0 zx ly) as [A B]; auto; try (cbn; auto 10; fail).
  - intros l. apply Permutation_refl.
  - exact C100_sampled.
  - intros f us. unfold even_rand, times. now rewrite map_length.
  - apply healthy_estimator. exact v_healthy.
  - exact z_readable.
  - intros f. unfold za. destruct (String.eqb f "f"); lra.
  - intros f Hn. unfold za in Hn |- *. destruct (String.eqb_spec f "f") as [E|E]; [rewrite E; clear Hn|now elim Hn]. exists (map IZR down). split; [now left|]. split; [discriminate|]. split; [intros _; exact z_varied|].
    cbv zeta. rewrite down_unique. exact C107_undisturbed.
  - rewrite F1 in A. destruct (fit zcf (scale_data za zx) ly ve0) as [e2 [[]|er]] eqn:F2; [|contradiction].
    exists e1, e2, out. repeat (split; auto). destruct (B e1 e2 F1 eq_refl) as (_ & _ & C).
    assert (T : Forall (in_scale za zx) [zt]).
    { constructor; [|constructor]. intros f c [H|[]]. injection H as <- <-. split; [|intros l str E; discriminate]. right. eexists. split; [reflexivity|].
      intros z Hz. change (In z ([10; 12] ++ map IZR down)) in Hz. apply in_app_iff in Hz as [Hz|Hz]; [left; destruct Hz as [<-|[<-|[]]]; lra|right; exists (map IZR down); split; [now left|now left]]. }
    specialize (C [zt] T). change (Forall2 (same_outcome eq) [snd (predict zcf zt e1)] [snd (predict zcf (scale_data za zt) e2)]) in C. pose proof (only_one _ _ _ C) as Q. clear - P1 Q.
    rewrite P1 in Q. destruct (snd (predict zcf (scale_data za zt) e2)) as [out2|]; cbn in Q; [now subst|contradiction].
Qed.
