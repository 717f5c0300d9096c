(** PermFacts.v — fuzzy c-means with the clusters numbered differently (C118). *)
From Coq Require Import Reals Lra Permutation.
From Verif Require Import Base BaseFacts Num Spec RealFacts Functions LearnUtils LearnSpec LearnFacts
  Cmeans CmeansFacts Discret DiscretFacts2 CfeSpec CfeFacts.
Local Open Scope R_scope.

(** a function on columns that treats the entries alike, wherever they stand *)
Definition even_handed (f : list R -> list R) : Prop :=
  exists g, (forall l, f l = map (g l) l) /\ (forall l l' x, Permutation l l' -> g l x = g l' x).
Lemma even_handed_perm f l l' : even_handed f -> Permutation l l' -> Permutation (f l) (f l').
Proof.
  intros (g & E & H) P. rewrite !E. rewrite (map_ext (g l) (g l')) by (intros; now apply H). now apply Permutation_map.
Qed.
Lemma even_handed_comp f1 f2 : even_handed f1 -> even_handed f2 -> even_handed (fun l => f2 (f1 l)).
Proof.
  intros H1 (g2 & E2 & G2). pose proof H1 as (g1 & E1 & G1). exists (fun l x => g2 (f1 l) (g1 l x)). split.
  - intros l. rewrite E2. rewrite E1 at 2. now rewrite map_map.
  - intros l l' x P. rewrite (G1 l l' x P). apply G2. now apply even_handed_perm.
Qed.
Lemma even_handed_map h : even_handed (map h).
Proof. exists (fun _ x => h x). auto. Qed.
Lemma even_handed_normalize : even_handed normalize_column.
Proof. exists (fun l x => x / Rsum l). split; [intros l; unfold normalize_column; now rewrite nsum_Rsum|]. intros l l' x P. now rewrite (Rsum_Permutation l l' P). Qed.
Lemma pmax_unique (x y : R) t t' : Permutation (x :: t) (y :: t') -> pmax x t = pmax y t'.
Proof.
  intros P. destruct (pmax_spec t x) as [A B]. destruct (pmax_spec t' y) as [A' B'].
  pose proof (B' _ (Permutation_in _ P A)). pose proof (B _ (Permutation_in _ (Permutation_sym P) A')). lra.
Qed.
Lemma pmin_unique (x y : R) t t' : Permutation (x :: t) (y :: t') -> pmin x t = pmin y t'.
Proof.
  intros P. destruct (pmin_spec t x) as [A B]. destruct (pmin_spec t' y) as [A' B'].
  pose proof (B' _ (Permutation_in _ P A)). pose proof (B _ (Permutation_in _ (Permutation_sym P) A')). lra.
Qed.
Lemma even_handed_max : even_handed scale_max.
Proof.
  exists (fun l x => x / match l with [] => 0 | y :: t => pmax y t end). split; [now intros [|y t]|]. intros [|y t] [|y' t'] x P; auto.
  - now apply Permutation_nil in P.
  - apply Permutation_sym, Permutation_nil in P. discriminate.
  - now rewrite (pmax_unique y y' t t' P).
Qed.
Lemma even_handed_min : even_handed scale_min.
Proof.
  exists (fun l x => x / match l with [] => 0 | y :: t => pmin y t end). split; [now intros [|y t]|]. intros [|y t] [|y' t'] x P; auto.
  - now apply Permutation_nil in P.
  - apply Permutation_sym, Permutation_nil in P. discriminate.
  - now rewrite (pmin_unique y y' t t' P).
Qed.
Lemma even_handed_power e : even_handed (power_column e).
Proof.
  unfold power_column. destruct (nltb e n0).
  - refine (even_handed_comp _ _ (even_handed_comp _ _ (even_handed_comp _ _ (even_handed_comp _ _ even_handed_max (even_handed_map (fun v => fmax v neps))) even_handed_min) (even_handed_map (fun v => npow v e))) even_handed_normalize).
  - refine (even_handed_comp _ _ (even_handed_comp _ _ (even_handed_comp _ _ even_handed_max (even_handed_map (fun v => fmax v neps))) (even_handed_map (fun v => npow v e))) even_handed_normalize).
Qed.

(** ** Matrices *)
Lemma map_places {A B} (f : A -> B) d (l : list A) : map (fun i => f (nth i l d)) (seq 0 (length l)) = map f l.
Proof. induction l as [|x l IH]; [reflexivity|]. cbn [length seq map nth]. f_equal. now rewrite <- seq_shift, map_map. Qed.
Lemma perm_shape {A} c n (m m' : list (list A)) : shape c n m -> Permutation m m' -> shape c n m'.
Proof.
  intros [L H] P. split; [rewrite <- L; symmetry; now apply Permutation_length|]. rewrite Forall_forall in *. intros r Hr. apply H.
  eapply Permutation_in; [symmetry; eassumption|exact Hr].
Qed.
Lemma by_columns_rows f m c n : even_handed f -> shape c n m -> (0 < c)%nat ->
  exists h, (forall r, length (h r) = n) /\ forall m', Permutation m m' -> by_columns f m' = map h m'.
Proof.
  intros (g & E & G) S Hc. exists (fun r => map (fun j => g (mcol m j) (nth j r 0)) (seq 0 n)). split; [intros r; now rewrite map_length, seq_length|].
  intros m' P. pose proof (perm_shape c n m m' S P) as S'. unfold by_columns. rewrite (mcols_shape m' c n S' Hc). unfold transpose.
  rewrite <- (map_places (fun r => map (fun j => g (mcol m j) (nth j r 0)) (seq 0 n)) [] m'). apply map_ext_in. intros i Hi. apply in_seq in Hi.
  unfold mcol at 1. rewrite !map_map. apply map_ext. intros j. rewrite E. change n0 with 0.
  rewrite (nth_indep _ 0 (g (mcol m' j) (nth j [] 0))) by (rewrite map_length; unfold mcol; rewrite map_length; lia). rewrite map_nth.
  assert (Q : nth i (mcol m' j) (nth j [] 0) = nth j (nth i m' []) 0) by (unfold mcol; change n0 with 0; now rewrite (map_nth (fun r => nth j r 0))).
  rewrite Q. apply G. unfold mcol. apply Permutation_sym. now apply Permutation_map.
Qed.
Lemma zip_maps {A B C D} (f : B -> C -> D) (a : A -> B) (b : A -> C) l : zip_with f (map a l) (map b l) = map (fun x => f (a x) (b x)) l.
Proof. induction l as [|x l IH]; [reflexivity|]. unfold zip_with in *. cbn. f_equal. exact IH. Qed.
Lemma nsum_concat_perm (l l' : list (list R)) : Permutation l l' -> nsum (concat l) = nsum (concat l').
Proof. intros P. rewrite !nsum_Rsum, !Rsum_concat. apply Rsum_Permutation. now apply Permutation_map. Qed.
Lemma forallb_perm {A} (p : A -> bool) l l' : Permutation l l' -> forallb p l = forallb p l'.
Proof. intros P. apply Bool.eq_iff_eq_true. rewrite !forallb_forall. split; intros H x Hx; apply H; eapply Permutation_in; try eassumption. now symmetry. Qed.

(** ** One step *)
Lemma step_perm data u u' m c n cn v j d : (0 < c)%nat -> shape c n u -> length data = n -> Permutation u u' -> cmeans0 data u m = Ok (cn, v, j, d) ->
  exists a b k, cn = map a u /\ v = map b u /\ d = map k u /\ cmeans0 data u' m = Ok (map a u', map b u', j, map k u').
Proof.
  intros Hc S Ld P E. destruct (by_columns_rows normalize_column u c n even_handed_normalize S Hc) as (h & Lh & Hh).
  set (q := fun r => map (fun x => npow x m) (map (fun x => fmax x neps) (h r))).
  set (a := fun r => ndiv (nsum (zip_with nmul (q r) data)) (nsum (q r))).
  set (k := fun r => map (fun x => fmax x neps) (map (fun y => nabs (nsub y (a r))) data)).
  assert (Sk : shape c n (map k u)) by (split; [rewrite map_length; apply S|apply Forall_forall; intros r Hr; apply in_map_iff in Hr as (x & <- & _); unfold k; now rewrite !map_length]).
  set (e := ndiv (nofZ (F := R) (-2)) (nsub m n1)). destruct (by_columns_rows (power_column e) (map k u) c n (even_handed_power e) Sk Hc) as (b & _ & Hb).
  exists a, (fun r => b (k r)), k.
  assert (G : forall w, Permutation u w -> cmeans0 data w m =
    (e' <- pdiv (nofZ (-2)) (nsub m n1) ;; v' <- normalize_power_columns (map k w) e' ;;
     Ok (map a w, v', nsum (concat (map (fun r => zip_with (fun x y => nmul x (nmul y y)) (q r) (k r)) w)), map k w))%res).
  { intros w Pw. unfold cmeans0, normalize_columns. rewrite (Hh w Pw). cbv zeta.
    assert (E1 : map (map (fun x => npow x m)) (map (map (fun x => fmax x neps)) (map h w)) = map q w) by (now rewrite !map_map).
    rewrite E1. assert (E2 : map (fun r => ndiv (nsum (zip_with nmul r data)) (nsum r)) (map q w) = map a w) by (now rewrite map_map). rewrite E2.
    assert (E3 : map (map (fun x => fmax x neps)) (one_dimension_distance data (map a w)) = map k w) by (unfold one_dimension_distance; now rewrite !map_map). rewrite E3.
    now rewrite zip_maps. }
  rewrite (G u (Permutation_refl u)) in E. rewrite (G u' P). unfold pdiv in *. destruct (neqb (nsub m n1) n0); [discriminate E|]. cbn [rbind] in *. fold e in E |- *.
  unfold normalize_power_columns in *. rewrite <- (forallb_perm _ (map k u) (map k u')) by now apply Permutation_map.
  destruct (forallb _ (map k u)); [|discriminate E]. cbn [rbind] in *. rewrite (Hb (map k u) (Permutation_refl _)) in E. rewrite (Hb (map k u')) by now apply Permutation_map.
  rewrite map_map in E. rewrite map_map. injection E as <- <- <- <-. split; [reflexivity|]. split; [reflexivity|]. split; [reflexivity|]. do 2 f_equal. f_equal.
  symmetry. apply nsum_concat_perm. now apply Permutation_map.
Qed.
Lemma mdist_perm (b : list R -> list R) u u' : Permutation u u' -> mdist (map b u) u = mdist (map b u') u'.
Proof.
  intros P. unfold mdist. rewrite <- (map_id u) at 2. rewrite <- (map_id u') at 2. rewrite !zip_maps. unfold norm. f_equal. rewrite !concat_map, !map_map. apply nsum_concat_perm. now apply Permutation_map.
Qed.

(** ** The algorithm *)
(** the centre, memberships and distances of every cluster *)
Definition clusters_of (cn : list R) (u d : list (list R)) : list (R * (list R * list R)) := combine cn (combine u d).
Lemma clusters_map (a : list R -> R) b k u : clusters_of (map a u) (map b u) (map k u) = map (fun r => (a r, (b r, k r))) u.
Proof. unfold clusters_of. induction u as [|r u IH]; [reflexivity|]. cbn. f_equal. exact IH. Qed.
Lemma loop_perm data m err c n t : (0 < c)%nat -> length data = n -> forall last last' u u' jm p cn d v jm' p', shape c n u -> Permutation u u' ->
  cmeans_loop (S t) data m err last u jm p = Ok (Some (cn, d), v, jm', p') ->
  exists cn' d' v', cmeans_loop (S t) data m err last' u' jm p = Ok (Some (cn', d'), v', jm', p') /\ Permutation (clusters_of cn v d) (clusters_of cn' v' d') /\
    length cn = c /\ length v = c /\ length d = c /\ length cn' = c /\ length v' = c /\ length d' = c /\ Permutation v v'.
Proof.
  intros Hc Ld. induction t as [|t IH]; intros last last' u u' jm p cn d v jm' p' Sh P E.
  - cbn [cmeans_loop] in E |- *. destruct (cmeans0 data u m) as [[[[cn0 v0] j0] d0]|] eqn:E0; [|discriminate E]. cbn [rbind] in E. cbv zeta in E.
    destruct (step_perm data u u' m c n cn0 v0 j0 d0 Hc Sh Ld P E0) as (a & b & k & -> & -> & -> & ->). cbn [rbind]. cbv zeta.
    assert (X : cn = map a u /\ d = map k u /\ v = map b u /\ jm' = (jm ++ [j0])%list /\ p' = Datatypes.S p).
    { destruct (nltb (mdist (map b u) u) err); injection E as <- <- <- <- <-; auto. }
    destruct X as (-> & -> & -> & -> & ->). exists (map a u'), (map k u'), (map b u'). split; [now destruct (nltb (mdist (map b u') u') err)|].
    rewrite !clusters_map, !map_length. pose proof (Permutation_length P). pose proof (proj1 Sh). repeat split; try lia; now apply Permutation_map.
  - remember (Datatypes.S t) as t'. cbn [cmeans_loop] in E |- *. destruct (cmeans0 data u m) as [[[[cn0 v0] j0] d0]|] eqn:E0; [|discriminate E]. cbn [rbind] in E. cbv zeta in E.
    pose proof (cmeans0_shape data u m cn0 v0 j0 d0 c n E0 Sh Ld) as (Sv & _ & _).
    destruct (step_perm data u u' m c n cn0 v0 j0 d0 Hc Sh Ld P E0) as (a & b & k & -> & -> & -> & ->). cbn [rbind]. cbv zeta. rewrite <- (mdist_perm b u u' P).
    destruct (nltb (mdist (map b u) u) err).
    + injection E as <- <- <- <- <-. exists (map a u'), (map k u'), (map b u'). split; [reflexivity|].
      rewrite !clusters_map, !map_length. pose proof (Permutation_length P). pose proof (proj1 Sh). repeat split; try lia; now apply Permutation_map.
    + subst t'. eapply IH; [exact Sv|now apply Permutation_map|exact E].
Qed.
Lemma rmap_places {A} (f : nat -> res A) (l : list A) : (forall i x, nth_error l i = Some x -> f i = Ok x) -> rmap f (seq 0 (length l)) = Ok l.
Proof.
  revert f. induction l as [|x l IH]; intros f H; [reflexivity|]. cbn [length seq rmap]. rewrite (H 0%nat x eq_refl). cbn [rbind].
  assert (Q : rmap f (seq 1 (length l)) = rmap (fun i => f (Datatypes.S i)) (seq 0 (length l))).
  { rewrite <- seq_shift. clear. induction (seq 0 (length l)) as [|a s IH]; [reflexivity|]. cbn [map rmap]. destruct (f (Datatypes.S a)); [|reflexivity]. cbn [rbind]. now rewrite IH. }
  rewrite Q, (IH (fun i => f (Datatypes.S i))); [reflexivity|]. intros i y Hy. now apply (H (Datatypes.S i)).
Qed.
Lemma start_rows c n (u0 : list (list R)) : shape c n u0 -> cmeans_start c n u0 = Ok (map (map (fun x => if nltb x neps then neps else x)) u0).
Proof.
  intros [L H]. unfold cmeans_start. set (clamp := fun x : R => if nltb x neps then neps else x).
  assert (Lm : c = length (map (map clamp) u0)) by now rewrite map_length. rewrite Lm at 1. apply rmap_places. intros i y Hy. rewrite nth_error_map in Hy.
  destruct (nth_error u0 i) as [r|] eqn:Er; [|discriminate Hy]. cbn [option_map] in Hy. injection Hy as <-. cbn [rbind].
  assert (Lr : n = length (map clamp r)) by (rewrite map_length; rewrite Forall_forall in H; symmetry; apply H; eapply nth_error_In; eauto). rewrite Lr at 1.
  apply rmap_places. intros j z Hz. rewrite nth_error_map in Hz. unfold nbget. destruct (nth_error r j) as [x|]; [|discriminate Hz]. cbn [option_map] in Hz. injection Hz as <-. reflexivity.
Qed.
Lemma fpc_perm c n (v v' : list (list R)) : (0 < c)%nat -> shape c n v -> Permutation v v' -> fp_coeff v = fp_coeff v'.
Proof.
  intros Hc S P. unfold fp_coeff. rewrite (mcols_shape v c n S Hc), (mcols_shape v' c n (perm_shape c n v v' S P) Hc). f_equal. rewrite !nsum_Rsum. apply Rsum_Permutation. now apply Permutation_map.
Qed.
Definition given (init : option (list (list R))) (rand : list (list R)) : list (list R) := match init with Some v => v | None => rand end.
Lemma cmeans_perm data c m err maxiter init init' rand rand' cn u u0 d jm p fpc :
  (0 < c)%nat -> data <> [] -> m <> 1 -> (2 <= maxiter)%Z -> shape c (length data) (given init rand) -> (init = None <-> init' = None) -> Permutation (given init rand) (given init' rand') ->
  cmeans data c m err maxiter init rand = Ok (cn, u, u0, d, jm, p, fpc) ->
  exists cn' u' u0' d', cmeans data c m err maxiter init' rand' = Ok (cn', u', u0', d', jm, p, fpc) /\ Permutation (clusters_of cn u d) (clusters_of cn' u' d') /\
    length cn = c /\ length u = c /\ length d = c /\ length cn' = c /\ length u' = c /\ length d' = c.
Proof.
  intros Hc Hd Hm Hi S I P E. revert E. unfold cmeans.
  set (w := match init with Some v => v | None => normalize_columns rand end). set (w' := match init' with Some v => v | None => normalize_columns rand' end).
  assert (W : shape c (length data) w /\ Permutation w w').
  { unfold w, w', given in *. destruct init as [v|], init' as [v'|]; try (split; assumption); try (destruct I as [I1 I2]; (discriminate (I1 eq_refl) || discriminate (I2 eq_refl))).
    split; [apply by_columns_shape; auto using normalize_column_length|]. destruct (by_columns_rows normalize_column rand c _ even_handed_normalize S Hc) as (h & _ & Hh).
    unfold normalize_columns. rewrite (Hh rand (Permutation_refl _)), (Hh rand' P). now apply Permutation_map. }
  destruct W as [Sw Pw]. clearbody w w'. cbv zeta. rewrite (start_rows c _ w Sw), (start_rows c _ w' (perm_shape _ _ _ _ Sw Pw)). cbn [rbind].
  set (cl := fun x : R => if nltb x neps then neps else x). assert (Ss : shape c (length data) (map (map cl) w)).
  { split; [rewrite map_length; apply Sw|]. apply Forall_map. eapply Forall_impl; [|apply Sw]. intros r Hr. now rewrite map_length. }
  assert (Hk : exists k, Z.to_nat (maxiter - 1) = Datatypes.S k) by (exists (Z.to_nat (maxiter - 2)); lia). destruct Hk as (k & Ek). rewrite Ek.
  destruct (cmeans_loop (Datatypes.S k) data m err None (map (map cl) w) [] 0) as [[[[last v] jm'] p']|] eqn:El; [|discriminate]. cbn [rbind].
  destruct last as [[cn0 d0]|]; [|destruct (fp_coeff v); discriminate].
  destruct (loop_perm data m err c (length data) k Hc eq_refl None None _ (map (map cl) w') [] 0%nat cn0 d0 v jm' p' Ss (Permutation_map _ Pw) El) as (cn' & d' & v' & El' & Q & L1 & L2 & L3 & L4 & L5 & L6 & Pv).
  rewrite El'. cbn [rbind].
  assert (Sv : shape c (length data) v).
  { assert (Hn : (0 < length data)%nat) by (destruct data; [congruence|cbn; lia]).
    destruct (cmeans_loop_real (Datatypes.S k) data m err None (map (map cl) w) [] 0 c Hc Hn Hm Ss) as (l1 & u1 & j1 & p1 & E1 & _ & H1); [discriminate|]. rewrite El in E1. injection E1 as <- <- <- <-.
    destruct (H1 ltac:(lia)) as (cn1 & d1 & prev & _ & (_ & _ & (X & _)) & _). exact X. }
  rewrite <- (fpc_perm c _ v v' Hc Sv Pv). destruct (fp_coeff v) as [q|]; [|discriminate]. cbn [rbind]. intros E. injection E as <- <- _ <- <- <- <-.
  exists cn', v', w', d'. split; [reflexivity|]. auto 10.
Qed.
