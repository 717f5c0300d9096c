(** DatasetFacts4.v — file name extensions and factorized columns. *)
From Verif Require Import Base BaseFacts LoaderSpec Num Functions JoinFacts Dataset DatasetSpec DatasetFacts DatasetFacts2 DatasetFacts3.

(** ** Extensions *)
Lemma split_cons1 ch c t acc : split_go (String ch "") (String c t) acc 0 =
  if Ascii.eqb c ch then acc :: split_go (String ch "") t "" 0 else split_go (String ch "") t (append acc (String c "")) 0.
Proof.
  cbn [split_go prefix String.length Nat.sub].
  destruct (Ascii.eqb_spec c ch) as [->|Ne].
  - destruct (ascii_dec ch ch); [|congruence]. now destruct t.
  - destruct (ascii_dec ch c); [congruence|reflexivity].
Qed.
Lemma split_nonempty ch s acc : split_go (String ch "") s acc 0 <> [].
Proof. revert acc. induction s as [|c s IH]; intros acc; [discriminate|]. rewrite split_cons1. destruct (Ascii.eqb c ch); [discriminate|apply IH]. Qed.
Lemma char_occurs ch s : occurs (String ch "") s <-> exists a b, s = append a (String ch b).
Proof. split; intros (a & b & ->); exists a, b; reflexivity. Qed.
Lemma snoc_occurs ch acc c : c <> ch -> ~ occurs (String ch "") acc -> ~ occurs (String ch "") (append acc (String c "")).
Proof.
  rewrite !char_occurs. intros Ne Ha (a & b & E). apply Ha. clear Ha.
  revert a E. induction acc as [|d acc IH]; intros a E.
  - cbn [append] in E. destruct a as [|x a]; cbn in E; injection E as E1 E2; [congruence|destruct a; discriminate].
  - destruct a as [|x a]; cbn in E; injection E as E1 E2.
    + exists "", acc. now subst.
    + destruct (IH a E2) as (a' & b' & ->). exists (String d a'), b'. reflexivity.
Qed.
Lemma last_split ch s acc : ~ occurs (String ch "") acc ->
  let e := last (split_go (String ch "") s acc 0) "" in
  ~ occurs (String ch "") e /\ (append acc s = e \/ exists p, append acc s = append p (String ch e)).
Proof.
  revert acc. induction s as [|c s IH]; intros acc Ha.
  - cbn. split; auto. left. apply append_nil_r.
  - rewrite split_cons1. destruct (Ascii.eqb_spec c ch) as [->|Ne].
    + destruct (IH "") as [H1 H2]; [rewrite char_occurs; intros ([|a' a] & b & E); discriminate|].
      assert (E : last (acc :: split_go (String ch "") s "" 0) "" = last (split_go (String ch "") s "" 0) "").
      { cbn [last]. pose proof (split_nonempty ch s "") as K. destruct (split_go (String ch "") s "" 0); [congruence|reflexivity]. }
      rewrite E. split; auto. right. cbn [append] in H2. destruct H2 as [<-|(p & E2)]; [exists acc; reflexivity|].
      exists (append acc (String ch p)). rewrite append_assoc'. cbn [append]. now rewrite <- E2.
    + destruct (IH (append acc (String c ""))) as [H1 H2]; [now apply snoc_occurs|]. split; auto. now rewrite append_assoc' in H2.
Qed.
Lemma occurs_suffix p e ch : ~ occurs (String ch "") (append p e) -> ~ occurs (String ch "") e.
Proof. rewrite !char_occurs. intros H (a & b & ->). apply H. exists (append p a), b. now rewrite append_assoc'. Qed.
Lemma extension_spec path : path_end path (extension path).
Proof.
  unfold extension. assert (E0 : forall ch, ~ occurs (String ch "") "") by (intros ch; rewrite char_occurs; intros ([|a' a] & b & E); discriminate).
  destruct (last_split "/"%char path "" (E0 _)) as [H1 H2]. cbv zeta in H1, H2. cbn [append] in H2.
  set (base := last (split_go "/" path "" 0) "") in *.
  destruct (last_split "."%char base "" (E0 _)) as [H3 H4]. cbv zeta in H3, H4. cbn [append] in H4.
  set (e := last (split_go "." base "" 0) "") in *.
  assert (H5 : ~ occurs "/" e).
  { destruct H4 as [E|(p & E)]; rewrite E in H1; auto. apply (occurs_suffix (append p ".") e "/"%char). now rewrite append_assoc'. }
  clearbody base e. split; auto. split; auto. destruct H2 as [->|(p & ->)], H4 as [E|(q & E)].
  - auto.
  - right. exists q. left. exact E.
  - rewrite E. right. exists p. now right.
  - rewrite E. right. exists (append p (String "/" q)). left. rewrite append_assoc'. reflexivity.
Qed.

Lemma append_split (p1 e1 p2 e2 : string) : append p1 e1 = append p2 e2 ->
  (exists x, p1 = append p2 x /\ e2 = append x e1) \/ (exists x, p2 = append p1 x /\ e1 = append x e2).
Proof.
  revert p2. induction p1 as [|c p1 IH]; intros p2 E.
  - right. exists p2. cbn in E. auto.
  - destruct p2 as [|d p2]; cbn in E.
    + left. exists (String c p1). auto.
    + injection E as -> E. destruct (IH p2 E) as [(x & -> & ->)|(x & -> & ->)]; [left|right]; exists x; auto.
Qed.
Lemma path_end_pre path e : path_end path e -> exists pre, path = append pre e /\
  (pre = "" \/ exists p c, pre = append p (String c "") /\ (c = "."%char \/ c = "/"%char)).
Proof.
  intros (_ & _ & [->|(p & [->| ->])]).
  - exists "". auto.
  - exists (append p "."). rewrite append_assoc'. split; auto. right. exists p, "."%char. auto.
  - exists (append p "/"). rewrite append_assoc'. split; auto. right. exists p, "/"%char. auto.
Qed.
Lemma end_longer pre1 pre2 x e1 e2 : (pre1 = "" \/ exists p c, pre1 = append p (String c "") /\ (c = "."%char \/ c = "/"%char)) ->
  pre1 = append pre2 x -> e2 = append x e1 -> ~ occurs "." e2 -> ~ occurs "/" e2 -> e1 = e2.
Proof.
  intros H1 H2 -> Hd Hs. destruct x as [|c x]; auto. exfalso. destruct H1 as [->|(p & d & -> & Hc)]; [destruct pre2; discriminate|].
  assert (K : exists y, String c x = append y (String d "")).
  { revert p H2. induction pre2 as [|k pre2 IH]; intros p H2; [exists p; cbn in H2; auto|].
    destruct p as [|k' p]; cbn in H2; injection H2 as E1 E2; [destruct pre2; discriminate|]. apply (IH p E2). }
  destruct K as (y & K). rewrite K, append_assoc' in Hd, Hs. cbn [append] in Hd, Hs.
  destruct Hc as [-> | ->]; [apply Hd|apply Hs]; exists y, e1; reflexivity.
Qed.
Lemma extension_iff path e : extension path = e <-> path_end path e.
Proof.
  split; [intros <-; apply extension_spec|]. intros He. pose proof (extension_spec path) as Hx. set (e' := extension path) in *. clearbody e'.
  destruct (path_end_pre _ _ He) as (p1 & E1 & H1), (path_end_pre _ _ Hx) as (p2 & E2 & H2). rewrite E1 in E2.
  destruct He as (A1 & A2 & _), Hx as (B1 & B2 & _).
  destruct (append_split _ _ _ _ E2) as [(x & X1 & X2)|(x & X1 & X2)].
  - symmetry. exact (end_longer p1 p2 x e e' H1 X1 X2 B1 B2).
  - exact (end_longer p2 p1 x e' e H2 X1 X2 A1 A2).
Qed.

(** ** Codes with missing values *)
Section Coded.
Context {V : Type}.
Variable P : values V.
Hypothesis eq_ok : forall a b, v_eq P a b = true <-> a = b.
Variable dec : forall a b : V, {a = b} + {a <> b}.
Let P' : values V := mkValues V (v_text P) (v_code P) (v_eval P) (v_isstr P) (v_isint P) (v_hash P) (fun _ => false) (v_eq P).
Let present (y : V) : bool := negb (v_na P y).

Lemma uniques_present l us : fold_left (fun us x => if v_na P x || existsb (v_eq P x) us then us else us ++ [x]) l us =
  fold_left (fun us x => if v_na P' x || existsb (v_eq P' x) us then us else us ++ [x]) (filter present l) us.
Proof. revert us. induction l as [|x l IH]; intros us; auto. cbn [fold_left filter]. unfold present. destruct (v_na P x) eqn:E; cbn [negb orb fold_left]; [apply IH|]. apply IH. Qed.
Lemma uniques_eq l : uniques P l = uniques P' (map (fun x => x) (filter present l)).
Proof. rewrite map_id. apply uniques_present. Qed.
Lemma position_P' x l : position P x l = position P' x l.
Proof. reflexivity. Qed.
Lemma coded_codes l : coded P dec l (codes P l).
Proof.
  unfold coded, codes.
  assert (G : forall l0, (forall x, In x l0 -> In x l) -> Forall2 (fun x k => (v_na P x = true /\ k = (-1)%Z) \/
    (v_na P x = false /\ exists before after, l = before ++ x :: after /\ ~ In x before /\ k = Z.of_nat (length (nodup dec (filter present before))))) l0
    (map (fun x => if v_na P x then (-1)%Z else Z.of_nat (position P x (uniques P l))) l0)).
  { induction l0 as [|x l0 IH]; intros H; cbn [map]; constructor; [|apply IH; intros y Hy; apply H; now right].
    destruct (v_na P x) eqn:E; [now left|]. right. split; auto.
    destruct (split_first V dec x l (H x (or_introl eq_refl))) as (b & a & El & Hb). exists b, a. split; auto. split; auto. f_equal.
    assert (Hx : In x (filter present l)) by (apply filter_In; split; [apply H; now left|unfold present; now rewrite E]).
    pose proof (position_code P' V (fun x => x) eq_ok (fun _ => eq_refl) dec (filter present l) x Hx) as C. cbv beta in C.
    rewrite position_P', uniques_eq. refine (code_in_fun dec _ x _ _ C _). exists (filter present b), (filter present a).
    split; [|split; [|reflexivity]].
    - rewrite El, filter_app. cbn [filter]. unfold present at 2. now rewrite E.
    - intros K. apply filter_In in K as [K _]. contradiction. }
  apply G. auto.
Qed.
Lemma uniques_length l : length (uniques P l) = length (nodup dec (filter present l)).
Proof.
  rewrite uniques_eq. unfold uniques.
  pose proof (uniques_du P' V (fun x => x) eq_ok (fun _ => eq_refl) dec (filter present l) []) as U. cbn [map] in U. rewrite U, map_length. apply du_length.
Qed.

(** ** Factorized columns *)
Context {F : Type} {N : Num F}.
Variables (m : Z) (q : F).
Definition coded_column (l : list V) : bool :=
  match l with
  | [] => false
  | x :: _ => v_isstr P x || (v_isint P x && ((Z.of_nat (length (uniques P l)) <=? m)%Z || nltb (ndiv (nat2F (length (uniques P l))) (nat2F (length l))) q))
  end.
Definition fcol (l : list V) : list V := if coded_column l then map (v_code P) (codes P l) else l.
Lemma codes_length l : length (codes P l) = length l.
Proof. apply map_length. Qed.
Lemma fcol_length l : length (fcol l) = length l.
Proof. unfold fcol. destruct (coded_column l); auto. now rewrite map_length, codes_length. Qed.
Lemma factor_ok a l : l <> [] -> Forall (fun v => v_hash P v = true) l -> neqb (nat2F (length l)) n0 = false ->
  factor_column P m q (a, l) = Ok (a, fcol l).
Proof.
  intros Hn Hh Hz. unfold factor_column, fcol, coded_column. cbn [fst snd]. destruct l as [|x t]; [congruence|].
  change (lget (x :: t) 0) with (@Ok V x). cbn [rbind].
  assert (Ef : factorize P (x :: t) = Ok (codes P (x :: t), uniques P (x :: t))).
  { unfold factorize. assert (forallb (v_hash P) (x :: t) = true) as ->; auto. apply forallb_forall. now apply Forall_forall. }
  rewrite Ef. cbn [rbind fst]. destruct (v_isstr P x); [reflexivity|]. cbn [orb].
  destruct (v_isint P x); cbn [andb]; [|reflexivity].
  destruct (Z.of_nat (length (uniques P (x :: t))) <=? m)%Z eqn:Em; cbn [orb]; [reflexivity|].
  rewrite codes_length. unfold pdiv. rewrite Hz. cbn [rbind]. destruct (nltb _ q); reflexivity.
Qed.
Lemma fcol_factored l : l <> [] -> factored P dec m q l (fcol l).
Proof.
  intros Hn. destruct l as [|x t]; [congruence|]. exists x, t. split; auto. cbv zeta. unfold different. fold present. rewrite <- uniques_length.
  unfold fcol, coded_column. repeat split.
  - intros ->. cbn [orb]. exists (codes P (x :: t)). split; auto. apply coded_codes.
  - intros -> -> H. cbn [orb andb]. exists (codes P (x :: t)). split; [apply coded_codes|].
    destruct H as [H|H]; [apply Z.leb_le in H; now rewrite H|rewrite H, orb_true_r; reflexivity].
  - intros -> -> H. cbn [orb andb]. destruct (_ <=? m)%Z eqn:E; [exfalso; apply H; left; now apply Z.leb_le|]. cbn [orb].
    destruct (nltb _ q) eqn:E2; [exfalso; apply H; now right|reflexivity].
  - intros -> ->. reflexivity.
Qed.
Lemma row_eq_iff a b : row_eq P a b = true <-> a = b.
Proof.
  revert b. induction a as [|x a IH]; intros [|y b]; cbn; try (split; [discriminate|discriminate]); [split; auto|].
  rewrite andb_true_iff, eq_ok, IH. split; [intros [-> ->]; auto|intros [= -> ->]; auto].
Qed.
Definition frows (header : list string) (rows : list (list V)) : list (list V) :=
  map (fun i => map (fun k => nth i (fcol (map (fun r => nth k r (v_text P "")) rows)) (v_text P "")) (seq 0 (length header))) (seq 0 (length rows)).
Lemma seq_nth_self (l : list V) d : map (fun i => nth i l d) (seq 0 (length l)) = l.
Proof. induction l as [|x l IH]; auto. cbn [length seq map nth]. f_equal. rewrite <- seq_shift, map_map. exact IH. Qed.
Lemma frows_cols header rows : rows <> [] -> Forall (fun r => length r = length header) rows -> Forall (Forall (fun v => v_hash P v = true)) rows ->
  neqb (nat2F (length rows)) n0 = false -> rmap (factor_column P m q) (colsof P header rows) = Ok (colsof P header (frows header rows)).
Proof.
  intros Hn HL HH Hz.
  assert (G : forall ks, (forall k a, In (k, a) ks -> (k < length header)%nat) ->
    rmap (factor_column P m q) (map (fun jk : nat * string => (snd jk, map (fun r => nth (fst jk) r (v_text P "")) rows)) ks) =
    Ok (map (fun jk : nat * string => (snd jk, map (fun r => nth (fst jk) r (v_text P "")) (frows header rows))) ks)).
  { induction ks as [|[k a] ks IH]; intros Hk; auto. cbn [map rmap fst snd]. rewrite factor_ok.
    - cbn [rbind]. rewrite IH by (intros k' a' H'; apply (Hk k' a'); now right). cbn [rbind]. f_equal. f_equal. f_equal.
      unfold frows. rewrite map_map. set (c := map (fun r => nth k r (v_text P "")) rows).
      transitivity (map (fun i => nth i (fcol c) (v_text P "")) (seq 0 (length rows))).
      + assert (length rows = length (fcol c)) as -> by (unfold c; now rewrite fcol_length, map_length). symmetry. apply seq_nth_self.
      + apply map_ext. intros i. pose proof (Hk k a (or_introl eq_refl)) as Lk.
        set (g := fun k0 => nth i (fcol (map (fun r => nth k0 r (v_text P "")) rows)) (v_text P "")).
        change (nth i (fcol c) (v_text P "") = nth k (map g (seq 0 (length header))) (v_text P "")).
        rewrite (nth_indep (map g _) (v_text P "") (g 0)) by (rewrite map_length, seq_length; lia). rewrite (map_nth g), seq_nth by lia. reflexivity.
    - destruct rows; [congruence|discriminate].
    - apply Forall_forall. intros v Hv. apply in_map_iff in Hv as (r & <- & Hr). rewrite Forall_forall in HH, HL. specialize (HH r Hr). rewrite Forall_forall in HH.
      apply HH, nth_In. rewrite (HL r Hr). apply (Hk k a). now left.
    - now rewrite map_length. }
  apply G. intros k a H. apply in_combine_l in H. apply in_seq in H. lia.
Qed.
End Coded.
