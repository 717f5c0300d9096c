(** DatasetFacts.v — lemmas about loading data sets. *)
From Verif Require Import Base BaseFacts LoaderSpec JoinFacts Dataset DatasetSpec.

(** ** Fields *)
Lemma occurs_cons c p s : occurs (String c p) s -> occurs (String c "") s.
Proof. intros (a & b & ->). exists a, (append p b). reflexivity. Qed.
Lemma comma_occurs s : occurs "," s <-> exists a b, s = append a (String ","%char b).
Proof. split; intros (a & b & ->); exists a, b; reflexivity. Qed.
Lemma not_comma c s : ~ occurs "," (String c s) <-> c <> ","%char /\ ~ occurs "," s.
Proof.
  rewrite !comma_occurs. split.
  - intros H. split.
    + intros ->. apply H. exists "", s. reflexivity.
    + intros (a & b & ->). apply H. exists (String c a), b. reflexivity.
  - intros [H1 H2] ([|c' a] & b & E); cbn in E; injection E as E1 E2; [congruence|]. apply H2. eauto.
Qed.
Lemma split_cons c t acc : split_go comma (String c t) acc 0 =
  if Ascii.eqb c ","%char then acc :: split_go comma t "" 0 else split_go comma t (append acc (String c "")) 0.
Proof.
  unfold comma. cbn [split_go prefix String.length Nat.sub].
  destruct (Ascii.eqb_spec c ","%char) as [->|Ne].
  - destruct (ascii_dec "," ","); [|congruence]. now destruct t.
  - destruct (ascii_dec "," c); [congruence|reflexivity].
Qed.
Lemma append_nil_r s : append s "" = s.
Proof. induction s; cbn; congruence. Qed.
Lemma append_assoc' a b c : append (append a b) c = append a (append b c).
Proof. induction a; cbn; congruence. Qed.
Lemma fields_go s acc : ~ occurs "," acc ->
  split_go comma s acc 0 <> [] /\ append acc s = String.concat "," (split_go comma s acc 0) /\
  Forall (fun f => ~ occurs "," f) (split_go comma s acc 0).
Proof.
  revert acc. induction s as [|c s IH]; intros acc Ha.
  - cbn [split_go]. split; [discriminate|]. split; [apply append_nil_r|]. repeat constructor; auto.
  - rewrite split_cons. destruct (Ascii.eqb_spec c ","%char) as [->|Ne].
    + destruct (IH "") as (I1 & I2 & I3). { rewrite comma_occurs. intros ([|a' a] & b & E); discriminate. }
      split; [discriminate|]. split; [|constructor; auto].
      cbn [append] in I2. destruct (split_go comma s "" 0) as [|f fs] eqn:E; [congruence|]. 
      change (String.concat "," (acc :: f :: fs)) with (append acc (append "," (String.concat "," (f :: fs)))). rewrite <- I2. reflexivity.
    + destruct (IH (append acc (String c ""))) as (I1 & I2 & I3).
      { rewrite comma_occurs in *. intros (a & b & E). apply Ha. clear - E Ne.
        revert a E. induction acc as [|d acc IH]; intros a E.
        - cbn [append] in E. destruct a as [|x a]; cbn in E; injection E as E1 E2; [congruence|destruct a; discriminate].
        - destruct a as [|x a]; cbn in E; injection E as E1 E2.
          + exists "", acc. now subst.
          + destruct (IH a E2) as (a' & b' & ->). exists (String d a'), b'. reflexivity. }
      split; auto. split; auto. rewrite <- I2. now rewrite append_assoc'.
Qed.
Lemma split_piece f s acc : ~ occurs "," f -> split_go comma (append f (String ","%char s)) acc 0 = append acc f :: split_go comma s "" 0.
Proof.
  revert acc. induction f as [|c f IH]; intros acc H; cbn [append].
  - rewrite split_cons. now rewrite append_nil_r.
  - apply not_comma in H as [H1 H2]. rewrite split_cons. destruct (Ascii.eqb_spec c ","%char); [congruence|].
    rewrite IH by auto. now rewrite append_assoc'.
Qed.
Lemma fields_spec line fs : fields line = fs <-> fields_of line fs.
Proof.
  unfold fields. split.
  - intros <-. destruct (fields_go line "") as (H1 & H2 & H3); [rewrite comma_occurs; intros ([|a' a] & b & E); discriminate|].
    split; auto.
  - intros (H1 & -> & H3). clear - H1 H3. induction fs as [|f fs IH]; [congruence|]. inversion H3 as [|? ? Hf Hfs]; subst.
    destruct fs as [|f' fs].
    + cbn [String.concat]. exact (split_none comma f "" Hf).
    + change (String.concat "," (f :: f' :: fs)) with (append f (String ","%char (String.concat "," (f' :: fs)))).
      rewrite split_piece by auto. cbn [append]. f_equal. apply IH; auto. discriminate.
Qed.
Lemma fields_nonempty line : fields line <> [].
Proof. apply (proj1 (fields_spec line _) eq_refl). Qed.

(** ** Stripping *)
Lemma is_space_spec c : is_space c = true <-> white c.
Proof.
  unfold is_space, white. cbv zeta. rewrite orb_true_iff, !andb_true_iff, !Nat.leb_le. cbn [In].
  set (n := nat_of_ascii c). clearbody n. lia.
Qed.
Lemma not_space c : is_space c = false -> ~ white c.
Proof. intros H K. apply is_space_spec in K. congruence. Qed.
Lemma lstrip_spec s : exists a, s = append a (lstrip s) /\ blank_text a /\ forall c u, lstrip s = String c u -> ~ white c.
Proof.
  induction s as [|c s IH]; cbn [lstrip].
  - exists "". split; auto. split; [intros [|x a] c b E; discriminate|discriminate].
  - destruct (is_space c) eqn:Ec.
    + destruct IH as (a & E & B & Hn). exists (String c a). split; [cbn; congruence|]. split; auto.
      intros [|x a'] d b E'; cbn in E'; injection E'; [intros _ <-; now apply is_space_spec|intros E2 _; apply (B a' d b E2)].
    + exists "". split; auto. split; [intros [|x a] d b E; discriminate|]. intros d u [= <- _]. now apply not_space.
Qed.
Lemma rstrip_spec s : exists b, s = append (rstrip s) b /\ blank_text b /\ forall c u, rstrip s = append u (String c "") -> ~ white c.
Proof.
  induction s as [|c s IH]; cbn [rstrip].
  - exists "". split; auto. split; [intros [|x a] c b E; discriminate|intros c [|x u]; discriminate].
  - destruct IH as (b & E & B & Hn). destruct (rstrip s) as [|d r] eqn:Er.
    + cbn in E. subst b. destruct (is_space c) eqn:Ec.
      * exists (String c s). split; auto. split; [|intros d [|x u]; discriminate].
        intros [|x a'] d b E'; cbn in E'; injection E'; [intros _ <-; now apply is_space_spec|intros E2 _; apply (B a' d b E2)].
      * exists s. split; auto. split; auto. intros d [|x u] E'; cbn in E'; [injection E' as <-; now apply not_space|destruct u; discriminate].
    + exists b. split; [cbn; f_equal; exact E|]. split; auto. intros e [|x u] E'; cbn in E'; [discriminate|]. injection E' as _ E'. now apply (Hn e u).
Qed.
Lemma strip_spec s : stripped s (strip s).
Proof.
  unfold strip. destruct (lstrip_spec s) as (a & E1 & B1 & N1). destruct (rstrip_spec (lstrip s)) as (b & E2 & B2 & N2).
  split; [exists a, b; split; [congruence|auto]|]. split; auto.
  intros c u E. rewrite E in E2. now apply (N1 c (append u b)).
Qed.

(** ** Columns *)
Section Cols.
Context {V : Type}.
Variable P : values V.
Implicit Types (d : dict (list V)).
Definition addto (ps : list (string * V)) (a : string) : list V := map snd (filter (fun p => String.eqb (fst p) a) ps).
Lemma addto_app ps qs a : addto (ps ++ qs) a = addto ps a ++ addto qs a.
Proof. unfold addto. now rewrite filter_app, map_app. Qed.
Lemma dmap_id d : dmap (fun _ l => l) d = d.
Proof. unfold dmap. rewrite <- (map_id d) at 2. apply map_ext. now intros []. Qed.
Lemma dmap_keys {A B} (f : string -> A -> B) (d : dict A) : dkeys (dmap f d) = dkeys d.
Proof. unfold dkeys, dmap. rewrite map_map. reflexivity. Qed.
Lemma dmap_dmap {A B C} (f : string -> A -> B) (g : string -> B -> C) (d : dict A) : dmap g (dmap f d) = dmap (fun k x => g k (f k x)) d.
Proof. unfold dmap. now rewrite map_map. Qed.
Lemma dmap_ext {A B} (f g : string -> A -> B) (d : dict A) : (forall k x, In (k, x) d -> f k x = g k x) -> dmap f d = dmap g d.
Proof. intros H. unfold dmap. apply map_ext_in. intros [k x] Hk. cbn. now rewrite (H k x Hk). Qed.
Lemma put_spec d a x : NoDup (dkeys d) -> In a (dkeys d) -> put d a x = Ok (dmap (fun k l => l ++ addto [(a, x)] k) d).
Proof.
  intros ND Hin. unfold put, dget_exn.
  assert (G : forall l, dget d a = Some l -> dset d a (l ++ [x]) = dmap (fun k l => l ++ addto [(a, x)] k) d).
  { clear Hin. induction d as [|[k l0] d IH]; intros l; [discriminate|]. cbn [dkeys map fst] in ND. apply NoDup_cons_iff in ND as [Nk ND].
    cbn [dget dset dmap map fst snd]. unfold addto at 1. cbn [filter fst map]. destruct (String.eqb_spec a k) as [->|Ne].
    - intros [= ->]. cbn [map snd]. f_equal. fold (dmap (fun k0 l1 => l1 ++ addto [(k, x)] k0) d). rewrite <- (dmap_id d) at 1. apply dmap_ext. intros k' l' Hk'.
      unfold addto. cbn. destruct (String.eqb_spec k k') as [->|]; [exfalso; apply Nk; now apply (in_map fst d (k', l'))|]. now rewrite app_nil_r.
    - intros Hl. cbn [map]. rewrite app_nil_r. f_equal. now apply IH. }
  destruct (dget d a) as [l|] eqn:E; [cbn; now rewrite (G l)|]. exfalso. clear - E Hin.
  induction d as [|[k l0] d IH]; [easy|]. cbn in *. destruct (String.eqb_spec a k); [discriminate|]. destruct Hin as [->|Hin]; [congruence|auto].
Qed.
Lemma puts_spec (ps : list (string * V)) d : NoDup (dkeys d) -> (forall a x, In (a, x) ps -> In a (dkeys d)) ->
  rfold (fun d p => put d (fst p) (snd p)) ps d = Ok (dmap (fun k l => l ++ addto ps k) d).
Proof.
  revert d. induction ps as [|[a x] ps IH]; intros d ND H.
  - cbn. f_equal. rewrite <- (dmap_id d) at 1. apply dmap_ext. intros. now rewrite app_nil_r.
  - cbn [rfold fst snd]. rewrite put_spec by (auto; apply (H a x); now left). cbn [rbind]. rewrite IH.
    + f_equal. rewrite dmap_dmap. apply dmap_ext. intros k l _. rewrite <- app_assoc, <- addto_app. reflexivity.
    + now rewrite dmap_keys.
    + intros b y Hb. rewrite dmap_keys. apply (H b y). now right.
Qed.
Lemma rfold_map {A B S} (f : S -> B -> res S) (g : A -> B) l s : rfold f (map g l) s = rfold (fun s a => f s (g a)) l s.
Proof. revert s. induction l as [|a l IH]; intros s; cbn; auto. destruct (f s (g a)); cbn; auto. Qed.
Lemma combine_map_r {A B C} (g : B -> C) (l : list A) (l' : list B) : combine l (map g l') = map (fun p => (fst p, g (snd p))) (combine l l').
Proof. revert l'. induction l as [|a l IH]; intros [|b l']; cbn; auto. now rewrite IH. Qed.
Lemma empty_keys_go attrs d : NoDup (dkeys d) -> (forall k l, In (k, l) d -> l = []) ->
  let d' := fold_left (fun d a => dset d a []) attrs d in
  NoDup (dkeys d') /\ (forall k l, In (k, l) d' -> l = ([] : list V)) /\ (forall a, In a (dkeys d') <-> In a (dkeys d) \/ In a attrs) /\
  (NoDup (dkeys d ++ attrs) -> dkeys d' = dkeys d ++ attrs).
Proof.
  revert d. induction attrs as [|a attrs IH]; intros d ND He; cbv zeta.
  - cbn. rewrite app_nil_r. repeat split; auto; tauto.
  - cbn [fold_left].
    assert (K : dkeys (dset d a []) = if str_mem a (dkeys d) then dkeys d else dkeys d ++ [a]).
    { clear. unfold str_mem. induction d as [|[k l] d IH]; auto. cbn [dset dkeys map fst existsb]. destruct (String.eqb a k) eqn:E; cbn; auto. unfold dkeys in IH. rewrite IH. now destruct (existsb _ _). }
    assert (M : str_mem a (dkeys d) = true <-> In a (dkeys d)).
    { unfold str_mem. rewrite existsb_exists. split; [intros (b & Hb & E); apply String.eqb_eq in E; now subst|intros H; exists a; split; auto; apply String.eqb_refl]. }
    destruct (IH (dset d a [])) as (I1 & I2 & I3 & I4).
    + rewrite K. destruct (str_mem a (dkeys d)) eqn:E; auto. rewrite <- (Permutation_cons_append (dkeys d) a). constructor; auto. intros H. apply M in H. congruence.
    + intros k l. clear - He. revert He. induction d as [|[k' l'] d IH]; cbn [dset]; intros He.
      * intros [[= <- <-]|[]]; auto.
      * destruct (String.eqb a k').
        -- intros [[= <- <-]|H]; auto. apply (He k l). now right.
        -- intros [[= <- <-]|H]; [apply (He k' l'); now left|]. apply IH; auto. intros k0 l0 H0. apply (He k0 l0). now right.
    + split; auto. split; auto. split.
      * intros b. rewrite I3, K. destruct (str_mem a (dkeys d)) eqn:E.
        -- cbn [In]. split; [tauto|]. intros [H|[<-|H]]; auto. left. now apply M.
        -- rewrite in_app_iff. cbn [In]. tauto.
      * intros NN. rewrite K in I4. destruct (str_mem a (dkeys d)) eqn:E.
        -- exfalso. clear E; pose proof (proj1 M eq_refl) as E. apply NoDup_remove_2 in NN. apply NN. apply in_app_iff. auto.
        -- rewrite <- app_assoc in I4. cbn in I4. rewrite I4; auto.
Qed.
Lemma empty_columns_spec attrs : let d := empty_columns (V := V) attrs in
  NoDup (dkeys d) /\ (forall k l, In (k, l) d -> l = []) /\ (forall a, In a (dkeys d) <-> In a attrs) /\ (NoDup attrs -> dkeys d = attrs).
Proof.
  cbv zeta. destruct (empty_keys_go attrs [] (NoDup_nil _)) as (H1 & H2 & H3 & H4); [easy|]. unfold empty_columns. repeat split; auto.
  - intros H. apply H3 in H as [[]|H]; auto.
  - intros H. apply H3. auto.
Qed.

(** all the rows of a csv file *)
Definition texts_of (header : list string) (rows : list (list string)) : list (string * V) :=
  flat_map (fun r => map (fun p => (fst p, v_text P (snd p))) (combine header r)) rows.
Lemma csv_rows_spec header ls d : NoDup (dkeys d) -> (forall a, In a header -> In a (dkeys d)) ->
  rfold (csv_row P header) ls d = Ok (dmap (fun k l => l ++ addto (texts_of header (full_rows header (map fields ls))) k) d).
Proof.
  revert d. induction ls as [|s ls IH]; intros d ND H.
  - cbn. f_equal. rewrite <- (dmap_id d) at 1. apply dmap_ext. intros. unfold addto. cbn. now rewrite app_nil_r.
  - cbn [rfold map full_rows filter]. unfold csv_row at 1. cbv zeta. destruct (Nat.eqb (length (fields s)) (length header)) eqn:E.
    + assert (X : rfold (fun d nf => put d (fst nf) (v_text P (snd nf))) (combine header (fields s)) d =
                  Ok (dmap (fun k l => l ++ addto (map (fun p => (fst p, v_text P (snd p))) (combine header (fields s))) k) d)).
      { rewrite <- puts_spec; auto.
        - rewrite rfold_map. reflexivity.
        - intros a x Ha. apply in_map_iff in Ha as ([a' t] & [= <- <-] & Ha). apply in_combine_l in Ha. now apply H. }
      rewrite X. cbn [rbind]. rewrite IH; [|now rewrite dmap_keys|intros a Ha; rewrite dmap_keys; now apply H].
      f_equal. rewrite dmap_dmap. apply dmap_ext. intros k l _. rewrite <- app_assoc, <- addto_app. reflexivity.
    + cbn [rbind]. now rewrite IH.
Qed.
End Cols.
