(** BaseFacts.v — lemmas on lists, dictionaries and results (no model content). *)
From Verif Require Import Base.

Lemma rbind_ok {A B} (m : res A) (k : A -> res B) b :
  rbind m k = Ok b -> exists a, m = Ok a /\ k a = Ok b.
Proof. destruct m; simpl; intros H; [eauto | discriminate]. Qed.

(** ** upd / lget / zget *)
Lemma upd_length {A} (l : list A) i v : length (upd l i v) = length l.
Proof. revert i; induction l; intros [|i]; simpl; auto. Qed.
Lemma nth_upd {A} (l : list A) i j v d :
  nth j (upd l i v) d = if Nat.eqb j i then (if Nat.ltb i (length l) then v else d) else nth j l d.
Proof.
  revert i j; induction l as [|a l IH]; intros [|i] [|j]; simpl; auto.
  - destruct (Nat.eqb j i); auto.
  - rewrite IH. destruct (Nat.eqb j i); auto.
Qed.
Lemma nth_error_upd {A} (l : list A) i j v :
  nth_error (upd l i v) j =
  if Nat.eqb j i then (if Nat.ltb i (length l) then Some v else None) else nth_error l j.
Proof.
  revert i j; induction l as [|a l IH]; intros [|i] [|j]; simpl; auto.
  - destruct (Nat.eqb j i); auto.
  - rewrite IH. destruct (Nat.eqb j i); auto.
Qed.
Lemma upd_oob {A} (l : list A) i v : length l <= i -> upd l i v = l.
Proof. revert i; induction l; intros [|i] H; simpl in *; auto; try lia. f_equal. apply IHl. lia. Qed.
Lemma upd_app_l {A} (l l' : list A) i v : i < length l -> upd (l ++ l') i v = upd l i v ++ l'.
Proof. revert i; induction l; intros [|i] H; simpl in *; try lia; auto. f_equal. apply IHl. lia. Qed.
Lemma upd_app_r {A} (l l' : list A) i v : length l <= i -> upd (l ++ l') i v = l ++ upd l' (i - length l) v.
Proof. revert i; induction l; intros i H; simpl in *. { now rewrite Nat.sub_0_r. }
  destruct i; [lia|]. simpl. f_equal. apply IHl. lia. Qed.

Lemma lget_ok {A} (l : list A) i d : i < length l -> lget l i = Ok (nth i l d).
Proof. intros H. unfold lget. now rewrite (nth_error_nth' l d H). Qed.
Lemma lget_inv {A} (l : list A) i a : lget l i = Ok a -> nth_error l i = Some a.
Proof. unfold lget. destruct (nth_error l i); congruence. Qed.
Lemma zget_ok {A} (l : list A) i d : (0 <= i < Z.of_nat (length l))%Z ->
  zget l i = Ok (nth (Z.to_nat i) l d).
Proof.
  intros H. unfold zget. destruct (Z.ltb_spec i 0); [lia|]. apply lget_ok. lia.
Qed.
Lemma zset_ok {A} (l : list A) i v : (0 <= i < Z.of_nat (length l))%Z ->
  zset l i v = Ok (upd l (Z.to_nat i) v).
Proof.
  intros H. unfold zset. destruct (Z.ltb_spec i 0); [lia|].
  destruct (Z.ltb_spec i (Z.of_nat (length l))); [auto|lia].
Qed.

Lemma list_eq_nth {A} (d : A) (l l' : list A) :
  length l = length l' -> (forall i, i < length l -> nth i l d = nth i l' d) -> l = l'.
Proof. intros H1 H2. now apply (nth_ext l l' d d). Qed.

(** ** rmap / rfold *)
Lemma rmap_ok_length {A B} (f : A -> res B) l bs : rmap f l = Ok bs -> length bs = length l.
Proof.
  revert bs; induction l as [|a l IH]; simpl; intros bs H; [now injection H as <-|].
  apply rbind_ok in H as (b & Hb & H). apply rbind_ok in H as (bs' & Hbs & H).
  injection H as <-. simpl. f_equal. now apply IH.
Qed.
Lemma rmap_ok_Forall2 {A B} (f : A -> res B) l bs :
  rmap f l = Ok bs <-> Forall2 (fun a b => f a = Ok b) l bs.
Proof.
  split.
  - revert bs; induction l as [|a l IH]; simpl; intros bs H.
    + injection H as <-. constructor.
    + apply rbind_ok in H as (b & Hb & H). apply rbind_ok in H as (bs' & Hbs & H).
      injection H as <-. constructor; auto.
  - induction 1; simpl; auto. rewrite H; simpl. rewrite IHForall2. auto.
Qed.
Lemma rmap_all_ok {A B} (f : A -> res B) (g : A -> B) l :
  (forall a, In a l -> f a = Ok (g a)) -> rmap f l = Ok (map g l).
Proof.
  induction l as [|a l IH]; simpl; intros H; auto.
  rewrite H by auto; simpl. rewrite IH by auto. auto.
Qed.
Lemma rmap_ext {A B} (f g : A -> res B) l :
  (forall a, In a l -> f a = g a) -> rmap f l = rmap g l.
Proof.
  induction l as [|a l IH]; simpl; intros H; auto. rewrite H by auto. now rewrite IH by auto.
Qed.

(** ** Dictionaries *)
Section Dict.
Context {A : Type}.
Implicit Types d : dict A.
Lemma dget_dset d k v k' : dget (dset d k v) k' = if String.eqb k' k then Some v else dget d k'.
Proof.
  induction d as [|[k0 v0] d IH]; simpl.
  - destruct (String.eqb_spec k' k); auto.
  - destruct (String.eqb_spec k k0); simpl.
    + subst. destruct (String.eqb_spec k' k0); auto.
    + destruct (String.eqb_spec k' k0); auto.
      subst. destruct (String.eqb_spec k0 k); congruence.
Qed.
Lemma dget_dset_same d k v : dget (dset d k v) k = Some v.
Proof. rewrite dget_dset. now rewrite String.eqb_refl. Qed.
Lemma dget_dset_other d k v k' : k' <> k -> dget (dset d k v) k' = dget d k'.
Proof. intros H. rewrite dget_dset. now apply String.eqb_neq in H as ->. Qed.
Lemma dget_In d k v : dget d k = Some v -> In (k, v) d.
Proof.
  induction d as [|[k0 v0] d IH]; simpl; [discriminate|].
  destruct (String.eqb_spec k k0); [intros [= ->]; subst; auto | auto].
Qed.
Lemma dget_None d k : dget d k = None <-> ~ In k (dkeys d).
Proof.
  induction d as [|[k0 v0] d IH]; simpl; [intuition congruence|].
  destruct (String.eqb_spec k k0); split; intros H.
  - discriminate.
  - exfalso; apply H; auto.
  - intros [H1|H1]; [congruence|]. now apply IH in H1.
  - apply IH. intros H1; apply H; auto.
Qed.
Lemma dget_Some_In d k : (exists v, dget d k = Some v) <-> In k (dkeys d).
Proof.
  destruct (dget d k) as [v|] eqn:E.
  - split; [intros _ | eauto]. apply dget_In in E. unfold dkeys. now apply (in_map fst) in E.
  - apply dget_None in E. split; [intros [v Hv]; discriminate | tauto].
Qed.
Lemma dmem_In d k : dmem d k = true <-> In k (dkeys d).
Proof.
  unfold dmem. rewrite <- dget_Some_In. destruct (dget d k); split; intros H; eauto.
  - discriminate.
  - destruct H; discriminate.
Qed.
Lemma dmem_false d k : dmem d k = false <-> ~ In k (dkeys d).
Proof. rewrite <- dmem_In. destruct (dmem d k); intuition congruence. Qed.
Lemma dkeys_dset d k v :
  dkeys (dset d k v) = if dmem d k then dkeys d else dkeys d ++ [k].
Proof.
  unfold dkeys, dmem. induction d as [|[k0 v0] d IH]; simpl; auto.
  destruct (String.eqb_spec k k0); simpl; auto.
  rewrite IH. destruct (dget d k); auto.
Qed.
Lemma dkeys_dset_In d k v k' : In k' (dkeys (dset d k v)) <-> k' = k \/ In k' (dkeys d).
Proof.
  rewrite dkeys_dset. destruct (dmem d k) eqn:E.
  - apply dmem_In in E. split; [auto|]. intros [->|]; auto.
  - rewrite in_app_iff. simpl. intuition congruence.
Qed.
Lemma NoDup_snoc {B} (l : list B) x : NoDup l -> ~ In x l -> NoDup (l ++ [x]).
Proof.
  intros H1 H2. apply NoDup_rev in H1. rewrite <- (rev_involutive l).
  change [x] with (rev [x]). rewrite <- rev_app_distr. apply NoDup_rev. simpl.
  constructor; auto. now rewrite <- in_rev.
Qed.
Lemma NoDup_dset d k v : NoDup (dkeys d) -> NoDup (dkeys (dset d k v)).
Proof.
  intros H. rewrite dkeys_dset. destruct (dmem d k) eqn:E; auto.
  apply NoDup_snoc; auto. now apply dmem_false.
Qed.
Lemma In_dget d k v : NoDup (dkeys d) -> In (k, v) d -> dget d k = Some v.
Proof.
  induction d as [|[k0 v0] d IH]; simpl; [tauto|]. intros HN [H|H].
  - injection H as -> ->. now rewrite String.eqb_refl.
  - inversion HN as [|? ? Hni HN']; subst. destruct (String.eqb_spec k k0).
    + subst. exfalso. apply Hni. now apply (in_map fst) in H.
    + auto.
Qed.
Lemma dset_notin d k v : ~ In k (dkeys d) -> dset d k v = d ++ [(k, v)].
Proof.
  induction d as [|[k0 v0] d IH]; simpl; auto.
  intros H. destruct (String.eqb_spec k k0); [subst; exfalso; auto|].
  f_equal. apply IH. auto.
Qed.
Lemma dset_id d k v : dget d k = Some v -> dset d k v = d.
Proof.
  induction d as [|[k0 v0] d IH]; simpl; [discriminate|].
  destruct (String.eqb_spec k k0); [intros [= ->]; auto|].
  intros H. f_equal; auto.
Qed.
Lemma dkeys_dmap {B} (f : string -> A -> B) d : dkeys (dmap f d) = dkeys d.
Proof. unfold dkeys, dmap. rewrite map_map. simpl. reflexivity. Qed.
Lemma dget_dmap {B} (f : string -> A -> B) d k :
  dget (dmap f d) k = match dget d k with Some v => Some (f k v) | None => None end.
Proof.
  induction d as [|[k0 v0] d IH]; simpl; auto.
  destruct (String.eqb_spec k k0); subst; auto.
Qed.
Lemma dict_ext d d' : NoDup (dkeys d) -> dkeys d = dkeys d' ->
  (forall k, dget d k = dget d' k) -> d = d'.
Proof.
  revert d'; induction d as [|[k v] d IH]; intros [|[k' v'] d']; simpl; try discriminate; auto.
  intros HN [= Hk Hks] H. subst k'. inversion HN as [|? ? Hni HN']; subst.
  pose proof (H k) as Hv. rewrite String.eqb_refl in Hv. injection Hv as ->.
  f_equal. apply IH; auto. intros k0. specialize (H k0).
  destruct (String.eqb_spec k0 k); auto. subst.
  unfold dkeys in Hks. apply dget_None in Hni. rewrite Hni.
  symmetry. apply dget_None. unfold dkeys. rewrite <- Hks. now apply dget_None.
Qed.
Lemma ddel_keys d k : NoDup (dkeys d) ->
  dkeys (ddel d k) = filter (fun x => negb (String.eqb x k)) (dkeys d).
Proof.
  induction d as [|[k0 v0] d IH]; simpl; auto. intros HN.
  inversion HN as [|? ? Hni HN']; subst.
  destruct (String.eqb_spec k k0).
  - subst. rewrite String.eqb_refl. simpl.
    rewrite <- IH by auto. clear -Hni.
    induction d as [|[k v] d IH]; simpl; auto. simpl in Hni.
    destruct (String.eqb_spec k0 k); [exfalso; auto|]. simpl. f_equal. apply IH. auto.
  - destruct (String.eqb_spec k0 k); [congruence|]. simpl. f_equal. auto.
Qed.
Lemma dget_ddel d k k' : NoDup (dkeys d) ->
  dget (ddel d k) k' = if String.eqb k' k then None else dget d k'.
Proof.
  induction d as [|[k0 v0] d IH]; simpl; intros HN.
  - now destruct (String.eqb k' k).
  - inversion HN as [|? ? Hni HN']; subst. destruct (String.eqb_spec k k0); subst.
    + destruct (String.eqb_spec k' k0); subst; auto. now apply dget_None.
    + simpl. rewrite IH by auto. destruct (String.eqb_spec k' k0); subst; auto.
      destruct (String.eqb_spec k0 k); congruence.
Qed.
Lemma ddel_notin d k : ~ In k (dkeys d) -> ddel d k = d.
Proof.
  induction d as [|[k0 v0] d IH]; simpl; auto. intros H.
  destruct (String.eqb_spec k k0); [subst; exfalso; auto|]. f_equal; auto.
Qed.
End Dict.

Lemma str_mem_In s l : str_mem s l = true <-> In s l.
Proof.
  unfold str_mem. rewrite existsb_exists. split.
  - intros (x & Hx & He). apply String.eqb_eq in He. now subst.
  - intros H. exists s. split; auto. apply String.eqb_refl.
Qed.

(** ** Strings *)
Lemma append_assoc a b c : append (append a b) c = append a (append b c).
Proof. induction a; simpl; congruence. Qed.
Lemma append_nil_r a : append a "" = a.
Proof. induction a; simpl; congruence. Qed.
Lemma append_length a b : String.length (append a b) = String.length a + String.length b.
Proof. induction a; simpl; auto. Qed.
Lemma append_inj_r a b c : append a b = append a c -> b = c.
Proof. induction a; simpl; auto. intros [= H]; auto. Qed.
