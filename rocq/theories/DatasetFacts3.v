(** DatasetFacts3.v — factorize codes and evaluated rows. *)
From Verif Require Import Base BaseFacts LoaderSpec Num Functions Dataset DatasetSpec DatasetFacts DatasetFacts2.

Section Codes.
Context {V : Type}.
Variable P : values V.
Variable A : Type.
Variable f : A -> V.
Hypothesis f_eq : forall a b, v_eq P (f a) (f b) = true <-> a = b.
Hypothesis f_na : forall a, v_na P (f a) = false.
Variable dec : forall a b : A, {a = b} + {a <> b}.

Definition step_du (us : list A) (x : A) : list A := if in_dec dec x us then us else us ++ [x].
Definition du (l us : list A) : list A := fold_left step_du l us.
Lemma uniques_du l us : fold_left (fun us x => if v_na P x || existsb (v_eq P x) us then us else us ++ [x]) (map f l) (map f us) = map f (du l us).
Proof.
  revert us. induction l as [|x l IH]; intros us; auto. cbn [map fold_left du]. rewrite f_na. cbn [orb].
  assert (E : existsb (v_eq P (f x)) (map f us) = if in_dec dec x us then true else false).
  { destruct (in_dec dec x us) as [H|H].
    - apply existsb_exists. exists (f x). split; [now apply in_map|now apply f_eq].
    - apply not_true_iff_false. intros E. apply existsb_exists in E as (y & Hy & E). apply in_map_iff in Hy as (z & <- & Hz). apply f_eq in E. now subst. }
  rewrite E. unfold step_du at 2. destruct (in_dec dec x us); [apply IH|]. rewrite <- IH, map_app. reflexivity.
Qed.
Lemma du_app l l' us : du (l ++ l') us = du l' (du l us).
Proof. apply fold_left_app. Qed.
Lemma du_prefix l us : exists t, du l us = us ++ t.
Proof.
  revert us. induction l as [|x l IH]; intros us; [exists []; now rewrite app_nil_r|]. cbn [du fold_left]. destruct (IH (step_du us x)) as [t E]. fold (du l (step_du us x)). rewrite E.
  unfold step_du. destruct (in_dec dec x us); [eauto|]. rewrite <- app_assoc. eauto.
Qed.
Lemma du_in l us x : In x (du l us) <-> In x us \/ In x l.
Proof.
  revert us. induction l as [|y l IH]; intros us; [cbn; tauto|]. cbn [du fold_left]. fold (du l (step_du us y)). rewrite IH. unfold step_du. cbn [In].
  destruct (in_dec dec y us) as [H|H].
  - split; [tauto|]. intros [?|[<-|?]]; auto.
  - rewrite in_app_iff. cbn [In]. tauto.
Qed.
Lemma du_NoDup l us : NoDup us -> NoDup (du l us).
Proof.
  revert us. induction l as [|y l IH]; intros us H; auto. cbn [du fold_left]. apply IH. unfold step_du. destruct (in_dec dec y us); auto.
  rewrite <- (Permutation_cons_append us y). now constructor.
Qed.
Lemma du_length l : length (du l []) = length (nodup dec l).
Proof.
  apply Permutation_length, NoDup_Permutation; [apply du_NoDup; constructor|apply NoDup_nodup|]. intros x. rewrite du_in, nodup_In. cbn. tauto.
Qed.
Lemma position_at x us t : ~ In x us -> position P (f x) (map f (us ++ x :: t)) = length us.
Proof.
  induction us as [|y us IH]; intros H; cbn [app map position].
  - now rewrite (proj2 (f_eq x x) eq_refl).
  - destruct (v_eq P (f x) (f y)) eqn:E; [apply f_eq in E; subst; exfalso; apply H; now left|]. cbn [length]. f_equal. apply IH. intros K. apply H. now right.
Qed.
Lemma split_first x (l : list A) : In x l -> exists before after, l = before ++ x :: after /\ ~ In x before.
Proof.
  induction l as [|y l IH]; [easy|]. intros H. destruct (dec y x) as [->|Ne]; [exists [], l; auto|].
  destruct H as [H|H]; [congruence|]. destruct (IH H) as (b & a & -> & Hb). exists (y :: b), a. split; auto. intros [K|K]; auto.
Qed.
Lemma position_code l x : In x l -> code_in dec l x (position P (f x) (uniques P (map f l))).
Proof.
  intros H. destruct (split_first x l H) as (b & a & E & Hb). exists b, a. split; auto. split; auto.
  unfold uniques. change (@nil V) with (map f []). rewrite uniques_du. rewrite <- du_length. rewrite E, du_app. cbn [du fold_left]. fold (du b []). fold (du a (step_du (du b []) x)).
  unfold step_du. destruct (in_dec dec x (du b [])) as [K|K]; [apply du_in in K as [[]|K]; contradiction|].
  destruct (du_prefix a (du b [] ++ [x])) as [t ->]. rewrite <- app_assoc. cbn [app]. now apply position_at.
Qed.
Lemma codes_spec l : exists ks, codes P (map f l) = map Z.of_nat ks /\ Forall2 (fun x k => code_in dec l x k) l ks.
Proof.
  exists (map (fun x => position P (f x) (uniques P (map f l))) l). unfold codes. rewrite !map_map. split.
  - apply map_ext. intros x. now rewrite f_na.
  - assert (G : forall l0, (forall x, In x l0 -> In x l) -> Forall2 (fun x k => code_in dec l x k) l0 (map (fun x => position P (f x) (uniques P (map f l))) l0)).
    { induction l0 as [|x l0 IH]; intros H; cbn; constructor; [apply position_code, H; now left|apply IH; intros y Hy; apply H; now right]. }
    now apply G.
Qed.
End Codes.
(** codes tell values apart *)
Lemma code_in_fun {A} dec (l : list A) x k k' : code_in dec l x k -> code_in dec l x k' -> k = k'.
Proof.
  intros (b & a & E & Hb & ->) (b' & a' & E' & Hb' & ->). rewrite E in E'. enough (b = b') by congruence. clear E.
  revert b' Hb Hb' E'. induction b as [|y b IH]; intros [|y' b'] Hb Hb' E; auto; cbn in E; injection E as E1 E2.
  - exfalso. apply Hb'. now left.
  - exfalso. apply Hb. now left.
  - subst y'. f_equal. apply IH; auto; intros K; [apply Hb|apply Hb']; now right.
Qed.
Lemma code_in_inj {A} dec (l : list A) x y k : code_in dec l x k -> code_in dec l y k -> x = y.
Proof.
  intros (b & a & E & Hb & Ek) (b' & a' & E' & Hb' & Ek').
  assert (X : forall (b b' : list A) a a' x y, b ++ x :: a = b' ++ y :: a' -> ~ In x b -> ~ In y b' -> (length b < length b')%nat -> length (nodup dec b) = length (nodup dec b') -> False).
  { clear. intros b b' a a' x y E Hb Hb' L K. assert (exists t, b' = b ++ x :: t) as (t & ->).
    { clear - E L. revert b' E L. induction b as [|z b IH]; intros [|z' b'] E L; cbn in *; try lia.
      - injection E as -> _. now exists b'.
      - injection E as -> E. destruct (IH b' E) as (t & ->); [lia|]. now exists t. }
    assert (Sub : forall z, In z (x :: nodup dec b) -> In z (nodup dec (b ++ x :: t))).
    { intros z [<-|Hz]; apply nodup_In, in_app_iff; [right; now left|left; now apply nodup_In in Hz]. }
    apply NoDup_incl_length in Sub; [|constructor; [now rewrite nodup_In|apply NoDup_nodup]]. cbn in Sub. lia. }
  destruct (Nat.lt_trichotomy (length b) (length b')) as [L|[L|L]].
  - exfalso. apply (X b b' a a' x y); congruence.
  - rewrite E in E'. clear - E' L. revert b' E' L. induction b as [|z b IH]; intros [|z' b'] E L; try discriminate; cbn in *; injection E as E1 E2; auto. apply (IH b'); auto.
  - exfalso. apply (X b' b a' a y x); congruence.
Qed.

Section Eval.
Context {V : Type}.
Variable P : values V.
Implicit Types (d : dict (list V)).
Notation ev := (ev P).
Definition last_eval (header : list string) (last : string) (r : list V) : string :=
  fold_left (fun acc p => match v_eval P (snd p) with Some _ => fst p | None => acc end) (combine header r) last.
Lemma eval_row_spec header d last r : NoDup (dkeys d) -> (forall a, In a header -> In a (dkeys d)) -> length r = length header ->
  eval_row P header (d, last) r = Ok (dmap (fun k l => l ++ addto (combine header (map ev r)) k) d, last_eval header last r).
Proof.
  intros ND H L. unfold eval_row, last_eval.
  assert (G : forall h r1 k0 d last, length r1 = length h -> (forall k x, nth_error r1 k = Some x -> nth_error r (k0 + k) = Some x) -> NoDup (dkeys d) -> (forall a, In a h -> In a (dkeys d)) ->
    rfold (fun st pa => (x <- lget r (fst pa) ;; match v_eval P x with Some v => (d <- put (fst st) (snd pa) v ;; Ok (d, snd pa))%res | None => (d <- put (fst st) (snd pa) x ;; Ok (d, snd st))%res end)%res) (combine (seq k0 (length h)) h) (d, last)
    = Ok (dmap (fun k l => l ++ addto (combine h (map ev r1)) k) d, fold_left (fun acc p => match v_eval P (snd p) with Some _ => fst p | None => acc end) (combine h r1) last)).
  { clear d last ND H L. induction h as [|a h IH]; intros [|x r1] k0 d last L K ND H; try discriminate.
    - cbn. f_equal. f_equal. rewrite <- (dmap_id d) at 1. apply dmap_ext. intros. unfold addto. cbn. now rewrite app_nil_r.
    - cbn [length seq combine rfold fst snd map fold_left]. assert (Hx : nth_error r k0 = Some x) by (rewrite <- (K 0%nat x eq_refl); f_equal; lia).
      unfold lget at 1. rewrite Hx. cbn [rbind].
      assert (Y : (match v_eval P x with Some v => (d0 <- put d a v ;; Ok (d0, a))%res | None => (d0 <- put d a x ;; Ok (d0, last))%res end)
        = Ok (dmap (fun k l => l ++ addto [(a, ev x)] k) d, match v_eval P x with Some _ => a | None => last end)).
      { unfold ev. destruct (v_eval P x); rewrite put_spec by (auto; apply H; now left); reflexivity. }
      cbn [fst snd]. rewrite Y. cbn [rbind]. rewrite (IH r1).
      + f_equal. f_equal. rewrite dmap_dmap. apply dmap_ext. intros k l _. rewrite <- app_assoc, <- addto_app. reflexivity.
      + now injection L.
      + intros k y Hy. rewrite <- (K (S k) y Hy). f_equal. lia.
      + now rewrite dmap_keys.
      + intros b Hb. rewrite dmap_keys. apply H. now right. }
  apply G; auto.
Qed.
Lemma last_eval_none header last r : (forall x, In x r -> v_eval P x = None) -> last_eval header last r = last.
Proof.
  intros H. unfold last_eval. revert last. assert (G : forall p, In p (combine header r) -> v_eval P (snd p) = None).
  { intros [a x] Hp. apply in_combine_r in Hp. now apply H. }
  induction (combine header r) as [|p l IH]; intros last; auto. cbn [fold_left]. rewrite (G p) by now left. apply IH. intros q Hq. apply G. now right.
Qed.
Lemma last_eval_in header last r : last_eval header last r = last \/ In (last_eval header last r) header.
Proof.
  unfold last_eval. assert (G : forall l last, (forall p, In p l -> In (fst p) header) -> let z := fold_left (fun acc (p : string * V) => match v_eval P (snd p) with Some _ => fst p | None => acc end) l last in z = last \/ In z header).
  { induction l as [|p l IH]; intros la H; cbv zeta; [now left|]. cbn [fold_left]. destruct (IH (match v_eval P (snd p) with Some _ => fst p | None => la end)) as [E|E]; [intros q Hq; apply H; now right| |now right].
    rewrite E. destruct (v_eval P (snd p)); [right; apply H; now left|now left]. }
  apply G. intros [a x] Hp. now apply in_combine_l in Hp.
Qed.
Lemma last_eval_some header last r : length r = length header -> (exists x, In x r /\ v_eval P x <> None) -> In (last_eval header last r) header.
Proof.
  intros L (x & Hx & Ne). unfold last_eval.
  assert (G : forall l last, (forall p, In p l -> In (fst p) header) -> (In last header \/ exists p, In p l /\ v_eval P (snd p) <> None) ->
    In (fold_left (fun acc (p : string * V) => match v_eval P (snd p) with Some _ => fst p | None => acc end) l last) header).
  { clear. induction l as [|p l IH]; intros la H K; [destruct K as [K|(p & [] & _)]; exact K|]. cbn [fold_left]. apply IH; [intros q Hq; apply H; now right|].
    destruct (v_eval P (snd p)) eqn:E; [left; apply H; now left|]. destruct K as [K|(q & [<-|Hq] & K)]; [now left|congruence|right; eauto]. }
  apply G; [intros [a y] Hp; now apply in_combine_l in Hp|]. right. apply In_nth_error in Hx as [i Hi].
  assert (i < length header)%nat by (rewrite <- L; apply nth_error_Some; congruence).
  destruct (nth_error header i) as [a|] eqn:Ea; [|apply nth_error_None in Ea; lia]. exists (a, x). split; auto.
  clear - Hi Ea. revert r i Hi Ea. induction header as [|b h IH]; intros [|y r] [|i] Hi Ea; try discriminate; cbn in *.
  - left. congruence.
  - right. eapply IH; eauto.
Qed.

(** ** A csv file read by load_dataset *)
Lemma read_rows header rows d last : NoDup (dkeys d) -> (forall a, In a header -> In a (dkeys d)) -> Forall (fun r => length r = length header) rows ->
  rfold (fun st line => if Nat.eqb (length line) (length header) then eval_row P header st (map (v_text P) line) else Err (EExc "Errors in line: ")) rows (d, last)
  = Ok (dmap (fun k l => l ++ addto (pairs_of header (map (fun r => map (fun t => ev (v_text P t)) r) rows)) k) d,
        fold_left (fun la r => last_eval header la (map (v_text P) r)) rows last).
Proof.
  intros ND H HL. revert d last ND H. induction HL as [|r rows Hr HL IH]; intros d last ND H.
  - cbn. f_equal. f_equal. rewrite <- (dmap_id d) at 1. apply dmap_ext. intros. unfold addto. cbn. now rewrite app_nil_r.
  - cbn [rfold fold_left map]. rewrite Hr, Nat.eqb_refl. rewrite eval_row_spec by (auto; now rewrite map_length). cbn [rbind].
    rewrite IH; [|now rewrite dmap_keys|intros a Ha; rewrite dmap_keys; now apply H].
    f_equal. f_equal. rewrite dmap_dmap. apply dmap_ext. intros k l _. rewrite <- app_assoc, <- addto_app. rewrite map_map. reflexivity.
Qed.
(** the rows of an arff file *)
Lemma arff_rows header rows d last : NoDup (dkeys d) -> (forall a, In a header -> In a (dkeys d)) -> Forall (fun r => length r = length header) rows ->
  rfold (eval_row P header) rows (d, last)
  = Ok (dmap (fun k l => l ++ addto (pairs_of header (map (map ev) rows)) k) d, fold_left (last_eval header) rows last).
Proof.
  intros ND H HL. revert d last ND H. induction HL as [|r rows Hr HL IH]; intros d last ND H.
  - cbn. f_equal. f_equal. rewrite <- (dmap_id d) at 1. apply dmap_ext. intros. unfold addto. cbn. now rewrite app_nil_r.
  - cbn [rfold fold_left map]. rewrite eval_row_spec by auto. cbn [rbind].
    rewrite IH; [|now rewrite dmap_keys|intros a Ha; rewrite dmap_keys; now apply H].
    f_equal. f_equal. rewrite dmap_dmap. apply dmap_ext. intros k l _. rewrite <- app_assoc, <- addto_app. reflexivity.
Qed.
Lemma arff_last header rows la : Forall (fun r => length r = length header) rows -> (In la header \/ exists r, In r rows /\ exists x, In x r /\ v_eval P x <> None) ->
  In (fold_left (last_eval header) rows la) header.
Proof.
  intros HL. revert la. induction HL as [|r rows Hr HL IH]; intros la K; [destruct K as [K|(r & [] & _)]; exact K|]. cbn [fold_left]. apply IH.
  destruct K as [K|(r' & [<-|Hr'] & K)]; [left|left|right; eauto].
  - destruct (last_eval_in header la r) as [->|H]; auto.
  - apply last_eval_some; auto.
Qed.
Lemma read_bad header rows st : (exists r, In r rows /\ length r <> length header) ->
  exists e, rfold (fun st line => if Nat.eqb (length line) (length header) then eval_row P header st (map (v_text P) line) else Err (EExc "Errors in line: ")) rows st = Err e.
Proof.
  revert st. induction rows as [|r rows IH]; intros st (r' & Hr & L); [easy|]. cbn [rfold].
  destruct (Nat.eqb_spec (length r) (length header)) as [E|E]; [|cbn; eauto].
  destruct Hr as [->|Hr]; [congruence|]. destruct (eval_row P header st (map (v_text P) r)) as [st'|e]; cbn; [|eauto]. apply IH. eauto.
Qed.
End Eval.
