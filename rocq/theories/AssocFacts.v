(** AssocFacts.v — building a map is a sequence of add_concept and add_relation
    calls that can be written down in advance. *)
From Coq Require Import Permutation.
From Verif Require Import Base BaseFacts Num Functions Fcm FcmSpec FcmInv FcmInv2 FcmInv3 LoaderFacts LearnUtils LearnSpec LearnFacts Assoc AssocSpec.

(** ** Loops that append *)
Fixpoint rflat {A B} (f : A -> res (list B)) (l : list A) : res (list B) :=
  match l with
  | [] => Ok []
  | a :: t => (x <- f a ;; y <- rflat f t ;; Ok (x ++ y))%res
  end.
Definition rapp {B} (a b : res (list B)) : res (list B) := (x <- a ;; y <- b ;; Ok (x ++ y))%res.
Lemma rflat_ext {A B} (f g : A -> res (list B)) l : (forall a, In a l -> f a = g a) -> rflat f l = rflat g l.
Proof.
  induction l as [|a l IH]; intros H; cbn; auto. rewrite (H a (or_introl eq_refl)).
  destruct (g a); cbn; auto. rewrite IH; auto. intros b Hb. apply H. now right.
Qed.
Lemma rflat_map {A B C} (f : B -> res (list C)) (g : A -> B) l : rflat f (map g l) = rflat (fun a => f (g a)) l.
Proof. induction l as [|a l IH]; cbn; auto. now rewrite IH. Qed.
Lemma rflat_seq {A B} (f : A -> res (list B)) (g : nat -> res (list B)) l :
  (forall i a, nth_error l i = Some a -> g i = f a) -> rflat g (seq 0 (length l)) = rflat f l.
Proof.
  revert g. induction l as [|a l IH]; intros g H; cbn [length seq rflat]; auto.
  rewrite (H 0 a) by reflexivity. destruct (f a) as [x|e]; cbn [rbind]; auto.
  rewrite <- seq_shift, rflat_map, (IH (fun i => g (S i))); auto.
Qed.
Lemma rflat_ok_iff {A B} (f : A -> res (list B)) l : (exists x, rflat f l = Ok x) <-> forall a, In a l -> exists y, f a = Ok y.
Proof.
  induction l as [|a l IH]; cbn.
  - split; [intros _ a []|eauto].
  - split.
    + intros [x H]. apply rbind_ok in H as (y & Hy & H). apply rbind_ok in H as (z & Hz & _).
      intros b [<-|Hb]; [eauto|]. apply IH; eauto.
    + intros H. destruct (H a (or_introl eq_refl)) as [y ->]. cbn.
      destruct (proj2 IH) as [z ->]; [intros b Hb; apply H; now right|]. cbn. eauto.
Qed.
Definition okl {B} (r : res (list B)) : list B := match r with Ok l => l | Err _ => [] end.
Lemma rflat_ok {A B} (f : A -> res (list B)) l x : rflat f l = Ok x -> x = flat_map (fun a => okl (f a)) l.
Proof.
  revert x. induction l as [|a l IH]; intros x; cbn; [now intros [= <-]|].
  intros H. apply rbind_ok in H as (y & Hy & H). apply rbind_ok in H as (z & Hz & H). injection H as <-.
  rewrite Hy. cbn [okl]. f_equal. now apply IH.
Qed.
Lemma rflat_In {A B} (f : A -> res (list B)) l x b : rflat f l = Ok x -> (In b x <-> exists a y, In a l /\ f a = Ok y /\ In b y).
Proof.
  intros H. rewrite (rflat_ok _ _ _ H), in_flat_map. split.
  - intros (a & Ha & Hb). destruct (f a) as [y|e] eqn:E; [|destruct Hb]. exists a, y. auto.
  - intros (a & y & Ha & E & Hb). exists a. split; auto. now rewrite E.
Qed.
Lemma rflat_perm {A B} (f : A -> res (list B)) l l' x : Permutation l l' -> rflat f l = Ok x ->
  exists x', rflat f l' = Ok x' /\ Permutation x x'.
Proof.
  intros P H.
  assert (X : exists x', rflat f l' = Ok x').
  { apply rflat_ok_iff. intros a Ha. apply (proj1 (rflat_ok_iff f l)); eauto. eapply Permutation_in; [apply Permutation_sym|]; eauto. }
  destruct X as [x' Hx']. exists x'. split; auto. rewrite (rflat_ok _ _ _ H), (rflat_ok _ _ _ Hx'). now apply Permutation_flat_map.
Qed.

Section AssocFacts.
Context {F : Type} {N : Num F}.
Notation rel := (string * string * F)%type.
Implicit Types (g : gen F) (s : fcm F) (cf : gconf F).

(** ** Calls on the map *)
Definition rel_op (r : rel) : op F := let '(a, b, w) := r in OpAddRelation a b w.
Definition add_rels (l : list rel) (s : fcm F) : fcm F := run_ops (map rel_op l) s.
Lemma run_ops_app (l l' : list (op F)) s : run_ops (l ++ l') s = run_ops l' (run_ops l s).
Proof. unfold run_ops. apply fold_left_app. Qed.
Lemma add_rels_app l l' s : add_rels (l ++ l') s = add_rels l' (add_rels l s).
Proof. unfold add_rels. now rewrite map_app, run_ops_app. Qed.
Definition is_building (o : op F) : bool := is_add_concept o || is_add_relation o.
Lemma build_settings o s : is_building o = true -> settings (fst (step o s)) = settings s.
Proof.
  destruct o; try discriminate; intros _; cbn [step].
  - unfold add_concept. destruct (build_node _ _ _ _ _ _ _ _) as [n [u|e]]; reflexivity.
  - unfold add_relation. cbn [m_topo set_prepared].
    destruct (dget (m_topo s) destiny); [|reflexivity]. destruct (dget (m_topo s) origin); [|reflexivity].
    match goal with |- context [dget ?d destiny] => destruct (dget d destiny) as [nd|]; [|reflexivity] end.
    cbn [m_fit put_node set_topo set_prepared].
    match goal with |- context [match ?m with Ok _ => _ | Err _ => _ end] => destruct m; reflexivity end.
Qed.
Lemma builds_settings l s : forallb is_building l = true -> settings (run_ops l s) = settings s.
Proof.
  unfold run_ops. revert s. induction l as [|o l IH]; intros s; cbn; auto.
  intros H. apply andb_prop in H as [H1 H2]. rewrite IH by auto. now apply build_settings.
Qed.
Lemma rel_ops_building l : forallb is_building (map rel_op l) = true.
Proof. induction l as [|[[a b] w] l IH]; cbn; auto. Qed.
Lemma add_rels_settings l s : settings (add_rels l s) = settings s.
Proof. apply builds_settings, rel_ops_building. Qed.
Lemma settings_fit s s' : settings s = settings s' -> m_fit s = m_fit s' /\ m_default s = m_default s'.
Proof. unfold settings. intros H. injection H. auto. Qed.
Lemma add_rels_fit l s : m_fit (add_rels l s) = m_fit s.
Proof. apply settings_fit, add_rels_settings. Qed.

(** ** Actions that only add relations *)
Definition inv (fs : dict (feat F)) (ps : list string) g : Prop :=
  g_feats g = fs /\ g_proc g = ps /\ m_fit (g_fcm g) = None.
Definition emits fs ps (a : gen F -> gen F * res unit) (r : res (list rel)) : Prop :=
  forall g, inv fs ps g ->
  match r with
  | Ok l => a g = (set_fcm (add_rels l (g_fcm g)) g, Ok tt)
  | Err e => snd (a g) = Err e
  end.
Lemma inv_rels fs ps l g : inv fs ps g -> inv fs ps (set_fcm (add_rels l (g_fcm g)) g).
Proof. intros (A & B & C). repeat split; auto. cbn. now rewrite add_rels_fit. Qed.
Lemma set_fcm_id g : set_fcm (g_fcm g) g = g.
Proof. now destruct g. Qed.
Lemma emits_nil fs ps : emits fs ps (fun g => (g, Ok tt)) (Ok []).
Proof. intros g _. cbn. now rewrite set_fcm_id. Qed.
Lemma emits_then fs ps a b ra rb : emits fs ps a ra -> emits fs ps b rb -> emits fs ps (sthen a b) (rapp ra rb).
Proof.
  intros Ha Hb g I. specialize (Ha g I). unfold sthen, rapp. destruct ra as [la|e]; cbn [rbind].
  - rewrite Ha. specialize (Hb _ (inv_rels fs ps la g I)). destruct rb as [lb|e]; cbn [rbind].
    + rewrite Hb. cbn. now rewrite add_rels_app.
    + exact Hb.
  - destruct (a g) as [g' [u|e']]; cbn in *; congruence.
Qed.
Lemma emits_fold {A} fs ps (f : A -> gen F -> gen F * res unit) (r : A -> res (list rel)) l :
  (forall x, In x l -> emits fs ps (f x) (r x)) -> emits fs ps (sfold f l) (rflat r l).
Proof.
  induction l as [|x l IH]; intros H.
  - apply emits_nil.
  - change (rflat r (x :: l)) with (rapp (r x) (rflat r l)).
    change (emits fs ps (sthen (f x) (sfold f l)) (rapp (r x) (rflat r l))).
    apply emits_then; [apply H; now left|]. apply IH. intros y Hy. apply H. now right.
Qed.
Lemma emits_with {A} fs ps (r : gen F -> res A) (v : res A) (k : A -> gen F -> gen F * res unit) (w : A -> res (list rel)) :
  (forall g, inv fs ps g -> r g = v) -> (forall a, v = Ok a -> emits fs ps (k a) (w a)) ->
  emits fs ps (swith r k) (a <- v ;; w a)%res.
Proof.
  intros Hr Hk g I. unfold swith. rewrite (Hr g I). destruct v as [a|e]; cbn [rbind]; [|reflexivity]. now apply Hk.
Qed.
Lemma emits_ext fs ps a b r : (forall g, inv fs ps g -> a g = b g) -> emits fs ps a r -> emits fs ps b r.
Proof. intros E H g I. specialize (H g I). now rewrite (E g I) in H. Qed.
Lemma add_relation_ok a b w s : m_fit s = None -> add_relation a b w s = (add_rels [(a, b, w)] s, Ok tt).
Proof.
  intros H. pose proof (add_relation_nofit a b w s H) as E. unfold add_rels, run_ops. cbn.
  destruct (add_relation a b w s) as [s' r]. cbn in *. f_equal. apply E.
Qed.
Lemma emits_rel fs ps a b w : emits fs ps (on_fcm (add_relation a b w)) (Ok [(a, b, w)]).
Proof. intros g (_ & _ & H). unfold on_fcm. now rewrite add_relation_ok. Qed.

(** ** What each step adds *)
Variable cf : gconf F.
Definition plan_weight (na nb : string) (sign : F) (c : coeffs F) : res (list rel) :=
  (e <- call4 (c_eval cf) c ;;
   if nltb (c_thr cf) (nabs e) then
     v <- call4 (c_caus cf) c ;;
     let w := nmul sign v in
     if neqb w n0 then Ok [] else Ok [(na, nb, w)]
   else Ok [])%res.
Definition plan_pair (ta tb : bool) (na nb : string) (ra rb : list F) : res (list rel) :=
  (cc <- match calc_concepts_coefficient ra rb with
         | None => Err (EExc "Invalid relation input data")
         | Some cc => Ok cc
         end ;;
   let '(pq, qp) := cc in
   s_pq <- rel_sign cf pq ;;
   s_qp <- rel_sign cf qp ;;
   let fw := plan_weight na nb s_pq pq in
   let bw := plan_weight nb na s_qp qp in
   if c_double cf then rapp fw bw
   else if Bool.eqb ta tb then
     ab <- (a <- call4 (c_caus cf) pq ;; b <- call4 (c_caus cf) qp ;; Ok (nabs a, nabs b)) ;;
     let '(a, b) := ab in
     rapp (if nltb b a then fw else Ok []) (if nltb a b then bw else Ok [])
   else if ta then bw else fw)%res.
Definition concepts_of (d : fdesc F) : list (string * list F) := combine (fd_names d) (fd_rows d).
Definition plan_two (A B : fdesc F) : res (list rel) :=
  rflat (fun a => rflat (fun b => plan_pair (fd_target A) (fd_target B) (fst a) (fst b) (snd a) (snd b))
                    (concepts_of B)) (concepts_of A).
Definition related (A B : fdesc F) : bool := c_featrel cf || negb (Bool.eqb (fd_target A) (fd_target B)).
Definition plan_cross (A : fdesc F) (l : list (fdesc F)) : res (list rel) :=
  rflat (fun B => if related A B then plan_two A B else Ok []) l.
Fixpoint inner_pairs (w : F) (names : list string) : list rel :=
  match names with
  | [] => []
  | a :: t => flat_map (fun b => [(a, b, w); (b, a, w)]) t ++ inner_pairs w t
  end.
Definition plan_inner (A : fdesc F) : list rel :=
  if neqb (c_excl cf) n0 then [] else inner_pairs (c_excl cf) (fd_names A).

(** a feature entry that agrees with a description *)
Definition feat_of (d : fdesc F) : feat F :=
  mkFeat (Some (fd_type d)) (Some (fd_names d)) (Some (length (fd_names d), fd_rows d)).
Definition known (fs : dict (feat F)) (d : fdesc F) : Prop :=
  dget fs (fd_feat d) = Some (feat_of d) /\ length (fd_rows d) = length (fd_names d).
Lemma known_names fs ps d : known fs d -> forall g, inv fs ps g -> get_names g (fd_feat d) = Ok (fd_names d).
Proof. intros [H _] g (E & _). unfold get_names, dget_exn. now rewrite E, H. Qed.
Lemma known_desc fs ps d : known fs d -> forall g, inv fs ps g -> get_desc g (fd_feat d) = Ok (length (fd_names d), fd_rows d).
Proof. intros [H _] g (E & _). unfold get_desc, dget_exn. now rewrite E, H. Qed.
Lemma known_target fs ps d : known fs d -> forall g, inv fs ps g -> is_target_concept g (fd_feat d) = Ok (fd_target d).
Proof. intros [H _] g (E & _). unfold is_target_concept, get_type, dget_exn. now rewrite E, H. Qed.
Lemma known_group fs ps d d' : known fs d -> known fs d' -> forall g, inv fs ps g ->
  are_same_feature_group g (fd_feat d) (fd_feat d') = Ok (Bool.eqb (fd_target d) (fd_target d')).
Proof.
  intros K K' g I. unfold are_same_feature_group. now rewrite (known_target fs ps d K g I), (known_target fs ps d' K' g I).
Qed.

Lemma emits_weight fs ps la p lb q a b sign c : nth_error la p = Some a -> nth_error lb q = Some b ->
  emits fs ps (def_relation_weight cf la p lb q sign c) (plan_weight a b sign c).
Proof.
  intros Ha Hb. unfold def_relation_weight, plan_weight. apply emits_with; [reflexivity|]. intros e _.
  destruct (nltb (c_thr cf) (nabs e)); [|apply emits_nil].
  apply emits_with; [reflexivity|]. intros v _. cbv zeta.
  destruct (neqb (nmul sign v) n0); [apply emits_nil|].
  unfold lget. rewrite Ha, Hb. cbn [rbind]. apply emits_rel.
Qed.
Lemma emits_pair fs ps A B p q a b ra rb : known fs A -> known fs B ->
  nth_error (fd_names A) p = Some a -> nth_error (fd_names B) q = Some b ->
  nth_error (fd_rows A) p = Some ra -> nth_error (fd_rows B) q = Some rb ->
  emits fs ps (def_concept_pair cf (fd_feat A) (fd_feat B) (fd_names A) (fd_names B) (fd_rows A) (fd_rows B) p q)
    (plan_pair (fd_target A) (fd_target B) a b ra rb).
Proof.
  intros KA KB Ha Hb Hra Hrb. unfold def_concept_pair, plan_pair.
  apply emits_with.
  { intros g _. unfold lget. now rewrite Hra, Hrb. }
  intros [pq qp] _. apply emits_with; [reflexivity|]. intros s1 _. apply emits_with; [reflexivity|]. intros s2 _. cbv zeta.
  pose proof (emits_weight fs ps _ _ _ _ a b s1 pq Ha Hb) as FW.
  pose proof (emits_weight fs ps _ _ _ _ b a s2 qp Hb Ha) as BW.
  destruct (c_double cf); [now apply emits_then|].
  eapply emits_with with (v := Ok _) (w := fun same : bool => if same then _ else _).
  { now apply (known_group fs ps A B KA KB). }
  intros same _. destruct same.
  - apply emits_with; [reflexivity|]. intros [x y] _. apply emits_then.
    + destruct (nltb y x); [exact FW|apply emits_nil].
    + destruct (nltb x y); [exact BW|apply emits_nil].
  - eapply emits_with with (v := Ok _) (w := fun t : bool => if t then _ else _).
    { now apply (known_target fs ps A KA). }
    intros t _. destruct t; assumption.
Qed.
Lemma nth_combine {A B} (l : list A) (m : list B) i a b : nth_error (combine l m) i = Some (a, b) <->
  nth_error l i = Some a /\ nth_error m i = Some b.
Proof.
  revert m i. induction l as [|x l IH]; intros [|y m] [|i]; cbn; try (split; [discriminate|intros [? ?]; discriminate]).
  - split; [intros [= <- <-]; auto|intros [[= <-] [= <-]]; auto].
  - apply IH.
Qed.
Lemma combine_len {A B} (l : list A) (m : list B) : length m = length l -> length (combine l m) = length l.
Proof. intros H. rewrite combine_length. lia. Qed.
Lemma emits_two fs ps A B : known fs A -> known fs B ->
  emits fs ps (def_two_feat_relation cf (fd_feat A) (fd_feat B)) (plan_two A B).
Proof.
  intros KA KB. unfold def_two_feat_relation.
  eapply emits_with with (v := Ok _) (w := fun _ => _); [apply (known_names fs ps A KA)|]. intros na [= <-].
  eapply emits_with with (v := Ok _) (w := fun _ => _); [apply (known_names fs ps B KB)|]. intros nb [= <-].
  eapply emits_with with (v := Ok _) (w := fun _ => _); [apply (known_desc fs ps A KA)|]. intros da [= <-].
  eapply emits_with with (v := Ok _) (w := fun _ => _); [apply (known_desc fs ps B KB)|]. intros db [= <-]. cbn [snd].
  unfold plan_two.
  pose (r2 := fun (a : string * list F) p' (q : nat) => match nth_error (fd_names B) q, nth_error (fd_rows B) q with
     | Some b, Some rb => plan_pair (fd_target A) (fd_target B) (fst a) b (snd a) rb | _, _ => Ok p' end).
  pose (r1 := fun p => match nth_error (fd_names A) p, nth_error (fd_rows A) p with
     | Some a, Some ra => rflat (r2 (a, ra) []) (seq 0 (length (fd_names B))) | _, _ => Ok [] end).
  assert (LA : length (concepts_of A) = length (fd_names A)) by (apply combine_len; apply KA).
  assert (LB : length (concepts_of B) = length (fd_names B)) by (apply combine_len; apply KB).
  erewrite <- (rflat_seq _ r1); [rewrite LA|].
  - apply emits_fold. intros p Hp. apply in_seq in Hp.
    destruct (nth_error (fd_names A) p) as [a|] eqn:Ea; [|apply nth_error_None in Ea; lia].
    destruct (nth_error (fd_rows A) p) as [ra|] eqn:Era; [|apply nth_error_None in Era; destruct KA; lia].
    unfold r1. rewrite Ea, Era. apply emits_fold. intros q Hq. apply in_seq in Hq.
    destruct (nth_error (fd_names B) q) as [b|] eqn:Eb; [|apply nth_error_None in Eb; lia].
    destruct (nth_error (fd_rows B) q) as [rb|] eqn:Erb; [|apply nth_error_None in Erb; destruct KB; lia].
    unfold r2. rewrite Eb, Erb. cbn [fst snd]. now apply emits_pair.
  - intros p [a ra] Hp. apply nth_combine in Hp as [Ea Era]. unfold r1. rewrite Ea, Era. rewrite <- LB.
    apply rflat_seq. intros q [b rb] Hq. apply nth_combine in Hq as [Eb Erb]. unfold r2. now rewrite Eb, Erb.
Qed.

(** inner relations *)
Lemma inner_seq w (l : list string) :
  rflat (fun i => rflat (fun j => match nth_error l i, nth_error l j with
                                  | Some a, Some b => Ok [(a, b, w); (b, a, w)] | _, _ => Ok [] end)
                    (seq (i + 1) (length l - (i + 1)))) (seq 0 (length l - 1)) = Ok (inner_pairs w l).
Proof.
  induction l as [|a l IH]; [reflexivity|]. cbn [length]. rewrite Nat.sub_succ, Nat.sub_0_r.
  destruct l as [|b l]; [reflexivity|]. set (t := b :: l) in *. change (length t) with (S (length l)). cbn [seq rflat].
  cbn [Nat.add]. rewrite !Nat.sub_succ, !Nat.sub_0_r. cbn [length] in *.
  assert (E1 : rflat (fun j => match nth_error (a :: t) 0, nth_error (a :: t) j with
                    | Some a0, Some b0 => Ok [(a0, b0, w); (b0, a0, w)] | _, _ => Ok [] end) (seq 1 (S (length l)))
          = Ok (flat_map (fun b => [(a, b, w); (b, a, w)]) t)).
  { rewrite <- seq_shift, rflat_map. cbn [nth_error]. change (S (length l)) with (length t).
    rewrite (rflat_seq (fun b => Ok [(a, b, w); (b, a, w)])).
    - clear. induction t as [|x t IH]; cbn; auto. now rewrite IH.
    - intros i x Hx. now rewrite Hx. }
  rewrite E1. cbn [rbind]. clear E1.
  assert (E2 : rflat (fun i => rflat (fun j => match nth_error (a :: t) i, nth_error (a :: t) j with
                    | Some a0, Some b0 => Ok [(a0, b0, w); (b0, a0, w)] | _, _ => Ok [] end)
                  (seq (i + 1) (S (S (length l)) - (i + 1)))) (seq 1 (length l)) = Ok (inner_pairs w t)).
  { rewrite <- IH. replace (length t - 1) with (length l) by (unfold t; cbn [length]; lia).
    rewrite <- seq_shift, rflat_map. apply rflat_ext. intros i _. cbn [Nat.add]. rewrite <- seq_shift, rflat_map. reflexivity. }
  rewrite E2. reflexivity.
Qed.
Lemma emits_inner fs ps A : known fs A -> emits fs ps (def_inner_feat_relations cf (fd_feat A)) (Ok (plan_inner A)).
Proof.
  intros K. unfold def_inner_feat_relations, plan_inner. destruct (neqb (c_excl cf) n0); [apply emits_nil|].
  eapply emits_with with (v := Ok _) (w := fun _ => _); [apply (known_desc fs ps A K)|]. intros d [= <-].
  eapply emits_with with (v := Ok _) (w := fun _ => _); [apply (known_names fs ps A K)|]. intros na [= <-]. cbn [fst].
  rewrite <- inner_seq. apply emits_fold. intros i Hi. apply in_seq in Hi. apply emits_fold. intros j Hj. apply in_seq in Hj.
  destruct (nth_error (fd_names A) i) as [a|] eqn:Ea; [|apply nth_error_None in Ea; lia].
  destruct (nth_error (fd_names A) j) as [b|] eqn:Eb; [|apply nth_error_None in Eb; lia].
  assert (X : forall i j a b, nth_error (fd_names A) i = Some a -> nth_error (fd_names A) j = Some b ->
     emits fs ps (rel_pair (fd_names A) i j (c_excl cf)) (Ok [(a, b, c_excl cf)])).
  { clear. intros i j a b Ha Hb. unfold rel_pair, lget. rewrite Ha, Hb. cbn [rbind]. apply emits_rel. }
  apply (emits_then fs ps _ _ (Ok [(a, b, c_excl cf)]) (Ok [(b, a, c_excl cf)])); now apply X.
Qed.

(** all other features, in the order of the set *)
Definition pick (done : list (fdesc F)) (f name : string) : list (fdesc F) :=
  if String.eqb name f then [] else
  match find (fun d => String.eqb (fd_feat d) name) done with Some d => [d] | None => [] end.
Definition others (done : list (fdesc F)) (f : string) : list (fdesc F) :=
  flat_map (pick done f) (c_ord cf (map fd_feat done ++ [f])).
Lemma find_feat done name d : find (fun d : fdesc F => String.eqb (fd_feat d) name) done = Some d -> In d done /\ fd_feat d = name.
Proof. intros H. apply find_some in H as [H1 H2]. apply String.eqb_eq in H2. auto. Qed.
Lemma emits_cross fs A done (a : string -> gen F -> gen F * res unit) :
  reorders (c_ord cf) ->
  let ps := map fd_feat done ++ [fd_feat A] in
  known fs A -> (forall d, In d done -> known fs d) ->
  (forall d, In d done -> emits fs ps (a (fd_feat d)) (if related A d then plan_two A d else Ok [])) ->
  emits fs ps (sfold (fun other => if String.eqb other (fd_feat A) then fun g => (g, Ok tt) else a other) (c_ord cf ps))
    (plan_cross A (others done (fd_feat A))).
Proof.
  intros HO ps KA KD Ha. unfold plan_cross, others. fold ps.
  assert (Hin : forall x, In x (c_ord cf ps) -> In x ps) by (intros x; apply Permutation_in, HO).
  revert Hin. generalize (c_ord cf ps). intros l Hin.
  induction l as [|x l IH]; [apply emits_nil|].
  assert (IH' := IH (fun y Hy => Hin y (or_intror Hy))). clear IH. specialize (Hin x (or_introl eq_refl)).
  cbn [flat_map]. unfold pick at 1.
  match goal with |- emits _ _ (sfold ?f _) _ => change (emits fs ps (sthen (f x) (sfold f l)) (rflat (fun B => if related A B then plan_two A B else Ok [])
    ((if String.eqb x (fd_feat A) then [] else match find (fun d => String.eqb (fd_feat d) x) done with Some d => [d] | None => [] end) ++ flat_map (pick done (fd_feat A)) l))) end.
  cbv beta. destruct (String.eqb_spec x (fd_feat A)) as [->|Hx].
  - cbn [app]. intros g I. unfold sthen. now apply IH'.
  - unfold ps in Hin. apply in_app_iff in Hin as [Hin|[Hin|[]]]; [|congruence].
    destruct (find _ done) as [d|] eqn:E.
    + apply find_feat in E as [Hd <-]. cbn [app rflat]. apply emits_then; auto.
    + exfalso. apply in_map_iff in Hin as (d & <- & Hd). apply (find_none _ _ E) in Hd. now rewrite String.eqb_refl in Hd.
Qed.
End AssocFacts.
