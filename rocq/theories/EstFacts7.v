(** EstFacts7.v — when fitting succeeds (C77). *)
From Coq Require Import Permutation.
From Verif Require Import Base BaseFacts Num Functions Fcm FcmSpec FcmInv FcmInv2 FcmInv3 FcmIter FcmRun FcmRun2 FcmRun3 FcmView FcmOrder LearnUtils LearnSpec LearnFacts Assoc AssocSpec AssocFacts AssocFacts2 AssocFacts3 AssocFacts4 Estimator EstFacts EstFacts3 EstSpec EstFacts4 AssocGen AssocPredict AssocResult AssocRow.

Section FitOk.
Context {F : Type} {N : Num F}.
Variable cf : gconf F.
Hypothesis mul_comm : forall a b : F, nmul a b = nmul b a.
Hypothesis HO : reorders (c_ord cf).

(** the three measures the generator uses have a value *)
Definition rated (c : coeffs F) : Prop :=
  (exists v, measure (c_eval cf) c v) /\ (exists v, measure (c_caus cf) c v) /\
  forall f, c_sign cf = Some f -> exists v, measure f c v.
Lemma call_measure f (c : coeffs F) v : measure f c v -> call4 f c = Ok v.
Proof. destruct c as [[[p q] r] t]. auto. Qed.
Lemma rated_weight na nb sg c : rated c -> exists l, plan_weight cf na nb sg c = Ok l.
Proof.
  intros ((e & He) & (v & Hv) & _). unfold plan_weight. rewrite (call_measure _ _ _ He), (call_measure _ _ _ Hv). cbn [rbind].
  destruct (nltb _ _); eauto. cbn. destruct (neqb _ _); eauto.
Qed.
Lemma rated_sign c : rated c -> exists s, rel_sign cf c = Ok s.
Proof.
  intros (_ & _ & H). unfold rel_sign. destruct (c_sign cf) as [f|]; eauto. destruct (H f eq_refl) as [v Hv].
  rewrite (call_measure _ _ _ Hv). cbn. eauto.
Qed.
Lemma rapp_ok {B} (a b : res (list B)) : (exists x, a = Ok x) -> (exists y, b = Ok y) -> exists z, rapp a b = Ok z.
Proof. intros [x ->] [y ->]. cbn. eauto. Qed.
Lemma pair_ok ta tb na nb ra rb c c' : coefs ra rb c -> coefs rb ra c' -> rated c -> rated c' ->
  exists l, plan_pair cf ta tb na nb ra rb = Ok l.
Proof.
  intros H1 H2 R1 R2. unfold plan_pair. rewrite (proj2 (calc_coefs mul_comm ra rb c c') (conj H1 H2)). cbn [rbind].
  destruct (rated_sign _ R1) as [s ->], (rated_sign _ R2) as [s' ->]. cbn [rbind].
  pose proof (rated_weight na nb s c R1) as W1. pose proof (rated_weight nb na s' c' R2) as W2.
  destruct (c_double cf); [now apply rapp_ok|]. destruct (Bool.eqb ta tb).
  - destruct R1 as (_ & (v & Hv) & _), R2 as (_ & (v' & Hv') & _). rewrite (call_measure _ _ _ Hv), (call_measure _ _ _ Hv'). cbn [rbind].
    apply rapp_ok; destruct (nltb _ _); eauto.
  - destruct ta; auto.
Qed.
Lemma concepts_of_row d x : In x (concepts_of (F := F) d) -> In (snd x) (fd_rows d).
Proof. unfold concepts_of. intros H. destruct x as [a r]. now apply in_combine_r in H. Qed.

(** [P]: what is known about membership rows *)
Variable P : list F -> Prop.
Hypothesis P_rated : forall ra rb, P ra -> P rb -> exists c, coefs ra rb c /\ rated c.
Lemma two_ok A B : (forall r, In r (fd_rows A) -> P r) -> (forall r, In r (fd_rows B) -> P r) -> exists l, plan_two cf A B = Ok l.
Proof.
  intros HA HB. unfold plan_two. apply rflat_ok_iff. intros a Ha. apply rflat_ok_iff. intros b Hb.
  apply concepts_of_row in Ha, Hb. destruct (P_rated _ _ (HA _ Ha) (HB _ Hb)) as (c & C1 & C2), (P_rated _ _ (HB _ Hb) (HA _ Ha)) as (c' & C3 & C4).
  eapply pair_ok; eauto.
Qed.
Lemma concept_fine dc t : is_fuzzy_type t = false -> is_valid_type t = true -> concept_ok (F := F) dc t None = Ok tt.
Proof. intros H V. unfold concept_ok, build_node. cbn [define_func]. rewrite V, H. cbn. reflexivity. Qed.
Lemma describe_ok dc targets f c texts rows : levels cf c texts rows -> is_discrete cf c texts ->
  exists ops d, describe cf dc targets (f, c) = Ok (ops, d) /\ fd_rows d = snd (discrete_desc cf c).
Proof.
  intros L I. assert (Dd : describe cf dc targets (f, c) = plan_discrete cf dc targets f c).
  { unfold describe. pose proof (Permutation_length (levels_perm cf _ _ _ _ _ (levels_desc cf c) L)) as E.
    unfold is_discrete in I. destruct c; auto; destruct I as [-> I]; rewrite <- E in I; cbn [andb];
      (match goal with |- context [Nat.ltb ?d 10] => destruct (Nat.ltb_spec d 10) as [_|X] end; [reflexivity|]); unfold distinct in X; lia. }
  rewrite Dd. unfold plan_discrete. set (t := if str_mem f targets then TYPE_DECISION else TYPE_SIMPLE).
  destruct (discrete_desc cf c) as [tx m].
  assert (X : exists us, rmap (fun _ : string => concept_ok dc t None) tx = Ok us).
  { apply rmap_ok_iff. intros a _. exists tt. apply concept_fine; unfold t; now destruct (str_mem f targets). }
  destruct X as [us ->]. cbn. eauto.
Qed.
Lemma plan_ok dc targets ds : forall done, (forall d r, In d done -> In r (fd_rows d) -> P r) ->
  (forall f c, In (f, c) ds -> (exists texts rows, levels cf c texts rows /\ is_discrete cf c texts) /\ forall r, In r (snd (discrete_desc cf c)) -> P r) ->
  exists ops out, plan_build cf dc targets done ds = Ok (ops, out).
Proof.
  induction ds as [|[f c] ds IH]; intros done HD Hs; cbn [plan_build]; eauto.
  destruct (Hs f c (or_introl eq_refl)) as [(texts & rows & L & I) HP].
  destruct (describe_ok dc targets f c texts rows L I) as (ops & d & E & Ed).
  assert (X : exists rels, plan_cross cf d (others cf done f) = Ok rels).
  { unfold plan_cross. apply rflat_ok_iff. intros B HB. destruct (related cf d B); eauto. apply two_ok.
    - rewrite Ed. exact HP.
    - intros r. apply HD. now apply others_In in HB. }
  destruct X as [rels Hr]. unfold plan_feature. rewrite E. cbn [rbind fst]. rewrite Hr. cbn [rbind].
  destruct (IH (done ++ [d])) as (o2 & out & ->); cbn; eauto.
  - intros d' r Hd'. apply in_app_iff in Hd' as [Hd'|[<-|[]]]; [now apply HD|]. rewrite Ed. apply HP.
  - intros f' c' Hi. apply (Hs f' c'). now right.
Qed.

Lemma fit_succeeds x y e0 e : estimator e0 e -> (e = e0 \/ healthy e0 e /\ m_debug (e_map e0) = true \/ sane (e_map e) /\ hist_ne (e_map e)) -> NoDup (dkeys (join_frames x y)) ->
  (forall f c, In (f, c) (join_frames x y) -> (exists texts rows, levels cf c texts rows /\ is_discrete cf c texts) /\ forall r, In r (snd (discrete_desc cf c)) -> P r) ->
  exists e', fit cf x y e = (e', Ok tt).
Proof.
  intros HE Hw ND Hs. destruct (estimator_state _ _ HE) as (B & S & Pr & G).
  assert (X : snd (fit cf x y e) = Ok tt).
  { destruct (fit_cases cf x y e0 e B S) as [(er & Hr & _ & Hp & _)|(s & A & _ & H)].
    - exfalso. destruct Hw as [->|[[HH D]|[Sn Hn]]]; [destruct Pr as (p & Pr & _); congruence| |].
      2:{ unfold reset, on_fcm, e_gen in Hr. rewrite Hp in Hr. cbn [g_fcm] in Hr. destruct (sane_parts _ Sn) as (Nd & _ & K & _).
          destruct (reset_values _ K Hn Nd) as [C _]. unfold clear_all in Hr. destruct (reset_execution (e_map e)) as [s r]. cbn in C, Hr. subst r. discriminate. }
      pose proof (healthy_trail _ _ HH) as T. destruct HH as [(mi & ex & sd & de & me & xc & ac & kw & vec & H0) _].
      assert (vec = false) as -> by (apply init_est_spec in H0 as (_ & _ & _ & Hd & _); rewrite D in Hd; now destruct vec).
      pose proof (est_iterative e0 e _ _ _ _ _ _ _ _ H0 T) as It. unfold reset, on_fcm, e_gen in Hr. rewrite Hp in Hr. cbn [g_fcm] in Hr.
      pose proof (clear_all_ok _ It) as C. destruct (clear_all (e_map e)) as [s r]. cbn in C, Hr. subst r. discriminate.
    - cbv zeta in H. destruct H as (-> & _). pose proof (alike_blank _ _ A B) as Bs.
      assert (R : ready (m_default s) [] (mkGen [] [] s)).
      { split; [apply Bs|]. split; auto. split; auto. split; [intros dd []|]. cbn. intros f Hf. now elim Hf. }
      pose proof (build_plan cf HO (m_default s) (dkeys y) [] (join_frames x y) _ R ND) as Q.
      change (build_fcm cf (join_frames x y) (dkeys y) s (mkGen [] [] s)) with (sfold (add_feature cf (dkeys y)) (join_frames x y) (mkGen [] [] s)).
      destruct (plan_ok (m_default s) (dkeys y) (join_frames x y) []) as (ops & out & E); [intros ? ? []|exact Hs|].
      rewrite E in Q. destruct Q as (g' & -> & _). reflexivity. }
  destruct (fit cf x y e) as [e' r]. cbn in X. subst r. eauto.
Qed.
Lemma desc_length c r : In r (snd (discrete_desc cf c)) -> length r = col_length c.
Proof. destruct c; cbn [discrete_desc snd]; unfold gen_discrete_feature_matrix; intros H; apply in_map_iff in H as (u & <- & _); cbn [col_length]; apply map_length. Qed.
Lemma same_length_coefs (ra rb : list F) : length ra = length rb -> exists c, coefs ra rb c.
Proof. intros H. unfold coefs. eexists. split; [exact H|]. cbv zeta. reflexivity. Qed.
End FitOk.

Lemma uinsert_In {A} (leb eqb : A -> A -> bool) x l u : In u (uinsert leb eqb x l) -> u = x \/ In u l.
Proof.
  induction l as [|y l IH]; cbn [uinsert]; [intros [<-|[]]; auto|]. destruct (eqb x y); auto. destruct (leb x y).
  - intros [<-|H]; auto.
  - intros [<-|H]; [right; now left|]. destruct (IH H); auto. right. now right.
Qed.
Lemma unique_In {A} (leb eqb : A -> A -> bool) l u : In u (unique leb eqb l) -> In u l.
Proof.
  induction l as [|x l IH]; cbn; auto. intros H. apply uinsert_In in H as [<-|H]; auto.
Qed.
Lemma matrix_hit {F} {N : Num F} {A} (eqb : A -> A -> bool) leb l r : (forall a, eqb a a = true) ->
  In r (gen_discrete_feature_matrix eqb l (unique leb eqb l)) -> In (n1 (F := F)) r /\ Forall (fun v => v = n0 \/ v = n1) r.
Proof.
  intros He H. apply in_map_iff in H as (u & <- & Hu). apply unique_In in Hu. split.
  - apply in_map_iff. exists u. now rewrite He.
  - apply Forall_forall. intros v Hv. apply in_map_iff in Hv as (w & <- & _). destruct (eqb w u); auto.
Qed.
Lemma desc_hit {F} {N : Num F} (cf : gconf F) c r : (forall a : F, neqb a a = true) -> In r (snd (discrete_desc cf c)) ->
  In n1 r /\ Forall (fun v => v = n0 \/ v = n1) r.
Proof.
  intros He. destruct c; cbn [discrete_desc snd]; apply matrix_hit; auto; [apply String.eqb_refl|intros []; reflexivity|apply Z.eqb_refl].
Qed.
