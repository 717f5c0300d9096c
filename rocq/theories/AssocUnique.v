(** AssocUnique.v — a generated map never holds two relations between the same
    ordered pair of concepts. *)
From Coq Require Import Permutation.
From Verif Require Import Base BaseFacts Num Functions Fcm FcmSpec FcmInv FcmInv2 FcmInv3 LoaderFacts LearnUtils LearnSpec LearnFacts Assoc AssocSpec AssocFacts AssocFacts2 AssocFacts3 AssocFacts4.

Lemma NoDup_app_intro {A} (l l' : list A) : NoDup l -> NoDup l' -> (forall a, In a l -> In a l' -> False) -> NoDup (l ++ l').
Proof.
  induction l as [|a l IH]; intros N1 N2 D; auto. apply NoDup_cons_iff in N1 as [Na N1]. cbn. constructor.
  - intros H. apply in_app_iff in H as [H|H]; [auto|]. apply (D a); auto. now left.
  - apply IH; auto. intros b Hb. apply D. now right.
Qed.
Lemma NoDup_app_disj {A} (l l' : list A) : NoDup (l ++ l') -> forall a, In a l -> In a l' -> False.
Proof.
  induction l as [|b l IH]; intros ND a Ha Ha'; [easy|]. cbn in ND. apply NoDup_cons_iff in ND as [Nb ND]. destruct Ha as [->|Ha]; [|eauto].
  apply Nb. apply in_app_iff. auto.
Qed.
Lemma NoDup_app_right {A} (l l' : list A) : NoDup (l ++ l') -> NoDup l'.
Proof. induction l as [|a l IH]; auto. cbn. intros ND. apply NoDup_cons_iff in ND as [_ ND]. auto. Qed.
Lemma NoDup_flat_disj {A B} (f : A -> list B) l : NoDup l -> (forall a, In a l -> NoDup (f a)) ->
  (forall a a' b, In a l -> In a' l -> In b (f a) -> In b (f a') -> a = a') -> NoDup (flat_map f l).
Proof.
  induction l as [|a l IH]; intros ND H1 H2; cbn [flat_map]; [constructor|]. apply NoDup_cons_iff in ND as [Na ND].
  apply NoDup_app_intro.
  - apply H1. now left.
  - apply IH; auto. intros; apply H1; now right. intros a1 a2 b X1 X2. apply H2; now right.
  - intros b Hb Hb'. apply in_flat_map in Hb' as (a' & Ha' & Hb'). apply Na. rewrite (H2 a a' b); auto; [now left|now right].
Qed.

Section Unique.
Context {F : Type} {N : Num F}.
Variable cf : gconf F.
Definition ends (r : string * string * F) : string * string := fst r.
Lemma ends_flat {A} (f : A -> list (string * string * F)) l : map ends (flat_map f l) = flat_map (fun a => map ends (f a)) l.
Proof. induction l as [|a l IH]; cbn; auto. now rewrite map_app, IH. Qed.

Lemma inner_In w names a b : In (a, b) (map ends (inner_pairs w names)) -> In a names /\ In b names.
Proof.
  induction names as [|x t IH]; cbn [inner_pairs]; [easy|]. rewrite map_app, in_app_iff. intros [H|H].
  - rewrite ends_flat in H. apply in_flat_map in H as (y & Hy & H). cbn in H. destruct H as [[= <- <-]|[[= <- <-]|[]]]; split; cbn; auto.
  - apply IH in H as [H1 H2]. split; now right.
Qed.
Lemma inner_NoDup w names : NoDup names -> NoDup (map ends (inner_pairs w names)).
Proof.
  induction names as [|x t IH]; intros ND; cbn [inner_pairs]; [constructor|]. apply NoDup_cons_iff in ND as [Nx ND]. rewrite map_app.
  apply NoDup_app_intro; auto.
  - rewrite ends_flat. apply NoDup_flat_disj; auto.
    + intros y Hy. cbn. repeat constructor; cbn; auto. intros [[= E _]|[]]. subst. auto.
    + intros y z [p q] Hy Hz. cbn. intros [E|[E|[]]] [E'|[E'|[]]]; rewrite <- E in E'; injection E'; intros; subst; auto; contradiction.
  - intros [p q] H H'. apply inner_In in H' as [Hp Hq]. rewrite ends_flat in H. apply in_flat_map in H as (y & Hy & H).
    cbn in H. destruct H as [[= <- <-]|[[= <- <-]|[]]]; auto.
Qed.

Lemma weight_ends na nb s c l : plan_weight cf na nb s c = Ok l -> map ends l = [] \/ map ends l = [(na, nb)].
Proof.
  unfold plan_weight. intros H. apply rbind_ok in H as (e & _ & H). destruct (nltb _ _); [|injection H as <-; auto].
  apply rbind_ok in H as (v & _ & H). cbv zeta in H. destruct (neqb _ _); injection H as <-; auto.
Qed.
Lemma pair_ends ta tb na nb ra rb l : na <> nb -> plan_pair cf ta tb na nb ra rb = Ok l ->
  NoDup (map ends l) /\ forall p, In p (map ends l) -> p = (na, nb) \/ p = (nb, na).
Proof.
  intros Ne. unfold plan_pair. intros H. apply rbind_ok in H as ([pq qp] & _ & H).
  apply rbind_ok in H as (s1 & _ & H). apply rbind_ok in H as (s2 & _ & H). cbv zeta in H.
  assert (R : forall a b l', (forall x, a = Ok x -> map ends x = [] \/ map ends x = [(na, nb)]) -> (forall x, b = Ok x -> map ends x = [] \/ map ends x = [(nb, na)]) ->
     rapp a b = Ok l' -> NoDup (map ends l') /\ forall p, In p (map ends l') -> p = (na, nb) \/ p = (nb, na)).
  { intros a b l' Ha Hb H'. unfold rapp in H'. apply rbind_ok in H' as (x & Ex & H'). apply rbind_ok in H' as (y & Ey & H'). injection H' as <-.
    rewrite map_app. destruct (Ha _ Ex) as [-> | ->], (Hb _ Ey) as [-> | ->]; cbn [app].
    - split; [constructor|easy].
    - split; [repeat constructor; auto|]. intros p [<-|[]]; auto.
    - split; [repeat constructor; auto|]. intros p [<-|[]]; auto.
    - split; [|intros p [<-|[<-|[]]]; auto]. constructor; [|repeat constructor; auto]. intros [E|[]]. injection E. congruence. }
  assert (W1 := weight_ends na nb s1 pq). assert (W2 := weight_ends nb na s2 qp).
  destruct (c_double cf); [now apply (R _ _ _ W1 W2)|]. destruct (Bool.eqb ta tb).
  - apply rbind_ok in H as ([a b] & _ & H). apply R in H; auto.
    + destruct (nltb b a); auto. intros x [= <-]. auto.
    + destruct (nltb a b); auto. intros x [= <-]. auto.
  - destruct ta.
    + destruct (W2 _ H) as [-> | ->]; cbn; (split; [repeat constructor; cbn; auto|]); try easy. intros p [<-|[]]; auto.
    + destruct (W1 _ H) as [-> | ->]; cbn; (split; [repeat constructor; cbn; auto|]); try easy. intros p [<-|[]]; auto.
Qed.
Lemma concepts_In (A : fdesc F) a : In a (concepts_of A) -> In (fst a) (fd_names A).
Proof. destruct a as [n r]. apply in_combine_l. Qed.
Lemma combine_fst_inj {A B} (l : list A) (l' : list B) p q : NoDup l -> In p (combine l l') -> In q (combine l l') -> fst p = fst q -> p = q.
Proof.
  revert l'. induction l as [|a l IH]; intros [|b l'] ND; cbn; try easy. apply NoDup_cons_iff in ND as [Na ND].
  intros [<-|Hp] [<-|Hq] E; auto; cbn [fst] in *.
  - exfalso; apply Na. rewrite E. destruct q. now apply in_combine_l in Hq.
  - exfalso; apply Na. rewrite <- E. destruct p. now apply in_combine_l in Hp.
  - eapply IH; eauto.
Qed.
Lemma combine_NoDup {A B} (l : list A) (l' : list B) : NoDup l -> NoDup (combine l l').
Proof.
  revert l'. induction l as [|a l IH]; intros [|b l'] ND; cbn; constructor; apply NoDup_cons_iff in ND as [Na ND]; auto.
  intros H. apply Na. now apply in_combine_l in H.
Qed.
Lemma two_ends A B l : NoDup (fd_names A) -> NoDup (fd_names B) -> (forall c, In c (fd_names A) -> In c (fd_names B) -> False) ->
  plan_two cf A B = Ok l ->
  NoDup (map ends l) /\ forall x y, In (x, y) (map ends l) -> (In x (fd_names A) /\ In y (fd_names B)) \/ (In y (fd_names A) /\ In x (fd_names B)).
Proof.
  intros NA NB Dj H. unfold plan_two in H. 
  assert (I : forall a l', In a (concepts_of A) -> rflat (fun b => plan_pair cf (fd_target A) (fd_target B) (fst a) (fst b) (snd a) (snd b)) (concepts_of B) = Ok l' ->
    NoDup (map ends l') /\ forall p, In p (map ends l') -> exists b, In b (concepts_of B) /\ (p = (fst a, fst b) \/ p = (fst b, fst a))).
  { intros a l' Ha H'. pose proof (rflat_ok _ _ _ H') as ->. rewrite ends_flat.
    assert (P : forall b, In b (concepts_of B) -> NoDup (map ends (okl (plan_pair cf (fd_target A) (fd_target B) (fst a) (fst b) (snd a) (snd b)))) /\
       forall p, In p (map ends (okl (plan_pair cf (fd_target A) (fd_target B) (fst a) (fst b) (snd a) (snd b)))) -> p = (fst a, fst b) \/ p = (fst b, fst a)).
    { intros b Hb. destruct (plan_pair _ _ _ _ _ _ _) as [lp|er] eqn:E; cbn [okl]; [|split; [constructor|easy]].
      apply pair_ends in E; auto. intros X. apply (Dj (fst a)); [now apply concepts_In|]. rewrite X. now apply concepts_In. }
    split.
    - apply NoDup_flat_disj.
      + apply combine_NoDup; auto.
      + intros b Hb. now apply P.
      + intros b b' p Hb Hb' Hp Hp'. apply P in Hp; auto. apply P in Hp'; auto. apply (combine_fst_inj (fd_names B) (fd_rows B)); auto.
        pose proof (concepts_In _ _ Ha). pose proof (concepts_In _ _ Hb). pose proof (concepts_In _ _ Hb').
        destruct Hp as [->| ->], Hp' as [[= E1]|[= E1]]; auto; exfalso.
        * apply (Dj (fst a)); auto. now rewrite E1.
        * apply (Dj (fst a)); auto. now rewrite <- E1.
    - intros p Hp. apply in_flat_map in Hp as (b & Hb & Hp). exists b. split; auto. now apply P in Hp. }
  pose proof (rflat_ok _ _ _ H) as ->. rewrite ends_flat.
  assert (J : forall a, In a (concepts_of A) -> exists l', rflat (fun b => plan_pair cf (fd_target A) (fd_target B) (fst a) (fst b) (snd a) (snd b)) (concepts_of B) = Ok l').
  { intros a Ha. apply (proj1 (rflat_ok_iff _ _) (ex_intro _ _ H)). exact Ha. }
  split.
  - apply NoDup_flat_disj.
    + apply combine_NoDup; auto.
    + intros a Ha. destruct (J a Ha) as [l' E]. rewrite E. cbn [okl]. now apply (I a l' Ha).
    + intros a a' p Ha Ha' Hp Hp'. destruct (J a Ha) as [l1 E1]. destruct (J a' Ha') as [l2 E2]. rewrite E1 in Hp. rewrite E2 in Hp'. cbn [okl] in *.
      apply (I a l1 Ha E1) in Hp as (b & Hb & Hp). apply (I a' l2 Ha' E2) in Hp' as (b' & Hb' & Hp').
      apply (combine_fst_inj (fd_names A) (fd_rows A)); auto.
      pose proof (concepts_In _ _ Ha). pose proof (concepts_In _ _ Ha'). pose proof (concepts_In _ _ Hb). pose proof (concepts_In _ _ Hb').
      destruct Hp as [->| ->], Hp' as [[= E3 E4]|[= E3 E4]]; auto; exfalso.
      * apply (Dj (fst a)); auto. now rewrite E3.
      * apply (Dj (fst a)); auto. now rewrite E4.
  - intros x y Hp. apply in_flat_map in Hp as (a & Ha & Hp). destruct (J a Ha) as [l1 E1]. rewrite E1 in Hp. apply (I a l1 Ha E1) in Hp as (b & Hb & Hp).
    pose proof (concepts_In _ _ Ha). pose proof (concepts_In _ _ Hb). destruct Hp as [[= -> ->]|[= -> ->]]; auto.
Qed.
Lemma owner_unique (fds : list (fdesc F)) d d' c : NoDup (flat_map fd_names fds) -> In d fds -> In d' fds -> In c (fd_names d) -> In c (fd_names d') -> d = d'.
Proof.
  induction fds as [|z l IH]; [easy|]. cbn [flat_map]. intros ND Hd Hd' Hc Hc'.
  assert (Dj : forall w, In w l -> In c (fd_names z) -> In c (fd_names w) -> False).
  { intros w Hw H1 H2. apply (NoDup_app_disj _ _ ND c); auto. apply in_flat_map. eauto. }
  destruct Hd as [->|Hd], Hd' as [->|Hd']; auto; try (exfalso; eauto; fail). apply IH; auto. now apply NoDup_app_right in ND.
Qed.
Lemma names_of_NoDup (fds : list (fdesc F)) d : NoDup (flat_map fd_names fds) -> In d fds -> NoDup (fd_names d).
Proof.
  induction fds as [|z l IH]; [easy|]. cbn [flat_map]. intros ND [->|Hd]; [now apply NoDup_app_left in ND|]. apply IH; auto. now apply NoDup_app_right in ND.
Qed.
Lemma cross_ends done d : NoDup done -> Permutation (others cf done (fd_feat d)) done -> NoDup (flat_map fd_names (done ++ [d])) ->
  NoDup (map ends (cross_of cf done d)) /\
  forall x y, In (x, y) (map ends (cross_of cf done d)) -> exists B, In B done /\ ((In x (fd_names d) /\ In y (fd_names B)) \/ (In y (fd_names d) /\ In x (fd_names B))).
Proof.
  intros NDd P ND. unfold cross_of, plan_cross. destruct (rflat _ _) as [l|er] eqn:H; cbn [okl]; [|split; [constructor|easy]].
  pose proof (rflat_ok _ _ _ H) as ->. rewrite ends_flat.
  assert (Dj : forall B c, In B done -> In c (fd_names d) -> In c (fd_names B) -> False).
  { intros B c HB H1 H2. rewrite flat_map_app in ND. apply (NoDup_app_disj _ _ ND c); [apply in_flat_map; eauto|]. cbn. now rewrite app_nil_r. }
  assert (T : forall B, In B done -> NoDup (map ends (okl (if related cf d B then plan_two cf d B else Ok []))) /\
     forall x y, In (x, y) (map ends (okl (if related cf d B then plan_two cf d B else Ok []))) -> (In x (fd_names d) /\ In y (fd_names B)) \/ (In y (fd_names d) /\ In x (fd_names B))).
  { intros B HB. destruct (related cf d B); [|cbn; split; [constructor|easy]]. destruct (plan_two cf d B) as [l|er] eqn:E; cbn [okl]; [|split; [constructor|easy]].
    apply two_ends in E; auto.
    - apply (names_of_NoDup _ _ ND). apply in_app_iff. right. now left.
    - apply (names_of_NoDup _ _ ND). apply in_app_iff. now left.
    - intros c H1 H2. now apply (Dj B c). }
  assert (PI : forall B, In B (others cf done (fd_feat d)) -> In B done) by (intros B HB; eapply Permutation_in; eauto).
  split.
  - apply NoDup_flat_disj.
    + eapply Permutation_NoDup; [apply Permutation_sym|]; eauto.
    + intros B HB. apply T. auto.
    + intros B B' [x y] HB HB' H1 H2. apply PI in HB, HB'. apply (T B HB) in H1. apply (T B' HB') in H2.
      assert (O : forall c, In c (fd_names B) -> In c (fd_names B') -> B = B').
      { intros c C1 C2. apply (owner_unique (done ++ [d]) B B' c); auto; apply in_app_iff; now left. }
      destruct H1 as [[A1 A2]|[A1 A2]], H2 as [[C1 C2]|[C1 C2]]; eauto; exfalso; eauto.
  - intros x y Hp. apply in_flat_map in Hp as (B & HB & Hp). exists B. split; auto. apply T in Hp; auto.
Qed.
Lemma rels_ends rest : reorders (c_ord cf) -> forall done, NoDup (map fd_feat (done ++ rest)) -> NoDup (flat_map fd_names (done ++ rest)) ->
  NoDup (map ends (rels_of cf done rest)) /\
  forall x y, In (x, y) (map ends (rels_of cf done rest)) -> exists d, In d rest /\ (In x (fd_names d) \/ In y (fd_names d)).
Proof.
  intros HO. induction rest as [|d rest IH]; intros done NF NN; cbn [rels_of map]; [split; [constructor|easy]|].
  assert (E : done ++ d :: rest = (done ++ [d]) ++ rest) by (rewrite <- app_assoc; reflexivity). rewrite E in NF, NN.
  destruct (IH (done ++ [d]) NF NN) as [I1 I2]. rewrite map_app in NF. rewrite flat_map_app in NN.
  pose proof (NoDup_app_left _ _ NF) as NF1. pose proof (NoDup_app_left _ _ NN) as NN1.
  destruct (cross_ends done d) as [C1 C2]; auto.
  { rewrite map_app in NF1. apply NoDup_app_left in NF1. now apply NoDup_map_inv in NF1. }
  { rewrite map_app in NF1. cbn in NF1. apply others_perm; auto.
    - now apply NoDup_app_left in NF1.
    - intros X. apply (NoDup_app_disj _ _ NF1 _ X). now left. }
  assert (Nd : NoDup (fd_names d)) by (apply (names_of_NoDup _ d NN1); apply in_app_iff; right; now left).
  assert (Dj : forall B c, In B done -> In c (fd_names d) -> In c (fd_names B) -> False).
  { intros B c HB H1 H2. rewrite flat_map_app in NN1. apply (NoDup_app_disj _ _ NN1 c); [apply in_flat_map; eauto|]. cbn. now rewrite app_nil_r. }
  assert (Dl : forall d' c, In d' rest -> In c (fd_names d') -> ~ (exists B, In B (done ++ [d]) /\ In c (fd_names B))).
  { intros d' c Hd' Hc (B & HB & HcB). apply (NoDup_app_disj _ _ NN c); apply in_flat_map; eauto. }
  rewrite !map_app. split.
  - apply NoDup_app_intro; [|apply NoDup_app_intro; auto|].
    + unfold plan_inner. destruct (neqb _ _); [constructor|now apply inner_NoDup].
    + intros [x y] H1 H2. apply C2 in H1 as (B & HB & H1). apply I2 in H2 as (d' & Hd' & H2).
      assert (Bi : In B (done ++ [d])) by (apply in_app_iff; auto). assert (Di : In d (done ++ [d])) by (apply in_app_iff; cbn; auto).
      destruct H2 as [H2|H2]; apply (Dl d' _ Hd' H2); destruct H1 as [[A1 A2]|[A1 A2]]; eauto.
    + intros [x y] H1 H2. assert (HI : In x (fd_names d) /\ In y (fd_names d)).
      { unfold plan_inner in H1. destruct (neqb _ _); [easy|now apply inner_In in H1]. }
      destruct HI as [X Y]. assert (Di : In d (done ++ [d])) by (apply in_app_iff; cbn; auto). apply in_app_iff in H2 as [H2|H2].
      * apply C2 in H2 as (B & HB & [[A1 A2]|[A1 A2]]); [apply (Dj B y)|apply (Dj B x)]; auto.
      * apply I2 in H2 as (d' & Hd' & [H2|H2]); apply (Dl d' _ Hd' H2); eauto.
  - intros x y H. apply in_app_iff in H as [H|H]; [|apply in_app_iff in H as [H|H]].
    + exists d. split; [now left|]. unfold plan_inner in H. destruct (neqb _ _); [easy|]. apply inner_In in H. tauto.
    + apply C2 in H as (B & HB & H). exists d. split; [now left|tauto].
    + apply I2 in H as (d' & Hd' & H). exists d'. split; [now right|auto].
Qed.
End Unique.
