(** AssocFacts4.v — concepts and relations of a generated map. *)
From Coq Require Import Permutation.
From Verif Require Import Base BaseFacts Num Functions Fcm FcmSpec FcmInv FcmInv2 FcmInv3 FcmRun FcmOrder LoaderFacts LearnUtils LearnSpec LearnFacts Assoc AssocSpec AssocFacts AssocFacts2 AssocFacts3.

Section AssocFacts4.
Context {F : Type} {N : Num F}.
Notation rel := (string * string * F)%type.
Implicit Types (g : gen F) (s : fcm F).

(** ** Running building calls *)
Definition added (o : op F) : list string := match o with OpAddConcept n _ _ _ _ _ _ _ => [n] | _ => [] end.
Definition insert_name (l : list string) (n : string) : list string := if str_mem n l then l else l ++ [n].
Lemma dkeys_insert {A} (d : dict A) k v : dkeys (dset d k v) = insert_name (dkeys d) k.
Proof.
  unfold insert_name. unfold dkeys. induction d as [|[k' v'] d IH]; cbn; auto.
  destruct (String.eqb_spec k k') as [->|H]; cbn; auto. rewrite IH. unfold str_mem. destruct (existsb _ _); reflexivity.
Qed.
Lemma add_concept_parts n t a m e d f k s : snd (add_concept n t a m e d f k s) = Ok tt ->
  let s' := fst (add_concept n t a m e d f k s) in
  concepts s' = insert_name (concepts s) n /\ relations s' = relations s.
Proof.
  unfold add_concept, concepts, relations. destruct (build_node _ _ _ _ _ _ _ _) as [x [u|er]]; cbn; [|discriminate].
  intros _. split; [apply dkeys_insert|reflexivity].
Qed.
Lemma add_relation_parts a b w s : m_fit s = None -> In a (concepts s) -> In b (concepts s) ->
  let s' := fst (add_relation a b w s) in
  concepts s' = concepts s /\ relations s' = relations s ++ [(a, b, w)].
Proof.
  intros Fi Ha Hb. pose proof (add_relation_nofit a b w s Fi) as A. destruct (add_relation a b w s) as [s' r]. cbn.
  destruct A as (_ & A1 & _ & _ & _ & A5). split; [now apply unlinked_keys|].
  apply str_mem_In in Ha, Hb. rewrite Ha, Hb in A5. unfold relations. rewrite A5, map_app. reflexivity.
Qed.
Lemma insert_incl l n x : In x l \/ x = n <-> In x (insert_name l n).
Proof.
  unfold insert_name. destruct (str_mem n l) eqn:E; [|rewrite in_app_iff; cbn; intuition].
  apply str_mem_In in E. intuition congruence.
Qed.
Lemma inserts_In l ns x : In x (fold_left insert_name ns l) <-> In x l \/ In x ns.
Proof. revert l. induction ns as [|n ns IH]; intros l; cbn; [tauto|]. rewrite IH, <- insert_incl. intuition. Qed.
Lemma inserts_NoDup l ns : NoDup (l ++ ns) -> fold_left insert_name ns l = l ++ ns.
Proof.
  revert l. induction ns as [|n ns IH]; intros l H; cbn; [now rewrite app_nil_r|].
  assert (E : insert_name l n = l ++ [n]).
  { unfold insert_name. destruct (str_mem n l) eqn:E; auto. apply str_mem_In in E. apply NoDup_remove_2 in H.
    exfalso. apply H. apply in_app_iff. now left. }
  rewrite E, IH, <- app_assoc; auto. now rewrite <- app_assoc.
Qed.
Lemma run_building dc names ops s : m_fit s = None -> m_default s = dc -> forallb is_building ops = true ->
  Forall (fun o => is_add_concept o = true -> exists t, is_concept_op dc t o) ops ->
  announced names ops -> (forall x, In x names -> In x (concepts s)) ->
  relations (run_ops ops s) = relations s ++ ops_rels ops /\
  concepts (run_ops ops s) = fold_left insert_name (flat_map added ops) (concepts s) /\
  ok_when (fun _ => true) ops s.
Proof.
  unfold run_ops. revert names s. induction ops as [|o ops IH]; intros names s Fi Dc Bu Co An Nm.
  - cbn. rewrite app_nil_r. auto.
  - cbn [forallb] in Bu. apply andb_prop in Bu as [Bo Bu]. apply Forall_cons_iff in Co as [Co1 Co2].
    pose proof (build_settings o s Bo) as Se. apply settings_fit in Se as [Se1 Se2].
    assert (X : snd (step o s) = Ok tt /\ relations (fst (step o s)) = relations s ++ ops_rels [o] /\
       concepts (fst (step o s)) = fold_left insert_name (added o) (concepts s) /\
       exists names', announced names' ops /\ (forall x, In x names' -> In x (concepts (fst (step o s))))).
    { destruct o; try discriminate Bo; cbn [step].
      - destruct (Co1 eq_refl) as (t & d' & E & Hok & _). cbn [op_name] in E. unfold concept_op in E. injection E as -> -> -> -> -> -> ->.
        pose proof (add_concept_plan dc t d' name s Dc) as P. rewrite Hok in P.
        assert (R : snd (add_concept name (Some t) (Some true) None None d' None [] s) = Ok tt) by now rewrite P.
        destruct (add_concept_parts _ _ _ _ _ _ _ _ _ R) as [P1 P2]. rewrite P1, P2. split; auto. cbn. rewrite app_nil_r.
        split; auto. split; auto. cbn in An. exists (names ++ [name]). split; auto. intros x Hx.
        apply insert_incl. apply in_app_iff in Hx as [Hx|[<-|[]]]; auto.
      - cbn in An. destruct An as (A1 & A2 & A3).
        destruct (add_relation_parts origin destiny weight s Fi) as [P1 P2]; auto.
        rewrite P1, P2. split; [|split; [reflexivity|split; [reflexivity|exists names; auto]]].
        pose proof (add_relation_ok origin destiny weight s Fi) as P. now rewrite P. }
    destruct X as (X1 & X2 & X3 & names' & X4 & X5).
    destruct (IH names' (fst (step o s))) as (I1 & I2 & I3); auto; try congruence.
    cbn [fold_left flat_map]. rewrite I1, I2, X2, X3, <- app_assoc, fold_left_app.
    split; [|split; auto]. + unfold ops_rels. cbn [flat_map]. now rewrite app_nil_r. + cbn. auto.
Qed.
Lemma ok_all_add ops s : ok_when (F := F) (fun _ => true) ops s -> ok_when is_add_concept ops s.
Proof. revert s. induction ops as [|o ops IH]; intros s; cbn; auto. intros [H1 H2]. auto. Qed.
Lemma sane_more s ops : sane s -> ok_when is_add_concept ops s -> sane (run_ops ops s).
Proof.
  intros (a & b & c & d & e & f & g & h & s0 & l & H1 & H2 & ->) H.
  exists a, b, c, d, e, f, g, h, s0, (l ++ ops). split; auto. split; [now apply ok_when_app|]. now rewrite run_ops_app.
Qed.

(** ** Which relations *)
Variable cf : gconf F.
Hypothesis HO : reorders (c_ord cf).

Lemma plan_crosses dc targets done ds ops out : plan_build cf dc targets done ds = Ok (ops, out) ->
  forall rest pre d post, out = done ++ rest -> rest = pre ++ d :: post ->
  exists l, plan_cross cf d (others cf (done ++ pre) (fd_feat d)) = Ok l.
Proof.
  revert done ops out. induction ds as [|fc ds IH]; intros done ops out H rest pre d post Eo Er.
  - cbn in H. injection H as _ <-. apply (f_equal (@length _)) in Eo. rewrite Er, !app_length in Eo. cbn in Eo. lia.
  - cbn in H. unfold plan_feature in H. destruct (describe cf dc targets fc) as [[o1 d1]|e] eqn:Ed; [|discriminate]. cbn [rbind] in H.
    destruct (plan_cross cf d1 (others cf done (fst fc))) as [rels|e] eqn:Ec; [|discriminate]. cbn [rbind] in H.
    destruct (plan_build cf dc targets (done ++ [d1]) ds) as [[o2 out']|e] eqn:Eb; [|discriminate]. cbn [rbind] in H. injection H as _ ->.
    apply describe_described in Ed as (_ & D2 & _).
    destruct (plan_build_spec cf _ _ _ _ _ _ Eb) as (rest' & E' & _). rewrite E', <- app_assoc in Eo. apply app_inv_head in Eo.
    destruct pre as [|p pre].
    + cbn in Er. rewrite Er in Eo. injection Eo as -> _. rewrite app_nil_r, D2. eauto.
    + rewrite Er in Eo. cbn in Eo. injection Eo as -> Eo. destruct (IH _ _ _ Eb rest' pre d post E' Eo) as [l Hl].
      rewrite <- app_assoc in Hl. eauto.
Qed.
Lemma rels_of_In done rest r : In r (rels_of cf done rest) <->
  exists pre d post, rest = pre ++ d :: post /\ (In r (plan_inner cf d) \/ In r (cross_of cf (done ++ pre) d)).
Proof.
  revert done. induction rest as [|d rest IH]; intros done; cbn [rels_of].
  - split; [intros []|]. intros (pre & d & post & E & _). now destruct pre.
  - rewrite !in_app_iff, IH. split.
    + intros [H|[H|(pre & d' & post & -> & H)]].
      * exists [], d, rest. auto.
      * exists [], d, rest. rewrite app_nil_r. auto.
      * exists (d :: pre), d', post. split; auto. now rewrite <- app_assoc in H.
    + intros (pre & d' & post & E & H). destruct pre as [|p pre]; cbn in E; injection E as <- E.
      * rewrite app_nil_r in H. tauto.
      * right. right. exists pre, d', post. split; auto. now rewrite <- app_assoc.
Qed.

Hypothesis comm : forall x y : F, nmul x y = nmul y x.
Lemma coeff_fold l p q r t :
  fold_left coeff_step l (p, q, r, t) =
  (fold_left nadd (map (fun xy => nmul (fst xy) (snd xy)) l) p, fold_left nadd (map (fun xy => nmul (fst xy) (nsub n1 (snd xy))) l) q,
   fold_left nadd (map (fun xy => nmul (nsub n1 (fst xy)) (snd xy)) l) r, fold_left nadd (map (fun xy => nmul (nsub n1 (fst xy)) (nsub n1 (snd xy))) l) t).
Proof. revert p q r t. induction l as [|[x y] l IH]; intros p q r t; cbn; auto. Qed.
Lemma calc_coefs ra rb pq qp : calc_concepts_coefficient ra rb = Some (pq, qp) <-> coefs ra rb pq /\ coefs rb ra qp.
Proof.
  unfold calc_concepts_coefficient, coefs. rewrite coeff_fold.
  assert (SW : forall f h : F -> F -> F, (forall x y, f x y = h y x) ->
    map (fun xy => f (fst xy) (snd xy)) (combine rb ra) = map (fun xy => h (fst xy) (snd xy)) (combine ra rb)).
  { intros f h E. rewrite combine_swap, map_map. apply map_ext. intros [x y]. cbn. apply E. }
  pose proof (SW (fun x y => nmul x y) (fun x y => nmul x y) ltac:(intros; apply comm)) as S1.
  pose proof (SW (fun x y => nmul x (nsub n1 y)) (fun x y => nmul (nsub n1 x) y) ltac:(intros; apply comm)) as S2.
  pose proof (SW (fun x y => nmul (nsub n1 x) y) (fun x y => nmul x (nsub n1 y)) ltac:(intros; apply comm)) as S3.
  pose proof (SW (fun x y => nmul (nsub n1 x) (nsub n1 y)) (fun x y => nmul (nsub n1 x) (nsub n1 y)) ltac:(intros; apply comm)) as S4.
  cbv beta in S1, S2, S3, S4. cbv zeta. rewrite S1, S2, S3, S4.
  destruct (Nat.eqb_spec (length ra) (length rb)) as [E|E].
  - split.
    + intros H. injection H as <- <-. repeat split; auto.
    + intros [[_ ->] [_ ->]]. reflexivity.
  - split; [discriminate|]. intros [[H _] _]. congruence.
Qed.
Lemma coefs_fun ra rb c c' : coefs ra rb c -> coefs ra rb c' -> c = c'.
Proof. intros [_ ->] [_ ->]. reflexivity. Qed.
Lemma call4_measure f (c : coeffs F) v : call4 f c = Ok v <-> measure f c v.
Proof. destruct c as [[[? ?] ?] ?]. reflexivity. Qed.
Lemma rel_sign_spec c x : rel_sign cf c = Ok x <-> sign_of cf c x.
Proof.
  unfold rel_sign, sign_of. destruct (c_sign cf) as [f|]; [|split; congruence].
  split.
  - intros H. apply rbind_ok in H as (y & Hy & H). exists y. split; [now apply call4_measure|congruence].
  - intros (y & Hy & ->). apply call4_measure in Hy. rewrite Hy. reflexivity.
Qed.
Lemma plan_weight_In na nb sg c l a b w : plan_weight cf na nb sg c = Ok l ->
  (In (a, b, w) l <-> a = na /\ b = nb /\ exists e v, measure (c_eval cf) c e /\ nltb (c_thr cf) (nabs e) = true /\
     measure (c_caus cf) c v /\ w = nmul sg v /\ neqb w n0 = false).
Proof.
  unfold plan_weight. intros H. apply rbind_ok in H as (e & He & H). apply call4_measure in He.
  assert (Ue : forall e', measure (c_eval cf) c e' -> e' = e).
  { intros e' H'. apply call4_measure in H', He. congruence. }
  destruct (nltb (c_thr cf) (nabs e)) eqn:Et.
  - apply rbind_ok in H as (v & Hv & H). apply call4_measure in Hv.
    assert (Uv : forall v', measure (c_caus cf) c v' -> v' = v).
    { intros v' H'. apply call4_measure in H', Hv. congruence. }
    cbv zeta in H. destruct (neqb (nmul sg v) n0) eqn:Ez; injection H as <-.
    + split; [intros []|]. intros (_ & _ & e' & v' & _ & _ & H & -> & H'). apply Uv in H. subst v'. congruence.
    + split.
      * intros [E|[]]. injection E as <- <- <-. split; auto. split; auto. exists e, v. auto.
      * intros (-> & -> & e' & v' & _ & _ & H & -> & _). apply Uv in H. subst v'. now left.
  - injection H as <-. split; [intros []|]. intros (_ & _ & e' & v' & H & H' & _). apply Ue in H. subst. congruence.
Qed.
Lemma plan_pair_In ta tb na nb ra rb l a b w : plan_pair cf ta tb na nb ra rb = Ok l ->
  (In (a, b, w) l <-> (a = na /\ b = nb /\ link cf ta tb ra rb w) \/ (a = nb /\ b = na /\ link cf tb ta rb ra w)).
Proof.
  unfold plan_pair. intros H. apply rbind_ok in H as ([pq qp] & Hc & H). apply rbind_ok in H as (s1 & Hs1 & H).
  apply rbind_ok in H as (s2 & Hs2 & H). cbv zeta in H.
  destruct (calc_concepts_coefficient ra rb) as [cc|] eqn:Ec; [|discriminate]. injection Hc as ->.
  apply calc_coefs in Ec as [C1 C2]. apply rel_sign_spec in Hs1, Hs2.
  assert (S1 : forall x, sign_of cf pq x -> x = s1) by (intros x Hx; apply rel_sign_spec in Hx, Hs1; congruence).
  assert (S2 : forall x, sign_of cf qp x -> x = s2) by (intros x Hx; apply rel_sign_spec in Hx, Hs2; congruence).
  assert (L1 : link cf ta tb ra rb w <-> wanted cf ta tb ra rb /\ exists e v, measure (c_eval cf) pq e /\ nltb (c_thr cf) (nabs e) = true /\
     measure (c_caus cf) pq v /\ w = nmul s1 v /\ neqb w n0 = false).
  { unfold link. split.
    - intros (W & c & e & v & sg & K & A1 & A2 & A3 & A4 & A5 & A6). split; auto.
      pose proof (coefs_fun _ _ _ _ C1 K) as <-. apply S1 in A4. subst sg. exists e, v. auto.
    - intros (W & e & v & A1 & A2 & A3 & A4 & A5). split; auto. exists pq, e, v, s1. auto 10. }
  assert (L2 : link cf tb ta rb ra w <-> wanted cf tb ta rb ra /\ exists e v, measure (c_eval cf) qp e /\ nltb (c_thr cf) (nabs e) = true /\
     measure (c_caus cf) qp v /\ w = nmul s2 v /\ neqb w n0 = false).
  { unfold link. split.
    - intros (W & c & e & v & sg & K & A1 & A2 & A3 & A4 & A5 & A6). split; auto.
      pose proof (coefs_fun _ _ _ _ C2 K) as <-. apply S2 in A4. subst sg. exists e, v. auto.
    - intros (W & e & v & A1 & A2 & A3 & A4 & A5). split; auto. exists qp, e, v, s2. auto 10. }
  rewrite L1, L2. clear L1 L2.
  set (Q1 := exists e v, measure (c_eval cf) pq e /\ _). set (Q2 := exists e v, measure (c_eval cf) qp e /\ _).
  assert (FW : forall l, plan_weight cf na nb s1 pq = Ok l -> (In (a, b, w) l <-> a = na /\ b = nb /\ Q1)) by (intros; now apply plan_weight_In).
  assert (BW : forall l, plan_weight cf nb na s2 qp = Ok l -> (In (a, b, w) l <-> a = nb /\ b = na /\ Q2)) by (intros; now apply plan_weight_In).
  unfold wanted. destruct (c_double cf) eqn:Ed.
  - unfold rapp in H. apply rbind_ok in H as (x & Hx & H). apply rbind_ok in H as (y & Hy & H). injection H as <-.
    rewrite in_app_iff, (FW _ Hx), (BW _ Hy). tauto.
  - destruct (Bool.eqb ta tb) eqn:Et.
    + apply Bool.eqb_prop in Et. subst tb. apply rbind_ok in H as ([x y] & Hxy & H).
      apply rbind_ok in Hxy as (v & Hv & Hxy). apply rbind_ok in Hxy as (v' & Hv' & Hxy). injection Hxy as <- <-.
      apply call4_measure in Hv, Hv'.
      assert (W1 : (false = true \/ (ta = ta /\ exists c c' v v', coefs ra rb c /\ coefs rb ra c' /\
         measure (c_caus cf) c v /\ measure (c_caus cf) c' v' /\ nltb (nabs v') (nabs v) = true) \/ (ta = false /\ ta = true)) <-> nltb (nabs v') (nabs v) = true).
      { split.
        - intros [X|[(_ & c & c' & u & u' & K1 & K2 & K3 & K4 & K5)|[X1 X2]]]; try congruence.
          pose proof (coefs_fun _ _ _ _ C1 K1) as <-. pose proof (coefs_fun _ _ _ _ C2 K2) as <-.
          apply call4_measure in K3, K4, Hv, Hv'. congruence.
        - intros X. right. left. split; auto. exists pq, qp, v, v'. auto. }
      assert (W2 : (false = true \/ (ta = ta /\ exists c c' v v', coefs rb ra c /\ coefs ra rb c' /\
         measure (c_caus cf) c v /\ measure (c_caus cf) c' v' /\ nltb (nabs v') (nabs v) = true) \/ (ta = false /\ ta = true)) <-> nltb (nabs v) (nabs v') = true).
      { split.
        - intros [X|[(_ & c & c' & u & u' & K1 & K2 & K3 & K4 & K5)|[X1 X2]]]; try congruence.
          pose proof (coefs_fun _ _ _ _ C2 K1) as <-. pose proof (coefs_fun _ _ _ _ C1 K2) as <-.
          apply call4_measure in K3, K4, Hv, Hv'. congruence.
        - intros X. right. left. split; auto. exists qp, pq, v', v. auto. }
      rewrite W1, W2. unfold rapp in H. apply rbind_ok in H as (x & Hx & H). apply rbind_ok in H as (y & Hy & H). injection H as <-.
      rewrite in_app_iff. clear W1 W2.
      assert (X1 : In (a, b, w) x <-> nltb (nabs v') (nabs v) = true /\ a = na /\ b = nb /\ Q1).
      { destruct (nltb (nabs v') (nabs v)); [rewrite (FW _ Hx); tauto|]. injection Hx as <-. cbn. intuition congruence. }
      assert (X2 : In (a, b, w) y <-> nltb (nabs v) (nabs v') = true /\ a = nb /\ b = na /\ Q2).
      { destruct (nltb (nabs v) (nabs v')); [rewrite (BW _ Hy); tauto|]. injection Hy as <-. cbn. intuition congruence. }
      rewrite X1, X2. tauto.
    + apply Bool.eqb_false_iff in Et. destruct ta, tb; try congruence.
      * rewrite (BW _ H). intuition congruence.
      * rewrite (FW _ H). intuition congruence.
Qed.
Lemma concepts_nth (d : fdesc F) n r : In (n, r) (concepts_of d) <-> exists i, nth_error (fd_names d) i = Some n /\ nth_error (fd_rows d) i = Some r.
Proof.
  unfold concepts_of. split.
  - intros H. apply In_nth_error in H as [i H]. apply nth_combine in H. eauto.
  - intros [i H]. apply nth_combine in H. eapply nth_error_In; eauto.
Qed.
Lemma plan_two_In A B l a b w : plan_two cf A B = Ok l ->
  (In (a, b, w) l <-> exists i j x y ra rb, nth_error (fd_names A) i = Some x /\ nth_error (fd_rows A) i = Some ra /\
     nth_error (fd_names B) j = Some y /\ nth_error (fd_rows B) j = Some rb /\
     ((a = x /\ b = y /\ link cf (fd_target A) (fd_target B) ra rb w) \/ (a = y /\ b = x /\ link cf (fd_target B) (fd_target A) rb ra w))).
Proof.
  unfold plan_two. intros H. rewrite (rflat_In _ _ _ _ H). split.
  - intros ([x ra] & l1 & Hx & H1 & Hin). apply (rflat_In _ _ _ _ H1) in Hin as ([y rb] & l2 & Hy & H2 & Hin).
    apply concepts_nth in Hx as (i & Hx & Hra), Hy as (j & Hy & Hrb). cbn [fst snd] in H2. apply (plan_pair_In _ _ _ _ _ _ _ _ _ _ H2) in Hin.
    exists i, j, x, y, ra, rb. auto 10.
  - intros (i & j & x & y & ra & rb & Hx & Hra & Hy & Hrb & L).
    assert (HX : In (x, ra) (concepts_of A)) by (apply concepts_nth; eauto).
    assert (HY : In (y, rb) (concepts_of B)) by (apply concepts_nth; eauto).
    destruct (proj1 (rflat_ok_iff _ _) (ex_intro _ _ H) _ HX) as [l1 H1]. cbn [fst snd] in H1.
    destruct (proj1 (rflat_ok_iff _ _) (ex_intro _ _ H1) _ HY) as [l2 H2]. cbn [fst snd] in H2.
    exists (x, ra), l1. split; auto. split; auto. apply (rflat_In _ _ _ _ H1). exists (y, rb), l2. split; auto. split; auto.
    now apply (plan_pair_In _ _ _ _ _ _ _ _ _ _ H2).
Qed.
Lemma related_spec A B : related cf A B = true <-> c_featrel cf = true \/ fd_target A <> fd_target B.
Proof.
  unfold related. rewrite Bool.orb_true_iff, Bool.negb_true_iff, Bool.eqb_false_iff. tauto.
Qed.
Lemma split_nth {A} (l : list A) i x : nth_error l i = Some x -> l = firstn i l ++ x :: skipn (S i) l.
Proof.
  revert i. induction l as [|y l IH]; intros [|i]; cbn; try discriminate; [now intros [= ->]|]. intros H. f_equal. now apply IH.
Qed.
Lemma NoDup_app_left {A} (l l' : list A) : NoDup (l ++ l') -> NoDup l.
Proof. induction l as [|x l IH]; cbn; intros H; [constructor|]. apply NoDup_cons_iff in H as [H1 H2]. constructor; auto. intros X. apply H1, in_app_iff. now left. Qed.
Lemma nth_error_firstn' {A} (l : list A) n k : k < n -> nth_error (firstn n l) k = nth_error l k.
Proof. revert n k. induction l as [|x l IH]; intros [|n] [|k] H; cbn; auto; try lia. apply IH. lia. Qed.
Lemma all_rels_In dc targets ds ops fds : NoDup (dkeys ds) -> plan_build cf dc targets [] ds = Ok (ops, fds) ->
  forall a b w, In (a, b, w) (ops_rels ops) <-> exclusion cf fds a b w \/ association cf fds a b w.
Proof.
  intros ND H a b w. pose proof (plan_crosses _ _ _ _ _ _ H) as Cr.
  destruct (plan_build_spec cf _ _ _ _ _ _ H) as (rest & E & Dd & Df & Er & _). cbn in E. subst rest.
  rewrite Er, rels_of_In. cbn [app].
  assert (Cross : forall pre d post, fds = pre ++ d :: post ->
    (In (a, b, w) (cross_of cf pre d) <-> exists B, In B pre /\ (c_featrel cf = true \/ fd_target d <> fd_target B) /\
       exists i j x y ra rb, nth_error (fd_names d) i = Some x /\ nth_error (fd_rows d) i = Some ra /\
     nth_error (fd_names B) j = Some y /\ nth_error (fd_rows B) j = Some rb /\
     ((a = x /\ b = y /\ link cf (fd_target d) (fd_target B) ra rb w) \/ (a = y /\ b = x /\ link cf (fd_target B) (fd_target d) rb ra w)))).
  { intros pre d post E. destruct (Cr fds pre d post eq_refl E) as [l Hl]. cbn [app] in Hl. unfold cross_of. rewrite Hl. cbn [okl].
    assert (P : Permutation (others cf pre (fd_feat d)) pre).
    { rewrite <- Df, E, map_app in ND. cbn in ND. apply others_perm; auto.
      - apply NoDup_remove_1 in ND. eapply NoDup_app_left; eauto.
      - apply NoDup_remove_2 in ND. intros X. apply ND. apply in_app_iff. now left. }
    unfold plan_cross in Hl. rewrite (rflat_In _ _ _ _ Hl). split.
    - intros (B & l1 & HB & H1 & Hin). exists B. split; [eapply Permutation_in; eauto|].
      destruct (related cf d B) eqn:R; [|injection H1 as <-; destruct Hin]. apply related_spec in R. split; auto.
      now apply (plan_two_In _ _ _ _ _ _ H1).
    - intros (B & HB & R & X). apply related_spec in R. assert (HB' : In B (others cf pre (fd_feat d))) by (eapply Permutation_in; [apply Permutation_sym|]; eauto).
      destruct (proj1 (rflat_ok_iff _ _) (ex_intro _ _ Hl) _ HB') as [l1 H1]. rewrite R in H1.
      exists B, l1. rewrite R. split; auto. split; auto. now apply (plan_two_In _ _ _ _ _ _ H1). }
  split.
  - intros (pre & d & post & E & [X|X]).
    + left. apply plan_inner_In in X as (X1 & X2 & i & j & X3 & X4 & X5). split; auto. split; auto.
      exists d, i, j. split; auto. rewrite E. apply in_app_iff. right. now left.
    + right. apply (Cross _ _ _ E) in X as (B & HB & R & i & j & x & y & ra & rb & Hx & Hra & Hy & Hrb & L).
      apply In_nth_error in HB as [k Hk].
      assert (Kl : k < length pre) by (apply nth_error_Some; congruence).
      assert (NB : nth_error fds k = Some B) by (rewrite E, nth_error_app1; auto).
      assert (Nd : nth_error fds (length pre) = Some d) by (rewrite E, nth_error_app2, Nat.sub_diag; auto).
      destruct L as [(-> & -> & L)|(-> & -> & L)].
      * exists (length pre), k, d, B, i, j, ra, rb. split; [lia|]. auto 10.
      * exists k, (length pre), B, d, j, i, rb, ra. split; [lia|]. intuition.
  - intros [(X1 & X2 & d & i & j & Hd & X3 & X4 & X5)|(k & l & A & B & i & j & ra & rb & Hkl & HA & HB & R & Ha & Hra & Hb & Hrb & L)].
    + apply in_split in Hd as (pre & post & E). exists pre, d, post. split; auto. left. apply plan_inner_In. eauto 10.
    + destruct (Nat.lt_trichotomy k l) as [K|[K|K]]; [|lia|].
      * exists (firstn l fds), B, (skipn (S l) fds). assert (E := split_nth _ _ _ HB). split; auto. right.
        apply (Cross _ _ _ E). exists A. split.
        { apply nth_error_In with k. rewrite nth_error_firstn' by lia. exact HA. }
        split; [intuition|]. exists j, i, b, a, rb, ra. intuition.
      * exists (firstn k fds), A, (skipn (S k) fds). assert (E := split_nth _ _ _ HA). split; auto. right.
        apply (Cross _ _ _ E). exists B. split.
        { apply nth_error_In with l. rewrite nth_error_firstn' by lia. exact HB. }
        split; [intuition|]. exists i, j, a, b, ra, rb. intuition.
Qed.
End AssocFacts4.
