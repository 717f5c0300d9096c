(** FcmVec5.v — vectorized runs: trajectory, termination, agreement with the iterative engine. *)
From Coq Require Import Reals Lra.
From Verif Require Import Base BaseFacts Num Functions Spec Fcm FcmSpec RealFacts FcmBasics FcmInv FcmInv2 FcmInv3 FcmIter FcmRun FcmRun2 FcmRun3 VecSpec FcmVec FcmVec2 FcmVec3 FcmVec4.
Local Close Scope R_scope.

Section VecRun2.
Context {F : Type} {N : Num F}.
Implicit Types s : fcm F.

Lemma vec_input_static (t t' : dict (node F)) arcs x c n n' : dmap (fun _ => nd_static) t' = dmap (fun _ => nd_static) t ->
  nd_static n' = nd_static n -> vec_input t' arcs x c n' = vec_input t arcs x c n.
Proof.
  intros E En. unfold vec_input.
  assert (G : forall u : dict (node F), map (fun p => nmul (signal (snd p) (x (fst p))) (last_weight arcs (fst p) c)) u =
    map (fun p => nmul (signal (snd p) (x (fst p))) (last_weight arcs (fst p) c)) (dmap (fun _ => nd_static) u)).
  { intros u. unfold dmap. rewrite map_map. reflexivity. }
  rewrite (G t'), (G t), E.
  change (signal n' (x c)) with (signal (nd_static n') (x c)). change (nd_mem n') with (nd_mem (nd_static n')). rewrite En. reflexivity.
Qed.
Lemma vec_next_static (t t' : dict (node F)) arcs x c n n' y : dmap (fun _ => nd_static) t' = dmap (fun _ => nd_static) t ->
  nd_static n' = nd_static n -> vec_next t' arcs x c n' y -> vec_next t arcs x c n y.
Proof.
  intros E En (f & id & a & z & H1 & H2 & H3 & H4 & H5). exists f, id, a, z.
  rewrite (vec_input_static t t' arcs x c n n' E En) in H4.
  change (nd_func n') with (nd_func (nd_static n')) in H1. change (nd_args n') with (nd_args (nd_static n')) in H3.
  change (nd_sum n') with (nd_sum (nd_static n')) in H4. rewrite En in H1, H3, H4. auto.
Qed.
Lemma vec_orbit_static s s' x L arcs : statics s' = statics s -> vec_orbit (m_topo s') arcs x L -> vec_orbit (m_topo s) arcs x L.
Proof.
  intros E H t0 c n Ht Hn. destruct (statics_dget _ _ _ _ E Hn) as (n' & Hn' & En').
  eapply vec_next_static; [exact E|exact En'|]. now apply H.
Qed.

Lemma run_vectorized r s s' : sane s -> m_debug s = false -> concepts s <> [] -> (1 <= m_maxit s)%Z ->
  run_inference r s = (s', Ok tt) -> exists L x col, vec_run r s s' L x col.
Proof.
  intros Hs D Hc Hm E. pose proof (from_fresh_reachable _ _ Hs) as Hr.
  pose proof (sane_base s Hs) as B. pose proof (reachable_extra s Hr) as He. pose proof (reachable_vect s Hr) as Vo.
  pose proof (reachable_fresh s Hr) as Fd.
  unfold run_inference in E.
  destruct (if r then reset_execution s else (s, Ok tt)) as [s1 [u|e]] eqn:E1; [|discriminate]. destruct u.
  assert (Fr : frame s s1).
  { destruct r; [|injection E1 as <-; apply frame_refl]. pose proof (reset_frame s) as H. rewrite E1 in H. exact H. }
  pose proof Fr as (S1 & A1 & Se1 & P1 & C1 & O1).
  destruct (settings_max _ _ Se1) as (M1 & M2 & M3 & M4 & M5 & M6).
  assert (D1 : m_debug s1 = false) by congruence.
  rewrite D1 in E. destruct (vectorized_inference s1) as [s2 [u|e]] eqn:E2; [|discriminate]. destruct u.
  pose proof (statics_keys _ _ S1) as K1.
  assert (Start : forall c, In c (concepts s) -> (if r then initial s c else value s c) = Some (vals (m_topo s1) c)).
  { intros c Hi. unfold concepts in Hi. assert (Hi' := Hi). destruct B as (ND & _ & K & _). rewrite <- K in Hi'. apply dget_Some_In in Hi' as [h Hh]. apply dget_Some_In in Hi as [n Hn].
    destruct r.
    - destruct (reset_ok_hist s s1 E1 (sane_base s Hs)) as [Hne ->]. cbn [m_topo set_exec set_topo].
      unfold initial, history, vals. rewrite !dget_dmap, Hh, Hn.
      destruct h as [|v h]; [now apply Hne in Hh|]. unfold reset_node. rewrite Hh. reflexivity.
    - injection E1 as <-. unfold value, get_concept_value, vals. rewrite Hn. reflexivity. }
  assert (B1 : base s1).
  { destruct r; [|injection E1 as <-; exact B]. apply (reset_runnable s s1) in E1; auto.
    exact (conj (rn_nodup _ E1) (conj (rn_full _ E1) (conj (rn_keys _ E1) (rn_arcs _ E1)))). }
  assert (T1 : m_topo s1 <> []). { intros G. apply Hc. unfold concepts. rewrite <- K1, G. reflexivity. }
  destruct (vectorized_current s1 (fresh_frame _ _ Fr Fd) T1) as [V1 V2].
  destruct (vectorized_inference (set_prepared false s1)) as [s2' r2] eqn:E2'. rewrite E2 in V1, V2. cbn [fst snd] in V1, V2.
  assert (r2 = Ok tt) as -> by (destruct V2 as [(e & e' & Q & _)|Q]; congruence).
  destruct (vec_engine_ok (set_prepared false s1) s2') as (L & x & VE); auto.
  { apply (all_ev vect_ok s); auto using vect_ok_inv. }
  { cbn. lia. }
  { cbn. lia. }
  destruct VE as [X1 X2 X3 X4 X5 X6 X7].
  unfold concepts in *. cbn [m_topo m_arcs m_maxit m_oob m_extra m_sdiff set_prepared] in *.
  rewrite M1 in X3, X4, X5, X6. rewrite M2, M4 in X6, X7. rewrite K1 in X4, X6, X7.
  destruct X4 as (col & X4 & X4').
  assert (Vt : m_topo s2 = m_topo s2' /\ m_exec s2 = m_exec s2' /\ m_oob s2 = m_oob s2') by (unfold visible in V1; injection V1; auto).
  destruct Vt as (Vt & Ve & Vo').
  assert (T2 : m_topo s2 = m_topo s1). { pose proof (vectorized_topo s1) as Q. rewrite E2 in Q. exact Q. }
  assert (ND2 : NoDup (dkeys (m_topo s2))) by (rewrite T2; apply B1).
  destruct (finalize_all _ _ _ ND2 (fun c H => H) E) as (F1 & F2 & F3 & F4 & F5).
  exists L, x, col. constructor.
  - intros c Hi. rewrite (Start c Hi). f_equal. unfold concepts in Hi. rewrite <- K1 in Hi. apply dget_Some_In in Hi as [n Hn].
    rewrite (X1 c n Hn). unfold vals. now rewrite Hn.
  - rewrite <- A1. apply (vec_orbit_static s s1); auto.
  - exact X3.
  - exact X4.
  - intros c Hi. unfold history. rewrite F1, Ve. now apply X4'.
  - destruct F3 as (_ & _ & _ & _ & _ & O3). rewrite O3, Vo', X5, O1. reflexivity.
  - exact X6.
  - exact X7.
  - intros c h Hi Hh. unfold history in Hh. rewrite F1 in Hh.
    destruct (F4 c h) as (d & v & Y1 & Y2 & Y3); [rewrite T2; now rewrite K1|exact Hh|].
    exists d, v. assert (Se2 : m_decision s2 = m_decision s /\ m_extra s2 = m_extra s).
    { assert (settings s2 = settings s1).
      { transitivity (settings s2'); [unfold visible in V1; apply (f_equal (fun p => snd (fst (fst p)))) in V1; exact V1|].
        clear -E2'. unfold vectorized_inference in E2'.
        repeat match type of E2' with
          | context [match prepare ?s with _ => _ end] => destruct (prepare s)
          | context [if m_prepared ?s then _ else _] => destruct (m_prepared s)
          | context [match m_cache ?s with _ => _ end] => destruct (m_cache s)
          | context [match vc_functions ?s with _ => _ end] => destruct (vc_functions s)
          | context [match vectorized_run ?a ?b ?c ?d ?e ?f ?g ?h ?i ?j with _ => _ end] => destruct (vectorized_run a b c d e f g h i j) as [[[? ?] ?]|]
          | context [if Nat.eqb ?a 0 then _ else _] => destruct (Nat.eqb a 0)
          end; injection E2' as <-; reflexivity. }
      destruct (settings_max _ _ H) as (_ & Q1 & _ & _ & Q2 & _). rewrite Q1, Q2. auto. }
    destruct Se2 as [<- <-]. auto.
Qed.

(** ** termination *)
Lemma nofuel_exec id v (a : list F) : nofuel (exec_actv_function id v a).
Proof.
  unfold exec_actv_function, relm.
  repeat (first [apply nofuel_fuzzy | apply nofuel_pdiv | apply nofuel_bind; [|intros ?] | discriminate
      | match goal with |- nofuel (match ?x with _ => _ end) => destruct x end]).
Qed.
Lemma nofuel_rmap {A B} (f : A -> res B) l : (forall a, nofuel (f a)) -> nofuel (rmap f l).
Proof.
  intros H. induction l as [|a l IH]; cbn [rmap]; [discriminate|].
  apply nofuel_bind; [apply H|intros b]. apply nofuel_bind; [exact IH|discriminate].
Qed.
Lemma vec_loop_fuel functions func_args reduce mem avoid mat n m min_diff extra fuel :
  forall state buf oob it ec step, (Z.to_nat it <= fuel) -> 1 <= fuel ->
  nofuel (vec_loop fuel functions func_args reduce mem avoid mat n m min_diff extra state buf oob it ec step) /\
  forall fuel', fuel <= fuel' ->
    vec_loop fuel' functions func_args reduce mem avoid mat n m min_diff extra state buf oob it ec step =
    vec_loop fuel functions func_args reduce mem avoid mat n m min_diff extra state buf oob it ec step.
Proof.
  induction fuel as [|fuel IH]; intros state buf oob it ec step Hit Hf; [lia|]. 
  assert (NB : nofuel (rmap (vec_node functions func_args reduce mem avoid state mat) (seq 0 n))).
  { apply nofuel_rmap. intros i. unfold vec_node. apply nofuel_bind; [apply nofuel_exec|discriminate]. }
  split.
  - cbn [vec_loop]. apply nofuel_bind; [exact NB|intros ys].
    destruct (fold_left _ (combine (seq 0 n) ys) (buf, oob)) as [buf1 oob1].
    match goal with |- nofuel (if ?b then _ else _) => destruct b eqn:Eb; [|discriminate] end.
    apply IH.
    + destruct (Z.leb_spec (it - 1) 0) as [H|H]; [|lia]. cbn [negb] in Eb.
      match type of Eb with (if ?b then _ else _) = _ => destruct b end; discriminate.
    + destruct (Z.leb_spec (it - 1) 0) as [H|H]; [|lia]. cbn [negb] in Eb.
      match type of Eb with (if ?b then _ else _) = _ => destruct b end; discriminate.
  - intros [|fuel'] Hf'; [lia|]. cbn [vec_loop].
    destruct (rmap _ (seq 0 n)) as [ys|e]; cbn [rbind]; [|reflexivity].
    destruct (fold_left _ (combine (seq 0 n) ys) (buf, oob)) as [buf1 oob1].
    match goal with |- (if ?b then _ else _) = _ => destruct b eqn:Eb; [|reflexivity] end.
    destruct (Z.leb_spec (it - 1) 0) as [H|H].
    { cbn [negb] in Eb. match type of Eb with (if ?b then _ else _) = _ => destruct b end; discriminate. }
    apply IH; lia.
Qed.
Lemma vectorized_run_nofuel state mat functions func_args reduce mem avoid mx min_diff extra :
  vectorized_run state mat functions func_args reduce mem avoid mx min_diff extra <> Err EFuel.
Proof.
  unfold vectorized_run. destruct (mx <? 0)%Z; [discriminate|]. cbv zeta.
  destruct (fold_left _ _ _) as [buf oob]. apply vec_loop_fuel; lia.
Qed.
Lemma vectorized_inference_nofuel s : snd (vectorized_inference s) <> Err EFuel.
Proof.
  unfold vectorized_inference.
  match goal with |- snd (match ?x with _ => _ end) <> _ => assert (P : snd x <> Err EFuel); [|destruct x as [s1 [c|e]]; cbn [snd] in *; [|congruence]] end.
  { destruct (m_prepared s); [destruct (m_cache s); discriminate|].
    assert (P : nofuel (prepare s)).
    { unfold prepare. apply nofuel_bind; [apply nofuel_rmap; intros nd; unfold prep_node; repeat (apply nofuel_bind; [|intros ?])|].
      - apply nofuel_oget.
      - destruct (get_const_by_name _); discriminate.
      - apply nofuel_oget.
      - apply nofuel_oget.
      - apply nofuel_oget.
      - discriminate.
      - intros ps. apply nofuel_bind; [|discriminate].
        generalize (repeat (repeat (n0 : F) (length (dkeys (m_topo s)))) (length (dkeys (m_topo s)))). generalize (dkeys (m_topo s)).
        intros cs. induction (m_arcs s) as [|[[d w] o] l IH]; intros mat; cbn [rfold]; [discriminate|].
        apply nofuel_bind; [|apply IH]. cbn [matrix_add].
        destruct (index_of o cs); [destruct (index_of d cs)|]; discriminate. }
    destruct (prepare s) as [c|e]; cbn [snd]; [discriminate|]. intros H. apply P. congruence. }
  destruct (vc_functions c); [discriminate|].
  match goal with |- context [vectorized_run ?a ?b ?c ?d ?e ?f ?g ?h ?i ?j] =>
    pose proof (vectorized_run_nofuel a b c d e f g h i j) as V; destruct (vectorized_run a b c d e f g h i j) as [[[buf oob] k]|e'] end.
  - destruct (Nat.eqb _ 0); discriminate.
  - cbn [snd]. congruence.
Qed.

(** ** the trajectory is determined by its start *)
Lemma vec_orbit_unique (t : dict (node F)) arcs x x' L L' : NoDup (dkeys t) -> vec_orbit t arcs x L -> vec_orbit t arcs x' L' ->
  (forall c, In c (dkeys t) -> x 0 c = x' 0 c) ->
  forall k c, k <= L -> k <= L' -> In c (dkeys t) -> x k c = x' k c.
Proof.
  intros ND O1 O2 E0. induction k as [|k IH]; intros c H1 H2 Hc; [now apply E0|].
  pose proof Hc as Hc'. apply dget_Some_In in Hc' as [n Hn].
  destruct (O1 k c n ltac:(lia) Hn) as (f & id & a & z & A1 & A2 & A3 & A4 & A5).
  destruct (O2 k c n ltac:(lia) Hn) as (f' & id' & a' & z' & B1 & B2 & B3 & B4 & B5).
  assert (f' = f) by congruence. subst f'. assert (id' = id) by congruence. subst id'. assert (a' = a) by congruence. subst a'.
  assert (V : vec_input t arcs (x k) c n = vec_input t arcs (x' k) c n).
  { unfold vec_input. rewrite (IH c) by (auto; lia).
    replace (map (fun p => nmul (signal (snd p) (x k (fst p))) (last_weight arcs (fst p) c)) t)
       with (map (fun p => nmul (signal (snd p) (x' k (fst p))) (last_weight arcs (fst p) c)) t); [reflexivity|].
    apply map_ext_in. intros [o no] Ho. cbn [fst snd]. rewrite (IH o); auto; try lia. apply (in_map fst) in Ho. exact Ho. }
  rewrite V in A4. cbv zeta in A4, B4. rewrite <- B4 in A4. congruence.
Qed.
End VecRun2.

(** ** agreement of the two engines, exact arithmetic *)
Section Agree.
Local Open Scope R_scope.
Lemma Rsum_cons1 a (l : list R) : Rsum (a :: l) = a + Rsum l.
Proof. reflexivity. Qed.
Lemma Rsum_nil : Rsum [] = 0.
Proof. reflexivity. Qed.
Lemma Rsum_bump {A} (f : A -> R) (key : A -> string) o k (l : list A) : NoDup (map key l) -> In o (map key l) ->
  Rsum (map (fun p => if String.eqb (key p) o then f p + k else f p) l) = Rsum (map f l) + k.
Proof.
  induction l as [|a l IH]; [intros _ []|]. intros ND Hin. cbn [map]; rewrite ?Rsum_cons1, ?Rsum_nil. cbn [map] in ND. inversion ND as [|? ? Hni ND']; subst.
  destruct (String.eqb_spec (key a) o) as [E|E].
  - assert (map (fun p => if String.eqb (key p) o then f p + k else f p) l = map f l) as ->.
    { apply map_ext_in. intros b Hb. destruct (String.eqb_spec (key b) o) as [E'|]; [|reflexivity]. exfalso. apply Hni. rewrite E, <- E'. now apply in_map. }
    lra.
  - destruct Hin as [Hin|Hin]; [congruence|]. rewrite IH by auto. lra.
Qed.
Lemma last_weight_snoc (arcs : list (string * R * string)) d w o o' c :
  last_weight (arcs ++ [(d, w, o)]) o' c = if (String.eqb o o' && String.eqb d c)%bool then w else last_weight arcs o' c.
Proof. unfold last_weight. rewrite fold_left_app. reflexivity. Qed.
Lemma last_weight_none (arcs : list (string * R * string)) o c :
  ~ In (o, c) (map (fun a => let '(d, _, o) := a in (o, d)) arcs) -> last_weight arcs o c = 0.
Proof.
  induction arcs as [|[[d w] o'] arcs IH] using rev_ind; intros H; [reflexivity|].
  rewrite last_weight_snoc. rewrite map_app in H.
  destruct (String.eqb_spec o' o) as [->|]; cbn [andb]; [destruct (String.eqb_spec d c) as [->|]|].
  - exfalso. apply H. apply in_or_app. right. now left.
  - apply IH. intros Q. apply H. apply in_or_app. now left.
  - apply IH. intros Q. apply H. apply in_or_app. now left.
Qed.
Lemma incoming_app (t : dict (node R)) arcs arcs' x c : incoming t (arcs ++ arcs') x c = incoming t arcs x c ++ incoming t arcs' x c.
Proof.
  induction arcs as [|[[d w] o] arcs IH]; cbn [app incoming]; [reflexivity|].
  destruct (dget t o) as [n|]; [|exact IH]. destruct (_ && _)%bool; [cbn; now rewrite IH|exact IH].
Qed.
Lemma inputs_agree (t : dict (node R)) arcs x c : NoDup (dkeys t) ->
  (forall d w o, In (d, w, o) arcs -> In o (dkeys t)) ->
  (forall o n, dget t o = Some n -> nd_active n = Some true) ->
  NoDup (map (fun a => let '(d, _, o) := a in (o, d)) arcs) ->
  Rsum (incoming t arcs x c) = Rsum (map (fun p => signal (snd p) (x (fst p)) * last_weight arcs (fst p) c) t).
Proof.
  intros ND. induction arcs as [|[[d w] o] arcs IH] using rev_ind; intros HA HAct HP.
  - cbn [incoming]. symmetry. clear. induction t as [|p t IH]; cbn [map]; rewrite ?Rsum_cons1, ?Rsum_nil; [reflexivity|]. rewrite IH. cbn. rnum. lra.
  - rewrite map_app in HP. cbn [map] in HP.
    assert (HP1 : NoDup (map (fun a : string * R * string => let '(d, _, o) := a in (o, d)) arcs) /\ ~ In (o, d) (map (fun a : string * R * string => let '(d, _, o) := a in (o, d)) arcs)).
    { apply NoDup_remove in HP. rewrite app_nil_r in HP. exact HP. }
    destruct HP1 as [HP1 HP2].
    assert (HA1 : forall d w o, In (d, w, o) arcs -> In o (dkeys t)) by (intros d' w' o' H; apply (HA d' w' o'); apply in_or_app; now left).
    specialize (IH HA1 HAct HP1). rewrite incoming_app, Rsum_app, IH. cbn [incoming].
    assert (Ho : In o (dkeys t)) by (apply (HA d w o); apply in_or_app; right; now left).
    pose proof Ho as Ho'. apply dget_Some_In in Ho' as [no Hno]. rewrite Hno, (HAct o no Hno), Bool.andb_true_r.
    destruct (String.eqb_spec d c) as [->|Hd].
    + rewrite ?Rsum_cons1, ?Rsum_nil.
      assert (E : map (fun p : string * node R => if String.eqb (fst p) o then signal (snd p) (x (fst p)) * last_weight arcs (fst p) c + signal no (x o) * w else signal (snd p) (x (fst p)) * last_weight arcs (fst p) c) t
         = map (fun p => signal (snd p) (x (fst p)) * last_weight (arcs ++ [(c, w, o)]) (fst p) c) t).
      { apply map_ext_in. intros [o' n'] Hin. cbn [fst snd]. rewrite last_weight_snoc, String.eqb_refl, Bool.andb_true_r.
        rewrite (String.eqb_sym o o'). destruct (String.eqb_spec o' o) as [->|]; [|reflexivity].
        rewrite last_weight_none by assumption. apply In_dget in Hin; auto. assert (n' = no) as -> by congruence. lra. }
      rewrite <- E. rewrite (Rsum_bump (fun p => signal (snd p) (x (fst p)) * last_weight arcs (fst p) c) fst o) by assumption. rnum. lra.
    + rewrite ?Rsum_cons1, ?Rsum_nil. rewrite Rplus_0_r. apply (f_equal Rsum). apply map_ext. intros [o' n']. cbn [fst snd]. rewrite last_weight_snoc.
      destruct (String.eqb_spec d c); [contradiction|]. rewrite Bool.andb_false_r. reflexivity.
Qed.
End Agree.

Section Agree2.
Implicit Types s : fcm R.
Lemma Some_inj' {A} (a b : A) : Some a = Some b -> a = b.
Proof. congruence. Qed.
Lemma fold_left_nadd_R (l : list R) : fold_left nadd l n0 = Rsum l.
Proof. change (nsum l = Rsum l). apply nsum_Rsum. Qed.
Lemma next_vec s x c n y : base s -> regular s -> dget (m_topo s) c = Some n ->
  next_value (m_topo s) (m_arcs s) x c n y -> vec_next (m_topo s) (m_arcs s) x c n y.
Proof.
  intros (ND & Fu & K & A) [R1 R2] Hn (f & fn & a & z & H1 & H2 & H3 & H4 & H5).
  destruct (proj1 (names_agree f)) as [id Hid]; [eauto|].
  destruct (R1 c n Hn) as (_ & Ra & Rf). destruct (Ra a H3) as [Ra1 Ra2].
  exists f, id, a, z. split; [exact H1|]. split; [exact Hid|]. split; [exact H3|]. split.
  - assert (V : vec_input (m_topo s) (m_arcs s) x c n = total_input (m_topo s) (m_arcs s) x c n).
    { unfold vec_input, total_input.
      assert (E : nsum (map (fun p => nmul (signal (snd p) (x (fst p))) (last_weight (m_arcs s) (fst p) c)) (m_topo s)) = fold_left nadd (incoming (m_topo s) (m_arcs s) x c) n0).
      { rewrite fold_left_nadd_R, nsum_Rsum. symmetry. apply inputs_agree; auto.
        - intros d w o H. now apply (A d w o).
        - intros o no Ho. now apply (R1 o no).
        - unfold relations in R2. rewrite map_map in R2. erewrite map_ext; [exact R2|]. intros [[d w] o]. reflexivity. }
      rewrite E. reflexivity. }
    cbv zeta. rewrite V. destruct (String.eqb_spec f "fuzzy") as [->|Hnf].
    + rewrite (Rf H1). apply H4.
    + assert (Z0 : nltb (n0 : R) n0 = false) by (rnum; rcase; [lra|reflexivity]). rewrite Z0. exact H4.
  - eapply dispatch_agree; eauto.
Qed.
Lemma orbit_vec s x L : base s -> regular s -> orbit (m_topo s) (m_arcs s) x L -> vec_orbit (m_topo s) (m_arcs s) x L.
Proof. intros B Rg O t0 c n Ht Hn. apply next_vec; auto. Qed.
Lemma sane_debug b s : sane s -> sane (fst (step (OpAttrDebug b) s)).
Proof. intros H. apply from_fresh_snoc; auto. Qed.
Lemma recorded_cut s m L (x : nat -> string -> R) c c0 col k : 
  cut m (recorded (concepts s) m L x c0) col -> k < col -> 1 <= k -> recorded (concepts s) m L x c k = x k c /\ k <= L.
Proof.
  intros (C1 & C2 & C3) Hk H1. specialize (C2 k Hk). unfold recorded in *.
  destruct (Nat.eqb_spec k 0); [lia|]. cbn [andb] in *. destruct (Nat.leb_spec k L); [auto|].
  exfalso. revert C2. rnum. rcase; [discriminate|congruence].
Qed.
Lemma engines_agree s s1 s2 : sane s -> regular s -> concepts s <> [] -> (1 <= m_maxit s)%Z ->
  run_inference true (fst (step (OpAttrDebug true) s)) = (s1, Ok tt) ->
  run_inference true (fst (step (OpAttrDebug false) s)) = (s2, Ok tt) ->
  forall c h1 h2 k a b, In c (concepts s) -> history s1 c = Some h1 -> history s2 c = Some h2 ->
    nth_error h1 k = Some a -> nth_error h2 k = Some b -> (k = 0 -> m_oob s2 = false) -> a = b.
Proof.
  intros Hs Rg Hc Hm E1 E2 c h1 h2 k a b Hi H1 H2 Ha Hb Hk.
  destruct (run_recurrence true _ s1 (sane_debug true s Hs) eq_refl ltac:(discriminate) E1) as (L1 & x1 & O1 & _ & _ & _ & _ & I1).
  destruct (run_vectorized true _ s2 (sane_debug false s Hs) eq_refl Hc Hm E2) as (L2 & x2 & col & V).
  destruct (I1 c Hi) as (I2 & h & I3 & I4).
  pose proof (vru_hist _ _ _ _ _ _ V c Hi) as V4. pose proof (vru_start _ _ _ _ _ _ V) as V1.
  assert (h1 = firstn 1 h ++ map (fun t => x1 (S t) c) (seq 0 L1)) as -> by (cbn beta iota in I4; rewrite I4 in H1; now injection H1).
  assert (h2 = map (recorded (concepts s) (Z.to_nat (m_maxit s)) L2 x2 c) (seq 0 col)) as ->.
  { rewrite V4 in H2. symmetry. exact (Some_inj' _ _ H2). }
  assert (Hh : firstn 1 h = [x1 0 c]).
  { unfold initial in I2. rewrite I3 in I2. destruct h as [|v h]; [discriminate|]. apply (f_equal (fun o => match o with Some v => v | None => x1 0 c end)) in I2. cbn [firstn]. now rewrite I2. }
  rewrite Hh in Ha.
  assert (Ea : k <= L1 /\ a = x1 k c).
  { destruct k as [|k]; cbn in Ha; [split; [lia|congruence]|].
    assert (k < L1). { assert (k < length (map (fun t => x1 (S t) c) (seq 0 L1))) by (apply nth_error_Some; congruence). now rewrite map_length, seq_length in *. }
    split; [lia|]. rewrite nth_error_map in Ha. rewrite (nth_error_nth' _ 0) in Ha by (rewrite seq_length; lia). rewrite seq_nth in Ha by lia. cbn in Ha. congruence. }
  destruct Ea as [Ek ->].
  assert (Hkc : k < col). { assert (k < length (map (recorded (concepts s) (Z.to_nat (m_maxit s)) L2 x2 c) (seq 0 col))) by (apply nth_error_Some; congruence). now rewrite map_length, seq_length in *. }
  rewrite nth_error_map in Hb. rewrite (nth_error_nth' _ 0) in Hb by (rewrite seq_length; lia). rewrite seq_nth in Hb by lia. cbn [option_map Nat.add] in Hb.
  assert (Eb : k <= L2 /\ b = x2 k c).
  { destruct k as [|k].
    - split; [lia|]. specialize (Hk eq_refl). rewrite (vru_oob _ _ _ _ _ _ V) in Hk. apply Bool.orb_false_iff in Hk as [_ Hk].
      change (m_maxit (fst (step (OpAttrDebug false) s))) with (m_maxit s) in Hk.
      unfold recorded in Hb. cbn [Nat.eqb andb] in Hb. rewrite Hk in Hb. cbn [Nat.leb] in Hb. congruence.
    - destruct (concepts s) as [|c0 cs] eqn:Ec; [congruence|].
      pose proof (vru_cut _ _ _ _ _ _ V c0) as Cu. unfold concepts in Cu, Ec. cbn [step fst m_topo] in Cu.
      specialize (Cu ltac:(change (hd_error (dkeys (m_topo s)) = Some c0); now rewrite Ec)).
      destruct (recorded_cut s (Z.to_nat (m_maxit s)) L2 x2 c c0 col (S k) Cu Hkc ltac:(lia)) as [Q1 Q2].
      split; [exact Q2|]. unfold concepts in Q1. rewrite Ec in Q1. congruence. }
  destruct Eb as [Ek2 ->].
  apply (vec_orbit_unique (m_topo s) (m_arcs s) x1 x2 L1 L2); auto.
  - apply (sane_base s Hs).
  - apply orbit_vec; auto. now apply sane_base.
  - exact (vru_orbit _ _ _ _ _ _ V).
  - intros c' Hc'. destruct (I1 c' Hc') as [J1 _]. pose proof (V1 c' Hc') as J2. change (initial s c' = Some (x1 0 c')) in J1. change (initial s c' = Some (x2 0 c')) in J2. rewrite J1 in J2. exact (Some_inj' _ _ J2).
Qed.
Lemma recorded_first s m L (x : nat -> string -> R) c0 k : NoDup (concepts s) -> hd_error (concepts s) = Some c0 ->
  recorded (concepts s) m L x c0 k = if Nat.leb k L then x k c0 else 2%R.
Proof.
  intros ND H0. unfold recorded. rewrite (before_nth (concepts s) 0 c0 ND) by (destruct (concepts s); exact H0).
  destruct (Nat.eqb_spec k 0) as [->|]; cbn [andb]; [|reflexivity]. destruct (Nat.leb m L); reflexivity.
Qed.
Lemma history_length s L (x : nat -> string -> R) m c0 col : NoDup (concepts s) -> hd_error (concepts s) = Some c0 -> (forall k, k <= L -> x k c0 <> 2%R) ->
  cut m (recorded (concepts s) m L x c0) col -> col = Nat.min (S L) (m - 1).
Proof.
  intros ND H0 Hx (C1 & C2 & C3).
  assert (E : forall k, neqb (recorded (concepts s) m L x c0 k) n2 = negb (Nat.leb k L)).
  { intros k. rewrite recorded_first by auto. destruct (Nat.leb_spec k L) as [H|H]; cbn [negb].
    - specialize (Hx k H). rnum. rcase; [contradiction|reflexivity].
    - rnum. rcase; [reflexivity|congruence]. }
  destruct (Nat.lt_ge_cases col (m - 1)) as [Hlt|Hge].
  - specialize (C3 Hlt). rewrite E in C3. destruct (Nat.leb_spec col L) as [|H]; [discriminate|].
    destruct (Nat.le_gt_cases col (S L)); [lia|]. exfalso. specialize (C2 (S L) ltac:(lia)). rewrite E in C2.
    destruct (Nat.leb_spec (S L) L); [lia|discriminate].
  - destruct (Nat.le_gt_cases col (S L)); [lia|]. exfalso. specialize (C2 (S L) ltac:(lia)). rewrite E in C2.
    destruct (Nat.leb_spec (S L) L); [lia|discriminate].
Qed.
End Agree2.

(** ** the stop flag is ignored *)
Section StopFlag.
Context {F : Type} {N : Num F}.
Implicit Types s : fcm F.
Definition restab (b : bool) (r : fcm F * res unit) := (set_stab b (fst r), snd r).
Lemma mfold_restab {A} (f : A -> fcm F -> fcm F * res unit) b l s :
  (forall a s, f a (set_stab b s) = restab b (f a s)) -> mfold f l (set_stab b s) = restab b (mfold f l s).
Proof.
  intros H. revert s. induction l as [|a l IH]; intros s; cbn [mfold]; [reflexivity|].
  rewrite H. destruct (f a s) as [s1 [u|e]]; cbn; [apply IH|reflexivity].
Qed.
Lemma stop_flag_ignored b r s : m_debug s = false -> run_inference r (set_stab b s) = restab b (run_inference r s).
Proof.
  intros D. unfold run_inference.
  assert (E : (if r then reset_execution (set_stab b s) else (set_stab b s, Ok tt)) = restab b (if r then reset_execution s else (s, Ok tt))).
  { destruct r; [|reflexivity]. unfold reset_execution. change (dkeys (m_topo (set_stab b s))) with (dkeys (m_topo s)).
    apply mfold_restab. intros c s'. unfold reset_one. cbn [m_topo m_exec set_stab]. destruct (dget (m_topo s') c) as [n|]; [|reflexivity].
    cbn [m_exec put_node set_stab set_topo]. destruct (dget (m_exec s') c) as [[|v h]|]; reflexivity. }
  rewrite E. assert (Fr : frame s (fst (if r then reset_execution s else (s, Ok tt)))) by (destruct r; [apply reset_frame|apply frame_refl]).
  destruct (if r then reset_execution s else (s, Ok tt)) as [s1 [u|e]]; cbn [fst snd restab] in *; [|reflexivity].
  assert (D1 : m_debug s1 = false). { destruct Fr as (_ & _ & S & _). apply settings_max in S. rewrite <- D. apply S. }
  change (m_debug (set_stab b s1)) with (m_debug s1). rewrite D1.
  assert (V : vectorized_inference (set_stab b s1) = restab b (vectorized_inference s1)).
  { unfold vectorized_inference. cbn [m_prepared m_cache set_stab]. change (prepare (set_stab b s1)) with (prepare s1).
    destruct (m_prepared s1); [destruct (m_cache s1) as [c|]|destruct (prepare s1) as [c|]]; try reflexivity;
    cbn [m_topo m_maxit m_sdiff m_extra m_exec m_oob set_cache set_stab];
    (destruct (vc_functions c); [reflexivity|]);
    (match goal with |- context [vectorized_run ?a ?b ?c ?d ?e ?f ?g ?h ?i ?j] => destruct (vectorized_run a b c d e f g h i j) as [[[? ?] ?]|] end; [|reflexivity]);
    cbn [m_topo m_maxit m_exec set_oob set_cache set_stab]; destruct (Nat.eqb _ 0); reflexivity. }
  rewrite V. destruct (vectorized_inference s1) as [s2 [u2|e2]]; cbn [fst snd restab]; [|reflexivity].
  change (dkeys (m_topo (set_stab b s2))) with (dkeys (m_topo s2)).
  apply mfold_restab. intros c s'. unfold finalize_one. cbn [m_topo m_exec m_decision m_extra set_stab].
  match goal with |- match ?x with _ => _ end = _ => destruct x end; reflexivity.
Qed.
(** no iterations: the vectorized engine always raises *)
Lemma no_iterations_raises r s : m_debug s = false -> (m_maxit s <= 0)%Z -> snd (run_inference r s) <> Ok tt.
Proof.
  intros D Hm. unfold run_inference.
  assert (Fr : frame s (fst (if r then reset_execution s else (s, Ok tt)))) by (destruct r; [apply reset_frame|apply frame_refl]).
  destruct (if r then reset_execution s else (s, Ok tt)) as [s1 [u|e]]; cbn [fst snd] in *; [|discriminate].
  destruct Fr as (_ & _ & S & _). apply settings_max in S as (M1 & _ & _ & _ & _ & M6).
  assert (D1 : m_debug s1 = false) by congruence. rewrite D1.
  assert (V : snd (vectorized_inference s1) <> Ok tt).
  { unfold vectorized_inference.
    destruct (m_prepared s1); [destruct (m_cache s1) as [c|]|destruct (prepare s1) as [c|]]; try discriminate;
    cbn [m_topo m_maxit m_sdiff m_extra m_exec m_oob set_cache];
    (destruct (vc_functions c); [discriminate|]);
    (match goal with |- context [vectorized_run ?a ?b ?c ?d ?e ?f ?g ?h ?i ?j] => destruct (vectorized_run a b c d e f g h i j) as [[[? ?] ?]|] end; [|discriminate]);
    cbn [m_topo m_maxit m_exec set_oob set_cache]; (destruct (Nat.eqb_spec (Z.to_nat (m_maxit s1)) 0) as [E|E]; [discriminate|exfalso; apply E; lia]). }
  destruct (vectorized_inference s1) as [s2 [u2|e2]]; cbn [fst snd] in *; [destruct u2; congruence|discriminate].
Qed.
End StopFlag.
