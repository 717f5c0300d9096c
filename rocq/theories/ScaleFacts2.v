(** ScaleFacts2.v — fitting and predicting with columns measured in other units,
    over the reals (C107).  The same steps as in ShiftFacts2.v. *)
From Coq Require Import Reals Lra Lia Permutation.
From Verif Require Import Base BaseFacts Num RealFacts Functions FunctionsFacts Spec SortFacts Fcm FcmSpec FcmBasics DynSpec FcmInv FcmInv2 FcmInv3 FcmIter FcmRun FcmRun2 FcmRun3 FcmOrder FcmTotal VecSpec
  LearnUtils LearnSpec LearnFacts Discret DiscretFacts DiscretFacts2 Assoc AssocSpec AssocFacts AssocFacts2 AssocFacts3 AssocFacts4 AssocNames AssocNames2 LoaderFacts Estimator EstFacts EstFacts2 EstFacts3 EstSpec EstFacts4
  AssocGen AssocPredict AssocResult AssocRow EstFacts5 EstFacts6 AssocRange Pipeline PipeFacts PipeFacts2 ShiftFacts ShiftFacts2 FcmRename LoaderSpec ScaleFacts.
Local Open Scope R_scope.

(** ** Membership of a value in another unit *)
Lemma sx_one l : sx 1 l = l.
Proof. unfold sx. erewrite map_ext; [apply map_id|]. intros x. apply Rmult_1_l. Qed.
Section Value.
Variable d : R.
Hypothesis Hd : 0 < d.
Lemma sx_increasing_list l : increasing_list l -> increasing_list (sx d l).
Proof.
  intros H i j x y Hij Hx Hy. rewrite sx_nth in Hx, Hy. destruct (nth_error l i) as [a|] eqn:Ea; [|discriminate]. destruct (nth_error l j) as [c|] eqn:Ec; [|discriminate].
  injection Hx as <-. injection Hy as <-. pose proof (H i j a c Hij Ea Ec). now apply Rmult_lt_compat_l.
Qed.
Lemma knot_sx x memb vals : increasing_list vals -> In x vals -> length memb = length vals ->
  fuzzy_set (d * x) memb (sx d vals) = fuzzy_set x memb vals.
Proof.
  intros Inc Hx Hl. destruct (In_nth_error _ _ Hx) as [j Hj]. destruct (at_knot x memb vals j Inc Hj Hl) as (m & Hm & E).
  destruct (at_knot (d * x) memb (sx d vals) j) as (m' & Hm' & E'); [now apply sx_increasing_list|now rewrite sx_nth, Hj|now rewrite sx_length|]. congruence.
Qed.
Lemma searchsorted_sx vals x : searchsorted (sx d vals) (d * x) = searchsorted vals x.
Proof.
  induction vals as [|v vals IH]; [reflexivity|]. cbn [sx map searchsorted]. change (nltb (d * v) (d * x)) with (Rltb (d * v) (d * x)). rewrite ltb_sx by exact Hd. change (nltb v x) with (Rltb v x).
  destruct (Rltb v x); [|reflexivity]. f_equal. exact IH.
Qed.
Lemma sign_sx z : (if neqb (d * z) n0 then Ok n1 else pdiv (d * z) (nabs (d * z))) = (if neqb z n0 then Ok n1 else pdiv z (nabs z)).
Proof.
  unfold pdiv. rnum. rewrite abs_sx by exact Hd. replace (Reqb (d * z) 0) with (Reqb z 0) by (rewrite <- (eqb_sx d Hd z 0); f_equal; ring).
  replace (Reqb (d * Rabs z) 0) with (Reqb (Rabs z) 0) by (rewrite <- (eqb_sx d Hd (Rabs z) 0); f_equal; ring). destruct (Reqb z 0); [reflexivity|]. destruct (Reqb (Rabs z) 0); [reflexivity|]. f_equal. now apply div_sx.
Qed.
(** a nonnegative value, or one of a feature with numbers outside the range from 0 to 1 in both units *)
Definition wide (vals : list R) : Prop := exists v, In v vals /\ (v < 0 \/ 1 < v /\ 1 < d * v).
Lemma value_sx x memb vals : 0 <= x \/ wide vals -> fuzzy_set (d * x) memb (sx d vals) = fuzzy_set x memb vals.
Proof.
  intros H. unfold fuzzy_set. destruct vals as [|v0 vals]; [reflexivity|]. set (vs := v0 :: vals) in *.
  change (min_list (sx d vs)) with (Ok (pmin (d * v0) (sx d vals))). change (max_list (sx d vs)) with (Ok (pmax (d * v0) (sx d vals))).
  change (min_list vs) with (Ok (pmin v0 vals)). change (max_list vs) with (Ok (pmax v0 vals)). cbn [rbind]. rewrite pmin_sx, pmax_sx by exact Hd. cbv zeta.
  set (neg := nleb n0 (d * pmin v0 vals) && nleb (d * pmin v0 vals) n1 && nleb n0 (d * pmax v0 vals) && nleb (d * pmax v0 vals) n1 && nltb (d * x) n0).
  set (neg' := nleb n0 (pmin v0 vals) && nleb (pmin v0 vals) n1 && nleb n0 (pmax v0 vals) && nleb (pmax v0 vals) n1 && nltb x n0).
  assert (neg = false /\ neg' = false) as [Ng Ng'].
  { destruct H as [H|(v & Hv & H)].
    - assert (N1 : nltb x n0 = false) by (apply Rltb_false; exact H). assert (N2 : nltb (d * x) n0 = false) by (apply Rltb_false; change (0 <= d * x); apply Rmult_le_pos; lra).
      unfold neg, neg'. rewrite N1, N2, !andb_false_r. now split.
    - pose proof (proj2 (pmin_spec vals v0) v Hv) as Mn. pose proof (proj2 (pmax_spec vals v0) v Hv) as Mx. destruct H as [H|[H1 H2]].
      + assert (N1 : nleb n0 (pmin v0 vals) = false) by (apply Rleb_false; change (pmin v0 vals < 0); lra).
        assert (N2 : nleb n0 (d * pmin v0 vals) = false) by (apply Rleb_false; change (d * pmin v0 vals < 0); nra). unfold neg, neg'. now rewrite N1, N2.
      + assert (N1 : nleb (pmax v0 vals) n1 = false) by (apply Rleb_false; change (1 < pmax v0 vals); lra).
        assert (N2 : nleb (d * pmax v0 vals) n1 = false) by (apply Rleb_false; change (1 < d * pmax v0 vals); nra). unfold neg, neg'. now rewrite N1, N2, !andb_false_r. }
  rewrite Ng, Ng'. clear neg neg' Ng Ng'. rewrite searchsorted_sx, sx_length. set (ix := if Nat.eqb _ _ then _ else _). rewrite sx_nbget. destruct (nbget vs ix) as [vi|]; [|reflexivity]. cbn [rbind].
  change (neqb (d * vi) (d * x)) with (Reqb (d * vi) (d * x)). rewrite eqb_sx by exact Hd. change (neqb vi x) with (Reqb vi x). destruct (Reqb vi x); [reflexivity|].
  change (nltb (d * x) (d * vi)) with (Rltb (d * x) (d * vi)). change (nltb (d * vi) (d * x)) with (Rltb (d * vi) (d * x)). rewrite !ltb_sx by exact Hd.
  assert (E : forall p q, nsub (d * p) (d * q) = d * nsub p q) by (intros p q; rnum; ring). rewrite E.
  replace (nltb n0 (d * nsub x vi)) with (nltb n0 (nsub x vi)) by (change (Rltb 0 (x - vi) = Rltb 0 (d * (x - vi))); rewrite <- (ltb_sx d Hd 0 (x - vi)); f_equal; ring).
  change (nltb x vi) with (Rltb x vi). change (nltb vi x) with (Rltb vi x).
  match goal with |- match ?a with _ => _ end = match ?c with _ => _ end => change c with a; destruct a as [r|[p q]] end; [reflexivity|].
  rewrite sign_sx. destruct (if neqb x n0 then _ else _) as [sg|]; [|reflexivity]. cbn [rbind].
  destruct (nbget memb p) as [mp|]; [|reflexivity]. cbn [rbind]. destruct (nbget memb q) as [mq|]; [|reflexivity]. cbn [rbind].
  rewrite !sx_nbget. destruct (nbget vs q) as [vq|]; [|reflexivity]. cbn [rbind]. destruct (nbget vs p) as [vp|]; [|reflexivity]. cbn [rbind].
  change (nabs (d * x)) with (Rabs (d * x)). rewrite abs_sx by exact Hd. change (nabs x) with (Rabs x). rewrite !E.
  assert (P : forall p q, pdiv (d * p) (d * q) = pdiv p q).
  { intros p1 q1. unfold pdiv. rnum. replace (Reqb (d * q1) 0) with (Reqb q1 0) by (rewrite <- (eqb_sx d Hd q1 0); f_equal; ring). destruct (Reqb q1 0); [reflexivity|]. f_equal. now apply div_sx. }
  rewrite !P. reflexivity.
Qed.
(** ** The description of a cluster in another unit *)
Lemma process_sx memb vals : d = 1 \/ increasing_list vals /\ length memb = length vals /\ vals <> [] ->
  process_activation_dict (mkAdict true memb (sx d vals)) = ('(v, m, s) <- process_activation_dict (mkAdict true memb vals) ;; Ok (sx d v, m, s))%res.
Proof.
  intros [E|(Hi & HL & Hne)].
  - rewrite E, sx_one. destruct (process_activation_dict _) as [[[a c] e]|]; [|reflexivity]. cbn [rbind]. now rewrite sx_one.
  - destruct (process_sorted memb vals Hi HL Hne) as (mn & mx & A1 & A2 & E & A3).
    destruct (process_sorted memb (sx d vals)) as (mn' & mx' & B1 & B2 & E' & B3); [now apply sx_increasing_list|now rewrite sx_length|now apply sx_nil|].
    rewrite sx_nth, A1 in B1. injection B1 as <-. rewrite sx_length, sx_nth, A3 in B3. injection B3 as <-.
    rewrite E, E'. cbn [rbind]. do 2 f_equal. unfold sx. rewrite map_map. apply map_ext. intros z.
    rewrite abs_sx by exact Hd. rewrite <- !Rmult_plus_distr_l. now apply div_sx.
Qed.
End Value.

(** ** The generator *)
Section Move.
Variable cf : gconf R.
Hypothesis Hsep : c_sep cf = "___"%string.
(** the factor of each feature *)
Variable b : string -> R.
Hypothesis Hb : forall f, 0 < b f.
Definition sc (c : string) : R := match get_feature_and_info cf c with Ok (f, _) => b f | Err _ => 1 end.
Lemma sc_pos c : 0 < sc c.
Proof. unfold sc. destruct (get_feature_and_info cf c) as [[f t]|]; [apply Hb|lra]. Qed.
Definition mtf (c : string) (z : option (list R * list R)) : option (list R * list R) := option_map (fun p => (fst p, sx (sc c) (snd p))) z.
Notation idn := (fun c : string => c).
Definition shs (s : fcm R) : fcm R := ren idn mtf s.
Definition shg (g : gen R) : gen R := mkGen (g_feats g) (g_proc g) (shs (g_fcm g)).
Definition gkin {X} (p p' : gen R * res X) : Prop := fst p' = shg (fst p) /\ same_res eq (snd p) (snd p').
Definition mov (f f' : gen R -> gen R * res unit) : Prop := forall g, gkin (f g) (f' (shg g)).
Lemma idn_inj : forall a c : string, idn a = idn c -> a = c.
Proof. auto. Qed.
Lemma gkin_ret {X} (g : gen R) (r : res X) : gkin (g, r) (shg g, r).
Proof. split; [reflexivity|]. cbn. now apply same_res_refl. Qed.
Lemma mov_ret r : mov (fun g => (g, r)) (fun g => (g, r)).
Proof. intros g. apply gkin_ret. Qed.
Lemma mov_on f f' : (forall s, kin idn mtf (f s) (f' (shs s))) -> mov (on_fcm f) (on_fcm f').
Proof.
  intros H g. unfold on_fcm. destruct (H (g_fcm g)) as [E S]. cbn [shg g_fcm]. destruct (f (g_fcm g)) as [s r], (f' (shs (g_fcm g))) as [s' r']. cbn in E, S. subst s'. split; auto.
Qed.
Lemma mov_sfold {A} (f f' : A -> gen R -> gen R * res unit) l : (forall a, mov (f a) (f' a)) -> mov (sfold f l) (sfold f' l).
Proof.
  intros H. induction l as [|a l IH]; intros g; [apply gkin_ret|]. cbn [sfold]. destruct (H a g) as [E S].
  destruct (f a g) as [g1 [u|e]], (f' a (shg g)) as [g2 [u'|e']]; cbn in E, S; try contradiction; subst g2; [apply IH|split; auto].
Qed.
Lemma mov_sthen f f' k k' : mov f f' -> mov k k' -> mov (sthen f k) (sthen f' k').
Proof.
  intros H K g. unfold sthen. destruct (H g) as [E S].
  destruct (f g) as [g1 [u|e]], (f' (shg g)) as [g2 [u'|e']]; cbn in E, S; try contradiction; subst g2; [apply K|split; auto].
Qed.
Lemma mov_swith {A} (r r' : gen R -> res A) k k' : (forall g, r' (shg g) = r g) -> (forall a, mov (k a) (k' a)) -> mov (swith r k) (swith r' k').
Proof. intros H K g. unfold swith. rewrite H. destruct (r g); [apply K|apply gkin_ret]. Qed.
Lemma mov_relation a c w : mov (on_fcm (add_relation a c w)) (on_fcm (add_relation a c w)).
Proof. apply mov_on. intros s. apply (add_relation_any idn idn_inj mtf a c w s). Qed.
Lemma mov_rel_pair ns i j w : mov (rel_pair ns i j w) (rel_pair ns i j w).
Proof. intros g. unfold rel_pair. destruct (rbind _ _) as [[a c]|e]; [apply mov_relation|apply gkin_ret]. Qed.
Lemma mov_inner f : mov (def_inner_feat_relations cf f) (def_inner_feat_relations cf f).
Proof.
  intros g. unfold def_inner_feat_relations. destruct (neqb _ _); [apply gkin_ret|].
  apply mov_swith; [reflexivity|]. intros d. apply mov_swith; [reflexivity|]. intros ns. cbv zeta.
  apply mov_sfold. intros i. apply mov_sfold. intros j. apply mov_sthen; apply mov_rel_pair.
Qed.
Lemma mov_weight na pa nb pb s c : mov (def_relation_weight cf na pa nb pb s c) (def_relation_weight cf na pa nb pb s c).
Proof.
  intros g. unfold def_relation_weight. apply mov_swith; [reflexivity|]. intros e. destruct (nltb _ _); [|apply mov_ret].
  apply mov_swith; [reflexivity|]. intros v. cbv zeta. destruct (neqb _ _); [apply mov_ret|]. intros g1. destruct (rbind _ _) as [[x y]|er]; [apply mov_relation|apply gkin_ret].
Qed.
Lemma mov_pair fa fb na nb da db p q : mov (def_concept_pair cf fa fb na nb da db p q) (def_concept_pair cf fa fb na nb da db p q).
Proof.
  intros g. unfold def_concept_pair. apply mov_swith; [reflexivity|]. intros [pq qp].
  apply mov_swith; [reflexivity|]. intros s1. apply mov_swith; [reflexivity|]. intros s2. cbv zeta.
  destruct (c_double cf); [apply mov_sthen; apply mov_weight|].
  apply mov_swith; [reflexivity|]. intros [].
  - apply mov_swith; [reflexivity|]. intros [x y]. apply mov_sthen; destruct (nltb _ _); first [apply mov_ret|apply mov_weight].
  - apply mov_swith; [reflexivity|]. intros []; apply mov_weight.
Qed.
Lemma mov_two fa fb : mov (def_two_feat_relation cf fa fb) (def_two_feat_relation cf fa fb).
Proof.
  intros g. unfold def_two_feat_relation. apply mov_swith; [reflexivity|]. intros na. apply mov_swith; [reflexivity|]. intros nb.
  apply mov_swith; [reflexivity|]. intros d1. apply mov_swith; [reflexivity|]. intros d2.
  apply mov_sfold. intros p. apply mov_sfold. intros q. apply mov_pair.
Qed.
Lemma mov_mark f : mov (fun g => (mark f g, Ok tt)) (fun g => (mark f g, Ok tt)).
Proof. intros g. split; reflexivity. Qed.
Lemma mov_all f : mov (def_all_feat_relations cf f) (def_all_feat_relations cf f).
Proof.
  intros g. unfold def_all_feat_relations. change (g_proc (shg g)) with (g_proc g).
  apply mov_sthen; [|apply mov_mark]. apply mov_sfold. intros o. destruct (String.eqb o f); [apply mov_ret|apply mov_two].
Qed.
Lemma mov_target f : mov (def_feat_target_relation cf f) (def_feat_target_relation cf f).
Proof.
  intros g. unfold def_feat_target_relation. change (g_proc (shg g)) with (g_proc g).
  apply mov_sthen; [|apply mov_mark]. apply mov_sfold. intros o. destruct (String.eqb o f); [apply mov_ret|].
  apply mov_swith; [reflexivity|]. intros []; [apply mov_ret|apply mov_two].
Qed.
(** *** Concepts *)
Lemma mov_concept c t a m e d d' f k :
  (forall dc, build_node dc t a m e d' f k = (ren_node idn mtf c (fst (build_node (F := R) dc t a m e d f k)), snd (build_node dc t a m e d f k))) ->
  mov (on_fcm (add_concept c t a m e d f k)) (on_fcm (add_concept c t a m e d' f k)).
Proof.
  intros H. apply mov_on. intros s. unfold add_concept. change (m_default (set_prepared false (shs s))) with (m_default (set_prepared false s)).
  rewrite H. destruct (build_node _ _ _ _ _ d _ _) as [n r]. cbn [fst snd].
  change (set_prepared false (shs s)) with (ren idn mtf (set_prepared false s)). cbv zeta.
  pose proof (put_node_ren idn idn_inj mtf c n (set_prepared false s)) as P. cbv beta in P. rewrite P.
  destruct r as [u|x]; [|apply kin_err; apply same_exn_refl].
  match goal with |- kin _ _ (put_exec ?cc ?hh ?ss, _) _ => pose proof (put_exec_ren idn idn_inj mtf cc hh ss) as Q end. cbv beta in Q. rewrite Q. apply kin_ok.
Qed.
Lemma ren_plain c (n : node R) : nd_arcs n = [] -> nd_fuzzy n = None -> ren_node idn mtf c n = n.
Proof. destruct n. cbn. intros -> ->. reflexivity. Qed.
Lemma mov_discrete f tg c : mov (gen_discrete_concepts cf f tg c) (gen_discrete_concepts cf f tg c).
Proof.
  intros g. unfold gen_discrete_concepts. destruct (discrete_desc cf c) as [tx m]. set (t := if str_mem f tg then TYPE_DECISION else TYPE_SIMPLE).
  assert (K : mov (sfold (fun name => on_fcm (add_concept name (Some t) (Some true) None None None None [])) (map (name_concept cf f) tx))
                  (sfold (fun name => on_fcm (add_concept name (Some t) (Some true) None None None None [])) (map (name_concept cf f) tx))).
  { apply mov_sfold. intros name. apply mov_concept. intros dc. rewrite ren_plain; [apply surjective_pairing|apply built_arcs|].
    assert (Ht : is_valid_type t = true /\ is_fuzzy_type t = false) by (unfold t; destruct (str_mem f tg); split; reflexivity). destruct Ht as [V Z].
    unfold build_node. rewrite V, Z. reflexivity. }
  destruct (K (set_feat f (mkFeat (Some t) None None) g)) as [E S]. change (shg (set_feat f (mkFeat (Some t) None None) g)) with (set_feat f (mkFeat (Some t) None None) (shg g)) in E, S.
  destruct (sfold _ _ (set_feat f _ g)) as [g1 [u|e]], (sfold _ _ (set_feat f _ (shg g))) as [g2 [u'|e']]; cbn in E, S; try contradiction; subst g2; [split; reflexivity|split; auto].
Qed.
Definition scalable (d : R) (vals : list R) (ms : list (list R)) (data : list R) : Prop :=
  d = 1 \/ increasing_list vals /\ (forall memb, In memb ms -> length memb = length vals) /\ (forall x, In x data -> In x vals) /\ vals <> [].
Lemma rows_sx d vals ms data memb : 0 < d -> scalable d vals ms data -> In memb ms ->
  rmap (fun v => fuzzy_set v memb (sx d vals)) (sx d data) = rmap (fun v => fuzzy_set v memb vals) data.
Proof.
  intros HD [->|(Hi & Hm & Hd & _)] Im; [now rewrite !sx_one|]. induction data as [|x data IH]; [reflexivity|]. cbn [sx map rmap].
  rewrite (knot_sx d HD x memb vals Hi (Hd x (or_introl eq_refl)) (Hm memb Im)). destruct (fuzzy_set x memb vals); [|reflexivity]. cbn [rbind].
  change (map (fun x => d * x) data) with (sx d data). rewrite IH; [reflexivity|]. intros y Hy. apply Hd. now right.
Qed.
Lemma mov_clusters f t d vals data ms : 0 < d -> is_valid_type t = true -> is_fuzzy_type t = true -> scalable d vals ms data -> 
  (forall k : nat, sc (name_concept cf f (str_of_Z (Z.of_nat k))) = d) ->
  forall ks rows g, gkin (gen_clusters cf f t vals data ms ks rows g) (gen_clusters cf f t (sx d vals) (sx d data) ms ks rows (shg g)).
Proof.
  intros HD V Z HS Hn. induction ks as [|k ks IH]; intros rows g; cbn [gen_clusters]; [apply gkin_ret|]. unfold gen_cluster.
  destruct (lget ms k) as [memb|e] eqn:Em; [|apply gkin_ret].
  assert (Im : In memb ms) by (unfold lget in Em; destruct (nth_error ms k) eqn:En; [|discriminate]; injection Em as ->; eapply nth_error_In; eauto).
  set (nm := name_concept cf f (str_of_Z (Z.of_nat k))).
  assert (K : mov (on_fcm (add_concept nm (Some t) (Some true) None None (Some (mkAdict true memb vals)) None [])) (on_fcm (add_concept nm (Some t) (Some true) None None (Some (mkAdict true memb (sx d vals))) None []))).
  { apply mov_concept. intros dc. unfold build_node. rewrite V, Z. cbv zeta. rewrite process_sx; [|exact HD|].
    - destruct (process_activation_dict (mkAdict true memb vals)) as [[[v m] s]|e]; cbn [rbind]; [|reflexivity].
      cbn [define_func fst snd]. unfold ren_node, mtf. cbn. unfold nm. rewrite Hn. reflexivity.
    - destruct HS as [->|(A & B & C & D)]; [now left|right]. auto. }
  destruct (K g) as [E S].
  destruct (on_fcm (add_concept nm _ _ _ _ (Some (mkAdict true memb vals)) _ _) g) as [g1 [u|e]], (on_fcm _ (shg g)) as [g2 [u'|e']]; cbn in E, S; try contradiction; subst g2; [|split; auto].
  rewrite (rows_sx d vals ms data memb HD HS Im). destruct (rmap _ data) as [row|e]; cbn [rbind]; [apply IH|apply gkin_ret].
Qed.
Lemma sc_name f (k : nat) : ~ occurs "___" f -> sc (name_concept cf f (str_of_Z (Z.of_nat k))) = b f.
Proof. intros H. unfold sc, name_concept. rewrite Hsep. rewrite (info_name cf Hsep f (str_of_Z (Z.of_nat k)) (int_readable _) H). reflexivity. Qed.
(** what the discretization must make of a scaled column *)
Definition follows (f : string) (data : list R) : Prop :=
  c_disc cf f (sx (b f) data) = ('(n, vals, ms) <- c_disc cf f data ;; Ok (n, sx (b f) vals, ms))%res /\
  forall n vals ms, c_disc cf f data = Ok (n, vals, ms) -> scalable (b f) vals ms data.
Lemma mov_continuous f tg data : ~ occurs "___" f -> follows f data -> mov (gen_continuous_concepts cf f tg data) (gen_continuous_concepts cf f tg (sx (b f) data)).
Proof.
  intros Hf [Hd Hs] g. unfold gen_continuous_concepts. rewrite Hd. set (t := if str_mem f tg then TYPE_REGRESOR else TYPE_FUZZY).
  destruct (c_disc cf f data) as [[[n vals] ms]|e]; [|split; cbn; auto using same_exn_refl]. cbn [rbind].
  assert (Ht : is_valid_type t = true /\ is_fuzzy_type t = true) by (unfold t; destruct (str_mem f tg); split; reflexivity). destruct Ht as [V Z].
  destruct (mov_clusters f t (b f) vals data ms (Hb f) V Z (Hs _ _ _ eq_refl) (fun k => sc_name f k Hf) (seq 0 n) [] (set_feat f (mkFeat (Some t) None None) g)) as [E S].
  change (shg (set_feat f (mkFeat (Some t) None None) g)) with (set_feat f (mkFeat (Some t) None None) (shg g)) in E, S.
  destruct (gen_clusters cf f t vals data ms (seq 0 n) [] _) as [g1 [u|e]], (gen_clusters cf f t (sx (b f) vals) _ ms (seq 0 n) [] _) as [g2 [u'|e']]; cbn in E, S; try contradiction; subst g2; [subst u'; split; reflexivity|split; auto].
Qed.
Definition mcol (d : R) (c : column R) : column R := match c with ColFlt l => ColFlt (sx d l) | _ => c end.
Definition mds (ds : dataset R) : dataset R := map (fun fc => (fst fc, mcol (b (fst fc)) (snd fc))) ds.
Lemma mcol_one c : mcol 1 c = c.
Proof. destruct c; try reflexivity. cbn. now rewrite sx_one. Qed.
Lemma mov_gen f tg c : ~ occurs "___" f -> (b f = 1 \/ exists l, c = ColFlt l /\ (c_infer cf = true -> varied l) /\ follows f l) ->
  mov (gen_concepts cf tg f c) (gen_concepts cf tg f (mcol (b f) c)).
Proof.
  intros Hf [H0|(l & -> & Hv & Hl)].
  - rewrite H0, mcol_one. assert (K : mov (gen_continuous_concepts cf f tg (as_floats c)) (gen_continuous_concepts cf f tg (as_floats c))).
    { pose proof (mov_continuous f tg (as_floats c) Hf) as X. rewrite H0, sx_one in X. apply X. unfold follows. rewrite H0, sx_one. split; [|now left].
      destruct (c_disc cf f (as_floats c)) as [[[n v] ms]|]; [|reflexivity]. cbn [rbind]. now rewrite sx_one. }
    unfold gen_concepts. destruct c; try apply mov_discrete; destruct (_ && _); first [apply mov_discrete|exact K].
  - intros g. cbn [mcol]. unfold gen_concepts.
    assert (X : forall l, varied l -> Nat.ltb (distinct cf (ColFlt l)) 10 = false).
    { intros l' H. apply varied_iff in H. apply Nat.ltb_ge. unfold distinct. cbn. now rewrite map_length. }
    assert (Y : varied l -> varied (sx (b f) l)).
    { rewrite !varied_iff, unique_sx, sx_length by apply Hb. auto. }
    replace (c_infer cf && Nat.ltb (distinct cf (ColFlt l)) 10) with false by (destruct (c_infer cf); [rewrite X; auto|reflexivity]).
    replace (c_infer cf && Nat.ltb (distinct cf (ColFlt (sx (b f) l))) 10) with false by (destruct (c_infer cf); [rewrite X; auto|reflexivity]).
    cbn [as_floats]. now apply mov_continuous.
Qed.
Definition movable (fc : string * column R) : Prop :=
  ~ occurs "___" (fst fc) /\ (b (fst fc) = 1 \/ exists l, snd fc = ColFlt l /\ (c_infer cf = true -> varied l) /\ follows (fst fc) l).
Lemma mov_feature tg f c : movable (f, c) -> mov (add_feature cf tg (f, c)) (add_feature cf tg (f, mcol (b f) c)).
Proof.
  intros [H1 H2] g. unfold add_feature. change (set_feat f (mkFeat None None None) (shg g)) with (shg (set_feat f (mkFeat None None None) g)).
  apply mov_sthen; [now apply mov_gen|]. apply mov_sthen; [apply mov_inner|]. apply mov_sthen; [apply mov_mark|]. destruct (c_featrel cf); [apply mov_all|apply mov_target].
Qed.
Lemma mov_build tg ds : Forall movable ds -> mov (sfold (add_feature cf tg) ds) (sfold (add_feature cf tg) (mds ds)).
Proof.
  induction 1 as [|[f c] ds H _ IH]; intros g; [apply gkin_ret|]. cbn [mds map sfold fst snd]. destruct (mov_feature tg f c H g) as [E S].
  destruct (add_feature cf tg (f, c) g) as [g1 [u|e]], (add_feature cf tg (f, mcol (b f) c) (shg g)) as [g2 [u'|e']]; cbn in E, S; try contradiction; subst g2; [apply IH|split; auto].
Qed.

(** ** Fitting *)
Definition she (e : est R) : est R := mkEst (shs (e_map e)) (option_map shs (e_priv e)) (e_feats e) (e_proc e) (e_generated e).
Lemma shs_blank s : m_topo s = [] -> shs s = s.
Proof.
  intros H. unfold shs, ren. rewrite H.
  assert (A : map (ren_arc idn) (m_arcs s) = m_arcs s) by (erewrite map_ext; [apply map_id|]; now intros [[? ?] ?]).
  assert (B : ren_dict idn (fun _ h => h) (m_exec s) = m_exec s) by (unfold ren_dict; erewrite map_ext; [apply map_id|]; now intros [? ?]).
  rewrite A, B. destruct s. cbn in H. subst. reflexivity.
Qed.
Lemma fit_move x y x' e0 e : estimator e0 e -> Forall movable (join_frames x y) -> join_frames x' y = mds (join_frames x y) ->
  same_res eq (snd (fit cf x y e)) (snd (fit cf x' y e)) /\ (snd (fit cf x y e) = Ok tt -> fst (fit cf x' y e) = she (fst (fit cf x y e))).
Proof.
  intros HE HM HJ. destruct (estimator_state _ _ HE) as ((B & _) & S & _ & _). unfold fit. rewrite HJ.
  destruct (reset (e_gen e)) as [g1 r1] eqn:Er. destruct r1 as [u|er]; [|split; [apply same_exn_refl|discriminate]].
  set (e1 := match e_priv e with Some _ => _ | None => _ end).
  assert (Ht : m_topo (e_map e1) = []).
  { unfold e1. destruct S as [(p & -> & _ & Em)|[-> _]]; [cbn; now rewrite Em|]. cbn.
    destruct (reset_cases (e_gen e)) as [[z Hz]|(s & Hs & _ & T & _)]; [rewrite Er in Hz; discriminate|]. rewrite Er in Hs. injection Hs as -> _. exact T. }
  unfold build_fcm. destruct (mov_build (dkeys y) (join_frames x y) HM (set_fcm (e_map e1) (e_gen e1))) as [E Q].
  replace (shg (set_fcm (e_map e1) (e_gen e1))) with (set_fcm (e_map e1) (e_gen e1)) in E, Q by (unfold shg, set_fcm; cbn [g_feats g_proc g_fcm]; now rewrite shs_blank).
  destruct (sfold _ (join_frames x y) _) as [g2 [u2|er]], (sfold _ (mds (join_frames x y)) _) as [g3 [u3|er']]; cbn in E, Q; try contradiction; subst g3; cbn [fst snd].
  - split; [reflexivity|]. reflexivity.
  - split; [exact Q|discriminate].
Qed.

(** ** What the clusters know *)
(** the numbers a feature was trained with *)
Variable train : string -> R -> Prop.
Notation known := (ShiftFacts2.known cf train).
Definition good_value (f : string) (z : R) : Prop := train f z \/ 0 <= z \/ exists v, train f v /\ (v < 0 \/ 1 < v /\ 1 < b f * v).

(** ** Predicting *)
Definition mcell (d : R) (v : cell R) : cell R := match v with CFlt z => CFlt (d * z) | _ => v end.
Definition suited (f : string) (v : cell R) : Prop :=
  (b f = 1 \/ exists z, v = CFlt z /\ (good_value f z)) /\ (forall str, v = CStr str -> readable str).
Lemma mcell_one v : mcell 1 v = v.
Proof. destruct v; try reflexivity. cbn. now rewrite Rmult_1_l. Qed.
Lemma init_move c z z' s : (forall n memb vals, dget (m_topo s) c = Some n -> nd_fuzzy n = Some (memb, vals) -> fuzzy_set z' memb (sx (sc c) vals) = fuzzy_set z memb vals) ->
  (forall n, dget (m_topo s) c = Some n -> nd_func n <> Some "fuzzy"%string -> z' = z) -> kin idn mtf (init_concept c z false s) (init_concept c z' false (shs s)).
Proof.
  intros H H'. unfold init_concept. pose proof (topo_ren idn idn_inj mtf s c) as T. cbv beta in T. unfold shs. rewrite T. destruct (dget (m_topo s) c) as [n|]; cbn [option_map]; [|apply kin_ok].
  change (nd_func (ren_node idn mtf c n)) with (nd_func n). change (nd_fuzzy (ren_node idn mtf c n)) with (mtf c (nd_fuzzy n)).
  match goal with |- kin _ _ (match ?x with Ok _ => _ | Err _ => _ end) (match ?y with Ok _ => _ | Err _ => _ end) => assert (E : y = x) end.
  { destruct (nd_func n) as [f|] eqn:Ef; [|reflexivity]. cbn [oget rbind]. destruct (String.eqb_spec f "fuzzy") as [->|Hf].
    - destruct (nd_fuzzy n) as [[memb vals]|] eqn:Ez; [|reflexivity]. cbn [mtf option_map oget rbind fst snd]. now apply (H n).
    - f_equal. apply (H' n); congruence. }
  rewrite E. match goal with |- kin _ _ (match ?x with Ok _ => _ | Err _ => _ end) _ => destruct x as [y|e] end; [|apply kin_err; apply same_exn_refl].
  change (nd_set_aux [] (nd_set_value y (ren_node idn mtf c n))) with (ren_node idn mtf c (nd_set_aux [] (nd_set_value y n))).
  pose proof (put_exec_ren idn idn_inj mtf c [y] s) as Q. cbv beta in Q. rewrite Q.
  pose proof (put_node_ren idn idn_inj mtf c (nd_set_aux [] (nd_set_value y n)) (put_exec c [y] s)) as P. cbv beta in P. rewrite P. apply kin_ok.
Qed.
Section State.
Variable fds : list (fdesc R).
Hypothesis Hz : forall d, In d fds -> is_fuzzy_type (fd_type d) = false -> b (fd_feat d) = 1.
Definition inv (g : gen R) : Prop := tidy fds g /\ known (g_fcm g) /\ soft_map (g_fcm g).
Lemma inv_moved g g' : moved g g' -> inv g -> inv g'.
Proof. intros M (A & B & C). pose proof (moved_wframe _ _ M) as W. split; [now apply (tidy_moved _ _ _ M)|]. split; [now apply (ShiftFacts2.known_moved cf train (g_fcm g))|now apply (soft_moved (g_fcm g))]. Qed.
Definition movi (f f' : gen R -> gen R * res unit) : Prop := forall g, inv g -> gkin (f g) (f' (shg g)).
Lemma movi_sfold {A B} (j : A -> B) (f : A -> gen R -> gen R * res unit) (f' : B -> gen R -> gen R * res unit) l : (forall a g, moved g (fst (f a g))) -> (forall a, In a l -> movi (f a) (f' (j a))) -> movi (sfold f l) (sfold f' (map j l)).
Proof.
  intros HM. induction l as [|a l IH]; intros H g Hg; [apply gkin_ret|]. cbn [sfold map]. destruct (H a (or_introl eq_refl) g Hg) as [E S]. pose proof (HM a g) as M.
  destruct (f a g) as [g1 [u|e]], (f' (j a) (shg g)) as [g2 [u'|e']]; cbn in E, S, M; try contradiction; subst g2; [|split; auto].
  apply IH; [intros; apply H; now right|]. now apply (inv_moved g).
Qed.
Lemma init_feature_move f v : suited f v -> movi (init_concept_by_feature_data cf f v) (init_concept_by_feature_data cf f (mcell (b f) v)).
Proof.
  intros [Hv Hr] g I. unfold init_concept_by_feature_data.
  match goal with |- gkin (let '(_, _) := ?a in _) (let '(_, _) := ?c in _) => assert (M : gkin a c) end.
  2:{ destruct M as [E S]. match goal with |- gkin (let '(_, _) := ?a in _) (let '(_, _) := ?c in _) => destruct a as [g1 [u|e]], c as [g2 [u'|e']] end; cbn in E, S; try contradiction; subst g2; split; cbn; auto. }
  unfold swith. change (get_type (shg g) f) with (get_type g f). change (get_names (shg g) f) with (get_names g f).
  destruct I as (T & K & Q). unfold get_type, get_names, dget_exn. destruct (dget (g_feats g) f) as [ft|] eqn:Ef; [|apply gkin_ret]. cbn [rbind].
  destruct (td_only _ _ T f) as (d & Hd & <-); [congruence|]. rewrite (td_known _ _ T d Hd) in Ef. injection Ef as <-. unfold feat_of. cbn [f_type f_names oget rbind].
  change (String.eqb (fd_type d) TYPE_FUZZY || String.eqb (fd_type d) TYPE_REGRESOR) with (is_fuzzy_type (fd_type d)). destruct (is_fuzzy_type (fd_type d)) eqn:Ez.
  - assert (X : forall c, In c (fd_names d) -> exists t, get_feature_and_info cf c = Ok (fd_feat d, t)).
    { intros c Hc. destruct (td_name _ _ T d c Hd Hc) as (t & -> & Ht). exists t. apply info_name; auto. now apply (td_clean _ _ T). }
    cbn [shg g_feats]. rewrite (td_known _ _ T d Hd). cbn [rbind feat_of f_names oget]. rewrite <- (map_id (fd_names d)) at 2.
    apply (movi_sfold (fun c => c) (fun name g => match cell_num v with Ok a => on_fcm (init_concept name a false) g | Err e => (g, Err e) end)
                      (fun name g => match cell_num (mcell (b (fd_feat d)) v) with Ok a => on_fcm (init_concept name a false) g | Err e => (g, Err e) end)); [| |exact (conj T (conj K Q))].
    + intros c g'. destruct (cell_num v) as [x|]; [|apply moved_refl]. apply (moved_on (OpInitConcept c x false)). reflexivity.
    + intros c Hc g' (T' & K' & Q'). destruct (X c Hc) as [t Hi].
      assert (Hn : forall z z', (forall memb vals n, dget (m_topo (g_fcm g')) c = Some n -> nd_fuzzy n = Some (memb, vals) -> fuzzy_set z' memb (sx (sc c) vals) = fuzzy_set z memb vals) ->
        gkin (on_fcm (init_concept c z false) g') (on_fcm (init_concept c z' false) (shg g'))).
      { intros z z' H. unfold on_fcm. destruct (init_move c z z' (g_fcm g')) as [E S].
        - intros n memb vals Hn Hf. eauto.
        - intros n Hn Hf. exfalso. apply Hf. destruct (Q' c n (fd_type d) Hn (td_type _ _ T' d c n Hd Hc Hn) Ez) as (? & ? & ? & A & _). exact A.
        - cbn [shg g_fcm]. destruct (init_concept c z false (g_fcm g')) as [s r], (init_concept c z' false (shs (g_fcm g'))) as [s' r']. cbn in E, S. subst s'. split; auto. }
      assert (Es : sc c = b (fd_feat d)) by (unfold sc; now rewrite Hi).
      destruct Hv as [H0|(z & -> & Hv)].
      * rewrite H0, mcell_one. destruct (cell_num v) as [z|]; [|apply gkin_ret]. apply Hn. intros memb vals n _ _. now rewrite Es, H0, sx_one.
      * cbn [mcell cell_num]. apply Hn. intros memb vals n Hd' Hf. rewrite Es. destruct Hv as [Ht|[P|(v & Ht & P)]].
        { destruct (K' c n memb vals _ _ z Hd' Hf Hi Ht) as (A & B & C). now apply knot_sx. }
        { apply value_sx; auto. }
        { destruct (K' c n memb vals _ _ v Hd' Hf Hi Ht) as (A & B & C). apply value_sx; [apply Hb|right; exists v; auto]. }
  - pose proof (Hz d Hd Ez) as H0. rewrite H0, mcell_one. destruct (cell_text cf v) as [text|] eqn:Et; [|apply gkin_ret].
    assert (Rt : readable text).
    { destruct v as [str|bb|zz|x]; cbn in Et.
      - injection Et as <-. now apply Hr.
      - injection Et as <-. apply int_readable.
      - injection Et as <-. apply int_readable.
      - destruct (c_trunc cf x); [|discriminate]. injection Et as <-. apply int_readable. }
    set (c := name_concept cf (fd_feat d) text).
    assert (Es : sc c = 1).
    { unfold sc, c, name_concept. rewrite Hsep, (info_name cf Hsep _ _ Rt (td_clean _ _ T d Hd)). exact H0. }
    apply mov_on. intros s. apply init_move; [|auto]. intros n memb vals _ _. now rewrite Es, sx_one.
Qed.
Definition mrow (r : list (string * cell R)) : list (string * cell R) := map (fun fv => (fst fv, mcell (b (fst fv)) (snd fv))) r.
Definition suited_row (r : list (string * cell R)) : Prop := forall f v, In (f, v) r -> suited f v.
Lemma result_move g : gkin (get_inference_result cf g) (get_inference_result cf (shg g)).
Proof.
  unfold get_inference_result. destruct (mov_on (run_inference true) (run_inference true) (fun s => run_ren idn idn_inj mtf true s) g) as [E S].
  destruct (on_fcm (run_inference true) g) as [g1 [u|e]], (on_fcm (run_inference true) (shg g)) as [g2 [u'|e']]; cbn in E, S; try contradiction; subst g2; [|split; auto].
  split; [reflexivity|]. cbn [snd]. pose proof (final_state_ren idn idn_inj mtf "target" [] (g_fcm g1)) as Fs. cbn [map] in Fs. cbn [shg g_fcm]. unfold shs.
  apply (same_bind _ _ _ _ _ _ Fs). intros st st' ->. assert (Ed : ren_dict idn (fun _ x => x) st = st) by (unfold ren_dict; erewrite map_ext; [apply map_id|]; now intros [? ?]).
  rewrite Ed. apply same_res_refl. auto.
Qed.
Lemma row_move r : suited_row r -> forall g, inv g -> gkin (predict_row cf r g) (predict_row cf (mrow r) (shg g)).
Proof.
  intros Hr g I. unfold predict_row.
  assert (K : gkin (sthen (on_fcm clear_execution) (sfold (fun fv => init_concept_by_feature_data cf (fst fv) (snd fv)) r) g)
                   (sthen (on_fcm clear_execution) (sfold (fun fv => init_concept_by_feature_data cf (fst fv) (snd fv)) (mrow r)) (shg g))).
  { unfold sthen. destruct (mov_on clear_execution clear_execution (fun s => clear_execution_ren idn idn_inj mtf s) g) as [E S].
    pose proof (moved_on OpClearExec g eq_refl) as M. change (step OpClearExec) with (clear_execution (F := R)) in M.
    destruct (on_fcm clear_execution g) as [g1 [u|e]], (on_fcm clear_execution (shg g)) as [g2 [u'|e']]; cbn in E, S, M; try contradiction; subst g2; [|split; auto].
    apply movi_sfold; [intros; apply moved_init| |now apply (inv_moved g)]. intros [f v] Hi. cbn [fst snd]. apply init_feature_move. now apply Hr. }
  destruct K as [E S]. destruct (sthen _ _ g) as [g1 [u|e]], (sthen _ _ (shg g)) as [g2 [u'|e']]; cbn in E, S; try contradiction; subst g2; [apply result_move|split; auto].
Qed.
Lemma rows_move rows : (forall r, In r rows -> suited_row r) -> forall acc g, inv g -> gkin (predict_rows cf rows acc g) (predict_rows cf (map mrow rows) acc (shg g)) /\ inv (fst (predict_rows cf rows acc g)).
Proof.
  induction rows as [|r rows IH]; intros Hr acc g I; cbn [predict_rows map]; [split; [apply gkin_ret|exact I]|].
  destruct (row_move r (Hr r (or_introl eq_refl)) g I) as [E S]. pose proof (inv_moved _ _ (moved_predict cf r g) I) as I1.
  destruct (predict_row cf r g) as [g1 [p|e]], (predict_row cf (mrow r) (shg g)) as [g2 [p'|e']]; cbn in E, S, I1; try contradiction; subst g2; [|split; [split; auto|exact I1]].
  subst p'. apply IH; auto. intros r' H. apply Hr. now right.
Qed.
(** a frame to predict *)
Definition suited_frame (x : dataset R) : Prop := forall f c, In (f, c) x ->
  (b f = 1 \/ exists l, c = ColFlt l /\ forall z, In z l -> good_value f z) /\ (forall l str, c = ColStr l -> In str l -> readable str).
Lemma mcol_same f c : is_numeric_col (mcol f c) = is_numeric_col c /\ is_float_col (mcol f c) = is_float_col c /\ col_length (mcol f c) = col_length c.
Proof. destruct c; auto. cbn. now rewrite sx_length. Qed.
Lemma iterrows_move x : suited_frame x -> iterrows (mds x) = map mrow (iterrows x) /\ forall r, In r (iterrows x) -> suited_row r.
Proof.
  intros H. unfold iterrows.
  assert (E1 : forallb (fun c => is_numeric_col (snd c)) (mds x) = forallb (fun c => is_numeric_col (snd c)) x).
  { unfold mds. clear H. induction x as [|[f c] x IH]; [reflexivity|]. cbn [map forallb fst snd]. rewrite IH. f_equal. apply mcol_same. }
  assert (E2 : existsb (fun c => is_float_col (snd c)) (mds x) = existsb (fun c => is_float_col (snd c)) x).
  { unfold mds. clear H E1. induction x as [|[f c] x IH]; [reflexivity|]. cbn [map existsb fst snd]. rewrite IH. f_equal. apply mcol_same. }
  assert (E3 : frame_rows (mds x) = frame_rows x).
  { destruct x as [|[f c] x]; [reflexivity|]. cbn. apply mcol_same. }
  rewrite E1, E2, E3. cbv zeta. set (up := _ && _). clearbody up. clear E1 E2 E3. split.
  - rewrite map_map. apply map_ext. intros i. induction x as [|[f c] x IH]; [reflexivity|]. cbn [mds map flat_map fst snd]. unfold mrow. rewrite map_app. f_equal.
    + destruct (H f c (or_introl eq_refl)) as [[H0|(l & -> & _)] _].
      * rewrite H0, mcol_one. destruct (nth_error (col_cells c) i); [|reflexivity]. cbn [map fst snd]. now rewrite H0, mcell_one.
      * cbn [mcol col_cells]. unfold sx. rewrite map_map, !nth_error_map. destruct (nth_error l i); reflexivity.
    + apply IH. intros f' c' Hi. apply H. now right.
  - intros r Hr. apply in_map_iff in Hr as (i & <- & _). intros f v Hv. apply in_flat_map in Hv as ([f' c] & Hc & Hv). cbn [fst snd] in Hv.
    destruct (nth_error (col_cells c) i) as [w|] eqn:Ew; [|contradiction]. destruct Hv as [Hv|[]]. injection Hv as <- <-. apply nth_error_In in Ew.
    destruct (H f' c Hc) as [H1 H2]. split.
    + destruct H1 as [H0|(l & -> & H1)]; [now left|right]. cbn in Ew. apply in_map_iff in Ew as (z & <- & Iz). exists z. split; [reflexivity|auto].
    + intros str Es. destruct c as [l|l|l|l]; cbn in Ew; apply in_map_iff in Ew as (z & <- & Iz); cbn in Es; try discriminate.
      * injection Es as <-. now apply (H2 l).
      * destruct up; discriminate.
Qed.
Lemma predict_move x e : e_priv e = None -> inv (e_gen e) -> suited_frame x ->
  fst (predict cf (mds x) (she e)) = she (fst (predict cf x e)) /\ same_res eq (snd (predict cf x e)) (snd (predict cf (mds x) (she e))) /\
  e_priv (fst (predict cf x e)) = None /\ inv (e_gen (fst (predict cf x e))).
Proof.
  intros Hp I Hx. destruct (iterrows_move x Hx) as [Ei Hr]. unfold predict. cbn [she e_generated]. destruct (e_generated e); [|split; [reflexivity|split; [reflexivity|split; [exact Hp|exact I]]]].
  rewrite Ei. assert (Eg : e_gen (she e) = shg (e_gen e)) by (unfold e_gen, she, shg; cbn; now rewrite Hp).
  change (mkEst (shs (e_map e)) (option_map shs (e_priv e)) (e_feats e) (e_proc e) true) with (she (mkEst (e_map e) (e_priv e) (e_feats e) (e_proc e) true)).
  match goal with |- context [e_gen (she ?z)] => change (e_gen (she z)) with (e_gen (she e)) end. rewrite Eg.
  destruct (rows_move (iterrows x) Hr [] (e_gen e) I) as [[E S] I'].
  destruct (predict_rows cf (iterrows x) [] (e_gen e)) as [g1 r1], (predict_rows cf (map mrow (iterrows x)) [] (shg (e_gen e))) as [g2 r2]. cbn in E, S, I'. subst g2. cbn [fst snd].
  split; [reflexivity|]. split; [exact S|]. split; [reflexivity|]. unfold e_gen, e_shared. cbn. now destruct g1.
Qed.
End State.
End Move.
