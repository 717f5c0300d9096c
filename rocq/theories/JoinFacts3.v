(** JoinFacts3.v — joining copies of one map (C111). *)
From Verif Require Import Base BaseFacts Num Functions Fcm FcmSpec FcmBasics FcmInv FcmRun Loader LoaderSpec LoaderFacts JoinFacts JoinFacts2.

(** ** Updating every entry of a dictionary in turn *)
Lemma dget_mid {A} (a b : dict A) k v : ~ In k (dkeys a) -> dget (a ++ (k, v) :: b) k = Some v.
Proof.
  induction a as [|[k' v'] a IH]; cbn [app dget dkeys map fst]; intros H; [now rewrite String.eqb_refl|].
  destruct (String.eqb_spec k k') as [->|_]; [exfalso; apply H; now left|]. apply IH. intros X. apply H. now right.
Qed.
Lemma dset_mid {A} (a b : dict A) k v v' : ~ In k (dkeys a) -> dset (a ++ (k, v) :: b) k v' = a ++ (k, v') :: b.
Proof.
  induction a as [|[k' w] a IH]; cbn [app dset dkeys map fst]; intros H; [now rewrite String.eqb_refl|].
  destruct (String.eqb_spec k k') as [->|_]; [exfalso; apply H; now left|]. f_equal. apply IH. intros X. apply H. now right.
Qed.
Definition each {A B} (h : A -> B) (d : dict A) : dict B := map (fun e => (fst e, h (snd e))) d.
Lemma each_keys {A B} (h : A -> B) d : dkeys (each h d) = dkeys d.
Proof. unfold dkeys, each. rewrite map_map. now apply map_ext. Qed.
Lemma dmap_each {A B} (h : A -> B) (d : dict A) : dmap (fun _ => h) d = each h d.
Proof. unfold dmap, each. apply map_ext. now intros []. Qed.
(** [upd] is given the present value, if any, and the new one *)
Lemma pass_again {A B} (upd : option B -> A -> B) (h : A -> B) l : forall acc, NoDup (dkeys acc ++ dkeys l) ->
  fold_left (fun d (e : string * A) => dset d (fst e) (upd (dget d (fst e)) (snd e))) l (acc ++ each h l) = acc ++ each (fun a => upd (Some (h a)) a) l.
Proof.
  induction l as [|[k a] l IH]; intros acc ND; [reflexivity|]. cbn [each map fst snd fold_left]. fold (each h l). fold (each (fun a => upd (Some (h a)) a) l).
  assert (Nk : ~ In k (dkeys acc)).
  { cbn [dkeys map fst] in ND. apply NoDup_remove_2 in ND. intros X. apply ND, in_or_app. now left. }
  rewrite dget_mid, dset_mid by auto. cbn [fst snd].
  change (acc ++ (k, upd (Some (h a)) a) :: each h l) with (acc ++ [(k, upd (Some (h a)) a)] ++ each h l). rewrite app_assoc, IH.
  - now rewrite <- app_assoc.
  - unfold dkeys in *. rewrite map_app. cbn [map fst]. rewrite <- app_assoc. exact ND.
Qed.
Lemma pass_first {A B} (upd : option B -> A -> B) l : forall acc : dict B, NoDup (dkeys acc ++ dkeys l) ->
  fold_left (fun d (e : string * A) => dset d (fst e) (upd (dget d (fst e)) (snd e))) l acc = acc ++ each (upd None) l.
Proof.
  induction l as [|[k a] l IH]; intros acc ND; cbn [fold_left fst snd]; [now rewrite app_nil_r|].
  assert (Nk : ~ In k (dkeys acc)).
  { cbn [dkeys map fst] in ND. apply NoDup_remove_2 in ND. intros X. apply ND, in_or_app. now left. }
  rewrite (proj2 (dget_None acc k) Nk), dset_notin by auto. rewrite IH.
  - now rewrite <- app_assoc.
  - unfold dkeys in *. rewrite map_app. cbn [map fst]. rewrite <- app_assoc. exact ND.
Qed.
Lemma repeat_snoc {A} (a : A) k : repeat a k ++ [a] = repeat a (S k).
Proof. induction k; cbn in *; congruence. Qed.

Section Copies.
Context {F : Type} {N : Num F}.

(** ** The relations *)
Definition append_to (o : option (list F)) (w : F) : list F := match o with None => [w] | Some ws => ws ++ [w] end.
Lemma group_upd l acc : fold_left (fun data r => let '(k, w) := r in
    match dget data k with None => dset data k [w] | Some ws => dset data k (ws ++ [w]) end) l acc =
  fold_left (fun d (e : string * F) => dset d (fst e) (append_to (dget d (fst e)) (snd e))) l acc.
Proof. revert acc. induction l as [|[k w] l IH]; intros acc; auto. cbn [fold_left fst snd]. rewrite IH. f_equal. unfold append_to. now destruct (dget acc k). Qed.
Lemma group_copies l k : NoDup (dkeys l) -> group_relations (concat (repeat l (S k))) = each (fun w : F => repeat w (S k)) l.
Proof.
  intros ND. unfold group_relations. induction k as [|k IH].
  - cbn [repeat concat]. rewrite app_nil_r, group_upd, (pass_first append_to l []) by auto. reflexivity.
  - rewrite <- repeat_snoc, concat_app, fold_left_app, IH. cbn [concat]. rewrite app_nil_r, group_upd.
    pose proof (pass_again append_to (fun w => repeat w (S k)) l [] ND) as P. cbn [app] in P. rewrite P. unfold each. apply map_ext. intros [x w]. unfold append_to. cbn [fst snd]. now rewrite repeat_snoc.
Qed.

(** ** The concepts *)
Definition many (k : nat) (e : dict (json F) * F) : dict (json F) * list F := (fst e, repeat (snd e) k).
Definition push (o : option (dict (json F) * list F)) (e : dict (json F) * F) : dict (json F) * list F :=
  match o with Some (c0, acc) => (c0, acc ++ [snd e]) | None => (fst e, [snd e]) end.
Lemma union_upd new nodes : join_union nodes new =
  fold_left (fun d (e : string * (dict (json F) * F)) => dset d (fst e) (push (dget d (fst e)) (snd e))) new nodes.
Proof.
  unfold join_union. revert nodes. induction new as [|[k [c v]] new IH]; intros nodes; auto. cbn [fold_left fst snd]. rewrite IH. f_equal.
  unfold push, jentry in *. now destruct (dget nodes k) as [[c0 acc]|].
Qed.
Lemma nodes_step u k es : NoDup (dkeys es) -> join_nodes (F := F) u (each (many (S k)) es) es = each (many (S (S k))) es.
Proof.
  intros ND. unfold join_nodes. destruct u.
  - pose proof (pass_again push (many (S k)) es [] ND) as P. cbn [app] in P. rewrite union_upd, P. unfold each. apply map_ext. intros [x [c v]]. cbn [fst snd push many]. now rewrite repeat_snoc.
  - unfold join_inter. assert (G : forall l, incl l es -> flat_map (fun e => let '(key, (c0, acc)) := e in
      match dget es key with Some (_, v) => [(key, (c0, acc ++ [v]))] | None => [] end) (each (many (S k)) l) = each (many (S (S k))) l); [|now apply G].
    induction l as [|[x [c v]] l IH]; intros Hl; auto. cbn [each map flat_map fst snd many]. fold (each (many (S k)) l) (each (many (S (S k))) l).
    rewrite (In_dget _ _ _ ND (Hl (x, (c, v)) (or_introl eq_refl))), repeat_snoc. cbn [app]. f_equal. apply IH. intros z Hz. apply Hl. now right.
Qed.
Lemma nodes_copies u k es : NoDup (dkeys es) -> fold_left (join_nodes (F := F) u) (repeat es k) (first_nodes es) = each (many (S k)) es.
Proof.
  intros ND. induction k as [|k IH].
  - cbn [repeat fold_left]. unfold first_nodes, dmap, each. apply map_ext. now intros [x [c v]].
  - rewrite <- repeat_snoc, fold_left_app, IH. cbn [fold_left]. now apply nodes_step.
Qed.
Lemma entries_exact (m : fcm F) cs rs : NoDup (concepts m) -> Base.rmap (concept_json m) (m_topo m) = Ok cs ->
  exists es, concept_entries (doc_of m cs rs) = Ok es /\ dkeys es = concepts m /\ map (fun e => JObj (dset (fst (snd e)) "activation" (JNum (snd (snd e))))) es = cs.
Proof.
  intros ND H. apply rmap_ok_Forall2 in H.
  assert (G : forall l cs, Forall2 (fun a b => concept_json m a = Ok b) l cs ->
    exists es, Base.rmap concept_entry cs = Ok es /\ dkeys es = dkeys l /\ map (fun e => JObj (dset (fst (snd e)) "activation" (JNum (snd (snd e))))) es = cs).
  { clear. intros l cs. induction 1 as [|[c n] j l cs H _ IH]; [exists []; repeat split|].
    destruct IH as (es & E1 & E2 & E3). destruct (concept_doc m c n j H) as (d & -> & E & X). exists ((c, (d, nd_value n)) :: es).
    cbn [Base.rmap]. rewrite E, E1. split; [reflexivity|]. split; [unfold dkeys in *; cbn; now rewrite E2|]. cbn [map fst snd]. f_equal; auto.
    specialize (X (nd_value n)). replace (nd_set_value (nd_value n) n) with n in X by (destruct n; reflexivity). rewrite H in X. injection X as X. now rewrite <- X. }
  destruct (G _ _ H) as (es & E1 & E2 & E3). exists es. split; [|split; auto].
  unfold concept_entries, doc_of, req_field, dget_exn. cbn [app dget String.eqb Ascii.eqb Bool.eqb rbind jiter]. rewrite E1. cbn [rbind].
  f_equal. apply (fold_dset_id es []). cbn [app]. rewrite E2. exact ND.
Qed.
Lemma rmap_repeat {A B} (f : A -> res B) a k : Base.rmap f (repeat a (S k)) = (b <- f a ;; Ok (repeat b (S k)))%res.
Proof.
  induction k as [|k IH]; [cbn; now destruct (f a)|]. change (repeat a (S (S k))) with (a :: repeat a (S k)). cbn [Base.rmap]. rewrite IH. now destruct (f a).
Qed.
Lemma join_copies (t : fcm F) k cst vst rst : reachable t -> separator_free [t] -> NoDup (map fst (relations t)) ->
  str_mem cst ["union"; "intersection"] = true -> str_mem vst ["highest"; "lowest"; "average"] = true -> str_mem rst ["highest"; "lowest"; "average"] = true ->
  (forall v, combine_values (F := F) vst (repeat v (S k)) = Ok v) -> (forall v, combine_values (F := F) rst (repeat v (S k)) = Ok v) ->
  join_maps (repeat t (S k)) cst vst rst false = (j <- to_json t ;; from_json j)%res.
Proof.
  intros Hs SF NR S1 S2 S3 Cv Cr. unfold join_maps. rewrite S1, S2, S3. cbn [negb]. rewrite rmap_repeat.
  unfold describe at 1. destruct (to_json t) as [j|er] eqn:Ej; cbn [rbind]; [|reflexivity].
  assert (Hd : dumps j = Ok j).
  { unfold to_json in Ej. apply rbind_ok in Ej as (j0 & _ & E). pose proof E as E'. apply dumps_ok in E' as [-> _]. exact E. }
  destruct (to_json_doc t j Ej) as (cs & H1 & _ & ->). cbn [jobj rbind].
  set (rels := map (fun x => let '(o, d, w) := x in rel_doc o d w) (relations t)) in *. set (doc := doc_of t cs rels) in *.
  pose proof (reachable_NoDup t Hs) as ND. destruct (entries_exact t cs rels ND H1) as (es & E1 & E2 & E3).
  change (repeat doc (S k)) with (doc :: repeat doc k) at 1. cbv iota beta. rewrite !rmap_repeat. unfold doc at 1 2. rewrite relations_doc, E1. cbn [rbind repeat].
  rewrite nodes_copies by (rewrite E2; exact ND). cbn [repeat]. 
  assert (Fc : final_concepts vst false (each (many (S k)) es) = Ok cs).
  { unfold final_concepts. rewrite (rmap_all_ok _ (fun e => (match combine_values vst (snd (snd e)) with Ok v => v | Err _ => n0 end, JObj (dset (fst (snd e)) "activation" (JNum match combine_values vst (snd (snd e)) with Ok v => v | Err _ => n0 end))))).
    - cbn [rbind]. f_equal. rewrite filter_all; [|intros x _; apply orb_true_r]. rewrite <- E3. unfold each. rewrite !map_map. apply map_ext. intros [x [c v]]. cbn [fst snd many]. now rewrite Cv.
    - intros [x [c vs]] Hx. unfold each in Hx. apply in_map_iff in Hx as ([y [d v]] & E & _). assert (Ev : repeat v (S k) = vs) by exact (f_equal (fun z => snd (snd z)) E). cbn [fst snd]. rewrite <- Ev. now rewrite Cv. }
  rewrite Fc. cbn [rbind]. change (rels :: repeat rels k) with (repeat rels (S k)).
  assert (Ck : concat (repeat rels (S k)) = map jrel (concat (repeat (relations t) (S k)))).
  { rewrite concat_map. f_equal. unfold rels. clear. generalize (S k). intros n. induction n; cbn; f_equal; auto. }
  rewrite Ck, read_relations_doc. cbn [rbind].
  assert (Kk : map keyed (concat (repeat (relations t) (S k))) = concat (repeat (map keyed (relations t)) (S k))).
  { rewrite concat_map. f_equal. clear. generalize (S k). intros n. induction n; cbn; f_equal; auto. }
  assert (Gd : forall o d w, In (o, d, w) (relations t) -> good o /\ good d).
  { intros o d w H. destruct (reachable_rel_ok t Hs o d w H). split; apply (SF t); auto; now left. }
  rewrite Kk, group_copies.
  2: { unfold dkeys. rewrite map_map. clear - NR Gd. induction (relations t) as [|[[o d] w] l IH]; [constructor|]. cbn [map fst] in NR |- *. apply NoDup_cons_iff in NR as [N1 N2]. constructor.
    - intros H. apply in_map_iff in H as ([[o' d'] w'] & E & H). cbn [keyed fst] in E. destruct (Gd o d w (or_introl eq_refl)), (Gd o' d' w' (or_intror H)).
      apply key_good in E as [-> ->]; auto. apply N1. apply in_map_iff. now exists (o, d, w').
    - apply IH; auto. intros; apply (Gd o0 d0 w0). now right. }
  assert (Fr : Base.rmap (final_relation rst (each (many (S k)) es)) (each (fun w : F => repeat w (S k)) (map keyed (relations t))) = Ok (map (fun r => [jrel r]) (relations t))).
  { assert (G : forall l, incl l (relations t) -> Base.rmap (final_relation rst (each (many (S k)) es)) (each (fun w : F => repeat w (S k)) (map keyed l)) = Ok (map (fun r => [jrel r]) l)); [|now apply G].
    induction l as [|[[o d] w] l IH]; intros Hl; auto. cbn [map keyed].
    change (each (fun w : F => repeat w (S k)) ((key o d, w) :: map keyed l)) with ((key o d, repeat w (S k)) :: each (fun w : F => repeat w (S k)) (map keyed l)). cbn [Base.rmap]. pose proof (Hl _ (or_introl eq_refl)) as Hr. destruct (Gd o d w Hr) as [Go Gd'].
    rewrite final_relation_key by auto. destruct (reachable_rel_ok t Hs o d w Hr) as [Ho Hd'].
    assert (M : forall c, In c (concepts t) -> dmem (each (many (S k)) es) c = true).
    { intros c Hc. unfold dmem. rewrite <- E2, <- (each_keys (many (S k)) es) in Hc. apply dget_Some_In in Hc as [v ->]. reflexivity. }
    rewrite !M by auto. cbn [andb]. rewrite Cr. cbn [rbind]. rewrite IH; [reflexivity|]. intros z Hz. apply Hl. now right. }
  rewrite Fr. cbn [rbind]. unfold doc. rewrite doc_set.
  assert (Cj : concat (map (fun r => [jrel r]) (relations t)) = rels).
  { unfold rels. clear. induction (relations t) as [|[[o d] w] l IH]; cbn; f_equal; auto. }
  rewrite Cj. fold doc. rewrite Hd. reflexivity.
Qed.
Lemma highest_copies k (v : F) : combine_values "highest" (repeat v (S k)) = Ok v.
Proof. unfold combine_values. cbn. f_equal. induction k; auto. cbn. now destruct (nltb v v). Qed.
Lemma lowest_copies k (v : F) : combine_values "lowest" (repeat v (S k)) = Ok v.
Proof. unfold combine_values. cbn. f_equal. induction k; auto. cbn. now destruct (nltb v v). Qed.
End Copies.

(** ** Joining in two steps *)
Section Steps.
Context {F : Type} {N : Num F}.
Lemma join_reachable (maps : list (fcm F)) cst vst rst iz s : maps <> [] -> (forall m, In m maps -> reachable m) -> join_maps maps cst vst rst iz = Ok s -> reachable s.
Proof.
  intros Hm Hr E. destruct maps as [|m maps]; [congruence|]. pose proof (join_strategies _ _ _ _ _ _ E) as St.
  assert (ND : forall x, In x (m :: maps) -> NoDup (concepts x)) by (intros x Hx; apply reachable_NoDup; auto).
  destruct (Base.rmap describe (m :: maps)) as [descs|e] eqn:HD.
  2: { unfold join_maps in E. rewrite HD, (st_c _ _ _ St), (st_v _ _ _ St), (st_r _ _ _ St) in E. discriminate. }
  destruct (join_unfold m maps cst vst rst iz descs St ND HD) as (nodes & _ & c0 & _ & X). rewrite X in E.
  apply rbind_ok in E as (cs & _ & E). apply rbind_ok in E as (rs & _ & E). apply rbind_ok in E as (j & _ & E).
  apply load_sane in E as (E & _). apply sane_runs_sane in E. eapply from_fresh_reachable; eauto.
Qed.
(** the largest or smallest of a list may be taken of a part first *)
Lemma picked_step st (a b : list F) x : In st ["highest"; "lowest"] -> picked st a x -> forall y, picked st (x :: b) y <-> picked st (a ++ b) y.
Proof.
  intros Hs Hx y. destruct a as [|z a]; [destruct Hx|]. cbn [app picked] in *.
  destruct Hs as [<-|[<-|[]]]; destruct Hx as [[E ->]|[[E ->]|[E ->]]]; try discriminate E; unfold pmax, pmin; rewrite !fold_left_app;
    (split; intros [[E' ->]|[[E' ->]|[E' ->]]]; try discriminate E'; auto).
Qed.
Lemma values_in (l : list (fcm F)) c v : In v (values_of l c) <-> exists m, In m l /\ value m c = Some v.
Proof.
  unfold values_of. rewrite in_flat_map. split; intros (m & Hm & H); exists m; split; auto.
  - destruct (value m c); [|destruct H]. destruct H as [->|[]]. reflexivity.
  - rewrite H. now left.
Qed.
Lemma weights_app (l l' : list (fcm F)) a b : weights_of (l ++ l') a b = weights_of l a b ++ weights_of l' a b.
Proof. unfold weights_of. apply flat_map_app. Qed.
Lemma weights_in (l : list (fcm F)) a b w : In w (weights_of l a b) <-> exists m, In m l /\ In (a, b, w) (relations m).
Proof.
  unfold weights_of. rewrite in_flat_map. split; intros (m & Hm & H); exists m; split; auto.
  - apply in_flat_map in H as ([[a' b'] w'] & Hr & H). destruct (String.eqb_spec a a') as [<-|]; [|destruct H]. destruct (String.eqb_spec b b') as [<-|]; [|destruct H].
    destruct H as [->|[]]. exact Hr.
  - apply in_flat_map. exists (a, b, w). split; auto. rewrite !String.eqb_refl. now left.
Qed.
Lemma weights_one (s : fcm F) a b w : NoDup (map fst (relations s)) -> In (a, b, w) (relations s) -> weights_of [s] a b = [w].
Proof.
  unfold weights_of. cbn [flat_map]. rewrite app_nil_r. induction (relations s) as [|[[a' b'] w'] l IH]; intros ND H; [destruct H|].
  cbn [map fst] in ND. apply NoDup_cons_iff in ND as [Ni ND]. cbn [flat_map]. destruct H as [H|H].
  - injection H as -> -> ->. rewrite !String.eqb_refl. cbn [andb app]. f_equal. clear - Ni. induction l as [|[[a' b'] w'] l IH]; auto. cbn [flat_map map fst] in *.
    rewrite IH by (intros X; apply Ni; now right). destruct (String.eqb_spec a a') as [<-|]; auto. destruct (String.eqb_spec b b') as [<-|]; auto. exfalso. apply Ni. now left.
  - rewrite (IH ND H). destruct (String.eqb_spec a a') as [<-|]; auto. destruct (String.eqb_spec b b') as [<-|]; auto. exfalso. apply Ni. apply in_map_iff. now exists (a, b, w).
Qed.
Lemma picked_some st (l : list F) : In st ["highest"; "lowest"; "average"] -> l <> [] -> exists x, picked st l x.
Proof. intros Hs Hl. destruct l as [|a t]; [congruence|]. cbn. destruct Hs as [<-|[<-|[<-|[]]]]; eauto. Qed.
Lemma picked_nonempty st (l : list F) x : picked st l x -> l <> [].
Proof. intros H ->. exact H. Qed.

Variables (m : fcm F) (ms ms' : list (fcm F)) (cst vst rst : string) (s1 s2 s : fcm F).
Hypothesis Hr : forall x, In x (m :: ms ++ ms') -> reachable x.
Hypothesis E1 : join_maps (m :: ms) cst vst rst false = Ok s1.
Hypothesis E2 : join_maps (s1 :: ms') cst vst rst false = Ok s2.
Hypothesis E : join_maps (m :: ms ++ ms') cst vst rst false = Ok s.
Lemma step_reach1 x : In x (m :: ms) -> reachable x.
Proof. intros H. apply Hr. cbn [In] in *. rewrite in_app_iff. tauto. Qed.
Lemma step_reach2 x : In x (s1 :: ms') -> reachable x.
Proof.
  intros [<-|H].
  - eapply (join_reachable (m :: ms)); eauto; [discriminate|]. apply step_reach1.
  - apply Hr. cbn [In]. rewrite in_app_iff. tauto.
Qed.
Lemma step_kept c : In c (concepts s1) <-> kept cst (m :: ms) c.
Proof.
  destruct (join_spec m ms cst vst rst false s1 step_reach1 E1) as (A & _). rewrite value_concept. split.
  - intros [v H]. now apply A in H.
  - intros K. assert (Nz : values_of (m :: ms) c <> []).
    { assert (X : exists x, In x (m :: ms) /\ In c (concepts x)).
      { unfold kept in K. destruct (String.eqb cst "union"); auto. exists m. split; [now left|]. apply K. now left. }
      destruct X as (x & Hx & Hc). apply value_concept in Hc as [v Hv]. intros Z. assert (Y : In v (values_of (m :: ms) c)) by (apply values_in; eauto).
      rewrite Z in Y. destruct Y. }
    destruct (picked_some vst _ (proj1 (str_mem_In _ _) (st_v _ _ _ (join_strategies _ _ _ _ _ _ E1))) Nz) as [v Hv]. exists v. apply A. split; auto. split; auto. discriminate.
Qed.
Lemma step_kept_all c : kept cst (s1 :: ms') c <-> kept cst (m :: ms ++ ms') c.
Proof.
  pose proof (step_kept c) as K. unfold kept in *. destruct (String.eqb cst "union").
  - split.
    + intros (x & [<-|Hx] & Hc).
      * apply K in Hc as (y & Hy & Hc). exists y. split; auto. cbn [In] in *. rewrite in_app_iff. tauto.
      * exists x. split; auto. cbn [In]. rewrite in_app_iff. tauto.
    + intros (x & Hx & Hc). assert (In x (m :: ms) \/ In x ms') as [X|X] by (cbn [In] in *; rewrite in_app_iff in Hx; tauto).
      * exists s1. split; [now left|]. apply K. eauto.
      * exists x. split; [now right|auto].
  - split.
    + intros H x Hx. assert (In x (m :: ms) \/ In x ms') as [X|X] by (cbn [In] in *; rewrite in_app_iff in Hx; tauto).
      * apply (proj1 K); auto. apply H. now left.
      * apply H. now right.
    + intros H x [<-|Hx].
      * apply K. intros y Hy. apply H. cbn [In] in *. rewrite in_app_iff. tauto.
      * apply H. cbn [In]. rewrite in_app_iff. tauto.
Qed.
Lemma step_values : In vst ["highest"; "lowest"] -> forall c, value s2 c = value s c.
Proof.
  intros Hv c. destruct (join_spec m ms cst vst rst false s1 step_reach1 E1) as (A1 & _). destruct (join_spec s1 ms' cst vst rst false s2 step_reach2 E2) as (A2 & _).
  destruct (join_spec m (ms ++ ms') cst vst rst false s Hr E) as (A & _).
  assert (G : forall v, value s2 c = Some v <-> value s c = Some v).
  { intros v. rewrite A2, A, step_kept_all. assert (Q : kept cst (m :: ms ++ ms') c -> (picked vst (values_of (s1 :: ms') c) v <-> picked vst (values_of (m :: ms ++ ms') c) v)).
    { intros K. change (m :: ms ++ ms') with ((m :: ms) ++ ms'). rewrite values_of_app. destruct (value s1 c) as [v1|] eqn:V1.
      - assert (Ev : values_of (s1 :: ms') c = v1 :: values_of ms' c) by (unfold values_of; cbn [flat_map]; now rewrite V1). rewrite Ev. apply picked_step; auto. now apply A1 in V1.
      - assert (Nc : ~ In c (concepts s1)) by (intros H; apply value_concept in H as [z H]; congruence).
        assert (Ev : values_of (s1 :: ms') c = values_of ms' c) by (unfold values_of; cbn [flat_map]; now rewrite V1). rewrite Ev.
        assert (Z : values_of (m :: ms) c = []); [|now rewrite Z]. destruct (values_of (m :: ms) c) as [|z l] eqn:Z; auto. exfalso. apply Nc, step_kept.
        assert (Hz : In z (values_of (m :: ms) c)) by (rewrite Z; now left). apply values_in in Hz as (x & Hx & Hz).
        unfold kept in *. destruct (String.eqb cst "union"); [exists x; split; auto; apply value_concept; eauto|]. intros y Hy. apply K. cbn [In] in *. rewrite in_app_iff. tauto. }
    split; intros (K & P & X); (split; [exact K|split; [now apply (Q K)|exact X]]). }
  destruct (value s2 c) as [v|] eqn:V.
  - symmetry. now apply G.
  - destruct (value s c) as [v|] eqn:V'; auto. assert (X : None = Some v) by now apply G. discriminate.
Qed.
Lemma step_concepts c : In c (concepts s2) <-> In c (concepts s).
Proof.
  assert (G : forall (x : fcm F) l z, (forall y, In y (x :: l) -> reachable y) -> join_maps (x :: l) cst vst rst false = Ok z -> In c (concepts z) <-> kept cst (x :: l) c).
  { intros x l z Hx Ez. destruct (join_spec x l cst vst rst false z Hx Ez) as (A & _). rewrite value_concept. split.
    - intros [v H]. now apply A in H.
    - intros K. assert (Nz : values_of (x :: l) c <> []).
      { assert (X : exists y, In y (x :: l) /\ In c (concepts y)).
        { unfold kept in K. destruct (String.eqb cst "union"); auto. exists x. split; [now left|]. apply K. now left. }
        destruct X as (y & Hy & Hc). apply value_concept in Hc as [v Hv]. intros Z. assert (Y : In v (values_of (x :: l) c)) by (apply values_in; eauto).
        rewrite Z in Y. destruct Y. }
      destruct (picked_some vst _ (proj1 (str_mem_In _ _) (st_v _ _ _ (join_strategies _ _ _ _ _ _ Ez))) Nz) as [v Hv]. exists v. apply A. split; auto. split; auto. discriminate. }
  rewrite (G _ _ _ step_reach2 E2), (G _ _ _ Hr E). apply step_kept_all.
Qed.
Hypothesis SF : separator_free (m :: ms ++ ms').
Lemma step_weights : In rst ["highest"; "lowest"] -> forall a b w, In (a, b, w) (relations s2) <-> In (a, b, w) (relations s).
Proof.
  intros Hw a b w.
  assert (SF1 : separator_free (m :: ms)).
  { intros x c Hx. apply SF. cbn [In] in *. rewrite in_app_iff. tauto. }
  assert (SF2 : separator_free (s1 :: ms')).
  { intros x c [<-|Hx] Hc; [|apply (SF x); auto; cbn [In]; rewrite in_app_iff; tauto]. apply step_kept in Hc. unfold kept in Hc. destruct (String.eqb cst "union").
    - destruct Hc as (y & Hy & Hc). now apply (SF1 y c).
    - apply (SF1 m c); [now left|]. apply Hc. now left. }
  destruct (join_spec m ms cst vst rst false s1 step_reach1 E1) as (_ & _ & _ & _ & _ & B1). destruct (B1 SF1) as [R1 N1].
  destruct (join_spec s1 ms' cst vst rst false s2 step_reach2 E2) as (_ & _ & _ & _ & _ & B2). destruct (B2 SF2) as [R2 _].
  destruct (join_spec m (ms ++ ms') cst vst rst false s Hr E) as (_ & _ & _ & _ & _ & B). destruct (B SF) as [R0 _].
  rewrite R2, R0, !step_concepts.
  assert (Q : In a (concepts s) -> In b (concepts s) -> picked rst (weights_of (s1 :: ms') a b) w <-> picked rst (weights_of (m :: ms ++ ms') a b) w).
  { intros Ha Hb. change (m :: ms ++ ms') with ((m :: ms) ++ ms'). change (s1 :: ms') with ([s1] ++ ms'). rewrite !weights_app.
    destruct (weights_of (m :: ms) a b) as [|w0 l] eqn:W.
    - assert (Z : weights_of [s1] a b = []); [|now rewrite Z]. destruct (weights_of [s1] a b) as [|z t] eqn:Z; auto. exfalso.
      assert (Hz : In z (weights_of [s1] a b)) by (rewrite Z; now left). apply weights_in in Hz as (x & [<-|[]] & Hz). apply R1 in Hz as (_ & _ & Hz). now rewrite W in Hz.
    - rewrite <- W. destruct (picked_some rst (weights_of (m :: ms) a b)) as [w1 Hw1]; [destruct Hw as [<-|[<-|[]]]; cbn; tauto|now rewrite W|].
      assert (Ends : In a (concepts s1) /\ In b (concepts s1)).
      { assert (Hx : In w0 (weights_of (m :: ms) a b)) by (rewrite W; now left). apply weights_in in Hx as (x & Hx & Hre).
        destruct (reachable_rel_ok x (step_reach1 x Hx) a b w0 Hre) as [Xa Xb].
        assert (K : forall c, In c (concepts s) -> In c (concepts x) -> In c (concepts s1)).
        { intros c Hc Hcx. apply step_kept. pose proof (proj1 (step_kept_all c)) as K. apply step_concepts in Hc.
          unfold kept. destruct (String.eqb cst "union") eqn:U; [eauto|]. destruct (join_spec s1 ms' cst vst rst false s2 step_reach2 E2) as (A2 & _).
          apply value_concept in Hc as [v Hc]. apply A2 in Hc as (Hk & _). apply K in Hk. unfold kept in Hk. rewrite U in Hk. intros y Hy. apply Hk. cbn [In] in *. rewrite in_app_iff. tauto. }
        split; apply K; auto. }
      assert (Hin : In (a, b, w1) (relations s1)) by (apply R1; destruct Ends; auto).
      rewrite (weights_one s1 a b w1 N1 Hin). cbn [app]. now apply picked_step. }
  split; intros (Ha & Hb & P); (split; [auto|split; [auto|now apply (Q Ha Hb)]]).
Qed.
Lemma step_settings : saved_settings s2 = saved_settings s.
Proof.
  destruct (join_spec m ms cst vst rst false s1 step_reach1 E1) as (_ & _ & _ & B1 & _).
  destruct (join_spec s1 ms' cst vst rst false s2 step_reach2 E2) as (_ & _ & _ & B2 & _).
  destruct (join_spec m (ms ++ ms') cst vst rst false s Hr E) as (_ & _ & _ & B & _). congruence.
Qed.
End Steps.
