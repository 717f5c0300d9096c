(** JoinFacts.v — lemmas about join_maps and about splitting relation keys. *)
From Coq Require Import Permutation Reals Lra.
From Verif Require Import Base Num Functions Fcm Loader FcmSpec LoaderSpec BaseFacts FcmBasics FcmInv FcmInv2 FcmInv3 FcmIter FcmRun LoaderFacts.

(** ** Strings *)
Lemma append_assoc' (a b c : string) : append (append a b) c = append a (append b c).
Proof. induction a; cbn; congruence. Qed.
Lemma append_nil' (a : string) : append a "" = a.
Proof. induction a; cbn; congruence. Qed.
Lemma length_append (a b : string) : String.length (append a b) = (String.length a + String.length b)%nat.
Proof. induction a; cbn; auto. Qed.
Lemma prefix_iff sep s : prefix sep s = true <-> exists b, s = append sep b.
Proof.
  revert s. induction sep as [|c sep IH]; intros s; cbn.
  - split; [exists s; reflexivity|intros _; now destruct s].
  - destruct s as [|c' s]; cbn.
    + split; [discriminate|intros [b H]; discriminate].
    + destruct (Ascii.ascii_dec c c') as [->|Hc].
      * rewrite IH. split; intros [b H]; exists b; congruence.
      * split; [discriminate|intros [b H]; congruence].
Qed.
Lemma occurs_tail sep c s : occurs sep s -> occurs sep (String c s).
Proof. intros (a & b & ->). exists (String c a), b. reflexivity. Qed.
Lemma split_none sep s acc : ~ occurs sep s -> split_go sep s acc 0 = [append acc s].
Proof.
  revert acc. induction s as [|c s IH]; intros acc H; cbn -[prefix].
  - now rewrite append_nil'.
  - destruct (prefix sep (String c s)) eqn:E.
    + apply prefix_iff in E as [b E]. exfalso. apply H. exists "", b. exact E.
    + rewrite IH; [|intros X; apply H; now apply occurs_tail]. now rewrite append_assoc'.
Qed.
Lemma split_skip sep a s acc : split_go sep (append a s) acc (String.length a) = split_go sep s acc 0.
Proof. induction a as [|c a IH]; [reflexivity|exact IH]. Qed.
Lemma sep_prefix_short o d b : (String.length o <= 7)%nat -> o <> "" ->
  append o (append " |=====> " d) = append " |=====> " b -> False.
Proof.
  intros Hl Hn H. do 8 (destruct o as [|? o]; [cbn in H; congruence|]). cbn in Hl. lia.
Qed.
Lemma append_split (o x : string) sep b : append o x = append sep b -> (String.length sep <= String.length o)%nat ->
  exists b', o = append sep b'.
Proof.
  revert o. induction sep as [|c sep IH]; intros o H L; cbn in *; [eauto|].
  destruct o as [|c' o]; cbn in *; [lia|]. injection H as -> H. destruct (IH o H) as [b' ->]; [lia|]. exists b'. reflexivity.
Qed.
Lemma split_at_sep o d acc : ~ occurs " |=====> " (append o " ") ->
  split_go " |=====> " (append o (append " |=====> " d)) acc 0 = append acc o :: split_go " |=====> " d "" 0.
Proof.
  revert acc. induction o as [|c o IH]; intros acc H.
  - rewrite append_nil'. change (append "" (append " |=====> " d)) with (String " " (append "|=====> " d)).
    cbn [split_go]. replace (prefix " |=====> " (String " " (append "|=====> " d))) with true.
    + reflexivity.
    + symmetry. apply prefix_iff. exists d. reflexivity.
  - change (append (String c o) (append " |=====> " d)) with (String c (append o (append " |=====> " d))).
    cbn [split_go]. destruct (prefix " |=====> " (String c (append o (append " |=====> " d)))) eqn:E.
    + exfalso. apply prefix_iff in E as [b E].
      destruct (Nat.le_gt_cases (String.length (String c o)) 7) as [L|L].
      * eapply (sep_prefix_short (String c o)); eauto. discriminate.
      * apply H. assert (X : append (append (String c o) " ") (append "|=====> " d) = append " |=====> " b).
        { rewrite append_assoc'. exact E. }
        apply append_split in X as [b' X]; [|rewrite length_append; cbn in *; lia]. exists "", b'. exact X.
    + rewrite IH; [|intros X; apply H; now apply occurs_tail]. now rewrite append_assoc'.
Qed.
Lemma split_key o d : ~ occurs " |=====> " (append o " ") -> ~ occurs " |=====> " d ->
  split_str (append o (append " |=====> " d)) " |=====> " = Ok [o; d].
Proof.
  intros H1 H2. unfold split_str. rewrite split_at_sep by auto. now rewrite split_none by auto.
Qed.
(** the first piece ends no later than any occurrence *)
Lemma split_first_short sep a b acc : sep <> "" ->
  exists p l, split_go sep (append a (append sep b)) acc 0 = p :: l /\ (String.length p <= String.length acc + String.length a)%nat /\ l <> [].
Proof.
  intros Hs. revert acc. induction a as [|c a IH]; intros acc.
  - destruct sep as [|c sep]; [congruence|]. change (append "" (append (String c sep) b)) with (String c (append sep b)).
    cbn [split_go]. replace (prefix (String c sep) (String c (append sep b))) with true.
    + do 2 eexists. split; [reflexivity|]. cbn [String.length]. split; [lia|].
      replace (S (String.length sep) - 1)%nat with (String.length sep) by lia. rewrite split_skip.
      generalize "" as z. generalize (String c sep). clear. intros sep z. revert z. generalize 0%nat as k. induction b as [|c b IH]; intros k z; [discriminate|].
      cbn [split_go]. destruct k; auto. destruct (prefix _ _); [discriminate|auto].
    + symmetry. apply prefix_iff. exists b. reflexivity.
  - change (append (String c a) (append sep b)) with (String c (append a (append sep b))). cbn [split_go].
    destruct (prefix sep (String c (append a (append sep b)))) eqn:E.
    + do 2 eexists. split; [reflexivity|]. split; [lia|].
      generalize (append a (append sep b)) as z. generalize (String.length sep - 1)%nat as k. generalize "" as y. clear.
      intros y k z. revert k y. induction z as [|c z IH]; intros k y; [discriminate|].
      cbn [split_go]. destruct k; auto. destruct (prefix _ _); [discriminate|auto].
    + destruct (IH (append acc (String c ""))) as (p & l & E' & L & Hl). exists p, l. split; auto. split; auto.
      rewrite length_append in L. cbn in *. lia.
Qed.
Lemma split_key_only o d t : split_str (append o (append " |=====> " d)) " |=====> " = Ok (o :: d :: t) ->
  ~ occurs " |=====> " (append o " ") /\ ~ occurs " |=====> " d.
Proof.
  unfold split_str. intros H0.
  assert (H : split_go " |=====> " (append o (append " |=====> " d)) "" 0 = o :: d :: t) by congruence. clear H0.
  assert (H1 : ~ occurs " |=====> " (append o " ")).
  { intros (a & b & E).
    assert (X : exists b', append o (append " |=====> " d) = append a (append " |=====> " b')).
    { exists (append b (append "|=====> " d)). change (append " |=====> " d) with (append " " (append "|=====> " d)).
      rewrite <- append_assoc', E, !append_assoc'. reflexivity. }
    destruct X as [b' X]. rewrite X in H.
    destruct (split_first_short " |=====> " a b' "") as (p & l & E' & L & _); [discriminate|].
    rewrite E' in H. apply cons_eq in H as [-> _]. apply (f_equal String.length) in E. rewrite !length_append in E. cbn in *. lia. }
  split; auto. intros (a & b & ->). rewrite split_at_sep in H by auto. apply cons_eq in H as [_ H].
  destruct (split_first_short " |=====> " a b "") as (p & l & E' & L & _); [discriminate|].
  rewrite E' in H. apply cons_eq in H as [-> _]. rewrite !length_append in L. cbn in L. lia.
Qed.
Lemma key_inj o d o' d' : ~ occurs " |=====> " (append o " ") -> ~ occurs " |=====> " d ->
  ~ occurs " |=====> " (append o' " ") -> ~ occurs " |=====> " d' ->
  append o (append " |=====> " d) = append o' (append " |=====> " d') -> o = o' /\ d = d'.
Proof.
  intros A B A' B' E. pose proof (split_key o d A B) as X. rewrite E, split_key in X by auto. split; congruence.
Qed.

Section Join.
Context {F : Type} {N : Num F}.
Implicit Types s m : fcm F.

(** ** One map's contribution *)
Definition entry_ok m (c : string) (d : dict (json F)) (v : F) : Prop :=
  exists n, In (c, n) (m_topo m) /\ v = nd_value n /\
    forall x, concept_json m (c, nd_set_value x n) = Ok (JObj (dset d "activation" (JNum x))).
Lemma concept_doc m c n j : concept_json m (c, n) = Ok j ->
  exists d, j = JObj d /\ concept_entry j = Ok (c, (d, nd_value n)) /\
    forall x, concept_json m (c, nd_set_value x n) = Ok (JObj (dset d "activation" (JNum x))).
Proof.
  unfold concept_json. intros H. apply rbind_ok in H as (t & Ht & H). apply rbind_ok in H as (ac & Ha & H).
  apply rbind_ok in H as (me & Hm & H). apply rbind_ok in H as (f & Hf & H). apply rbind_ok in H as (fu & Hfu & H).
  injection H as <-. eexists. split; [reflexivity|]. split; [reflexivity|]. intros x.
  cbn [nd_type nd_active nd_mem nd_func nd_fuzzy nd_args nd_value nd_set_value]. rewrite Ht, Ha, Hm, Hf. cbn [rbind]. rewrite Hfu. reflexivity.
Qed.
Lemma fold_dset_id {A} (l d : dict A) : NoDup (dkeys (d ++ l)) -> fold_left (fun d e => dset d (fst e) (snd e)) l d = d ++ l.
Proof.
  revert d. induction l as [|[k v] l IH]; intros d H; cbn [fold_left fst snd]; [now rewrite app_nil_r|].
  rewrite dset_notin.
  - rewrite IH; rewrite <- app_assoc; [reflexivity|exact H].
  - unfold dkeys in H. rewrite map_app in H. cbn in H. apply NoDup_remove_2 in H. intros X. apply H. apply in_app_iff. now left.
Qed.
Definition ents_ok m (e : dict (dict (json F) * F)) : Prop :=
  dkeys e = concepts m /\ forall c d v, dget e c = Some (d, v) -> entry_ok m c d v.
Lemma entries_doc m cs rs : NoDup (concepts m) -> rmap (concept_json m) (m_topo m) = Ok cs ->
  exists e, concept_entries (doc_of m cs rs) = Ok e /\ ents_ok m e.
Proof.
  intros ND H. apply rmap_ok_Forall2 in H.
  assert (G : forall l, (forall p, In p l -> In p (m_topo m)) -> Forall2 (fun a b => concept_json m a = Ok b) l cs ->
    exists es, rmap concept_entry cs = Ok es /\ dkeys es = dkeys l /\ forall c d v, In (c, (d, v)) es -> entry_ok m c d v).
  { clear. revert cs. intros cs l Hl H. induction H as [|[c n] j l cs H _ IH].
    - exists []. repeat split. intros c d v [].
    - destruct IH as (es & E1 & E2 & E3); [intros p Hp; apply Hl; now right|].
      destruct (concept_doc m c n j H) as (d & -> & E & X). exists ((c, (d, nd_value n)) :: es).
      cbn [rmap]. rewrite E, E1. split; [reflexivity|]. split; [unfold dkeys in *; cbn; now rewrite E2|].
      intros c' d' v' [E'|Hi]; [|auto]. injection E' as <- <- <-. exists n. split; [apply Hl; now left|]. auto. }
  destruct (G (m_topo m) (fun p Hp => Hp) H) as (es & E1 & E2 & E3). exists es. split.
  - unfold concept_entries, doc_of, req_field, dget_exn. cbn [app dget String.eqb Ascii.eqb Bool.eqb rbind jiter]. rewrite E1. cbn [rbind].
    f_equal. apply (fold_dset_id es []). cbn [app]. rewrite E2. exact ND.
  - split; [exact E2|]. intros c d v Hg. apply E3. now apply dget_In.
Qed.
Lemma relations_doc m cs rels : map_relations (doc_of m cs rels) = Ok rels.
Proof. reflexivity. Qed.
Lemma entry_value m c d v : NoDup (concepts m) -> entry_ok m c d v -> value m c = Some v.
Proof.
  intros ND (n & Hi & -> & _). unfold value, get_concept_value. now rewrite (In_dget _ _ _ ND Hi).
Qed.

(** ** The accumulated concepts *)
Definition nodes_ok (u : bool) (done : list (fcm F)) (nodes : dict jentry) : Prop :=
  NoDup (dkeys nodes) /\
  (forall c, In c (dkeys nodes) <->
     if u then exists m, In m done /\ In c (concepts m) else forall m, In m done -> In c (concepts m)) /\
  (forall c d acc, dget nodes c = Some (d, acc) -> acc = values_of done c /\ exists m v, In m done /\ entry_ok m c d v).
Lemma first_nodes_ok u m e : NoDup (concepts m) -> ents_ok m e -> nodes_ok u [m] (first_nodes e).
Proof.
  intros ND [K E]. unfold first_nodes. split; [rewrite dkeys_dmap, K; exact ND|]. split.
  - intros c. rewrite dkeys_dmap, K. destruct u.
    + split; [intros H; exists m; split; [now left|auto]|intros (m' & [<-|[]] & H); exact H].
    + split; [intros H m' [<-|[]]; exact H|intros H; apply H; now left].
  - intros c d acc H. rewrite dget_dmap in H. destruct (dget e c) as [[d' v]|] eqn:G; [|discriminate].
    injection H as -> <-. pose proof (E c d v G) as X. split.
    + unfold values_of. cbn. now rewrite (entry_value m c d v ND X).
    + exists m, v. split; [now left|auto].
Qed.
Lemma join_union_get nodes (new : dict (dict (json F) * F)) : NoDup (dkeys nodes) -> NoDup (dkeys new) ->
  NoDup (dkeys (join_union nodes new)) /\
  forall c, dget (join_union nodes new) c =
    match dget nodes c, dget new c with
    | Some (d, acc), Some (_, v) => Some (d, acc ++ [v])
    | Some x, None => Some x
    | None, Some (d, v) => Some (d, [v])
    | None, None => None
    end.
Proof.
  unfold join_union. revert nodes. induction new as [|[k [d v]] new IH]; intros nodes N1 N2; cbn [fold_left].
  - split; auto. intros c. cbn. destruct (dget nodes c) as [[d acc]|]; reflexivity.
  - cbn in N2. inversion N2 as [|? ? X1 X2]; subst.
    set (nodes' := match dget nodes k with Some (c0, acc) => dset nodes k (c0, acc ++ [v]) | None => dset nodes k (d, [v]) end).
    assert (ND' : NoDup (dkeys nodes')) by (unfold nodes'; destruct (dget nodes k) as [[c0 acc]|]; now apply NoDup_dset).
    destruct (IH nodes' ND' X2) as [I1 I2]. split; [exact I1|]. intros c. rewrite I2. clear I1 I2.
    cbn [dget]. destruct (String.eqb_spec c k) as [->|Hc].
    + assert (Z : dget new k = None) by now apply dget_None. rewrite Z. unfold nodes'.
      destruct (dget nodes k) as [[c0 acc]|]; rewrite dget_dset_same; reflexivity.
    + assert (Z : dget nodes' c = dget nodes c).
      { unfold nodes'. destruct (dget nodes k) as [[c0 acc]|]; now apply dget_dset_other. }
      rewrite Z. reflexivity.
Qed.
Lemma join_inter_get nodes (new : dict (dict (json F) * F)) : NoDup (dkeys nodes) ->
  NoDup (dkeys (join_inter nodes new)) /\ (forall c, In c (dkeys (join_inter nodes new)) -> In c (dkeys nodes)) /\
  forall c, dget (join_inter nodes new) c =
    match dget nodes c, dget new c with
    | Some (d, acc), Some (_, v) => Some (d, acc ++ [v])
    | _, _ => None
    end.
Proof.
  unfold join_inter. induction nodes as [|[k [d acc]] nodes IH]; intros N1; cbn [flat_map].
  - split; [constructor|]. split; [auto|]. intros c. reflexivity.
  - cbn in N1. inversion N1 as [|? ? X1 X2]; subst. destruct (IH X2) as (I1 & I2 & I3).
    destruct (dget new k) as [[d' v]|] eqn:G; cbn [app].
    + cbn [dkeys map fst]. fold (dkeys (flat_map (fun e : string * (dict (json F) * list F) => let '(key, (c0, acc)) := e in match dget new key with Some (_, v) => [(key, (c0, acc ++ [v]))] | None => [] end) nodes)).
      split; [constructor; auto|]. split; [intros c [<-|H]; [now left|right; auto]|].
      intros c. cbn [dget]. destruct (String.eqb_spec c k) as [->|Hc]; [now rewrite G|apply I3].
    + split; auto. split; [intros c H; right; auto|]. intros c. cbn [dget].
      destruct (String.eqb_spec c k) as [->|Hc]; [|apply I3]. rewrite G. apply dget_None. auto.
Qed.
Lemma values_of_app (a b : list (fcm F)) c : values_of (a ++ b) c = values_of a c ++ values_of b c.
Proof. unfold values_of. apply flat_map_app. Qed.
Lemma value_concept s c : In c (concepts s) <-> exists v, value s c = Some v.
Proof.
  unfold concepts, value, get_concept_value. rewrite <- dget_Some_In. destruct (dget (m_topo s) c) as [n|].
  - split; intros _; eauto.
  - split; intros [x H]; discriminate.
Qed.
Lemma values_of_none (l : list (fcm F)) c : (forall m, In m l -> ~ In c (concepts m)) -> values_of l c = [].
Proof.
  unfold values_of. induction l as [|m l IH]; cbn; auto. intros H. rewrite IH by (intros; apply H; auto).
  destruct (value m c) eqn:E; auto. exfalso. apply (H m); auto. apply value_concept. eauto.
Qed.
Lemma join_nodes_ok u done nodes m e : nodes_ok u done nodes -> NoDup (concepts m) -> ents_ok m e ->
  nodes_ok u (done ++ [m]) (join_nodes u nodes e).
Proof.
  intros (N1 & N2 & N3) ND [K E].
  assert (Ke : NoDup (dkeys e)) by (rewrite K; exact ND).
  assert (Kc : forall c, In c (concepts m) <-> exists d v, dget e c = Some (d, v)).
  { intros c. rewrite <- K, <- dget_Some_In. split; [intros [[d v] H]; eauto|intros (d & v & H); eauto]. }
  assert (Kn : forall c, In c (dkeys nodes) <-> exists d acc, dget nodes c = Some (d, acc)).
  { intros c. rewrite <- dget_Some_In. split; [intros [[d v] H]; eauto|intros (d & v & H); eauto]. }
  assert (Ev : forall c d v, dget e c = Some (d, v) -> value m c = Some v) by (intros c d v H; apply (entry_value m c d v ND), E, H).
  destruct u; unfold join_nodes.
  - destruct (join_union_get nodes e N1 Ke) as [U1 U2]. split; auto. split.
    + intros c. transitivity (In c (dkeys nodes) \/ In c (concepts m)).
      * rewrite <- dget_Some_In, U2, Kn, Kc. destruct (dget nodes c) as [[d acc]|]; destruct (dget e c) as [[d' v]|]; split; eauto.
        -- intros [x H]; discriminate.
        -- intros [(x & y & H)|(x & y & H)]; discriminate.
      * rewrite N2. split.
        -- intros [(m' & H1 & H2)|H]; [exists m'|exists m]; rewrite in_app_iff; cbn; auto.
        -- intros (m' & H1 & H2). apply in_app_iff in H1 as [H1|[<-|[]]]; [left; eauto|right; auto].
    + intros c d acc. rewrite U2, values_of_app. unfold values_of at 2. cbn [flat_map].
      destruct (dget nodes c) as [[d0 acc0]|] eqn:G0.
      * destruct (N3 c d0 acc0 G0) as (A1 & m1 & v1 & A2 & A3). destruct (dget e c) as [[d1 v]|] eqn:G1.
        -- intros [= <- <-]. rewrite (Ev c d1 v G1), A1. split; auto. exists m1, v1. rewrite in_app_iff. auto.
        -- intros [= <- <-]. destruct (value m c) as [v|] eqn:V.
           ++ exfalso. assert (X : In c (concepts m)) by (apply value_concept; eauto). apply Kc in X as (x & y & X). congruence.
           ++ rewrite A1, app_nil_r. split; auto. exists m1, v1. rewrite in_app_iff. auto.
      * destruct (dget e c) as [[d1 v]|] eqn:G1; [|discriminate]. intros [= <- <-]. rewrite (Ev c d1 v G1).
        rewrite values_of_none.
        -- split; auto. exists m, v. rewrite in_app_iff. cbn. split; auto.
        -- intros m' Hm' Hc. apply dget_None in G0. apply G0. apply N2. eauto.
  - destruct (join_inter_get nodes e N1) as (U1 & _ & U2). split; auto. split.
    + intros c. transitivity (In c (dkeys nodes) /\ In c (concepts m)).
      * rewrite <- dget_Some_In, U2, Kn, Kc. destruct (dget nodes c) as [[d acc]|]; destruct (dget e c) as [[d' v]|]; split; eauto;
        first [intros [x H]; discriminate | intros [(x & y & H) (x' & y' & H')]; discriminate | intros _; split; eauto].
      * rewrite N2. split.
        -- intros [H1 H2] m' Hm'. apply in_app_iff in Hm' as [Hm'|[<-|[]]]; auto.
        -- intros H. split; [intros m' Hm'; apply H; apply in_app_iff; auto|apply H; apply in_app_iff; cbn; auto].
    + intros c d acc. rewrite U2, values_of_app. unfold values_of at 2. cbn [flat_map].
      destruct (dget nodes c) as [[d0 acc0]|] eqn:G0; [|discriminate].
      destruct (dget e c) as [[d1 v]|] eqn:G1; [|discriminate]. intros [= <- <-].
      destruct (N3 c d0 acc0 G0) as (A1 & m1 & v1 & A2 & A3). rewrite (Ev c d1 v G1), A1. split; auto.
      exists m1, v1. rewrite in_app_iff. auto.
Qed.
Lemma fold_nodes_ok u done nodes maps es : nodes_ok u done nodes -> Forall2 (fun m e => NoDup (concepts m) /\ ents_ok m e) maps es ->
  nodes_ok u (done ++ maps) (fold_left (join_nodes u) es nodes).
Proof.
  intros H HF. revert done nodes H. induction HF as [|m e maps es [H1 H2] _ IH]; intros done nodes H; cbn [fold_left].
  - now rewrite app_nil_r.
  - replace (done ++ m :: maps) with ((done ++ [m]) ++ maps) by (rewrite <- app_assoc; reflexivity).
    apply IH. now apply join_nodes_ok.
Qed.

(** ** The joined concepts *)
Definition zero_kept (iz : bool) (x : F) : bool := negb (neqb x n0) || negb iz.
Definition src_values (src : list (fcm F * (string * node F))) : list (string * F) :=
  map (fun p => (fst (snd p), nd_value (snd (snd p)))) src.
Lemma final_concepts_src st iz maps (nodes : dict (@jentry F)) cs :
  (forall c d acc, In (c, (d, acc)) nodes -> exists m v, In m maps /\ entry_ok m c d v) -> NoDup (dkeys nodes) ->
  final_concepts st iz nodes = Ok cs ->
  exists src, Forall2 written src cs /\ NoDup (names src) /\ (forall c, In c (names src) -> In c (dkeys nodes)) /\
    (forall c x, In (c, x) (src_values src) <->
       exists d acc, In (c, (d, acc)) nodes /\ combine_values st acc = Ok x /\ zero_kept iz x = true) /\
    forall p, In p src -> exists c n x, In (fst p) maps /\ In (c, n) (m_topo (fst p)) /\ snd p = (c, nd_set_value x n).
Proof.
  unfold final_concepts. intros HS ND H. apply rbind_ok in H as (l & H & E). injection E as <-.
  apply rmap_ok_Forall2 in H. induction H as [|[c [d acc]] [x j] nodes l H _ IH].
  - exists []. split; [constructor|]. split; [constructor|]. split; [intros c []|]. split; [|intros p []].
    intros c x. split; [intros []|intros (d & acc & [] & _)].
  - apply rbind_ok in H as (v & Hv & E). injection E as <- <-. cbn in ND. inversion ND as [|? ? X1 X2]; subst.
    destruct IH as (src & I1 & I2 & I3 & I4 & I5); [intros; eapply HS; right; eauto|auto|].
    destruct (HS c d acc (or_introl eq_refl)) as (m & v0 & Hm & n & Hn & Hv0 & Hw).
    cbn [filter fst]. change (negb (neqb v n0) || negb iz) with (zero_kept iz v). destruct (zero_kept iz v) eqn:Z.
    + exists ((m, (c, nd_set_value v n)) :: src). cbn [map snd]. split; [constructor; [exact (Hw v)|exact I1]|].
      split; [cbn; constructor; [intros Hc; apply X1; now apply I3|exact I2]|].
      split; [cbn; intros c' [<-|Hc]; [now left|right; now apply I3]|]. split.
      * intros c' x. cbn [src_values map In fst snd nd_value nd_set_value]. fold (src_values src). rewrite I4. split.
        -- intros [E|(d' & acc' & A & B & C)]; [injection E as <- <-; exists d, acc; auto|exists d', acc'; auto].
        -- intros (d' & acc' & [A|A] & B & C); [left|right; eauto]. injection A as <- <- <-. congruence.
      * intros p [<-|Hp]; [exists c, n, v; auto|auto].
    + exists src. split; auto. split; auto. split; [intros c' Hc; right; now apply I3|]. split; auto.
      intros c' x. rewrite I4. split.
      * intros (d' & acc' & A & B & C); exists d', acc'; cbn; auto.
      * intros (d' & acc' & [A|A] & B & C); [|eauto]. injection A as <- <- <-. congruence.
Qed.

(** ** The joined relations *)
Definition key (o d : string) : string := append o (append " |=====> " d).
Definition good (c : string) : Prop := ~ occurs " |=====> " (append c " ") /\ ~ occurs " |=====> " c.
Lemma key_good a b o d : good a -> good b -> good o -> good d -> key a b = key o d -> a = o /\ b = d.
Proof. intros [A _] [_ B] [C _] [_ D]. now apply key_inj. Qed.
Definition jrel (x : string * string * F) : json F := let '(o, d, w) := x in rel_doc o d w.
Definition keyed (x : string * string * F) : string * F := let '(o, d, w) := x in (key o d, w).
Lemma read_relations_doc all : rmap read_relation (map jrel all) = Ok (map keyed all).
Proof.
  rewrite (rmap_all_ok read_relation (fun j => match read_relation j with Ok x => x | Err _ => ("", n0) end)).
  - rewrite map_map. f_equal. apply map_ext. intros [[o d] w]. reflexivity.
  - intros j Hj. apply in_map_iff in Hj as ([[o d] w] & <- & _). reflexivity.
Qed.
Definition wts (k : string) (l : list (string * F)) : list F := map snd (filter (fun r => String.eqb k (fst r)) l).
Lemma group_get l : NoDup (dkeys (group_relations l)) /\
  forall k, dget (group_relations l) k = match wts k l with [] => None | ws => Some ws end.
Proof.
  unfold group_relations.
  assert (G : forall (data : dict (list F)), NoDup (dkeys data) ->
    let g := fold_left (fun data r => let '(k, w) := r in
      match dget data k with None => dset data k [w] | Some ws => dset data k (ws ++ [w]) end) l data in
    NoDup (dkeys g) /\ forall k, dget g k = match dget data k with
       | Some ws => Some (ws ++ wts k l) | None => match wts k l with [] => None | ws => Some ws end end).
  { induction l as [|[k w] l IH]; intros data ND; cbn [fold_left].
    - split; auto. intros k. cbn. destruct (dget data k); auto. now rewrite app_nil_r.
    - set (data' := match dget data k with None => dset data k [w] | Some ws => dset data k (ws ++ [w]) end).
      assert (ND' : NoDup (dkeys data')) by (unfold data'; destruct (dget data k); now apply NoDup_dset).
      destruct (IH data' ND') as [I1 I2]. split; [exact I1|]. intros k'. rewrite I2. unfold wts. cbn [filter fst].
      destruct (String.eqb_spec k' k) as [->|Hk].
      + unfold data'. destruct (dget data k); rewrite dget_dset_same; cbn; [now rewrite <- app_assoc|reflexivity].
      + replace (dget data' k') with (dget data k'); [reflexivity|]. unfold data'. destruct (dget data k); symmetry; now apply dget_dset_other. }
  exact (G [] (NoDup_nil _)).
Qed.
Lemma final_relation_shape st (nodes : dict (@jentry F)) e js : final_relation st nodes e = Ok js ->
  js = [] \/ exists o d w, js = [rel_doc o d w].
Proof.
  destruct e as [k ws]. unfold final_relation. intros H. apply rbind_ok in H as (ps & _ & H). apply rbind_ok in H as (o & _ & H).
  apply rbind_ok in H as (d & _ & H). destruct (_ && _); [|left; congruence].
  apply rbind_ok in H as (w & _ & H). injection H as <-. right. exists o, d, w. reflexivity.
Qed.
Lemma final_relation_key st (nodes : dict (@jentry F)) o d ws : good o -> good d ->
  final_relation st nodes (key o d, ws) =
  if dmem nodes o && dmem nodes d then rbind (combine_values st ws) (fun w => Ok [rel_doc o d w]) else Ok [].
Proof.
  intros [Ho _] [_ Hd]. unfold final_relation, rel_separator, key. rewrite split_key by auto. reflexivity.
Qed.
Lemma final_relations_rels st (nodes : dict (@jentry F)) g rs : rmap (final_relation st nodes) g = Ok rs ->
  exists rels, concat rs = map jrel rels /\
  ((forall k ws, In (k, ws) g -> exists o d, k = key o d /\ good o /\ good d) -> (forall c, In c (dkeys nodes) -> good c) ->
   NoDup (dkeys g) ->
   (forall o d w, In (o, d, w) rels <-> In o (dkeys nodes) /\ In d (dkeys nodes) /\ exists ws, In (key o d, ws) g /\ combine_values st ws = Ok w) /\
   NoDup (map fst rels)).
Proof.
  intros H. apply rmap_ok_Forall2 in H. induction H as [|[k ws] js g rs H _ IH].
  - exists []. split; [reflexivity|]. intros _ _ _. split; [|constructor].
    intros o d w. split; [intros []|intros (_ & _ & ws & [] & _)].
  - destruct IH as (rels & E & I).
    assert (X : exists r0, js = map jrel r0).
    { destruct (final_relation_shape _ _ _ _ H) as [->|(o & d & w & ->)]; [exists []|exists [(o, d, w)]]; reflexivity. }
    destruct X as [r0 ->]. exists (r0 ++ rels). split; [cbn; now rewrite E, map_app|].
    intros G1 G2 ND. cbn in ND. inversion ND as [|? ? X1 X2]; subst.
    destruct I as [I1 I2]; [intros; eapply G1; right; eauto|auto|auto|].
    destruct (G1 k ws (or_introl eq_refl)) as (o & d & -> & Go & Gd).
    rewrite final_relation_key in H by auto.
    assert (R : forall a b w, In (a, b, w) r0 <-> In a (dkeys nodes) /\ In b (dkeys nodes) /\ key a b = key o d /\ combine_values st ws = Ok w).
    { intros a b w. destruct (dmem nodes o && dmem nodes d) eqn:M.
      - apply andb_true_iff in M as [M1 M2]. apply dmem_In in M1, M2.
        apply rbind_ok in H as (w0 & Hw & H).
        assert (r0 = [(o, d, w0)]).
        { destruct r0 as [|[[a' b'] w'] [|? r0]]; try discriminate. unfold jrel, rel_doc in H. cbn in H. injection H as <- <- <-. reflexivity. }
        subst r0. cbn. rewrite Hw. split.
        + intros [E'|[]]. injection E' as <- <- <-. auto.
        + intros (A & B & K & W). left. apply key_good in K as [-> ->]; auto. congruence.
      - assert (r0 = []) by (destruct r0; [auto|discriminate]). subst r0. cbn. split; [intros []|].
        intros (A & B & K & W). apply key_good in K as [-> ->]; auto.
        apply dmem_In in A, B. rewrite A, B in M. discriminate. }
    split.
    + intros a b w. rewrite in_app_iff, R, I1. cbn [In]. split.
      * intros [(A & B & K & W)|(A & B & ws' & C & D)].
        -- split; auto. split; auto. exists ws. rewrite K. auto.
        -- split; auto. split; auto. exists ws'. auto.
      * intros (A & B & ws' & [C|C] & D).
        -- injection C as K <-. left. auto.
        -- right. split; auto. split; auto. exists ws'. auto.
    + rewrite map_app. destruct r0 as [|[[a b] w] r0]; [exact I2|].
      assert (r0 = []).
      { destruct (dmem nodes o && dmem nodes d); [apply rbind_ok in H as (w0 & _ & H)|]; destruct r0; try discriminate; auto. }
      subst r0. cbn. constructor; auto. intros Hi. apply in_map_iff in Hi as ([[a' b'] w'] & E' & Hi). cbn in E'. injection E' as -> ->.
      apply I1 in Hi as (_ & _ & ws' & Hi & _).
      assert (Hr : In (a, b, w) [(a, b, w)]) by now left. apply R in Hr as (_ & _ & K & _). rewrite K in Hi.
      apply X1. apply (in_map fst) in Hi. exact Hi.
Qed.
Lemma weights_flat maps a b : weights_of maps a b =
  flat_map (fun r => let '(a', b', w) := r in if String.eqb a a' && String.eqb b b' then [w] else []) (flat_map (@relations F) maps).
Proof.
  unfold weights_of. induction maps as [|m maps IH]; cbn; auto. now rewrite IH, flat_map_app.
Qed.
Lemma weights_wts (all : list (string * string * F)) a b : good a -> good b -> (forall o d w, In (o, d, w) all -> good o /\ good d) ->
  wts (key a b) (map keyed all) =
  flat_map (fun r => let '(a', b', w) := r in if String.eqb a a' && String.eqb b b' then [w] else []) all.
Proof.
  intros Ga Gb H. unfold wts. induction all as [|[[o d] w] all IH]; cbn; auto.
  destruct (H o d w (or_introl eq_refl)) as [Go Gd].
  assert (X : String.eqb (key a b) (key o d) = String.eqb a o && String.eqb b d).
  { destruct (String.eqb_spec (key a b) (key o d)) as [E|E].
    - apply key_good in E as [-> ->]; auto. now rewrite !String.eqb_refl.
    - destruct (String.eqb_spec a o) as [->|]; auto. destruct (String.eqb_spec b d) as [->|]; auto. }
  rewrite X. rewrite <- IH by (intros; eapply H; right; eauto). destruct (_ && _); reflexivity.
Qed.

(** ** Strategies *)
Lemma combine_picked st l x : str_mem st ["highest"; "lowest"; "average"] = true ->
  (picked st l x <-> l <> [] /\ combine_values st l = Ok x).
Proof.
  intros Hs. apply str_mem_In in Hs. unfold picked, combine_values. destruct l as [|a t]; [split; [intros []|intros [H _]; congruence]|].
  destruct Hs as [<-|[<-|[<-|[]]]]; cbn -[ndiv nsum nat2F pmax pmin]; split.
  all: try (intros [[_ ->]|[[X _]|[X _]]]; try discriminate X; split; [discriminate|reflexivity]).
  all: try (intros [[X _]|[[_ ->]|[X _]]]; try discriminate X; split; [discriminate|reflexivity]).
  all: try (intros [[X _]|[[X _]|[_ ->]]]; try discriminate X; split; [discriminate|reflexivity]).
  all: intros [_ X]; injection X as <-; auto.
Qed.

(** ** join_maps *)
Lemma describe_doc m d : describe m = Ok d ->
  exists cs, d = doc_of m cs (map jrel (relations m)) /\ rmap (concept_json m) (m_topo m) = Ok cs.
Proof.
  unfold describe. intros H. apply rbind_ok in H as (j & Hj & H). destruct (to_json_doc m j Hj) as (cs & H1 & _ & ->).
  injection H as <-. exists cs. split; auto.
Qed.
Definition described m (d : dict (json F)) : Prop :=
  exists cs, d = doc_of m cs (map jrel (relations m)) /\ rmap (concept_json m) (m_topo m) = Ok cs.
Lemma descs_rels maps descs : Forall2 described maps descs ->
  exists rels, rmap map_relations descs = Ok rels /\ concat rels = map jrel (flat_map (@relations F) maps).
Proof.
  induction 1 as [|m d maps descs (cs & -> & _) _ (rels & I1 & I2)]; [exists []; split; reflexivity|].
  exists (map jrel (relations m) :: rels). cbn [rmap]. rewrite relations_doc. cbn [rbind]. rewrite I1. split; [reflexivity|].
  cbn [concat flat_map]. now rewrite I2, map_app.
Qed.
Lemma descs_ents maps descs : Forall2 described maps descs -> (forall m, In m maps -> NoDup (concepts m)) ->
  exists ents, rmap concept_entries descs = Ok ents /\ Forall2 (fun m e => NoDup (concepts m) /\ ents_ok m e) maps ents.
Proof.
  induction 1 as [|m d maps descs (cs & -> & Hcs) _ IH]; intros ND; [exists []; split; [reflexivity|constructor]|].
  destruct IH as (ents & I1 & I2); [intros; apply ND; now right|].
  destruct (entries_doc m cs (map jrel (relations m)) (ND m (or_introl eq_refl)) Hcs) as (e & E1 & E2).
  exists (e :: ents). cbn [rmap]. rewrite E1. cbn [rbind]. rewrite I1. split; [reflexivity|]. constructor; auto. split; auto. apply ND. now left.
Qed.
Record strategies (cst vst rst : string) : Prop := {
  st_c : str_mem cst ["union"; "intersection"] = true;
  st_v : str_mem vst ["highest"; "lowest"; "average"] = true;
  st_r : str_mem rst ["highest"; "lowest"; "average"] = true
}.
Lemma join_unfold m maps cst vst rst iz descs : strategies cst vst rst -> (forall x, In x (m :: maps) -> NoDup (concepts x)) ->
  rmap describe (m :: maps) = Ok descs ->
  exists nodes, nodes_ok (String.eqb cst "union") (m :: maps) nodes /\
    exists c0, rmap (concept_json m) (m_topo m) = Ok c0 /\
    join_maps (m :: maps) cst vst rst iz =
    (cs <- final_concepts vst iz nodes ;;
     rs <- rmap (final_relation rst nodes) (group_relations (map keyed (flat_map (@relations F) (m :: maps)))) ;;
     text <- dumps (JObj (doc_of m cs (concat rs))) ;;
     from_json text)%res.
Proof.
  intros [S1 S2 S3] ND HD. unfold join_maps. rewrite S1, S2, S3. cbn [negb]. rewrite HD. cbn [rbind].
  assert (D : Forall2 described (m :: maps) descs).
  { apply rmap_ok_Forall2 in HD. clear -HD. induction HD; constructor; auto. now apply describe_doc. }
  destruct descs as [|d0 descs]; [inversion D|].
  destruct (descs_rels _ _ D) as (rels & R1 & R2). destruct (descs_ents _ _ D ND) as (ents & E1 & E2).
  rewrite R1, E1. cbn [rbind]. destruct ents as [|e0 es]; [inversion E2|].
  inversion E2 as [|? ? ? ? [X1 X2] X3]; subst. inversion D as [|? ? ? ? (c0 & -> & Hc0) D']; subst.
  eexists. split; [apply (fold_nodes_ok _ [m]); [apply first_nodes_ok; eauto|exact X3]|].
  exists c0. split; [exact Hc0|]. rewrite R2, read_relations_doc. cbn [rbind].
  match goal with |- rbind ?a _ = rbind ?a _ => destruct a as [cs|]; cbn [rbind]; [|reflexivity] end.
  match goal with |- rbind ?a _ = rbind ?a _ => destruct a as [rs|]; cbn [rbind]; [|reflexivity] end.
  now rewrite doc_set.
Qed.
Lemma join_strategies maps cst vst rst iz s' : join_maps maps cst vst rst iz = Ok s' -> strategies cst vst rst.
Proof.
  unfold join_maps. destruct (str_mem cst _) eqn:A; [|discriminate]. destruct (str_mem vst _) eqn:B; [|discriminate].
  destruct (str_mem rst _) eqn:C; [|discriminate]. constructor; auto.
Qed.
Lemma zero_kept_spec iz x : zero_kept iz x = true <-> (iz = true -> neqb x n0 = false).
Proof. unfold zero_kept. destruct iz, (neqb x n0); cbn; intuition congruence. Qed.
Lemma NoDup_map_filter {A B} (f : A -> B) (g : A -> bool) l : NoDup (map f l) -> NoDup (map f (filter g l)).
Proof.
  induction l as [|a l IH]; cbn; auto. intros H. inversion H as [|? ? X1 X2]; subst. destruct (g a); auto.
  cbn. constructor; auto. intros Hi. apply X1. apply in_map_iff in Hi as (x & Ex & Hi). apply filter_In in Hi as [Hi _].
  apply in_map_iff. eauto.
Qed.
Lemma join_spec m maps cst vst rst iz s' : (forall x, In x (m :: maps) -> reachable x) ->
  join_maps (m :: maps) cst vst rst iz = Ok s' ->
  (forall c v, value s' c = Some v <->
     kept cst (m :: maps) c /\ picked vst (values_of (m :: maps) c) v /\ (iz = true -> neqb v n0 = false)) /\
  (forall c v, value s' c = Some v -> history s' c = Some [v]) /\
  NoDup (concepts s') /\
  saved_settings s' = saved_settings m /\
  (forall c n', dget (m_topo s') c = Some n' ->
     nd_active n' = Some true /\ nd_exec n' = Some "KOSKO" /\ nd_mem n' = Some (m_mem m) /\
     (nd_type n' = Some TYPE_SIMPLE \/ nd_type n' = Some TYPE_DECISION)) /\
  (separator_free (m :: maps) ->
     (forall a b w, In (a, b, w) (relations s') <->
        In a (concepts s') /\ In b (concepts s') /\ picked rst (weights_of (m :: maps) a b) w) /\
     NoDup (map fst (relations s'))).
Proof.
  intros Hr E. pose proof (join_strategies _ _ _ _ _ _ E) as St.
  assert (ND : forall x, In x (m :: maps) -> NoDup (concepts x)) by (intros x Hx; apply reachable_NoDup; auto).
  destruct (rmap describe (m :: maps)) as [descs|e] eqn:HD.
  2: { unfold join_maps in E. rewrite HD, (st_c _ _ _ St), (st_v _ _ _ St), (st_r _ _ _ St) in E. discriminate. }
  destruct (join_unfold m maps cst vst rst iz descs St ND HD) as (nodes & (N1 & N2 & N3) & c0 & Hc0 & X).
  rewrite X in E. clear X.
  apply rbind_ok in E as (cs & Ecs & E). apply rbind_ok in E as (rs & Ers & E). apply rbind_ok in E as (j & Ej & E).
  apply dumps_ok in Ej as [-> _]. apply from_json_ok in E.
  destruct (final_concepts_src vst iz (m :: maps) nodes cs) as (src & W & NDs & Sub & Val & Src); auto.
  { intros c d acc Hi. apply In_dget in Hi; auto. now apply (N3 c d acc). }
  destruct (final_relations_rels rst nodes _ rs Ers) as (rels & ER & Hrels). rewrite ER in E.
  pose proof (load_doc_spec m src cs rels s' W NDs E) as R.
  assert (V : forall c v, value s' c = Some v <-> In (c, v) (src_values src)).
  { intros c v. split.
    - intros Hv. assert (Hc : In c (concepts s')) by (apply value_concept; eauto). rewrite (rl_keys _ _ _ _ R) in Hc.
      apply in_map_iff in Hc as (p & <- & Hp). destruct (reloaded_value _ _ _ _ p R NDs Hp) as [Y _].
      apply in_map_iff. exists p. split; auto. congruence.
    - intros Hv. apply in_map_iff in Hv as (p & Ep & Hp). destruct (reloaded_value _ _ _ _ p R NDs Hp) as [Y _]. congruence. }
  destruct St as [S1 S2 S3].
  assert (Kp : forall c, In c (dkeys nodes) <-> kept cst (m :: maps) c) by (intros c; rewrite N2; reflexivity).
  split.
  { intros c v. rewrite V, Val, combine_picked, <- Kp by auto. split.
    - intros (d & acc & A & B & C). pose proof (In_dget _ _ _ N1 A) as G. destruct (N3 c d acc G) as (-> & m1 & v1 & A1 & A2).
      split; [apply dget_Some_In; eauto|]. rewrite zero_kept_spec in C. split; [|auto]. split; [|auto].
      intros Z. assert (Y : value m1 c = Some v1) by (eapply entry_value; eauto).
      assert (Y' : In v1 (values_of (m :: maps) c)); [|rewrite Z in Y'; destruct Y'].
      unfold values_of. apply in_flat_map. exists m1. split; auto. rewrite Y. now left.
    - intros (A & (B & B') & C). apply dget_Some_In in A as [[d acc] A]. exists d, acc. destruct (N3 c d acc A) as (-> & _).
      split; [now apply dget_In|]. split; auto. now rewrite zero_kept_spec. }
  split.
  { intros c v Hv. apply V in Hv. apply in_map_iff in Hv as (p & Ep & Hp). destruct (reloaded_value _ _ _ _ p R NDs Hp) as [_ Y]. congruence. }
  split; [rewrite (rl_keys _ _ _ _ R); exact NDs|].
  split; [apply (rl_set _ _ _ _ R), reachable_extra, Hr; now left|].
  split.
  { intros c n' Hn. assert (Hc : In c (concepts s')) by (apply dget_Some_In; eauto). rewrite (rl_keys _ _ _ _ R) in Hc.
    apply in_map_iff in Hc as (p & <- & Hp). destruct (reloaded_node _ _ _ _ p R NDs Hp) as (n1 & Hn1 & [A B C D _ _ _]).
    rewrite Hn in Hn1. injection Hn1 as <-. destruct (rl_other _ _ _ _ R) as (O1 & _). rewrite O1 in D.
    repeat split; auto. destruct C as (t & _ & C). rewrite C. destruct (String.eqb t TYPE_DECISION); auto. }
  intros SF. set (all := flat_map (@relations F) (m :: maps)) in *.
  assert (Ga : forall o d w, In (o, d, w) all -> good o /\ good d).
  { intros o d w Hi. apply in_flat_map in Hi as (x & Hx & Hi). destruct (reachable_rel_ok x (Hr x Hx) o d w Hi) as [H1 H2].
    split; apply (SF x); auto. }
  destruct (group_get (map keyed all)) as [Gn Gg].
  assert (Gk : forall c, In c (dkeys nodes) -> good c).
  { intros c Hc. apply dget_Some_In in Hc as [[d acc] Hc]. destruct (N3 c d acc Hc) as (_ & x & v & Hx & n & Hn & _).
    apply (SF x); auto. apply dget_Some_In. exists n. apply In_dget; auto. now apply ND. }
  destruct Hrels as [Q1 Q2]; auto.
  { intros k ws Hi. apply In_dget in Hi; auto. rewrite Gg in Hi. destruct (wts k (map keyed all)) as [|w ws'] eqn:Ew; [discriminate|].
    assert (Y : In w (wts k (map keyed all))) by (rewrite Ew; now left). unfold wts in Y. apply in_map_iff in Y as ([k' w'] & _ & Y).
    apply filter_In in Y as [Y Ek]. apply in_map_iff in Y as ([[o d] w2] & Eo & Y). unfold keyed in Eo. injection Eo as <- <-. cbn [fst] in Ek.
    apply String.eqb_eq in Ek. exists o, d. split; [congruence|]. eapply Ga; eauto. }
  rewrite (rl_rels _ _ _ _ R). split.
  - intros a b w. rewrite (rl_keys _ _ _ _ R), filter_In, andb_true_iff, !str_mem_In, Q1, combine_picked by auto. split.
    + intros ((A & B & ws & C & D) & Ia & Ib). split; auto. split; auto.
      apply In_dget in C; auto. rewrite Gg, weights_wts in C; auto. unfold all in C. rewrite <- weights_flat in C.
      destruct (weights_of (m :: maps) a b) eqn:Ew; [discriminate|]. injection C as <-. split; [discriminate|auto].
    + intros (Ia & Ib & C & D). split; [|auto]. split; [auto|]. split; [auto|]. exists (weights_of (m :: maps) a b). split; [|auto].
      apply dget_In. rewrite Gg, weights_wts; auto. unfold all. rewrite <- weights_flat. destruct (weights_of (m :: maps) a b); congruence.
  - now apply NoDup_map_filter.
Qed.
End Join.
