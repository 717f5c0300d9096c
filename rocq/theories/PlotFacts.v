(** PlotFacts.v — proofs about the drawing methods. *)
From Verif Require Import Base BaseFacts Num Functions Fcm FcmSpec FcmInv FcmInv2 FcmInv3 FcmIter FcmRun FcmRun2 FcmRun3 Plot.

Section PlotFacts.
Context {F : Type} {N : Num F}.
Implicit Types s : fcm F.

Lemma rfold_filter {A B} (f : list B -> A -> res (list B)) (P : A -> bool) (g : A -> B) l :
  (forall a acc, In a l -> f acc a = Ok (if P a then acc ++ [g a] else acc)) ->
  forall acc, rfold f l acc = Ok (acc ++ map g (filter P l)).
Proof.
  induction l as [|a l IH]; intros H acc; cbn [rfold filter map]; [now rewrite app_nil_r|].
  rewrite (H a acc) by now left. cbn [rbind]. rewrite IH by (intros b acc' Hb; apply H; now right).
  destruct (P a); cbn [map]; [now rewrite <- app_assoc|reflexivity].
Qed.
Lemma map_fst_filter {B} (P : string -> bool) (l : dict B) : map fst (filter (fun p => P (fst p)) l) = filter P (dkeys l).
Proof. unfold dkeys. induction l as [|[k b] l IH]; cbn; auto. destruct (P k); cbn; now rewrite IH. Qed.

Definition shown (t : string) s (c : string) : bool :=
  match dget (m_topo s) c with
  | Some n => match nd_type n with
              | Some ty => if String.eqb t "target" then String.eqb ty TYPE_DECISION || String.eqb ty TYPE_REGRESOR
                           else if String.eqb t "all" then true else String.eqb ty t
              | None => false
              end
  | None => false
  end.
Lemma plot_lines_shape limit t s : sane s ->
  plot_lines limit t s = Ok (map (fun ch => (fst ch, drawn_part limit (snd ch))) (filter (fun ch => shown t s (fst ch)) (m_exec s))).
Proof.
  intros Hs. destruct (sane_parts s Hs) as (ND & Hf & K & _). unfold plot_lines.
  rewrite (rfold_filter _ (fun ch => shown t s (fst ch)) (fun ch => (fst ch, drawn_part limit (snd ch)))); auto.
  intros [c h] acc Hi. cbn [fst snd].
  assert (Hc : In c (dkeys (m_topo s))) by (rewrite <- K; apply (in_map fst _ _ Hi)).
  apply dget_Some_In in Hc as [n Hn]. unfold shown, dget_exn. rewrite Hn. cbn [rbind].
  destruct (Hf c n Hn) as (_ & Ht & _). destruct (nd_type n) as [ty|]; [|congruence]. cbn [oget rbind].
  destruct (String.eqb t "target"); [reflexivity|]. destruct (String.eqb t "all"); reflexivity.
Qed.
Lemma shown_final t s : sane s -> t <> "any" -> t <> "all" ->
  exists l, get_final_state t [] s = Ok l /\ dkeys l = filter (shown t s) (concepts s).
Proof.
  intros Hs N1 N2. destruct (sane_parts s Hs) as (ND & _). rewrite (final_state_type t s Hs). eexists. split; [reflexivity|].
  unfold select, concepts. rewrite <- (map_fst_filter (shown t s) (m_topo s)). unfold dkeys. rewrite map_map. cbn [fst].
  f_equal. apply filter_ext_in. intros [c n] Hi. cbn [fst snd].
  unfold shown, wanted. rewrite (In_dget _ _ _ ND Hi). destruct (nd_type n); auto.
  apply String.eqb_neq in N1, N2. rewrite N1, N2. reflexivity.
Qed.
Lemma drawn_spec limit (h : list F) : exists rest, h = drawn_part limit h ++ rest /\
  Z.of_nat (length (drawn_part limit h)) = (if (0 <? limit) && (limit <? Z.of_nat (length h)) then limit else Z.of_nat (length h))%Z%bool.
Proof.
  unfold drawn_part. cbv zeta. rewrite (Bool.andb_comm (limit <? _)%Z). eexists. split; [symmetry; apply firstn_skipn|].
  rewrite firstn_length.
  destruct (Z.ltb_spec 0 limit), (Z.ltb_spec limit (Z.of_nat (length h))); cbn [andb]; lia.
Qed.

(** ** the graph *)
Lemma edge_nodes g e : g_nodes (add_edge g e) = g_nodes (add_graph_node (snd e) (add_graph_node (fst e) g)).
Proof. unfold add_edge. destruct (existsb _ _); reflexivity. Qed.
Lemma add_known v g : In v (g_nodes g) -> add_graph_node v g = g.
Proof. intros H. unfold add_graph_node. now rewrite (proj2 (str_mem_In _ _) H). Qed.
Lemma add_edge_known g e : In (fst e) (g_nodes g) -> In (snd e) (g_nodes g) ->
  add_edge g e = if existsb (same_edge e) (g_edges g) then g else mkGraph (g_nodes g) (g_edges g ++ [e]).
Proof. intros H1 H2. unfold add_edge. now rewrite (add_known (fst e) g H1), (add_known (snd e) g H2). Qed.
Lemma same_edge_spec e f : same_edge e f = true <-> e = f \/ e = (snd f, fst f).
Proof.
  destruct e as [a b], f as [c d]. unfold same_edge. cbn [fst snd]. rewrite Bool.orb_true_iff, !Bool.andb_true_iff, !String.eqb_eq.
  split; [intros [[-> ->]|[-> ->]]; auto|intros [[= -> ->]|[= -> ->]]; auto].
Qed.
Definition joined (g : graph) (a b : string) : Prop := In (a, b) (g_edges g) \/ In (b, a) (g_edges g).
(** each edge is kept once *)
Definition simple (g : graph) : Prop :=
  forall i j e f, nth_error (g_edges g) i = Some e -> nth_error (g_edges g) j = Some f -> same_edge e f = true -> i = j.
Lemma add_edge_joined g e a b : In (fst e) (g_nodes g) -> In (snd e) (g_nodes g) ->
  (joined (add_edge g e) a b <-> joined g a b \/ e = (a, b) \/ e = (b, a)).
Proof.
  intros H1 H2. rewrite (add_edge_known g e H1 H2). destruct (existsb (same_edge e) (g_edges g)) eqn:E.
  - split; auto. intros [H|H]; auto. apply existsb_exists in E as (f & Hf & Hs). apply same_edge_spec in Hs.
    unfold joined. destruct f as [c d]. cbn [fst snd] in Hs. destruct Hs as [->| ->], H as [[= -> ->]|[= -> ->]]; auto.
  - unfold joined. cbn [g_edges]. rewrite !in_app_iff. cbn [In]. tauto.
Qed.
Lemma same_edge_sym e f : same_edge e f = same_edge f e.
Proof.
  apply Bool.eq_iff_eq_true. rewrite !same_edge_spec. destruct e, f. cbn. split; intros [[= -> ->]|[= -> ->]]; auto.
Qed.
Lemma add_edge_simple g e : In (fst e) (g_nodes g) -> In (snd e) (g_nodes g) -> simple g -> simple (add_edge g e).
Proof.
  intros H1 H2 S. rewrite (add_edge_known g e H1 H2). destruct (existsb (same_edge e) (g_edges g)) eqn:E; auto.
  assert (X : forall f, In f (g_edges g) -> same_edge e f = false).
  { intros f Hf. destruct (same_edge e f) eqn:Y; auto. rewrite <- E. symmetry. apply existsb_exists. eauto. }
  intros i j x y Hx Hy Hxy. cbn [g_edges] in Hx, Hy.
  assert (L : forall k z, nth_error (g_edges g ++ [e]) k = Some z -> (nth_error (g_edges g) k = Some z /\ In z (g_edges g)) \/ (k = length (g_edges g) /\ z = e)).
  { intros k z H. destruct (Nat.lt_ge_cases k (length (g_edges g))) as [L|L].
    - rewrite nth_error_app1 in H by auto. left. split; auto. eapply nth_error_In; eauto.
    - rewrite nth_error_app2 in H by auto. destruct (k - length (g_edges g)) as [|[|q]] eqn:Q; cbn in H; try discriminate. injection H as <-. right. split; [lia|auto]. }
  destruct (L i x Hx) as [[Ix Nx]|[-> ->]], (L j y Hy) as [[Iy Ny]|[-> ->]]; auto.
  - exact (S _ _ _ _ Ix Iy Hxy).
  - rewrite same_edge_sym, (X x Nx) in Hxy. discriminate.
  - rewrite (X y Ny) in Hxy. discriminate.
Qed.
Lemma fold_edges (es : list (string * string)) : forall g,
  (forall e, In e es -> In (fst e) (g_nodes g) /\ In (snd e) (g_nodes g)) ->
  let g' := fold_left add_edge es g in
  g_nodes g' = g_nodes g /\ (simple g -> simple g') /\
  forall a b, joined g' a b <-> joined g a b \/ In (a, b) es \/ In (b, a) es.
Proof.
  induction es as [|e es IH]; intros g H; cbn [fold_left]; [cbn; tauto|].
  destruct (H e) as [H1 H2]; [now left|].
  assert (En : g_nodes (add_edge g e) = g_nodes g) by (rewrite (add_edge_known g e H1 H2); destruct (existsb _ _); reflexivity).
  destruct (IH (add_edge g e)) as (I1 & I2 & I3).
  { intros f Hf. rewrite En. apply H. now right. }
  split; [congruence|]. split; [intros S; now apply I2, add_edge_simple|].
  intros a b. rewrite (I3 a b), (add_edge_joined g e a b H1 H2). cbn [In]. tauto.
Qed.
Lemma plot_topology_shape path fig s :
  plot_topology path fig s =
    (append path (append fig ".png"),
     fold_left add_edge (flat_map (fun cn => map (fun a => (fst cn, fst a)) (nd_arcs (snd cn))) (m_topo s)) (mkGraph (concepts s) [])).
Proof.
  unfold plot_topology, concepts. f_equal. generalize (mkGraph (dkeys (m_topo s)) []).
  induction (m_topo s) as [|[c n] t IH]; intros g; cbn [fold_left flat_map fst snd]; auto.
  rewrite fold_left_app, <- IH. f_equal. clear. revert g. induction (nd_arcs n) as [|a l IH]; intros g; cbn; auto.
Qed.
End PlotFacts.

Section PlotFacts2.
Context {F : Type} {N : Num F}.

Lemma topology_graph mi ex st sd de me ac kw (s0 : fcm F) ops path fig :
  init_fcm mi ex st sd de me ac kw = Ok s0 -> fresh_adds ops s0 -> ok_when is_add_relation ops s0 ->
  let s := run_ops ops s0 in
  let g := snd (plot_topology path fig s) in
  fst (plot_topology path fig s) = append path (append fig ".png") /\
  g_nodes g = concepts s /\ simple g /\
  forall a b, joined g a b <-> exists w, In (a, b, w) (relations s) \/ In (b, a, w) (relations s).
Proof.
  intros H1 H2 H3 s g. subst g. rewrite plot_topology_shape. cbn [fst snd]. split; [reflexivity|].
  assert (R : reachable s) by (exists mi, ex, st, sd, de, me, ac, kw, s0, ops; auto).
  pose proof (reachable_NoDup s R) as ND.
  assert (E : forall a b, In (a, b) (flat_map (fun cn => map (fun x => (fst cn, fst x)) (nd_arcs (snd cn))) (m_topo s)) <->
                          exists w, In (a, b, w) (relations s)).
  { intros a b. rewrite in_flat_map. split.
    - intros ([c n] & Hc & Hi). cbn [fst snd] in Hi. apply in_map_iff in Hi as ([d w] & [= <- <-] & Hw). cbn [fst].
      pose proof (in_map fst _ _ Hc) as Hin. cbn [fst] in Hin.
      pose proof (outgoing_links mi ex st sd de me ac kw s0 ops H1 H2 H3 c Hin) as O. fold s in O.
      unfold get_concept_outgoing_relations in O. rewrite (In_dget _ _ _ ND Hc) in O. rewrite O in Hw.
      unfold outgoing in Hw. apply in_map_iff in Hw as ([[a b] w'] & [= <- <-] & Hf). apply filter_In in Hf as [Hf He].
      apply String.eqb_eq in He. subst a. eauto.
    - intros [w Hr].
      assert (Hin : In a (concepts s)).
      { pose proof (rel_ok_arcs _ (reachable_rel_ok s R)) as A. unfold relations in Hr. apply in_map_iff in Hr as ([[d w'] o] & [= <- <- <-] & Hr).
        apply (A _ _ _ Hr). }
      pose proof (outgoing_links mi ex st sd de me ac kw s0 ops H1 H2 H3 a Hin) as O. fold s in O.
      apply dget_Some_In in Hin as [n Hn]. unfold get_concept_outgoing_relations in O. rewrite Hn in O.
      exists (a, n). split; [now apply dget_In|]. cbn [fst snd]. apply in_map_iff. exists (b, w). split; [reflexivity|].
      rewrite O. unfold outgoing. apply in_map_iff. exists (a, b, w). split; [reflexivity|]. apply filter_In. split; [auto|apply String.eqb_refl]. }
  destruct (fold_edges (flat_map (fun cn => map (fun x => (fst cn, fst x)) (nd_arcs (snd cn))) (m_topo s)) (mkGraph (concepts s) [])) as (G1 & G2 & G3).
  { intros [a b] Hi. apply E in Hi as [w Hr]. cbn [fst snd g_nodes].
    pose proof (rel_ok_arcs _ (reachable_rel_ok s R)) as A. unfold relations in Hr. apply in_map_iff in Hr as ([[d w'] o] & [= <- <- <-] & Hr).
    destruct (A _ _ _ Hr). auto. }
  split; [exact G1|]. split.
  - apply G2. intros [|i] j e f Hi; discriminate.
  - intros a b. rewrite G3, !E. unfold joined. cbn [g_edges In]. split.
    + intros [[[]|[]]|[[w H]|[w H]]]; eauto.
    + intros [w [H|H]]; eauto.
Qed.

Lemma map_fst_line {A B C} (g : B -> C) (l : list (A * B)) : map fst (map (fun ch => (fst ch, g (snd ch))) l) = map fst l.
Proof. rewrite map_map. apply map_ext. reflexivity. Qed.
Lemma plot_graph mi ex st sd de me ac kw (s0 : fcm F) ops path fig :
  init_fcm mi ex st sd de me ac kw = Ok s0 -> fresh_adds ops s0 -> ok_when is_add_relation ops s0 ->
  let s := run_ops ops s0 in
  exists g, plot_topology path fig s = (append path (append fig ".png"), g) /\
  g_nodes g = concepts s /\
  (forall a b, In (a, b) (g_edges g) \/ In (b, a) (g_edges g) <->
     exists w, In (a, b, w) (relations s) \/ In (b, a, w) (relations s)) /\
  (forall i j e f, nth_error (g_edges g) i = Some e -> nth_error (g_edges g) j = Some f -> e = f \/ e = (snd f, fst f) -> i = j).
Proof.
  intros H1 H2 H3 s. destruct (topology_graph mi ex st sd de me ac kw s0 ops path fig H1 H2 H3) as (E & G1 & G2 & G3). fold s in E, G1, G2, G3.
  destruct (plot_topology path fig s) as [p g]. cbn [fst snd] in *. subst p. exists g. repeat split; auto; try (apply G3).
  intros i j e f Hi Hj He. apply (G2 i j e f Hi Hj). now apply same_edge_spec.
Qed.
Lemma plot_prefixes fig limit t dir (s : fcm F) : sane s ->
  exists lines, plot_execution fig limit t dir s = Ok (append dir (append "/" (append fig ".png")), lines) /\
    NoDup (map fst lines) /\
    (forall c ys, In (c, ys) lines -> exists h rest, history s c = Some h /\ h = ys ++ rest /\
       Z.of_nat (length ys) = (if (0 <? limit) && (limit <? Z.of_nat (length h)) then limit else Z.of_nat (length h))%Z%bool).
Proof.
  intros Hs. destruct (sane_parts s Hs) as (ND & _ & K & _). rewrite <- K in ND.
  unfold plot_execution. rewrite (plot_lines_shape limit t s Hs). cbn [rbind]. eexists. split; [reflexivity|]. split.
  - rewrite map_fst_line, (map_fst_filter (shown t s) (m_exec s)). now apply NoDup_filter.
  - intros c ys Hi. apply in_map_iff in Hi as ([c' h] & [= <- <-] & Hi). apply filter_In in Hi as [Hi _].
    destruct (drawn_spec limit h) as (rest & E1 & E2). exists h, rest. split; [now apply In_dget|]. auto.
Qed.
Lemma plot_names fig limit t dir (s : fcm F) : sane s ->
  exists lines, plot_execution fig limit t dir s = Ok (append dir (append "/" (append fig ".png")), lines) /\
    map fst lines = filter (shown t s) (concepts s).
Proof.
  intros Hs. destruct (sane_parts s Hs) as (_ & _ & K & _).
  unfold plot_execution. rewrite (plot_lines_shape limit t s Hs). cbn [rbind]. eexists. split; [reflexivity|].
  rewrite map_fst_line, (map_fst_filter (shown t s) (m_exec s)), K. reflexivity.
Qed.
Lemma shown_all (s : fcm F) : sane s -> filter (shown "all" s) (concepts s) = concepts s.
Proof.
  intros Hs. destruct (sane_parts s Hs) as (_ & Hf & _).
  assert (A : forall c, In c (concepts s) -> shown "all" s c = true).
  { intros c Hc. apply dget_Some_In in Hc as [n Hn]. unfold shown. rewrite Hn. destruct (Hf c n Hn) as (_ & Ht & _).
    destruct (nd_type n); [reflexivity|congruence]. }
  revert A. induction (concepts s) as [|c l IH]; intros A; cbn [filter]; auto. rewrite (A c) by now left. f_equal. apply IH. intros; apply A; now right.
Qed.
Lemma plot_selection fig limit t dir (s : fcm F) : sane s ->
  exists lines, snd (match plot_execution fig limit t dir s with Ok p => p | Err _ => ("", []) end) = lines /\
    (t = "all" -> map fst lines = concepts s) /\
    (t <> "all" -> t <> "any" -> exists l, get_final_state t [] s = Ok l /\ map fst lines = dkeys l).
Proof.
  intros Hs. destruct (plot_names fig limit t dir s Hs) as (lines & -> & E). exists lines. split; [reflexivity|]. rewrite E. split.
  - intros ->. now apply shown_all.
  - intros N1 N2. destruct (shown_final t s Hs N2 N1) as (l & E1 & E2). exists l. split; [exact E1|congruence].
Qed.
End PlotFacts2.
