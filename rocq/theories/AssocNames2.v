(** AssocNames2.v — the concepts of a generated map have different, readable names,
    and the nodes they stand for. *)
From Verif Require Import Base BaseFacts Num Functions Fcm FcmSpec FcmBasics FcmInv FcmInv2 FcmInv3 LoaderSpec LoaderFacts JoinFacts LearnUtils LearnSpec LearnFacts Assoc AssocSpec AssocFacts AssocFacts2 AssocFacts3 AssocFacts4 AssocNames.

Lemma NoDup_map_in {A B} (f : A -> B) l : (forall x y, In x l -> In y l -> f x = f y -> x = y) -> NoDup l -> NoDup (map f l).
Proof.
  intros I H. induction H as [|a l Ha H IH]; cbn; constructor.
  - intros X. apply in_map_iff in X as (b & E & Hb). assert (b = a) by (apply I; auto; [now right|now left]). subst. auto.
  - apply IH. intros; apply I; auto; now right.
Qed.
Section Names.
Context {F : Type} {N : Num F}.
Variable cf : gconf F.
Hypothesis Hsep : c_sep cf = "___".
Lemma readable_iff t : readable t <-> ~ occurs "___" (append t "__").
Proof. unfold readable. now rewrite us_tail. Qed.
Lemma info_name f t : readable t -> ~ occurs "___" f -> get_feature_and_info cf (append t (append "___" f)) = Ok (f, t).
Proof. intros Ht Hf. apply readable_iff in Ht. unfold get_feature_and_info, split_str. rewrite Hsep. cbn [rbind]. rewrite parse_ok by auto. reflexivity. Qed.
Lemma info_only f t : get_feature_and_info cf (append t (append "___" f)) = Ok (f, t) -> readable t /\ ~ occurs "___" f.
Proof.
  unfold get_feature_and_info, split_str. rewrite Hsep. cbn [rbind]. intros H.
  apply rbind_ok in H as (f' & Hf & H). apply rbind_ok in H as (t' & Ht & H). injection H as -> ->.
  apply lget_inv in Hf, Ht. rewrite readable_iff. now apply parse_only.
Qed.
Lemma name_inj f t f' t' : readable t -> readable t' -> ~ occurs "___" f -> ~ occurs "___" f' ->
  append t (append "___" f) = append t' (append "___" f') -> f = f' /\ t = t'.
Proof.
  intros Ht Ht' Hf Hf' E. pose proof (info_name f t Ht Hf) as A. rewrite E, (info_name f' t' Ht' Hf') in A. now injection A as -> ->.
Qed.
Lemma int_readable z : readable (str_of_Z z).
Proof. apply readable_iff, plain_ok, int_plain. Qed.
Lemma bool_readable (b : bool) : readable (if b then "True" else "False").
Proof. apply readable_iff, plain_ok. destruct b; cbn; repeat split; discriminate. Qed.
Definition named (f : string) (texts names : list string) : Prop :=
  names = map (fun t => append t (append "___" f)) texts /\ NoDup texts /\ Forall readable texts.
Lemma described_named targets f c d : ~ occurs "___" f -> readable_values cf c -> described cf targets (f, c) d ->
  fd_feat d = f /\ exists texts, named f texts (fd_names d).
Proof.
  intros Hf Hv H. inversion H; subst; cbn [fd_feat fd_names]; (split; [reflexivity|]); rewrite Hsep.
  - exists texts. split; [reflexivity|]. match goal with H : levels _ _ _ _ |- _ => destruct H as [l us D|l us D|l us D|l us] end; cbn [readable_values] in Hv.
    + destruct D as (D1 & D3). apply strictly_sorted_NoDup in D1. split; auto. apply Forall_forall. intros t Ht. rewrite Forall_forall in Hv. apply Hv. now apply D3.
    + destruct D as (D1 & D3). apply strictly_sorted_NoDup in D1. split.
      * apply FinFun.Injective_map_NoDup; auto. intros [] []; cbn; congruence.
      * apply Forall_forall. intros t Ht. apply in_map_iff in Ht as (b & <- & _). apply bool_readable.
    + destruct D as (D1 & D3). apply strictly_sorted_NoDup in D1. split.
      * apply FinFun.Injective_map_NoDup; auto. intros z z'. apply str_of_Z_inj.
      * apply Forall_forall. intros t Ht. apply in_map_iff in Ht as (b & <- & _). apply int_readable.
    + exact Hv.
  - exists (map (fun k => str_of_Z (Z.of_nat k)) (seq 0 (length rows))). split; [now rewrite map_map|]. split.
    + apply FinFun.Injective_map_NoDup; [|apply seq_NoDup]. intros a b E. apply str_of_Z_inj in E. lia.
    + apply Forall_forall. intros t Ht. apply in_map_iff in Ht as (b & <- & _). apply int_readable.
Qed.
Lemma names_NoDup targets (ds : dataset F) fds : NoDup (dkeys ds) ->
  (forall f c, In (f, c) ds -> ~ occurs "___" f /\ readable_values cf c) -> Forall2 (described cf targets) ds fds ->
  NoDup (flat_map fd_names fds) /\
  forall d c, In d fds -> In c (fd_names d) -> exists t, c = append t (append "___" (fd_feat d)) /\ readable t /\ ~ occurs "___" (fd_feat d) /\ In (fd_feat d) (dkeys ds).
Proof.
  intros ND HR H. induction H as [|[f c] d ds fds Hd Hs IH]; cbn [flat_map]; [split; [constructor|intros d c []]|].
  cbn [dkeys map fst] in ND. apply NoDup_cons_iff in ND as [Nf ND].
  destruct IH as [I1 I2]; [auto|intros; apply HR; now right|].
  destruct (HR f c (or_introl eq_refl)) as [Hf Hv]. destruct (described_named targets f c d Hf Hv Hd) as (Ef & texts & En & Nt & Rt).
  assert (X : forall c, In c (fd_names d) -> exists t, c = append t (append "___" f) /\ readable t).
  { intros c' Hc. rewrite En in Hc. apply in_map_iff in Hc as (t & <- & Ht). rewrite Forall_forall in Rt. eauto. }
  split.
  - assert (G : forall (A : Type) (l l' : list A), NoDup l -> NoDup l' -> (forall x, In x l -> ~ In x l') -> NoDup (l ++ l')).
    { clear. intros A l l' H. induction H as [|a l Ha H IH]; intros H' D; auto. cbn. constructor.
      - intros X. apply in_app_iff in X as [X|X]; [tauto|]. apply (D a); [now left|auto].
      - apply IH; auto. intros x Hx. apply D. now right. }
    apply G; auto.
    + rewrite En. apply NoDup_map_in; auto. intros t t' Ht Ht' E. rewrite Forall_forall in Rt.
      now apply (name_inj f t f t') in E; auto.
    + intros x Hx Hx'. apply in_flat_map in Hx' as (d' & Hd' & Hx'). apply X in Hx as (t & -> & Ht).
      destruct (I2 _ _ Hd' Hx') as (t' & E & Ht' & Hf' & Hin). apply name_inj in E as [E _]; auto. subst f. now apply Nf; rewrite E.
  - intros d' c' [<-|Hd'] Hc.
    + apply X in Hc as (t & -> & Ht). exists t. rewrite Ef. repeat split; auto; try apply Ht. now left.
    + destruct (I2 _ _ Hd' Hc) as (t & E1 & E2 & E3 & E4). exists t. repeat split; auto; try apply E2. now right.
Qed.
End Names.

Section Nodes.
Context {F : Type} {N : Num F}.
Implicit Types s : fcm F.
(** a fact about the node of a concept that the calls adding it establish and adding relations keeps *)
Lemma unlinked_dget (t t' : dict (node F)) c : map (fun p => (fst p, unlinked (snd p))) t' = map (fun p => (fst p, unlinked (snd p))) t ->
  option_map unlinked (dget t' c) = option_map unlinked (dget t c).
Proof.
  revert t'. induction t as [|[k n] t IH]; intros [|[k' n'] t'] H; cbn [map fst snd] in H; try discriminate; [reflexivity|].
  assert (H1 := f_equal (@hd _ ("", unlinked n)) H). assert (H2 := f_equal (@tl _) H). cbn [hd tl] in H1, H2.
  assert (E1 := f_equal fst H1). assert (E2 := f_equal snd H1). cbn [fst snd] in E1, E2. subst k'.
  cbn [dget]. destruct (String.eqb c k); cbn [option_map]; [congruence|auto].
Qed.
Lemma built_node (P : node F -> Prop) (c : string) : (forall n n', unlinked n = unlinked n' -> P n -> P n') ->
  forall ops s, m_fit s = None -> forallb is_building ops = true ->
  (forall ct a m e d f k, In (OpAddConcept c ct a m e d f k) ops -> P (fst (build_node (m_default s) ct a m e d f k))) ->
  (forall n, dget (m_topo s) c = Some n -> P n) ->
  forall n, dget (m_topo (run_ops ops s)) c = Some n -> P n.
Proof.
  intros HP. unfold run_ops. induction ops as [|o ops IH]; intros s Fi Bu HB H0; cbn [fold_left]; auto.
  cbn [forallb] in Bu. apply andb_prop in Bu as [Bo Bu]. pose proof (build_settings o s Bo) as Se. apply settings_fit in Se as [Se1 Se2].
  apply IH; auto; try congruence.
  - intros. rewrite Se2. apply HB. now right.
  - destruct o; try discriminate; cbn [step].
    + unfold add_concept. cbn [m_default set_prepared]. destruct (build_node _ _ _ _ _ _ _ _) as [n1 r] eqn:En.
      intros n Hn. assert (Hn' : dget (dset (m_topo s) name n1) c = Some n) by (destruct r; exact Hn).
      destruct (String.eqb_spec name c) as [->|Nc].
      * rewrite dget_dset_same in Hn'. injection Hn' as <-. change n1 with (fst (n1, r)). rewrite <- En. apply HB. now left.
      * rewrite dget_dset_other in Hn' by auto. auto.
    + intros n Hn. pose proof (add_relation_nofit origin destiny weight s Fi) as A. destruct (add_relation origin destiny weight s) as [s' r]. cbn [fst] in Hn.
      destruct A as (_ & A & _). apply (unlinked_dget _ _ c) in A. rewrite Hn in A. destruct (dget (m_topo s) c) as [n'|] eqn:E; [|discriminate].
      cbn [option_map] in A. assert (A' : unlinked n = unlinked n') by congruence. apply (HP n' n); auto.
Qed.
Lemma discrete_node dc t : is_fuzzy_type t = false -> is_valid_type t = true ->
  let n := fst (build_node (F := F) dc (Some t) (Some true) None None None None []) in
  nd_type n = Some t /\ nd_func n = Some (dc_func dc) /\ nd_active n = Some true.
Proof. intros H1 H2. unfold build_node. rewrite H2, H1. cbn. auto. Qed.
End Nodes.
