(** FcmVec2.v — the data the vectorized engine prepares, and when it is current. *)
From Verif Require Import Base BaseFacts Num Functions Fcm FcmSpec FcmBasics FcmInv FcmInv2 FcmInv3 FcmIter FcmRun FcmRun2 VecSpec FcmVec.

Section Prep.
Context {F : Type} {N : Num F}.
Implicit Types s : fcm F.

(** ** invariants of single nodes *)
Definition all_nodes (P : node F -> Prop) s : Prop := forall c n, dget (m_topo s) c = Some n -> P n.
Record node_inv (P : node F -> Prop) : Prop := {
  ni_static : forall n n', nd_static n' = nd_static n -> P n -> P n';
  ni_arcs : forall l n, P n -> P (nd_set_arcs l n);
  ni_sum : forall x n, P n -> P (nd_set_sum x n);
  ni_build : forall dc t a m e d f k, P (fst (build_node dc t a m e d f k));
  ni_update : forall s n t a m e d f k, P n -> P (fst (update_node s n t a m e d f k));
  ni_fit : forall y n n', fit_node y n = Ok n' -> P n -> P n';
  ni_refresh : forall f a n, P n -> P (nd_set_vect (process_function_args a) (nd_set_func f a (nd_vect n) n))
}.
Lemma all_put P c n s : all_nodes P s -> P n -> all_nodes P (put_node c n s).
Proof. intros H Hn c' n' E. cbn in E. rewrite dget_dset in E. destruct (String.eqb c' c); [congruence|eauto]. Qed.
Lemma all_ev P s s' : node_inv P -> statics s' = statics s -> all_nodes P s -> all_nodes P s'.
Proof.
  intros NI H A c n Hn. symmetry in H. destruct (statics_dget _ _ _ _ H Hn) as (n' & Hn' & E).
  apply (ni_static _ NI n'); [now symmetry|eauto].
Qed.
Lemma all_topo P s s' : m_topo s' = m_topo s -> all_nodes P s -> all_nodes P s'.
Proof. intros H A c n. rewrite H. apply A. Qed.
Lemma node_inv_step P (o : op F) s : node_inv P -> all_nodes P s -> all_nodes P (fst (step o s)).
Proof.
  intros NI A. destruct o; cbn [step]; try exact A.
  - unfold add_concept. cbn [m_default set_prepared].
    pose proof (ni_build _ NI (m_default s) ctype is_active use_memory excitation d fname kwargs) as B.
    destruct (build_node _ _ _ _ _ _ _ _) as [n [u|e]]; cbn [fst] in *.
    + apply (all_topo P (put_node name n s)); [reflexivity|]. now apply all_put.
    + apply (all_topo P (put_node name n s)); [reflexivity|]. now apply all_put.
  - unfold set_concept_properties. destruct (dget (m_topo s) name) as [n|] eqn:En; [|exact A].
    pose proof (ni_update _ NI (set_prepared false s) n ctype is_active use_memory excitation d fname kwargs (A _ _ En)) as U.
    destruct (update_node _ _ _ _ _ _ _ _ _) as [n' r]. cbn [fst] in *.
    apply (all_topo P (put_node name n' s)); [reflexivity|]. now apply all_put.
  - unfold set_default_concept_properties. destruct (update_default _ _ _ _ _ _ _ _ _) as [n' r]. exact A.
  - unfold add_relation. cbn [m_topo set_prepared].
    destruct (dget (m_topo s) destiny) as [nd|] eqn:Ed; [|exact A].
    destruct (dget (m_topo s) origin) as [no|] eqn:Eo; [|exact A].
    set (s1 := put_node origin _ _). assert (A1 : all_nodes P s1).
    { apply all_put; [exact A|]. apply (ni_arcs _ NI). eauto. }
    clearbody s1. destruct (dget (m_topo s1) destiny) as [nd1|] eqn:Ed1; [|exact A1].
    set (nd2 := nd_set_sum _ nd1). assert (Pn : P nd2) by (apply (ni_sum _ NI); eauto).
    set (s2 := put_node destiny nd2 s1). assert (A2 : all_nodes P s2) by now apply all_put.
    destruct (m_fit s2) as [y|].
    + destruct (fit_node y nd2) as [nd3|e] eqn:Ef; [|exact A2].
      pose proof (ni_fit _ NI _ _ _ Ef Pn) as P3.
      apply (all_topo P (put_node destiny nd3 s2)); [reflexivity|]. now apply all_put.
    + apply (all_topo P (put_node destiny nd2 s2)); [reflexivity|]. now apply all_put.
  - apply (all_ev P s); auto. apply init_concept_frame.
  - unfold set_map_activation_function. destruct (get_function_by_name name); [|exact A].
    apply (mfold_ind (all_nodes P)); [|exact A]. intros c s' A'. unfold refresh_func.
    destruct (dget (m_topo s') c) as [n|] eqn:En; [|exact A'].
    destruct (nd_usemap n) as [[|]|]; try exact A'. apply all_put; auto. apply (ni_refresh _ NI). eauto.
  - unfold set_map_decision_function. destruct (get_decision_by_name name); exact A.
  - apply (all_ev P s); auto. apply reset_frame.
  - apply (all_ev P s); auto. apply clear_exec_frame.
  - unfold clear_all. pose proof (reset_frame s) as [R _]. destruct (reset_execution s) as [s1 [u|e]]; cbn [fst] in *.
    + intros c n H. discriminate.
    + now apply (all_ev P s).
  - apply (all_ev P s); auto. apply run_wframe.
Qed.
Lemma node_inv_reachable P s : node_inv P -> reachable s -> all_nodes P s.
Proof.
  intros NI (mi & ex & st & sd & de & me & ac & kw & s0 & ops & H & ->).
  apply run_ops_inv; [intros o s'; now apply node_inv_step|].
  apply init_fcm_shape in H as (-> & _). intros c n E. discriminate.
Qed.

(** the argument vector is the flattening of the argument dictionary *)
Definition vect_ok (n : node F) : Prop := nd_vect n = match nd_args n with Some a => Some (process_function_args a) | None => None end.
Lemma define_func_vect n fa f k d : vect_ok n -> vect_ok (fst (define_func n fa f k d)).
Proof.
  intros H. unfold define_func. destruct fa; [reflexivity|]. destruct f as [f|]; [|reflexivity].
  destruct (get_function_by_name f); [reflexivity|exact H].
Qed.
Lemma vect_ok_inv : node_inv vect_ok.
Proof.
  constructor.
  - intros n n' E H. unfold vect_ok. change (nd_vect (nd_static n') = match nd_args (nd_static n') with Some a => Some (process_function_args a) | None => None end).
    rewrite E. exact H.
  - intros l n H. exact H.
  - intros x n H. exact H.
  - intros dc t a m e d f k. unfold build_node.
    destruct (match e with Some e => _ | None => _ end) as [ex|x']; [|reflexivity].
    set (ty := match t with Some t => _ | None => _ end). set (n1 := nd_set_type ty _).
    match goal with |- context [match ?m with Ok _ => _ | Err _ => _ end] =>
      match type of m with res (node F * option (args F)) => destruct m as [[n2 fa]|x'] eqn:E end end; [|reflexivity].
    assert (B : vect_ok n2).
    { revert E. destruct (is_fuzzy_type ty).
      - destruct d as [ad|].
        + intros H. apply rbind_ok in H as ([[v1 m1] s1] & _ & H). injection H as <- <-. reflexivity.
        + destruct (String.eqb _ _).
          * intros H. apply rbind_ok in H as (fz & _ & H). injection H as <- <-. reflexivity.
          * intros [= <- <-]. reflexivity.
      - intros [= <- <-]. reflexivity. }
    pose proof (define_func_vect (nd_set_mem (match m with Some b => b | None => dc_mem dc end) n2) fa f k (dc_func dc, dc_args dc) B) as D.
    destruct (define_func _ _ _ _ _) as [n4 [r|x]]; exact D.
  - intros s n t a m e d f k H. unfold update_node.
    set (n1 := match a with Some b => _ | None => _ end).
    assert (C1 : vect_ok n1) by (unfold n1; destruct a; exact H). clearbody n1.
    match goal with |- context [match ?m with Ok _ => _ | Err _ => _ end] =>
      match type of m with res (node F) => destruct m as [n2|x] eqn:E2 end end; [|exact C1].
    assert (C2 : vect_ok n2).
    { destruct e as [e|]; [|injection E2 as <-; exact C1].
      destruct (get_excitation_by_name e) as [x|]; [|discriminate]. injection E2 as <-. exact C1. }
    match goal with |- context [match ?m with Ok _ => _ | Err _ => _ end] =>
      match type of m with res (node F) => destruct m as [n3|x] eqn:E3 end end; [|exact C2].
    assert (C3 : vect_ok n3).
    { destruct t as [t|]; [|injection E3 as <-; exact C2].
      destruct (is_valid_type t); [|discriminate]. injection E3 as <-. exact C2. }
    match goal with |- context [match ?m with Ok _ => _ | Err _ => _ end] =>
      match type of m with res (node F * option (args F)) => destruct m as [[n4 fa]|x] eqn:E4 end end; [|exact C3].
    assert (C4 : vect_ok n4).
    { destruct t as [t|], d as [ad|]; try (injection E4 as <- <-; exact C3).
      destruct (is_fuzzy_type t); [|injection E4 as <- <-; exact C3].
      apply rbind_ok in E4 as ([[v1 m1] s1] & _ & E4). injection E4 as <- <-. exact C3. }
    apply define_func_vect. exact C4.
  - intros y n n' E H. unfold fit_node in E. apply rbind_ok in E as (f & Hf & E).
    apply rbind_ok in E as (l1 & _ & E). apply rbind_ok in E as (l2 & _ & E).
    destruct (if String.eqb f "relm" then _ else _); injection E as <-; [reflexivity|exact H].
  - reflexivity.
Qed.
Lemma reachable_vect s : reachable s -> all_nodes vect_ok s.
Proof. apply node_inv_reachable, vect_ok_inv. Qed.

(** ** the prepared data *)
Definition node_data (n : node F) : Z * list F * bool * F * bool :=
  (match nd_func n with Some f => match get_const_by_name f with Some z => z | None => 0%Z end | None => 0%Z end,
   match nd_vect n with Some v => v | None => [] end,
   match nd_mem n with Some b => b | None => false end,
   match nd_func n with Some f => if String.eqb f "fuzzy" then nd_sum n else n0 | None => n0 end,
   match nd_exec n with Some e => String.eqb "PAPAGEORGIUS" e | None => false end).
Lemma prep_node_ok n : complete_node n -> prep_node n = Ok (node_data n).
Proof.
  intros (C1 & C2 & C3 & C4 & C5 & C6 & (e & x & C7 & _) & (f & g & C8 & C9)).
  unfold prep_node, node_data, oget. rewrite C8. cbn [rbind].
  destruct (proj1 (names_agree f)) as [id Hid]; [eauto|]. rewrite Hid. cbn [rbind].
  destruct (nd_vect n); [|congruence]. destruct (nd_mem n); [|congruence]. rewrite C7. reflexivity.
Qed.
Lemma index_of_spec c l : In c l -> exists i, index_of c l = Some i /\ nth_error l i = Some c.
Proof.
  induction l as [|x l IH]; [intros []|]. intros H. cbn. destruct (String.eqb_spec c x) as [->|Hn].
  - exists 0. auto.
  - destruct H as [->|H]; [congruence|]. destruct (IH H) as (i & -> & E). exists (S i). auto.
Qed.
Lemma index_of_nth l i c : NoDup l -> nth_error l i = Some c -> index_of c l = Some i.
Proof.
  revert i. induction l as [|x l IH]; intros [|i] ND E; cbn in *; try discriminate.
  - injection E as ->. now rewrite String.eqb_refl.
  - inversion ND; subst. destruct (String.eqb_spec c x) as [->|].
    + apply nth_error_In in E. contradiction.
    + now rewrite (IH i).
Qed.
Definition square (n : nat) (mat : list (list F)) : Prop := length mat = n /\ forall r, In r mat -> length r = n.
Lemma square_repeat n : square n (repeat (repeat n0 n) n).
Proof.
  split; [apply repeat_length|]. intros r Hr. apply repeat_spec in Hr as ->. apply repeat_length.
Qed.
Lemma In_upd {A} (l : list A) i v x : In x (upd l i v) -> x = v \/ In x l.
Proof.
  revert i. induction l as [|a l IH]; intros [|i]; cbn; auto.
  - intros [<-|H]; auto.
  - intros [<-|H]; auto. apply IH in H as [|]; auto.
Qed.
Lemma matrix_spec cs (t : dict (node F)) arcs : NoDup cs -> cs = dkeys t -> arcs_in t arcs ->
  exists mat, rfold (matrix_add cs) arcs (repeat (repeat n0 (length cs)) (length cs)) = Ok mat /\
    square (length cs) mat /\
    forall i j o d, nth_error cs i = Some o -> nth_error cs j = Some d ->
      nth j (nth i mat []) n0 = last_weight arcs o d.
Proof.
  intros ND -> HA.
  assert (G : forall pre post mat, arcs = pre ++ post -> square (length (dkeys t)) mat ->
    (forall i j o d, nth_error (dkeys t) i = Some o -> nth_error (dkeys t) j = Some d ->
      nth j (nth i mat []) n0 = last_weight pre o d) ->
    exists mat', rfold (matrix_add (dkeys t)) post mat = Ok mat' /\ square (length (dkeys t)) mat' /\
     forall i j o d, nth_error (dkeys t) i = Some o -> nth_error (dkeys t) j = Some d ->
      nth j (nth i mat' []) n0 = last_weight arcs o d).
  { intros pre post. revert pre. induction post as [|[[d w] o] post IH]; intros pre mat E Sq Hm.
    - exists mat. rewrite app_nil_r in E. subst pre. split; [reflexivity|auto].
    - assert (Ha : In (d, w, o) arcs) by (rewrite E; apply in_or_app; right; now left).
      destruct (HA d w o Ha) as [Hd Ho]. 
      destruct (index_of_spec o _ Ho) as (i & Ei & Ni). destruct (index_of_spec d _ Hd) as (j & Ej & Nj).
      cbn [rfold matrix_add]. rewrite Ei, Ej. cbn [rbind].
      assert (Li : i < length (dkeys t)) by (apply nth_error_Some; congruence).
      assert (Lj : j < length (dkeys t)) by (apply nth_error_Some; congruence).
      destruct Sq as [S1 S2].
      assert (Lr : length (nth i mat []) = length (dkeys t)) by (apply S2, nth_In; lia).
      apply (IH (pre ++ [(d, w, o)])).
      + now rewrite <- app_assoc.
      + split; [now rewrite upd_length|]. intros r Hr. apply In_upd in Hr as [->|Hr]; [now rewrite upd_length|auto].
      + intros i' j' o' d' Hi' Hj'. unfold last_weight. rewrite fold_left_app. cbn [fold_left].
        fold (last_weight pre o' d'). rewrite nth_upd.
        destruct (Nat.eqb_spec i' i) as [->|Hii].
        * rewrite Ni in Hi'. injection Hi' as <-. rewrite String.eqb_refl. cbn [andb].
          rewrite (proj2 (Nat.ltb_lt i (length mat))) by lia. rewrite nth_upd.
          destruct (Nat.eqb_spec j' j) as [->|Hjj].
          -- rewrite Nj in Hj'. injection Hj' as <-. rewrite String.eqb_refl.
             now rewrite (proj2 (Nat.ltb_lt j _)) by lia.
          -- destruct (String.eqb_spec d d') as [<-|]; [|now apply Hm].
             exfalso. apply Hjj. pose proof (index_of_nth _ _ _ ND Hj') as Q. congruence.
        * destruct (String.eqb_spec o o') as [<-|]; [|now apply Hm].
          exfalso. apply Hii. pose proof (index_of_nth _ _ _ ND Hi') as Q. congruence. }
  apply (G [] arcs); auto using square_repeat.
  intros i j o d Hi Hj. cbn.
  assert (Li : i < length (dkeys t)) by (apply nth_error_Some; congruence).
  assert (Lj : j < length (dkeys t)) by (apply nth_error_Some; congruence).
  rewrite (nth_indep _ [] (repeat n0 (length (dkeys t)))) by now rewrite repeat_length.
  rewrite nth_repeat. apply nth_repeat.
Qed.
Lemma prepare_ok s : base s -> exists mat, prepare s =
    Ok (mkVC (map (fun p => nd_value (snd p)) (m_topo s)) mat
         (map (fun p => let '(id, _, _, _, _) := node_data (snd p) in id) (m_topo s))
         (map (fun p => let '(_, v, _, _, _) := node_data (snd p) in v) (m_topo s))
         (map (fun p => let '(_, _, m, _, _) := node_data (snd p) in m) (m_topo s))
         (map (fun p => let '(_, _, _, x, _) := node_data (snd p) in x) (m_topo s))
         (map (fun p => let '(_, _, _, _, b) := node_data (snd p) in b) (m_topo s))) /\
    square (length (concepts s)) mat /\
    forall i j o d, nth_error (concepts s) i = Some o -> nth_error (concepts s) j = Some d ->
      nth j (nth i mat []) n0 = last_weight (m_arcs s) o d.
Proof.
  intros (ND & Hf & K & A). destruct (matrix_spec (concepts s) (m_topo s) (m_arcs s) ND eq_refl A) as (mat & M1 & M2 & M3).
  exists mat. split; [|split; auto]. unfold prepare.
  assert (R : rmap prep_node (map snd (m_topo s)) = Ok (map node_data (map snd (m_topo s)))).
  { apply rmap_all_ok. intros n Hn. apply in_map_iff in Hn as ([c n'] & <- & Hn). apply prep_node_ok.
    apply (Hf c). apply In_dget; auto. }
  rewrite R. cbn [rbind]. unfold concepts in M1. rewrite M1. cbn [rbind]. rewrite !map_map. reflexivity.
Qed.
End Prep.
