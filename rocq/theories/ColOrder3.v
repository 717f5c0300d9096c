(** ColOrder3.v — the order of the columns of the data to predict does not matter. *)
From Coq Require Import Permutation.
From Verif Require Import Base BaseFacts Num Functions Fcm FcmSpec FcmBasics FcmInv FcmInv2 FcmInv3 FcmRun FcmView LoaderSpec LoaderFacts JoinFacts LearnUtils LearnSpec LearnFacts Assoc Estimator EstSpec
  AssocSpec AssocFacts AssocFacts2 AssocFacts3 AssocFacts4 AssocNames AssocNames2 EstFacts EstFacts2 EstFacts3 AssocGen AssocPredict.

Lemma dset_comm {A} (d : dict A) a b u v : a <> b -> In a (dkeys d) -> In b (dkeys d) -> dset (dset d a u) b v = dset (dset d b v) a u.
Proof.
  intros H. induction d as [|[k w] d IH]; cbn [dkeys map fst In]; [easy|]. intros Ha Hb. cbn [dset].
  destruct (String.eqb_spec a k) as [E1|N1], (String.eqb_spec b k) as [E2|N2]; try congruence; cbn [dset];
    repeat match goal with |- context [String.eqb ?x ?y] => destruct (String.eqb_spec x y); try congruence end.
  f_equal. apply IH; [destruct Ha|destruct Hb]; auto; congruence.
Qed.
Lemma keys_dset_in {A} (d : dict A) k v : In k (dkeys d) -> dkeys (dset d k v) = dkeys d.
Proof.
  induction d as [|[k' w] d IH]; cbn [dkeys map fst In dset]; [easy|]. intros H. destruct (String.eqb_spec k k') as [E|E]; cbn [dkeys map fst]; [congruence|]. f_equal. apply IH. destruct H; auto. congruence.
Qed.

Section Cells.
Context {F : Type} {N : Num F}.
Implicit Types (g h : gen F) (s : fcm F).
Variable cf : gconf F.
(** setting a value *)
Definition write (cv : string * F) s : fcm F :=
  match dget (m_topo s) (fst cv) with
  | Some n => put_node (fst cv) (nd_set_aux [] (nd_set_value (snd cv) n)) (put_exec (fst cv) [snd cv] s)
  | None => s
  end.
Definition writes (l : list (string * F)) s : fcm F := fold_left (fun s cv => write cv s) l s.
Lemma write_topo c v s k : dget (m_topo (write (c, v) s)) k = if String.eqb k c then option_map (fun n => nd_set_aux [] (nd_set_value v n)) (dget (m_topo s) k) else dget (m_topo s) k.
Proof.
  unfold write. cbn [fst snd]. destruct (dget (m_topo s) c) as [n|] eqn:E; cbn [m_topo put_node put_exec set_topo set_exec].
  - rewrite dget_dset. destruct (String.eqb_spec k c) as [->|]; auto. now rewrite E.
  - destruct (String.eqb_spec k c) as [->|]; auto. now rewrite E.
Qed.
Lemma write_keys cv s : keys_eq s -> keys_eq (write cv s) /\ dkeys (m_topo (write cv s)) = dkeys (m_topo s).
Proof.
  intros K. unfold write. destruct (dget (m_topo s) (fst cv)) as [n|] eqn:E; auto. unfold keys_eq in *. cbn [m_topo m_exec put_node put_exec set_topo set_exec].
  assert (H : In (fst cv) (dkeys (m_topo s))) by (apply dget_Some_In; eauto). rewrite !keys_dset_in; auto. now rewrite K.
Qed.
Lemma write_comm a b u v s : a <> b -> keys_eq s -> write (a, u) (write (b, v) s) = write (b, v) (write (a, u) s).
Proof.
  intros H K. unfold write at 1 3. cbn [fst snd]. rewrite !write_topo.
  destruct (String.eqb_spec a b) as [|_]; [easy|]. destruct (String.eqb_spec b a) as [|_]; [congruence|].
  destruct (dget (m_topo s) a) as [n|] eqn:Ea, (dget (m_topo s) b) as [m|] eqn:Eb; unfold write; cbn [fst snd]; rewrite ?Ea, ?Eb; auto.
  assert (Ha : In a (dkeys (m_topo s))) by (apply dget_Some_In; eauto). assert (Hb : In b (dkeys (m_topo s))) by (apply dget_Some_In; eauto).
  unfold put_node, put_exec, set_topo, set_exec. cbn. rewrite (dset_comm (m_topo s)) by auto. rewrite (dset_comm (m_exec s)); auto; rewrite K; auto.
Qed.
Lemma writes_keys l : forall s, keys_eq s -> keys_eq (writes l s).
Proof. induction l as [|a l IH]; intros s K; [exact K|]. cbn. apply IH. now apply write_keys. Qed.
Lemma write_writes a u l : ~ In a (map fst l) -> forall s, keys_eq s -> write (a, u) (writes l s) = writes l (write (a, u) s).
Proof.
  induction l as [|[b v] l IH]; intros Hn s K; [reflexivity|]. cbn [writes fold_left]. fold (writes l (write (b, v) s)). fold (writes l (write (b, v) (write (a, u) s))).
  rewrite IH; [|intros X; apply Hn; now right|now apply write_keys]. f_equal. apply write_comm; auto. intros ->. apply Hn. now left.
Qed.
Lemma writes_comm l l' : (forall c, In c (map fst l) -> ~ In c (map fst l')) -> forall s, keys_eq s -> writes l (writes l' s) = writes l' (writes l s).
Proof.
  induction l as [|[a u] l IH]; intros H s K; [reflexivity|]. cbn [writes fold_left]. fold (writes l (write (a, u) (writes l' s))). fold (writes l (write (a, u) s)).
  rewrite write_writes by (auto; apply H; now left). apply IH; [|now apply write_keys]. intros c Hc. apply H. now right.
Qed.
(** same fixed parts of the nodes *)
Definition twins (s t : fcm F) : Prop := forall c, option_map nd_static (dget (m_topo t) c) = option_map nd_static (dget (m_topo s) c).
Lemma write_twins cv s : twins s (write cv s).
Proof.
  destruct cv as [c v]. intros k. rewrite write_topo. destruct (String.eqb k c); auto. now destruct (dget (m_topo s) k).
Qed.
Lemma twins_trans (s t u : fcm F) : twins s t -> twins t u -> twins s u.
Proof. intros A B c. now rewrite B. Qed.
Lemma twins_sym (s t : fcm F) : twins s t -> twins t s.
Proof. intros A c. now rewrite A. Qed.
Lemma writes_twins l : forall s, twins s (writes l s).
Proof. induction l as [|a l IH]; intros s; [now intros c|]. cbn. eapply twins_trans; [apply write_twins|apply IH]. Qed.
Lemma init_writes c x s s' : init_concept c x false s = (s', Ok tt) ->
  exists v, forall t, twins s t -> init_concept c x false t = (write (c, v) t, Ok tt).
Proof.
  unfold init_concept. destruct (dget (m_topo s) c) as [n|] eqn:E.
  - destruct (rbind _ _) as [v|er] eqn:Ev; [|discriminate]. intros _. exists v. intros t T. specialize (T c). rewrite E in T. unfold write. cbn [fst snd].
    destruct (dget (m_topo t) c) as [m|]; [|discriminate]. cbn [option_map] in T. assert (T' : nd_static m = nd_static n) by congruence.
    assert (E1 : nd_func m = nd_func n) by exact (f_equal nd_func T'). assert (E2 : nd_fuzzy m = nd_fuzzy n) by exact (f_equal nd_fuzzy T'). now rewrite E1, E2, Ev.
  - intros _. exists n0. intros t T. specialize (T c). rewrite E in T. unfold write. cbn [fst snd]. destruct (dget (m_topo t) c); [discriminate|reflexivity].
Qed.
Definition gtwins g h : Prop := g_feats h = g_feats g /\ twins (g_fcm g) (g_fcm h).
Definition of_cell (fv : string * cell F) g := init_concept_by_feature_data cf (fst fv) (snd fv) g.
(** the concepts a cell may set *)
Definition touches g (fv : string * cell F) (c : string) : Prop :=
  exists d, dget (g_feats g) (fst fv) = Some d /\ ((exists l, f_names d = Some l /\ In c l) \/ exists t, cell_text cf (snd fv) = Ok t /\ c = name_concept cf (fst fv) t).
Lemma set_fcm_set s (t : fcm F) g : set_fcm s (set_fcm t g) = set_fcm s g.
Proof. reflexivity. Qed.
Lemma cell_writes fv g g' : of_cell fv g = (g', Ok tt) -> exists l, (forall c, In c (map fst l) -> touches g fv c) /\
  forall h, gtwins g h -> of_cell fv h = (set_fcm (writes l (g_fcm h)) h, Ok tt).
Proof.
  destruct fv as [f v]. unfold of_cell, touches, init_concept_by_feature_data, get_type, get_names, dget_exn. cbn [fst snd]. unfold swith at 1.
  destruct (dget (g_feats g) f) as [d|] eqn:Ed; [|discriminate]. cbn [rbind]. destruct (oget (f_type d) _) as [tp|er] eqn:Et; [|discriminate].
  destruct (String.eqb tp TYPE_FUZZY || String.eqb tp TYPE_REGRESOR) eqn:Ez.
  - unfold swith at 1. rewrite Ed. cbn [rbind]. destruct (oget (f_names d) _) as [names|er] eqn:En; [|discriminate].
    assert (G : forall ns g g', sfold (fun name => swith (fun _ => cell_num v) (fun x => on_fcm (init_concept name x false))) ns g = (g', Ok tt) ->
      exists l, (forall c, In c (map fst l) -> In c ns) /\ forall h, gtwins g h ->
        sfold (fun name => swith (fun _ => cell_num v) (fun x => on_fcm (init_concept name x false))) ns h = (set_fcm (writes l (g_fcm h)) h, Ok tt)).
    { clear. induction ns as [|c ns IH]; intros g g'; cbn [sfold].
      - intros _. exists []. split; [easy|]. intros h _. destruct h; reflexivity.
      - intros H. unfold swith at 1 in H. destruct (cell_num v) as [x|er] eqn:Ex in H; [|discriminate]. unfold on_fcm at 1 in H.
        destruct (init_concept c x false (g_fcm g)) as [s1 [[]|er]] eqn:E1; [|discriminate].
        assert (H' : sfold (fun name => swith (fun _ => cell_num v) (fun x => on_fcm (init_concept name x false))) ns (set_fcm s1 g) = (g', Ok tt)) by (rewrite Ex; exact H). clear H.
        destruct (init_writes _ _ _ _ E1) as [w W]. destruct (IH _ _ H') as (l & L1 & L2). exists ((c, w) :: l). split.
        + intros k [<-|Hk]; [now left|right; auto].
        + intros h [T1 T2]. unfold swith at 1. rewrite Ex at 1. unfold on_fcm at 1. rewrite (W _ T2). rewrite L2; [reflexivity|]. split; [exact T1|]. cbn [g_fcm set_fcm].
          assert (Es : s1 = write (c, w) (g_fcm g)) by (specialize (W _ (fun c => eq_refl)); congruence). rewrite Es.
          eapply twins_trans; [apply twins_sym, write_twins|]. eapply twins_trans; [exact T2|apply write_twins]. }
    destruct (sfold _ names g) as [g1 [[]|er]] eqn:E1; [|discriminate]. intros _. destruct (G _ _ _ E1) as (l & L1 & L2). exists l. split.
    + intros c Hc. exists d. split; auto. left. exists names. split; auto. unfold oget in En. destruct (f_names d); [congruence|discriminate].
    + intros h T. pose proof T as [T1 _]. unfold swith at 1. rewrite T1, Ed. cbn [rbind]. rewrite Et, Ez. unfold swith at 1. rewrite T1, Ed. cbn [rbind]. rewrite En. now rewrite (L2 h T).
  - unfold swith at 1. destruct (cell_text cf v) as [t|er] eqn:Ev; [|discriminate]. unfold on_fcm at 1. destruct (init_concept _ _ _ _) as [s1 [[]|er]] eqn:E1; [|discriminate]. intros _.
    destruct (init_writes _ _ _ _ E1) as [w W]. exists [(name_concept cf f t, w)]. split.
    + intros c [<-|[]]. exists d. split; auto. right. eauto.
    + intros h [T1 T2]. unfold swith at 1. rewrite T1, Ed. cbn [rbind]. rewrite Et, Ez. unfold swith. unfold on_fcm. now rewrite (W _ T2).
Qed.
Lemma cell_error fv g e : snd (of_cell fv g) = Err e -> e = EExc "Cannot init concept".
Proof. unfold of_cell, init_concept_by_feature_data. destruct (swith _ _ g) as [g1 [u|er]]; cbn; congruence. Qed.

Hypothesis Hsep : c_sep cf = "___".
Variable fds : list (fdesc F).
Lemma touches_name fv g c : tidy fds g -> (forall str, snd fv = CStr str -> readable str) -> touches g fv c ->
  exists t d, In d fds /\ fd_feat d = fst fv /\ c = append t (append "___" (fst fv)) /\ readable t.
Proof.
  intros T Hr (d0 & Hd0 & H). destruct (td_only _ _ T (fst fv) ltac:(congruence)) as (d & Hd & Hf). pose proof (td_known _ _ T d Hd) as K. rewrite Hf, Hd0 in K. injection K as ->.
  destruct H as [(l & Hl & Hc)|(t & Ht & Hc)].
  - injection Hl as <-. destruct (td_name _ _ T d c Hd Hc) as (t & E & R). rewrite Hf in E. eauto 10.
  - exists t, d. split; auto. split; auto. unfold name_concept in Hc. rewrite Hsep in Hc. split; auto. apply (cell_readable cf (snd fv)); auto.
Qed.
Lemma touches_apart a b g c : tidy fds g -> (forall str, snd a = CStr str -> readable str) -> (forall str, snd b = CStr str -> readable str) -> fst a <> fst b -> touches g a c -> touches g b c -> False.
Proof.
  intros T Ra Rb H Ha Hb. destruct (touches_name a g c T Ra Ha) as (t & d & Hd & Hf & E & R). destruct (touches_name b g c T Rb Hb) as (t' & d' & Hd' & Hf' & E' & R').
  rewrite E in E'. apply (name_inj cf Hsep) in E' as [E' _]; auto.
  - rewrite <- Hf. now apply (td_clean _ _ T).
  - rewrite <- Hf'. now apply (td_clean _ _ T).
Qed.
Definition good (r : list (string * cell F)) : Prop := NoDup (map fst r) /\ forall f str, In (f, CStr (F := F) str) r -> readable str.
Lemma row_perm r r' : Permutation r r' -> good r -> forall g g1, tidy fds g -> keys_eq (g_fcm g) -> set_row cf r g = (g1, Ok tt) -> set_row cf r' g = (g1, Ok tt).
Proof.
  unfold set_row. change (fun fv => init_concept_by_feature_data cf (fst fv) (snd fv)) with of_cell.
  assert (St : forall fv g g1, tidy fds g -> keys_eq (g_fcm g) -> of_cell fv g = (g1, Ok tt) -> tidy fds g1 /\ keys_eq (g_fcm g1)).
  { intros fv g g1 T K E. split.
    - apply (tidy_moved fds g); auto. pose proof (moved_init cf (fst fv) (snd fv) g) as M. unfold of_cell in E. now rewrite E in M.
    - destruct (cell_writes _ _ _ E) as (l & _ & W). rewrite (W g) in E by (split; [|intros c]; reflexivity). injection E as <-. cbn [g_fcm set_fcm]. now apply writes_keys. }
  induction 1 as [|a r r' P IH|a b r|r1 r2 r3 P1 IH1 P2 IH2]; intros [G1 G2] g g1 T K; auto; cbn [sfold].
  - destruct (of_cell a g) as [g2 [[]|er]] eqn:E; [|discriminate]. destruct (St _ _ _ T K E) as [T2 K2]. apply IH; auto. cbn in G1. apply NoDup_cons_iff in G1 as [_ G1]. split; auto. intros f str H. apply (G2 f). now right.
  - cbn [map] in G1. destruct (of_cell b g) as [g2 [[]|er]] eqn:E1; [|discriminate]. destruct (of_cell a g2) as [g3 [[]|er]] eqn:E2; [|discriminate]. intros H.
    destruct (cell_writes _ _ _ E1) as (lb & B1 & B2). destruct (cell_writes _ _ _ E2) as (la & A1 & A2).
    assert (X0 : gtwins g g) by (split; [|intros c]; reflexivity). rewrite (B2 g X0) in E1. injection E1 as <-.
    assert (Xa : gtwins (set_fcm (writes lb (g_fcm g)) g) g) by (split; [reflexivity|]; cbn [g_fcm set_fcm]; apply twins_sym, writes_twins).
    rewrite (A2 g Xa). rewrite (B2 (set_fcm (writes la (g_fcm g)) g)) by (split; [reflexivity|]; cbn [g_fcm set_fcm]; apply writes_twins).
    assert (X1 : gtwins (set_fcm (writes lb (g_fcm g)) g) (set_fcm (writes lb (g_fcm g)) g)) by (split; [|intros c]; reflexivity). rewrite (A2 _ X1) in E2. injection E2 as <-.
    cbn [g_fcm set_fcm] in *. rewrite (writes_comm lb la); auto.
    intros c Hb Ha. apply B1 in Hb. apply A1 in Ha. apply (touches_apart b a g c); auto.
    + intros str E. apply (G2 (fst b)). left. destruct b; cbn in *; congruence.
    + intros str E. apply (G2 (fst a)). right. left. destruct a; cbn in *; congruence.
    + intros E. apply NoDup_cons_iff in G1 as [G1 _]. apply G1. left. now symmetry.
  - intros H. apply IH2; auto.
    + split; [eapply Permutation_NoDup; [apply Permutation_map, P1|exact G1]|]. intros f str X. apply (G2 f). eapply Permutation_in; [apply Permutation_sym, P1|exact X].
    + apply IH1; auto. split; auto.
Qed.
Lemma row_error r : forall g e, snd (set_row cf r g) = Err e -> e = EExc "Cannot init concept".
Proof.
  unfold set_row. change (fun fv => init_concept_by_feature_data cf (fst fv) (snd fv)) with of_cell. induction r as [|a r IH]; intros g e; cbn [sfold]; [discriminate|].
  destruct (of_cell a g) as [g1 [u|er]] eqn:E; [apply IH|]. cbn [snd]. intros [= <-]. apply (cell_error a g). now rewrite E.
Qed.
Lemma predict_row_perm r r' g : Permutation r r' -> good r -> tidy fds g -> sane (g_fcm g) ->
  snd (predict_row cf r' g) = snd (predict_row cf r g) /\ forall p, snd (predict_row cf r g) = Ok p -> predict_row cf r' g = predict_row cf r g.
Proof.
  intros P G T S. unfold predict_row. change (sfold (fun fv => init_concept_by_feature_data cf (fst fv) (snd fv))) with (set_row cf). unfold sthen.
  pose proof (proj1 (clear_values (g_fcm g))) as O1. pose proof (moved_on OpClearExec g eq_refl) as M1. change (step OpClearExec) with (clear_execution (F := F)) in M1.
  unfold on_fcm in *. destruct (clear_execution (g_fcm g)) as [s1 r1]. cbn [fst snd] in *. subst r1.
  assert (T1 : tidy fds (set_fcm s1 g)) by now apply (tidy_moved fds g). destruct (sane_parts _ (moved_sane _ _ M1 S)) as (_ & _ & K1 & _).
  assert (G' : good r') by (destruct G as [Ga Gb]; split; [eapply Permutation_NoDup; [apply Permutation_map, P|exact Ga]|intros f str X; apply (Gb f); eapply Permutation_in; [apply Permutation_sym, P|exact X]]).
  destruct (set_row cf r (set_fcm s1 g)) as [g2 [[]|er]] eqn:E.
  - rewrite (row_perm r r' P G _ _ T1 K1 E). auto.
  - pose proof (row_error r (set_fcm s1 g) er ltac:(now rewrite E)) as ->. destruct (set_row cf r' (set_fcm s1 g)) as [g3 [[]|er']] eqn:E'.
    + apply (row_perm r' r (Permutation_sym P) G' _ _ T1 K1) in E'. rewrite E in E'. discriminate.
    + rewrite (row_error r' (set_fcm s1 g) er' ltac:(now rewrite E')). split; auto. intros p. cbn [snd]. discriminate.
Qed.
Lemma predict_rows_perm rows : forall rows' g acc, Forall2 (@Permutation (string * cell F)) rows rows' -> Forall good rows -> tidy fds g -> sane (g_fcm g) ->
  snd (predict_rows cf rows' acc g) = snd (predict_rows cf rows acc g) /\ forall p, snd (predict_rows cf rows acc g) = Ok p -> predict_rows cf rows' acc g = predict_rows cf rows acc g.
Proof.
  induction rows as [|r rows IH]; intros rows' g acc H G T S; inversion H as [|? r' ? rs' Hr Hrs]; subst; [auto|]. cbn [predict_rows]. inversion G as [|? ? G1 G2]; subst.
  destruct (predict_row_perm r r' g Hr G1 T S) as [A B]. pose proof (moved_predict cf r g) as M.
  destruct (predict_row cf r g) as [g1 [p|er]] eqn:E; cbn [fst snd] in *.
  - rewrite (B p eq_refl). apply IH; auto; [now apply (tidy_moved fds g)|now apply (moved_sane g)].
  - destruct (predict_row cf r' g) as [g2 [p|er']]; cbn [snd] in A; [discriminate|]. injection A as ->. split; [reflexivity|]. intros q Hq. discriminate.
Qed.
End Cells.

Section Frames.
Context {F : Type} {N : Num F}.
Implicit Types x : dataset F.
Lemma forallb_perm {A} (p : A -> bool) l l' : Permutation l l' -> forallb p l = forallb p l'.
Proof. induction 1; cbn; auto; try congruence. now rewrite !Bool.andb_assoc, (Bool.andb_comm (p y)). Qed.
Lemma existsb_perm {A} (p : A -> bool) l l' : Permutation l l' -> existsb p l = existsb p l'.
Proof. induction 1; cbn; auto; try congruence. now rewrite !Bool.orb_assoc, (Bool.orb_comm (p y)). Qed.
Lemma frame_rows_table n x : table n x -> frame_rows x = n.
Proof. intros [H1 H2]. destruct x as [|[f c] x]; [easy|]. apply (H2 f). now left. Qed.
Lemma table_perm n x x' : Permutation x x' -> table n x -> table n x'.
Proof.
  intros P [H1 H2]. split; [intros ->; apply Permutation_sym, Permutation_nil in P; auto|]. intros f c H. apply (H2 f). eapply Permutation_in; [apply Permutation_sym, P|exact H].
Qed.
Lemma iterrows_perm n x x' : table n x -> Permutation x x' -> Forall2 (@Permutation (string * cell F)) (iterrows x) (iterrows x').
Proof.
  intros T P. unfold iterrows. rewrite (frame_rows_table n x T), (frame_rows_table n x' (table_perm n x x' P T)).
  rewrite <- (forallb_perm (fun c => is_numeric_col (snd c)) x x' P), <- (existsb_perm (fun c => is_float_col (snd c)) x x' P).
  set (tf := (_ && _)%bool). clearbody tf. induction (seq 0 n) as [|i l IH]; cbn [map]; constructor; auto. now apply Permutation_flat_map.
Qed.
Lemma row_fst x tf i : incl (map fst (flat_map (fun c => match nth_error (col_cells (F := F) (snd c)) i with Some v => [(fst c, upcast tf v)] | None => [] end) x)) (map fst x).
Proof.
  intros f H. apply in_map_iff in H as ([f' v] & <- & H). apply in_flat_map in H as ([f2 c] & Hc & H). cbn [fst snd] in *. destruct (nth_error _ i); [|easy]. destruct H as [[= <- <-]|[]]. apply in_map_iff. exists (f2, c). auto.
Qed.
Lemma rows_good x : NoDup (dkeys x) -> (forall f l, In (f, ColStr l) x -> Forall readable l) -> Forall good (iterrows x).
Proof.
  intros ND Hr. apply Forall_forall. intros r H. unfold iterrows in H. apply in_map_iff in H as (i & <- & _). set (tf := (_ && _)%bool). clearbody tf. split.
  - clear Hr. induction x as [|[f c] x IH]; [constructor|]. unfold dkeys in ND. cbn [map fst] in ND. apply NoDup_cons_iff in ND as [Nf ND]. cbn [flat_map fst snd]. rewrite map_app.
    destruct (nth_error (col_cells c) i) as [v|]; [|now apply IH]. cbn [map app fst]. constructor; [|now apply IH]. intros X. apply Nf. now apply row_fst in X.
  - intros f str H. apply in_flat_map in H as ([f2 c] & Hc & H). cbn [fst snd] in H. destruct (nth_error (col_cells c) i) as [v|] eqn:E; [|easy]. destruct H as [[= <- Hv]|[]].
    destruct v as [s|b|z|q]; cbn [upcast] in Hv; try discriminate; [|destruct tf; discriminate]. injection Hv as ->. apply nth_error_In in E.
    destruct c as [l|l|l|l]; cbn [col_cells] in E; apply in_map_iff in E as (y & Ey & Hy); try discriminate. injection Ey as ->. pose proof (Hr f2 l Hc) as Q. rewrite Forall_forall in Q. auto.
Qed.
Lemma predict_perm cf fds n x x' (e : est F) : c_sep cf = "___" -> tidy fds (e_gen e) -> sane (g_fcm (e_gen e)) -> table n x -> NoDup (dkeys x) ->
  (forall f l, In (f, ColStr l) x -> Forall readable l) -> Permutation x x' ->
  snd (predict cf x' e) = snd (predict cf x e) /\ forall out, snd (predict cf x e) = Ok out -> predict cf x' e = predict cf x e.
Proof.
  intros Hs T S Tb ND Hr P. unfold predict. destruct (e_generated e); [|split; auto].
  destruct (predict_rows_perm cf Hs fds (iterrows x) (iterrows x') (e_gen e) [] (iterrows_perm n x x' Tb P) (rows_good x ND Hr) T S) as [A B].
  destruct (predict_rows cf (iterrows x) [] (e_gen e)) as [g r]. cbn [snd] in *. destruct r as [out|er].
  - rewrite (B out eq_refl). auto.
  - destruct (predict_rows cf (iterrows x') [] (e_gen e)) as [g' r']. cbn [snd] in *. subst r'. split; auto. intros out. discriminate.
Qed.
End Frames.
