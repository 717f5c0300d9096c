(** FcmRename.v — renaming the concepts of a map (C102); forgetting the stored
    description of fuzzy concepts (C103). *)
From Verif Require Import Base BaseFacts Num Functions Fcm.

Section Rename.
Context {F : Type} {N : Num F}.
Variable rho : string -> string.
Hypothesis inj : forall a b, rho a = rho b -> a = b.
(** what becomes of the stored (membership, value) pairs of a concept *)
Variable tf : string -> option (list F * list F) -> option (list F * list F).
Definition ren_node (c : string) (n : node F) : node F :=
  mkNode (map (fun p => (rho (fst p), snd p)) (nd_arcs n)) (nd_aux n) (nd_value n) (nd_sum n) (nd_active n) (nd_exec n) (nd_type n)
    (tf c (nd_fuzzy n)) (nd_mem n) (nd_usemap n) (nd_func n) (nd_args n) (nd_vect n).
Definition ren_dict {A} (h : string -> A -> A) (d : dict A) : dict A := map (fun p => (rho (fst p), h (fst p) (snd p))) d.
Definition ren_arc (a : string * F * string) : string * F * string := let '(d, w, o) := a in (rho d, w, rho o).
Definition ren (s : fcm F) : fcm F :=
  set_exec (ren_dict (fun _ h => h) (m_exec s)) (set_arcs (map ren_arc (m_arcs s)) (set_topo (ren_dict ren_node (m_topo s)) s)).
Definition ren_op (o : op F) : op F :=
  match o with
  | OpAddConcept n t a m e d f k => OpAddConcept (rho n) t a m e d f k
  | OpSetConcept n t a m e d f k => OpSetConcept (rho n) t a m e d f k
  | OpAddRelation o d w => OpAddRelation (rho o) (rho d) w
  | OpInitConcept n v r => OpInitConcept (rho n) v r
  | o => o
  end.
(** the same outcome up to the names in the message *)
Definition same_exn (e e' : exn) : Prop :=
  match e, e' with EKey _, EKey _ => True | EExc _, EExc _ => True | _, _ => e = e' end.
Definition same_res {A} (Q : A -> A -> Prop) (r r' : res A) : Prop :=
  match r, r' with Ok a, Ok a' => Q a a' | Err e, Err e' => same_exn e e' | _, _ => False end.
Definition kin (p p' : fcm F * res unit) : Prop := fst p' = ren (fst p) /\ same_res eq (snd p) (snd p').

Lemma same_exn_refl e : same_exn e e.
Proof. destruct e; cbn; auto. Qed.
Lemma same_res_refl {A} (Q : A -> A -> Prop) r : (forall a, Q a a) -> same_res Q r r.
Proof. destruct r; cbn; auto using same_exn_refl. Qed.
Lemma same_bind {A B} (Q : A -> A -> Prop) (P : B -> B -> Prop) r r' k k' : same_res Q r r' -> (forall a a', Q a a' -> same_res P (k a) (k' a')) ->
  same_res P (rbind r k) (rbind r' k').
Proof. intros H K. destruct r, r'; cbn in *; auto; contradiction. Qed.
Lemma rho_eqb a b : String.eqb (rho a) (rho b) = String.eqb a b.
Proof.
  destruct (String.eqb_spec a b) as [->|H]; [apply String.eqb_refl|]. destruct (String.eqb_spec (rho a) (rho b)) as [E|_]; auto. now apply inj in E.
Qed.
Lemma dget_ren {A} (h : string -> A -> A) d c : dget (ren_dict h d) (rho c) = option_map (h c) (dget d c).
Proof. induction d as [|[k v] d IH]; [reflexivity|]. cbn. rewrite rho_eqb. destruct (String.eqb_spec c k) as [->|]; auto. Qed.
Lemma dset_ren {A} (h : string -> A -> A) d c v : dset (ren_dict h d) (rho c) (h c v) = ren_dict h (dset d c v).
Proof. induction d as [|[k w] d IH]; [reflexivity|]. cbn. rewrite rho_eqb. destruct (String.eqb_spec c k) as [->|]; [reflexivity|]. cbn. f_equal. exact IH. Qed.
Lemma dkeys_ren {A} (h : string -> A -> A) d : dkeys (ren_dict h d) = map rho (dkeys d).
Proof. unfold dkeys, ren_dict. now rewrite !map_map. Qed.
Lemma topo_ren s c : dget (m_topo (ren s)) (rho c) = option_map (ren_node c) (dget (m_topo s) c).
Proof. apply dget_ren. Qed.
Lemma exec_ren s c : dget (m_exec (ren s)) (rho c) = dget (m_exec s) c.
Proof. unfold ren. cbn [m_exec set_exec]. rewrite dget_ren. now destruct (dget _ _). Qed.
Lemma topo_exn_ren s c : same_res (fun n n' => n' = ren_node c n) (dget_exn (m_topo s) c) (dget_exn (m_topo (ren s)) (rho c)).
Proof. unfold dget_exn. rewrite topo_ren. destruct (dget _ _); cbn; auto. Qed.
Lemma keys_ren s : dkeys (m_topo (ren s)) = map rho (dkeys (m_topo s)).
Proof. apply dkeys_ren. Qed.
Lemma put_node_ren c n s : put_node (rho c) (ren_node c n) (ren s) = ren (put_node c n s).
Proof. unfold put_node, ren. cbn. now rewrite dset_ren. Qed.
Lemma put_exec_ren c h s : put_exec (rho c) h (ren s) = ren (put_exec c h s).
Proof. unfold put_exec, ren. cbn. now rewrite (dset_ren (fun _ h => h) (m_exec s) c h). Qed.
Lemma kin_ok s : kin (s, Ok tt) (ren s, Ok tt).
Proof. split; reflexivity. Qed.
Lemma kin_err s e e' : same_exn e e' -> kin (s, Err e) (ren s, Err e').
Proof. split; auto. Qed.
Lemma kin_mfold {A B} (j : A -> B) (f : A -> fcm F -> fcm F * res unit) f' l : (forall a s, kin (f a s) (f' (j a) (ren s))) ->
  forall s, kin (mfold f l s) (mfold f' (map j l) (ren s)).
Proof.
  intros H. induction l as [|a l IH]; intros s; cbn [mfold map]; [apply kin_ok|]. destruct (H a s) as [E R].
  destruct (f a s) as [s1 [u|e]], (f' (j a) (ren s)) as [s2 [u'|e']]; cbn in E, R; try contradiction; subst s2; [apply IH|now apply kin_err].
Qed.
Lemma same_oget {A} (o : option A) k : same_res eq (oget o k) (oget o k).
Proof. destruct o; cbn; auto. Qed.

(** ** The execution of the map *)
Lemma reset_ren c s : kin (reset_one c s) (reset_one (rho c) (ren s)).
Proof.
  unfold reset_one. rewrite topo_ren. destruct (dget (m_topo s) c) as [n|]; cbn [option_map]; [|now apply kin_err].
  change (nd_set_aux [] (ren_node c n)) with (ren_node c (nd_set_aux [] n)). rewrite put_node_ren, exec_ren. destruct (dget (m_exec _) c) as [[|v h]|]; try now apply kin_err.
  change (nd_set_value v (ren_node c (nd_set_aux [] n))) with (ren_node c (nd_set_value v (nd_set_aux [] n))). rewrite put_node_ren, put_exec_ren. apply kin_ok.
Qed.
Lemma reset_execution_ren s : kin (reset_execution s) (reset_execution (ren s)).
Proof. unfold reset_execution. rewrite keys_ren. apply kin_mfold. apply reset_ren. Qed.
Lemma clear_execution_ren s : kin (clear_execution s) (clear_execution (ren s)).
Proof.
  unfold clear_execution. rewrite keys_ren. apply kin_mfold. intros c t. unfold clear_one. rewrite topo_ren.
  destruct (dget (m_topo t) c) as [n|]; cbn [option_map]; [|now apply kin_err].
  change (nd_set_value n0 (nd_set_aux [] (ren_node c n))) with (ren_node c (nd_set_value n0 (nd_set_aux [] n))). rewrite put_node_ren, put_exec_ren. apply kin_ok.
Qed.
Lemma spread_ren a s : kin (spread_arc a s) (spread_arc (ren_arc a) (ren s)).
Proof.
  destruct a as [[d w] o]. unfold spread_arc. cbn [ren_arc]. unfold dget_exn. rewrite !topo_ren.
  destruct (dget (m_topo s) o) as [no|]; cbn [option_map rbind]; [|now apply kin_err].
  cbn [ren_node nd_active nd_exec nd_value]. destruct (nd_active no) as [[|]|]; cbn [oget rbind]; [|apply kin_ok|now apply kin_err].
  destruct (nd_exec no) as [e|]; cbn [oget rbind]; [|now apply kin_err]. destruct (dget (m_topo s) d) as [nd|]; cbn [option_map rbind]; [|now apply kin_err].
  match goal with |- context [nd_aux nd ++ [?z]] => change (nd_set_aux (nd_aux (ren_node d nd) ++ [z]) (ren_node d nd)) with (ren_node d (nd_set_aux (nd_aux nd ++ [z]) nd)) end.
  rewrite put_node_ren. apply kin_ok.
Qed.
Lemma update_ren c s : kin (update_value c s) (update_value (rho c) (ren s)).
Proof.
  unfold update_value, dget_exn. rewrite topo_ren. destruct (dget (m_topo s) c) as [n|]; cbn [option_map rbind]; [|now apply kin_err].
  cbn [ren_node nd_exec nd_mem nd_aux nd_value]. destruct (nd_exec n) as [e|]; cbn [oget rbind]; [|now apply kin_err].
  destruct (nd_mem n) as [m|]; cbn [oget rbind]; [|now apply kin_err]. destruct (get_excitation_by_name e) as [x|]; cbn [rbind]; [|now apply kin_err].
  set (v := exec_excit _ _ _ _). fold (ren_node c n). change (nd_set_aux [] (ren_node c n)) with (ren_node c (nd_set_aux [] n)).
  cbn [ren_node nd_func nd_sum nd_args nd_set_aux]. fold (ren_node c n). change (nd_set_aux [] (ren_node c n)) with (ren_node c (nd_set_aux [] n)).
  match goal with |- kin (match ?r with Ok _ => _ | Err _ => _ end) _ => destruct r as [y|er] end.
  - fold (nd_set_aux [] n). fold (ren_node c (nd_set_aux [] n)).
    change (nd_set_value y (ren_node c (nd_set_aux [] n))) with (ren_node c (nd_set_value y (nd_set_aux [] n))).
    rewrite !put_node_ren, exec_ren. destruct (dget (m_exec _) c) as [h|]; [|now apply kin_err]. rewrite put_exec_ren. apply kin_ok.
  - rewrite put_node_ren. apply kin_err. apply same_exn_refl.
Qed.

Lemma kin_then (r r' : fcm F * res unit) k k' : kin r r' -> (forall s, kin (k s) (k' (ren s))) ->
  kin (match r with (s, Err e) => (s, Err e) | (s, Ok _) => k s end) (match r' with (s, Err e) => (s, Err e) | (s, Ok _) => k' s end).
Proof.
  intros [E R] K. destruct r as [s [u|e]], r' as [s' [u'|e']]; cbn in E, R; try contradiction; subst s'; [apply K|now apply kin_err].
Qed.
Lemma inf_step_ren s : kin (inf_step s) (inf_step (ren s)).
Proof.
  unfold inf_step. apply kin_then.
  - change (m_arcs (ren s)) with (map ren_arc (m_arcs s)). apply kin_mfold. apply spread_ren.
  - intros t. change (dkeys (m_exec (ren t))) with (dkeys (ren_dict (fun _ h => h) (m_exec t))). rewrite dkeys_ren. apply kin_then; [apply kin_mfold; apply update_ren|].
    intros u. apply (kin_ok (set_iters (m_iters u + 1)%Z u)).
Qed.
Lemma keep_execution_ren s : keep_execution (ren s) = keep_execution s.
Proof.
  unfold keep_execution, is_stable. cbn [ren set_exec set_arcs set_topo m_maxit m_iters m_stab m_exec m_sdiff].
  replace (map snd (ren_dict (fun _ h => h) (m_exec s))) with (map snd (m_exec s)); [reflexivity|]. unfold ren_dict. now rewrite map_map.
Qed.
Lemma iter_loop_ren fuel : forall extra s, kin (iter_loop fuel extra s) (iter_loop fuel extra (ren s)).
Proof.
  induction fuel as [|fuel IH]; intros extra s; cbn [iter_loop]; destruct (0 <? extra)%Z; try apply kin_ok; [now apply kin_err|].
  rewrite keep_execution_ren. destruct (keep_execution s) as [b|e]; [|apply kin_err; apply same_exn_refl].
  apply kin_then; [apply inf_step_ren|]. intros t. apply IH.
Qed.
Lemma iterative_ren s : kin (iterative_inference s) (iterative_inference (ren s)).
Proof. unfold iterative_inference. apply (iter_loop_ren _ _ (set_iters 1%Z s)). Qed.

Lemma values_ren s : map (fun p => nd_value (snd p)) (m_topo (ren s)) = map (fun p => nd_value (snd p)) (m_topo s).
Proof. unfold ren. cbn [m_topo set_exec set_arcs set_topo]. unfold ren_dict. now rewrite map_map. Qed.
Lemma index_of_ren c l : index_of (rho c) (map rho l) = index_of c l.
Proof. induction l as [|x l IH]; [reflexivity|]. cbn. rewrite rho_eqb. destruct (String.eqb c x); auto. now rewrite IH. Qed.
Lemma prepare_ren s : prepare (ren s) = prepare s.
Proof.
  unfold prepare. rewrite keys_ren, map_length, values_ren.
  assert (E : forall d : dict (node F), rmap prep_node (map snd (ren_dict ren_node d)) = rmap prep_node (map snd d)).
  { induction d as [|[k v] d IH]; [reflexivity|]. cbn [ren_dict map snd rmap]. change (prep_node (ren_node k v)) with (prep_node v).
    fold (ren_dict ren_node d). now rewrite IH. }
  change (m_topo (ren s)) with (ren_dict ren_node (m_topo s)). rewrite E. destruct (rmap prep_node _) as [ps|e]; cbn [rbind]; [|reflexivity].
  assert (G : forall arcs mat, rfold (matrix_add (map rho (dkeys (m_topo s)))) (map ren_arc arcs) mat = rfold (matrix_add (dkeys (m_topo s))) arcs mat).
  { induction arcs as [|[[d w] o] arcs IH]; intros mat; [reflexivity|]. cbn [map rfold ren_arc]. unfold matrix_add at 1 3. rewrite !index_of_ren.
    destruct (index_of o _); [|reflexivity]. destruct (index_of d _); [|reflexivity]. apply IH. }
  change (m_arcs (ren s)) with (map ren_arc (m_arcs s)). now rewrite G.
Qed.
Lemma combine_map_r {A B C} (g : B -> C) (l : list A) : forall m, combine l (map g m) = map (fun p => (fst p, g (snd p))) (combine l m).
Proof. induction l as [|a l IH]; intros [|b m]; cbn; [reflexivity..|]. now rewrite IH. Qed.
Lemma vectorized_ren s : kin (vectorized_inference s) (vectorized_inference (ren s)).
Proof.
  unfold vectorized_inference. rewrite prepare_ren.
  change (m_prepared (ren s)) with (m_prepared s). change (m_cache (ren s)) with (m_cache s).
  set (p := if m_prepared s then _ else _).
  match goal with |- kin _ (match ?x with (_, _) => _ end) => set (p' := x) end.
  assert (E : p' = (ren (fst p), snd p)).
  { unfold p, p'. destruct (m_prepared s); [reflexivity|]. now destruct (prepare s). }
  clearbody p p'. subst p'. destruct p as [t [c|e]]; cbn [fst snd]; [|apply kin_err; apply same_exn_refl].
  cbv zeta. rewrite values_ren.
  replace (match m_topo (ren t) with [] => vc_state c | _ :: _ => map (fun p => nd_value (snd p)) (m_topo t) end)
    with (match m_topo t with [] => vc_state c | _ :: _ => map (fun p => nd_value (snd p)) (m_topo t) end)
    by (change (m_topo (ren t)) with (ren_dict ren_node (m_topo t)); now destruct (m_topo t)).
  set (st := match m_topo t with [] => vc_state c | _ :: _ => _ end).
  clearbody st. destruct (vc_functions c) as [|f0 fs]; [now apply kin_err|].
  change (m_maxit (ren t)) with (m_maxit t). change (m_sdiff (ren t)) with (m_sdiff t). change (m_extra (ren t)) with (m_extra t).
  destruct (vectorized_run _ _ _ _ _ _ _ _ _ _) as [[[buf oob] k]|e].
  2:{ match goal with |- kin (set_cache ?z t, _) _ => apply (kin_err (set_cache z t)) end. apply same_exn_refl. }
  change (m_oob (ren t)) with (m_oob t). set (o := m_oob t || oob). clearbody o.
  change (m_maxit (set_oob o (ren t))) with (m_maxit t). change (m_maxit (set_oob o t)) with (m_maxit t).
  destruct (Nat.eqb (Z.to_nat (m_maxit t)) 0); [now apply (kin_err (set_oob o t))|].
  match goal with |- kin (set_exec _ (set_cache ?z _), _) _ => set (cz := z); clearbody cz end.
  match goal with |- context [match find_sentinel ?a ?b with _ => _ end] => set (col := match find_sentinel a b with Some k => k | None => _ end); clearbody col end.
  set (m := Z.to_nat (m_maxit t)). clearbody m.
  change (dkeys (m_topo (set_cache cz (set_oob o (ren t))))) with (dkeys (m_topo (ren t))). rewrite keys_ren, map_length.
  change (m_topo (set_cache cz (set_oob o t))) with (m_topo t). rewrite combine_map_r.
  change (m_exec (set_cache cz (set_oob o (ren t)))) with (ren_dict (fun _ h => h) (m_exec t)). change (m_exec (set_cache cz (set_oob o t))) with (m_exec t).
  set (l := combine _ _). clearbody l.
  assert (E : forall d, fold_left (fun ex ic => dset ex (snd ic) (firstn col (firstn m (skipn (fst ic * m) buf)))) (map (fun p => (fst p, rho (snd p))) l) (ren_dict (fun _ h => h) d) =
              ren_dict (fun _ h => h) (fold_left (fun ex ic => dset ex (snd ic) (firstn col (firstn m (skipn (fst ic * m) buf)))) l d)).
  { induction l as [|[i x] l IH]; intros d; [reflexivity|]. cbn [map fold_left fst snd]. rewrite <- IH. f_equal. apply (dset_ren (fun _ h => h)). }
  rewrite E. set (ex := fold_left _ l (m_exec t)). clearbody ex. apply (kin_ok (set_exec ex (set_cache cz (set_oob o t)))).
Qed.
Lemma finalize_ren c s : kin (finalize_one c s) (finalize_one (rho c) (ren s)).
Proof.
  unfold finalize_one, dget_exn. rewrite topo_ren, exec_ren. destruct (dget (m_exec s) c) as [h|]; cbn [rbind]; [|now apply kin_err].
  destruct (dget (m_topo s) c) as [n|]; cbn [option_map rbind]; [|now apply kin_err]. change (m_decision (ren s)) with (m_decision s). change (m_extra (ren s)) with (m_extra s).
  destruct (get_decision_by_name (m_decision s)) as [d|]; cbn [rbind]; [|now apply kin_err]. destruct (exec_decision _ _ _) as [v|e]; cbn [rbind].
  - change (nd_set_value v (ren_node c n)) with (ren_node c (nd_set_value v n)). rewrite put_node_ren. apply kin_ok.
  - apply kin_err. apply same_exn_refl.
Qed.
Lemma run_ren r s : kin (run_inference r s) (run_inference r (ren s)).
Proof.
  unfold run_inference. apply kin_then; [destruct r; [apply reset_execution_ren|apply kin_ok]|]. intros t.
  change (m_debug (ren t)) with (m_debug t). apply kin_then; [destruct (m_debug t); [apply iterative_ren|apply vectorized_ren]|].
  intros u. rewrite keys_ren. apply kin_mfold. apply finalize_ren.
Qed.
Lemma clear_all_ren s : kin (clear_all s) (clear_all (ren s)).
Proof. unfold clear_all. apply kin_then; [apply reset_execution_ren|]. intros t. apply (kin_ok (set_exec [] (set_arcs [] (set_topo [] t)))). Qed.

(** ** Questions *)
Lemma value_ren s c : get_concept_value (rho c) (ren s) = get_concept_value c s.
Proof. unfold get_concept_value. rewrite topo_ren. now destruct (dget _ _). Qed.
Lemma outgoing_ren s c : get_concept_outgoing_relations (rho c) (ren s) = map (fun p => (rho (fst p), snd p)) (get_concept_outgoing_relations c s).
Proof. unfold get_concept_outgoing_relations. rewrite topo_ren. now destruct (dget _ _). Qed.
Lemma str_mem_ren c l : str_mem (rho c) (map rho l) = str_mem c l.
Proof. unfold str_mem. induction l as [|x l IH]; [reflexivity|]. cbn. now rewrite rho_eqb, IH. Qed.
Lemma rfold_ren (f f' : dict F -> string -> res (dict F)) l :
  (forall acc c, same_res (fun d d' => d' = ren_dict (fun _ x => x) d) (f acc c) (f' (ren_dict (fun _ x => x) acc) (rho c))) ->
  forall acc, same_res (fun d d' => d' = ren_dict (fun _ x => x) d) (rfold f l acc) (rfold f' (map rho l) (ren_dict (fun _ x => x) acc)).
Proof.
  intros H. induction l as [|c l IH]; intros acc; cbn [rfold map]; [reflexivity|]. specialize (H acc c).
  destruct (f acc c) as [a|e], (f' _ _) as [a'|e']; cbn in H; try contradiction; cbn [rbind]; [subst a'; apply IH|exact H].
Qed.
Lemma final_state_ren t names s :
  same_res (fun d d' => d' = ren_dict (fun _ x => x) d) (get_final_state t names s) (get_final_state t (map rho names) (ren s)).
Proof.
  unfold get_final_state. rewrite map_length. change (dkeys (m_exec (ren s))) with (dkeys (ren_dict (fun _ h => h) (m_exec s))). rewrite dkeys_ren.
  destruct (Nat.ltb 0 (length names)); refine (rfold_ren _ _ _ _ []);
    intros acc c; unfold dget_exn; rewrite topo_ren.
  - rewrite str_mem_ren. destruct (str_mem c names); [|reflexivity]. destruct (dget (m_topo s) c) as [n|]; cbn; [|exact I]. apply (dset_ren (fun _ x => x)).
  - destruct (dget (m_topo s) c) as [n|]; cbn [option_map rbind]; [|exact I]. cbn [ren_node nd_type nd_value].
    destruct (nd_type n) as [ty|]; cbn [oget rbind]; [|exact I].
    assert (D : forall a, dset (ren_dict (fun _ x => x) a) (rho c) (nd_value n) = ren_dict (fun _ x => x) (dset a c (nd_value n))) by (intros a; apply (dset_ren (fun _ x => x))).
    rewrite D. destruct (String.eqb t "any"), (String.eqb t "target"), (String.eqb ty TYPE_DECISION || String.eqb ty TYPE_REGRESOR), (String.eqb ty t); cbn; rewrite ?D; reflexivity.
Qed.
Lemma fit_node_any (c : string) (y : F) (n : node F) : same_res (fun p q => q = ren_node c p) (fit_node y n) (fit_node y (ren_node c n)).
Proof.
  unfold fit_node. cbn [ren_node nd_func nd_sum nd_vect]. fold (ren_node c n). destruct (nd_func n) as [f|]; cbn [oget rbind]; [|exact I].
  match goal with |- same_res _ (rbind ?x _) _ => destruct x as [l1|e]; cbn [rbind]; [|apply same_exn_refl] end.
  match goal with |- same_res _ (rbind ?x _) _ => destruct x as [l2|e]; cbn [rbind]; [|apply same_exn_refl] end.
  destruct (if String.eqb f "relm" then Some n1 else l2) as [l|]; reflexivity.
Qed.
Lemma add_relation_any o d w s : kin (add_relation o d w s) (add_relation (rho o) (rho d) w (ren s)).
Proof.
  unfold add_relation. change (set_prepared false (ren s)) with (ren (set_prepared false s)). set (t := set_prepared false s). clearbody t.
  rewrite !topo_ren. destruct (dget (m_topo t) d) as [n0|]; cbn [option_map]; [|apply kin_ok]. destruct (dget (m_topo t) o) as [no|]; cbn [option_map]; [|apply kin_ok].
  replace (nd_set_arcs (nd_arcs (ren_node o no) ++ [(rho d, w)]) (ren_node o no)) with (ren_node o (nd_set_arcs (nd_arcs no ++ [(d, w)]) no)).
  2:{ unfold ren_node. cbn. now rewrite map_app. }
  rewrite put_node_ren. set (t1 := put_node o _ t). clearbody t1. rewrite topo_ren. destruct (dget (m_topo t1) d) as [nd|]; cbn [option_map]; [|now apply kin_err].
  change (nd_set_sum (nadd (nd_sum (ren_node d nd)) w) (ren_node d nd)) with (ren_node d (nd_set_sum (nadd (nd_sum nd) w) nd)).
  set (nd1 := nd_set_sum _ nd). clearbody nd1. rewrite put_node_ren. set (t2 := put_node d nd1 t1). clearbody t2. change (m_fit (ren t2)) with (m_fit t2).
  assert (K : forall q, kin (set_arcs (m_arcs (put_node d q t2) ++ [(d, w, o)]) (put_node d q t2), Ok tt)
                 (set_arcs (m_arcs (put_node (rho d) (ren_node d q) (ren t2)) ++ [(rho d, w, rho o)]) (put_node (rho d) (ren_node d q) (ren t2)), Ok tt)).
  { intros q. rewrite put_node_ren. set (t3 := put_node d q t2). clearbody t3. split; [|reflexivity]. cbn [fst]. unfold ren. cbn. now rewrite map_app. }
  destruct (m_fit t2) as [y|]; [|apply K]. pose proof (fit_node_any d y nd1) as R.
  destruct (fit_node y nd1) as [q|e], (fit_node y (ren_node d nd1)) as [q'|e']; cbn in R; try contradiction; [subst q'; apply K|now apply kin_err].
Qed.
End Rename.

(** ** Building the map *)
Definition same {A : Type} (c : string) (z : A) : A := z.
Section Build.
Context {F : Type} {N : Num F}.
Variable rho : string -> string.
Hypothesis inj : forall a b, rho a = rho b -> a = b.
Notation ren := (ren rho same). Notation ren_node := (ren_node rho same ""). Notation kin := (kin rho same).
Lemma topo_ren1 (s : fcm F) c : dget (m_topo (ren s)) (rho c) = option_map ren_node (dget (m_topo s) c).
Proof. rewrite (topo_ren rho inj). now destruct (dget (m_topo s) c). Qed.
Lemma put_node_ren1 c n (s : fcm F) : put_node (rho c) (ren_node n) (ren s) = ren (put_node c n s).
Proof. rewrite <- (put_node_ren rho inj). reflexivity. Qed.
Lemma built_arcs (dc : dconcept F) t a m e d f k : nd_arcs (fst (build_node dc t a m e d f k)) = [].
Proof.
  unfold build_node. repeat match goal with |- context [match ?x with _ => _ end] => destruct x eqn:? end; cbn; auto;
  unfold define_func, rbind, oget in *; repeat match goal with H : context [match ?x with _ => _ end] |- _ => destruct x eqn:? end;
  repeat match goal with H : Ok _ = Ok _ |- _ => inversion H; clear H; subst | H : (_, _) = (_, _) |- _ => inversion H; clear H; subst end; cbn; auto; try discriminate.
Qed.
Lemma ren_blank_arcs (n : node F) : nd_arcs n = [] -> ren_node n = n.
Proof. destruct n. cbn. intros ->. reflexivity. Qed.
Lemma add_concept_ren c t a m e d f k s : kin (add_concept c t a m e d f k s) (add_concept (rho c) t a m e d f k (ren s)).
Proof.
  unfold add_concept. change (m_default (set_prepared false (ren s))) with (m_default (set_prepared false s)).
  pose proof (built_arcs (m_default (set_prepared false s)) t a m e d f k) as A. destruct (build_node _ _ _ _ _ _ _ _) as [n r]. cbn [fst] in A.
  change (set_prepared false (ren s)) with (ren (set_prepared false s)). 
  assert (P : put_node (rho c) n (ren (set_prepared false s)) = ren (put_node c n (set_prepared false s))) by (rewrite <- put_node_ren1, (ren_blank_arcs n A); reflexivity).
  cbv zeta. rewrite P.
  destruct r as [u|x]; [rewrite (put_exec_ren rho inj); apply kin_ok|apply kin_err; apply same_exn_refl].
Qed.
Lemma define_ren (n : node F) fa fn k dflt : define_func (ren_node n) fa fn k dflt = (ren_node (fst (define_func n fa fn k dflt)), snd (define_func n fa fn k dflt)).
Proof.
  unfold define_func. destruct fa; [reflexivity|]. destruct fn as [g|]; [|reflexivity]. now destruct (get_function_by_name g).
Qed.
Lemma update_node_ren (s : fcm F) (n : node F) t a m e d f k :
  update_node (ren s) (ren_node n) t a m e d f k = (ren_node (fst (update_node s n t a m e d f k)), snd (update_node s n t a m e d f k)).
Proof.
  unfold update_node. cbv zeta. 
  set (n1 := match a with Some b => nd_set_active b n | None => n end).
  replace (match a with Some b => nd_set_active b (ren_node n) | None => ren_node n end) with (ren_node n1) by (unfold n1; destruct a; reflexivity).
  clearbody n1.
  assert (D : forall q fa, define_func (nd_set_mem (match m with Some b => b | None => m_mem (ren s) end) (ren_node q)) fa f k (m_func (ren s), m_gargs (ren s)) =
     (ren_node (fst (define_func (nd_set_mem (match m with Some b => b | None => m_mem s end) q) fa f k (m_func s, m_gargs s))),
      snd (define_func (nd_set_mem (match m with Some b => b | None => m_mem s end) q) fa f k (m_func s, m_gargs s)))).
  { intros q fa. apply (define_ren (nd_set_mem (match m with Some b => b | None => m_mem s end) q)). }
  destruct e as [x|]; [destruct (get_excitation_by_name x); [|reflexivity]|].
  - destruct t as [ty|]; [destruct (is_valid_type ty); [|reflexivity]|].
    + destruct d as [dd|]; [destruct (is_fuzzy_type ty)|].
      * destruct (process_activation_dict dd) as [[[? ?] ?]|]; cbn [rbind]; [|reflexivity]. apply (D (nd_set_fuzzy _ (nd_set_type ty (nd_set_exec x n1)))).
      * apply (D (nd_set_type ty (nd_set_exec x n1))).
      * apply (D (nd_set_type ty (nd_set_exec x n1))).
    + destruct d as [dd|]; apply (D (nd_set_exec x n1)).
  - destruct t as [ty|]; [destruct (is_valid_type ty); [|reflexivity]|].
    + destruct d as [dd|]; [destruct (is_fuzzy_type ty)|].
      * destruct (process_activation_dict dd) as [[[? ?] ?]|]; cbn [rbind]; [|reflexivity]. apply (D (nd_set_fuzzy _ (nd_set_type ty n1))).
      * apply (D (nd_set_type ty n1)).
      * apply (D (nd_set_type ty n1)).
    + destruct d as [dd|]; apply (D n1).
Qed.
Lemma set_concept_ren c t a m e d f k s : kin (set_concept_properties c t a m e d f k s) (set_concept_properties (rho c) t a m e d f k (ren s)).
Proof.
  unfold set_concept_properties. rewrite topo_ren1. destruct (dget (m_topo s) c) as [n|]; cbn [option_map]; [|now apply kin_err].
  change (set_prepared false (ren s)) with (ren (set_prepared false s)). rewrite update_node_ren.
  destruct (update_node (set_prepared false s) n t a m e d f k) as [n' r]. cbn [fst snd]. rewrite put_node_ren1. split; [reflexivity|apply same_res_refl; auto].
Qed.
Lemma set_default_ren t a m e d f k s : kin (set_default_concept_properties t a m e d f k s) (set_default_concept_properties t a m e d f k (ren s)).
Proof.
  unfold set_default_concept_properties. change (m_default (ren s)) with (m_default s).
  change (update_default (ren s) (m_default s) t a m e d f k) with (update_default s (m_default s) t a m e d f k).
  destruct (update_default _ _ _ _ _ _ _ _ _) as [dd r]. split; [reflexivity|apply same_res_refl; auto].
Qed.
Lemma add_relation_ren o d w (s : fcm F) : kin (add_relation o d w s) (add_relation (rho o) (rho d) w (ren s)).
Proof. apply (add_relation_any rho inj). Qed.
Lemma init_concept_ren c v r s : kin (init_concept c v r s) (init_concept (rho c) v r (ren s)).
Proof.
  unfold init_concept. rewrite topo_ren1. destruct (dget (m_topo s) c) as [n|]; cbn [option_map]; [|destruct r; [now apply kin_err|apply kin_ok]].
  change (nd_func (ren_node n)) with (nd_func n). change (nd_fuzzy (ren_node n)) with (nd_fuzzy n).
  match goal with |- kin (match ?x with Ok _ => _ | Err _ => _ end) _ => destruct x as [y|e] end; [|apply kin_err; apply same_exn_refl].
  change (nd_set_aux [] (nd_set_value y (ren_node n))) with (ren_node (nd_set_aux [] (nd_set_value y n))). rewrite (put_exec_ren rho inj), put_node_ren1. apply kin_ok.
Qed.
Lemma set_activation_ren f k (s : fcm F) : kin (set_map_activation_function f k s) (set_map_activation_function f k (ren s)).
Proof.
  unfold set_map_activation_function. destruct (get_function_by_name f); [|now apply (kin_err rho same (set_prepared false s))].
  change (set_func f k (set_prepared false (ren s))) with (ren (set_func f k (set_prepared false s))). set (t := set_func _ _ _). clearbody t.
  rewrite (keys_ren rho). apply kin_mfold. intros c u. unfold refresh_func. rewrite topo_ren1. destruct (dget (m_topo u) c) as [n|]; cbn [option_map]; [|now apply kin_err].
  change (nd_usemap (ren_node n)) with (nd_usemap n). destruct (nd_usemap n) as [[|]|]; [|apply kin_ok|now apply kin_err].
  match goal with |- kin (put_node c ?z u, _) _ => rewrite <- (put_node_ren1 c z u) || (split; [apply (put_node_ren1 c z u)|reflexivity]) end.
Qed.
Theorem step_ren (o : op F) (s : fcm F) : kin (step o s) (step (ren_op rho o) (ren s)).
Proof.
  destruct o; cbn [ren_op step];
    auto using add_concept_ren, set_concept_ren, set_default_ren, add_relation_ren, init_concept_ren, set_activation_ren, reset_execution_ren, clear_execution_ren, clear_all_ren, run_ren.
  all: try (split; reflexivity). unfold set_map_decision_function. destruct (get_decision_by_name _); [split; reflexivity|now apply kin_err].
Qed.
Lemma run_ops_ren (l : list (op F)) : forall s, run_ops (map (ren_op rho) l) (ren s) = ren (run_ops l s).
Proof.
  unfold run_ops. induction l as [|o l IH]; intros s; [reflexivity|]. cbn [map fold_left]. destruct (step_ren o s) as [E _]. rewrite E. apply IH.
Qed.
End Build.
