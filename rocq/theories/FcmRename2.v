(** FcmRename2.v — renaming the concepts of a document; saving and loading (C102). *)
From Verif Require Import Base BaseFacts Num Functions Fcm Loader FcmRename.

Section Doc.
Context {F : Type} {N : Num F}.
Variable rho : string -> string.
Hypothesis inj : forall a b, rho a = rho b -> a = b.
Notation ren := (ren rho same). Notation kin := (kin rho same).
Definition ren_text (j : json F) : json F := match j with JStr c => JStr (rho c) | _ => j end.
Definition ren_fields (names : list string) (j : json F) : json F :=
  match j with JObj d => JObj (map (fun p => (fst p, if str_mem (fst p) names then ren_text (snd p) else snd p)) d) | _ => j end.
Definition ren_items (h : json F -> json F) (j : json F) : json F := match j with JArr l => JArr (map h l) | _ => j end.
(** the names of concepts in a document: field id of each concept, fields origin and destiny of each relation *)
Definition ren_doc (j : json F) : json F :=
  match j with
  | JObj d => JObj (map (fun p => (fst p, if String.eqb (fst p) "concepts" then ren_items (ren_fields ["id"]) (snd p)
                                          else if String.eqb (fst p) "relations" then ren_items (ren_fields ["origin"; "destiny"]) (snd p) else snd p)) d)
  | _ => j
  end.
Definition alike (r r' : res (fcm F)) : Prop := same_res (fun s s' => s' = ren s) r r'.

Lemma dget_map (g : string -> json F -> json F) (d : dict (json F)) k : dget (map (fun p => (fst p, g (fst p) (snd p))) d) k = option_map (g k) (dget d k).
Proof. induction d as [|[k' v] d IH]; [reflexivity|]. cbn. destruct (String.eqb_spec k k') as [->|]; auto. Qed.
Lemma field_other names d k : str_mem k names = false -> forall x, ren_fields names (JObj d) = JObj x -> dget x k = dget d k.
Proof.
  intros E x [= <-]. rewrite (dget_map (fun k v => if str_mem k names then ren_text v else v)). destruct (dget d k); cbn; now rewrite ?E.
Qed.
Lemma field_name names d k : str_mem k names = true -> forall x, ren_fields names (JObj d) = JObj x -> dget x k = option_map ren_text (dget d k).
Proof.
  intros E x [= <-]. rewrite (dget_map (fun k v => if str_mem k names then ren_text v else v)). destruct (dget d k); cbn; now rewrite ?E.
Qed.
Definition cd_ren (cd : concept_desc F) : concept_desc F :=
  mkCD (rho (cd_id cd)) (cd_type cd) (cd_active cd) (cd_mem cd) (cd_exec cd) (cd_func cd) (cd_adict cd) (cd_args cd) (cd_activation cd).
Ltac peel := match goal with |- same_res _ (rbind ?x _) (rbind ?x _) => let e := fresh "e" in destruct x as [?|e]; cbn [rbind]; [|apply same_exn_refl] end.
Lemma read_concept_ren j : same_res (fun a b => b = cd_ren a) (read_concept j) (read_concept (ren_fields ["id"] j)).
Proof.
  unfold read_concept. destruct j as [| | | | | |d|]; try (cbn; auto; fail). set (j' := ren_fields ["id"] (JObj d)). assert (E : j' = ren_fields ["id"] (JObj d)) by reflexivity.
  destruct j' as [| | | | | |x|]; try discriminate E. symmetry in E. cbn [jobj rbind].
  unfold opt_field, req_field, dget_exn.
  rewrite (field_other ["id"] d "memory_influence" eq_refl x E),
    (field_other ["id"] d "exitation_function" eq_refl x E),
    (field_other ["id"] d "active" eq_refl x E),
    (field_other ["id"] d "custom_function" eq_refl x E),
    (field_other ["id"] d "activation_dict" eq_refl x E),
    (field_other ["id"] d "type" eq_refl x E),
    (field_other ["id"] d "custom_function_args" eq_refl x E),
    (field_other ["id"] d "activation" eq_refl x E).
  rewrite (field_name ["id"] d "id" eq_refl x E).
  do 6 peel. destruct (dget d "id") as [v|]; cbn [option_map rbind]; [|exact I]. destruct v as [| | | |c| | |]; cbn [ren_text jstr rbind]; try exact eq_refl.
  do 2 peel. reflexivity.
Qed.
Lemma load_concept_ren j s : kin (load_concept j s) (load_concept (ren_fields ["id"] j) (ren s)).
Proof.
  unfold load_concept. pose proof (read_concept_ren j) as R.
  destruct (read_concept j) as [cd|e], (read_concept (ren_fields ["id"] j)) as [cd'|e']; cbn in R; try contradiction; [|now apply kin_err]. subst cd'.
  cbn [cd_ren cd_id cd_type cd_active cd_mem cd_exec cd_func cd_adict cd_args cd_activation].
  apply kin_then; [apply (add_concept_ren rho inj)|]. intros t. destruct (cd_activation cd); [apply (init_concept_ren rho inj)|apply kin_ok].
Qed.
Lemma load_relation_ren j s : kin (load_relation j s) (load_relation (ren_fields ["origin"; "destiny"] j) (ren s)).
Proof.
  unfold load_relation. destruct j as [| | | | | |d|]; try (apply kin_err; reflexivity).
  set (names := ["origin"; "destiny"]). set (j' := ren_fields names (JObj d)). assert (E : j' = ren_fields names (JObj d)) by reflexivity.
  destruct j' as [| | | | | |x|]; try discriminate E. symmetry in E. cbn [jobj rbind]. unfold req_field, dget_exn.
  rewrite (field_name names d "origin" eq_refl x E), (field_name names d "destiny" eq_refl x E), (field_other names d "weight" eq_refl x E).
  destruct (dget d "origin") as [o|]; cbn [option_map rbind]; [|now apply kin_err].
  destruct o as [| | | |o| | |]; cbn [ren_text jstr rbind]; try now apply kin_err.
  destruct (dget d "destiny") as [t|]; cbn [option_map rbind]; [|now apply kin_err].
  destruct t as [| | | |t| | |]; cbn [ren_text jstr rbind]; try now apply kin_err.
  destruct (dget d "weight") as [w|]; cbn [option_map rbind]; [|now apply kin_err].
  destruct (jnum w) as [y|e]; cbn [rbind]; [apply (add_relation_ren rho inj)|apply kin_err; apply same_exn_refl].
Qed.
Lemma items_ren (h : json F -> json F) (f : json F -> fcm F -> fcm F * res unit) v s : (forall j t, kin (f j t) (f (h j) (ren t))) -> (forall j, (forall d, j <> JObj d) -> h j = j) ->
  match jiter v, jiter (ren_items h v) with
  | Ok l, Ok l' => kin (mfold f l s) (mfold f l' (ren s))
  | Err e, Err e' => same_exn e e'
  | _, _ => False
  end.
Proof.
  intros H I. destruct v; cbn [jiter ren_items]; try apply same_exn_refl; try (apply kin_mfold; exact H).
  - assert (E : map h (chars s0) = chars s0) by (induction s0 as [|c s0 IH]; cbn; [reflexivity|]; rewrite IH, I; [reflexivity|discriminate]).
    rewrite <- E at 2. apply kin_mfold. exact H.
  - assert (E : map h (map JStr (dkeys d)) = map JStr (dkeys d)) by (induction (dkeys d) as [|c l IH]; cbn; [reflexivity|]; rewrite IH, I; [reflexivity|discriminate]).
    rewrite <- E at 2. apply kin_mfold. exact H.
Qed.
Lemma fields_other names j : (forall d, j <> JObj d) -> ren_fields names j = j.
Proof. destruct j; cbn; auto. intros H. exfalso. now apply (H d). Qed.
Lemma init_empty a b c (d : F) e f g h (s : fcm F) : init_fcm a b c d e f g h = Ok s -> m_topo s = [] /\ m_arcs s = [] /\ m_exec s = [].
Proof.
  unfold init_fcm, set_map_decision_function, set_map_activation_function, set_default_concept_properties.
  destruct (get_decision_by_name e); [|discriminate]. destruct (get_function_by_name g); [|discriminate]. cbn [mfold dkeys map m_topo set_func set_prepared set_decision].
  destruct (update_default _ _ _ _ _ _ _ _ _) as [dd [u|x]]; [|discriminate]. intros [= <-]. cbn. auto.
Qed.
Lemma init_ren a b c (d : F) e f g h : match init_fcm a b c d e f g h with Ok s => ren s = s | Err _ => True end.
Proof.
  destruct (init_fcm a b c d e f g h) as [s|x] eqn:E; [|exact I]. apply init_empty in E. destruct E as (T & A & X). destruct s. cbn in *. subst. reflexivity.
Qed.
Theorem load_ren j : alike (load j) (load (ren_doc j)).
Proof.
  unfold load, alike. destruct j as [| | | | | |d|]; try (cbn; auto; fail). cbn [jobj ren_doc rbind].
  set (g := fun k v => if String.eqb k "concepts" then ren_items (ren_fields ["id"]) v
                       else if String.eqb k "relations" then ren_items (ren_fields ["origin"; "destiny"]) v else v).
  change (map _ d) with (map (fun p => (fst p, g (fst p) (snd p))) d).
  set (x := map _ d). assert (X : forall k, dget x k = option_map (g k) (dget d k)) by (intros k; apply dget_map). clearbody x.
  unfold opt_field, req_field, dget_exn. rewrite !X.
  replace (option_map (g "activation_function_args") (dget d "activation_function_args")) with (dget d "activation_function_args") by (now destruct (dget d _)).
  replace (option_map (g "stability_diff") (dget d "stability_diff")) with (dget d "stability_diff") by (now destruct (dget d _)).
  replace (option_map (g "stop_at_stabilize") (dget d "stop_at_stabilize")) with (dget d "stop_at_stabilize") by (now destruct (dget d _)).
  replace (option_map (g "extra_steps") (dget d "extra_steps")) with (dget d "extra_steps") by (now destruct (dget d _)).
  replace (option_map (g "weight") (dget d "weight")) with (dget d "weight") by (now destruct (dget d _)).
  replace (option_map (g "max_iter") (dget d "max_iter")) with (dget d "max_iter") by (now destruct (dget d _)).
  replace (option_map (g "decision_function") (dget d "decision_function")) with (dget d "decision_function") by (now destruct (dget d _)).
  replace (option_map (g "memory_influence") (dget d "memory_influence")) with (dget d "memory_influence") by (now destruct (dget d _)).
  replace (option_map (g "activation_function") (dget d "activation_function")) with (dget d "activation_function") by (now destruct (dget d _)).
  do 9 peel.
  match goal with |- same_res _ (rbind (init_fcm ?a ?b ?c ?d ?e ?f ?g ?h) _) _ => pose proof (init_ren a b c d e f g h) as R; destruct (init_fcm a b c d e f g h) as [s|er]; cbn [rbind]; [|apply same_exn_refl] end.
  set (t := set_weight _ s). assert (Rt : ren t = t).
  { transitivity (set_weight (m_weight t) (ren s)); [reflexivity|]. now rewrite R. }
  clearbody t. clear s R. destruct (dget d "concepts") as [v|]; cbn [option_map rbind]; [|exact I].
  change (g "concepts" v) with (ren_items (ren_fields ["id"]) v).
  pose proof (items_ren (ren_fields ["id"]) load_concept v t load_concept_ren (fields_other _)) as K. rewrite Rt in K.
  destruct (jiter v) as [l|e], (jiter (ren_items (ren_fields ["id"]) v)) as [l'|e']; try contradiction; cbn [rbind]; [|exact K].
  destruct K as [K1 K2]. destruct (mfold load_concept l t) as [u [o|e]], (mfold load_concept l' t) as [u' [o'|e']]; cbn in K1, K2; try contradiction; cbn [rbind]; [|exact K2].
  subst u'. destruct (dget d "relations") as [w|]; cbn [option_map rbind]; [|exact I].
  change (g "relations" w) with (ren_items (ren_fields ["origin"; "destiny"]) w).
  pose proof (items_ren (ren_fields ["origin"; "destiny"]) load_relation w u load_relation_ren (fields_other _)) as K.
  destruct (jiter w) as [m|e], (jiter (ren_items _ w)) as [m'|e']; try contradiction; cbn [rbind]; [|exact K].
  destruct K as [K1 K3]. destruct (mfold load_relation m u) as [q [p|e]], (mfold load_relation m' (ren u)) as [q' [p'|e']]; cbn in K1, K3; try contradiction; cbn [rbind]; [|exact K3].
  exact K1.
Qed.
Theorem from_json_ren j : alike (from_json j) (from_json (ren_doc j)).
Proof.
  unfold from_json. pose proof (load_ren j) as R. destruct (load j), (load (ren_doc j)); cbn in R; try contradiction; [exact R|exact I].
Qed.

(** ** Writing *)
Lemma concept_json_ren s c n : concept_json (ren s) (rho c, ren_node rho same c n) = match concept_json s (c, n) with Ok j => Ok (ren_fields ["id"] j) | Err e => Err e end.
Proof.
  unfold concept_json. cbn [ren_node nd_type nd_active nd_mem nd_func nd_fuzzy nd_args nd_value]. change (m_mem (ren s)) with (m_mem s). change (m_func (ren s)) with (m_func s).
  destruct (nd_type n); cbn [oget rbind]; [|reflexivity]. destruct (nd_active n); cbn [oget rbind]; [|reflexivity].
  destruct (nd_mem n) as [m|]; cbn [oget rbind]; [|reflexivity]. destruct (nd_func n) as [f|]; cbn [oget rbind]; [|reflexivity].
  destruct (String.eqb f (m_func s)); cbn [rbind]; [destruct (Bool.eqb m (m_mem s)); reflexivity|].
  destruct (String.eqb f "fuzzy").
  - destruct (nd_fuzzy n) as [[memb vals]|]; cbn [oget rbind]; [|reflexivity]. destruct (Bool.eqb m (m_mem s)); reflexivity.
  - destruct (nd_args n) as [a|]; cbn [oget rbind]; [|reflexivity]. destruct (Bool.eqb m (m_mem s)), a; reflexivity.
Qed.
Lemma to_dict_ren s : to_dict (ren s) = match to_dict s with Ok j => Ok (ren_doc j) | Err e => Err e end.
Proof.
  unfold to_dict.
  assert (E : forall d, rmap (concept_json (ren s)) (ren_dict rho (ren_node rho same) d) = match rmap (concept_json s) d with Ok l => Ok (map (ren_fields ["id"]) l) | Err e => Err e end).
  { induction d as [|[c n] d IH]; [reflexivity|]. cbn [ren_dict map rmap fst snd]. fold (ren_dict rho (ren_node rho same) d). rewrite IH, concept_json_ren.
    destruct (concept_json s (c, n)); cbn [rbind]; [|reflexivity]. destruct (rmap _ d); reflexivity. }
  change (m_topo (ren s)) with (ren_dict rho (ren_node rho same) (m_topo s)). rewrite E. destruct (rmap (concept_json s) (m_topo s)) as [cs|e]; cbn [rbind]; [|reflexivity].
  assert (A : map relation_json (map (ren_arc rho) (m_arcs s)) = map (ren_fields ["origin"; "destiny"]) (map relation_json (m_arcs s))).
  { rewrite !map_map. apply map_ext. intros [[d w] o]. reflexivity. }
  change (m_arcs (ren s)) with (map (ren_arc rho) (m_arcs s)). rewrite A.
  change (m_gargs (ren s)) with (m_gargs s). destruct (m_gargs s); reflexivity.
Qed.
Lemma serialisable_text j : serialisable (ren_text j) = serialisable j.
Proof. now destruct j. Qed.
Lemma serialisable_fields names j : serialisable (ren_fields names j) = serialisable j.
Proof.
  destruct j; cbn [ren_fields serialisable]; try reflexivity. induction d as [|[k v] d IH]; [reflexivity|]. cbn [map forallb fst snd]. rewrite IH. f_equal.
  destruct (str_mem k names); [apply serialisable_text|reflexivity].
Qed.
Lemma serialisable_items names j : serialisable (ren_items (ren_fields names) j) = serialisable j.
Proof. destruct j; cbn [ren_items serialisable]; try reflexivity. induction l as [|v l IH]; [reflexivity|]. cbn [map forallb]. now rewrite IH, serialisable_fields. Qed.
Lemma serialisable_doc j : serialisable (ren_doc j) = serialisable j.
Proof.
  destruct j; cbn [ren_doc serialisable]; try reflexivity. induction d as [|[k v] d IH]; [reflexivity|]. cbn [map forallb fst snd]. rewrite IH. f_equal.
  destruct (String.eqb k "concepts"); [apply serialisable_items|]. destruct (String.eqb k "relations"); [apply serialisable_items|reflexivity].
Qed.
Theorem to_json_ren s : to_json (ren s) = match to_json s with Ok j => Ok (ren_doc j) | Err e => Err e end.
Proof.
  unfold to_json. rewrite to_dict_ren. destruct (to_dict s) as [j|e]; cbn [rbind]; [|reflexivity]. unfold dumps. rewrite serialisable_doc. now destruct (serialisable j).
Qed.
End Doc.
