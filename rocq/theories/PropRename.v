(** PropRename.v — C102: the names of the concepts do not matter. *)
From Coq Require Import QArith.
From Verif Require Import Base BaseFacts Num QNum Functions Fcm Loader FcmRename FcmRename2.
Local Close Scope Q_scope.

(** ** Statement *)
Section Statement.
Context {F : Type} {N : Num F}.
(** the same call with other names of concepts *)
Definition rename_op (rho : string -> string) (o : op F) : op F :=
  match o with
  | OpAddConcept n t a m e d f k => OpAddConcept (rho n) t a m e d f k
  | OpSetConcept n t a m e d f k => OpSetConcept (rho n) t a m e d f k
  | OpAddRelation o d w => OpAddRelation (rho o) (rho d) w
  | OpInitConcept n v r => OpInitConcept (rho n) v r
  | o => o
  end.
(** the same document with other names of concepts: in field id of the concepts and in fields origin and destiny of the relations *)
Definition rename_field (rho : string -> string) (names : list string) (p : string * json F) : string * json F :=
  match snd p with JStr c => if str_mem (fst p) names then (fst p, JStr (rho c)) else p | _ => p end.
Definition rename_item rho names (j : json F) : json F := match j with JObj d => JObj (map (rename_field rho names) d) | _ => j end.
Definition rename_doc (rho : string -> string) (j : json F) : json F :=
  match j with
  | JObj d =>
      JObj (map (fun p => match snd p with
                          | JArr l => if String.eqb (fst p) "concepts" then (fst p, JArr (map (rename_item rho ["id"]) l))
                                      else if String.eqb (fst p) "relations" then (fst p, JArr (map (rename_item rho ["origin"; "destiny"]) l)) else p
                          | _ => p
                          end) d)
  | _ => j
  end.
(** the same exception, up to the name in its message *)
Definition same_error (e e' : exn) : Prop :=
  match e, e' with EKey _, EKey _ => True | EExc _, EExc _ => True | _, _ => e = e' end.
Definition same_outcome {A B} (ok : A -> B -> Prop) (r : res A) (r' : res B) : Prop :=
  match r, r' with Ok a, Ok b => ok a b | Err e, Err e' => same_error e e' | _, _ => False end.
Definition rename_keys {A} (rho : string -> string) (d : dict A) : dict A := map (fun p => (rho (fst p), snd p)) d.
(** what the two maps tell about themselves *)
Record renamed (rho : string -> string) (s s' : fcm F) : Prop := {
  rn_value : forall c, get_concept_value (rho c) s' = get_concept_value c s;
  rn_relations : forall c, get_concept_outgoing_relations (rho c) s' = rename_keys rho (get_concept_outgoing_relations c s);
  rn_history : m_exec s' = rename_keys rho (m_exec s);
  rn_concepts : dkeys (m_topo s') = map rho (dkeys (m_topo s));
  rn_state : forall t names, same_outcome (fun d d' => d' = rename_keys rho d) (get_final_state t names s) (get_final_state t (map rho names) s');
  rn_saved : to_json s' = match to_json s with Ok j => Ok (rename_doc rho j) | Err e => Err e end;
  rn_settings : (m_maxit s', m_extra s', m_stab s', m_sdiff s', m_decision s', m_func s', m_gargs s', m_debug s', m_iters s') =
                (m_maxit s, m_extra s, m_stab s, m_sdiff s, m_decision s, m_func s, m_gargs s, m_debug s, m_iters s)
}.
Definition injective (rho : string -> string) : Prop := forall a b, rho a = rho b -> a = b.
End Statement.

(** ** Proof *)
Section Proof.
Context {F : Type} {N : Num F}.
Variable rho : string -> string.
Hypothesis inj : injective rho.
Lemma rename_fields names (j : json F) : rename_item rho names j = ren_fields rho names j.
Proof. destruct j; try reflexivity. cbn. f_equal. apply map_ext. intros [k v]. unfold rename_field. cbn. destruct v; cbn [ren_text fst snd]; destruct (str_mem k names); reflexivity. Qed.
Lemma rename_doc_eq (j : json F) : rename_doc rho j = ren_doc rho j.
Proof.
  destruct j; try reflexivity. cbn. f_equal. apply map_ext. intros [k v]. cbn.
  destruct v; cbn; destruct (String.eqb k "concepts"), (String.eqb k "relations"); try reflexivity; do 2 f_equal; apply map_ext; intros x; apply rename_fields.
Qed.
Lemma renamed_ren (s : fcm F) : renamed rho s (ren rho same s).
Proof.
  constructor.
  - intros c. now apply value_ren.
  - intros c. now apply outgoing_ren.
  - reflexivity.
  - apply keys_ren.
  - intros t names. pose proof (final_state_ren rho inj same t names s) as R. exact R.
  - rewrite (to_json_ren rho). destruct (to_json s); [|reflexivity]. now rewrite rename_doc_eq.
  - reflexivity.
Qed.
End Proof.

(** every call sequence on a new map, with other names: every call ends the same way and the maps tell the same *)
Theorem C102_names (F : Type) (N : Num F) (rho : string -> string) max_it extra stab (sdiff : F) decision mem activation kwargs s0 l :
  injective rho -> init_fcm max_it extra stab sdiff decision mem activation kwargs = Ok s0 ->
  let s := run_ops l s0 in let s' := run_ops (map (rename_op rho) l) s0 in
  renamed rho s s' /\
  forall o, same_outcome eq (snd (step o s)) (snd (step (rename_op rho o) s')) /\ renamed rho (fst (step o s)) (fst (step (rename_op rho o) s')).
Proof.
  intros inj E s s'. assert (S : s' = ren rho same s).
  { unfold s'. pose proof (init_ren rho max_it extra stab sdiff decision mem activation kwargs) as R. rewrite E in R. rewrite <- R at 1. apply (run_ops_ren rho inj). }
  rewrite S. split; [now apply renamed_ren|]. intros o. destruct (step_ren rho inj o s) as [A B]. change (rename_op rho o) with (ren_op rho o). rewrite A.
  split; [exact B|now apply renamed_ren].
Qed.
(** documents: loading one with other names gives the same map with other names, and so on for all later calls *)
Theorem C102_documents (F : Type) (N : Num F) (rho : string -> string) (j : json F) :
  injective rho ->
  same_outcome (fun s s' => forall l, renamed rho (run_ops l s) (run_ops (map (rename_op rho) l) s')) (from_json j) (from_json (rename_doc rho j)).
Proof.
  intros inj. rewrite rename_doc_eq. pose proof (from_json_ren rho inj j) as R. unfold alike in R.
  destruct (from_json j) as [s|e], (from_json (ren_doc rho j)) as [s'|e']; cbn in R; try contradiction; [|exact R].
  subst s'. intros l. change (map (rename_op rho) l) with (map (ren_op rho) l). rewrite (run_ops_ren rho inj). now apply renamed_ren.
Qed.
Print Assumptions C102_names.
Print Assumptions C102_documents.

(** ** Non-vacuity: a map of two concepts, with names prefixed by x *)
Definition px (c : string) : string := String "x" c.
Example C102_prefix : injective px.
Proof. intros a b H. now inversion H. Qed.
Definition rn_ops : list (op Q) :=
  [OpAddConcept "a" None None None None None (Some "saturation") []; OpAddConcept "b" None None None None None (Some "saturation") [];
   OpAddRelation "a" "b" (1 # 2)%Q; OpInitConcept "a" 1%Q true; OpRun false].
Definition rn_start : res (fcm Q) := init_fcm 10 2 true (1 # 1000)%Q "LAST" true "saturation" [].
Example C102_names_nonvacuous :
  match rn_start with
  | Ok s0 =>
      get_concept_value "b" (run_ops rn_ops s0) = Some 1%Q /\
      get_concept_value "xb" (run_ops (map (rename_op px) rn_ops) s0) = Some 1%Q /\
      dkeys (m_topo (run_ops (map (rename_op px) rn_ops) s0)) = ["xa"; "xb"] /\
      snd (step (OpInitConcept "q" 1%Q true) (run_ops rn_ops s0)) = Err (EExc "Missing concept q") /\
      snd (step (rename_op px (OpInitConcept "q" 1%Q true)) (run_ops (map (rename_op px) rn_ops) s0)) = Err (EExc "Missing concept xq")
  | Err _ => False
  end.
Proof. vm_compute. repeat split. Qed.
Example C102_documents_nonvacuous :
  match rbind rn_start (fun s0 => rbind (to_json (run_ops rn_ops s0)) (fun j => from_json (rename_doc px j))) with
  | Ok s => dkeys (m_topo s) = ["xa"; "xb"] /\ get_concept_outgoing_relations "xa" s = [("xb", (1 # 2)%Q)]
  | Err _ => False
  end.
Proof. vm_compute. repeat split. Qed.
(** two concepts must not get the same name: with a constant renaming a concept is lost *)
Example C102_injective_needed :
  match rn_start with
  | Ok s0 => ~ renamed (fun _ => "a") (run_ops rn_ops s0) (run_ops (map (rename_op (fun _ => "a")) rn_ops) s0)
  | Err _ => False
  end.
Proof.
  destruct rn_start as [s0|e] eqn:E; [|vm_compute in E; discriminate]. intros H.
  assert (K : match rn_start with Ok s => dkeys (m_topo (run_ops (map (rename_op (fun _ => "a")) rn_ops) s)) <> map (fun _ => "a") (dkeys (m_topo (run_ops rn_ops s))) | Err _ => True end)
    by (vm_compute; discriminate).
  rewrite E in K. apply K. apply (rn_concepts _ _ _ H).
Qed.
