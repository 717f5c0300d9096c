(** FcmSpec.v — vocabulary for statements about maps: what a user sees (concepts,
    values, histories, relations, settings), reachability, and the recurrence of
    the literature that inference is supposed to compute.  Nothing here is used by
    the model. *)
From Verif Require Import Base Num Functions Fcm.

Section FcmSpec.
Context {F : Type} {N : Num F}.

(** ** Observations *)
Definition concepts (s : fcm F) : list string := dkeys (m_topo s).
Definition value (s : fcm F) (c : string) : option F := get_concept_value c s.
Definition history (s : fcm F) (c : string) : option (list F) := dget (m_exec s) c.
(** (origin, destiny, weight) in insertion order *)
Definition relations (s : fcm F) : list (string * string * F) :=
  map (fun a => let '(d, w, o) := a in (o, d, w)) (m_arcs s).
(** everything the user configures, as opposed to concepts, relations and values *)
Definition settings (s : fcm F) :=
  (m_stab s, m_maxit s, m_extra s, m_sdiff s, m_decision s, m_mem s, m_func s, m_gargs s,
   m_weight s, m_default s, m_debug s, m_fit s).

(** ** States an API user can produce: a constructor call, then any calls, going
    on after exceptions *)
Definition reachable (s : fcm F) : Prop :=
  exists max_it extra stab sdiff dec mem act kw s0 ops,
    init_fcm max_it extra stab sdiff dec mem act kw = Ok s0 /\ s = run_ops ops s0.

(** no call [o] of the sequence for which [P o] raised *)
Fixpoint ok_when (P : op F -> bool) (l : list (op F)) (s : fcm F) : Prop :=
  match l with
  | [] => True
  | o :: t => (P o = true -> snd (step o s) = Ok tt) /\ ok_when P t (fst (step o s))
  end.
Definition is_add_concept (o : op F) : bool :=
  match o with OpAddConcept _ _ _ _ _ _ _ _ => true | _ => false end.
Definition is_add_relation (o : op F) : bool :=
  match o with OpAddRelation _ _ _ => true | _ => false end.
(** every add_concept uses a name not in the map at that moment *)
Fixpoint fresh_adds (l : list (op F)) (s : fcm F) : Prop :=
  match l with
  | [] => True
  | o :: t => (match o with
               | OpAddConcept n _ _ _ _ _ _ _ => ~ In n (concepts s)
               | _ => True
               end) /\ fresh_adds t (fst (step o s))
  end.

(** the debug attribute is only ever set to True (iterative engine) *)
Definition iterative_only (ops : list (op F)) : Prop := forall b, In (OpAttrDebug b) ops -> b = true.
Definition is_run (o : op F) : bool := match o with OpRun _ => true | _ => false end.
(** maps made by a constructor call followed by calls satisfying [P] *)
Definition from_fresh (P : list (op F) -> fcm F -> Prop) (s : fcm F) : Prop :=
  exists max_it extra stab sdiff dec mem act kw s0 ops,
    init_fcm max_it extra stab sdiff dec mem act kw = Ok s0 /\ P ops s0 /\ s = run_ops ops s0.
(** no add_concept call raised (after a raising one the map is unusable, C19) *)
Definition sane : fcm F -> Prop := from_fresh (ok_when is_add_concept).
(** nor did any inference *)
Definition sane_runs : fcm F -> Prop :=
  from_fresh (fun ops s0 => ok_when is_add_concept ops s0 /\ ok_when is_run ops s0).
(** the initial activation of a concept: first element of its history *)
Definition initial (s : fcm F) (c : string) : option F :=
  match history s c with Some (v :: _) => Some v | _ => None end.
(** calls that do not re-initialise concept [c] *)
Definition keeps (c : string) (o : op F) : bool :=
  match o with
  | OpAddConcept n _ _ _ _ _ _ _ => negb (String.eqb n c)
  | OpInitConcept n _ _ => negb (String.eqb n c)
  | OpClearExec | OpClearAll => false
  | _ => true
  end.

(** how a call changes the list of concept names *)
Definition names_after (o : op F) (r : res unit) (names : list string) : list string :=
  match o with
  | OpAddConcept n _ _ _ _ _ _ _ => if str_mem n names then names else names ++ [n]
  | OpClearAll => match r with Ok _ => [] | Err _ => names end
  | _ => names
  end.
Fixpoint expected_names (l : list (op F)) (s : fcm F) (names : list string) : list string :=
  match l with
  | [] => names
  | o :: t => expected_names t (fst (step o s)) (names_after o (snd (step o s)) names)
  end.
(** how a call changes the relation list, seen as (origin, destiny, weight) triples *)
Definition relations_after (o : op F) (r : res unit) (names : list string)
    (rels : list (string * string * F)) : list (string * string * F) :=
  match o, r with
  | OpAddRelation a b w, Ok _ => if str_mem a names && str_mem b names then rels ++ [(a, b, w)] else rels
  | OpClearAll, Ok _ => []
  | _, _ => rels
  end.
Definition outgoing (rels : list (string * string * F)) (c : string) : list (string * F) :=
  map (fun r => let '(_, b, w) := r in (b, w)) (filter (fun r => let '(a, _, _) := r in String.eqb a c) rels).
Definition incoming_weights (rels : list (string * string * F)) (c : string) : list F :=
  map (fun r => let '(_, _, w) := r in w) (filter (fun r => let '(_, b, _) := r in String.eqb b c) rels).
(** every node has all the entries inference needs, and known function names *)
Definition complete_node (n : node F) : Prop :=
  nd_active n <> None /\ nd_type n <> None /\ nd_mem n <> None /\ nd_usemap n <> None /\
  nd_args n <> None /\ nd_vect n <> None /\
  (exists e x, nd_exec n = Some e /\ get_excitation_by_name e = Some x) /\
  (exists f x, nd_func n = Some f /\ get_function_by_name f = Some x).

(** ** The FCM recurrence (Kosko; Papageorgiou variant) *)
(** what a concept emits: its value, or 2*value-1 for PAPAGEORGIUS concepts *)
Definition signal (n : node F) (v : F) : F :=
  match nd_exec n with
  | Some "PAPAGEORGIUS" => nsub (nmul n2 v) n1
  | _ => v
  end.
(** weighted signals arriving at [c] from its active predecessors, in relation order *)
Fixpoint incoming (topo : dict (node F)) (arcs : list (string * F * string)) (x : string -> F)
    (c : string) : list F :=
  match arcs with
  | [] => []
  | (d, w, o) :: t =>
      match dget topo o with
      | Some n =>
          if String.eqb d c && match nd_active n with Some b => b | None => false end
          then nmul (signal n (x o)) w :: incoming topo t x c
          else incoming topo t x c
      | None => incoming topo t x c
      end
  end.
(** total input of concept [c] (node [n]) in state [x] *)
Definition total_input (topo : dict (node F)) arcs (x : string -> F) (c : string) (n : node F) : F :=
  let s := fold_left nadd (incoming topo arcs x c) n0 in
  if match nd_mem n with Some b => b | None => false end then nadd s (signal n (x c)) else s.
(** the next value of concept [c]: its activation function applied to the total
    input, which is first divided by the incoming weight sum for fuzzy concepts *)
Definition next_value (topo : dict (node F)) arcs (x : string -> F) (c : string) (n : node F) (y : F) : Prop :=
  exists f fn a z,
    nd_func n = Some f /\ get_function_by_name f = Some fn /\ nd_args n = Some a /\
    (if String.eqb f "fuzzy"
     then neqb (nd_sum n) n0 = false /\ z = ndiv (total_input topo arcs x c n) (nd_sum n)
     else z = total_input topo arcs x c n) /\
    call_actv fn z a = Ok y.
(** [x], indexed by time, is a run of the map: synchronous updates *)
Definition orbit (topo : dict (node F)) arcs (x : nat -> string -> F) (steps : nat) : Prop :=
  forall t c n, t < steps -> dget topo c = Some n -> next_value topo arcs (x t) c n (x (S t) c).
End FcmSpec.
