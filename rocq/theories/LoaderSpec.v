(** LoaderSpec.v — vocabulary for the statements about saving, loading and joining
    maps.  Nothing here is used by the model. *)
From Coq Require Import Reals.
From Verif Require Import Base Num Functions Fcm FcmSpec Loader.

(** ** Strings *)
(** [sub] occurs somewhere in [s] *)
Definition occurs (sub s : string) : Prop := exists a b, s = append a (append sub b).

Section LoaderSpec.
Context {F : Type} {N : Num F}.

(** settings a saved map carries *)
Definition saved_settings (s : fcm F) :=
  (m_maxit s, m_decision s, m_func s, m_gargs s, m_mem s, m_sdiff s, m_stab s, m_extra s, m_weight s).
(** keyword arguments that survive JSON: no numpy arrays and no name that is also
    a parameter of the function that will receive them *)
Definition portable_args (params : list string) (a : args F) : Prop :=
  forall k v, In (k, v) a -> ~ In k params /\ forall l, v <> AVec l.
(** a concept that saving and loading reproduces *)
Record plain_concept (s : fcm F) (n : node F) : Prop := {
  pc_active : nd_active n = Some true;
  pc_exec : nd_exec n = Some "KOSKO";
  pc_type : nd_type n = Some TYPE_SIMPLE \/ nd_type n = Some TYPE_DECISION;
  pc_mem : nd_mem n = Some (m_mem s);
  pc_func : exists f a, nd_func n = Some f /\ nd_args n = Some a /\ f <> "fuzzy" /\
    ((f = m_func s /\ a = m_gargs s) \/
     (f <> m_func s /\ portable_args ["self"; "concept_name"; "concept_type"; "is_active"; "use_memory";
        "excitation_function"; "activation_function"; "activation_dict"] a))
}.
Definition portable (s : fcm F) : Prop :=
  portable_args ["self"; "max_it"; "extra_steps"; "stabilize"; "stability_diff"; "decision_function";
     "mem_influence"; "activation_function"; "function_name"] (m_gargs s) /\
  forall c n, dget (m_topo s) c = Some n -> plain_concept s n.
(** two concepts configured the same way and with the same value *)
Definition same_concept (n n' : node F) : Prop :=
  nd_active n' = nd_active n /\ nd_exec n' = nd_exec n /\ nd_type n' = nd_type n /\ nd_mem n' = nd_mem n /\
  nd_func n' = nd_func n /\ nd_args n' = nd_args n /\ nd_value n' = nd_value n.

(** ** Joining *)
(** the values of concept [c] in the maps that have it *)
Definition values_of (maps : list (fcm F)) (c : string) : list F :=
  flat_map (fun m => match value m c with Some v => [v] | None => [] end) maps.
(** the weights of all relations from [a] to [b] *)
Definition weights_of (maps : list (fcm F)) (a b : string) : list F :=
  flat_map (fun m => flat_map (fun r => let '(a', b', w) := r in
                       if String.eqb a a' && String.eqb b b' then [w] else []) (relations m)) maps.
(** the number a strategy picks from a non-empty list *)
Definition picked (strategy : string) (l : list F) (x : F) : Prop :=
  match l with
  | [] => False
  | a :: t => (strategy = "highest" /\ x = pmax a t) \/ (strategy = "lowest" /\ x = pmin a t) \/
              (strategy = "average" /\ x = ndiv (nsum l) (nat2F (length l)))
  end.
(** concepts the strategy keeps, before dropping zeros *)
Definition kept (strategy : string) (maps : list (fcm F)) (c : string) : Prop :=
  if String.eqb strategy "union" then exists m, In m maps /\ In c (concepts m)
  else forall m, In m maps -> In c (concepts m).
(** names join_maps can handle *)
Definition separator_free (maps : list (fcm F)) : Prop :=
  forall m c, In m maps -> In c (concepts m) ->
    ~ occurs " |=====> " (append c " ") /\ ~ occurs " |=====> " c.
End LoaderSpec.

(** the same over the reals: maximum, minimum, mean *)
Definition real_pick (strategy : string) (l : list R) (x : R) : Prop :=
  (strategy = "highest" -> In x l /\ forall y, In y l -> (y <= x)%R) /\
  (strategy = "lowest" -> In x l /\ forall y, In y l -> (x <= y)%R) /\
  (strategy = "average" -> x = (fold_right Rplus 0 l / INR (length l))%R).
