(** DynSpec.v — vocabulary for statements about how maps behave over time: when a
    run stops, who influences whom, monotone and contracting maps.  Nothing here is
    used by the model. *)
From Coq Require Import Reals.
From Verif Require Import Base Num Functions Spec Fcm FcmSpec.

Section DynSpec.
Context {F : Type} {N : Num F}.
(** [p] steps into the run recorded in [s'] (counting from 1) the loop of map [s]
    sees nothing left to do: the iteration limit is reached, or no concept moved by
    more than the threshold in the last step *)
Definition idle (s s' : fcm F) (p : nat) : Prop :=
  (m_maxit s <= Z.of_nat p)%Z \/
  (m_stab s = true /\ 2 <= p /\
   forall c h a b, history s' c = Some h -> nth_error h (p - 1) = Some a -> nth_error h (p - 2) = Some b ->
     nltb (m_sdiff s) (nabs (nsub a b)) = false).
(** the last [E] passes up to [l] were idle *)
Definition idle_for (s s' : fcm F) (E l : nat) : Prop :=
  E <= l /\ forall p, l - E < p <= l -> idle s s' p.

(** there is a chain of relations from [a] to [b] (possibly empty) *)
Inductive influences (rels : list (string * string * F)) (a : string) : string -> Prop :=
| inf_self : influences rels a a
| inf_next b c w : influences rels a b -> In (b, c, w) rels -> influences rels a c.

(** what does not change during inference: everything in a node but its value and
    the contributions collected so far *)
Definition fixed_part (n : node F) : node F := nd_set_aux [] (nd_set_value n0 n).
(** the same map, up to the current and initial values of its concepts *)
Definition same_map (s t : fcm F) : Prop :=
  dmap (fun _ => fixed_part) (m_topo t) = dmap (fun _ => fixed_part) (m_topo s) /\
  m_arcs t = m_arcs s /\ settings t = settings s.

(** every concept has a next value whatever the current values are *)
Definition responsive (s : fcm F) : Prop :=
  forall c n x, dget (m_topo s) c = Some n -> exists y, next_value (m_topo s) (m_arcs s) x c n y.
(** the arguments an activation function can be called with, whatever its input *)
Definition callable (f : string) (a : args F) : Prop :=
  (In f ["biestate"; "threestate"; "saturation"] /\ a = []) \/
  (In f ["sigmoid"; "sigmoid_hip"; "tan_hip"] /\ (a = [] \/ exists l, a = [("lambda_val", AScal l)])) \/
  (In f ["gceq"; "lceq"] /\ (a = [] \/ exists w, a = [("weight", AScal w)])) \/
  (f = "relm" /\ exists l, neqb l n0 = false /\ (a = [("lambda_val", AScal l)] \/ (a = [] /\ l = n1))).
End DynSpec.

(** ** Real-valued maps *)
Local Open Scope R_scope.
(** the activation function of a node, applied to its input (scaled for fuzzy nodes) *)
Definition responds (n : node R) (input out : R) : Prop :=
  exists f fn a, nd_func n = Some f /\ get_function_by_name f = Some fn /\ nd_args n = Some a /\
    call_actv fn (if String.eqb f "fuzzy" then input / nd_sum n else input) a = Ok out.
(** larger inputs never give smaller outputs *)
Definition monotone_node (n : node R) : Prop :=
  forall u v y z, u <= v -> responds n u y -> responds n v z -> y <= z.
Definition monotone_map (s : fcm R) : Prop :=
  (forall o d w, In (o, d, w) (relations s) -> 0 <= w) /\
  (forall c n, dget (m_topo s) c = Some n -> monotone_node n).
(** outputs move at most [K] times as far as inputs *)
Definition lipschitz_node (K : R) (n : node R) : Prop :=
  0 <= K /\ forall u v y z, responds n u y -> responds n v z -> Rabs (y - z) <= K * Rabs (u - v).
(** how far a change of the value of [n] moves what it emits *)
Definition slope (n : node R) : R := match nd_exec n with Some "PAPAGEORGIUS" => 2 | _ => 1 end.
(** how far the input of [c] can move when every value moves by at most 1 *)
Fixpoint arriving (topo : dict (node R)) (arcs : list (string * R * string)) (c : string) : R :=
  match arcs with
  | [] => 0
  | (d, w, o) :: t =>
      match dget topo o with
      | Some n => (if String.eqb d c && match nd_active n with Some b => b | None => false end
                   then Rabs w * slope n else 0) + arriving topo t c
      | None => arriving topo t c
      end
  end.
Definition gain (topo : dict (node R)) arcs (c : string) (n : node R) : R :=
  arriving topo arcs c + match nd_mem n with Some true => slope n | _ => 0 end.
(** one step brings any two states closer by the factor [q] *)
Definition contracting (s : fcm R) (q : R) : Prop :=
  forall c n, dget (m_topo s) c = Some n -> exists K, lipschitz_node K n /\ K * gain (m_topo s) (m_arcs s) c n <= q.

(** the activation functions that are monotone, with their arguments *)
Definition parameter (a : args R) (k : string) (dflt : R) : R :=
  match dget a k with Some (AScal x) => x | _ => dflt end.
Definition increasing_function (f : string) (a : args R) : Prop :=
  In f ["biestate"; "threestate"; "saturation"] \/
  (f = "sigmoid" /\ 0 <= parameter a "lambda_val" 1) \/
  (In f ["sigmoid_hip"; "tan_hip"] /\ 0 <= parameter a "lambda_val" 2) \/
  (f = "relm" /\ 0 < parameter a "lambda_val" 1) \/
  (f = "gceq" /\ 0 <= parameter a "weight" (-1)) \/
  (f = "lceq" /\ parameter a "weight" 1 <= 0).
(** how steep an activation function gets *)
Definition steepness (f : string) (a : args R) (K : R) : Prop :=
  (f = "saturation" /\ K = 1) \/
  (f = "sigmoid" /\ K = Rabs (parameter a "lambda_val" 1) / 4) \/
  (In f ["sigmoid_hip"; "tan_hip"] /\ K = Rabs (parameter a "lambda_val" 2) / 2) \/
  (f = "relm" /\ 0 < parameter a "lambda_val" 1 /\ K = / parameter a "lambda_val" 1).
