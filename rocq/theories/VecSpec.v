(** VecSpec.v — vocabulary for statements about the vectorized engine.  Nothing
    here is used by the model. *)
From Verif Require Import Base Num Functions Fcm FcmSpec.

(** ** One call of vectorized_run: the columns it computes, what its buffer holds
    and when it stops *)
Section VecSpec.
Context {F : Type} {N : Num F}.
Variables (functions : list Z) (func_args : list (list F)) (reduce : list F)
  (memory_usage avoid : list bool) (mat : list (list F)) (n m : nat) (min_diff : F) (extra : Z).
Notation node := (vec_node functions func_args reduce memory_usage avoid).
(** what the concepts emit: 2v-1 where saturation is avoided *)
Definition emit (v : list F) : list F :=
  map (fun sa : F * bool => if snd sa then nsub (nmul n2 (fst sa)) n1 else fst sa) (combine v avoid).
(** one step on the values: [v] to [w] *)
Definition vstep (v w : list F) : Prop :=
  length w = n /\ forall i, i < n -> exists e, node (emit v) mat i = Ok (nth i w n0, e).
(** the sum of the values differs little between two consecutive steps *)
Definition small (vs : nat -> list F) (j : nat) : bool := nltb (nabs (nsub (nsum (vs j)) (nsum (vs (j - 1))))) min_diff.
Definition calm (vs : nat -> list F) (j : nat) : Prop :=
  Z.to_nat extra <= j /\ forall i, j - Z.to_nat extra < i <= j -> small vs i = true.
(** what the buffer holds when columns 0..k of the trajectory have been written *)
Definition holds (vs : nat -> list F) (k : nat) (buf : list F) : Prop :=
  length buf = n * m /\
  forall i j, i < n -> j < m ->
    buf_read m buf i j =
      if (Nat.eqb j 0 && Nat.ltb 0 i && Nat.leb m k)%bool then nth (i - 1) (vs m) n0
      else if Nat.leb j k then nth i (vs j) n0 else n2.
Record vec_result (v0 : list F) (res : list F * bool * nat) (vs : nat -> list F) (L : nat) : Prop := {
  vr_start : vs 0 = v0;
  vr_step : forall j, j < L -> vstep (vs j) (vs (S j));
  vr_buf : holds vs L (fst (fst res));
  vr_oob : snd (fst res) = (negb (Nat.eqb n 0) && Nat.leb m L)%bool;
  vr_cols : snd res = S L;
  vr_len : 1 <= L <= m;
  vr_stop : L < m -> calm vs L;
  vr_first : forall j, 1 <= j < L -> ~ calm vs j
}.

End VecSpec.

(** ** The map-level recurrence the vectorized engine computes *)
Section VecMap.
Context {F : Type} {N : Num F}.
(** the weight of the most recent relation from [o] to [d], 0 if there is none *)
Definition last_weight (arcs : list (string * F * string)) (o d : string) : F :=
  fold_left (fun acc a => let '(d', w, o') := a in
                          if (String.eqb o' o && String.eqb d' d)%bool then w else acc) arcs n0.
(** total input of concept [c]: every concept counts, active or not *)
Definition vec_input (topo : dict (node F)) arcs (x : string -> F) (c : string) (n : node F) : F :=
  let s := nsum (map (fun p => nmul (signal (snd p) (x (fst p))) (last_weight arcs (fst p) c)) topo) in
  if match nd_mem n with Some b => b | None => false end then nadd s (signal n (x c)) else s.
(** the next value: divided by the incoming weight sum only where that is positive *)
Definition vec_next (topo : dict (node F)) arcs (x : string -> F) (c : string) (n : node F) (y : F) : Prop :=
  exists f id a z,
    nd_func n = Some f /\ get_const_by_name f = Some id /\ nd_args n = Some a /\
    (let norm := if String.eqb f "fuzzy" then nd_sum n else n0 in
     z = if nltb n0 norm then ndiv (vec_input topo arcs x c n) norm else vec_input topo arcs x c n) /\
    exec_actv_function id z (process_function_args a) = Ok y.
Definition vec_orbit (topo : dict (node F)) arcs (x : nat -> string -> F) (steps : nat) : Prop :=
  forall t c n, t < steps -> dget topo c = Some n -> vec_next topo arcs (x t) c n (x (S t) c).
(** the concept inserted just before [c] *)
Fixpoint before (l : list string) (c : string) : option string :=
  match l with
  | a :: ((b :: _) as t) => if String.eqb b c then Some a else before t c
  | _ => None
  end.
(** history cell [k] of concept [c] after a run of [L] steps with rows of [m] cells:
    the value at time [k], the sentinel 2.0 beyond the last step, and in column 0 —
    when the run used all its steps — the last value of the concept before it *)
Definition recorded (cs : list string) (m L : nat) (x : nat -> string -> F) (c : string) (k : nat) : F :=
  if (Nat.eqb k 0 && Nat.leb m L)%bool
  then match before cs c with Some b => x m b | None => x 0 c end
  else if Nat.leb k L then x k c else n2.
(** columns kept: up to the first sentinel of the first row, and never the last one *)
Definition cut (m : nat) (row : nat -> F) (col : nat) : Prop :=
  col <= m - 1 /\ (forall k, k < col -> neqb (row k) n2 = false) /\ (col < m - 1 -> neqb (row col) n2 = true).
(** the sum of all values moved less than [sd] in step [j] *)
Definition settled (sd : F) (cs : list string) (x : nat -> string -> F) (j : nat) : bool :=
  nltb (nabs (nsub (nsum (map (x j) cs)) (nsum (map (x (j - 1)) cs)))) sd.
Definition settled_for (extra : nat) (sd : F) (cs : list string) (x : nat -> string -> F) (j : nat) : Prop :=
  extra <= j /\ forall i, j - extra < i <= j -> settled sd cs x i = true.
(** everything a user can see of a map, including whether memory was overrun *)
Definition visible (s : fcm F) := (m_topo s, m_exec s, m_arcs s, settings s, m_iters s, m_oob s).

(** one vectorized run of map [s] into [s'] as a trajectory [x] of [L] steps *)
Record vec_run (r : bool) (s s' : fcm F) (L : nat) (x : nat -> string -> F) (col : nat) : Prop := {
  vru_start : forall c, In c (concepts s) -> (if r then initial s c else value s c) = Some (x 0 c);
  vru_orbit : vec_orbit (m_topo s) (m_arcs s) x L;
  vru_len : 1 <= L <= Z.to_nat (m_maxit s);
  vru_cut : forall c0, hd_error (concepts s) = Some c0 -> cut (Z.to_nat (m_maxit s)) (recorded (concepts s) (Z.to_nat (m_maxit s)) L x c0) col;
  vru_hist : forall c, In c (concepts s) -> history s' c = Some (map (recorded (concepts s) (Z.to_nat (m_maxit s)) L x c) (seq 0 col));
  vru_oob : m_oob s' = (m_oob s || Nat.leb (Z.to_nat (m_maxit s)) L)%bool;
  vru_stop : L < Z.to_nat (m_maxit s) -> settled_for (Z.to_nat (m_extra s)) (m_sdiff s) (concepts s) x L;
  vru_first : forall j, 1 <= j < L -> ~ settled_for (Z.to_nat (m_extra s)) (m_sdiff s) (concepts s) x j;
  vru_value : forall c h, In c (concepts s) -> history s' c = Some h ->
     exists d v, get_decision_by_name (m_decision s) = Some d /\
       exec_decision d h (Z.of_nat (length h) - m_extra s - 1) = Ok v /\ value s' c = Some v
}.
(** every concept's activation function gives a result, whatever the values *)
Definition vec_responsive (s : fcm F) : Prop :=
  forall c n x, dget (m_topo s) c = Some n -> exists y, vec_next (m_topo s) (m_arcs s) x c n y.
(** conditions under which the two engines compute the same steps *)
Definition regular (s : fcm F) : Prop :=
  (forall c n, dget (m_topo s) c = Some n ->
     nd_active n = Some true /\
     (forall a, nd_args n = Some a -> NoDup (dkeys a) /\
        forall m v, dget a "membership" = Some (AVec m) -> dget a "val_list" = Some (AVec v) -> length m = length v) /\
     (nd_func n = Some "fuzzy" -> nltb n0 (nd_sum n) = true)) /\
  NoDup (map (fun r => fst r) (relations s)).
End VecMap.
