(** WeightSpec.v — vocabulary for statements that compare maps with different weights (C115).  Nothing here is used by the
    model. *)
From Coq Require Import Reals.
From Verif Require Import Base Num Functions Spec Fcm FcmSpec VecSpec DynSpec.
Local Open Scope R_scope.

(** two nodes that differ at most in their values, relations and sums of weights *)
Definition same_concept (n n' : node R) : Prop :=
  nd_active n' = nd_active n /\ nd_exec n' = nd_exec n /\ nd_mem n' = nd_mem n /\ nd_func n' = nd_func n /\ nd_args n' = nd_args n.
(** the same concepts, none of them fuzzy, and the same relations in the same order, with weights related by [P] *)
Definition reweighted (P : R -> R -> Prop) (s t : fcm R) : Prop :=
  (forall c n, dget (m_topo s) c = Some n -> nd_func n <> Some "fuzzy" /\ exists n', dget (m_topo t) c = Some n' /\ same_concept n n') /\
  (forall c, dget (m_topo s) c = None -> dget (m_topo t) c = None) /\
  Forall2 (fun r r' => fst r' = fst r /\ P (snd r) (snd r')) (relations s) (relations t).
(** a map run by the iterative engine, or one for which the vectorized engine computes the same steps *)
Definition runs (s : fcm R) : Prop :=
  sane s /\ (m_debug s = true \/ m_debug s = false /\ regular s /\ responsive s /\ concepts s <> [] /\ (1 <= m_maxit s)%Z).
(** the [k]-th value recorded by a run from [s] to [s'] is not overwritten *)
Definition kept (s s' : fcm R) (k : nat) : Prop := k <> 0%nat \/ m_debug s = true \/ m_oob s' = false.
(** the total change of the weights towards [c] *)
Fixpoint drift (rs rt : list (string * string * R)) (c : string) : R :=
  match rs, rt with
  | (_, d, w) :: rs, (_, _, w') :: rt => (if String.eqb d c then Rabs (w' - w) else 0) + drift rs rt c
  | _, _ => 0
  end.
(** what a concept sends out is at most [B] *)
Definition emits (B : R) (n : node R) : Prop := forall u y, responds n u y -> Rabs (signal n y) <= B.
(** 1 + q + ... + q^(k-1) *)
Fixpoint geometric (q : R) (k : nat) : R := match k with O => 0 | S k => 1 + q * geometric q k end.
(** a concept that sends out its value, which is never negative *)
Definition gentle (n : node R) : Prop := nd_exec n <> Some "PAPAGEORGIUS" /\ forall u y, responds n u y -> 0 <= y.
