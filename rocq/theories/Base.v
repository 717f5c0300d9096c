(** Base.v — results with exceptions, Python dicts, list access, strings.
    These are the Python run-time notions the model of /repo is written in;
    nothing in this file models a particular function of the repository. *)
From Coq Require Export String Ascii ZArith Lia Bool Permutation Sorted List.
Export ListNotations.
Open Scope string_scope.
Open Scope list_scope.

(** Exceptions.  [EExc m] is [Exception(m)]; [EUndef] marks behaviour that the
    language leaves undefined (uninitialised or out-of-bounds numba memory). *)
Inductive exn : Type :=
| EKey (k : string) | EType | EValue | EZeroDiv | EIndex | EUnbound
| EExc (msg : string) | EUndef | EFuel | EAttr.

Inductive res (A : Type) : Type := Ok (a : A) | Err (e : exn).
Arguments Ok {A} a.
Arguments Err {A} e.

Definition rbind {A B} (m : res A) (k : A -> res B) : res B :=
  match m with Ok a => k a | Err e => Err e end.

Declare Scope res_scope.
Delimit Scope res_scope with res.
Notation "x <- m ;; k" := (rbind m (fun x => k))
  (at level 61, m at next level, right associativity) : res_scope.
Notation "' p <- m ;; k" := (rbind m (fun p => k))
  (at level 61, p pattern, m at next level, right associativity) : res_scope.

Definition is_ok {A} (r : res A) : bool := match r with Ok _ => true | Err _ => false end.

(** [str(err)] of an exception object (only the text of [Exception(m)] is
    modelled exactly; the interpreter's own messages are abbreviated). *)
Definition exn_str (e : exn) : string :=
  match e with
  | EKey k => append "'" (append k "'")
  | EType => "type error" | EValue => "value error" | EZeroDiv => "division by zero"
  | EIndex => "index out of range" | EUnbound => "unbound local variable"
  | EExc m => m | EUndef => "undefined" | EFuel => "fuel" | EAttr => "attribute"
  end.

(** ** List access by position *)
Definition lget {A} (l : list A) (i : nat) : res A :=
  match nth_error l i with Some a => Ok a | None => Err EIndex end.

Fixpoint upd {A} (l : list A) (i : nat) (v : A) : list A :=
  match l, i with
  | [], _ => []
  | _ :: t, O => v :: t
  | h :: t, S j => h :: upd t j v
  end.

(** Integer (machine) index: negative or too large is an index error. *)
Definition zget {A} (l : list A) (i : Z) : res A :=
  if (i <? 0)%Z then Err EIndex else lget l (Z.to_nat i).
Definition zset {A} (l : list A) (i : Z) (v : A) : res (list A) :=
  if (i <? 0)%Z then Err EIndex
  else if (i <? Z.of_nat (length l))%Z then Ok (upd l (Z.to_nat i) v) else Err EIndex.

(** Sequencing of a list of results (a Python loop that stops at the first exception). *)
Fixpoint rmap {A B} (f : A -> res B) (l : list A) : res (list B) :=
  match l with
  | [] => Ok []
  | a :: t => rbind (f a) (fun b => rbind (rmap f t) (fun bs => Ok (b :: bs)))
  end.
Fixpoint rfold {A S} (f : S -> A -> res S) (l : list A) (s : S) : res S :=
  match l with
  | [] => Ok s
  | a :: t => rbind (f s a) (fun s' => rfold f t s')
  end.

(** ** Python dictionaries: association lists in insertion order *)
Definition dict (A : Type) := list (string * A).

Fixpoint dget {A} (d : dict A) (k : string) : option A :=
  match d with
  | [] => None
  | (k', v) :: t => if String.eqb k k' then Some v else dget t k
  end.
(** [d[k] = v]: in place when present, appended otherwise. *)
Fixpoint dset {A} (d : dict A) (k : string) (v : A) : dict A :=
  match d with
  | [] => [(k, v)]
  | (k', v') :: t => if String.eqb k k' then (k', v) :: t else (k', v') :: dset t k v
  end.
Definition dkeys {A} (d : dict A) : list string := map fst d.
Definition dmem {A} (d : dict A) (k : string) : bool :=
  match dget d k with Some _ => true | None => false end.
Definition dmap {A B} (f : string -> A -> B) (d : dict A) : dict B :=
  map (fun p => (fst p, f (fst p) (snd p))) d.
(** [d.pop(k)] *)
Fixpoint ddel {A} (d : dict A) (k : string) : dict A :=
  match d with
  | [] => []
  | (k', v) :: t => if String.eqb k k' then t else (k', v) :: ddel t k
  end.
(** [d[k]] raising KeyError *)
Definition dget_exn {A} (d : dict A) (k : string) : res A :=
  match dget d k with Some v => Ok v | None => Err (EKey k) end.
Definition oget {A} (o : option A) (k : string) : res A :=
  match o with Some v => Ok v | None => Err (EKey k) end.

Definition str_mem (s : string) (l : list string) : bool := existsb (String.eqb s) l.

(** ** Strings *)
(** [str.split(sep)] for a non-empty separator: leftmost, non-overlapping
    occurrences.  [skip] counts characters of a matched separator still to be
    dropped, [acc] is the current piece. *)
Fixpoint split_go (sep s acc : string) (skip : nat) : list string :=
  match s with
  | EmptyString => [acc]
  | String c t =>
      match skip with
      | S k => split_go sep t acc k
      | O => if prefix sep s
             then acc :: split_go sep t "" (String.length sep - 1)
             else split_go sep t (append acc (String c "")) 0
      end
  end.
Definition split_str (s sep : string) : res (list string) :=
  match sep with
  | EmptyString => Err EValue
  | _ => Ok (split_go sep s "" 0)
  end.

(** Sorting of names ([list.sort()] on str): insertion sort by code order. *)
Definition str_leb (a b : string) : bool :=
  match String.compare a b with Gt => false | _ => true end.
Fixpoint str_insert (x : string) (l : list string) : list string :=
  match l with
  | [] => [x]
  | y :: t => if str_leb x y then x :: l else y :: str_insert x t
  end.
Definition str_sort (l : list string) : list string := fold_right str_insert [] l.
