(** AssocSpec.v — vocabulary for statements about generated maps: what the features
    of a data set are turned into, and which relations should exist between the
    concepts.  Nothing here is used by the model. *)
From Coq Require Import Permutation Reals.
From Verif Require Import Base Num Functions Fcm FcmSpec LoaderSpec LearnUtils LearnSpec Assoc.

Section AssocSpec.
Context {F : Type} {N : Num F}.

(** A described feature: its name, the type of its concepts, their names and, for
    every concept, its membership row (one degree per sample). *)
Record fdesc : Type := mkFd {
  fd_feat : string; fd_type : string; fd_names : list string; fd_rows : list (list F) }.
Definition fd_target (d : fdesc) : bool :=
  String.eqb (fd_type d) TYPE_REGRESOR || String.eqb (fd_type d) TYPE_DECISION.

(** The different values of a column as texts, with the 0/1 row of each. *)
Definition indicators {A} (eqb : A -> A -> bool) (l us : list A) : list (list F) :=
  map (fun u => map (fun v => if eqb v u then n1 else n0) l) us.
Inductive levels (cf : gconf F) : column F -> list string -> list (list F) -> Prop :=
| LvStr l us : distinct_sorted str_leb l us -> levels cf (ColStr l) us (indicators String.eqb l us)
| LvBool l us : distinct_sorted implb l us ->
    levels cf (ColBool l) (map (fun b : bool => if b then "True" else "False") us) (indicators Bool.eqb l us)
| LvInt l us : distinct_sorted Z.leb l us -> levels cf (ColInt l) (map str_of_Z us) (indicators Z.eqb l us)
| LvFlt l : let us := unique nleb neqb l in
    levels cf (ColFlt l) (map (c_fstr cf) us) (indicators neqb l us).
(** Texts and booleans are discrete; numbers are if asked for and there are fewer
    than ten different ones. *)
Definition is_discrete (cf : gconf F) (c : column F) (texts : list string) : Prop :=
  match c with
  | ColStr _ | ColBool _ => True
  | ColInt _ | ColFlt _ => c_infer cf = true /\ (length texts < 10)%nat
  end.
Definition numbers (c : column F) (data : list F) : Prop :=
  match c with ColInt l => data = map nofZ l | ColFlt l => data = l | _ => False end.
(** What a column is turned into. *)
Inductive described (cf : gconf F) (targets : list string) : string * column F -> fdesc -> Prop :=
| DescDiscrete f c texts rows : levels cf c texts rows -> is_discrete cf c texts ->
    described cf targets (f, c)
      (mkFd f (if str_mem f targets then TYPE_DECISION else TYPE_SIMPLE)
         (map (fun t => append t (append (c_sep cf) f)) texts) rows)
| DescContinuous f c texts ind data n vals memberships rows :
    levels cf c texts ind -> ~ is_discrete cf c texts -> numbers c data ->
    c_disc cf f data = Ok (n, vals, memberships) ->
    length rows = n ->
    (forall k row, nth_error rows k = Some row -> exists memb, nth_error memberships k = Some memb /\
       Forall2 (fun x y => fuzzy_set x memb vals = Ok y) data row) ->
    described cf targets (f, c)
      (mkFd f (if str_mem f targets then TYPE_REGRESOR else TYPE_FUZZY)
         (map (fun k => append (str_of_Z (Z.of_nat k)) (append (c_sep cf) f)) (seq 0 n)) rows).

(** ** Relations *)
(** co-occurrence totals of two membership rows *)
Definition coefs (a b : list F) (c : coeffs F) : Prop :=
  length a = length b /\
  let total f := nsum (map (fun xy => f (fst xy) (snd xy)) (combine a b)) in
  c = (total (fun x y => nmul x y), total (fun x y => nmul x (nsub n1 y)),
       total (fun x y => nmul (nsub n1 x) y), total (fun x y => nmul (nsub n1 x) (nsub n1 y))).
Definition measure (f : F -> F -> F -> F -> res F) (c : coeffs F) (v : F) : Prop :=
  let '(p_q, p_nq, np_q, np_nq) := c in f p_q p_nq np_q np_nq = Ok v.
(** is the direction from a concept (row [ra], target or not [ta]) to another
    considered at all? *)
Definition wanted (cf : gconf F) (ta tb : bool) (ra rb : list F) : Prop :=
  c_double cf = true \/
  (ta = tb /\ exists c c' v v', coefs ra rb c /\ coefs rb ra c' /\
     measure (c_caus cf) c v /\ measure (c_caus cf) c' v' /\ nltb (nabs v') (nabs v) = true) \/
  (ta = false /\ tb = true).
Definition sign_of (cf : gconf F) (c : coeffs F) (s : F) : Prop :=
  match c_sign cf with
  | None => s = n1
  | Some f => exists x, measure f c x /\ s = (if nltb x (c_signcut cf) then nofZ (-1) else n1)
  end.
Definition link (cf : gconf F) (ta tb : bool) (ra rb : list F) (w : F) : Prop :=
  wanted cf ta tb ra rb /\
  exists c e v s, coefs ra rb c /\ measure (c_eval cf) c e /\ nltb (c_thr cf) (nabs e) = true /\
    measure (c_caus cf) c v /\ sign_of cf c s /\ w = nmul s v /\ neqb w n0 = false.

(** relations between the concepts of one feature *)
Definition exclusion (cf : gconf F) (fds : list fdesc) (a b : string) (w : F) : Prop :=
  neqb (c_excl cf) n0 = false /\ w = c_excl cf /\
  exists d i j, In d fds /\ i <> j /\ nth_error (fd_names d) i = Some a /\ nth_error (fd_names d) j = Some b.
(** relations between the concepts of two features *)
Definition association (cf : gconf F) (fds : list fdesc) (a b : string) (w : F) : Prop :=
  exists k l A B i j ra rb, k <> l /\ nth_error fds k = Some A /\ nth_error fds l = Some B /\
    (c_featrel cf = true \/ fd_target A <> fd_target B) /\
    nth_error (fd_names A) i = Some a /\ nth_error (fd_rows A) i = Some ra /\
    nth_error (fd_names B) j = Some b /\ nth_error (fd_rows B) j = Some rb /\
    link cf (fd_target A) (fd_target B) ra rb w.
(** [set] iteration only reorders *)
Definition reorders (o : list string -> list string) : Prop := forall l, Permutation (o l) l.
(** the same generator with another iteration order of sets *)
Definition with_order (cf : gconf F) (o : list string -> list string) : gconf F :=
  mkGconf (c_sep cf) (c_excl cf) (c_double cf) (c_featrel cf) (c_caus cf) (c_eval cf) (c_thr cf)
    (c_sign cf) (c_signcut cf) (c_infer cf) (c_fstr cf) (c_trunc cf) o (c_disc cf).

(** ** Names *)
(** a value text that can be told from a concept name *)
Definition readable (text : string) : Prop :=
  ~ occurs "___" text /\ forall t, text <> append t "_".
(** a column whose values can be told from the names of its concepts *)
Definition readable_values (cf : gconf F) (c : column F) : Prop :=
  match c with
  | ColStr l => Forall readable l
  | ColBool _ | ColInt _ => True
  | ColFlt l => NoDup (map (c_fstr cf) (unique nleb neqb l)) /\ Forall readable (map (c_fstr cf) (unique nleb neqb l))
  end.
Definition readable_data (cf : gconf F) (ds : dataset F) : Prop :=
  c_sep cf = "___" /\ NoDup (dkeys ds) /\
  forall f c, In (f, c) ds -> ~ occurs "___" f /\ readable_values cf c.
End AssocSpec.

(** position of the most activated class: the first of the maximal ones; the first
    class if none is above -1 *)
Definition first_best (acts : list R) (i : nat) : Prop :=
  ((exists v, nth_error acts i = Some v /\ -1 < v /\ (forall v', In v' acts -> v' <= v) /\
      forall j v', (j < i)%nat -> nth_error acts j = Some v' -> v' < v) \/
   (i = 0%nat /\ forall v, In v acts -> v <= -1))%R.
Arguments fdesc : clear implicits.
