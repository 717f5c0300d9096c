(** DatasetSpec.v — vocabulary for statements about loading data sets.  Nothing here
    is used by the model. *)
From Verif Require Import Base LoaderSpec Num Dataset.

(** the fields of a line *)
Definition fields_of (line : string) (fs : list string) : Prop :=
  fs <> [] /\ line = String.concat "," fs /\ Forall (fun f => ~ occurs "," f) fs.
(** white space (tabulator, line ends, separators, blank) removed at both ends *)
Definition white (c : ascii) : Prop := In (nat_of_ascii c) [9; 10; 11; 12; 13; 28; 29; 30; 31; 32].
Definition blank_text (s : string) : Prop := forall a c b, s = append a (String c b) -> white c.
Definition stripped (s t : string) : Prop :=
  (exists a b, s = append a (append t b) /\ blank_text a /\ blank_text b) /\
  (forall c u, t = String c u -> ~ white c) /\
  (forall c u, t = append u (String c "") -> ~ white c).
(** the end of a path after its last dot or slash *)
Definition path_end (path e : string) : Prop :=
  ~ occurs "." e /\ ~ occurs "/" e /\
  (path = e \/ exists p, path = append p (append "." e) \/ path = append p (append "/" e)).
(** rows with as many fields as the header *)
Definition full_rows (header : list string) (rows : list (list string)) : list (list string) :=
  filter (fun r => Nat.eqb (length r) (length header)) rows.
(** positions, in order, of the first of equal rows *)
Definition kept {A} (rows : list A) (idx : list nat) : Prop :=
  StronglySorted lt idx /\
  forall i, In i idx <-> exists r, nth_error rows i = Some r /\ forall j, (j < i)%nat -> nth_error rows j <> Some r.
(** texts are ordinary values *)
Definition text_values {V} (P : values V) : Prop :=
  forall s, v_hash P (v_text P s) = true /\ v_na P (v_text P s) = false /\
    forall t, v_eq P (v_text P s) (v_text P t) = String.eqb s t.
(** the code of a value in a list: how many different values appear before it first
    does *)
Definition code_in {A} (dec : forall a b : A, {a = b} + {a <> b}) (l : list A) (x : A) (k : nat) : Prop :=
  exists before after, l = before ++ x :: after /\ ~ In x before /\ k = length (nodup dec before).
(** the same with missing values, which get the code -1 and are not counted *)
Definition coded {V} (P : values V) (dec : forall a b : V, {a = b} + {a <> b}) (l : list V) (ks : list Z) : Prop :=
  Forall2 (fun x k =>
    (v_na P x = true /\ k = (-1)%Z) \/
    (v_na P x = false /\ exists before after, l = before ++ x :: after /\ ~ In x before /\
       k = Z.of_nat (length (nodup dec (filter (fun y => negb (v_na P y)) before))))) l ks.
(** a value as literal_eval gives it, or else itself *)
Definition ev {V} (P : values V) (x : V) : V := match v_eval P x with Some v => v | None => x end.
(** the different values of a column that are not missing *)
Definition different {V} (P : values V) (dec : forall a b : V, {a = b} + {a <> b}) (l : list V) : nat :=
  length (nodup dec (filter (fun y => negb (v_na P y)) l)).
(** what factorize makes of a column: text columns (judged by the first value) are
    coded; integer columns if they have at most [m] different values, or fewer
    different values than the fraction [q] of all values; other columns stay *)
Definition factored {V F} {N : Num F} (P : values V) dec (m : Z) (q : F) (l l' : list V) : Prop :=
  exists x t, l = x :: t /\
    let few := (Z.of_nat (different P dec l) <= m)%Z \/
               nltb (ndiv (nat2F (different P dec l)) (nat2F (length l))) q = true in
    let codes := exists ks, coded P dec l ks /\ l' = map (v_code P) ks in
    (v_isstr P x = true -> codes) /\
    (v_isstr P x = false -> v_isint P x = true -> few -> codes) /\
    (v_isstr P x = false -> v_isint P x = true -> ~ few -> l' = l) /\
    (v_isstr P x = false -> v_isint P x = false -> l' = l).
