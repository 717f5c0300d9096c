(** Dataset.v — model of load_csv_dataset (/repo/py_fcm/__init__.py) and load_dataset
    (/repo/py_fcm/utils/__init__.py).

    Simplifications.  A file is the list of lines that iterating over it yields;
    opening and decoding it is left out.  Characters are bytes, so [str.strip] knows
    the ASCII white space only.  Printing is left out.  A data frame is its row
    labels with its columns; pandas' conversion of a column to one element type is
    left out.  What ast.literal_eval, liac-arff and pandas do with single values is
    given by the record [values]: [v_text] a text as a value, [v_code] a factorize
    code as a value, [v_eval] literal_eval (None if it raises), [v_isstr]/[v_isint]
    the tests type(x) == str/int, [v_hash] hashability, [v_na] missing, [v_eq]
    equality as seen by drop_duplicates and factorize. *)
From Verif Require Import Base Num Functions LearnUtils.

Record values (V : Type) : Type := mkValues {
  v_text : string -> V; v_code : Z -> V; v_eval : V -> option V;
  v_isstr : V -> bool; v_isint : V -> bool; v_hash : V -> bool; v_na : V -> bool;
  v_eq : V -> V -> bool }.
Arguments v_text {V}. Arguments v_code {V}. Arguments v_eval {V}. Arguments v_isstr {V}.
Arguments v_isint {V}. Arguments v_hash {V}. Arguments v_na {V}. Arguments v_eq {V}.

(** str.strip() *)
Definition is_space (c : ascii) : bool :=
  let n := nat_of_ascii c in
  (Nat.leb 9 n && Nat.leb n 13) || (Nat.leb 28 n && Nat.leb n 32).
Fixpoint lstrip (s : string) : string :=
  match s with
  | String c t => if is_space c then lstrip t else s
  | EmptyString => ""
  end.
Fixpoint rstrip (s : string) : string :=
  match s with
  | String c t => match rstrip t with
                  | EmptyString => if is_space c then "" else String c ""
                  | r => String c r
                  end
  | EmptyString => ""
  end.
Definition strip (s : string) : string := rstrip (lstrip s).
Definition comma : string := ",".
Definition fields (line : string) : list string := split_go comma line "" 0.

Section Dataset.
Context {V : Type}.
Variable P : values V.

(** pandas.DataFrame: row labels and columns *)
Record frame : Type := mkFrame { fr_index : list nat; fr_cols : dict (list V) }.

(** data_dict[name].append(value) *)
Definition put (d : dict (list V)) (name : string) (x : V) : res (dict (list V)) :=
  (l <- dget_exn d name ;; Ok (dset d name (l ++ [x])))%res.
(** __init__.py 17-19, utils/__init__.py 23-24 and 38-39: one empty list per name *)
Definition empty_columns (attributes : list string) : dict (list V) :=
  fold_left (fun d a => dset d a []) attributes [].

(** pandas.DataFrame(data_dict): all columns must have the same length *)
Definition row_of (cols : dict (list V)) (i : nat) : list V :=
  flat_map (fun c => match nth_error (snd c) i with Some v => [v] | None => [] end) cols.
Definition to_frame (cols : dict (list V)) : res frame :=
  match cols with
  | [] => Ok (mkFrame [] [])
  | (_, c) :: rest =>
      if forallb (fun c' => Nat.eqb (length (snd c')) (length c)) rest
      then Ok (mkFrame (seq 0 (length c)) cols) else Err EValue
  end.
(** drop_duplicates(): the first of equal rows stays, labels are kept; values must
    be hashable *)
Fixpoint row_eq (a b : list V) : bool :=
  match a, b with
  | [], [] => true
  | x :: a', y :: b' => v_eq P x y && row_eq a' b'
  | _, _ => false
  end.
Definition is_first (cols : dict (list V)) (i : nat) : bool :=
  negb (existsb (fun j => row_eq (row_of cols j) (row_of cols i)) (seq 0 i)).
Definition drop_duplicates (fr : frame) : res frame :=
  if forallb (fun c => forallb (v_hash P) (snd c)) (fr_cols fr) then
    let keep := filter (is_first (fr_cols fr)) (seq 0 (length (fr_index fr))) in
    Ok (mkFrame (flat_map (fun i => match nth_error (fr_index fr) i with Some l => [l] | None => [] end) keep)
          (dmap (fun _ col => flat_map (fun i => match nth_error col i with Some v => [v] | None => [] end) keep)
                (fr_cols fr)))
  else Err EType.

(** pandas.factorize(values): codes (-1 for missing values) and the different values
    in order of appearance *)
Fixpoint position (x : V) (l : list V) : nat :=
  match l with
  | [] => 0
  | y :: t => if v_eq P x y then 0 else S (position x t)
  end.
Definition uniques (l : list V) : list V :=
  fold_left (fun us x => if v_na P x || existsb (v_eq P x) us then us else us ++ [x]) l [].
Definition codes (l : list V) : list Z :=
  map (fun x => if v_na P x then (-1)%Z else Z.of_nat (position x (uniques l))) l.
Definition factorize (l : list V) : res (list Z * list V) :=
  if forallb (v_hash P) l then Ok (codes l, uniques l) else Err EType.

(** ** py_fcm/__init__.py, lines 7-46 *)
(** lines 21-33: a row with another number of fields is only reported *)
Definition csv_row (attributes : list string) (d : dict (list V)) (line : string) : res (dict (list V)) :=
  let data_line := fields line in
  if Nat.eqb (length data_line) (length attributes)
  then rfold (fun d nf => put d (fst nf) (v_text P (snd nf))) (combine attributes data_line) d
  else Ok d.
Definition load_csv_dataset (file : list string) (ds_name : string) (factor : bool) : res frame :=
  match map strip file with
  | [] => Err EIndex
  | header :: content =>
      let attributes := fields header in
      (cols <- rfold (csv_row attributes) content (empty_columns attributes) ;;
       fr <- (match (fr <- to_frame cols ;; drop_duplicates fr)%res with
              | Ok fr => Ok fr
              | Err e => Err (EExc (append ds_name (append " " (exn_str e))))
              end) ;;
       if factor then
         (* DataFrame.apply on a frame without rows depends on the version of pandas *)
         match fr_index fr with
         | [] => Err EUndef
         | _ => (cs <- rmap (fun c => (cu <- factorize (snd c) ;; Ok (fst c, map (v_code P) (fst cu)))%res) (fr_cols fr) ;;
                 Ok (mkFrame (fr_index fr) cs))%res
         end
       else Ok fr)%res
  end.

(** ** py_fcm/utils/__init__.py, lines 8-89 *)
(** lines 25-31 and 45-51: one row; [last] is last_feat *)
Definition eval_row (attributes : list string) (st : dict (list V) * string) (r : list V)
  : res (dict (list V) * string) :=
  rfold (fun st pa =>
           (x <- lget r (fst pa) ;;
            match v_eval P x with
            | Some v => (d <- put (fst st) (snd pa) v ;; Ok (d, snd pa))%res
            | None => (d <- put (fst st) (snd pa) x ;; Ok (d, snd st))%res
            end)%res)
        (combine (seq 0 (length attributes)) attributes) st.
(** the extension: ds_path.split('/')[-1].split('.')[-1] *)
Definition extension (path : string) : string :=
  last (split_go "." (last (split_go "/" path "" 0) "") "" 0) "".
Definition base_name (path : string) : string := last (split_go "/" path "" 0) "".
(** lines 16-53 for a csv file; any exception leaves known_format False *)
Definition read_csv (file : list string) : res (dict (list V) * string) :=
  match map strip file with
  | [] => Err EIndex
  | header :: content =>
      let attributes := fields header in
      rfold (fun st line =>
               let data_line := fields line in
               if Nat.eqb (length data_line) (length attributes)
               then eval_row attributes st (map (v_text P) data_line)
               else Err (EExc "Errors in line: "))
            content (empty_columns attributes, "")
  end.
(** the same for an arff file, [arff] being the parsed names and rows *)
Definition read_arff (arff : res (list string * list (list V))) : res (dict (list V) * string) :=
  ('(attributes, data) <- arff ;; rfold (eval_row attributes) data (empty_columns attributes, ""))%res.

Context {F : Type} {N : Num F}.
(** lines 73-81: columns to replace by codes *)
Definition factor_column (max_int_uniques : Z) (int_factor : F) (c : string * list V)
  : res (string * list V) :=
  (x <- lget (snd c) 0 ;;
   if v_isstr P x then (cu <- factorize (snd c) ;; Ok (fst c, map (v_code P) (fst cu)))%res
   else if v_isint P x then
     ('(cs, us) <- factorize (snd c) ;;
      if (Z.of_nat (length us) <=? max_int_uniques)%Z then Ok (fst c, map (v_code P) cs)
      else (q <- pdiv (nat2F (length us)) (nat2F (length cs)) ;;
            if nltb q int_factor then Ok (fst c, map (v_code P) cs) else Ok c)%res)%res
   else Ok c)%res.
Definition load_dataset (path : string) (file : list string) (arff : res (list string * list (list V)))
    (factor : bool) (max_int_uniques : Z) (int_factor : F) : res frame :=
  let ext := extension path in
  let read := if String.eqb ext "arff" then read_arff arff
              else if String.eqb ext "csv" then read_csv file else Err (EExc "") in
  match read with
  | Err _ => Err (EExc "Unknown dataset format")
  | Ok (cols, last_feat) =>
      (* lines 58-66: only printed, but may raise *)
      (col <- (match dget cols "class" with Some l => Ok l | None => dget_exn cols last_feat end) ;;
       _ <- factorize col ;;
       match (cols <- (if factor then rmap (factor_column max_int_uniques int_factor) cols else Ok cols) ;;
              fr <- to_frame cols ;; drop_duplicates fr)%res with
       | Ok fr => Ok fr
       | Err e => Err (EExc (append (base_name path) (append " " (exn_str e))))
       end)%res
  end.
End Dataset.
Arguments frame : clear implicits.
