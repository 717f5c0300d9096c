(** Assoc.v — model of /repo/py_fcm/learning/association.py (class
    AssociationBasedFCM); line numbers refer to it.

    Simplifications: a data set is a list of named columns (names are strings, all
    different); a column of dtype object holds strings; NaN is not modelled;
    plotting and warnings are left out.  Outside the model, given as parameters
    ([gconf]): how a float is printed ([c_fstr], str(np.float64)) and truncated
    ([c_trunc], int(float)); the order in which Python iterates a set
    ([c_ord]); the discretization of a column ([c_disc], see Discret.v: its
    result depends on random numbers and curve fitting). *)
From Coq Require Import DecimalString.
From Verif Require Import Base Num Functions Fcm LearnUtils.

(** str(int) *)
Definition str_of_Z (z : Z) : string := NilZero.string_of_int (Z.to_int z).
(** str.isnumeric(), for ASCII text: not empty, decimal digits only *)
Definition is_digit (c : ascii) : bool :=
  let n := nat_of_ascii c in Nat.leb 48 n && Nat.leb n 57.
Fixpoint all_digits (s : string) : bool :=
  match s with EmptyString => true | String c t => is_digit c && all_digits t end.
Definition isnumeric (s : string) : bool :=
  match s with EmptyString => false | _ => all_digits s end.
(** int(text) for a numeric text *)
Definition digit_val (c : ascii) : Z := Z.of_nat (nat_of_ascii c - 48).
Fixpoint digits_val (s : string) (acc : Z) : Z :=
  match s with EmptyString => acc | String c t => digits_val t (10 * acc + digit_val c)%Z end.

(** A Python for loop over a state: stops at the first exception, keeping the state. *)
Fixpoint sfold {S A} (f : A -> S -> S * res unit) (l : list A) (s : S) : S * res unit :=
  match l with
  | [] => (s, Ok tt)
  | a :: t => match f a s with
              | (s', Ok _) => sfold f t s'
              | (s', Err e) => (s', Err e)
              end
  end.
(** statements in sequence *)
Definition sthen {S} (f g : S -> S * res unit) (s : S) : S * res unit :=
  match f s with
  | (s', Ok _) => g s'
  | (s', Err e) => (s', Err e)
  end.
(** evaluating an expression that may raise, then going on with its value *)
Definition swith {S A} (r : S -> res A) (k : A -> S -> S * res unit) (s : S) : S * res unit :=
  match r s with Ok a => k a s | Err e => (s, Err e) end.

Section Assoc.
Context {F : Type} {N : Num F}.

(** A single value, as found in a row or returned by predict. *)
Inductive cell : Type := CStr (s : string) | CBool (b : bool) | CInt (z : Z) | CFlt (x : F).
Inductive column : Type :=
  ColStr (l : list string) | ColBool (l : list bool) | ColInt (l : list Z) | ColFlt (l : list F).
Definition dataset : Type := list (string * column).
Definition col_length (c : column) : nat :=
  match c with ColStr l => length l | ColBool l => length l | ColInt l => length l | ColFlt l => length l end.

(** Constructor parameters, lines 30-49, plus the parameters of the model named
    above.  fit_inclination (lines 50-51) is set on a map that build_fcm replaces,
    and has no other effect. *)
Record gconf : Type := mkGconf {
  c_sep : string;
  c_excl : F;
  c_double : bool;
  c_featrel : bool;
  c_caus : F -> F -> F -> F -> res F;
  c_eval : F -> F -> F -> F -> res F;
  c_thr : F;
  c_sign : option (F -> F -> F -> F -> res F);
  c_signcut : F;
  c_infer : bool;
  c_fstr : F -> string;
  c_trunc : F -> res Z;
  c_ord : list string -> list string;
  c_disc : string -> list F -> res (nat * list F * list (list F))
}.
(** An entry of self.__features: TYPE, CONCEPT_NAMES and CONCEPT_DESC (number of
    concepts and membership rows) are missing (None) until they are set.  The data
    itself is only used while the feature is added. *)
Record feat : Type := mkFeat {
  f_type : option string;
  f_names : option (list string);
  f_desc : option (nat * list (list F))
}.
(** self.__features, self.__processed_features (a set: no repetitions), self.__fcm *)
Record gen : Type := mkGen { g_feats : dict feat; g_proc : list string; g_fcm : fcm F }.
Definition set_feat (name : string) (f : feat) (g : gen) : gen :=
  mkGen (dset (g_feats g) name f) (g_proc g) (g_fcm g).
Definition set_fcm (s : fcm F) (g : gen) : gen := mkGen (g_feats g) (g_proc g) s.
Definition on_fcm (f : fcm F -> fcm F * res unit) (g : gen) : gen * res unit :=
  let '(s, r) := f (g_fcm g) in (set_fcm s g, r).
(** set.add *)
Definition mark (name : string) (g : gen) : gen :=
  mkGen (g_feats g) (if str_mem name (g_proc g) then g_proc g else g_proc g ++ [name]) (g_fcm g).
Definition get_type (g : gen) (name : string) : res string :=
  (f <- dget_exn (g_feats g) name ;; oget (f_type f) "concept type")%res.
Definition get_names (g : gen) (name : string) : res (list string) :=
  (f <- dget_exn (g_feats g) name ;; oget (f_names f) "feature concept names")%res.
Definition get_desc (g : gen) (name : string) : res (nat * list (list F)) :=
  (f <- dget_exn (g_feats g) name ;; oget (f_desc f) "feature concepts description")%res.

Variable cf : gconf.

(** lines 54-55, for a value already turned into text *)
Definition name_concept (feat_name value : string) : string :=
  append value (append (c_sep cf) feat_name).

(** str of a value *)
Definition bool_str (b : bool) : string := if b then "True" else "False".
(** order of booleans: False first *)
Definition bool_leb (a b : bool) : bool := implb a b.
(** np.unique of the column, as texts, and gen_discrete_feature_matrix (lines 91-94) *)
Definition discrete_desc (c : column) : list string * list (list F) :=
  match c with
  | ColStr l => let u := unique str_leb String.eqb l in (u, gen_discrete_feature_matrix String.eqb l u)
  | ColBool l => let u := unique bool_leb Bool.eqb l in (map bool_str u, gen_discrete_feature_matrix Bool.eqb l u)
  | ColInt l => let u := unique Z.leb Z.eqb l in (map str_of_Z u, gen_discrete_feature_matrix Z.eqb l u)
  | ColFlt l => let u := unique nleb neqb l in (map (c_fstr cf) u, gen_discrete_feature_matrix neqb l u)
  end.
(** number of different values *)
Definition distinct (c : column) : nat := length (fst (discrete_desc c)).
(** .astype(np.float64) *)
Definition as_floats (c : column) : list F :=
  match c with ColInt l => map nofZ l | ColFlt l => l | _ => [] end.

(** lines 57-83 *)
Definition gen_cluster (feat_name t : string) (vals data : list F) (memberships : list (list F))
    (cluster : nat) (rows : list (list F)) (g : gen) : gen * res (list (list F)) :=
  match lget memberships cluster with
  | Err e => (g, Err e)
  | Ok memb =>
      let '(g, r) := on_fcm (add_concept (name_concept feat_name (str_of_Z (Z.of_nat cluster)))
                              (Some t) (Some true) None None (Some (mkAdict true memb vals)) None []) g in
      match r with
      | Err e => (g, Err e)
      | Ok _ => (g, (row <- rmap (fun v => fuzzy_set v memb vals) data ;; Ok (rows ++ [row]))%res)
      end
  end.
Fixpoint gen_clusters (feat_name t : string) (vals data : list F) (memberships : list (list F))
    (clusters : list nat) (rows : list (list F)) (g : gen) : gen * res (list (list F)) :=
  match clusters with
  | [] => (g, Ok rows)
  | k :: rest =>
      match gen_cluster feat_name t vals data memberships k rows g with
      | (g, Err e) => (g, Err e)
      | (g, Ok rows) => gen_clusters feat_name t vals data memberships rest rows g
      end
  end.
Definition gen_continuous_concepts (feat_name : string) (targets : list string) (data : list F) (g : gen)
  : gen * res unit :=
  let t := if str_mem feat_name targets then TYPE_REGRESOR else TYPE_FUZZY in
  let g := set_feat feat_name (mkFeat (Some t) None None) g in
  match c_disc cf feat_name data with
  | Err e => (g, Err e)
  | Ok (n_clusters, vals, memberships) =>
      match gen_clusters feat_name t vals data memberships (seq 0 n_clusters) [] g with
      | (g, Err e) => (g, Err e)
      | (g, Ok rows) =>
          let names := map (fun k => name_concept feat_name (str_of_Z (Z.of_nat k))) (seq 0 n_clusters) in
          (set_feat feat_name (mkFeat (Some t) (Some names) (Some (n_clusters, rows))) g, Ok tt)
      end
  end.

(** lines 85-102 *)
Definition gen_discrete_concepts (feat_name : string) (targets : list string) (c : column) (g : gen)
  : gen * res unit :=
  let t := if str_mem feat_name targets then TYPE_DECISION else TYPE_SIMPLE in
  let g := set_feat feat_name (mkFeat (Some t) None None) g in
  let '(texts, matrix) := discrete_desc c in
  let names := map (name_concept feat_name) texts in
  match sfold (fun name => on_fcm (add_concept name (Some t) (Some true) None None None None [])) names g with
  | (g, Err e) => (g, Err e)
  | (g, Ok _) => (set_feat feat_name (mkFeat (Some t) (Some names) (Some (length texts, matrix))) g, Ok tt)
  end.

(** lines 104-115 *)
Definition rel_pair (names : list string) (i j : nat) (w : F) (g : gen) : gen * res unit :=
  match (a <- lget names i ;; b <- lget names j ;; Ok (a, b))%res with
  | Err e => (g, Err e)
  | Ok (a, b) => on_fcm (add_relation a b w) g
  end.
Definition def_inner_feat_relations (feat_name : string) (g : gen) : gen * res unit :=
  if neqb (c_excl cf) n0 then (g, Ok tt)
  else
    swith (fun g => get_desc g feat_name) (fun d =>
    swith (fun g => get_names g feat_name) (fun names =>
      let n := fst d in
      sfold (fun i => sfold (fun j =>
               sthen (rel_pair names i j (c_excl cf)) (rel_pair names j i (c_excl cf)))
             (seq (i + 1) (n - (i + 1))))
        (seq 0 (n - 1)))) g.

(** lines 117-125 *)
Definition call4 (f : F -> F -> F -> F -> res F) (c : coeffs F) : res F :=
  let '(p_q, p_nq, np_q, np_nq) := c in f p_q p_nq np_q np_nq.
Definition def_relation_weight (names_a : list string) (pos_a : nat) (names_b : list string) (pos_b : nat)
    (sign : F) (c : coeffs F) (g : gen) : gen * res unit :=
  swith (fun _ => call4 (c_eval cf) c) (fun e =>
    if nltb (c_thr cf) (nabs e) then
      swith (fun _ => call4 (c_caus cf) c) (fun v =>
        let w := nmul sign v in
        if neqb w n0 then fun g => (g, Ok tt)
        else fun g =>
          match (a <- lget names_a pos_a ;; b <- lget names_b pos_b ;; Ok (a, b))%res with
          | Err e => (g, Err e)
          | Ok (a, b) => on_fcm (add_relation a b w) g
          end)
    else fun g => (g, Ok tt)) g.

(** lines 178-185 *)
Definition is_target_concept (g : gen) (name : string) : res bool :=
  (t <- get_type g name ;; Ok (String.eqb t TYPE_REGRESOR || String.eqb t TYPE_DECISION))%res.
Definition are_same_feature_group (g : gen) (a b : string) : res bool :=
  (ta <- is_target_concept g a ;;
   tb <- is_target_concept g b ;;
   Ok (Bool.eqb ta tb))%res.

(** lines 137-142: the sign of a relation *)
Definition rel_sign (c : coeffs F) : res F :=
  match c_sign cf with
  | None => Ok n1
  | Some f => (s <- call4 f c ;; Ok (if nltb s (c_signcut cf) then nofZ (-1) else n1))%res
  end.
(** lines 127-169.  The dictionary look-ups inside the loops are done once, before
    them: the entries do not change meanwhile. *)
Definition def_concept_pair (feat_a feat_b : string) (names_a names_b : list string)
    (desc_a desc_b : list (list F)) (p q : nat) (g : gen) : gen * res unit :=
  swith (fun _ => (a <- lget desc_a p ;; b <- lget desc_b q ;;
                   match calc_concepts_coefficient a b with
                   | None => Err (EExc "Invalid relation input data")
                   | Some cc => Ok cc
                   end)%res)
    (fun cc => let '(pq, qp) := cc in
     swith (fun _ => rel_sign pq) (fun sign_p_q =>
     swith (fun _ => rel_sign qp) (fun sign_q_p =>
     let forward := def_relation_weight names_a p names_b q sign_p_q pq in
     let backward := def_relation_weight names_b q names_a p sign_q_p qp in
     if c_double cf then sthen forward backward
     else
       swith (fun g => are_same_feature_group g feat_a feat_b) (fun same =>
         if same then
           swith (fun _ => (a <- call4 (c_caus cf) pq ;; b <- call4 (c_caus cf) qp ;; Ok (nabs a, nabs b))%res)
             (fun ab => let '(p_q, q_p) := ab in
              sthen (fun g => if nltb q_p p_q then forward g else (g, Ok tt))
                    (fun g => if nltb p_q q_p then backward g else (g, Ok tt)))
         else
           swith (fun g => is_target_concept g feat_a) (fun target =>
             if target then backward else forward))))) g.
Definition def_two_feat_relation (feat_a feat_b : string) (g : gen) : gen * res unit :=
  swith (fun g => get_names g feat_a) (fun names_a =>
  swith (fun g => get_names g feat_b) (fun names_b =>
  swith (fun g => get_desc g feat_a) (fun da =>
  swith (fun g => get_desc g feat_b) (fun db =>
    sfold (fun p => sfold (fun q => def_concept_pair feat_a feat_b names_a names_b (snd da) (snd db) p q)
                     (seq 0 (length names_b)))
      (seq 0 (length names_a)))))) g.

(** lines 171-176 and 187-191 *)
Definition def_all_feat_relations (feat_name : string) (g : gen) : gen * res unit :=
  sthen (sfold (fun other => if String.eqb other feat_name then fun g => (g, Ok tt)
                             else def_two_feat_relation feat_name other)
               (c_ord cf (g_proc g)))
        (fun g => (mark feat_name g, Ok tt)) g.
Definition def_feat_target_relation (feat_name : string) (g : gen) : gen * res unit :=
  sthen (sfold (fun other =>
                  if String.eqb other feat_name then fun g => (g, Ok tt)
                  else swith (fun g => are_same_feature_group g feat_name other) (fun same =>
                         if same then fun g => (g, Ok tt) else def_two_feat_relation feat_name other))
               (c_ord cf (g_proc g)))
        (fun g => (mark feat_name g, Ok tt)) g.

(** lines 203-233: one feature *)
Definition gen_concepts (targets : list string) (feat_name : string) (c : column) (g : gen) : gen * res unit :=
  match c with
  | ColStr _ | ColBool _ => gen_discrete_concepts feat_name targets c g
  | ColInt _ | ColFlt _ =>
      if c_infer cf && Nat.ltb (distinct c) 10 then gen_discrete_concepts feat_name targets c g
      else gen_continuous_concepts feat_name targets (as_floats c) g
  end.
Definition add_feature (targets : list string) (fc : string * column) (g : gen) : gen * res unit :=
  let '(feat_name, c) := fc in
  let g := set_feat feat_name (mkFeat None None None) g in
  sthen (gen_concepts targets feat_name c)
    (sthen (def_inner_feat_relations feat_name)
       (sthen (fun g => (mark feat_name g, Ok tt))
          (fun g => if c_featrel cf then def_all_feat_relations feat_name g
                    else def_feat_target_relation feat_name g))) g.
(** lines 193-235; the map to build into is given ([fcm] argument, or a new one) *)
Definition build_fcm (ds : dataset) (targets : list string) (s : fcm F) (g : gen) : gen * res unit :=
  sfold (add_feature targets) ds (set_fcm s g).

(** lines 237-247: any exception becomes "Cannot init concept".  A fuzzy concept
    given a text raises (no numeric type). *)
Definition cell_num (v : cell) : res F :=
  match v with
  | CStr _ => Err EType
  | CBool b => Ok (if b then n1 else n0)
  | CInt z => Ok (nofZ z)
  | CFlt x => Ok x
  end.
Definition cell_text (v : cell) : res string :=
  match v with
  | CStr s => Ok s
  | CBool b => Ok (str_of_Z (if b then 1 else 0)%Z)
  | CInt z => Ok (str_of_Z z)
  | CFlt x => (z <- c_trunc cf x ;; Ok (str_of_Z z))%res
  end.
Definition init_concept_by_feature_data (feat_name : string) (v : cell) (g : gen) : gen * res unit :=
  let '(g, r) :=
    swith (fun g => get_type g feat_name) (fun t =>
      if String.eqb t TYPE_FUZZY || String.eqb t TYPE_REGRESOR then
        swith (fun g => get_names g feat_name) (fun names =>
          sfold (fun name => swith (fun _ => cell_num v) (fun x => on_fcm (init_concept name x false))) names)
      else
        swith (fun _ => cell_text v) (fun text =>
          on_fcm (init_concept (name_concept feat_name text) n1 false))) g in
  (g, match r with Ok _ => Ok tt | Err _ => Err (EExc "Cannot init concept") end).

(** lines 249-251: (feature, value text) *)
Definition get_feature_and_info (concept : string) : res (string * string) :=
  (l <- split_str concept (c_sep cf) ;;
   f <- lget l 1 ;;
   v <- lget l 0 ;;
   Ok (f, v))%res.
(** lines 253-269; [outs] is never empty here *)
Definition best_class (outs : list (string * F)) : string * F :=
  fold_left (fun best vo => if nltb (snd best) (snd vo) then vo else best)
            outs (match outs with (t, _) :: _ => t | [] => "" end, nofZ (-1)).
Definition class_cell (text : string) : cell :=
  if isnumeric text then CInt (digits_val text 0) else CStr text.
Definition get_discrete_feature_result (outs : dict (list (string * F))) : dict cell :=
  map (fun p => (fst p, class_cell (fst (best_class (snd p))))) outs.
(** result[feat].append(x) on a defaultdict(list) *)
Definition dappend {A} (d : dict (list A)) (k : string) (x : A) : dict (list A) :=
  dset d k (match dget d k with Some l => l | None => [] end ++ [x]).
(** lines 273-285: run_inference(), then the target concepts' final values grouped
    by feature; values of continuous targets are collected but not returned *)
Definition group_results (g : gen) (st : dict F) : res (dict (list (string * F))) :=
  rfold (fun acc cv => let '(concept, v) := cv in
           ('(feat_name, info) <- get_feature_and_info concept ;;
            t <- get_type g feat_name ;;
            Ok (if String.eqb t TYPE_FUZZY || String.eqb t TYPE_REGRESOR then acc
                else dappend acc feat_name (info, v)))%res) st [].
Definition get_inference_result (g : gen) : gen * res (dict cell) :=
  match on_fcm (run_inference true) g with
  | (g, Err e) => (g, Err e)
  | (g, Ok _) =>
      (g, (st <- get_final_state "target" [] (g_fcm g) ;;
           outs <- group_results g st ;;
           Ok (get_discrete_feature_result outs))%res)
  end.

(** lines 287-290 *)
Definition reset (g : gen) : gen * res unit :=
  on_fcm clear_all (mkGen [] [] (g_fcm g)).
End Assoc.
Arguments cell : clear implicits.
Arguments column : clear implicits.
Arguments dataset : clear implicits.
Arguments gconf : clear implicits.
Arguments feat : clear implicits.
Arguments gen : clear implicits.
