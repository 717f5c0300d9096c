(** Loader.v — model of FuzzyCognitiveMap.to_json (/repo/py_fcm/fcm.py 667-734)
    and of /repo/py_fcm/loader.py (from_json 7-152, join_maps 155-272).

    A JSON text is represented by the value json.loads gives for it, so
    loads(dumps(v)) = v is built in (malformed text, which makes from_json raise
    its own exception, is not represented).  Integers are only distinguished from
    other numbers where the code needs an integer. *)
From Verif Require Import Base Num Functions Fcm.

Section Loader.
Context {F : Type} {N : Num F}.

(** Python values built by to_json.  [JVec] is a numpy array: it can occur in the
    dict to_json(to_str=False) returns, but json.dumps rejects it. *)
Inductive json : Type :=
| JNull | JBool (b : bool) | JInt (z : Z) | JNum (x : F) | JStr (s : string)
| JArr (l : list json) | JObj (d : list (string * json)) | JVec (l : list F).

(** ** Writing: fcm.py 667-734 *)
Definition arg_json (v : argval F) : json :=
  match v with AScal x => JNum x | ALst l => JArr (map JNum l) | AVec l => JVec l end.
Definition args_json (a : args F) : json := JObj (dmap (fun _ v => arg_json v) a).

(** lines 691-697 *)
Definition type_name (t : string) : string :=
  if String.eqb t TYPE_REGRESOR then "REGRESSION"
  else if String.eqb t TYPE_FUZZY then "FUZZY"
  else if String.eqb t TYPE_DECISION then "DECISION"
  else "SIMPLE".

(** lines 689-722, one concept.  The fuzzy description is written as plain lists
    in both branches of line 709. *)
Definition concept_json (s : fcm F) (p : string * node F) : res json :=
  let '(c, n) := p in
  (t <- oget (nd_type n) "type of node" ;;
   ac <- oget (nd_active n) "current node is active or not" ;;
   m <- oget (nd_mem n) "use memory in current node execution" ;;
   f <- oget (nd_func n) "custom activation function name" ;;
   let base := [("id", JStr c); ("is_active", JBool ac); ("type", JStr (type_name t));
                ("activation", JNum (nd_value n))] in
   let memo := if Bool.eqb m (m_mem s) then [] else [("use_memory", JBool m)] in
   func <- (if String.eqb f (m_func s) then Ok []
            else if String.eqb f "fuzzy" then
              '(memb, vals) <- oget (nd_fuzzy n) "activation relation for continuous values" ;;
              Ok [("custom_function", JStr f);
                  ("activation_dict", JObj [("membership", JArr (map JNum memb)); ("val_list", JArr (map JNum vals))])]
            else
              a <- oget (nd_args n) "custom activation function arguments" ;;
              Ok (("custom_function", JStr f) ::
                  (match a with [] => [] | _ => [("custom_function_args", args_json a)] end))) ;;
   Ok (JObj (base ++ memo ++ func)))%res.

(** lines 724-730 *)
Definition relation_json (a : string * F * string) : json :=
  let '(d, w, o) := a in JObj [("origin", JStr o); ("destiny", JStr d); ("weight", JNum w)].

(** lines 674-730: the dict returned by to_json(to_str=False) *)
Definition to_dict (s : fcm F) : res json :=
  (cs <- rmap (concept_json s) (m_topo s) ;;
   Ok (JObj ([("max_iter", JInt (m_maxit s)); ("decision_function", JStr (m_decision s));
              ("activation_function", JStr (m_func s)); ("memory_influence", JBool (m_mem s));
              ("stability_diff", JNum (m_sdiff s)); ("stop_at_stabilize", JBool (m_stab s));
              ("extra_steps", JInt (m_extra s)); ("weight", JNum (m_weight s));
              ("concepts", JArr cs); ("relations", JArr (map relation_json (m_arcs s)))] ++
             (match m_gargs s with [] => [] | _ => [("activation_function_args", args_json (m_gargs s))] end))))%res.

(** json.dumps: TypeError on numpy arrays *)
Fixpoint serialisable (j : json) : bool :=
  match j with
  | JArr l => forallb serialisable l
  | JObj d => forallb (fun p => serialisable (snd p)) d
  | JVec _ => false
  | _ => true
  end.
Definition dumps (j : json) : res json := if serialisable j then Ok j else Err EType.
(** lines 667-732: to_json() *)
Definition to_json (s : fcm F) : res json := rbind (to_dict s) dumps.

(** ** Reading: loader.py 80-152 *)
(** Field conversions.  Simplification: where the Python code would store a value
    of an unexpected JSON type (a text as max_iter, an object as activation, ...)
    and fail, or misbehave, only later, the model raises TypeError at once. *)
Definition jobj (j : json) : res (dict json) := match j with JObj d => Ok d | _ => Err EType end.
Definition jstr (j : json) : res string := match j with JStr s => Ok s | _ => Err EType end.
Definition jint (j : json) : res Z := match j with JInt z => Ok z | _ => Err EType end.
Definition jbool (j : json) : res bool := match j with JBool b => Ok b | _ => Err EType end.
Definition jnum (j : json) : res F :=
  match j with
  | JNum x => Ok x
  | JInt z => Ok (nofZ z)
  | JBool b => Ok (if b then n1 else n0)
  | _ => Err EType
  end.
(** iteration with [for x in j] *)
Fixpoint chars (s : string) : list json :=
  match s with EmptyString => [] | String c t => JStr (String c EmptyString) :: chars t end.
Definition jiter (j : json) : res (list json) :=
  match j with
  | JArr l => Ok l
  | JObj d => Ok (map JStr (dkeys d))
  | JStr s => Ok (chars s)
  | _ => Err EType
  end.
Definition jarg (j : json) : res (argval F) :=
  match j with
  | JArr l => (xs <- rmap jnum l ;; Ok (ALst xs))%res
  | _ => (x <- jnum j ;; Ok (AScal x))%res
  end.
(** keyword arguments given with [**j]; a key that is also a parameter of the
    called function ([taken]) is a TypeError *)
Definition jkwargs (taken : list string) (j : json) : res (args F) :=
  (d <- jobj j ;;
   if existsb (fun k => str_mem k taken) (dkeys d) then Err EType
   else rmap (fun p => a <- jarg (snd p) ;; Ok (fst p, a)) d)%res.
(** parameters of FuzzyCognitiveMap.__init__ (fcm.py 12-13) and of
    set_map_activation_function (104), which gets the same keywords *)
Definition init_params : list string :=
  ["self"; "max_it"; "extra_steps"; "stabilize"; "stability_diff"; "decision_function"; "mem_influence";
   "activation_function"; "function_name"].
(** parameters of add_concept (fcm.py 153-155) *)
Definition concept_params : list string :=
  ["self"; "concept_name"; "concept_type"; "is_active"; "use_memory"; "excitation_function";
   "activation_function"; "activation_dict"].

Definition opt_field {A} (d : dict json) (k : string) (dflt : A) (conv : json -> res A) : res A :=
  match dget d k with None => Ok dflt | Some j => conv j end.
Definition req_field {A} (d : dict json) (k : string) (conv : json -> res A) : res A :=
  (j <- dget_exn d k ;; conv j)%res.
(** null or a value *)
Definition nullable {A} (conv : json -> res A) (j : json) : res (option A) :=
  match j with JNull => Ok None | _ => (a <- conv j ;; Ok (Some a))%res end.
(** an argument that is only used when it is a bool (fcm.py 188, 226) *)
Definition bool_or_none (j : json) : res (option bool) :=
  match j with JBool b => Ok (Some b) | _ => Ok None end.
(** an activation_dict with exactly the two expected entries *)
Definition jadict (j : json) : res (adict F) :=
  (d <- jobj j ;;
   m <- req_field d "membership" (fun x => l <- jiter x ;; rmap jnum l) ;;
   v <- req_field d "val_list" (fun x => l <- jiter x ;; rmap jnum l) ;;
   Ok (mkAdict false m v))%res.

(** lines 112-143 *)
Record concept_desc : Type := mkCD {
  cd_id : string; cd_type : string; cd_active : option bool; cd_mem : option bool;
  cd_exec : option string; cd_func : option string; cd_adict : option (adict F); cd_args : args F;
  cd_activation : option F
}.
Definition read_concept (j : json) : res concept_desc :=
  (d <- jobj j ;;
   use_mem <- opt_field d "memory_influence" None bool_or_none ;;
   exec <- opt_field d "exitation_function" (Some "KOSKO") (nullable jstr) ;;
   active <- opt_field d "active" (Some true) bool_or_none ;;
   func <- opt_field d "custom_function" None (nullable jstr) ;;
   ad <- opt_field d "activation_dict" None (nullable jadict) ;;
   t <- dget_exn d "type" ;;
   let ctype := match t with JStr "DECISION" => TYPE_DECISION | _ => TYPE_SIMPLE end in
   name <- req_field d "id" jstr ;;
   fargs <- opt_field d "custom_function_args" [] (jkwargs concept_params) ;;
   actv <- opt_field d "activation" None (fun x => v <- jnum x ;; Ok (Some v)) ;;
   Ok (mkCD name ctype active use_mem exec func ad fargs actv))%res.
Definition load_concept (j : json) (s : fcm F) : fcm F * res unit :=
  match read_concept j with
  | Err e => (s, Err e)
  | Ok cd =>
      match add_concept (cd_id cd) (Some (cd_type cd)) (cd_active cd) (cd_mem cd) (cd_exec cd) (cd_adict cd)
              (cd_func cd) (cd_args cd) s with
      | (s, Err e) => (s, Err e)
      | (s, Ok _) =>
          match cd_activation cd with
          | Some v => init_concept (cd_id cd) v true s
          | None => (s, Ok tt)
          end
      end
  end.
(** lines 146-149 *)
Definition load_relation (j : json) (s : fcm F) : fcm F * res unit :=
  match (d <- jobj j ;;
         o <- req_field d "origin" jstr ;;
         t <- req_field d "destiny" jstr ;;
         w <- req_field d "weight" jnum ;;
         Ok (o, t, w))%res with
  | Err e => (s, Err e)
  | Ok (o, t, w) => add_relation o t w s
  end.

(** lines 81-150 *)
Definition load (j : json) : res (fcm F) :=
  (d <- jobj j ;;
   kw <- opt_field d "activation_function_args" [] (jkwargs init_params) ;;
   sdiff <- opt_field d "stability_diff" (nlit 1 1000) jnum ;;
   stop <- opt_field d "stop_at_stabilize" true jbool ;;
   extra <- opt_field d "extra_steps" 5%Z jint ;;
   weight <- opt_field d "weight" n1 jnum ;;
   max_it <- req_field d "max_iter" jint ;;
   dec <- req_field d "decision_function" jstr ;;
   mem <- req_field d "memory_influence" jbool ;;
   act <- req_field d "activation_function" jstr ;;
   s <- init_fcm max_it extra stop sdiff dec mem act kw ;;
   let s := set_weight weight s in
   cs <- req_field d "concepts" jiter ;;
   let '(s, r) := mfold load_concept cs s in
   u <- r ;;
   rs <- req_field d "relations" jiter ;;
   let '(s, r) := mfold load_relation rs s in
   u <- r ;;
   Ok s)%res.
(** lines 80, 151-152 *)
Definition from_json (j : json) : res (fcm F) :=
  match load j with
  | Ok s => Ok s
  | Err e => Err (EExc (append "Cannot load json data due: " (exn_str e)))
  end.

(** ** Joining: loader.py 155-272 *)
(** The accumulation list, kept by the code inside the concept's dict under the
    key 'accumulation' (203, 214) and removed at 236, is a separate component. *)
Definition jentry : Type := (dict json * list F)%type.
(** lines 206-207 and 201-203: the concepts of one map by name, with their activation *)
Definition concept_entry (j : json) : res (string * (dict json * F)) :=
  (d <- jobj j ;;
   c <- req_field d "id" jstr ;;
   v <- req_field d "activation" jnum ;;
   Ok (c, (d, v)))%res.
Definition concept_entries (desc : dict json) : res (dict (dict json * F)) :=
  (l <- req_field desc "concepts" jiter ;;
   es <- rmap concept_entry l ;;
   Ok (fold_left (fun d e => dset d (fst e) (snd e)) es []))%res.
(** lines 209-214 *)
Definition join_union (nodes : dict jentry) (new : dict (dict json * F)) : dict jentry :=
  fold_left (fun nodes e =>
    let '(key, (c, v)) := e in
    match dget nodes key with
    | Some (c0, acc) => dset nodes key (c0, acc ++ [v])
    | None => dset nodes key (c, [v])
    end) new nodes.
(** lines 216-225 *)
Definition join_inter (nodes : dict jentry) (new : dict (dict json * F)) : dict jentry :=
  flat_map (fun e =>
    let '(key, (c0, acc)) := e in
    match dget new key with
    | Some (_, v) => [(key, (c0, acc ++ [v]))]
    | None => []
    end) nodes.
(** lines 198-225, for the second and later maps *)
Definition join_nodes (union : bool) (nodes : dict jentry) (new : dict (dict json * F)) : dict jentry :=
  if union then join_union nodes new else join_inter nodes new.
(** lines 201-203 *)
Definition first_nodes (new : dict (dict json * F)) : dict jentry :=
  dmap (fun _ e => let '(c, v) := e in (c, [v])) new.

(** lines 228-235 and 260-265 *)
Definition combine_values (strategy : string) (acc : list F) : res F :=
  if String.eqb strategy "highest" then max_list acc
  else if String.eqb strategy "lowest" then min_list acc
  else Ok (ndiv (nsum acc) (nat2F (length acc))).
(** lines 227-240 *)
Definition final_concepts (value_strategy : string) (ignore_zeros : bool) (nodes : dict jentry) : res (list json) :=
  (l <- rmap (fun e => let '(_, (c, acc)) := e in
                v <- combine_values value_strategy acc ;;
                Ok (v, JObj (dset c "activation" (JNum v)))) nodes ;;
   Ok (map snd (filter (fun p => negb (neqb (fst p) n0) || negb ignore_zeros) l)))%res.
(** lines 242-249 *)
Definition rel_separator : string := " |=====> ".
Definition read_relation (j : json) : res (string * F) :=
  (d <- jobj j ;;
   o <- req_field d "origin" jstr ;;
   t <- req_field d "destiny" jstr ;;
   w <- req_field d "weight" jnum ;;
   Ok (append o (append rel_separator t), w))%res.
Definition group_relations (l : list (string * F)) : dict (list F) :=
  fold_left (fun data r =>
    let '(k, w) := r in
    match dget data k with
    | None => dset data k [w]
    | Some ws => dset data k (ws ++ [w])
    end) l [].
(** lines 251-266 *)
Definition final_relation (relation_strategy : string) (nodes : dict jentry) (e : string * list F) : res (list json) :=
  let '(key, ws) := e in
  (parts <- split_str key rel_separator ;;
   o <- lget parts 0 ;;
   t <- lget parts 1 ;;
   if dmem nodes o && dmem nodes t then
     w <- combine_values relation_strategy ws ;;
     Ok [JObj [("origin", JStr o); ("destiny", JStr t); ("weight", JNum w)]]
   else Ok [])%res.
(** one map's description; lines 195-197 *)
Definition describe (m : fcm F) : res (dict json) := (j <- to_json m ;; jobj j)%res.
Definition map_relations (desc : dict json) : res (list json) := req_field desc "relations" jiter.

(** FuzzyCognitiveMap() with the default arguments, fcm.py 12-13 *)
Definition default_fcm : res (fcm F) := init_fcm 200 5 true (nlit 1 1000) "MEAN" true "sigmoid_hip" [].

Definition join_maps (maps : list (fcm F)) (concept_strategy value_strategy relation_strategy : string)
    (ignore_zeros : bool) : res (fcm F) :=
  if negb (str_mem concept_strategy ["union"; "intersection"])
  then Err (EExc (append "Unknown concept strategy: " concept_strategy))
  else if negb (str_mem value_strategy ["highest"; "lowest"; "average"])
  then Err (EExc (append "Unknown value strategy: " value_strategy))
  else if negb (str_mem relation_strategy ["highest"; "lowest"; "average"])
  then Err (EExc (append "Unknown relation strategy: " relation_strategy))
  else
    (descs <- rmap describe maps ;;
     match descs with
     | [] => default_fcm
     | final_map :: _ =>
         rels <- rmap map_relations descs ;;
         ents <- rmap concept_entries descs ;;
         match ents with
         | [] => default_fcm
         | e0 :: es =>
             let nodes := fold_left (join_nodes (String.eqb concept_strategy "union")) es (first_nodes e0) in
             cs <- final_concepts value_strategy ignore_zeros nodes ;;
             keyed <- rmap read_relation (concat rels) ;;
             rs <- rmap (final_relation relation_strategy nodes) (group_relations keyed) ;;
             let doc := JObj (dset (dset final_map "concepts" (JArr cs)) "relations" (JArr (concat rs))) in
             text <- dumps doc ;;
             from_json text
         end
     end)%res.
End Loader.
Arguments json : clear implicits.
Arguments concept_desc : clear implicits.
