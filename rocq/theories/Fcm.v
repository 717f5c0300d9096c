(** Fcm.v — model of /repo/py_fcm/fcm.py (class FuzzyCognitiveMap), line numbers
    refer to fcm.py.  A method is a function [fcm -> fcm * res A]: the map it
    leaves behind (also when it raises) and its result or exception.

    Simplifications common to the file: concept values and weights are numbers of
    type F; boolean attributes are booleans; [is_active]/[use_memory] arguments
    that are not bool behave like None in the code and are modelled by [None];
    an activation_dict has exactly the keys 'membership' and 'val_list'; function
    objects are identified by their names; plotting is not modelled. *)
From Verif Require Import Base Num Functions.

Section Fcm.
Context {F : Type} {N : Num F}.

(** An activation_dict argument; [ad_arr] tells whether the two sequences are
    numpy arrays (true) or plain lists (false). *)
Record adict : Type := mkAdict { ad_arr : bool; ad_memb : list F; ad_vals : list F }.

(** One entry of __topology (lines 37-40, 185).  NODE_ARCS, NODE_AUX, NODE_VALUE
    and NODE_ACTV_SUM always exist; the other keys are set later by add_concept
    and are missing if it raised before (None).  NODE_FUZZY_MIN/MAX are written
    but never read in /repo and are omitted. *)
Record node : Type := mkNode {
  nd_arcs : list (string * F);
  nd_aux : list F;
  nd_value : F;
  nd_sum : F;
  nd_active : option bool;
  nd_exec : option string;
  nd_type : option string;
  nd_fuzzy : option (list F * list F);   (* membership, val_list *)
  nd_mem : option bool;
  nd_usemap : option bool;
  nd_func : option string;
  nd_args : option (args F);
  nd_vect : option (list F)
}.
Definition nd_set_arcs v (n : node) := mkNode v (nd_aux n) (nd_value n) (nd_sum n) (nd_active n) (nd_exec n) (nd_type n) (nd_fuzzy n) (nd_mem n) (nd_usemap n) (nd_func n) (nd_args n) (nd_vect n).
Definition nd_set_aux v (n : node) := mkNode (nd_arcs n) v (nd_value n) (nd_sum n) (nd_active n) (nd_exec n) (nd_type n) (nd_fuzzy n) (nd_mem n) (nd_usemap n) (nd_func n) (nd_args n) (nd_vect n).
Definition nd_set_value v (n : node) := mkNode (nd_arcs n) (nd_aux n) v (nd_sum n) (nd_active n) (nd_exec n) (nd_type n) (nd_fuzzy n) (nd_mem n) (nd_usemap n) (nd_func n) (nd_args n) (nd_vect n).
Definition nd_set_sum v (n : node) := mkNode (nd_arcs n) (nd_aux n) (nd_value n) v (nd_active n) (nd_exec n) (nd_type n) (nd_fuzzy n) (nd_mem n) (nd_usemap n) (nd_func n) (nd_args n) (nd_vect n).
Definition nd_set_active v (n : node) := mkNode (nd_arcs n) (nd_aux n) (nd_value n) (nd_sum n) (Some v) (nd_exec n) (nd_type n) (nd_fuzzy n) (nd_mem n) (nd_usemap n) (nd_func n) (nd_args n) (nd_vect n).
Definition nd_set_exec v (n : node) := mkNode (nd_arcs n) (nd_aux n) (nd_value n) (nd_sum n) (nd_active n) (Some v) (nd_type n) (nd_fuzzy n) (nd_mem n) (nd_usemap n) (nd_func n) (nd_args n) (nd_vect n).
Definition nd_set_type v (n : node) := mkNode (nd_arcs n) (nd_aux n) (nd_value n) (nd_sum n) (nd_active n) (nd_exec n) (Some v) (nd_fuzzy n) (nd_mem n) (nd_usemap n) (nd_func n) (nd_args n) (nd_vect n).
Definition nd_set_fuzzy v (n : node) := mkNode (nd_arcs n) (nd_aux n) (nd_value n) (nd_sum n) (nd_active n) (nd_exec n) (nd_type n) (Some v) (nd_mem n) (nd_usemap n) (nd_func n) (nd_args n) (nd_vect n).
Definition nd_set_mem v (n : node) := mkNode (nd_arcs n) (nd_aux n) (nd_value n) (nd_sum n) (nd_active n) (nd_exec n) (nd_type n) (nd_fuzzy n) (Some v) (nd_usemap n) (nd_func n) (nd_args n) (nd_vect n).
Definition nd_set_usemap v (n : node) := mkNode (nd_arcs n) (nd_aux n) (nd_value n) (nd_sum n) (nd_active n) (nd_exec n) (nd_type n) (nd_fuzzy n) (nd_mem n) (Some v) (nd_func n) (nd_args n) (nd_vect n).
Definition nd_set_func f a v (n : node) := mkNode (nd_arcs n) (nd_aux n) (nd_value n) (nd_sum n) (nd_active n) (nd_exec n) (nd_type n) (nd_fuzzy n) (nd_mem n) (nd_usemap n) (Some f) (Some a) v.
Definition nd_set_vect v (n : node) := mkNode (nd_arcs n) (nd_aux n) (nd_value n) (nd_sum n) (nd_active n) (nd_exec n) (nd_type n) (nd_fuzzy n) (nd_mem n) (nd_usemap n) (nd_func n) (nd_args n) (Some v).

(** line 185 *)
Definition blank_node : node := mkNode [] [] n0 n0 None None None None None None None None None.

(** _default_concept (lines 80-81, 318-366); complete after construction except
    for NODE_FUZZY_ACTIVATION *)
Record dconcept : Type := mkDC {
  dc_active : bool;
  dc_exec : string;
  dc_type : string;
  dc_fuzzy : option (list F * list F);
  dc_mem : bool;
  dc_usemap : bool;
  dc_func : string;
  dc_args : args F
}.

(** Data prepared for the vectorized engine (lines 534-564); [vc_state] is
    __state_vector as the last run left it *)
Record vcache : Type := mkVC {
  vc_state : list F;
  vc_matrix : list (list F);
  vc_functions : list Z;
  vc_args : list (list F);
  vc_mem : list bool;
  vc_norm : list F;
  vc_avoid : list bool
}.

(** The map object (lines 40-94).  __map_decision_function and
    __map_activation_function are determined by their names.
    [m_oob] is a ghost flag: a vectorized run wrote outside a history row. *)
Record fcm : Type := mkFcm {
  m_topo : dict node;
  m_arcs : list (string * F * string);       (* destiny, weight, origin *)
  m_exec : dict (list F);
  m_stab : bool;
  m_maxit : Z;
  m_extra : Z;
  m_sdiff : F;
  m_decision : string;
  m_mem : bool;
  m_func : string;
  m_gargs : args F;
  m_iters : Z;
  m_weight : F;
  m_default : dconcept;
  m_debug : bool;
  m_fit : option F;
  m_prepared : bool;
  m_cache : option vcache;
  m_oob : bool
}.
Definition set_topo v (s : fcm) := mkFcm v (m_arcs s) (m_exec s) (m_stab s) (m_maxit s) (m_extra s) (m_sdiff s) (m_decision s) (m_mem s) (m_func s) (m_gargs s) (m_iters s) (m_weight s) (m_default s) (m_debug s) (m_fit s) (m_prepared s) (m_cache s) (m_oob s).
Definition set_arcs v (s : fcm) := mkFcm (m_topo s) v (m_exec s) (m_stab s) (m_maxit s) (m_extra s) (m_sdiff s) (m_decision s) (m_mem s) (m_func s) (m_gargs s) (m_iters s) (m_weight s) (m_default s) (m_debug s) (m_fit s) (m_prepared s) (m_cache s) (m_oob s).
Definition set_exec v (s : fcm) := mkFcm (m_topo s) (m_arcs s) v (m_stab s) (m_maxit s) (m_extra s) (m_sdiff s) (m_decision s) (m_mem s) (m_func s) (m_gargs s) (m_iters s) (m_weight s) (m_default s) (m_debug s) (m_fit s) (m_prepared s) (m_cache s) (m_oob s).
Definition set_stab v (s : fcm) := mkFcm (m_topo s) (m_arcs s) (m_exec s) v (m_maxit s) (m_extra s) (m_sdiff s) (m_decision s) (m_mem s) (m_func s) (m_gargs s) (m_iters s) (m_weight s) (m_default s) (m_debug s) (m_fit s) (m_prepared s) (m_cache s) (m_oob s).
Definition set_maxit v (s : fcm) := mkFcm (m_topo s) (m_arcs s) (m_exec s) (m_stab s) v (m_extra s) (m_sdiff s) (m_decision s) (m_mem s) (m_func s) (m_gargs s) (m_iters s) (m_weight s) (m_default s) (m_debug s) (m_fit s) (m_prepared s) (m_cache s) (m_oob s).
Definition set_sdiff v (s : fcm) := mkFcm (m_topo s) (m_arcs s) (m_exec s) (m_stab s) (m_maxit s) (m_extra s) v (m_decision s) (m_mem s) (m_func s) (m_gargs s) (m_iters s) (m_weight s) (m_default s) (m_debug s) (m_fit s) (m_prepared s) (m_cache s) (m_oob s).
Definition set_decision v (s : fcm) := mkFcm (m_topo s) (m_arcs s) (m_exec s) (m_stab s) (m_maxit s) (m_extra s) (m_sdiff s) v (m_mem s) (m_func s) (m_gargs s) (m_iters s) (m_weight s) (m_default s) (m_debug s) (m_fit s) (m_prepared s) (m_cache s) (m_oob s).
Definition set_mem v (s : fcm) := mkFcm (m_topo s) (m_arcs s) (m_exec s) (m_stab s) (m_maxit s) (m_extra s) (m_sdiff s) (m_decision s) v (m_func s) (m_gargs s) (m_iters s) (m_weight s) (m_default s) (m_debug s) (m_fit s) (m_prepared s) (m_cache s) (m_oob s).
Definition set_func v a (s : fcm) := mkFcm (m_topo s) (m_arcs s) (m_exec s) (m_stab s) (m_maxit s) (m_extra s) (m_sdiff s) (m_decision s) (m_mem s) v a (m_iters s) (m_weight s) (m_default s) (m_debug s) (m_fit s) (m_prepared s) (m_cache s) (m_oob s).
Definition set_iters v (s : fcm) := mkFcm (m_topo s) (m_arcs s) (m_exec s) (m_stab s) (m_maxit s) (m_extra s) (m_sdiff s) (m_decision s) (m_mem s) (m_func s) (m_gargs s) v (m_weight s) (m_default s) (m_debug s) (m_fit s) (m_prepared s) (m_cache s) (m_oob s).
Definition set_weight v (s : fcm) := mkFcm (m_topo s) (m_arcs s) (m_exec s) (m_stab s) (m_maxit s) (m_extra s) (m_sdiff s) (m_decision s) (m_mem s) (m_func s) (m_gargs s) (m_iters s) v (m_default s) (m_debug s) (m_fit s) (m_prepared s) (m_cache s) (m_oob s).
Definition set_default v (s : fcm) := mkFcm (m_topo s) (m_arcs s) (m_exec s) (m_stab s) (m_maxit s) (m_extra s) (m_sdiff s) (m_decision s) (m_mem s) (m_func s) (m_gargs s) (m_iters s) (m_weight s) v (m_debug s) (m_fit s) (m_prepared s) (m_cache s) (m_oob s).
Definition set_debug v (s : fcm) := mkFcm (m_topo s) (m_arcs s) (m_exec s) (m_stab s) (m_maxit s) (m_extra s) (m_sdiff s) (m_decision s) (m_mem s) (m_func s) (m_gargs s) (m_iters s) (m_weight s) (m_default s) v (m_fit s) (m_prepared s) (m_cache s) (m_oob s).
Definition set_fit v (s : fcm) := mkFcm (m_topo s) (m_arcs s) (m_exec s) (m_stab s) (m_maxit s) (m_extra s) (m_sdiff s) (m_decision s) (m_mem s) (m_func s) (m_gargs s) (m_iters s) (m_weight s) (m_default s) (m_debug s) v (m_prepared s) (m_cache s) (m_oob s).
Definition set_prepared v (s : fcm) := mkFcm (m_topo s) (m_arcs s) (m_exec s) (m_stab s) (m_maxit s) (m_extra s) (m_sdiff s) (m_decision s) (m_mem s) (m_func s) (m_gargs s) (m_iters s) (m_weight s) (m_default s) (m_debug s) (m_fit s) v (m_cache s) (m_oob s).
Definition set_cache v (s : fcm) := mkFcm (m_topo s) (m_arcs s) (m_exec s) (m_stab s) (m_maxit s) (m_extra s) (m_sdiff s) (m_decision s) (m_mem s) (m_func s) (m_gargs s) (m_iters s) (m_weight s) (m_default s) (m_debug s) (m_fit s) true v (m_oob s).
Definition set_oob v (s : fcm) := mkFcm (m_topo s) (m_arcs s) (m_exec s) (m_stab s) (m_maxit s) (m_extra s) (m_sdiff s) (m_decision s) (m_mem s) (m_func s) (m_gargs s) (m_iters s) (m_weight s) (m_default s) (m_debug s) (m_fit s) (m_prepared s) (m_cache s) v.

Definition put_node (c : string) (n : node) (s : fcm) : fcm := set_topo (dset (m_topo s) c n) s.
Definition put_exec (c : string) (h : list F) (s : fcm) : fcm := set_exec (dset (m_exec s) c h) s.

(** A Python for loop over state: stops at the first exception, keeping the state. *)
Fixpoint mfold {A} (f : A -> fcm -> fcm * res unit) (l : list A) (s : fcm) : fcm * res unit :=
  match l with
  | [] => (s, Ok tt)
  | a :: t => match f a s with
              | (s', Ok _) => mfold f t s'
              | (s', Err e) => (s', Err e)
              end
  end.

(** ** Helpers, lines 121-151 *)
(** lines 121-136: __process_function_args *)
Definition arg_values (v : argval F) : list F :=
  match v with AScal x => [x] | AVec l => l | ALst l => l end.
Definition process_function_args (a : args F) : list F :=
  flat_map (fun k => match dget a k with Some v => arg_values v | None => [] end)
           (str_sort (dkeys a)).

(** lines 138-151: __process_activation_dict.  The divisions are numpy divisions
    (no exception on zero). Returns (sorted values, memberships, scaled values). *)
Definition process_activation_dict (d : adict) : res (list F * list F * list F) :=
  ('(val_list, membership) <-
      dual_quick_sort nleb (ad_vals d) 0 (Z.of_nat (length (ad_vals d)) - 1) (ad_memb d) ;;
   min0 <- lget val_list 0 ;;
   let min_val := nabs min0 in
   max_val <- lget val_list (length val_list - 1) ;;
   let scaled := map (fun v => ndiv (nadd v min_val) (nadd min_val max_val)) val_list in
   Ok (val_list, membership, scaled))%res.

(** Arguments dict built from a processed / a raw activation_dict. *)
Definition scaled_args (membership scaled : list F) : args F :=
  [("val_list", AVec scaled); ("membership", AVec membership)].
Definition raw_args (d : adict) : args F :=
  if ad_arr d then [("membership", AVec (ad_memb d)); ("val_list", AVec (ad_vals d))]
  else [("membership", ALst (ad_memb d)); ("val_list", ALst (ad_vals d))].

(** The activation-function part shared by add_concept 231-253 and
    set_concept_properties 292-314; [dflt] = (name, args) used when neither a
    dict nor a name is given. *)
Definition define_func (n : node) (fargs : option (args F)) (fname : option string)
    (kwargs : args F) (dflt : string * args F) : node * res unit :=
  let n := nd_set_usemap false n in
  match fargs with
  | Some a => (nd_set_vect (process_function_args a) (nd_set_func "fuzzy" a (nd_vect n) n), Ok tt)
  | None =>
      match fname with
      | Some f =>
          match get_function_by_name f with
          | Some _ => (nd_set_vect (process_function_args kwargs) (nd_set_func f kwargs (nd_vect n) n), Ok tt)
          | None => (n, Err (EExc (append "Unknown activation function: " f)))
          end
      | None =>
          (nd_set_usemap true
             (nd_set_vect (process_function_args (snd dflt)) (nd_set_func (fst dflt) (snd dflt) (nd_vect n) n)),
           Ok tt)
      end
  end.

Definition is_fuzzy_type (t : string) : bool := String.eqb t TYPE_FUZZY || String.eqb t TYPE_REGRESOR.

(** lines 185-253: the node add_concept builds and whether it raises *)
Definition build_node (dc : dconcept) (ctype : option string) (is_active use_memory : option bool)
    (excitation : option string) (adict_ : option adict) (fname : option string) (kwargs : args F)
  : node * res unit :=
  let n := nd_set_active (match is_active with Some b => b | None => dc_active dc end) blank_node in
  match (match excitation with
         | Some e => match get_excitation_by_name e with Some _ => Ok e | None => Err (EExc (append "Unknown excitation function: " e)) end
         | None => Ok (dc_exec dc)
         end) with
  | Err x => (n, Err x)
  | Ok e =>
      let n := nd_set_exec e n in
      let t := match ctype with
               | Some t => if is_valid_type t then t else dc_type dc
               | None => dc_type dc
               end in
      let n := nd_set_type t n in
      (* lines 211-224 *)
      let fz : res (node * option (args F)) :=
        if is_fuzzy_type t then
          match adict_ with
          | Some d =>
              ('(vals, memb, scaled) <- process_activation_dict d ;;
               Ok (nd_set_fuzzy (memb, vals) n, Some (scaled_args memb scaled)))%res
          | None =>
              if String.eqb (dc_type dc) t
              then (f <- oget (dc_fuzzy dc) "activation relation for continuous values" ;;
                    Ok (nd_set_fuzzy f n, None))%res
              else Ok (n, None)
          end
        else Ok (n, match adict_ with Some d => Some (raw_args d) | None => None end) in
      match fz with
      | Err x => (n, Err x)
      | Ok (n, fargs) =>
          let n := nd_set_mem (match use_memory with Some b => b | None => dc_mem dc end) n in
          let '(n, r) := define_func n fargs fname kwargs (dc_func dc, dc_args dc) in
          match r with
          | Err x => (n, Err x)
          | Ok _ => (nd_set_value n0 n, Ok tt)
          end
      end
  end.

(** lines 153-255 *)
Definition add_concept (name : string) (ctype : option string) (is_active use_memory : option bool)
    (excitation : option string) (adict_ : option adict) (fname : option string) (kwargs : args F)
    (s : fcm) : fcm * res unit :=
  let s := set_prepared false s in
  let '(n, r) := build_node (m_default s) ctype is_active use_memory excitation adict_ fname kwargs in
  let s := put_node name n s in
  match r with
  | Ok _ => (put_exec name [n0] s, Ok tt)
  | Err e => (s, Err e)
  end.

(** lines 257-316 *)
Definition update_node (s : fcm) (n : node) (ctype : option string) (is_active use_memory : option bool)
    (excitation : option string) (adict_ : option adict) (fname : option string) (kwargs : args F)
  : node * res unit :=
  let n := match is_active with Some b => nd_set_active b n | None => n end in
  match (match excitation with
         | Some e => match get_excitation_by_name e with
                     | Some _ => Ok (nd_set_exec e n)
                     | None => Err (EExc (append "Unknown excitation function: " e)) end
         | None => Ok n
         end) with
  | Err x => (n, Err x)
  | Ok n =>
      match (match ctype with
             | Some t => if is_valid_type t then Ok (nd_set_type t n) else Err (EExc "Unknown node type")
             | None => Ok n
             end) with
      | Err x => (n, Err x)
      | Ok n =>
          let fz : res (node * option (args F)) :=
            match ctype, adict_ with
            | Some t, Some d =>
                if is_fuzzy_type t
                then ('(vals, memb, scaled) <- process_activation_dict d ;;
                      Ok (nd_set_fuzzy (memb, vals) n, Some (scaled_args memb scaled)))%res
                else Ok (n, Some (raw_args d))
            | None, Some d => Ok (n, Some (raw_args d))
            | _, None => Ok (n, None)
            end in
          match fz with
          | Err x => (n, Err x)
          | Ok (n, fargs) =>
              let n := nd_set_mem (match use_memory with Some b => b | None => m_mem s end) n in
              define_func n fargs fname kwargs (m_func s, m_gargs s)
          end
      end
  end.
Definition set_concept_properties (name : string) (ctype : option string) (is_active use_memory : option bool)
    (excitation : option string) (adict_ : option adict) (fname : option string) (kwargs : args F)
    (s : fcm) : fcm * res unit :=
  match dget (m_topo s) name with
  | Some n =>
      let s := set_prepared false s in
      let '(n, r) := update_node s n ctype is_active use_memory excitation adict_ fname kwargs in
      (put_node name n s, r)
  | None => (s, Err (EExc (append "Concept " (append name " not found"))))
  end.

(** lines 318-366 *)
Definition dc_set_active v d := mkDC v (dc_exec d) (dc_type d) (dc_fuzzy d) (dc_mem d) (dc_usemap d) (dc_func d) (dc_args d).
Definition dc_set_exec v d := mkDC (dc_active d) v (dc_type d) (dc_fuzzy d) (dc_mem d) (dc_usemap d) (dc_func d) (dc_args d).
Definition dc_set_type v d := mkDC (dc_active d) (dc_exec d) v (dc_fuzzy d) (dc_mem d) (dc_usemap d) (dc_func d) (dc_args d).
Definition dc_set_fuzzy v d := mkDC (dc_active d) (dc_exec d) (dc_type d) (Some v) (dc_mem d) (dc_usemap d) (dc_func d) (dc_args d).
Definition dc_set_mem v d := mkDC (dc_active d) (dc_exec d) (dc_type d) (dc_fuzzy d) v (dc_usemap d) (dc_func d) (dc_args d).
Definition dc_set_func u f a d := mkDC (dc_active d) (dc_exec d) (dc_type d) (dc_fuzzy d) (dc_mem d) u f a.
Definition dc_set_usemap u d := mkDC (dc_active d) (dc_exec d) (dc_type d) (dc_fuzzy d) (dc_mem d) u (dc_func d) (dc_args d).
Definition update_default (s : fcm) (d : dconcept) (ctype : string) (is_active use_memory : option bool)
    (excitation : string) (adict_ : option adict) (fname : option string) (kwargs : args F)
  : dconcept * res unit :=
  let d := match is_active with Some b => dc_set_active b d | None => d end in
  match get_excitation_by_name excitation with
  | None => (d, Err (EExc (append "Unknown excitation function: " excitation)))
  | Some _ =>
      let d := dc_set_exec excitation d in
      if is_valid_type ctype then
        let d := dc_set_type ctype d in
        (* line 335: [A or B and C] groups as [A or (B and C)] *)
        let fz : res (dconcept * option (args F)) :=
          if String.eqb ctype TYPE_FUZZY ||
             (String.eqb ctype TYPE_REGRESOR && match adict_ with Some _ => true | None => false end)
          then match adict_ with
               | Some ad => ('(vals, memb, scaled) <- process_activation_dict ad ;;
                             Ok (dc_set_fuzzy (memb, vals) d, Some (scaled_args memb scaled)))%res
               | None => Err EType    (* None['val_list'] *)
               end
          else Ok (d, match adict_ with Some ad => Some (raw_args ad) | None => None end) in
        match fz with
        | Err x => (d, Err x)
        | Ok (d, fargs) =>
            let d := dc_set_mem (match use_memory with Some b => b | None => m_mem s end) d in
            let d := dc_set_usemap false d in
            match fargs with
            | Some a => (dc_set_func false "fuzzy" a d, Ok tt)
            | None =>
                match fname with
                | Some f =>
                    match get_function_by_name f with
                    | Some _ => (dc_set_func false f kwargs d, Ok tt)
                    | None => (d, Err (EExc (append "Unknown ativation function: " f)))
                    end
                | None => (dc_set_func true (m_func s) (m_gargs s) d, Ok tt)
                end
            end
        end
      else (d, Err (EExc "Unknown node type"))
  end.
Definition set_default_concept_properties (ctype : string) (is_active use_memory : option bool)
    (excitation : string) (adict_ : option adict) (fname : option string) (kwargs : args F)
    (s : fcm) : fcm * res unit :=
  let '(d, r) := update_default s (m_default s) ctype is_active use_memory excitation adict_ fname kwargs in
  (set_default d s, r).

(** lines 96-102 *)
Definition set_map_decision_function (name : string) (s : fcm) : fcm * res unit :=
  match get_decision_by_name name with
  | Some _ => (set_decision name s, Ok tt)
  | None => (s, Err (EExc (append "Unknown decision function '" (append name "'"))))
  end.

(** lines 104-119 *)
Definition refresh_func (f : string) (a : args F) (c : string) (s : fcm) : fcm * res unit :=
  match dget (m_topo s) c with
  | None => (s, Err (EKey c))
  | Some n =>
      match nd_usemap n with
      | None => (s, Err (EKey "use map activation function"))
      | Some true => (put_node c (nd_set_vect (process_function_args a) (nd_set_func f a (nd_vect n) n)) s, Ok tt)
      | Some false => (s, Ok tt)
      end
  end.
Definition set_map_activation_function (name : string) (kwargs : args F) (s : fcm) : fcm * res unit :=
  let s := set_prepared false s in
  match get_function_by_name name with
  | None => (s, Err (EExc (append "Unknown activation function '" (append name "'"))))
  | Some _ =>
      let s := set_func name kwargs s in
      mfold (refresh_func name kwargs) (dkeys (m_topo s)) s
  end.

(** lines 12-94: the constructor *)
Definition dummy_default : dconcept := mkDC true "KOSKO" TYPE_SIMPLE None true true "" [].
Definition init_fcm (max_it extra_steps : Z) (stabilize : bool) (stability_diff : F) (decision : string)
    (mem_influence : bool) (activation : string) (kwargs : args F) : res fcm :=
  let s := mkFcm [] [] [] stabilize max_it (if (0 <? extra_steps)%Z then extra_steps else 1%Z) stability_diff
             "" mem_influence "" [] 1%Z n1 dummy_default true None false None false in
  let '(s, r) := set_map_decision_function decision s in
  match r with
  | Err e => Err e
  | Ok _ =>
      let '(s, r) := set_map_activation_function activation kwargs s in
      match r with
      | Err e => Err e
      | Ok _ =>
          let '(s, r) := set_default_concept_properties TYPE_SIMPLE (Some true) None "KOSKO" None None [] s in
          match r with Err e => Err e | Ok _ => Ok s end
      end
  end.

(** lines 368-370; None stands for Python's None result *)
Definition get_concept_value (c : string) (s : fcm) : option F :=
  match dget (m_topo s) c with Some n => Some (nd_value n) | None => None end.

(** lines 372-409 *)
Definition fit_node (y : F) (n : node) : res node :=
  (f <- oget (nd_func n) "custom activation function name" ;;
   let x := nabs (nd_sum n) in
   l1 <- (if String.eqb f "sigmoid" then (l <- sigmoid_lambda x y ;; Ok (Some l)) else Ok None) ;;
   l2 <- (if String.eqb f "sigmoid_hip" then (l <- sigmoid_hip_lambda x y ;; Ok (Some l)) else Ok l1) ;;
   let l3 := if String.eqb f "relm" then Some n1 else l2 in
   match l3 with
   | None => Ok n
   | Some l => let a := [("lambda_val", AScal l)] in
               Ok (nd_set_vect (process_function_args a) (nd_set_func f a (nd_vect n) n))
   end)%res.
Definition add_relation (origin destiny : string) (weight : F) (s : fcm) : fcm * res unit :=
  let s := set_prepared false s in
  match dget (m_topo s) destiny, dget (m_topo s) origin with
  | Some _, Some no =>
      let s := put_node origin (nd_set_arcs (nd_arcs no ++ [(destiny, weight)]) no) s in
      match dget (m_topo s) destiny with
      | None => (s, Err (EKey destiny))
      | Some nd =>
          let nd := nd_set_sum (nadd (nd_sum nd) weight) nd in
          let s := put_node destiny nd s in
          let fit := match m_fit s with None => Ok nd | Some y => fit_node y nd end in
          match fit with
          | Err e => (s, Err e)
          | Ok nd =>
              let s := put_node destiny nd s in
              (set_arcs (m_arcs s ++ [(destiny, weight, origin)]) s, Ok tt)
          end
      end
  | _, _ => (s, Ok tt)
  end.

(** lines 411-414 *)
Definition get_concept_outgoing_relations (c : string) (s : fcm) : list (string * F) :=
  match dget (m_topo s) c with Some n => nd_arcs n | None => [] end.

(** lines 475-484: data[NODE_VALUE] = execution[c][0]; execution[c] = [value] *)
Definition reset_one (c : string) (s : fcm) : fcm * res unit :=
  match dget (m_topo s) c with
  | None => (s, Err (EKey c))
  | Some n =>
      let s := put_node c (nd_set_aux [] n) s in
      match dget (m_exec s) c with
      | None => (s, Err (EKey c))
      | Some [] => (s, Err EIndex)
      | Some (v :: _) => (put_exec c [v] (put_node c (nd_set_value v (nd_set_aux [] n)) s), Ok tt)
      end
  end.
Definition reset_execution (s : fcm) : fcm * res unit :=
  mfold reset_one (dkeys (m_topo s)) s.

(** lines 416-425 *)
Definition clear_all (s : fcm) : fcm * res unit :=
  match reset_execution s with
  | (s, Err e) => (s, Err e)
  | (s, Ok _) => (set_exec [] (set_arcs [] (set_topo [] s)), Ok tt)
  end.

(** lines 486-495 *)
Definition clear_one (c : string) (s : fcm) : fcm * res unit :=
  match dget (m_topo s) c with
  | None => (s, Err (EKey c))
  | Some n => (put_exec c [n0] (put_node c (nd_set_value n0 (nd_set_aux [] n)) s), Ok tt)
  end.
Definition clear_execution (s : fcm) : fcm * res unit :=
  mfold clear_one (dkeys (m_topo s)) s.

(** lines 427-456 *)
Definition init_concept (c : string) (value : F) (required_presence : bool) (s : fcm) : fcm * res unit :=
  match dget (m_topo s) c with
  | None => if required_presence then (s, Err (EExc (append "Missing concept " c))) else (s, Ok tt)
  | Some n =>
      match (f <- oget (nd_func n) "custom activation function name" ;;
             if String.eqb f "fuzzy" then
               '(memb, vals) <- oget (nd_fuzzy n) "activation relation for continuous values" ;;
               fuzzy_set value memb vals
             else Ok value)%res with
      | Err e => (s, Err e)
      | Ok v => (put_node c (nd_set_aux [] (nd_set_value v n)) (put_exec c [v] s), Ok tt)
      end
  end.

(** lines 458-473 *)
Definition last_two (h : list F) : res (F * F) :=
  match rev h with
  | a :: b :: _ => Ok (a, b)
  | _ => Err EIndex
  end.
Definition is_stable (s : fcm) : res bool :=
  if (1 <? m_iters s)%Z then
    rfold (fun st h => ('(a, b) <- last_two h ;;
                        Ok (if nltb (m_sdiff s) (nabs (nsub a b)) then false else st))%res)
          (map snd (m_exec s)) true
  else Ok false.

(** lines 736-746 *)
Definition keep_execution (s : fcm) : res bool :=
  if (m_maxit s <=? m_iters s)%Z then Ok false
  else if m_stab s then (b <- is_stable s ;; Ok (negb b))%res
  else Ok true.

(** lines 506-515 *)
Definition spread_arc (arc : string * F * string) (s : fcm) : fcm * res unit :=
  let '(dest, weight, origin) := arc in
  match (no <- dget_exn (m_topo s) origin ;;
         act <- oget (nd_active no) "current node is active or not" ;;
         (if act : bool then
            e <- oget (nd_exec no) "custom execution function name" ;;
            nd <- dget_exn (m_topo s) dest ;;
            let contribution :=
              if String.eqb e "PAPAGEORGIUS"
              then nmul (nsub (nmul n2 (nd_value no)) n1) weight
              else nmul (nd_value no) weight in
            Ok (Some (nd_set_aux (nd_aux nd ++ [contribution]) nd))
          else Ok None))%res with
  | Err e => (s, Err e)
  | Ok None => (s, Ok tt)
  | Ok (Some nd) => (put_node dest nd s, Ok tt)
  end.

(** lines 517-528 for one concept *)
Definition update_value (c : string) (s : fcm) : fcm * res unit :=
  match (n <- dget_exn (m_topo s) c ;;
         e <- oget (nd_exec n) "custom execution function" ;;
         mem <- oget (nd_mem n) "use memory in current node execution" ;;
         ex <- (match get_excitation_by_name e with Some x => Ok x | None => Err EType end) ;;
         Ok (n, exec_excit ex (nd_aux n) (nd_value n) mem))%res with
  | Err e => (s, Err e)
  | Ok (n, exec_val) =>
      let n := nd_set_aux [] n in
      let s := put_node c n s in
      match (f <- oget (nd_func n) "custom activation function name" ;;
             v <- (if String.eqb f "fuzzy" then pdiv exec_val (nd_sum n) else Ok exec_val) ;;
             fn <- (match get_function_by_name f with Some x => Ok x | None => Err EType end) ;;
             a <- oget (nd_args n) "custom activation function arguments" ;;
             call_actv fn v a)%res with
      | Err e => (s, Err e)
      | Ok r =>
          let s := put_node c (nd_set_value r n) s in
          match dget (m_exec s) c with
          | None => (s, Err (EKey c))
          | Some h => (put_exec c (h ++ [r]) s, Ok tt)
          end
      end
  end.

(** one pass of the while body, lines 506-530 *)
Definition inf_step (s : fcm) : fcm * res unit :=
  match mfold spread_arc (m_arcs s) s with
  | (s, Err e) => (s, Err e)
  | (s, Ok _) =>
      match mfold update_value (dkeys (m_exec s)) s with
      | (s, Err e) => (s, Err e)
      | (s, Ok _) => (set_iters (m_iters s + 1)%Z s, Ok tt)
      end
  end.

(** lines 497-530; [fuel] bounds the number of passes, [extra] is the loop variable *)
Fixpoint iter_loop (fuel : nat) (extra : Z) (s : fcm) : fcm * res unit :=
  if (0 <? extra)%Z then
    match fuel with
    | O => (s, Err EFuel)
    | S fuel =>
        match keep_execution s with
        | Err e => (s, Err e)
        | Ok keep =>
            let extra := if keep : bool then (m_extra s - 1)%Z else (extra - 1)%Z in
            match inf_step s with
            | (s, Err e) => (s, Err e)
            | (s, Ok _) => iter_loop fuel extra s
            end
        end
    end
  else (s, Ok tt).
Definition iterative_inference (s : fcm) : fcm * res unit :=
  let s := set_iters 1%Z s in
  iter_loop (Z.to_nat (Z.max (m_maxit s) 0 + m_extra s)) (m_extra s - 1)%Z s.

(** ** lines 532-581: vectorized engine *)
(** position of a name in the key list (concepts.index) *)
Fixpoint index_of (c : string) (l : list string) : option nat :=
  match l with
  | [] => None
  | x :: t => if String.eqb c x then Some 0 else match index_of c t with Some i => Some (S i) | None => None end
  end.
(** lines 558-564: last write wins *)
Definition matrix_add (concepts : list string) (mat : list (list F)) (arc : string * F * string)
  : res (list (list F)) :=
  let '(dest, weight, origin) := arc in
  match index_of origin concepts, index_of dest concepts with
  | Some i, Some j => Ok (upd mat i (upd (nth i mat []) j weight))
  | _, _ => Err EValue
  end.
(** per-concept data, lines 544-557 *)
Definition prep_node (n : node) : res (Z * list F * bool * F * bool) :=
  (f <- oget (nd_func n) "custom activation function name" ;;
   id <- (match get_const_by_name f with Some z => Ok z | None => Err EType end) ;;
   v <- oget (nd_vect n) "custom activation function arguments in vector" ;;
   mem <- oget (nd_mem n) "use memory in current node execution" ;;
   e <- oget (nd_exec n) "custom execution function name" ;;
   Ok (id, v, mem, if String.eqb f "fuzzy" then nd_sum n else n0, String.eqb "PAPAGEORGIUS" e))%res.
Definition prepare (s : fcm) : res vcache :=
  let concepts := dkeys (m_topo s) in
  let n := length concepts in
  (ps <- rmap prep_node (map snd (m_topo s)) ;;
   mat <- rfold (matrix_add concepts) (m_arcs s) (repeat (repeat n0 n) n) ;;
   Ok (mkVC (map (fun p => nd_value (snd p)) (m_topo s)) mat
         (map (fun p => let '(id, _, _, _, _) := p in id) ps)
         (map (fun p => let '(_, v, _, _, _) := p in v) ps)
         (map (fun p => let '(_, _, m, _, _) := p in m) ps)
         (map (fun p => let '(_, _, _, x, _) := p in x) ps)
         (map (fun p => let '(_, _, _, _, b) := p in b) ps)))%res.

(** lines 574-578: number of columns kept *)
Fixpoint find_sentinel (row : list F) (pos : nat) : option nat :=
  match row with
  | [] => None
  | v :: t => if neqb v n2 then Some pos else find_sentinel t (S pos)
  end.

(** Simplifications: empty typed lists cannot be typed by numba (type error); a
    preparation that raised half way leaves incomplete lists, and the exception a
    later run raises on them is not determined ([EUndef]).  Lines 566-567 reload
    the state for the concepts of the map, so on an emptied map (clear_all leaves
    __prepared_data set) the previous state vector is used. *)
Definition vectorized_inference (s : fcm) : fcm * res unit :=
  let prep :=
    if m_prepared s then
      (s, match m_cache s with Some c => Ok c | None => Err EUndef end)
    else
      match prepare s with
      | Ok c => (set_cache (Some c) s, Ok c)
      | Err e => (set_cache None s, Err e)
      end in
  match prep with
  | (s, Err e) => (s, Err e)
  | (s, Ok c) =>
      let state := match m_topo s with
                   | [] => vc_state c
                   | _ => map (fun p => nd_value (snd p)) (m_topo s)
                   end in
      let with_state v := mkVC v (vc_matrix c) (vc_functions c) (vc_args c) (vc_mem c) (vc_norm c) (vc_avoid c) in
      match vc_functions c with
      | [] => (s, Err EType)
      | _ =>
          match vectorized_run state (vc_matrix c) (vc_functions c) (vc_args c) (vc_norm c)
                  (vc_mem c) (vc_avoid c) (m_maxit s) (m_sdiff s) (m_extra s) with
          | Err e =>
              (* the first loop of vectorized_run has already changed the state vector in place *)
              (set_cache (Some (with_state (if (m_maxit s <? 0)%Z then state
                                            else map (fun sa => if (snd sa : bool) then nsub (nmul n2 (fst sa)) n1 else fst sa)
                                                     (combine state (vc_avoid c))))) s, Err e)
          | Ok (buf, oob, _) =>
              let s := set_oob (m_oob s || oob) s in
              let m := Z.to_nat (m_maxit s) in
              if Nat.eqb m 0 then (s, Err EIndex)      (* line 573: result[:, 0] *)
              else
                let s := set_cache (Some (with_state (map (fun i => buf_read m buf i 0) (seq 0 (length state))))) s in
                let col := match find_sentinel (firstn m buf) 0 with
                           | Some k => k
                           | None => (m - 1)%nat
                           end in
                let concepts := dkeys (m_topo s) in
                let ex := fold_left (fun ex ic => dset ex (snd ic) (firstn col (firstn m (skipn (fst ic * m) buf))))
                                    (combine (seq 0 (length concepts)) concepts) (m_exec s) in
                (set_exec ex s, Ok tt)
          end
      end
  end.

(** lines 583-599 *)
Definition finalize_one (c : string) (s : fcm) : fcm * res unit :=
  match (h <- dget_exn (m_exec s) c ;;
         n <- dget_exn (m_topo s) c ;;
         d <- (match get_decision_by_name (m_decision s) with Some d => Ok d | None => Err EType end) ;;
         v <- exec_decision d h (Z.of_nat (length h) - m_extra s - 1) ;;
         Ok (nd_set_value v n))%res with
  | Err e => (s, Err e)
  | Ok n => (put_node c n s, Ok tt)
  end.
Definition run_inference (reset : bool) (s : fcm) : fcm * res unit :=
  match (if reset then reset_execution s else (s, Ok tt)) with
  | (s, Err e) => (s, Err e)
  | (s, Ok _) =>
      match (if m_debug s then iterative_inference s else vectorized_inference s) with
      | (s, Err e) => (s, Err e)
      | (s, Ok _) => mfold finalize_one (dkeys (m_topo s)) s
      end
  end.

(** lines 601-628 *)
Definition get_final_state (concept_type : string) (names : list string) (s : fcm) : res (dict F) :=
  if Nat.ltb 0 (length names) then
    rfold (fun acc c =>
             if str_mem c names
             then (n <- dget_exn (m_topo s) c ;; Ok (dset acc c (nd_value n)))%res
             else Ok acc) (dkeys (m_exec s)) []
  else
    rfold (fun acc c =>
             (n <- dget_exn (m_topo s) c ;;
              let acc := if String.eqb concept_type "any" then dset acc c (nd_value n) else acc in
              t <- oget (nd_type n) "type of node" ;;
              if String.eqb concept_type "target" then
                Ok (if String.eqb t TYPE_DECISION || String.eqb t TYPE_REGRESOR
                    then dset acc c (nd_value n) else acc)
              else Ok (if String.eqb t concept_type then dset acc c (nd_value n) else acc))%res)
          (dkeys (m_exec s)) [].

(** ** The public API as one operation type (queries leave the map unchanged) *)
Inductive op : Type :=
| OpAddConcept (name : string) (ctype : option string) (is_active use_memory : option bool)
    (excitation : option string) (d : option adict) (fname : option string) (kwargs : args F)
| OpSetConcept (name : string) (ctype : option string) (is_active use_memory : option bool)
    (excitation : option string) (d : option adict) (fname : option string) (kwargs : args F)
| OpSetDefault (ctype : string) (is_active use_memory : option bool) (excitation : string)
    (d : option adict) (fname : option string) (kwargs : args F)
| OpAddRelation (origin destiny : string) (weight : F)
| OpInitConcept (name : string) (value : F) (required : bool)
| OpSetActivation (name : string) (kwargs : args F)
| OpSetDecision (name : string)
| OpReset | OpClearExec | OpClearAll
| OpRun (reset : bool)
| OpAttrStab (b : bool) | OpAttrMaxIter (z : Z) | OpAttrSdiff (x : F) | OpAttrMem (b : bool)
| OpAttrWeight (x : F) | OpAttrDebug (b : bool) | OpAttrFit (x : option F).

Definition step (o : op) (s : fcm) : fcm * res unit :=
  match o with
  | OpAddConcept n t a m e d f k => add_concept n t a m e d f k s
  | OpSetConcept n t a m e d f k => set_concept_properties n t a m e d f k s
  | OpSetDefault t a m e d f k => set_default_concept_properties t a m e d f k s
  | OpAddRelation o d w => add_relation o d w s
  | OpInitConcept n v r => init_concept n v r s
  | OpSetActivation n k => set_map_activation_function n k s
  | OpSetDecision n => set_map_decision_function n s
  | OpReset => reset_execution s
  | OpClearExec => clear_execution s
  | OpClearAll => clear_all s
  | OpRun r => run_inference r s
  | OpAttrStab b => (set_stab b s, Ok tt)
  | OpAttrMaxIter z => (set_maxit z s, Ok tt)
  | OpAttrSdiff x => (set_sdiff x s, Ok tt)
  | OpAttrMem b => (set_mem b s, Ok tt)
  | OpAttrWeight x => (set_weight x s, Ok tt)
  | OpAttrDebug b => (set_debug b s, Ok tt)
  | OpAttrFit x => (set_fit x s, Ok tt)
  end.

(** A sequence of calls; exceptions are caught by the caller, who goes on. *)
Definition run_ops (l : list op) (s : fcm) : fcm := fold_left (fun s o => fst (step o s)) l s.
End Fcm.
Arguments adict : clear implicits.
Arguments node : clear implicits.
Arguments fcm : clear implicits.
Arguments dconcept : clear implicits.
Arguments vcache : clear implicits.
Arguments op : clear implicits.
