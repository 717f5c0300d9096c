(** Estimator.v — model of /repo/py_fcm/fcm_estimator.py (class FcmEstimator); line
    numbers refer to it.

    Simplifications: inputs are data frames with the default row index (the
    conversion of lists and arrays, lines 42-68, is in EstInput.v); within a frame column
    names differ; joining renames a column of [y] only if [x] has that name.  The
    generator shares the estimator's map from the first fit on; before, it has a
    map of its own. *)
From Verif Require Import Base Num Functions Fcm LearnUtils Assoc.

Section Estimator.
Context {F : Type} {N : Num F}.

(** [e_map] is self.__fcm; [e_priv] the generator's own map, None once it shares
    the estimator's; the generator's other attributes follow. *)
Record est : Type := mkEst {
  e_map : fcm F;
  e_priv : option (fcm F);
  e_feats : dict (feat F);
  e_proc : list string;
  e_generated : bool
}.
(** the generator as seen from inside *)
Definition e_gen (e : est) : gen F :=
  mkGen (e_feats e) (e_proc e) (match e_priv e with Some s => s | None => e_map e end).
(** the estimator after the generator changed, sharing the map *)
Definition e_shared (e : est) (g : gen F) : est :=
  mkEst (g_fcm g) None (g_feats g) (g_proc g) (e_generated e).

(** lines 12-40.  The generator's first map is FuzzyCognitiveMap() with all
    defaults. *)
Definition init_est (max_it extra_steps : Z) (stability_diff : F) (decision : string) (mem : bool)
    (excitation activation : string) (kwargs : args F) (vectorized : bool) : res est :=
  (s <- init_fcm max_it extra_steps true stability_diff decision mem activation kwargs ;;
   s <- (let '(s, r) := set_default_concept_properties TYPE_SIMPLE (Some true) None excitation None None [] s in
         match r with Ok _ => Ok s | Err e => Err e end) ;;
   p <- init_fcm 200 5 true (nlit 1 1000) "MEAN" true "sigmoid_hip" [] ;;
   Ok (mkEst (set_debug (negb vectorized) s) (Some p) [] [] false))%res.

(** lines 74-76: x.join(y, rsuffix='_class') *)
Definition join_frames (x y : dataset F) : dataset F :=
  x ++ map (fun c => (if str_mem (fst c) (dkeys x) then append (fst c) "_class" else fst c, snd c)) y.

(** lines 70-80 *)
Definition fit (cf : gconf F) (x y : dataset F) (e : est) : est * res unit :=
  let targets := dkeys y in
  let ds := join_frames x y in
  let '(g, r) := reset (e_gen e) in
  let e := match e_priv e with
           | Some _ => mkEst (e_map e) (Some (g_fcm g)) (g_feats g) (g_proc g) (e_generated e)
           | None => e_shared e g
           end in
  match r with
  | Err x => (e, Err x)
  | Ok _ =>
      let '(g, r) := build_fcm cf ds targets (e_map e) (e_gen e) in
      let e := e_shared e g in
      match r with
      | Err x => (e, Err x)
      | Ok _ => (mkEst (e_map e) (e_priv e) (e_feats e) (e_proc e) true, Ok tt)
      end
  end.

(** DataFrame.iterrows: every row as a Series.  All-numeric frames (no booleans)
    with a float column turn integers into floats; other mixtures keep every
    value as it is. *)
Definition row : Type := list (string * cell F).
Definition col_cells (c : column F) : list (cell F) :=
  match c with
  | ColStr l => map CStr l | ColBool l => map CBool l | ColInt l => map CInt l | ColFlt l => map CFlt l
  end.
Definition is_numeric_col (c : column F) : bool := match c with ColInt _ | ColFlt _ => true | _ => false end.
Definition is_float_col (c : column F) : bool := match c with ColFlt _ => true | _ => false end.
Definition upcast (to_float : bool) (v : cell F) : cell F :=
  match v with CInt z => if to_float then CFlt (nofZ z) else v | _ => v end.
Definition frame_rows (x : dataset F) : nat := match x with [] => 0 | (_, c) :: _ => col_length c end.
Definition iterrows (x : dataset F) : list row :=
  let to_float := forallb (fun c => is_numeric_col (snd c)) x && existsb (fun c => is_float_col (snd c)) x in
  map (fun i => flat_map (fun c => match nth_error (col_cells (snd c)) i with
                                   | Some v => [(fst c, upcast to_float v)]
                                   | None => []
                                   end) x)
      (seq 0 (frame_rows x)).

(** lines 89-96: one row *)
Definition predict_row (cf : gconf F) (r : row) (g : gen F) : gen F * res (dict (cell F)) :=
  match sthen (on_fcm clear_execution)
              (sfold (fun fv => init_concept_by_feature_data cf (fst fv) (snd fv)) r) g with
  | (g, Err e) => (g, Err e)
  | (g, Ok _) => get_inference_result cf g
  end.
Definition append_all (result : dict (list (cell F))) (p : dict (cell F)) : dict (list (cell F)) :=
  fold_left (fun acc fv => dappend acc (fst fv) (snd fv)) p result.
Fixpoint predict_rows (cf : gconf F) (rows : list row) (result : dict (list (cell F))) (g : gen F)
  : gen F * res (dict (list (cell F))) :=
  match rows with
  | [] => (g, Ok result)
  | r :: rest =>
      match predict_row cf r g with
      | (g, Err e) => (g, Err e)
      | (g, Ok p) => predict_rows cf rest (append_all result p) g
      end
  end.
(** lines 82-99 *)
Definition predict (cf : gconf F) (x : dataset F) (e : est) : est * res (dict (list (cell F))) :=
  if e_generated e then
    let '(g, r) := predict_rows cf (iterrows x) [] (e_gen e) in (e_shared e g, r)
  else (e, Err (EExc "There is no FCM generated, the fit method mus be called first")).

(** val == prediction: numbers (and booleans) compare by value, text with text *)
Definition cell_eq (a b : cell F) : bool :=
  match a, b with
  | CStr s, CStr t => String.eqb s t
  | CStr _, _ | _, CStr _ => false
  | _, _ => match cell_num a, cell_num b with Ok x, Ok y => neqb x y | _, _ => false end
  end.
(** lines 101-117 *)
Definition score_column (predicted : dict (list (cell F))) (acc : nat * nat) (c : string * column F)
  : res (nat * nat) :=
  rfold (fun acc iv =>
           (col <- dget_exn predicted (fst c) ;;
            p <- (match nth_error col (fst iv) with Some p => Ok p | None => Err (EKey (fst c)) end) ;;
            Ok (if cell_eq (snd iv) p then S (fst acc) else fst acc, S (snd acc)))%res)
        (combine (seq 0 (col_length (snd c))) (col_cells (snd c))) acc.
Definition score (cf : gconf F) (x y : dataset F) (e : est) : est * res F :=
  if e_generated e then
    let '(e, r) := predict cf x e in
    (e, (predicted <- r ;;
         '(right_, total) <- rfold (score_column predicted) y (0, 0) ;;
         pdiv (nat2F right_) (nat2F total))%res)
  else (e, Err (EExc "There is no FCM generated, the fit method mus be called first")).
End Estimator.
Arguments est : clear implicits.
