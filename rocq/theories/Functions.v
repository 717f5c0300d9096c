(** Functions.v — model of /repo/py_fcm/utils/functions.py and
    /repo/py_fcm/utils/__const.py.  Branch by branch; line numbers refer to
    functions.py unless another file is named. *)
From Verif Require Import Base Num.

(** ** Paired quick sort *)
Section QuickSort.
Context {A B : Type}.
Variable leb : A -> A -> bool.        (* [x <= y] on array elements *)

(** lines 18-19: [while low <= high and array[high] >= pivot: high = high - 1] *)
Fixpoint scan_down (fuel : nat) (arr : list A) (pivot : A) (low high : Z) : res Z :=
  match fuel with
  | O => Err EFuel
  | S f =>
      if (low <=? high)%Z then
        rbind (zget arr high) (fun x =>
        if leb pivot x then scan_down f arr pivot low (high - 1) else Ok high)
      else Ok high
  end.

(** lines 21-22: [while low <= high and array[low] <= pivot: low = low + 1] *)
Fixpoint scan_up (fuel : nat) (arr : list A) (pivot : A) (low high : Z) : res Z :=
  match fuel with
  | O => Err EFuel
  | S f =>
      if (low <=? high)%Z then
        rbind (zget arr low) (fun x =>
        if leb x pivot then scan_up f arr pivot (low + 1) high else Ok low)
      else Ok low
  end.

(** [arr[i], arr[j] = arr[j], arr[i]] (lines 24, 25, 29, 30) *)
Definition swap {X} (arr : list X) (i j : Z) : res (list X) :=
  (x <- zget arr i ;;
   y <- zget arr j ;;
   a1 <- zset arr i y ;;
   zset a1 j x)%res.

Definition loop_fuel (low high : Z) : nat := S (Z.to_nat (high - low + 1)).

(** lines 17-27: the [while True] loop of __partition *)
Fixpoint partition_loop (fuel : nat) (arr : list A) (mir : list B) (pivot : A)
    (low high : Z) : res (list A * list B * Z) :=
  match fuel with
  | O => Err EFuel
  | S f =>
      (high' <- scan_down (loop_fuel low high) arr pivot low high ;;
       low' <- scan_up (loop_fuel low high') arr pivot low high' ;;
       if (low' <=? high')%Z then
         arr' <- swap arr low' high' ;;
         mir' <- swap mir low' high' ;;
         partition_loop f arr' mir' pivot low' high'
       else Ok (arr, mir, high'))%res
  end.

(** lines 11-32: __partition *)
Definition partition (arr : list A) (start end_ : Z) (mir : list B)
  : res (list A * list B * Z) :=
  (pivot <- zget arr start ;;
   '(arr1, mir1, high) <- partition_loop (loop_fuel start end_) arr mir pivot (start + 1) end_ ;;
   arr2 <- swap arr1 start high ;;
   mir2 <- swap mir1 start high ;;
   Ok (arr2, mir2, high))%res.

(** lines 35-41: dual_quick_sort (fuel = recursion depth allowance) *)
Fixpoint qsort (fuel : nat) (arr : list A) (start end_ : Z) (mir : list B)
  : res (list A * list B) :=
  match fuel with
  | O => Err EFuel
  | S f =>
      if (end_ <=? start)%Z then Ok (arr, mir)
      else
        ('(arr1, mir1, p) <- partition arr start end_ mir ;;
         '(arr2, mir2) <- qsort f arr1 start (p - 1) mir1 ;;
         qsort f arr2 (p + 1) end_ mir2)%res
  end.
Definition dual_quick_sort (arr : list A) (start end_ : Z) (mir : list B) : res (list A * list B) :=
  qsort (S (Z.to_nat (end_ - start + 1))) arr start end_ mir.
End QuickSort.

Section Functions.
Context {F : Type} {N : Num F}.
Local Open Scope num_scope.

(** ** Activation functions *)

(** lines 132-134; the denominator is at least 1, so Python's zero test is vacuous *)
Definition sigmoid (val lambda_val : F) : F :=
  n1 / (n1 + nexp (nm1 * lambda_val * val)).

(** lines 137-140.  numba's math.log returns nan rather than raising; on R the
    theorems only use arguments in its domain. [-(a)] is written [-1 * a]. *)
Definition sigmoid_lambda (x y : F) : res F :=
  (q <- pdiv n1 y ;;
   r <- pdiv (nln (q - n1)) x ;;
   Ok (nm1 * r))%res.

(** lines 143-149 *)
Definition sigmoid_hip (val lambda_val : F) : F :=
  if nofZ 500 <? (nm1 * lambda_val * val)
  then (n1 - nexp (nofZ 500)) / (n1 + nexp (nofZ 500))
  else (n1 - nexp (nm1 * lambda_val * val)) / (n1 + nexp (nm1 * lambda_val * val)).

(** lines 152-155 *)
Definition sigmoid_hip_lambda (x y : F) : res F :=
  (q <- pdiv (n1 - y) (n1 + y) ;;
   r <- pdiv (nln q) x ;;
   Ok (nm1 * r))%res.

(** lines 158-165 *)
Definition relm (val lambda_val : F) : res F :=
  if val <? n0 then Ok n0
  else (r <- pdiv val lambda_val ;;
        if n1 <? r then Ok n1 else Ok r)%res.

(** lines 168-175 *)
Definition saturation (val : F) : F :=
  if val <? n0 then n0 else if n1 <? val then n1 else val.

(** lines 178-182 *)
Definition bistate (val : F) : F := if val <=? n0 then n0 else n1.

(** lines 185-191 *)
Definition threestate (val : F) : F :=
  if val <=? (nofZ 1 / nofZ 3) then n0
  else if val <=? (nofZ 2 / nofZ 3) then nlit 1 2
  else n1.

(** lines 194-202 *)
Definition greater_cond_equality (val weight : F) : F :=
  if weight <=? val then
    if n1 <? val then n1
    else if val <? nm1 then nm1
    else val
  else n0.

(** lines 205-213 *)
Definition lower_cond_equality (val weight : F) : F :=
  if val <=? weight then
    if n1 <? val then n1
    else if val <? nm1 then nm1
    else val
  else n0.

(** np.searchsorted(val_list, value) (side = 'left', line 230): number of leading
    elements smaller than [value]; on sorted input this is numpy's answer. *)
Fixpoint searchsorted (val_list : list F) (value : F) : nat :=
  match val_list with
  | [] => 0
  | v :: t => if v <? value then S (searchsorted t value) else 0
  end.

(** Array read inside njit code: bounds are not checked, so reading past the end
    yields an undefined value. *)
Definition nbget (l : list F) (i : nat) : res F :=
  match nth_error l i with Some x => Ok x | None => Err EUndef end.

(** lines 216-287; [membership] and [val_list] are float arrays *)
Definition fuzzy_set (value0 : F) (membership val_list : list F) : res F :=
  (mn <- min_list val_list ;;
   mx <- max_list val_list ;;
   let negative_activation :=
     (n0 <=? mn) && (mn <=? n1) && (n0 <=? mx) && (mx <=? n1) && (value0 <? n0) in
   let value := if negative_activation then nabs value0 else value0 in
   let size := length val_list in
   let index0 := searchsorted val_list value in
   let index := if Nat.eqb index0 size then (index0 - 1)%nat else index0 in
   vi <- nbget val_list index ;;
   let hit := (m <- nbget membership index ;;
               if negative_activation then Ok (nm1 * (n1 - m)) else Ok m)%res in
   if vi =? value then hit
   else
     (* [inl r]: return r;  [inr (prev, next)]: positions to interpolate between *)
     let sel : (res F) + (nat * nat) :=
       if Nat.eqb index 0 then
         if value <? vi then inl hit else inr (0, 1)%nat
       else if Nat.eqb index (size - 1) then
         if vi <? value then inl hit else inr (index - 1, index)%nat
       else
         if n0 <? (value - vi) then inr (index, index + 1)%nat else inr (index - 1, index)%nat in
     match sel with
     | inl r => r
     | inr (prev_pos, next_pos) =>
         sign <- (if value =? n0 then Ok n1 else pdiv value (nabs value)) ;;
         let value := nabs value in
         inf_estimation <- nbget membership prev_pos ;;
         sup_estimation <- nbget membership next_pos ;;
         vn <- nbget val_list next_pos ;;
         vp <- nbget val_list prev_pos ;;
         let diff := vn - vp in
         a <- pdiv (value - vp) diff ;;
         let inf_coef := n1 - a in
         b <- pdiv (vn - value) diff ;;
         let sup_coef := n1 - b in
         let estimation := sign * ((inf_coef * inf_estimation) + (sup_coef * sup_estimation)) in
         if negative_activation then Ok (nm1 * (n1 - estimation))
         else
           let estimation := if n1 <? estimation then n1 else estimation in
           let estimation := if estimation <? nm1 then nm1 else estimation in
           Ok estimation
     end)%res.

(** ** Activation function arguments: a kwargs dictionary of scalars, numpy arrays
    and plain Python lists.  Simplification: string-valued arguments (fcm.py
    127-128) are not modelled. *)
Inductive argval : Type := AScal (x : F) | AVec (l : list F) | ALst (l : list F).
Definition args := dict argval.

(** __const.py 1-18 *)
Definition FUNC_SATURATION := 0%Z.
Definition FUNC_BISTATE := 1%Z.
Definition FUNC_THREESTATE := 2%Z.
Definition FUNC_SIGMOID := 3%Z.
Definition FUNC_SIGMOID_HIP := 4%Z.
Definition FUNC_FUZZY := 5%Z.
Definition FUNC_GCEQ := 6%Z.
Definition FUNC_LCEQ := 7%Z.
Definition FUNC_RELM := 8%Z.

(** lines 44-80: __exec_actv_function; an unknown id returns None, which cannot be
    stored in a float array (TypeError). Default arguments from the def lines. *)
Definition exec_actv_function (function_id : Z) (val : F) (a : list F) : res F :=
  if (function_id =? FUNC_SATURATION)%Z then Ok (saturation val)
  else if (function_id =? FUNC_BISTATE)%Z then Ok (bistate val)
  else if (function_id =? FUNC_THREESTATE)%Z then Ok (threestate val)
  else if (function_id =? FUNC_GCEQ)%Z then
    match a with [] => Ok (greater_cond_equality val nm1) | w :: _ => Ok (greater_cond_equality val w) end
  else if (function_id =? FUNC_LCEQ)%Z then
    match a with [] => Ok (lower_cond_equality val n1) | w :: _ => Ok (lower_cond_equality val w) end
  else if (function_id =? FUNC_SIGMOID)%Z then
    match a with [] => Ok (sigmoid val n1) | w :: _ => Ok (sigmoid val w) end
  else if (function_id =? FUNC_SIGMOID_HIP)%Z then
    match a with [] => Ok (sigmoid_hip val n2) | w :: _ => Ok (sigmoid_hip val w) end
  else if (function_id =? FUNC_RELM)%Z then
    match a with [] => relm val n1 | w :: _ => relm val w end
  else if (function_id =? FUNC_FUZZY)%Z then
    let half := Nat.div (length a) 2 in
    fuzzy_set val (firstn half a) (skipn half a)
  else Err EType.

(** lines 353-383: Activation.get_const_by_name *)
Definition get_const_by_name (func_name : string) : option Z :=
  if String.eqb func_name "biestate" then Some FUNC_BISTATE
  else if String.eqb func_name "threestate" then Some FUNC_THREESTATE
  else if String.eqb func_name "saturation" then Some FUNC_SATURATION
  else if String.eqb func_name "tan_hip" then Some FUNC_SIGMOID_HIP
  else if String.eqb func_name "sigmoid" then Some FUNC_SIGMOID
  else if String.eqb func_name "sigmoid_hip" then Some FUNC_SIGMOID_HIP
  else if String.eqb func_name "relm" then Some FUNC_RELM
  else if String.eqb func_name "fuzzy" then Some FUNC_FUZZY
  else if String.eqb func_name "gceq" then Some FUNC_GCEQ
  else if String.eqb func_name "lceq" then Some FUNC_LCEQ
  else None.

(** The Python callables that get_function_by_name can return. *)
Inductive actv : Type :=
| ABistate | AThreestate | ASaturation | ASigmoidHip | ASigmoid | AFuzzy | AGceq | ALceq | ARelm.

(** lines 321-351: Activation.get_function_by_name *)
Definition get_function_by_name (func_name : string) : option actv :=
  if String.eqb func_name "biestate" then Some ABistate
  else if String.eqb func_name "threestate" then Some AThreestate
  else if String.eqb func_name "saturation" then Some ASaturation
  else if String.eqb func_name "tan_hip" then Some ASigmoidHip
  else if String.eqb func_name "sigmoid" then Some ASigmoid
  else if String.eqb func_name "sigmoid_hip" then Some ASigmoidHip
  else if String.eqb func_name "fuzzy" then Some AFuzzy
  else if String.eqb func_name "gceq" then Some AGceq
  else if String.eqb func_name "lceq" then Some ALceq
  else if String.eqb func_name "relm" then Some ARelm
  else None.

(** Python call [f(val, **kwargs)] (fcm.py 525): an unexpected keyword, an array
    where a scalar is needed (or conversely) or a plain list where an array is
    needed is a (numba) type error; fuzzy without its arrays reads the
    uninitialised np.empty(1) defaults (undefined). *)
Definition kw_only (allowed : list string) (a : args) : res unit :=
  if forallb (fun k => str_mem k allowed) (dkeys a) then Ok tt else Err EType.
Definition kw_scal (a : args) (k : string) (dflt : F) : res F :=
  match dget a k with
  | None => Ok dflt
  | Some (AScal x) => Ok x
  | Some (AVec _) | Some (ALst _) => Err EType
  end.
Definition kw_vec (a : args) (k : string) : res (list F) :=
  match dget a k with
  | None => Err EUndef
  | Some (AVec l) => Ok l
  | Some (AScal _) | Some (ALst _) => Err EType
  end.
Definition call_actv (f : actv) (val : F) (a : args) : res F :=
  match f with
  | ABistate => (_ <- kw_only [] a ;; Ok (bistate val))%res
  | AThreestate => (_ <- kw_only [] a ;; Ok (threestate val))%res
  | ASaturation => (_ <- kw_only [] a ;; Ok (saturation val))%res
  | ASigmoidHip => (_ <- kw_only ["lambda_val"] a ;; l <- kw_scal a "lambda_val" n2 ;; Ok (sigmoid_hip val l))%res
  | ASigmoid => (_ <- kw_only ["lambda_val"] a ;; l <- kw_scal a "lambda_val" n1 ;; Ok (sigmoid val l))%res
  | ARelm => (_ <- kw_only ["lambda_val"] a ;; l <- kw_scal a "lambda_val" n1 ;; relm val l)%res
  | AGceq => (_ <- kw_only ["weight"] a ;; w <- kw_scal a "weight" nm1 ;; Ok (greater_cond_equality val w))%res
  | ALceq => (_ <- kw_only ["weight"] a ;; w <- kw_scal a "weight" n1 ;; Ok (lower_cond_equality val w))%res
  | AFuzzy => (_ <- kw_only ["membership"; "val_list"] a ;;
               m <- kw_vec a "membership" ;; v <- kw_vec a "val_list" ;; fuzzy_set val m v)%res
  end.

(** ** Excitation (lines 406-464); [aux] = NODE_AUX, [v] = NODE_VALUE *)
Definition kosko (aux : list F) (v : F) (use_memory : bool) : F :=
  let r := nsum aux in if use_memory then r + v else r.
Definition papageorgius (aux : list F) (v : F) (use_memory : bool) : F :=
  let r := nsum aux in if use_memory then r + ((n2 * v) - n1) else r.
Inductive excit : Type := EKosko | EPapageorgius.
(** lines 437-451 *)
Definition get_excitation_by_name (func_name : string) : option excit :=
  if String.eqb func_name "KOSKO" then Some EKosko
  else if String.eqb func_name "PAPAGEORGIUS" then Some EPapageorgius
  else None.
Definition exec_excit (e : excit) (aux : list F) (v : F) (use_memory : bool) : F :=
  match e with
  | EKosko => kosko aux v use_memory
  | EPapageorgius => papageorgius aux v use_memory
  end.

(** ** Decision (lines 467-523) *)
(** lines 468-473 *)
Definition decision_last (val_list : list F) (last_pos : Z) : res F :=
  if (0 <? last_pos)%Z then zget val_list last_pos
  else match rev val_list with [] => Err EIndex | x :: _ => Ok x end.
(** lines 475-483; [range(last_pos + 1)] reads positions 0..last_pos *)
Definition decision_mean (val_list : list F) (last_pos : Z) : res F :=
  let last_pos := if (last_pos <=? 0)%Z then (Z.of_nat (length val_list) - 1)%Z else last_pos in
  (xs <- rmap (fun i => lget val_list i) (seq 0 (Z.to_nat (last_pos + 1))) ;;
   pdiv (nsum xs) (nofZ (last_pos + 1)))%res.
(** lines 485-492; [val_list[:last_pos]] *)
Definition decision_exited (val_list : list F) (last_pos : Z) : res F :=
  if (0 <=? last_pos)%Z then max_list (firstn (Z.to_nat last_pos) val_list)
  else max_list val_list.
Inductive decis : Type := DLast | DMean | DExited.
(** lines 494-510 *)
Definition get_decision_by_name (func_name : string) : option decis :=
  if String.eqb func_name "LAST" then Some DLast
  else if String.eqb func_name "MEAN" then Some DMean
  else if String.eqb func_name "EXITED" then Some DExited
  else None.
Definition exec_decision (d : decis) (val_list : list F) (last_pos : Z) : res F :=
  match d with
  | DLast => decision_last val_list last_pos
  | DMean => decision_mean val_list last_pos
  | DExited => decision_exited val_list last_pos
  end.

(** ** Fuzzy.fuzzyfication (lines 543-603) *)
(** loop body lines 568-580: state = (prev_value, next_value, prev_pos, next_pos);
    [inl r] = early return *)
Fixpoint fuzzyfication_scan (value : F) (membership val_list : list F) (pos : nat)
    (pv nv : F) (pp np : nat) : res F + (F * F * nat * nat) :=
  match val_list with
  | [] => inr (pv, nv, pp, np)
  | v :: t =>
      if value =? v then inl (lget membership pos)
      else
        let diff := value - v in
        if n0 <? diff then
          if diff <? pv then fuzzyfication_scan value membership t (S pos) diff nv pos np
          else fuzzyfication_scan value membership t (S pos) pv nv pp np
        else
          if nv <? diff then fuzzyfication_scan value membership t (S pos) pv diff pp pos
          else fuzzyfication_scan value membership t (S pos) pv nv pp np
  end.
Definition fuzzyfication (value0 min_scale norm_val : F) (membership val_list : list F) : res F :=
  (value <- pdiv (value0 + min_scale) norm_val ;;
   match fuzzyfication_scan value membership val_list 0 n1 nm1 0 0 with
   | inl r => r
   | inr (prev_value, next_value, prev_pos, next_pos) =>
       if prev_value =? n1 then min_list membership
       else if next_value =? nm1 then max_list membership
       else
         inf_estimation <- lget membership prev_pos ;;
         sup_estimation <- lget membership next_pos ;;
         vn <- lget val_list next_pos ;;
         vp <- lget val_list prev_pos ;;
         let diff := vn - vp in
         if diff =? n0 then Ok sup_estimation
         else
           a <- pdiv (value - vp) diff ;;
           b <- pdiv (vn - value) diff ;;
           let estimation := ((n1 - a) * inf_estimation) + ((n1 - b) * sup_estimation) in
           let estimation := if n1 <? estimation then n1 else estimation in
           let estimation := if estimation <? nm1 then nm1 else estimation in
           Ok estimation
   end)%res.

(** ** Relation measures (lines 606-685) *)
Definition rel_supp (p_q p_nq np_q np_nq : F) : res F :=
  pdiv p_q (p_q + p_nq + np_q + np_nq).
Definition rel_conf (p_q p_nq np_q np_nq : F) : res F :=
  if (p_q + p_nq) =? n0 then Ok n0 else pdiv p_q (p_q + p_nq).
Definition rel_lift (p_q p_nq np_q np_nq : F) : res F :=
  (a <- pdiv p_q (p_q + p_nq) ;;
   b <- pdiv (p_q + np_q) (p_q + p_nq + np_q + np_nq) ;;
   pdiv a b)%res.
Definition rel_rodr (p_q p_nq np_q np_nq : F) : res F :=
  if (p_nq + np_q) =? n0 then Ok (p_q + np_nq)
  else pdiv (p_q + np_nq) (p_nq + np_q).
Definition rel_odr (p_q p_nq np_q np_nq : F) : res F :=
  if (p_nq * np_q) =? n0 then Ok (p_q * np_nq)
  else pdiv (p_q * np_nq) (p_nq * np_q).
Definition rel_pos_inf (p_q p_nq np_q np_nq : F) : res F :=
  (pos_inf <- (if (p_nq + np_q) =? n0 then pdiv p_q (p_q + p_nq)
               else (a <- pdiv p_q (p_nq + np_q) ;; pdiv a (p_q + p_nq))) ;;
   neg_inf <- (if (p_q + np_nq) =? n0 then pdiv p_nq (p_q + p_nq)
               else (a <- pdiv p_nq (p_q + np_nq) ;; pdiv a (p_q + p_nq))) ;;
   if neg_inf <? pos_inf then Ok pos_inf
   else if pos_inf <? neg_inf then Ok (nm1 * neg_inf)
   else Ok n0)%res.
Definition rel_bayes (p_q p_nq np_q np_nq : F) : res F :=
  let total := p_q + p_nq + np_q + np_nq in
  (prob_p <- pdiv (p_q + p_nq) total ;;
   prob_q <- pdiv (p_q + np_q) total ;;
   if np_q <? p_q then
     d <- pdiv (p_q - np_q) total ;;
     pdiv (d * prob_q) prob_p
   else Ok n0)%res.
Definition rel_simple (p_q p_nq np_q np_nq : F) : res F :=
  let total := p_q + p_nq + np_q + np_nq in
  if p_q =? p_nq then Ok n0
  else if negb ((p_q - p_nq) =? n0) then pdiv ((p_q - p_nq) + (np_nq + np_q)) total
  else pdiv ((p_q - p_nq) - (np_nq + np_q)) total.

(** ** vectorized_run (lines 83-127) *)
(** [output] is one contiguous row-major block of [n * m] cells (line 88).  numba
    does not check bounds: [output[i][k]] addresses cell [i*m + k].  A write with
    [k >= m] sets [oob]; if it still falls inside the block it hits another row,
    otherwise it hits foreign memory (not modelled further). *)
Definition buf_write (m : nat) (buf : list F) (oob : bool) (i k : nat) (v : F) : list F * bool :=
  (upd buf (i * m + k)%nat v, oob || negb (Nat.ltb k m)).
Definition buf_read (m : nat) (buf : list F) (i k : nat) : F := nth (i * m + k)%nat buf n0.

(** line 104: np.dot(state_vector, relation_matrix); rows are origins.  The
    summation order of BLAS is unspecified; the model sums in index order. *)
Definition vec_dot (state : list F) (mat : list (list F)) (j : nat) : F :=
  nsum (map (fun p => fst p * nth j (snd p) n0) (combine state mat)).

(** lines 105-114 for one position; arrays are indexed by position *)
Definition vec_node (functions : list Z) (func_args : list (list F)) (reduce : list F)
    (memory_usage avoid_saturation : list bool) (state : list F) (mat : list (list F))
    (i : nat) : res (F * F) :=
  let s := nth i state n0 in
  let x := vec_dot state mat i in
  let x := if nth i memory_usage false then x + s else x in
  let r := nth i reduce n0 in
  let x := if n0 <? r then x / r else x in
  (y <- exec_actv_function (nth i functions (-1)%Z) x (nth i func_args []) ;;
   Ok (y, if nth i avoid_saturation false then n2 * y - n1 else y))%res.

(** lines 100-126: the while loop. [step] = current_step, counters as in the code. *)
Fixpoint vec_loop (fuel : nat) (functions : list Z) (func_args : list (list F)) (reduce : list F)
    (memory_usage avoid_saturation : list bool) (mat : list (list F)) (n m : nat)
    (min_diff : F) (extra_steps : Z)
    (state : list F) (buf : list F) (oob : bool) (it_counter extra_counter : Z) (step : nat)
  : res (list F * bool * nat) :=
  match fuel with
  | O => Err EFuel
  | S f =>
      let it_counter := (it_counter - 1)%Z in
      let keep := negb (it_counter <=? 0)%Z in
      (ys <- rmap (vec_node functions func_args reduce memory_usage avoid_saturation state mat) (seq 0 n) ;;
       let '(buf, oob) :=
         fold_left (fun (bo : list F * bool) iy => buf_write m (fst bo) (snd bo) (fst iy) step (fst (snd iy)))
                   (combine (seq 0 n) ys) (buf, oob) in
       let state := map snd ys in
       let step := S step in
       let difference :=
         nabs (nsum (map (fun i => buf_read m buf i (step - 1)%nat) (seq 0 n)) -
               nsum (map (fun i => buf_read m buf i (step - 2)%nat) (seq 0 n))) in
       let small := difference <? min_diff in
       let extra_counter := if small then (extra_counter - 1)%Z else extra_steps in
       let keep := if small && (extra_counter =? 0)%Z then false else keep in
       if keep
       then vec_loop f functions func_args reduce memory_usage avoid_saturation mat n m
              min_diff extra_steps state buf oob it_counter extra_counter step
       else Ok (buf, oob, step))%res
  end.

(** Result: the flat buffer, whether any access left its row, and the number of
    columns written (= current_step on exit). *)
Definition vectorized_run (state : list F) (mat : list (list F)) (functions : list Z)
    (func_args : list (list F)) (reduce : list F) (memory_usage avoid_saturation : list bool)
    (max_iterations : Z) (min_diff : F) (extra_steps : Z) : res (list F * bool * nat) :=
  let n := length state in
  if (max_iterations <? 0)%Z then Err EValue   (* np.full with a negative dimension *)
  else
    let m := Z.to_nat max_iterations in
    let buf := repeat n2 (n * m)%nat in
    let '(buf, oob) :=
      fold_left (fun (bo : list F * bool) is_ => buf_write m (fst bo) (snd bo) (fst is_) 0 (snd is_))
                (combine (seq 0 n) state) (buf, false) in
    let state := map (fun sa => if (snd sa : bool) then (n2 * fst sa) - n1 else fst sa)
                     (combine state avoid_saturation) in
    vec_loop (S m) functions func_args reduce memory_usage avoid_saturation mat n m
      min_diff extra_steps state buf oob max_iterations extra_steps 1.
End Functions.
Arguments argval : clear implicits.
Arguments args : clear implicits.

(** ** Node types, __const.py 44-61 *)
Definition TYPE_SIMPLE := "default node type".
Definition TYPE_DECISION := "node type for classification problems".
Definition TYPE_FUZZY := "node type for fuzzy treatment of continuous values".
Definition TYPE_REGRESOR := "node type for regression problems".
Definition TYPE_MUTI := "node type for multivalues fields".
Definition TYPE_MUTI_DESC := "node type for multivalues fields in decision nodes".
Definition is_valid_type (node_type : string) : bool :=
  str_mem node_type [TYPE_SIMPLE; TYPE_DECISION; TYPE_FUZZY; TYPE_REGRESOR; TYPE_MUTI; TYPE_MUTI_DESC].
