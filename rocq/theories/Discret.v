(** Discret.v — model of /repo/py_fcm/learning/discretization/clusters_estimation.py
    (CE) and discretization/__init__.py (DI).  Data is one column (LearnUtils.v).
    Outside the model: the curve np.polyfit/poly1d/linspace produce ([fit], any
    list of the data's length) and np.random.rand ([rand c], one matrix for every
    number of clusters tried); plotting; warnings. *)
From Verif Require Import Base Num Functions LearnUtils Cmeans RlCmeans.

Section Discret.
Context {F : Type} {N : Num F}.

(** ** CE lines 10-53: change points.  The two parallel lists are kept as one list
    of pairs (position, value), most recent first. *)
Record cp_state : Type := mkCP { cp_pts : list (nat * F); cp_grow : bool; cp_mean : F }.
(** the test of lines 40 and 46: fewer than n/max_clusters positions apart *)
Definition too_close (n : nat) (min_interval : F) (from to : nat) : bool :=
  nltb (nsub (nat2F to) (nat2F from)) (nmul (nat2F n) min_interval).
(** lines 30-33 and 35-38: a change point where the jump first exceeds, then first
    falls below the running mean *)
Definition cp_rise (value : nat) (a jump : F) (st : cp_state) : cp_state :=
  if nltb (nabs (cp_mean st)) jump && negb (cp_grow st)
  then mkCP ((value, a) :: cp_pts st) true (cp_mean st) else st.
Definition cp_fall (value : nat) (a jump : F) (st : cp_state) : cp_state :=
  if nltb jump (nabs (cp_mean st)) && cp_grow st
  then mkCP ((value, a) :: cp_pts st) false (cp_mean st) else st.
(** lines 40-42: the last point is dropped when the one before is too close *)
Definition cp_prune (n : nat) (min_interval : F) (value : nat) (pts : list (nat * F)) : list (nat * F) :=
  match pts with
  | p :: q :: t => if too_close n min_interval (fst q) value then q :: t else p :: q :: t
  | l => l
  end.
Definition cp_step (values : list F) (n : nat) (min_interval : F) (st : cp_state) (value : nat)
  : res cp_state :=
  (a <- nbget values value ;;
   b <- nbget values (value + 1) ;;
   let jump := nabs (nsub a b) in
   let st := cp_fall value a jump (cp_rise value a jump st) in
   Ok (mkCP (cp_prune n min_interval value (cp_pts st)) (cp_grow st)
            (ndiv (nadd jump (cp_mean st)) n2)))%res.
(** lines 46-53 *)
Definition cp_finish (values : list F) (n : nat) (min_interval : F) (pts : list (nat * F))
  : res (list (nat * F)) :=
  match pts with
  | p :: q :: t =>
      (last <- nbget values (n - 1) ;;
       Ok (if too_close n min_interval (fst p) (n - 1)
           then (n - 1, last) :: q :: t
           else (n - 1, last) :: p :: q :: t))%res
  | l => Ok l
  end.
Definition estimate_change_points (values : list F) (max_clusters : nat) : res (list nat * list F) :=
  let n := length values in
  (min_interval <- pdiv n1 (nat2F max_clusters) ;;
   st <- rfold (cp_step values n min_interval) (seq 0 (n - 1)) (mkCP [] false n0) ;;
   pts <- cp_finish values n min_interval (cp_pts st) ;;
   Ok (map fst (rev pts), map snd (rev pts)))%res.

(** CE lines 56-62 *)
Definition gap_concentration (fit data : list F) (max_clusters : nat) : res (list F * (list nat * list F)) :=
  (cp <- estimate_change_points fit max_clusters ;; Ok (fit, cp))%res.

(** The clustering call made by the estimators: CE lines 143-145 fix m = 2.5 and
    error = 0.0001; discretization/__init__.py lines 79-82 give maxiter. *)
Definition est_cmeans (data : list F) (n_clusters : nat) (maxiter : Z) (init : option (list (list F)))
    (rand : nat -> list (list F)) : res (list (list F) * list F) :=
  fuzzy_cmeans data n_clusters (nlit 5 2) (nlit 1 10000) maxiter init (rand n_clusters).

(** ** CE lines 65-108: fuzzy silhouette.  sklearn's distance matrix (its first
    chunk, taken to be all of it) holds |x_i - x_j|.  Numpy divisions. *)
Record top2 : Type := mkTop { t_max : F; t_mpos : nat; t_sec : F; t_spos : nat }.
Definition top2_step (t : top2) (jx : nat * F) : top2 :=
  let '(j, x) := jx in
  if nltb (t_max t) x then mkTop x j (t_max t) (t_mpos t)
  else if nltb (t_sec t) x && negb (neqb x (t_max t)) then mkTop (t_max t) (t_mpos t) x j
  else t.
Definition top2_of (memb : list F) : res top2 :=
  (x0 <- lget memb 0 ;;
   x1 <- lget memb 1 ;;
   let t := if nltb x1 x0 then mkTop x0 0 x1 1 else mkTop x1 1 x0 0 in
   Ok (fold_left top2_step (combine (seq 2 (length memb - 2)) (skipn 2 memb)) t))%res.
(** (b - a) / max(b, a), with Python's max: the first unless the second is larger *)
Definition sil_point (data : list F) (desc : list (list F)) (i : nat) : res (F * F) :=
  (t <- top2_of (mcol desc i) ;;
   x <- lget data i ;;
   rm <- lget desc (t_mpos t) ;;
   rs <- lget desc (t_spos t) ;;
   let dist := map (fun y => nabs (nsub x y)) data in
   let den := nat2F (length data - 1) in
   let a := ndiv (nsum (zip_with nmul dist rm)) den in
   let b := ndiv (nsum (zip_with nmul dist rs)) den in
   let mx := if nltb b a then a else b in
   let w := nsub (t_max t) (t_sec t) in
   Ok (nmul w w, ndiv (nsub b a) mx))%res.
(** the cluster count and description kept while trying 2, 3, ..., max_clusters *)
Definition best_of (score : nat -> res (list (list F) * F)) (max_clusters : nat)
  : res (nat * list (list F) * F) :=
  rfold (fun acc n_clusters =>
    ('(desc, v) <- score n_clusters ;;
     let '(_, _, best) := acc in
     Ok (if nltb best v then (n_clusters, desc, v) else acc))%res)
    (seq 2 (max_clusters - 1)) (0, [], n0).
Definition sil_score (data : list F) (maxiter : Z) (rand : nat -> list (list F)) (n_clusters : nat)
  : res (list (list F) * F) :=
  ('(desc, _) <- est_cmeans data n_clusters maxiter None rand ;;
   ws <- rmap (sil_point data desc) (seq 0 (length data)) ;;
   Ok (desc, ndiv (nsum (map (fun p => nmul (fst p) (snd p)) ws)) (nsum (map fst ws))))%res.
(** Simplification: when no cluster count scores above 0 the code returns the data
    itself as description; the caller ignores it (clusters = 0), here it is []. *)
Definition fuzzy_silhouette (data : list F) (max_clusters : nat) (maxiter : Z)
    (rand : nat -> list (list F)) : res (nat * list (list F) * F) :=
  best_of (sil_score data maxiter rand) max_clusters.

(** ** CE lines 111-155: combined fuzzy entropy.  Numpy divisions; np.log2 raises
    nothing. *)
Definition cross_entropy (ui uj : list F) : F :=
  nsum (zip_with (fun a b =>
    nadd (nmul a (log2 (ndiv a (nadd (ndiv a n2) (ndiv b n2)))))
         (nmul (nsub n1 a) (log2 (ndiv (nsub n1 a) (nsub n1 (ndiv (nadd a b) n2)))))) ui uj).
Definition cfe_score (data : list F) (maxiter : Z) (rand : nat -> list (list F)) (n_clusters : nat)
  : res (list (list F) * F) :=
  ('(desc, centroids) <- est_cmeans data n_clusters maxiter None rand ;;
   let n := nat2F (length data) in
   let center := ndiv (nsum data) n in
   let rows := combine desc centroids in
   let h_u (r : list F) :=
     ndiv (nopp (nsum (map (fun x => nadd (nmul x (log2 x)) (nmul (nsub n1 x) (log2 (nsub n1 x)))) r)))
          (nmul n (log2 n2)) in
   let sum_hui := nsum (map h_u desc) in
   let sq (x : F) := nmul x x in
   let wsgd := nsum (map (fun rc => nsum (map (fun x => nmul x (sq (norm (map (fun d => nsub d (snd rc)) data)))) (fst rc))) rows) in
   let bgds := nsum (map (fun rc => nmul (nsum (fst rc)) (sq (nabs (nsub (snd rc) center)))) rows) in
   let idx := combine (seq 0 n_clusters) desc in
   let sfce := nsum (concat (map (fun ir => map (fun js => nadd (cross_entropy (snd ir) (snd js))
                                                                (cross_entropy (snd js) (snd ir)))
                                             (filter (fun js => negb (Nat.eqb (fst ir) (fst js))) idx)) idx)) in
   let k := nat2F n_clusters in
   let sfce := nmul (ndiv n2 (nmul k (nsub k n1))) sfce in
   let fe := ndiv sum_hui k in
   let ch := nmul (ndiv bgds (nsub k n1)) (ndiv (nsub n k) wsgd) in
   let mc := ndiv sfce fe in
   Ok (desc, ndiv (nadd mc ch) n2))%res.
Definition cfe (data : list F) (max_clusters : nat) (maxiter : Z) (rand : nat -> list (list F))
  : res (nat * list (list F) * F) :=
  best_of (cfe_score data maxiter rand) max_clusters.

(** ** CE lines 158-195.  Only the three known methods (the only ones passed in
    /repo), always with the default clustering function and no init.  Not modelled
    (EUndef): max_clusters >= data.size, where a float becomes the cluster limit;
    the caller never gets there (7 clusters, at least ten values). *)
Inductive method : Type := MGap | MSil | MCfe.
Definition estimate_clusters (data : list F) (max_clusters : nat) (mth : method) (maxiter : Z)
    (fit : list F) (rand : nat -> list (list F)) : res (nat * list (list F)) :=
  if Nat.leb (length data) max_clusters then Err EUndef
  else
    match mth with
    | MGap =>
        ('(_, (xs, ys)) <- gap_concentration fit data max_clusters ;;
         let init_cntrs := if Nat.ltb 2 (length ys) then removelast ys else ys in
         let init_state := one_dimension_distance data init_cntrs in
         let clusters := length ys - 1 in
         if Nat.ltb 1 clusters then
           '(desc, _) <- est_cmeans data clusters maxiter (Some init_state) rand ;;
           Ok (clusters, desc)
         else Ok (1, [repeat n1 (length data)]))%res
    | MSil => ('(clusters, desc, _) <- fuzzy_silhouette data max_clusters maxiter rand ;; Ok (clusters, desc))%res
    | MCfe => ('(clusters, desc, _) <- cfe data max_clusters maxiter rand ;; Ok (clusters, desc))%res
    end.

(** ** DI lines 10-47: the fallback.  [mid] is recomputed after the list was made
    odd; lines 19-21 (shifting new_list) have no effect on the result.  The cells
    are written in the order of the code: the loop over pos (both ends), then
    start, mid, end.  [desc] is the list of rows (one per value) before the final
    transposition. *)
Definition middle_value (a b : F) : F := nadd a (ndiv (nabs (nsub a b)) n2).
Definition make_odd (val_list : list F) : res (list F) :=
  if Nat.even (length val_list) then
    match length val_list with
    | O => Err EIndex
    | _ =>
        let mid := (Nat.div2 (length val_list) - 1)%nat in
        (a <- lget val_list mid ;;
         b <- lget val_list (mid + 1) ;;
         Ok (firstn (mid + 1) val_list ++ [middle_value a b] ++ skipn (mid + 1) val_list))%res
    end
  else Ok val_list.
Definition fill_pos (mid : nat) (max : Z) (m : list (F * F * F)) (pos : nat) : res (list (F * F * F)) :=
  let y := ndiv (nat2F pos) (nat2F mid) in
  let x := nsub n1 y in
  (m <- zset m (Z.of_nat pos) (x, y, n0) ;;
   (* column 0 of row max - pos is cleared first; at the middle that is row pos *)
   '(_, oy, oz) <- zget m (max - Z.of_nat pos) ;;
   m <- zset m (max - Z.of_nat pos) (n0, oy, oz) ;;
   '(x, y, _) <- zget m (Z.of_nat pos) ;;
   zset m (max - Z.of_nat pos) (n0, y, x))%res.
Definition create_three_clusters (val_list : list F) : res (list F * list (list F)) :=
  (vals <- make_odd val_list ;;
   let l := length vals in
   let mid := (Nat.div2 l + 1)%nat in
   let max := (Z.of_nat l - 1)%Z in
   m <- rfold (fill_pos mid max) (seq 0 mid) (repeat (n0, n0, n0) l) ;;
   m <- zset m 0 (n1, n0, n0) ;;
   m <- zset m (Z.of_nat mid) (n0, n1, n0) ;;
   m <- zset m max (n0, n0, n1) ;;
   Ok (vals, [map (fun c => fst (fst c)) m; map (fun c => snd (fst c)) m; map snd m]))%res.

(** ** DI lines 50-118 *)
Definition dist_strategy (strategy : string) : option (option method) :=
  if String.eqb strategy "cmeans-gap" then Some (Some MGap)
  else if String.eqb strategy "cmeans-sil" then Some (Some MSil)
  else if String.eqb strategy "cmeans-cfe" then Some (Some MCfe)
  else if String.eqb strategy "rl-cmeans" then Some None
  else None.
(** The text of the "too few" exception is abbreviated (the count is left out). *)
Definition fuzzy_feature_discretization (val_list : list F) (max_clusters : nat) (max_iter : Z)
    (strategy att_name : string) (fit : list F) (rand : nat -> list (list F))
  : res (nat * list F * list (list F)) :=
  let val_list := unique nleb neqb val_list in
  if Nat.ltb (length val_list) 10
  then Err (EExc (append "Too few variations for fuzzy clustering on feature: " att_name))
  else
    ('(num_clusters, desc) <-
       match dist_strategy strategy with
       | Some (Some m) => estimate_clusters val_list max_clusters m max_iter fit rand
       | Some None =>
           '(_, u, alpha, _) <- rl_fuzzy_cmeans val_list (nlit 1 2000) max_iter ;;
           match u with
           | None => Err EType
           | Some u => Ok (length alpha, transpose (length alpha) u)
           end
       | None => Err (EExc (append "Unsupported clustering method: " strategy))
       end ;;
     if Nat.ltb num_clusters 2 then
       '(vals, desc) <- create_three_clusters val_list ;; Ok (3, vals, desc)
     else Ok (num_clusters, val_list, desc))%res.
End Discret.
