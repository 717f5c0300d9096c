(** CmeansN.v — the clustering algorithms on data with any number of columns:
    model of /repo/py_fcm/learning/discretization/fuzzy_cmeans.py,
    rl_fuzzy_cmeans.py (with class RlFuzzyCmeans) and of one_dimension_distance in
    /repo/py_fcm/learning/utils.py.  A data point is a list of numbers, the data a
    list of points of the same length; Cmeans.v and RlCmeans.v are the same
    algorithms on one column, the only use inside /repo.  The parts that do not
    look at the coordinates are taken from those files.  Sums run from left to
    right; numba array divisions raise nothing; scalar divisions raise on zero.
    The data is taken to be floating point (on an array of integers numba rejects
    rl_fuzzy_cmeans, line 103). *)
From Verif Require Import Base Num Functions LearnUtils Cmeans RlCmeans.

Section CmeansN.
Context {F : Type} {N : Num F}.
Notation point := (list F).
Notation points := (list (list F)).

(** np.linalg.norm(a - b) *)
Definition pdist (a b : point) : F := norm (zip_with nsub a b).

(** learning/utils.py lines 33-39 *)
Definition distancesN (data centers : points) : list (list F) :=
  map (fun c => map (fun d => pdist d c) data) centers.

(** fuzzy_cmeans.py line 24: one centre, weights [r] *)
Definition centerN (data : points) (r : list F) : point :=
  map (fun s => ndiv (nsum (zip_with nmul r (mcol data s))) (nsum r)) (seq 0 (mcols data)).

(** fuzzy_cmeans.py lines 8-35 *)
Definition cmeans0N (data : points) (u_old : list (list F)) (m : F)
  : res (points * list (list F) * F * list (list F)) :=
  let u_old := normalize_columns u_old in
  let u_old := map (map (fun x => fmax x neps)) u_old in
  let um := map (map (fun x => npow x m)) u_old in
  let cntr := map (centerN data) um in
  let d := distancesN data cntr in
  let d := map (map (fun x => fmax x neps)) d in
  let jm := nsum (concat (zip_with (fun r s => zip_with (fun a b => nmul a (nmul b b)) r s) um d)) in
  (e <- pdiv (nofZ (-2)) (nsub m n1) ;;
   u <- normalize_power_columns d e ;;
   Ok (cntr, u, jm, d))%res.

(** fuzzy_cmeans.py lines 136-146, the loop, [k] iterations left (see Cmeans.v) *)
Fixpoint cmeans_loopN (k : nat) (data : points) (m error : F)
    (last : option (points * list (list F))) (u : list (list F)) (jm : list F) (p : nat)
  : res (option (points * list (list F)) * list (list F) * list F * nat) :=
  match k with
  | O => Ok (last, u, jm, p)
  | S k =>
      ('(cntr, u', j, d) <- cmeans0N data u m ;;
       let jm := jm ++ [j] in
       if nltb (mdist u' u) error
       then Ok (Some (cntr, d), u', jm, S p)
       else cmeans_loopN k data m error (Some (cntr, d)) u' jm (S p))%res
  end.

(** fuzzy_cmeans.py lines 58-150; [rand] stands for np.random.rand(c, n) *)
Definition cmeansN (data : points) (c : nat) (m error : F) (maxiter : Z)
    (init : option (list (list F))) (rand : list (list F))
  : res (points * list (list F) * list (list F) * list (list F) * list F * nat * F) :=
  let n := length data in
  let u0 := match init with Some u => u | None => normalize_columns rand end in
  (u <- cmeans_start c n u0 ;;
   '(last, u, jm, p) <- cmeans_loopN (Z.to_nat (maxiter - 1)) data m error None u [] 0 ;;
   fpc <- fp_coeff u ;;
   match last with
   | None => Err EUnbound
   | Some (cntr, d) => Ok (cntr, u, u0, d, jm, p, fpc)
   end)%res.

(** fuzzy_cmeans.py lines 153-157 *)
Definition fuzzy_cmeansN (data : points) (c : nat) (m error : F) (maxiter : Z)
    (init : option (list (list F))) (rand : list (list F)) : res (list (list F) * points) :=
  ('(cntr, u, _, _, _, _, _) <- cmeansN data c m error maxiter init rand ;; Ok (u, cntr))%res.

(** rl_fuzzy_cmeans.py lines 6-18 *)
Definition compute_uN_term (x v : point) (alpha r1 r2 : F) : res F :=
  let d := pdist x v in
  (q <- pdiv (nadd (nopp (nmul d d)) (nmul r1 (nln alpha))) r2 ;; Ok (nexp q))%res.
Definition compute_uN (data v : points) (alpha : list F) (r1 r2 : F) : res (list (list F)) :=
  rmap (fun x =>
    (terms <- rmap (fun va => compute_uN_term x (fst va) (snd va) r1 r2) (combine v alpha) ;;
     let denom := nsum terms in
     rmap (fun t => pdiv t denom) terms)%res) data.

(** rl_fuzzy_cmeans.py lines 86-95: one centre from the memberships [us] of the
    points in its cluster, then all [c] of them; array divisions *)
Definition update_v1 (data : points) (us : list F) : point :=
  map (fun s => ndiv (nsum (zip_with nmul (mcol data s) us)) (nsum us)) (seq 0 (mcols data)).
Definition update_vN (data : points) (u : list (list F)) (c : nat) : points :=
  map (fun k => update_v1 data (mcol u k)) (seq 0 c).

(** rl_fuzzy_cmeans.py lines 105-125, the loop, [k] iterations left *)
Fixpoint rl_loopN (k : nat) (data : points) (error : F) (t : Z) (r1 r2 r3 : F)
    (v : points) (alpha : list F) (u : option (list (list F)))
  : res (points * option (list (list F)) * list F * Z) :=
  match k with
  | O => Ok (v, u, alpha, t)
  | S k =>
      (u <- compute_uN data v alpha r1 r2 ;;
       let r1 := nexp (ndiv (nofZ (- t)) (nofZ 10)) in
       let r2 := nexp (ndiv (nofZ (- t)) (nofZ 100)) in
       new_alpha <- update_alpha u alpha r1 r3 ;;
       r3 <- update_r3 alpha new_alpha u ;;
       '(new_alpha, u) <- resize_references new_alpha u ;;
       let c := length new_alpha in
       let r3 := if (100 <=? t)%Z && Nat.eqb (length alpha) (length new_alpha) then n0 else r3 in
       let new_v := update_vN data u c in
       if Nat.eqb (length new_alpha) 1
          || (Nat.eqb (length new_v) (length v) && nltb (mdist new_v v) error)
       then Ok (new_v, Some u, new_alpha, t)
       else rl_loopN k data error (t + 1) r1 r2 r3 new_v new_alpha (Some u))%res
  end.

(** rl_fuzzy_cmeans.py lines 98-127 *)
Definition rl_fuzzy_cmeansN (data : points) (error : F) (max_iter : Z)
  : res (points * option (list (list F)) * list F * Z) :=
  let c := length data in
  (a <- pdiv n1 (nat2F c) ;;
   rl_loopN (Z.to_nat (max_iter - 1)) data error 1 n1 n1 n1 data (repeat a c) None)%res.

(** ** Class RlFuzzyCmeans (rl_fuzzy_cmeans.py lines 130-149).  The object is its
    attribute [centroids] (None at first); the message printed by fit is dropped. *)
(** lines 133-136 with the default arguments of line 99 *)
Definition rlc_fit (st : option points) (data : points) : option points * res unit :=
  match rl_fuzzy_cmeansN data (nlit 5 10000) 110 with
  | Ok (v, _, _, _) => (Some v, Ok tt)
  | Err e => (st, Err e)
  end.
(** lines 141-147: the nearest centre, first one on ties *)
Definition rlc_nearest (x : point) (centers : points) : res nat :=
  match centers with
  | [] => Err EIndex
  | c0 :: rest =>
      Ok (snd (fold_left
        (fun acc pc => let '(min_dist, best) := acc in
                       let '(pos, c) := pc in
                       let d := pdist c x in
                       if nltb d min_dist then (d, pos) else (min_dist, best))
        (combine (seq 1 (length rest)) rest) (pdist c0 x, 0)))
  end.
(** lines 138-149: indexing None (nothing fitted) raises TypeError, at the first element *)
Definition rlc_predict (st : option points) (data : points) : res (list nat) :=
  rmap (fun x => match st with None => Err EType | Some v => rlc_nearest x v end) data.
End CmeansN.
