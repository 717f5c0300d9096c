(** RlCmeans.v — model of /repo/py_fcm/learning/discretization/rl_fuzzy_cmeans.py
    (line numbers refer to it; class RlFuzzyCmeans is modelled for its predict
    method only).  Data is one column (see LearnUtils.v).  Here the membership
    matrix has one row per data point.  math.log and np.log2 raise nothing in njit
    code; scalar divisions raise on zero. *)
From Verif Require Import Base Num Functions LearnUtils.

Section RlCmeans.
Context {F : Type} {N : Num F}.

Definition log2 (x : F) : F := ndiv (nln x) (nln n2).
Definition nopp (x : F) : F := nsub n0 x.

(** lines 6-18 *)
Definition compute_u_term (x v alpha r1 r2 : F) : res F :=
  let d := nabs (nsub x v) in
  (q <- pdiv (nadd (nopp (nmul d d)) (nmul r1 (nln alpha))) r2 ;; Ok (nexp q))%res.
Definition compute_u (data v alpha : list F) (r1 r2 : F) : res (list (list F)) :=
  rmap (fun x =>
    (terms <- rmap (fun va => compute_u_term x (fst va) (snd va) r1 r2) (combine v alpha) ;;
     let denom := nsum terms in
     rmap (fun t => pdiv t denom) terms)%res) data.

(** lines 21-33 *)
Definition update_alpha (u : list (list F)) (alpha : list F) (r1 r3 : F) : res (list F) :=
  let n := length u in
  let ln_accum := nsum (map (fun a => nmul a (log2 a)) alpha) in
  rmap (fun ka =>
    let '(k, a) := ka in
    let par_content := nsub (log2 a) ln_accum in
    (q <- pdiv r3 r1 ;;
     let pre_val := fold_left (fun acc r => nadd acc (nadd (nth k r n0) (nmul (nmul q a) par_content))) u n0 in
     pdiv pre_val (nat2F n))%res) (combine (seq 0 (length alpha)) alpha).

(** lines 36-57 *)
Definition update_r3 (alpha_old new_alpha : list F) (u : list (list F)) : res F :=
  let n := length u in
  let c := length alpha_old in
  let alpha_old_sum := nsum (map (fun a => nmul a (nln a)) alpha_old) in
  let num := nsum (zip_with (fun a o => nexp (nmul (nopp (nat2F n)) (nabs (nsub a o)))) new_alpha alpha_old) in
  (ku_sum <- rmap (fun k => pdiv (nsum (mcol u k)) (nat2F n)) (seq 0 c) ;;
   let v2_denom := map (fun a => nmul a alpha_old_sum) alpha_old in
   v1 <- pdiv num (nat2F c) ;;
   ku <- max_list ku_sum ;;
   vd <- max_list v2_denom ;;
   v2 <- pdiv (nsub n1 ku) (nopp vd) ;;
   Ok (if nltb v2 v1 then v2 else v1))%res.

(** lines 60-83; array divisions *)
Definition keep_mask (alpha : list F) (n : nat) : res (list bool) :=
  rmap (fun a => lim <- pdiv n1 (nat2F n) ;; Ok (negb (nltb a lim)))%res alpha.
Definition keep {A} (mask : list bool) (l : list A) : list A :=
  map snd (filter (fun p => fst p) (combine mask l)).
Definition rescale (l : list F) : list F := map (fun x => ndiv x (nsum l)) l.
Definition resize_references (alpha : list F) (u : list (list F)) : res (list F * list (list F)) :=
  (mask <- keep_mask alpha (length u) ;;
   Ok (rescale (keep mask alpha), map (fun r => rescale (keep mask r)) u))%res.

(** lines 86-95; array divisions *)
Definition update_v (data : list F) (u : list (list F)) (c : nat) : list F :=
  map (fun k => ndiv (nsum (zip_with (fun x r => nmul x (nth k r n0)) data u)) (nsum (mcol u k))) (seq 0 c).

(** lines 105-125, the loop, [k] iterations left before t reaches max_iter *)
Fixpoint rl_loop (k : nat) (data : list F) (error : F) (t : Z) (r1 r2 r3 : F)
    (v alpha : list F) (u : option (list (list F)))
  : res (list F * option (list (list F)) * list F * Z) :=
  match k with
  | O => Ok (v, u, alpha, t)
  | S k =>
      (u <- compute_u data v alpha r1 r2 ;;
       let r1 := nexp (ndiv (nofZ (- t)) (nofZ 10)) in
       let r2 := nexp (ndiv (nofZ (- t)) (nofZ 100)) in
       new_alpha <- update_alpha u alpha r1 r3 ;;
       r3 <- update_r3 alpha new_alpha u ;;
       '(new_alpha, u) <- resize_references new_alpha u ;;
       let c := length new_alpha in
       let r3 := if (100 <=? t)%Z && Nat.eqb (length alpha) (length new_alpha) then n0 else r3 in
       let new_v := update_v data u c in
       if Nat.eqb (length new_alpha) 1
          || (Nat.eqb (length new_v) (length v) && nltb (norm (zip_with nsub new_v v)) error)
       then Ok (new_v, Some u, new_alpha, t)
       else rl_loop k data error (t + 1) r1 r2 r3 new_v new_alpha (Some u))%res
  end.

(** lines 98-127 *)
Definition rl_fuzzy_cmeans (data : list F) (error : F) (max_iter : Z)
  : res (list F * option (list (list F)) * list F * Z) :=
  let c := length data in
  (a <- pdiv n1 (nat2F c) ;;
   rl_loop (Z.to_nat (max_iter - 1)) data error 1 n1 n1 n1 data (repeat a c) None)%res.

(** lines 138-149: the nearest centre, first one on ties; IndexError without centres *)
Definition rl_nearest (x : F) (centers : list F) : res nat :=
  match centers with
  | [] => Err EIndex
  | c0 :: rest =>
      Ok (snd (fold_left
        (fun acc pc => let '(min_dist, best) := acc in
                       let '(pos, c) := pc in
                       let d := nabs (nsub c x) in
                       if nltb d min_dist then (d, pos) else (min_dist, best))
        (combine (seq 1 (length rest)) rest) (nabs (nsub c0 x), 0)))
  end.
Definition rl_predict (data centers : list F) : res (list nat) :=
  rmap (fun x => rl_nearest x centers) data.
End RlCmeans.
