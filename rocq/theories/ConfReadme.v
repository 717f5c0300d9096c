(** ConfReadme.v — the generation example of /repo/README.md (lines 82-102) run in the
    model on binary64 numbers: with the estimator's default settings every training
    row is predicted right and the score is 1.  The four numbers are printed and
    truncated as Python does; the order of sets is the insertion order (no matter,
    C45).  F2 has fewer than ten values and is taken as discrete, so no
    discretization runs. *)
From Coq Require Import Floats.
From Verif Require Import Base Num Functions Fcm Assoc Estimator EstInput FloatNum.
Set Warnings "-inexact-float".
Local Open Scope string_scope.

Definition rd_fstr (x : float) : string :=
  if PrimFloat.eqb x 9.8 then "9.8" else if PrimFloat.eqb x 7.3 then "7.3"
  else if PrimFloat.eqb x 1.1 then "1.1" else "3.6".
Definition rd_trunc (x : float) : res Z :=
  if PrimFloat.eqb x 9.8 then Ok 9%Z else if PrimFloat.eqb x 7.3 then Ok 7%Z
  else if PrimFloat.eqb x 1.1 then Ok 1%Z else Ok 3%Z.
(** the defaults of fcm_estimator.py 12-17 *)
Definition rd_conf : gconf float :=
  mkGconf "___" (-1)%float true true rel_pos_inf rel_supp 0%float None 0%float true rd_fstr rd_trunc (fun l => l)
    (fun _ _ => Err EUndef).
Definition rd_x : dataset float :=
  [("F1", ColStr ["x"; "x"; "y"; "y"]); ("F2", ColFlt [9.8; 7.3; 1.1; 3.6]%float)].
Definition rd_y : dataset float := [("class", ColStr ["a"; "a"; "r"; "r"])].
Definition rd_est : res (est float) :=
  (e <- init_est_fit true 250 5 (nlit 1 1000) "MEAN" true "KOSKO" "sigmoid_hip" [] true ;;
   let '(e, r) := fit rd_conf rd_x rd_y e in (_ <- r ;; Ok e))%res.
Example readme_generation :
  (e <- rd_est ;; predicted <- snd (predict rd_conf rd_x e) ;; s <- snd (score rd_conf rd_x rd_y e) ;; Ok (predicted, s))%res
  = Ok ([("class", [CStr "a"; CStr "a"; CStr "r"; CStr "r"])], 1%float).
Proof. vm_compute. reflexivity. Qed.
