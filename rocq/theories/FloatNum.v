(** FloatNum.v — binary64 numbers as a number type, used to run the model on the
    test vectors of the repository (Conformance.v).  The arithmetic operations,
    comparisons and square root are the kernel's IEEE 754 primitives.  exp, ln and
    pow are computed here with 128-bit fixed-point integers and rounded once, so they
    are correctly rounded up to the truncation of the series; the C library's
    functions are almost always correctly rounded as well. *)
From Coq Require Import Floats Uint63.
From Verif Require Import Base Num.
Local Open Scope Z_scope.

Definition float_ofZ (z : Z) : float :=
  match z with
  | Zneg p => PrimFloat.opp (PrimFloat.of_uint63 (Uint63.of_Z (Zpos p)))
  | _ => PrimFloat.of_uint63 (Uint63.of_Z z)
  end.

(** fixed-point numbers: [z] stands for z / 2^128 *)
Definition fbits : Z := 128.
Definition fone : Z := Z.shiftl 1 fbits.
Definition fmul (a b : Z) : Z := Z.shiftr (a * b) fbits.
(** ln 2 = sum over n >= 1 of 1 / (n 2^n) *)
Fixpoint ln2_sum (n : nat) (k : Z) (acc : Z) : Z :=
  match n with O => acc | S m => ln2_sum m (k + 1) (acc + Z.shiftr fone k / k) end.
Definition fln2 : Z := Eval vm_compute in ln2_sum 135 1 0.
(** Taylor series of exp *)
Fixpoint exp_sum (n : nat) (k : Z) (r term acc : Z) : Z :=
  match n with O => acc | S m => let t := fmul term r / k in exp_sum m (k + 1) r t (acc + t) end.
(** exp (x / 2^128) as a mantissa and an exponent *)
Definition fexp (x : Z) : Z * Z :=
  let k := (x + fln2 / 2) / fln2 in
  (exp_sum 34 1 (x - k * fln2) fone fone, k - fbits).
(** the number m * 2^e as a fixed-point number *)
Definition to_fixed (m e : Z) : Z := Z.shiftl m (e + fbits).
(** the closest binary64 number to m * 2^e *)
Definition to_float (m e : Z) : float := SF2Prim (binary_normalize 53 1024 m e false).
Definition signed (s : bool) (m : positive) : Z := if s then Zneg m else Zpos m.
Definition float_exp (x : float) : float :=
  match Prim2SF x with
  | S754_zero _ => PrimFloat.one
  | S754_infinity true => PrimFloat.zero
  | S754_infinity false => PrimFloat.infinity
  | S754_nan => PrimFloat.nan
  | S754_finite s m e =>
      if PrimFloat.ltb (float_ofZ 800) x then PrimFloat.infinity
      else if PrimFloat.ltb x (float_ofZ (-800)) then PrimFloat.zero
      else let '(y, k) := fexp (to_fixed (signed s m) e) in to_float y k
  end.
(** ln (1 + u) / (1 - u) = 2 (u + u^3/3 + u^5/5 + ...) *)
Fixpoint atanh_sum (n : nat) (k : Z) (u2 power acc : Z) : Z :=
  match n with O => acc | S m => let p := fmul power u2 in atanh_sum m (k + 2) u2 p (acc + p / k) end.
(** ln (m * 2^e) as a fixed-point number *)
Definition fln (m : positive) (e : Z) : Z :=
  let b := Z.log2 (Zpos m) in
  let x := Z.shiftl (Zpos m) (fbits - b) in
  let u := Z.shiftl (x - fone) fbits / (x + fone) in
  (e + b) * fln2 + 2 * atanh_sum 45 3 (fmul u u) u u.
Definition float_ln (x : float) : float :=
  match Prim2SF x with
  | S754_zero _ => PrimFloat.neg_infinity
  | S754_infinity false => PrimFloat.infinity
  | S754_finite false m e => to_float (fln m e) (- fbits)
  | _ => PrimFloat.nan
  end.
(** x ** y for finite x > 0 and finite y *)
Definition float_pow (x y : float) : float :=
  match Prim2SF x, Prim2SF y with
  | S754_finite false mx ex, S754_finite sy my ey =>
      let '(z, k) := fexp (fmul (fln mx ex) (to_fixed (signed sy my) ey)) in to_float z k
  | S754_finite false _ _, S754_zero _ => PrimFloat.one
  | _, _ => PrimFloat.nan
  end.

#[global] Instance FloatNum : Num float := {
  nofZ := float_ofZ;
  nadd := PrimFloat.add; nsub := PrimFloat.sub; nmul := PrimFloat.mul; ndiv := PrimFloat.div;
  nabs := PrimFloat.abs;
  nltb := PrimFloat.ltb; nleb := PrimFloat.leb; neqb := PrimFloat.eqb;
  nexp := float_exp; nln := float_ln; nsqrt := PrimFloat.sqrt; npow := float_pow;
  neps := 0x1p-52%float
}.
