(** QNum.v — exact rational arithmetic as a number type.  Used only to execute
    the model in examples and in witnesses against false claims; the numbers used
    there are small dyadic fractions, on which binary64 arithmetic is exact as
    well.  exp, ln, sqrt and pow have no rational values: they are placeholders
    and no example or witness evaluates them. *)
From Coq Require Import QArith Qabs Qreduction.
From Verif Require Import Base Num Functions Fcm.

#[global] Instance QNum : Num Q := {
  nofZ := inject_Z;
  nadd := fun a b => Qred (a + b); nsub := fun a b => Qred (a - b);
  nmul := fun a b => Qred (a * b); ndiv := fun a b => Qred (a / b);
  nabs := fun a => Qred (Qabs a);
  nltb := fun a b => negb (Qle_bool b a); nleb := Qle_bool; neqb := Qeq_bool;
  nexp := fun _ => 0%Q; nln := fun _ => 0%Q; nsqrt := fun _ => 0%Q; npow := fun _ _ => 0%Q;
  neps := (1 # 4503599627370496)%Q
}.

(** a map made with the given limits and map-wide function *)
Definition qmap (max_it extra : Z) (stab : bool) (dec act : string) : fcm Q :=
  match init_fcm max_it extra stab (1 # 1024)%Q dec true act [] with
  | Ok s => s
  | Err _ => mkFcm [] [] [] true 0%Z 0%Z 0%Q "" true "" [] 0%Z 0%Q dummy_default true None false None false
  end.
Definition add_simple (n : string) : op Q := OpAddConcept n None None None None None None [].
