(** AssocLabel.v — reading class labels back from concept names. *)
From Coq Require Import DecimalString DecimalZ Decimal.
From Verif Require Import Base BaseFacts Num Functions Fcm LearnUtils Assoc.

Lemma digits_pos d p : digits_val (NilEmpty.string_of_uint d) (Zpos p) = Zpos (Pos.of_uint_acc d p).
Proof. revert p. induction d; intros p; cbn [NilEmpty.string_of_uint digits_val Pos.of_uint_acc]; [reflexivity|..]; rewrite <- IHd; f_equal; match goal with |- context [digit_val ?c] => let v := eval vm_compute in (digit_val c) in change (digit_val c) with v end; lia. Qed.
Lemma digits_uint d : digits_val (NilEmpty.string_of_uint d) 0 = Z.of_uint d.
Proof.
  unfold Z.of_uint. induction d; cbn [NilEmpty.string_of_uint digits_val Pos.of_uint]; [reflexivity|rewrite <- IHd; reflexivity|..]; cbn [Z.of_N]; rewrite <- digits_pos; reflexivity.
Qed.
Lemma all_digits_uint d : all_digits (NilEmpty.string_of_uint d) = true.
Proof. induction d; cbn [NilEmpty.string_of_uint all_digits]; auto. Qed.
Lemma nat_label {F} z : (0 <= z)%Z -> class_cell (F := F) (str_of_Z z) = CInt z.
Proof.
  intros Hz. assert (E : exists d, Z.to_int z = Decimal.Pos d).
  { destruct z; cbn; eauto. lia. }
  destruct E as [d E]. pose proof (DecimalZ.of_to z) as O. rewrite E in O. cbn [Z.of_int] in O. unfold str_of_Z, NilZero.string_of_int. rewrite E.
  unfold class_cell, NilZero.string_of_uint. rewrite <- O.
  destruct d; [reflexivity|..];
    match goal with |- context [isnumeric (NilEmpty.string_of_uint ?d)] =>
      assert (X : isnumeric (NilEmpty.string_of_uint d) = true) by (exact (all_digits_uint d)); rewrite X, (digits_uint d) end; reflexivity.
Qed.
Lemma neg_label {F} z : (z < 0)%Z -> class_cell (F := F) (str_of_Z z) = CStr (str_of_Z z).
Proof. intros Hz. destruct z; try lia. reflexivity. Qed.
Lemma text_label {F} t : isnumeric t = false -> class_cell (F := F) t = CStr t.
Proof. unfold class_cell. now intros ->. Qed.
