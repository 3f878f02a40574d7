(* Shared vocabulary of the model: machine words, outcomes, byte codecs. *)
From Coq Require Export List Arith ZArith NArith Lia Bool.
From Coq Require Export Setoid Morphisms.
From Coq Require Export ZifyBool ZifyNat ZifyN.
Export ListNotations.
(* lia with division and modulo *)
Ltac dlia := zify; Z.div_mod_to_equations; lia.

(* Outcome of a C/C++ computation: a value, undefined behaviour (for example an
   access outside an allocated block or a division by zero), or exhaustion of
   the fuel of the model (the real loop is still running). *)
Inductive res (A : Type) : Type :=
| Ok (a : A)
| UB
| OutOfFuel.
Arguments Ok {A} a.
Arguments UB {A}.
Arguments OutOfFuel {A}.

Definition bind {A B} (r : res A) (f : A -> res B) : res B :=
  match r with
  | Ok a => f a
  | UB => UB
  | OutOfFuel => OutOfFuel
  end.

Notation "'let!' x ':=' r 'in' k" := (bind r (fun x => k))
  (at level 200, x pattern, r at level 100, k at level 200,
   format "'let!'  x  ':='  r  'in' '//' k").

Open Scope N_scope.

(* Conversion to unsigned 8/16/32-bit types. *)
Definition u8 (x : N) : N := x mod 2 ^ 8.
Definition u16 (x : N) : N := x mod 2 ^ 16.
Definition u32 (x : N) : N := x mod 2 ^ 32.

(* Conversion of a 32-bit pattern to the two's complement int it denotes. *)
Definition int32 (x : N) : Z :=
  (if N.ltb (x mod 2 ^ 32) (2 ^ 31) then Z.of_N (x mod 2 ^ 32)
   else Z.of_N (x mod 2 ^ 32) - 2 ^ 32)%Z.

(* Two's complement pattern of an int. *)
Definition pat32 (z : Z) : N := Z.to_N (z mod 2 ^ 32)%Z.

(* Bytes of little-endian 16 and 32 bit fields. *)
Definition le16 (x : N) : list N := [x mod 256; (x / 256) mod 256].
Definition le32 (x : N) : list N :=
  [x mod 256; (x / 256) mod 256; (x / 65536) mod 256; (x / 16777216) mod 256].

Definition dle16 (b0 b1 : N) : N := b0 + 256 * b1.
Definition dle32 (b0 b1 b2 b3 : N) : N :=
  b0 + 256 * b1 + 65536 * b2 + 16777216 * b3.

Definition is_byte (b : N) : Prop := b < 256.
Definition is_word32 (w : N) : Prop := w < 2 ^ 32.
