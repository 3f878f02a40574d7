(* Model of the pseudo random generator: src/utility/wellrng.{hpp,cpp}. *)
From Verif Require Import Common.
Local Open Scope N_scope.

(* wellrng.hpp:55-60: unsigned int state_i, state[32].  z0, z1 and z2 are
   members of the class but are always written before being read, so they are
   not part of the state. *)
Record well := mk_well { w_i : nat; w_state : list N }.

(* wellrng.cpp:12-19 *)
Definition well_init (seed : list N) : well := mk_well 0 seed.

(* x << k on unsigned int *)
Definition shl32 (x k : N) : N := u32 (N.shiftl x k).

(* (state_i + k) & 0x1F *)
Definition widx (i k : nat) : nat := N.to_nat (N.land (N.of_nat i + N.of_nat k) 0x1F).

Definition wget (l : list N) (i : nat) : N := nth i l 0.
Definition wset (l : list N) (i : nat) (v : N) : list N := firstn i l ++ v :: skipn (S i) l.

(* wellrng.cpp:21-34, without the conversion of the result *)
Definition well_step (s : well) : well :=
  let i := w_i s in
  let st := w_state s in
  let z0 := wget st (widx i 31) in
  let z1 := N.lxor (wget st i)
                   (N.lxor (wget st (widx i 3)) (N.shiftr (wget st (widx i 3)) 8)) in
  let z2 := N.lxor (N.lxor (wget st (widx i 24)) (shl32 (wget st (widx i 24)) 19))
                   (N.lxor (wget st (widx i 10)) (shl32 (wget st (widx i 10)) 14)) in
  let st := wset st i (N.lxor z1 z2) in
  let st := wset st (widx i 31)
              (N.lxor (N.lxor (N.lxor z0 (shl32 z0 11)) (N.lxor z1 (shl32 z1 7)))
                      (N.lxor z2 (shl32 z2 13))) in
  mk_well (widx i 31) st.

(* (float)n for an unsigned int: the nearest multiple of 2^e, where e leaves 24
   significant bits, ties to even.  The result is an integer. *)
Definition float_of_u32 (n : N) : N :=
  let e := N.size n - 24 in
  let q := n / 2 ^ e in
  let r := n mod 2 ^ e in
  let up := (2 ^ e <? 2 * r) || ((2 ^ e =? 2 * r) && N.odd q) in
  (if up then q + 1 else q) * 2 ^ e.

(* wellrng.cpp:35: the result is this number times 2^-32; the product is exact
   because it only changes the exponent. *)
Definition well_out (s : well) : N := float_of_u32 (wget (w_state s) (w_i s)).

(* one call of getNumber: the new state and the numerator of the result *)
Definition well_getNumber (s : well) : well * N :=
  let s' := well_step s in (s', well_out s').

Fixpoint well_run (n : nat) (s : well) : well :=
  match n with O => s | S n => well_run n (well_step s) end.

(* Every reachable state has 32 words and an index
   below 32. *)
Definition well_ok (s : well) : Prop :=
  (w_i s < 32)%nat /\ length (w_state s) = 32%nat /\ Forall is_word32 (w_state s).
