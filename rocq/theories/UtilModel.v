(* Model of src/utility/utility.cpp (format_seconds), of the byte swaps in
   src/utility/utility.hpp and of src/utility/imageio/endianness.h. *)
From Verif Require Import Common DecimalModel.
Local Open Scope N_scope.

(* utility.hpp:321-325; the shifts of a uint32_t wrap *)
Definition swap_endianness32 (num : N) : N :=
  N.lor (N.lor (N.lor (u32 (N.shiftl (N.land num 0x000000FF) 24))
                      (u32 (N.shiftl (N.land num 0x0000FF00) 8)))
               (N.shiftr (N.land num 0x00FF0000) 8))
        (N.shiftr (N.land num 0xFF000000) 24).

(* utility.hpp:334-337; computed in int, returned as uint16_t *)
Definition swap_endianness16 (num : N) : N :=
  u16 (N.lor (N.shiftl (N.land num 0x00FF) 8) (N.shiftr (N.land num 0xFF00) 8)).

(* endianness.h:14, little-endian machine, applied to a uint16_t (promoted to
   int) and assigned to a uint16_t, as in ppm.c:155 *)
Definition endianness_big16 (value : N) : N :=
  u16 (N.lor (N.shiftr (N.land value 0xFF) 8) (N.shiftl value 8)).

(* endianness.h:15-18, applied to a uint32_t *)
Definition endianness_big32 (value : N) : N :=
  N.lor (N.lor (N.lor (N.shiftr (N.land value 0xFF000000) 24)
                      (N.shiftr (N.land value 0x00FF0000) 8))
               (u32 (N.shiftl (N.land value 0x0000FF00) 8)))
        (u32 (N.shiftl value 24)).

(* utility.cpp:6-36.  The characters written before the terminating NUL.
   localization.h:111,114: "more than 100d", "less than 1s". *)
Definition more_than_100_days : list N :=
  [109; 111; 114; 101; 32; 116; 104; 97; 110; 32; 49; 48; 48; 100].
Definition less_than_1_second : list N :=
  [108; 101; 115; 115; 32; 116; 104; 97; 110; 32; 49; 115].

(* "%dX " when the amount is positive, utility.cpp:26-33; each snprintf is
   given the full buffer length, so it does not cut the text *)
Definition time_field (amount letter : N) : list N :=
  if 0 <? amount then dec amount ++ [letter; 32] else [].

Definition format_seconds (secs : N) : list N :=
  if 8640000 <=? secs then more_than_100_days
  else if secs =? 0 then less_than_1_second
  else
    let s := secs in
    let mins := s / 60 in
    let s := s mod 60 in
    let hours := mins / 60 in
    let mins := mins mod 60 in
    let days := hours / 24 in
    let hours := hours mod 24 in
    time_field days 100 ++ time_field hours 104 ++ time_field mins 109 ++ time_field s 115.

Definition MAX_TIME_FORMAT_LENGTH : nat := 17.   (* utility.hpp:31 *)
