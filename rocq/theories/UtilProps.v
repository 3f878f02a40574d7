(* C50, C51: durations and byte swaps. *)
From Verif Require Import Common DecimalModel UtilModel UtilSpec UtilProofs.
Local Open Scope N_scope.

(* C50.  Reading the text back gives the number of seconds, the amounts are in
   range, and no field is printed for a zero amount. *)
Theorem format_seconds_denotes : forall secs, 0 < secs < 8640000 ->
  exists d h m s, d < 100 /\ h < 24 /\ m < 60 /\ s < 60 /\
    secs = d * 86400 + h * 3600 + m * 60 + s /\
    format_seconds secs =
      time_field d 100 ++ time_field h 104 ++ time_field m 109 ++ time_field s 115 /\
    read_duration (format_seconds secs) 0 0 = Some secs.
Proof. exact format_seconds_pf. Qed.
Print Assumptions format_seconds_denotes.

(* "1d 2h 3s " *)
Example format_seconds_ex :
  format_seconds 93603 = [49; 100; 32; 50; 104; 32; 51; 115; 32].
Proof. reflexivity. Qed.

(* C50.  The text and its terminator always fit the promised buffer, for every
   unsigned argument. *)
Theorem format_seconds_fits : forall secs,
  (length (format_seconds secs) + 1 <= MAX_TIME_FORMAT_LENGTH)%nat.
Proof. exact format_seconds_length_pf. Qed.
Print Assumptions format_seconds_fits.

Example format_seconds_longest :
  (length (format_seconds 8639999) + 1 = MAX_TIME_FORMAT_LENGTH)%nat.
Proof. reflexivity. Qed.

(* C50.  The two special messages are used exactly outside of that range. *)
Theorem format_seconds_special : forall secs,
  (secs = 0 -> format_seconds secs = less_than_1_second) /\
  (8640000 <= secs -> format_seconds secs = more_than_100_days).
Proof.
  intros secs. split.
  - intros ->. reflexivity.
  - intros H. unfold format_seconds. destruct (N.leb_spec 8640000 secs); [reflexivity | lia].
Qed.
Print Assumptions format_seconds_special.

(* C51.  32-bit swap. *)
Theorem swap32_reverses_bytes : forall x, x < 2 ^ 32 ->
  swap_endianness32 x < 2 ^ 32 /\
  (forall k, k < 4 -> byte_of k (swap_endianness32 x) = byte_of (3 - k) x).
Proof. exact swap32_bytes_pf. Qed.
Print Assumptions swap32_reverses_bytes.

Theorem swap32_involutive : forall x, x < 2 ^ 32 -> swap_endianness32 (swap_endianness32 x) = x.
Proof. exact swap32_involutive_pf. Qed.
Print Assumptions swap32_involutive.

(* C51.  16-bit swap. *)
Theorem swap16_reverses_bytes : forall x, x < 2 ^ 16 ->
  swap_endianness16 x < 2 ^ 16 /\ byte_of 0 (swap_endianness16 x) = byte_of 1 x /\
  byte_of 1 (swap_endianness16 x) = byte_of 0 x /\
  swap_endianness16 (swap_endianness16 x) = x.
Proof. exact swap16_pf. Qed.
Print Assumptions swap16_reverses_bytes.

Example swap_ex : swap_endianness32 0x12345678 = 0x78563412 /\ swap_endianness16 0x1234 = 0x3412.
Proof. split; reflexivity. Qed.

(* C51.  The image library's 32-bit conversion agrees with the swap. *)
Theorem big32_is_swap : forall x, x < 2 ^ 32 -> endianness_big32 x = swap_endianness32 x.
Proof. exact big32_swap. Qed.
Print Assumptions big32_is_swap.

(* C51.  Its 16-bit conversion does not: the high byte of the argument is
   lost, so it agrees with the swap exactly when that byte is zero. *)
Theorem big16_is_swap_refuted : forall x, x < 2 ^ 16 ->
  endianness_big16 x = 256 * (x mod 256) /\
  (endianness_big16 x = swap_endianness16 x <-> x < 256).
Proof.
  intros x Hx. rewrite big16_val, swap16_val by exact Hx. split; [reflexivity |].
  pows. dlia.
Qed.
Print Assumptions big16_is_swap_refuted.

Example big16_ex : endianness_big16 0x1234 = 0x3400.
Proof. reflexivity. Qed.
