From Verif Require Import Common ByteLemmas DecimalModel UtilModel UtilSpec.
Local Open Scope N_scope.

Ltac pows := change (2 ^ 8) with 256 in *; change (2 ^ 16) with 65536 in *;
  change (2 ^ 24) with 16777216 in *; change (2 ^ 32) with 4294967296 in *.

(* Every result below is a byte reassembly: reduce masks and shifts to
   division and modulo, then solve bytewise. *)
Lemma swap32_val : forall x, x < 2 ^ 32 ->
  swap_endianness32 x =
  (x / 16777216) mod 256 + 256 * ((x / 65536) mod 256) + 65536 * ((x / 256) mod 256)
  + 16777216 * (x mod 256).
Proof.
  intros x Hx. unfold swap_endianness32, u32.
  change (N.land x 0x00FF0000) with (N.land x (N.shiftl 255 16)).
  change (N.land x 0xFF000000) with (N.land x (N.shiftl 255 24)).
  rewrite (shiftr_land_mask x 24).
  assert (E1 : N.shiftr (N.land x (N.shiftl 255 16)) 8 = N.shiftl ((x / 65536) mod 256) 8).
  { change 65536 with (2 ^ 16). rewrite <- (shiftr_land_mask x 16).
    apply N.bits_inj. intros i. rewrite N.shiftr_spec', N.land_spec.
    destruct (N.lt_ge_cases i 8) as [Hi | Hi].
    - rewrite !N.shiftl_spec_low by lia. apply andb_false_r.
    - rewrite (N.shiftl_spec_high' (N.shiftr _ _) 8 i) by exact Hi. rewrite N.shiftr_spec', N.land_spec.
      replace (i - 8 + 16) with (i + 8) by lia. reflexivity. }
  rewrite E1. rewrite land_255.
  assert (E2 : N.land x 0xFF00 = N.shiftl ((x / 256) mod 256) 8).
  { change 256 with (2 ^ 8) at 1. rewrite <- (shiftr_land_mask x 8).
    apply N.bits_inj. intros i. rewrite N.land_spec.
    destruct (N.lt_ge_cases i 8) as [Hi | Hi].
    - change 0xFF00 with (N.shiftl 255 8). rewrite !N.shiftl_spec_low by lia.
      apply andb_false_r.
    - rewrite (N.shiftl_spec_high' (N.shiftr _ _) 8 i) by exact Hi. rewrite N.shiftr_spec', N.land_spec.
      replace (i - 8 + 8) with i by lia. reflexivity. }
  rewrite E2, N.shiftl_shiftl. change (8 + 8) with 16.
  set (b0 := x mod 256). set (b1 := (x / 256) mod 256). set (b2 := (x / 65536) mod 256).
  change (2 ^ 24) with 16777216. set (b3 := (x / 16777216) mod 256).
  assert (H0 : b0 < 256) by (apply N.mod_lt; lia). assert (H1 : b1 < 256) by (apply N.mod_lt; lia).
  assert (H2 : b2 < 256) by (apply N.mod_lt; lia). assert (H3 : b3 < 256) by (apply N.mod_lt; lia).
  clearbody b0 b1 b2 b3.
  rewrite !N.mod_small by (rewrite N.shiftl_mul_pow2; pows; lia).
  rewrite <- (N.lor_assoc _ _ b3).
  rewrite (N.lor_comm (N.shiftl b2 8) b3), (lor_shiftl_add b3 b2 8) by (pows; lia).
  rewrite (N.lor_comm (N.lor _ _)), (N.lor_comm (N.shiftl b0 24)), N.lor_assoc.
  pows. rewrite (lor_shiftl_add (b3 + b2 * 256) b1 16) by (pows; lia).
  pows. rewrite (lor_shiftl_add _ b0 24) by (pows; lia). pows. lia.
Qed.

Lemma big32_swap : forall x, x < 2 ^ 32 -> endianness_big32 x = swap_endianness32 x.
Proof.
  intros x Hx. unfold endianness_big32, swap_endianness32.
  assert (E : u32 (N.shiftl x 24) = u32 (N.shiftl (N.land x 255) 24)).
  { unfold u32. rewrite land_255, !N.shiftl_mul_pow2. pows. dlia. }
  rewrite E.
  set (a := u32 (N.shiftl (N.land x 255) 24)). set (b := u32 _).
  set (c := N.shiftr (N.land x 0x00FF0000) 8). set (d := N.shiftr _ 24).
  apply N.bits_inj. intros i. rewrite !N.lor_spec.
  destruct (N.testbit a i), (N.testbit b i), (N.testbit c i), (N.testbit d i); reflexivity.
Qed.

Lemma swap16_val : forall x, x < 2 ^ 16 ->
  swap_endianness16 x = x / 256 + 256 * (x mod 256).
Proof.
  intros x Hx. unfold swap_endianness16, u16.
  change (N.land x 0xFF00) with (N.land x (N.shiftl 255 8)).
  rewrite shiftr_land_mask, land_255, N.lor_comm. pows.
  rewrite (lor_shiftl_add (x / 256 mod 256) (x mod 256) 8) by (pows; apply N.mod_lt; lia).
  pows. dlia.
Qed.

Lemma big16_val : forall x, x < 2 ^ 16 -> endianness_big16 x = 256 * (x mod 256).
Proof.
  intros x Hx. unfold endianness_big16, u16. rewrite land_255.
  assert (E : N.shiftr (x mod 256) 8 = 0).
  { rewrite N.shiftr_div_pow2. apply N.div_small. pows. apply N.mod_lt. lia. }
  rewrite E, N.lor_0_l, N.shiftl_mul_pow2. pows. dlia.
Qed.

Lemma swap32_bytes_pf : forall x, x < 2 ^ 32 ->
  swap_endianness32 x < 2 ^ 32 /\
  (forall k, k < 4 -> byte_of k (swap_endianness32 x) = byte_of (3 - k) x).
Proof.
  intros x Hx. rewrite swap32_val by exact Hx. split; [pows; dlia |].
  intros k Hk. unfold byte_of.
  assert (C : k = 0 \/ k = 1 \/ k = 2 \/ k = 3) by lia.
  set (b0 := x mod 256). set (b1 := (x / 256) mod 256). set (b2 := (x / 65536) mod 256).
  set (b3 := (x / 16777216) mod 256).
  assert (H0 : b0 < 256) by (apply N.mod_lt; lia). assert (H1 : b1 < 256) by (apply N.mod_lt; lia).
  assert (H2 : b2 < 256) by (apply N.mod_lt; lia). assert (H3 : b3 < 256) by (apply N.mod_lt; lia).
  destruct C as [-> | [-> | [-> | ->]]].
  - change (256 ^ 0) with 1. change (256 ^ (3 - 0)) with 16777216. fold b3. clearbody b0 b1 b2 b3.
    clear - H0 H1 H2 H3. dlia.
  - change (256 ^ 1) with 256. change (256 ^ (3 - 1)) with 65536. fold b2. clearbody b0 b1 b2 b3.
    clear - H0 H1 H2 H3. dlia.
  - change (256 ^ 2) with 65536. change (256 ^ (3 - 2)) with 256. fold b1. clearbody b0 b1 b2 b3.
    clear - H0 H1 H2 H3. dlia.
  - change (256 ^ 3) with 16777216. change (256 ^ (3 - 3)) with 1. rewrite (N.div_1_r x). fold b0.
    clearbody b0 b1 b2 b3. clear - H0 H1 H2 H3. dlia.
Qed.

Lemma swap32_involutive_pf : forall x, x < 2 ^ 32 -> swap_endianness32 (swap_endianness32 x) = x.
Proof.
  intros x Hx. destruct (swap32_bytes_pf x Hx) as [Hb By].
  rewrite (swap32_val _ Hb).
  pose proof (By 0 ltac:(lia)) as B0. pose proof (By 1 ltac:(lia)) as B1.
  pose proof (By 2 ltac:(lia)) as B2. pose proof (By 3 ltac:(lia)) as B3.
  unfold byte_of in *. change (256 ^ 0) with 1 in *. change (256 ^ 1) with 256 in *.
  change (256 ^ 2) with 65536 in *. change (256 ^ 3) with 16777216 in *.
  change (256 ^ (3 - 0)) with 16777216 in *. change (256 ^ (3 - 1)) with 65536 in *.
  change (256 ^ (3 - 2)) with 256 in *. change (256 ^ (3 - 3)) with 1 in *.
  rewrite N.div_1_r in *. rewrite B3, B2, B1, B0.
  clear - Hx. pows. dlia.
Qed.

Lemma swap16_pf : forall x, x < 2 ^ 16 ->
  swap_endianness16 x < 2 ^ 16 /\ byte_of 0 (swap_endianness16 x) = byte_of 1 x /\
  byte_of 1 (swap_endianness16 x) = byte_of 0 x /\
  swap_endianness16 (swap_endianness16 x) = x.
Proof.
  intros x Hx. assert (Hb : swap_endianness16 x < 2 ^ 16).
  { rewrite swap16_val by exact Hx. pows. dlia. }
  split; [exact Hb |]. rewrite (swap16_val _ Hb), (swap16_val x Hx).
  unfold byte_of. change (256 ^ 0) with 1. change (256 ^ 1) with 256. rewrite !N.div_1_r.
  pows. clear Hb. repeat split; dlia.
Qed.

(* ---- durations ---- *)

Lemma read_digits : forall l rest n t, Forall (fun c => is_digit c = true) l ->
  read_duration (l ++ rest) n t =
  read_duration rest (10 ^ N.of_nat (length l) * n + digits_value l) t.
Proof.
  intros l. induction l as [| c l IH]; intros rest n t Hf.
  - cbn [app length digits_value fold_left]. change (10 ^ N.of_nat 0) with 1. f_equal. lia.
  - inversion Hf as [| ? ? Hc Hf']; subst. cbn [app read_duration]. unfold is_digit in Hc.
    rewrite Hc, IH by exact Hf'. f_equal.
    unfold digits_value at 2. cbn [fold_left]. rewrite fold_digits.
    cbn [length]. rewrite Nat2N.inj_succ, N.pow_succ_r'. lia.
Qed.

Lemma read_field : forall a letter u rest t,
  unit_of letter = Some u -> (48 <=? letter) && (letter <=? 57) = false -> letter =? 32 = false ->
  read_duration (time_field a letter ++ rest) 0 t = read_duration rest 0 (t + a * u).
Proof.
  intros a letter u rest t Hu Hd Hs. unfold time_field.
  destruct (N.ltb_spec 0 a) as [Ha | Ha].
  - destruct (dec_spec a) as (F & _ & V & _). rewrite <- app_assoc, read_digits by exact F.
    cbn [app read_duration]. rewrite Hd, Hs, Hu. cbn [N.leb N.compare andb N.eqb Pos.eqb].
    change ((48 <=? 32) && (32 <=? 57)) with false. cbv iota.
    change (32 =? 32) with true. cbv iota. rewrite V. f_equal. lia.
  - assert (a = 0) as -> by lia. cbn [app]. f_equal. lia.
Qed.

Lemma field_length : forall a letter k, a < 10 ^ N.of_nat (S k) ->
  (length (time_field a letter) <= k + 3)%nat.
Proof.
  intros a letter k Ha. unfold time_field. destruct (0 <? a); [| cbn [length]; lia].
  rewrite app_length. cbn [length]. destruct (dec_spec a) as (_ & _ & _ & L).
  specialize (L k Ha). lia.
Qed.

Lemma format_seconds_pf : forall secs, 0 < secs < 8640000 ->
  exists d h m s, d < 100 /\ h < 24 /\ m < 60 /\ s < 60 /\
    secs = d * 86400 + h * 3600 + m * 60 + s /\
    format_seconds secs =
      time_field d 100 ++ time_field h 104 ++ time_field m 109 ++ time_field s 115 /\
    read_duration (format_seconds secs) 0 0 = Some secs.
Proof.
  intros secs Hs. unfold format_seconds.
  destruct (N.leb_spec 8640000 secs) as [Hc | _]; [lia |].
  destruct (N.eqb_spec secs 0) as [Hc | _]; [lia |].
  exists (secs / 60 / 60 / 24), (secs / 60 / 60 mod 24), (secs / 60 mod 60), (secs mod 60).
  assert (E : secs = secs / 60 / 60 / 24 * 86400 + secs / 60 / 60 mod 24 * 3600
              + secs / 60 mod 60 * 60 + secs mod 60).
  { pose proof (N.div_mod secs 60 ltac:(lia)). pose proof (N.div_mod (secs / 60) 60 ltac:(lia)).
    pose proof (N.div_mod (secs / 60 / 60) 24 ltac:(lia)). lia. }
  split; [rewrite !N.div_div by lia; apply N.div_lt_upper_bound; lia |].
  split; [apply N.mod_lt; lia |]. split; [apply N.mod_lt; lia |]. split; [apply N.mod_lt; lia |].
  split; [exact E |]. split; [reflexivity |].
  rewrite (read_field _ 100 86400), (read_field _ 104 3600), (read_field _ 109 60) by reflexivity.
  rewrite <- (app_nil_r (time_field _ 115)), (read_field _ 115 1) by reflexivity.
  cbn [read_duration]. f_equal. rewrite E at 5. lia.
Qed.

Lemma format_seconds_length_pf : forall secs,
  (length (format_seconds secs) + 1 <= MAX_TIME_FORMAT_LENGTH)%nat.
Proof.
  intros secs. destruct (N.eq_dec secs 0) as [-> | Hz]; [vm_compute; lia |].
  destruct (N.lt_ge_cases secs 8640000) as [Hlt | Hge].
  - destruct (format_seconds_pf secs ltac:(lia)) as (d & h & m & s & Hd & Hh & Hm & Hs & _ & E & _).
    rewrite E, !app_length.
    pose proof (field_length d 100 1 ltac:(change (10 ^ N.of_nat 2) with 100; lia)). pose proof (field_length h 104 1 ltac:(change (10 ^ N.of_nat 2) with 100; lia)).
    pose proof (field_length m 109 1 ltac:(change (10 ^ N.of_nat 2) with 100; lia)). pose proof (field_length s 115 1 ltac:(change (10 ^ N.of_nat 2) with 100; lia)).
    unfold MAX_TIME_FORMAT_LENGTH. lia.
  - unfold format_seconds. destruct (N.leb_spec 8640000 secs) as [_ | Hc]; [vm_compute; lia | lia].
Qed.
