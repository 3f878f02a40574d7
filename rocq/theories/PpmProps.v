(* C09, C53: PPM images. *)
From Verif Require Import Common ByteLemmas ArrayIO PixelModel PixelProofs DecimalModel ConfigModel ConfigProofs
  PpmModel PpmSpec PpmProofs.
Local Open Scope N_scope.

Lemma u32_small : forall n, n < 2 ^ 32 -> u32 n = n.
Proof. intros n H. unfold u32. now apply N.mod_small. Qed.

Lemma default_separators : separators [32] [32] [32] 32.
Proof. unfold separators, blank. repeat split; auto; discriminate. Qed.

(* C53.  A binary file with at most 255 levels, any blanks between the header
   fields, samples not above the maximum and any number k of complete rows: the
   pixels of these rows, rescaled, are stored in order, nothing else changes,
   and the reader succeeds exactly if no row is missing. *)
Theorem ppm_binary_decode : forall w h m s1 s2 s3 s4 samples trail k buf,
  separators s1 s2 s3 s4 -> (1 <= w)%nat -> (k <= h)%nat -> 3 * N.of_nat w < 2 ^ 32 ->
  N.of_nat (w * h) < 2 ^ 32 -> N.of_nat h < 2 ^ 32 ->
  1 <= m <= 255 -> Forall (fun v => v <= m) samples -> length samples = (3 * w * k)%nat ->
  k = h \/ (length trail < 3 * w)%nat -> (w * h <= length buf)%nat ->
  exists pixels,
    ppm_read (ppm_file 54 (N.of_nat w) (N.of_nat h) m s1 s2 s3 s4 (samples ++ trail)) buf =
      Ok (pixels ++ skipn (w * k) buf, (k =? h)%nat) /\
    length pixels = (w * k)%nat /\ decoded (rescaled 0 m) samples pixels.
Proof.
  intros w h m s1 s2 s3 s4 samples trail k buf Hsep Hw Hk Hw3 Hwh Hh Hm Hs Hl Ht Hb.
  rewrite ppm_read_header by (try assumption; try lia; auto).
  change (54 =? 51) with false. cbn match.
  destruct (N.leb_spec m 255); [| lia].
  rewrite !Nat2N.id. rewrite (u32_small (N.of_nat w * 3)) by lia.
  rewrite <- Nat2N.inj_mul. rewrite (u32_small (N.of_nat (w * h))) by exact Hwh.
  destruct (Forall2_exists _ _ (fun v t => sample8 m v = Ok t /\ rescaled 0 m v t) samples) as [ts F].
  { intros v Hv. rewrite Forall_forall in Hs. apply sample8_rescaled; auto. }
  assert (Hnext : forall v t l, sample8 m v = Ok t /\ rescaled 0 m v t ->
    next8 m ([v] ++ l) = Ok (t, l)).
  { intros v t l [E _]. cbn [app next8]. rewrite E. reflexivity. }
  assert (R := read_rows_ok N (fun v => [v]) 1 (next8 m)
    (fun v t => sample8 m v = Ok t /\ rescaled 0 m v t) (fun v => eq_refl) Hnext
    h k w samples ts trail (N.of_nat w * 3) buf 0 Hw (le_n 1) ltac:(lia) F Hl Hk
    ltac:(destruct Ht; [left; assumption | right; lia]) ltac:(lia) ltac:(nia)).
  assert (Ef : flat_map (fun v => [v]) samples = samples)
    by (clear; induction samples; cbn; congruence).
  rewrite Ef in R. rewrite R. cbn [bind]. change (Z.to_nat 0) with 0%nat. cbn [firstn app Nat.add].
  assert (Lts : length ts = (3 * (w * k))%nat) by (rewrite <- (Forall2_len _ _ _ _ _ F); lia).
  exists (words ts). split; [| split].
  - do 2 f_equal. destruct (Nat.eqb_spec k h) as [-> | Hne].
    + apply Z.eqb_eq. lia.
    + apply Z.eqb_neq. nia.
  - now apply words_length.
  - apply (decoded_words _ (w * k)); [unfold rescaled; tauto | | lia].
    clear - F. induction F as [| v t vs ts [_ H] _ IH]; constructor; assumption.
Qed.

(* C53.  The same for the text format, with up to 65535 levels. *)
Theorem ppm_ascii_decode : forall w h m s1 s2 s3 s4 items buf,
  separators s1 s2 s3 s4 -> N.of_nat (w * h) < 2 ^ 32 -> N.of_nat w < 2 ^ 32 -> N.of_nat h < 2 ^ 32 ->
  1 <= m <= 65535 ->
  Forall (fun p => Forall blank (snd p) /\ snd p <> [] /\ fst p <= m) items ->
  length items = (3 * (w * h))%nat -> (w * h <= length buf)%nat ->
  exists pixels,
    ppm_read (ppm_file 51 (N.of_nat w) (N.of_nat h) m s1 s2 s3 s4 (ascii_body items)) buf =
      Ok (pixels ++ skipn (w * h) buf, true) /\
    length pixels = (w * h)%nat /\ decoded (rescaled 2 m) (map fst items) pixels.
Proof.
  intros w h m s1 s2 s3 s4 items buf Hsep Hwh Hw Hh Hm Hi Hl Hb.
  rewrite ppm_read_header by (try assumption; try lia; auto).
  change (51 =? 51) with true. cbn match.
  rewrite <- Nat2N.inj_mul, (u32_small (N.of_nat (w * h))), Nat2N.id by exact Hwh.
  destruct (Forall2_exists _ _ (fun v t => sample_clamp m v = Ok t /\ rescaled 2 m v t) (map fst items)) as [ts F].
  { intros v Hv. apply in_map_iff in Hv. destruct Hv as (p & <- & Hp). rewrite Forall_forall in Hi.
    apply sample_clamp_rescaled; [exact Hm | now apply Hi]. }
  destruct Hsep as (B1 & B2 & N2 & B3 & N3 & B4).
  assert (R := read_ascii_ok (w * h) m [s4] items ts None None buf 0
    ltac:(constructor; [exact B4 | constructor])).
  change ([s4] ++ ascii_body items) with (s4 :: ascii_body items) in R. rewrite R; try lia.
  - cbn [bind]. change (Z.to_nat 0) with 0%nat. cbn [firstn app Nat.add].
    assert (Lts : length ts = (3 * (w * h))%nat)
      by (rewrite <- (Forall2_len _ _ _ _ _ F), map_length; lia).
    exists (words ts). split; [reflexivity |]. split; [now apply words_length |].
    apply (decoded_words _ (w * h)); [unfold rescaled; tauto | | rewrite map_length; lia].
    clear - F. induction F as [| v t vs ts [_ H] _ IH]; constructor; assumption.
  - eapply Forall_impl; [| exact Hi]. cbn beta. intros p (H1 & H2 & H3). repeat split; auto. lia.
  - clear - F. induction F as [| v t vs ts [H _] _ IH]; constructor; assumption.
Qed.

(* C09.  Every image whose byte count fits an int is written, has the same
   dimensions and reads back with the same colours and full alpha. *)
Theorem ppm_round_trip : forall w h data buf,
  (1 <= w)%nat -> (1 <= h)%nat -> (3 * (Z.of_nat w * Z.of_nat h) < 2 ^ 31)%Z ->
  length data = (w * h)%nat -> length buf = (w * h)%nat -> Forall (fun p => p < 2 ^ 32) data ->
  exists f, ppm_write (Z.of_nat w) (Z.of_nat h) data = Ok (f, true) /\
    ppm_valid f = Ok true /\ ppm_dimensions f = Ok (Some (N.of_nat w, N.of_nat h)) /\
    ppm_read f buf = Ok (map (fun p => N.lor p 255) data, true).
Proof.
  intros w h data buf Hw Hh Hwh Hd Hb Hp.
  assert (Hn : (3 * N.of_nat (w * h) < 2 ^ 31)) by lia.
  set (f := ppm_file 54 (N.of_nat w) (N.of_nat h) 255 [32] [32] [32] 32 (flat_map px_bytes data)).
  assert (Ew : ppm_write (Z.of_nat w) (Z.of_nat h) data = Ok (f, true)).
  { unfold ppm_write. destruct (Z.ltb_spec (Z.of_nat w) 0); [lia |].
    destruct (Z.ltb_spec (Z.of_nat h) 0); [lia |]. cbn [orb].
    rewrite ck_ok by nia. cbn [bind]. rewrite <- Nat2Z.inj_mul, Nat2Z.id.
    rewrite write_pixels_ok by lia. change (Z.to_nat 0) with 0%nat. cbn [skipn bind].
    rewrite ck_ok by nia. cbn [bind]. rewrite firstn_all2 by lia.
    f_equal. f_equal.
    - unfold f, ppm_file. rewrite !nat_N_Z || idtac.
      replace (Z.to_N (Z.of_nat w)) with (N.of_nat w) by lia.
      replace (Z.to_N (Z.of_nat h)) with (N.of_nat h) by lia.
      change (dec 255) with [50; 53; 53]. cbn [app]. rewrite <- ?app_assoc. cbn [app]. reflexivity.
    - apply Z.eqb_eq. assert (L : length (flat_map px_bytes data) = (3 * length data)%nat).
      { clear. induction data as [| p l IH]; [reflexivity |]. cbn [flat_map length].
        rewrite app_length, IH. cbn [px_bytes length]. lia. }
      rewrite L. nia. }
  exists f. split; [exact Ew |]. split; [reflexivity |]. split.
  - apply ppm_dimensions_header; [apply default_separators | nia | nia | auto].
  - unfold f. rewrite ppm_read_header by (try apply default_separators; try lia; try nia; auto).
    change (54 =? 51) with false. change (255 <=? 255) with true. cbn match.
    rewrite !Nat2N.id, (u32_small (N.of_nat w * 3)) by nia.
    rewrite <- Nat2N.inj_mul, (u32_small (N.of_nat (w * h))) by lia.
    assert (R := read_rows_ok N (fun v => [v]) 1 (next8 255) (fun v t => v <= 255 /\ t = v)
      (fun v => eq_refl)).
    specialize (R ltac:(intros v t l [Hv ->]; cbn [app next8]; rewrite (sample8_exact v Hv); reflexivity)).
    set (bytes := flat_map px_bytes data) in *.
    assert (Lb : length bytes = (3 * w * h)%nat).
    { unfold bytes. transitivity (3 * length data)%nat; [| lia]. clear.
      induction data as [| p l IH]; [reflexivity |]. cbn [flat_map length].
      rewrite app_length, IH. cbn [px_bytes length]. lia. }
    assert (F : Forall2 (fun v t => v <= 255 /\ t = v) bytes bytes).
    { unfold bytes. clear. induction data as [| p l IH]; [constructor |]. cbn [flat_map px_bytes app].
      destruct (PixelProofs.px_bytes p) as (H1 & H2 & H3).
      repeat (constructor; [split; [lia | reflexivity] |]). exact IH. }
    specialize (R h h w bytes bytes [] (N.of_nat w * 3) buf 0%Z Hw (le_n 1) ltac:(lia) F Lb (le_n h)
      (or_introl eq_refl) ltac:(lia) ltac:(lia)).
    rewrite app_nil_r in R.
    assert (Ef : flat_map (fun v => [v]) bytes = bytes) by (clear; induction bytes; cbn; congruence).
    rewrite Ef in R. rewrite R. cbn [bind]. change (Z.to_nat 0) with 0%nat. cbn [firstn app Nat.add].
    rewrite skipn_all2, app_nil_r by lia. f_equal. f_equal.
    + unfold bytes. clear - Hp. induction Hp as [| p l Hp _ IH]; [reflexivity |].
      cbn [flat_map px_bytes app words map]. rewrite IH. f_equal. now apply px_make_self.
    + apply Z.eqb_eq. lia.
Qed.

Example ppm_round_trip_ex : exists f,
  ppm_write 2 2 [0x01020304; 0xFFFFFFFF; 0x30303030; 0x20202020] = Ok (f, true) /\ length f = 23%nat /\
  ppm_read f [7; 7; 7; 7] = Ok ([0x010203FF; 0xFFFFFFFF; 0x303030FF; 0x202020FF], true).
Proof. eexists. split; [vm_compute; reflexivity | split; vm_compute; reflexivity]. Qed.

Example ppm_ascii_ex : (* "P3\n1 1\n100\n0 50 100\n" *)
  ppm_read (ppm_file 51 1 1 100 [10] [32] [10] 10 (ascii_body [(0, [32]); (50, [32]); (100, [10])])) [0] =
  Ok ([colour 0 127 255], true).
Proof. vm_compute. reflexivity. Qed.

(* ---- where the reader departs from the format ---- *)

(* Two bytes per sample: the low byte is ignored, so that white is not white
   and small samples vanish. *)
Theorem ppm_16bit_refuted : forall m s1 s2 s3 s4 r0 r1 g0 g1 b0 b1 x y z buf,
  separators s1 s2 s3 s4 -> 255 < m < 2 ^ 16 ->
  is_byte r0 -> is_byte g0 -> is_byte b0 -> is_byte r1 -> is_byte g1 -> is_byte b1 ->
  is_byte x -> is_byte y -> is_byte z ->
  ppm_read (ppm_file 54 1 1 m s1 s2 s3 s4 [r0; r1; g0; g1; b0; b1]) buf =
  ppm_read (ppm_file 54 1 1 m s1 s2 s3 s4 [r0; x; g0; y; b0; z]) buf.
Proof.
  intros m s1 s2 s3 s4 r0 r1 g0 g1 b0 b1 x y z buf Hsep Hm Hr0 Hg0 Hb0 Hr1 Hg1 Hb1 Hx Hy Hz.
  rewrite !ppm_read_header by (try assumption; try lia; auto).
  change (54 =? 51) with false. destruct (N.leb_spec m 255); [lia |]. cbn match.
  change (2 * u32 (1 * 3)) with 6. change (N.to_nat 1) with 1%nat.
  cbn [read_rows length N.of_nat N.eqb orb Pos.of_succ_nat Pos.succ].
  change (6 <? 6) with false. cbn match. change (N.to_nat 6) with 6%nat. cbn [firstn].
  cbn [read_pixels next16].
  assert (E : forall a b c, is_byte a -> is_byte b -> is_byte c ->
    UtilModel.endianness_big16 (dle16 a b) = UtilModel.endianness_big16 (dle16 a c)).
  { intros a b c Ha Hb Hc. unfold UtilModel.endianness_big16, dle16, u16, is_byte in *.
    change 0xFF with (N.ones 8). rewrite !N.land_ones, !N.shiftr_div_pow2, !N.shiftl_mul_pow2.
    rewrite !(N.div_small (_ mod 2 ^ 8)) by (apply N.mod_lt; discriminate).
    rewrite !N.lor_0_l. change (2 ^ 16) with (2 ^ 8 * 2 ^ 8).
    rewrite !N.mul_mod_distr_r by discriminate. f_equal.
    rewrite (N.mul_comm 256 b), (N.mul_comm 256 c). change 256 with (2 ^ 8).
    now rewrite !N.mod_add by discriminate. }
  rewrite (E r0 r1 x) by assumption. destruct (sample_clamp m _); cbn [bind next16]; try reflexivity.
  rewrite (E g0 g1 y) by assumption. destruct (sample_clamp m _); cbn [bind next16]; try reflexivity.
  rewrite (E b0 b1 z) by assumption. reflexivity.
Qed.

Example ppm_16bit_white : (* white, and 255 out of 256 *)
  ppm_read (ppm_file 54 1 1 65535 [10] [32] [10] 10 [255; 255; 255; 255; 255; 255]) [0] =
    Ok ([colour 254 254 254], true) /\
  ppm_read (ppm_file 54 1 1 256 [10] [32] [10] 10 [0; 255; 0; 255; 0; 255]) [0] =
    Ok ([colour 0 0 0], true).
Proof. split; vm_compute; reflexivity. Qed.

(* A sample above the declared maximum: an undefined conversion with one byte
   per sample. *)
Theorem ppm_sample_overflow_refuted : forall m v, 1 <= m < v -> v <= 255 -> sample8 m v = UB.
Proof.
  intros m v Hm Hv. unfold sample8. destruct (N.eqb_spec m 0); [lia |]. destruct (N.eqb_spec v 0); [lia |].
  assert (C := sample_chain (Z.of_N v) (Z.of_N m) ltac:(lia) ltac:(lia)).
  destruct (fl_frac (Z.of_N v) (Z.of_N m)) as [a d]. unfold to_byte.
  destruct (fl_frac (a * 255) d) as [n2 d2]. destruct C as (P1 & P2 & P3 & P4 & _ & C2).
  destruct (Z.eqb_spec a 0); [lia |].
  assert (T : (256 * d2 <= n2)%Z).
  { assert (G : (256 * Z.of_N m + 1 <= 255 * Z.of_N v)%Z) by lia.
    assert (G2 : ((256 * Z.of_N m + 1) * d2 * ((2 ^ 24 - 1) * (2 ^ 24 - 1)) <= n2 * Z.of_N m * 2 ^ 48)%Z).
    { etransitivity; [| exact C2]. apply Z.mul_le_mono_nonneg_r; [lia |]. apply Z.mul_le_mono_nonneg_r; lia. }
    apply (Z.mul_le_mono_pos_r _ _ (Z.of_N m * 2 ^ 48)); [lia |].
    etransitivity; [| rewrite Z.mul_assoc; exact G2].
    replace (256 * d2 * (Z.of_N m * 2 ^ 48))%Z with (256 * Z.of_N m * 2 ^ 48 * d2)%Z by ring.
    replace ((256 * Z.of_N m + 1) * d2 * ((2 ^ 24 - 1) * (2 ^ 24 - 1)))%Z with
      ((256 * Z.of_N m + 1) * ((2 ^ 24 - 1) * (2 ^ 24 - 1)) * d2)%Z by ring.
    apply Z.mul_le_mono_nonneg_r; lia. }
  destruct (Z.leb_spec (n2 / d2) 255) as [Hle |]; [| reflexivity]. exfalso.
  assert (256 <= n2 / d2)%Z by (apply Z.div_le_lower_bound; lia). lia.
Qed.

(* ... and almost black, instead of saturated, in the text format. *)
Theorem ppm_clamp_refuted : forall m v, 1 <= m < v -> v <= 65535 -> sample_clamp m v = Ok 1.
Proof.
  intros m v Hm Hv. unfold sample_clamp. destruct (N.eqb_spec m 0); [lia |]. destruct (N.eqb_spec v 0); [lia |].
  assert (C := fl_frac_rel (Z.of_N v) (Z.of_N m) ltac:(lia) ltac:(lia)).
  destruct (fl_frac (Z.of_N v) (Z.of_N m)) as [a d]. destruct C as (P1 & P2 & C).
  destruct (Z.ltb_spec d a) as [| L]; [reflexivity | exfalso].
  assert (G : (a * Z.of_N m <= d * Z.of_N m)%Z) by (apply Z.mul_le_mono_nonneg_r; lia).
  assert (G2 : ((Z.of_N m + 1) * d <= Z.of_N v * d)%Z) by (apply Z.mul_le_mono_nonneg_r; lia).
  assert (G3 : (Z.of_N v * d <= 65535 * d)%Z) by (apply Z.mul_le_mono_nonneg_r; lia). lia.
Qed.

Example ppm_clamp_ex : (* "P3 1 1 100 200 200 200\n" *)
  ppm_read (ppm_file 51 1 1 100 [32] [32] [32] 32 (ascii_body [(200, [32]); (200, [32]); (200, [10])])) [0] =
    Ok ([colour 1 1 1], true) /\
  ppm_read (ppm_file 54 1 1 100 [32] [32] [32] 32 [200; 0; 0]) [0] = UB.
Proof. split; vm_compute; reflexivity. Qed.

Print Assumptions ppm_round_trip.
Print Assumptions ppm_binary_decode.
Print Assumptions ppm_ascii_decode.
Print Assumptions ppm_16bit_refuted.
Print Assumptions ppm_sample_overflow_refuted.
Print Assumptions ppm_clamp_refuted.
