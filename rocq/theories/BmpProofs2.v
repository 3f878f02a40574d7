From Verif Require Import Common ByteLemmas ArrayIO PixelModel PixelProofs BmpModel BmpSpec BmpProofs.
Local Open Scope Z_scope.

(* ---- reading back the header ---- *)

Lemma byte_app1 : forall a b i, (i < length a)%nat -> byte (a ++ b) i = byte a i.
Proof. intros a b i H. unfold byte. now rewrite app_nth1. Qed.

Lemma byte_app2 : forall a b i, byte (a ++ b) (length a + i) = byte b i.
Proof.
  intros a b i. unfold byte. rewrite app_nth2 by lia. f_equal. lia.
Qed.

Section Header.
Context (W H : Z) (size : N) (rest : list N).
Let f := header_bytes W H size ++ rest.

Lemma header_len : length (header_bytes W H size) = 54%nat.
Proof. reflexivity. Qed.

Lemma hdr_has : has_header f = true.
Proof. unfold has_header, f. rewrite app_length, header_len. reflexivity. Qed.

Lemma hdr_signature : h_signature f = BMP_MAGIC.
Proof. reflexivity. Qed.
Lemma hdr_offset : h_data_offset f = 54%N.
Proof. reflexivity. Qed.
Lemma hdr_bpp : h_bpp f = 24%N.
Proof. reflexivity. Qed.
Lemma hdr_compression : h_compression f = 0%N.
Proof. reflexivity. Qed.
Lemma hdr_palette : h_palette f = 0%N.
Proof. reflexivity. Qed.
Lemma hdr_size : (size < 2 ^ 32)%N -> h_file_size f = size.
Proof. intros Hs. exact (dle32_le32 size Hs). Qed.
Lemma hdr_width : - 2 ^ 31 <= W < 2 ^ 31 -> h_width f = W.
Proof.
  intros Hw. unfold h_width.
  change (f32 f 18) with
    (dle32 (pat32 W mod 256) ((pat32 W / 256) mod 256) ((pat32 W / 65536) mod 256)
       ((pat32 W / 16777216) mod 256)).
  rewrite dle32_le32 by apply pat32_word. now apply int32_pat32.
Qed.
Lemma hdr_height : 0 <= H < 2 ^ 31 -> h_height f = - H.
Proof.
  intros Hh. unfold h_height.
  change (f32 f 22) with
    (dle32 (pat32 (- Z.abs H) mod 256) ((pat32 (- Z.abs H) / 256) mod 256)
       ((pat32 (- Z.abs H) / 65536) mod 256) ((pat32 (- Z.abs H) / 16777216) mod 256)).
  rewrite dle32_le32 by apply pat32_word. rewrite int32_pat32 by lia. lia.
Qed.
Lemma hdr_valid : bmp_valid f = true.
Proof.
  unfold bmp_valid. rewrite hdr_has, hdr_signature, hdr_compression, hdr_palette, hdr_bpp.
  reflexivity.
Qed.
Lemma hdr_stream : skipn (N.to_nat (h_data_offset f)) f = rest.
Proof.
  rewrite hdr_offset. unfold f. change (N.to_nat 54) with 54%nat.
  rewrite skipn_app. rewrite skipn_all2 by (rewrite header_len; lia).
  rewrite header_len, Nat.sub_diag. reflexivity.
Qed.
End Header.

(* ---- bytes of the rows ---- *)

Lemma row_bytes_byte : forall l x c, (x < length l)%nat -> (c < 3)%nat ->
  byte (row_bytes l) (3 * x + c) =
  (if (c =? 0)%nat then px_blue (nth x l 0%N) else
   if (c =? 1)%nat then px_green (nth x l 0%N) else px_red (nth x l 0%N)).
Proof.
  intros l. induction l as [| p l IH]; intros x c Hx Hc; cbn [length] in Hx; [lia |].
  destruct x as [| x].
  - destruct c as [| [| [| c]]]; try lia; reflexivity.
  - replace (3 * S x + c)%nat with (S (S (S (3 * x + c)))) by lia.
    change (byte (row_bytes (p :: l)) (S (S (S (3 * x + c)))))
      with (byte (row_bytes l) (3 * x + c)).
    rewrite IH by lia. reflexivity.
Qed.

Lemma nth_firstn' : forall (l : list N) n i, (i < n)%nat -> nth i (firstn n l) 0%N = nth i l 0%N.
Proof. intros l n i H. exact (byte_firstn l n i H). Qed.

Lemma nth_skipn' : forall (l : list N) n i, nth i (skipn n l) 0%N = nth (n + i) l 0%N.
Proof. intros l n i. exact (byte_skipn l n i). Qed.

Lemma rows_bytes_byte : forall n w pad data r x c,
  (n * w <= length data)%nat -> (r < n)%nat -> (x < w)%nat -> (c < 3)%nat ->
  byte (rows_bytes n w pad data) (r * (3 * w + length pad) + 3 * x + c) =
  (if (c =? 0)%nat then px_blue (nth (r * w + x) data 0%N) else
   if (c =? 1)%nat then px_green (nth (r * w + x) data 0%N)
   else px_red (nth (r * w + x) data 0%N)).
Proof.
  intros n. induction n as [| n IH]; intros w pad data r x c Hd Hr Hx Hc; [lia |].
  cbn [rows_bytes].
  assert (Hfl : length (firstn w data) = w) by (rewrite firstn_length; nia).
  destruct r as [| r].
  - replace (0 * (3 * w + length pad) + 3 * x + c)%nat with (3 * x + c)%nat by lia.
    replace (0 * w + x)%nat with x by lia. rewrite byte_app1 by (rewrite row_bytes_length, Hfl; lia).
    rewrite row_bytes_byte by (rewrite ?Hfl; lia).
    rewrite nth_firstn' by exact Hx. reflexivity.
  - replace (S r * (3 * w + length pad) + 3 * x + c)%nat with
      (length (row_bytes (firstn w data)) +
       (length pad + (r * (3 * w + length pad) + 3 * x + c)))%nat
      by (rewrite row_bytes_length, Hfl; lia).
    rewrite byte_app2, byte_app2.
    rewrite IH by (try assumption; try lia; rewrite skipn_length; nia).
    rewrite nth_skipn'. replace (w + (r * w + x))%nat with (S r * w + x)%nat by lia.
    reflexivity.
Qed.

Lemma pad_length : forall g W, 0 <= W ->
  Z.of_nat (length (bmp_pad g W)) = Z.rem (W * 3) 4.
Proof.
  intros g W HW. unfold bmp_pad. rewrite map_length, seq_length.
  pose proof (rem4_bounds (W * 3) ltac:(lia)). lia.
Qed.

Lemma rows_bytes_pix : forall g W H data r x,
  0 < W -> Z.of_nat (length data) = W * H -> 0 <= r < H -> 0 <= x < W ->
  let L := W * 3 + Z.rem (W * 3) 4 in
  let rows := rows_bytes (Z.to_nat H) (Z.to_nat W) (bmp_pad g W) data in
  byte rows (Z.to_nat (r * L + x * 3 + 0)) = px_blue (nth (Z.to_nat (r * W + x)) data 0%N) /\
  byte rows (Z.to_nat (r * L + x * 3 + 1)) = px_green (nth (Z.to_nat (r * W + x)) data 0%N) /\
  byte rows (Z.to_nat (r * L + x * 3 + 2)) = px_red (nth (Z.to_nat (r * W + x)) data 0%N).
Proof.
  intros g W H data r x HW Hd Hr Hx L rows.
  pose proof (pad_length g W ltac:(lia)) as Hp.
  assert (HL : L = 3 * W + Z.of_nat (length (bmp_pad g W))) by (unfold L; lia).
  assert (HLp : 0 <= r * L).
  { apply Z.mul_nonneg_nonneg; lia. }
  assert (HrW : 0 <= r * W) by (apply Z.mul_nonneg_nonneg; lia).
  assert (Hidx : forall c, (c < 3)%nat ->
            Z.to_nat (r * L + x * 3 + Z.of_nat c) =
            (Z.to_nat r * (3 * Z.to_nat W + length (bmp_pad g W)) + 3 * Z.to_nat x + c)%nat).
  { intros c Hc. rewrite HL in *. clear - Hr Hx HLp HW.
    set (p := length (bmp_pad g W)) in *. clearbody p. nia. }
  assert (Hi2 : Z.to_nat (r * W + x) = (Z.to_nat r * Z.to_nat W + Z.to_nat x)%nat).
  { clear - Hr Hx HrW HW. nia. }
  assert (Hdl : (Z.to_nat H * Z.to_nat W <= length data)%nat).
  { clear - Hd HW Hr. nia. }
  rewrite Hi2. unfold rows.
  pose proof (fun c Hc => rows_bytes_byte (Z.to_nat H) (Z.to_nat W) (bmp_pad g W) data
                (Z.to_nat r) (Z.to_nat x) c Hdl ltac:(lia) ltac:(lia) Hc) as Hb.
  change 0 with (Z.of_nat 0) at 1. change 1 with (Z.of_nat 1). change 2 with (Z.of_nat 2).
  rewrite !Hidx by lia. rewrite !Hb by lia. cbn [Nat.eqb]. auto.
Qed.

Lemma rows_bytes_len : forall g W H data,
  0 <= W -> 0 <= H -> Z.of_nat (length data) = W * H ->
  Z.of_nat (length (rows_bytes (Z.to_nat H) (Z.to_nat W) (bmp_pad g W) data)) =
  H * (W * 3 + Z.rem (W * 3) 4).
Proof.
  intros g W H data HW HH Hd.
  rewrite rows_bytes_length by nia.
  pose proof (pad_length g W HW) as Hp.
  set (p := length (bmp_pad g W)) in *. rewrite <- Hp. clearbody p. clear - HW HH. nia.
Qed.

(* ---- round trip ---- *)

Lemma bmp_round_trip_lemma : forall g W H data,
  0 < W -> 0 < H -> W * 24 + 31 < 2 ^ 31 -> fsize W H < 2 ^ 31 -> W * H * 3 < 2 ^ 31 ->
  Z.of_nat (length data) = W * H -> Forall (fun p => (p < 2 ^ 32)%N) data ->
  exists f, bmp_write g W H data = Ok (f, true) /\
    bmp_valid f = true /\
    bmp_dimensions f = Ok (Some (W, H)) /\
    forall buf, length buf = length data ->
      bmp_read f buf = Ok (map (fun p => N.lor p 255) data, true).
Proof.
  intros g W H data HW HH H24 Hfs HWH Hd Hw.
  assert (HWH31 : W * H < 2 ^ 31) by nia.
  assert (HH31 : H < 2 ^ 31) by nia.
  eexists. split.
  { apply bmp_write_ok; [| exact Hd]. unfold bmp_writable. lia. }
  set (rows := rows_bytes (Z.to_nat H) (Z.to_nat W) (bmp_pad g W) data).
  set (f := header_bytes W H (pat32 (fsize W H)) ++ rows).
  assert (Hv : bmp_valid f = true) by apply hdr_valid.
  assert (EW : h_width f = W) by (apply hdr_width; lia).
  assert (EH : h_height f = - H) by (apply hdr_height; lia).
  assert (Es : skipn (N.to_nat (h_data_offset f)) f = rows) by apply hdr_stream.
  assert (Eb : h_bpp f = 24%N) by apply hdr_bpp.
  split; [exact Hv |]. split.
  { unfold bmp_dimensions. unfold f at 1 2. rewrite hdr_has, hdr_signature.
    cbn [andb N.eqb]. rewrite N.eqb_refl. rewrite EH, EW.
    destruct (Z.leb_spec 0 (- H)); [lia |].
    rewrite ck_ok by lia. cbn [bind]. do 4 f_equal. lia. }
  intros buf Hbuf.
  assert (Hbpp : Z.of_N (N.shiftr (h_bpp f) 3) = 3) by (rewrite Eb; reflexivity).
  assert (Hrem : 0 <= Z.rem (W * 3) 4 < 4) by (apply rem4_bounds; lia).
  set (L := W * 3 + Z.rem (W * 3) 4) in *.
  assert (EL : row_len f = L).
  { unfold row_len. rewrite EW, Hbpp. reflexivity. }
  assert (Hlen : Z.of_nat (length rows) = H * L) by (apply rows_bytes_len; lia).
  assert (HLp : 0 < L) by lia.
  destruct (bmp_read_ok f buf W (- H) 3 Hv EW EH Hbpp) as (buf' & E & Hl & Hn);
    try (clear - HW HH HH31; lia).
  { clear - H24. lia. }
  { clear - HWH31 HH. replace (Z.abs (- H)) with H by lia. exact HWH31. }
  { clear - Hbuf Hd HH. replace (Z.abs (- H)) with H by lia. lia. }
  rewrite EL, Es in *. replace (Z.abs (- H)) with H in * by lia.
  rewrite Hlen in *. rewrite Z.div_mul in * by lia. rewrite Z.min_id in *.
  destruct (Z.eqb_spec W 0) as [Hc | _]; [lia |].
  rewrite Z.eqb_refl in E. rewrite E. do 2 f_equal.
  apply list_ext.
  - rewrite map_length. lia.
  - intros i Hi.
    assert (Hi2 : 0 <= Z.of_nat i < W * H) by lia.
    set (y := Z.of_nat i / W). set (x := Z.of_nat i mod W).
    assert (Hx : 0 <= x < W) by (apply Z.mod_pos_bound; lia).
    assert (Hy : 0 <= y < H).
    { split; [apply Z.div_pos; lia | apply Z.div_lt_upper_bound; lia]. }
    assert (Hxy : Z.of_nat i = y * W + x).
    { unfold x, y. pose proof (Z.div_mod (Z.of_nat i) W). lia. }
    assert (Hi3 : i = Z.to_nat (y * W + x)) by lia.
    specialize (Hn x y Hx Hy). rewrite <- Hi3 in Hn. rewrite Hn.
    assert (Hfr : file_row (- H) y = y).
    { unfold file_row. destruct (Z.ltb_spec (- H) 0); [reflexivity | lia]. }
    rewrite Hfr. destruct (Z.ltb_spec y H) as [_ | Hc]; [| lia].
    destruct (rows_bytes_pix g W H data y x HW Hd Hy Hx) as (Bb & Bg & Br).
    fold L rows in Bb, Bg, Br.
    unfold pix. cbn [Z.eqb]. rewrite Bb, Bg, Br, <- Hi3.
    assert (Hid : (i < length data)%nat) by lia.
    rewrite nth_error_map. rewrite (nth_error_nth' data 0%N Hid). cbn [option_map].
    f_equal. apply px_make_self.
    rewrite Forall_forall in Hw. apply Hw. apply nth_In. exact Hid.
Qed.

(* ---- memory safety ---- *)

Lemma bmp_dimensions_inv : forall f W H, bmp_dimensions f = Ok (Some (W, H)) ->
  h_width f = W /\ Z.abs (h_height f) = H /\ h_height f <> - 2 ^ 31.
Proof.
  intros f W H. unfold bmp_dimensions.
  pose proof (int32_bounds (f32 f 22)) as HHb. fold (h_height f) in HHb.
  destruct (has_header f && (h_signature f =? BMP_MAGIC)%N)%bool; [| discriminate].
  destruct (Z.leb_spec 0 (h_height f)).
  - intros E. injection E as <- <-. lia.
  - destruct (ck (- h_height f)) as [nh | |] eqn:Ec; cbn [bind]; try discriminate.
    intros E. injection E as <- <-. apply ck_inv in Ec. lia.
Qed.

Lemma bmp_safe_lemma : forall f W H buf,
  bmp_dimensions f = Ok (Some (W, H)) ->
  0 <= W -> 1 <= H -> W * 4 + 3 < 2 ^ 31 -> W * H < 2 ^ 31 ->
  Z.of_nat (length buf) = W * H ->
  exists buf' ok, bmp_read f buf = Ok (buf', ok) /\ length buf' = length buf /\
    (ok = true -> forall buf2, length buf2 = length buf -> bmp_read f buf2 = Ok (buf', true)).
Proof.
  intros f W H buf Hdim HW HH HW4 HWH Hbuf.
  apply bmp_dimensions_inv in Hdim. destruct Hdim as (EW & EH & EHm).
  destruct (bmp_valid f) eqn:Hv.
  2: { exists buf, false. unfold bmp_read. rewrite Hv. cbn [negb].
       split; [reflexivity |]. split; [reflexivity | discriminate]. }
  remember (h_height f) as Hs eqn:EHs. symmetry in EHs.
  assert (Hs0 : Hs <> 0) by (clear - EH HH; lia).
  rewrite <- EH in HWH, Hbuf.
  destruct (bmp_read_ok f buf W Hs _ Hv EW EHs eq_refl HW Hs0 EHm HW4 HWH Hbuf)
    as (buf' & E & Hl & Hn).
  set (stream := skipn (N.to_nat (h_data_offset f)) f) in *.
  set (L := row_len f) in *. set (bpp := Z.of_N (N.shiftr (h_bpp f) 3)) in *.
  set (k := if W =? 0 then 0 else Z.min (Z.abs Hs) (Z.of_nat (length stream) / L)) in *.
  exists buf', (k * W =? Z.abs Hs * W). split; [exact E |]. split; [exact Hl |].
  intros Hok buf2 Hlen2. apply Z.eqb_eq in Hok.
  destruct (bmp_read_ok f buf2 W Hs _ Hv EW EHs eq_refl HW Hs0 EHm HW4 HWH) as (b2 & E2 & Hl2 & Hn2).
  { rewrite Hlen2. exact Hbuf. }
  fold stream L bpp k in E2, Hn2. rewrite E2. rewrite (proj2 (Z.eqb_eq _ _) Hok).
  do 2 f_equal. apply list_ext; [congruence |].
  intros i Hi.
  assert (Hi2 : 0 <= Z.of_nat i < W * Z.abs Hs) by (clear - Hi Hl2 Hlen2 Hbuf; lia).
  assert (HW1 : 0 < W) by (clear - Hi2 HW; nia).
  assert (Hk : k = Z.abs Hs) by (clear - Hok HW1; nia).
  set (y := Z.of_nat i / W). set (x := Z.of_nat i mod W).
  assert (Hx : 0 <= x < W) by (apply Z.mod_pos_bound; exact HW1).
  assert (Hy : 0 <= y < Z.abs Hs).
  { split; [apply Z.div_pos; lia | apply Z.div_lt_upper_bound; lia]. }
  assert (Hxy : Z.of_nat i = y * W + x).
  { unfold x, y. pose proof (Z.div_mod (Z.of_nat i) W). clear - H0 HW1. lia. }
  assert (Hi3 : i = Z.to_nat (y * W + x)) by (clear - Hxy; lia).
  specialize (Hn x y Hx Hy). specialize (Hn2 x y Hx Hy). rewrite <- Hi3 in Hn, Hn2.
  assert (Hfr : file_row Hs y < k).
  { rewrite Hk. unfold file_row. clear - Hy. destruct (Z.ltb_spec Hs 0); lia. }
  destruct (Z.ltb_spec (file_row Hs y) k) as [_ | Hc]; [| clear - Hfr Hc; lia].
  congruence.
Qed.

Lemma bmp_zero_height_lemma : forall f W buf,
  bmp_valid f = true -> bmp_dimensions f = Ok (Some (W, 0)) -> bmp_read f buf = UB.
Proof.
  intros f W buf Hv Hd. apply bmp_dimensions_inv in Hd. destruct Hd as (EW & EH & _).
  unfold bmp_read. rewrite Hv. cbn [negb].
  replace (h_height f) with 0 by lia.
  unfold ck. destruct (_ && _)%bool; cbn [bind]; reflexivity.
Qed.

Lemma bmp_negative_width_lemma : forall f W H buf,
  bmp_valid f = true -> bmp_dimensions f = Ok (Some (W, H)) -> W < 0 -> bmp_read f buf = UB.
Proof.
  intros f W H buf Hv Hd HW. apply bmp_dimensions_inv in Hd. destruct Hd as (EW & EH & _).
  unfold bmp_read. rewrite Hv. cbn [negb]. rewrite EW.
  set (bpp := Z.of_N (N.shiftr (h_bpp f) 3)).
  assert (Hb : bpp = 3 \/ bpp = 4).
  { destruct (bmp_bpp f Hv) as [[_ E] | [_ E]]; unfold bpp; rewrite E; lia. }
  clearbody bpp.
  destruct (ck (W * bpp)) as [wb | |] eqn:E1; cbn [bind]; try reflexivity.
  2: { unfold ck in E1. destruct (_ && _)%bool; discriminate. }
  destruct (ck (- h_height f)) as [nh | |] eqn:E2; cbn [bind]; try reflexivity.
  2: { unfold ck in E2. destruct (_ && _)%bool; discriminate. }
  destruct (Z.eqb_spec (h_height f) 0); [reflexivity |].
  destruct (ck (wb + Z.rem wb 4)) as [rl | |] eqn:E3; cbn [bind]; try reflexivity.
  2: { unfold ck in E3. destruct (_ && _)%bool; discriminate. }
  apply ck_inv in E1. apply ck_inv in E3. destruct E1 as [-> _]. destruct E3 as [-> _].
  assert (Hr : Z.rem (W * bpp) 4 <= 0) by (apply Z.rem_nonpos; nia).
  destruct (Z.ltb_spec (W * bpp + Z.rem (W * bpp) 4) 0) as [_ | Hc]; [reflexivity |].
  nia.
Qed.

(* ---- format conformance ---- *)

Lemma le_at4 : forall f pos, (pos + 4 <= length f)%nat -> le_at f 4 pos = Some (f32 f pos).
Proof.
  intros f pos Hl. unfold le_at. rewrite (proj2 (Nat.leb_le _ _) Hl).
  cbn [seq fold_right]. unfold f32, dle32, byte. f_equal.
  rewrite !(Nat.add_comm pos). cbn [Nat.add]. lia.
Qed.

Lemma le_at2 : forall f pos, (pos + 2 <= length f)%nat -> le_at f 2 pos = Some (f16 f pos).
Proof.
  intros f pos Hl. unfold le_at. rewrite (proj2 (Nat.leb_le _ _) Hl).
  cbn [seq fold_right]. unfold f16, dle16, byte. f_equal.
  rewrite !(Nat.add_comm pos). cbn [Nat.add]. lia.
Qed.

Lemma le_at1 : forall f pos, (pos + 1 <= length f)%nat -> le_at f 1 pos = Some (byte f pos).
Proof.
  intros f pos Hl. unfold le_at. rewrite (proj2 (Nat.leb_le _ _) Hl).
  cbn [seq fold_right]. unfold byte. f_equal. rewrite Nat.add_0_r. lia.
Qed.

Lemma rem3_even : forall W, 0 <= W -> Z.even W = true ->
  W * 3 + Z.rem (W * 3) 4 = std_stride24 W.
Proof.
  intros W HW He. apply Z.even_spec in He. destruct He as [m ->].
  rewrite Z.rem_mod_nonneg by lia. unfold std_stride24. dlia.
Qed.

Lemma stride_odd : forall W, 0 <= W -> Z.odd W = true ->
  (W * 3 + Z.rem (W * 3) 4) mod 4 = 2.
Proof.
  intros W HW He. apply Z.odd_spec in He. destruct He as [m ->].
  rewrite Z.rem_mod_nonneg by lia. dlia.
Qed.

Lemma signed_int32 : forall n, (n < 2 ^ 32)%N -> signed32 n = int32 n.
Proof. intros n H. unfold signed32, int32. now rewrite N.mod_small. Qed.

(* The code's reader agrees with the format for 24-bit files of even width. *)
Lemma bmp_read_standard_lemma : forall f W H buf buf',
  Forall (fun b => (b < 256)%N) f ->
  bmp_valid f = true -> h_bpp f = 24%N ->
  bmp_dimensions f = Ok (Some (W, H)) ->
  0 < W -> 1 <= H -> W * 4 + 3 < 2 ^ 31 -> W * H < 2 ^ 31 -> Z.even W = true ->
  Z.of_nat (length buf) = W * H ->
  bmp_read f buf = Ok (buf', true) ->
  forall x y, 0 <= x < W -> 0 <= y < H ->
    exists r g b, std_bmp24_pixel f x y = Some (r, g, b) /\
      nth_error buf' (Z.to_nat (y * W + x)) = Some (px_make r g b).
Proof.
  intros f W H buf buf' Hby Hv Hb24 Hdim HW HH HW4 HWH Heven Hbuf Hread x y Hx Hy.
  apply bmp_dimensions_inv in Hdim. destruct Hdim as (EW & EH & EHm).
  remember (h_height f) as Hs eqn:EHs. symmetry in EHs. subst H.
  assert (Hs0 : Hs <> 0) by (clear - HH; lia).
  destruct (bmp_read_ok f buf W Hs 3 Hv EW EHs) as (b2 & E & Hl & Hn); try assumption; try lia.
  { rewrite Hb24. reflexivity. }
  rewrite Hread in E.
  set (stream := skipn (N.to_nat (h_data_offset f)) f) in *.
  set (L := row_len f) in *.
  destruct (Z.eqb_spec W 0) as [Hc | _]; [lia |].
  set (k := Z.min (Z.abs Hs) (Z.of_nat (length stream) / L)) in *.
  assert (E2 : b2 = buf' /\ (k * W =? Z.abs Hs * W) = true) by (split; congruence).
  destruct E2 as [-> Hk]. apply Z.eqb_eq in Hk. clear E.
  assert (Hkk : k = Z.abs Hs) by (clear - Hk HW; nia).
  specialize (Hn x y Hx Hy). rewrite Hkk in Hn.
  assert (Hfr : 0 <= file_row Hs y < Z.abs Hs).
  { unfold file_row. clear - Hy. destruct (Z.ltb_spec Hs 0); lia. }
  destruct (Z.ltb_spec (file_row Hs y) (Z.abs Hs)) as [_ | Hc]; [| clear - Hfr Hc; lia].
  assert (EL : L = std_stride24 W).
  { unfold L, row_len. rewrite EW, Hb24. change (Z.of_N (N.shiftr 24 3)) with 3.
    apply rem3_even; [lia | exact Heven]. }
  assert (HLw : W * 3 <= L).
  { unfold L, row_len. rewrite EW, Hb24. change (Z.of_N (N.shiftr 24 3)) with 3.
    pose proof (rem4_bounds (W * 3) ltac:(clear - HW; lia)) as Hrm. clear - Hrm. lia. }
  assert (HLp : 0 < L) by (clear - HLw HW; lia).
  assert (Hlen : Z.abs Hs * L <= Z.of_nat (length stream)).
  { assert (Z.abs Hs <= Z.of_nat (length stream) / L) by (clear - Hkk; lia).
    pose proof (Z.mul_div_le (Z.of_nat (length stream)) L HLp). clear - H H0 HLp. nia. }
  set (o := file_row Hs y * L + x * 3) in *.
  assert (Ho : 0 <= o /\ o + 3 <= Z.of_nat (length stream)).
  { pose proof (row_in L (Z.abs Hs) (file_row Hs y) ltac:(clear - HLp; lia) Hfr) as [Ha Hb].
    unfold o. clear - Ha Hb Hlen HLw Hx HW. nia. }
  assert (Hsl : Z.of_nat (length stream) =
                Z.max 0 (Z.of_nat (length f) - Z.of_N (h_data_offset f))).
  { unfold stream. rewrite skipn_length. clear. lia. }
  assert (Hhas : (54 <= length f)%nat).
  { clear - Hv. unfold bmp_valid, has_header in Hv. rewrite !andb_true_iff in Hv.
    destruct Hv as [[[[Hv _] _] _] _]. apply Nat.leb_le in Hv. exact Hv. }
  assert (Hf32 : forall p, (f32 f p < 2 ^ 32)%N).
  { intros p. unfold f32, dle32.
    assert (Hb : forall i, (byte f i < 256)%N).
    { intros i. unfold byte. destruct (Nat.lt_ge_cases i (length f)) as [Hi | Hi].
      - rewrite Forall_forall in Hby. apply Hby, nth_In, Hi.
      - rewrite nth_overflow by exact Hi. lia. }
    pose proof (Hb p). pose proof (Hb (1 + p)%nat). pose proof (Hb (2 + p)%nat).
    pose proof (Hb (3 + p)%nat). change (2 ^ 32)%N with 4294967296%N.
    clear - H H0 H1 H2. lia. }
  unfold std_bmp24_pixel.
  rewrite (le_at4 f 10), (le_at4 f 18), (le_at4 f 22), (le_at2 f 28), (le_at2 f 0)
    by (clear - Hhas; lia).
  fold (h_data_offset f) (h_bpp f) (h_signature f).
  rewrite !signed_int32 by apply Hf32.
  fold (h_width f) (h_height f). rewrite EW, EHs, Hb24.
  assert (Hsig : h_signature f = 19778%N).
  { clear - Hv. unfold bmp_valid in Hv. rewrite !andb_true_iff in Hv.
    destruct Hv as [[[[_ Hv] _] _] _]. apply N.eqb_eq in Hv. exact Hv. }
  rewrite Hsig. cbn [N.eqb Pos.eqb andb].
  replace ((0 <=? x) && (x <? W) && (0 <=? y) && (y <? Z.abs Hs))%bool with true
    by (clear - Hx Hy; symmetry; rewrite !andb_true_iff; lia).
  cbv zeta. fold (file_row Hs y). rewrite <- EL.
  replace (Z.to_nat (Z.of_N (h_data_offset f) + file_row Hs y * L + x * 3))
    with (N.to_nat (h_data_offset f) + Z.to_nat o)%nat by (unfold o in *; clear - Ho; lia).
  set (off := h_data_offset f) in *.
  rewrite !le_at1 by (clear - Ho Hsl; lia).
  eexists _, _, _. split; [reflexivity |].
  rewrite Hn. f_equal. unfold pix. cbn [Z.eqb]. unfold stream.
  rewrite !byte_skipn.
  replace (Z.to_nat (o + 0)) with (Z.to_nat o) by (clear; f_equal; lia).
  replace (N.to_nat off + Z.to_nat (o + 1))%nat with (N.to_nat off + Z.to_nat o + 1)%nat
    by (clear - Ho; lia).
  replace (N.to_nat off + Z.to_nat (o + 2))%nat with (N.to_nat off + Z.to_nat o + 2)%nat
    by (clear - Ho; lia).
  reflexivity.
Qed.

Lemma header_field_size : forall W H rest, 0 <= fsize W H < 2 ^ 32 ->
  std_file_size (header_bytes W H (pat32 (fsize W H)) ++ rest) = Some (Z.to_N (fsize W H)).
Proof.
  intros W H rest Hf. unfold std_file_size.
  rewrite le_at4 by (rewrite app_length, header_len; lia).
  fold (h_file_size (header_bytes W H (pat32 (fsize W H)) ++ rest)).
  rewrite hdr_size by apply pat32_word. f_equal.
  replace (fsize W H) with (Z.of_N (Z.to_N (fsize W H))) at 1 by lia.
  apply pat32_of_N. change (2 ^ 32)%Z with 4294967296 in Hf.
  change (2 ^ 32)%N with 4294967296%N. lia.
Qed.

Lemma bmp_conformant_even_lemma : forall g W H data,
  0 < W -> 0 < H -> W * 24 + 31 < 2 ^ 31 -> fsize W H < 2 ^ 31 -> W * H * 3 < 2 ^ 31 ->
  Z.even W = true ->
  Z.of_nat (length data) = W * H -> Forall (fun p => (p < 2 ^ 32)%N) data ->
  (forall i, (g i < 256)%N) ->
  exists f, bmp_write g W H data = Ok (f, true) /\
    std_file_size f = Some (N.of_nat (length f)) /\
    forall x y, 0 <= x < W -> 0 <= y < H ->
      exists p, nth_error data (Z.to_nat (y * W + x)) = Some p /\
      std_bmp24_pixel f x y = Some (px_red p, px_green p, px_blue p).
Proof.
  intros g W H data HW HH H24 Hfs HWH Heven Hd Hw Hg.
  assert (HWH31 : W * H < 2 ^ 31) by nia.
  assert (HH31 : H < 2 ^ 31) by nia.
  destruct (bmp_round_trip_lemma g W H data HW HH H24 Hfs HWH Hd Hw)
    as (f & Ef & Hv & Hdim & Hrt).
  exists f. split; [exact Ef |].
  rewrite bmp_write_ok in Ef by (try exact Hd; unfold bmp_writable; lia).
  set (rows := rows_bytes (Z.to_nat H) (Z.to_nat W) (bmp_pad g W) data) in *.
  assert (Hf : f = header_bytes W H (pat32 (fsize W H)) ++ rows) by congruence.
  assert (Hlen : Z.of_nat (length rows) = H * (W * 3 + Z.rem (W * 3) 4))
    by (apply rows_bytes_len; lia).
  rewrite rem3_even in Hlen by (lia || exact Heven).
  assert (Hfv : fsize W H = 54 + Z.of_nat (length rows)).
  { rewrite Hlen. unfold fsize, std_stride24. lia. }
  split.
  { rewrite Hf. rewrite header_field_size by (rewrite Hfv in *; lia).
    rewrite app_length, header_len. f_equal. lia. }
  intros x y Hx Hy.
  pose proof (row_in W H y ltac:(lia) Hy) as [Ha Hb].
  assert (Hi : (Z.to_nat (y * W + x) < length data)%nat) by lia.
  set (buf := repeat 0%N (length data)).
  assert (Hbl : length buf = length data) by apply repeat_length.
  specialize (Hrt buf Hbl).
  assert (Hbytes : Forall (fun b => (b < 256)%N) f).
  { rewrite Hf. apply Forall_app. split.
    - unfold header_bytes, le16, le32. cbn [app].
      repeat (apply Forall_cons; [first [reflexivity | apply N.mod_lt; discriminate] |]).
      apply Forall_nil.
    - unfold rows. clear - Hg. generalize (Z.to_nat H) as n. intros n.
      assert (Hpad : Forall (fun b => (b < 256)%N) (bmp_pad g W)).
      { unfold bmp_pad. apply Forall_forall. intros b Hin. apply in_map_iff in Hin.
        destruct Hin as (i & <- & _). apply Hg. }
      revert data. induction n as [| n IH]; intros data; [constructor |].
      cbn [rows_bytes]. apply Forall_app. split.
      + generalize (firstn (Z.to_nat W) data). intros l. induction l as [| p l IHl];
          [constructor |].
        cbn [row_bytes]. destruct (px_bytes p) as (Hr & Hgg & Hb). auto.
      + apply Forall_app. split; [exact Hpad | apply IH]. }
  assert (Hb24 : h_bpp f = 24%N) by (rewrite Hf; apply hdr_bpp).
  assert (Hb2 : Z.of_nat (length buf) = W * H) by lia.
  destruct (bmp_read_standard_lemma f W H buf _ Hbytes Hv Hb24 Hdim HW ltac:(lia)
              ltac:(clear - H24; lia) HWH31 Heven Hb2 Hrt x y Hx Hy) as (r & gg & b & Es & En).
  exists (nth (Z.to_nat (y * W + x)) data 0%N).
  rewrite (nth_error_nth' data 0%N Hi). split; [reflexivity |].
  rewrite nth_error_map, (nth_error_nth' data 0%N Hi) in En. cbn [option_map] in En.
  set (p := nth (Z.to_nat (y * W + x)) data 0%N) in *.
  assert (Hp : (p < 2 ^ 32)%N) by (rewrite Forall_forall in Hw; apply Hw, nth_In, Hi).
  rewrite Es.
  (* the colours are determined by the assembled word *)
  assert (Hch : (r < 256)%N /\ (gg < 256)%N /\ (b < 256)%N).
  { clear - Es Hbytes. unfold std_bmp24_pixel in Es.
    assert (Hle : forall pos v, le_at f 1 pos = Some v -> (v < 256)%N).
    { intros pos v Hv. unfold le_at in Hv.
      destruct (pos + 1 <=? length f)%nat eqn:El; [| discriminate].
      apply Nat.leb_le in El. cbn [seq fold_right] in Hv.
      assert (Hvv : v = nth (pos + 0) f 0%N) by (injection Hv as <-; lia).
      rewrite Hvv. rewrite Forall_forall in Hbytes. apply Hbytes, nth_In. lia. }
    repeat match type of Es with
           | match ?e with _ => _ end = _ => destruct e eqn:?; try discriminate
           end.
    injection Es as <- <- <-. repeat split; eapply Hle; eassumption. }
  destruct Hch as (Hr & Hgg & Hb').
  assert (Ep : px_make r gg b = px_make (px_red p) (px_green p) (px_blue p)).
  { rewrite (px_make_self p Hp). congruence. }
  destruct (px_make_channels r gg b Hr Hgg Hb') as (C1 & C2 & C3 & _).
  destruct (px_bytes p) as (P1 & P2 & P3).
  destruct (px_make_channels _ _ _ P1 P2 P3) as (D1 & D2 & D3 & _).
  rewrite Ep in C1, C2, C3. congruence.
Qed.

Lemma bmp_nonconformant_odd_lemma : forall g W H data,
  0 < W -> 0 < H -> W * 24 + 31 < 2 ^ 31 -> fsize W H < 2 ^ 31 -> W * H * 3 < 2 ^ 31 ->
  Z.odd W = true ->
  Z.of_nat (length data) = W * H ->
  exists f n, bmp_write g W H data = Ok (f, true) /\
    std_file_size f = Some n /\ n <> N.of_nat (length f) /\
    (exists s, Z.of_nat (length f) = 54 + H * s /\ s mod 4 = 2).
Proof.
  intros g W H data HW HH H24 Hfs HWH Hodd Hd.
  assert (HH31 : H < 2 ^ 31) by nia.
  eexists _, _. split.
  { apply bmp_write_ok; [unfold bmp_writable; lia | exact Hd]. }
  set (rows := rows_bytes (Z.to_nat H) (Z.to_nat W) (bmp_pad g W) data).
  assert (Hlen : Z.of_nat (length rows) = H * (W * 3 + Z.rem (W * 3) 4))
    by (apply rows_bytes_len; lia).
  assert (Hfp : 0 <= fsize W H).
  { unfold fsize. pose proof (Z.div_pos (W * 24 + 31) 32 ltac:(lia) ltac:(lia)). nia. }
  split; [apply header_field_size; lia |].
  pose proof (stride_odd W ltac:(lia) Hodd) as Hs.
  split.
  - rewrite app_length, header_len. intros Hc.
    assert (Hc2 : fsize W H = 54 + Z.of_nat (length rows)) by lia.
    rewrite Hlen in Hc2. unfold fsize in Hc2.
    assert (Hc3 : H * (4 * ((W * 24 + 31) / 32)) = H * (W * 3 + Z.rem (W * 3) 4)) by lia.
    apply Z.mul_reg_l in Hc3; [| lia].
    rewrite <- Hc3 in Hs. rewrite Z.mul_comm, Z.mod_mul in Hs by lia. discriminate.
  - exists (W * 3 + Z.rem (W * 3) 4). rewrite app_length, header_len. split; [lia | exact Hs].
Qed.
