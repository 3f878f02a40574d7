From Verif Require Import Common ByteLemmas ArrayIO PixelModel PixelProofs TgaModel TgaSpec TgaProofs.
Local Open Scope Z_scope.

(* ---- fields used by the reader ---- *)
Definition f_bpp (f : list N) : Z := if (t_bpp f =? 15)%N then 2 else Z.of_N (N.shiftr (t_bpp f) 3).
Definition f_rle (f : list N) : bool := (t_datatype f =? TGA_RGB_RLE)%N.
Definition f_td (f : list N) : bool := negb (N.land (t_descriptor f) TGA_UPPER_ORIGIN =? 0)%N.
Definition f_stream (f : list N) : list N := skipn (N.to_nat (t_id_len f)) (skipn 18 f).
Definition f_items (f : list N) : list (nat * N) := items (f_bpp f) (f_rle f) (f_stream f).

Lemma tga_valid_inv : forall f, tga_valid f = true ->
  (18 <= length f)%nat /\ t_cmap_type f = 0%N /\ 2 <= f_bpp f <= 4 /\
  (t_datatype f = 2 \/ t_datatype f = 10)%N.
Proof.
  intros f Hv. unfold tga_valid, valid_header in Hv.
  rewrite !andb_true_iff, !orb_true_iff, Nat.leb_le, !N.eqb_eq in Hv.
  destruct Hv as (Hl & ((Ht & Hb) & Hc) & _).
  split; [exact Hl |]. split; [exact Hc |]. split; [| exact Ht].
  unfold f_bpp. destruct Hb as [[[-> | ->] | ->] | ->]; vm_compute; split; discriminate.
Qed.

(* a zero-width image: nothing is stored *)
Lemma tga_outer_zero : forall n fuel bpp c H td stream r s,
  0 <= r -> r + Z.of_nat n = H -> (n <= fuel)%nat -> sy s = trow H td r ->
  exists s', tga_outer fuel bpp c 0 (if td then 1 else -1) (if td then H else -1) stream s = Ok s' /\
    sbuf s' = sbuf s /\ sw s' = sw s.
Proof.
  intros n. induction n as [| n IH]; intros fuel bpp c H td stream r s Hr Hn Hf Hy.
  - exists s. assert (E : sy s = if td then H else -1).
    { rewrite Hy. unfold trow. destruct td; lia. }
    destruct fuel; cbn [tga_outer]; rewrite E, Z.eqb_refl; auto.
  - destruct fuel as [| fuel]; [lia |]. cbn [tga_outer]. rewrite Hy.
    destruct (Z.eqb_spec (trow H td r) (if td then H else -1)) as [E | _].
    { unfold trow in E. destruct td; lia. }
    rewrite Z.mul_0_r. rewrite ck_ok by lia. cbn [bind tga_inner sx].
    destruct (Z.ltb_spec 0 0) as [Hc | _]; [lia |]. cbn [bind sx sy si sw sbuf].
    assert (Hnext : trow H td r + (if td then 1 else -1) = trow H td (r + 1))
      by (unfold trow; destruct td; lia).
    rewrite Hnext.
    destruct (IH fuel bpp c H td stream (r + 1) (mk_st 0 (trow H td (r + 1)) 0 (sw s) (sbuf s)))
      as (s' & E & B & Ws); try lia; [reflexivity |].
    exists s'. cbn [sbuf sw] in B, Ws. auto.
Qed.

Lemma tga_read_main : forall f buf,
  tga_valid f = true ->
  let W := Z.of_N (t_width f) in
  let H := Z.of_N (t_height f) in
  W * H < 2 ^ 31 -> Z.of_nat (length buf) = W * H ->
  (127 <= W \/ fits (W * H) (f_items f)) ->
  exists buf' ok, tga_read f buf = Ok (buf', ok) /\ length buf' = length buf /\
    (ok = true -> fits (W * H) (f_items f)) /\
    (fits (W * H) (f_items f) ->
       (W * H <= Z.of_nat (length (expand (f_items f))) <-> ok = true) /\
       Fill W H (f_td f) 0 (firstn (Z.to_nat (W * H)) (expand (f_items f))) buf buf').
Proof.
  intros f buf Hv W H HWH Hb Hsafe.
  destruct (tga_valid_inv f Hv) as (_ & Hcm & Hbpp & _).
  unfold tga_read. rewrite Hv. cbn [negb]. rewrite Hcm, N.mul_0_l, N.add_0_r.
  fold (f_bpp f) (f_rle f) (f_td f) (f_stream f) W H.
  set (s0 := mk_st 0 (if f_td f then 0 else H - 1) 0 0 buf).
  destruct (Z.eq_dec W 0) as [HW0 | HW0].
  - destruct (tga_outer_zero (Z.to_nat H) (S (Z.to_nat H)) (f_bpp f) (f_rle f) H (f_td f)
        (f_stream f) 0 s0) as (s' & E & B & Ws); try lia.
    { unfold s0, trow. cbn [sy]. destruct (f_td f); lia. }
    rewrite HW0, E in *. cbn [bind]. rewrite ck_ok by lia. cbn [bind].
    rewrite B, Ws. exists buf, true. unfold s0. cbn [sbuf sw].
    split; [reflexivity |]. split; [reflexivity |].
    assert (Hf : fits (0 * H) (f_items f)) by (destruct (f_items f); cbn [fits]; [exact I | left; lia]).
    split; [intros _; exact Hf |]. intros _. split; [split; [reflexivity | intros _; lia] |].
    split; [reflexivity |]. intros j Hj. lia.
  - destruct (tga_outer_ok W H (f_td f) ltac:(lia) HWH (f_bpp f) (f_rle f) Hbpp
        (Z.to_nat H) (S (Z.to_nat H)) (f_stream f) 0 s0) as (s' & E & L & D); try lia.
    { unfold s0, trow. cbn [sy]. destruct (f_td f); lia. }
    { exact Hb. }
    { rewrite Z.mul_0_l, Z.sub_0_r. exact Hsafe. }
    rewrite E. cbn [bind]. rewrite ck_ok by lia. cbn [bind].
    rewrite Z.mul_0_l, Z.sub_0_r in D. fold (f_items f) in D.
    exists (sbuf s'), (W * H =? sw s'). split; [reflexivity |]. split; [exact L |].
    unfold s0 in D. cbn [sbuf sw] in D.
    destruct D as [(FF & W2 & F2) | (NF & W2)].
    + split; [intros _; exact FF |]. intros _. split; [| exact F2].
      rewrite Z.eqb_eq. clear - W2. lia.
    + split; [rewrite Z.eqb_eq; clear - W2; lia |]. intros FF. contradiction.
Qed.

(* single-pixel items always fit *)
Lemma fits_singles : forall l left, 0 <= left -> Forall (fun it => fst it = 1%nat) l -> fits left l.
Proof.
  intros l. induction l as [| it l IH]; intros left Hl Hf; cbn [fits]; [exact I |].
  inversion Hf as [| ? ? H1 H2]; subst. rewrite H1.
  destruct (Z.eq_dec left 0) as [-> | Hne]; [left; reflexivity | right].
  split; [lia |]. apply IH; [lia | exact H2].
Qed.

Lemma items_raw_singles : forall bpp stream,
  Forall (fun it => fst it = 1%nat) (items bpp false stream).
Proof.
  intros bpp stream. unfold items. generalize (length stream) as n. intros n. revert stream.
  induction n as [| n IH]; intros stream; cbn [items_f]; [constructor |].
  destruct (length stream <? _)%nat; constructor; [reflexivity | apply IH].
Qed.

Lemma tga_read_safe_pf : forall f buf w h,
  tga_dimensions f = Some (w, h) -> w * h < 2 ^ 31 -> Z.of_nat (length buf) = w * h ->
  (t_datatype f = 2%N \/ 127 <= w) ->
  exists buf' ok, tga_read f buf = Ok (buf', ok) /\ length buf' = length buf.
Proof.
  intros f buf w h Hd Hwh Hb Hc. unfold tga_dimensions in Hd.
  destruct (tga_valid f) eqn:Hv; [| discriminate]. injection Hd as <- <-.
  destruct (tga_read_main f buf Hv Hwh Hb) as (b' & ok & E & L & _).
  - destruct Hc as [Hc | Hc]; [right | left; exact Hc].
    apply fits_singles; [lia |]. unfold f_items, f_rle. rewrite Hc. apply items_raw_singles.
  - exists b', ok. auto.
Qed.

Lemma tga_read_determined_pf : forall f b1 b2 w h r1 r2,
  tga_dimensions f = Some (w, h) -> w * h < 2 ^ 31 ->
  Z.of_nat (length b1) = w * h -> Z.of_nat (length b2) = w * h ->
  (t_datatype f = 2%N \/ 127 <= w) ->
  tga_read f b1 = Ok (r1, true) -> tga_read f b2 = Ok (r2, true) -> r1 = r2.
Proof.
  intros f b1 b2 w h r1 r2 Hd Hwh Hb1 Hb2 Hc E1 E2. unfold tga_dimensions in Hd.
  destruct (tga_valid f) eqn:Hv; [| discriminate]. injection Hd as <- <-.
  set (W := Z.of_N (t_width f)) in *. set (H := Z.of_N (t_height f)) in *.
  assert (Hsafe : 127 <= W \/ fits (W * H) (f_items f)).
  { destruct Hc as [Hc | Hc]; [right | left; exact Hc].
    apply fits_singles; [lia |]. unfold f_items, f_rle. rewrite Hc. apply items_raw_singles. }
  destruct (tga_read_main f b1 Hv Hwh Hb1 Hsafe) as (b1' & ok1 & E1' & L1 & K1 & F1).
  destruct (tga_read_main f b2 Hv Hwh Hb2 Hsafe) as (b2' & ok2 & E2' & L2 & K2 & F2).
  rewrite E1 in E1'. rewrite E2 in E2'.
  assert (b1' = r1 /\ ok1 = true) as [-> ->] by (split; congruence).
  assert (b2' = r2 /\ ok2 = true) as [-> ->] by (split; congruence).
  specialize (F1 (K1 eq_refl)). specialize (F2 (K1 eq_refl)).
  destruct F1 as [[_ G1] [_ F1]]. destruct F2 as [_ [_ F2]]. specialize (G1 eq_refl).
  destruct (Z.eq_dec W 0) as [HW0 | HW0].
  { assert (length r1 = 0%nat /\ length r2 = 0%nat) as [Z1 Z2] by (rewrite HW0 in *; lia).
    destruct r1; [| discriminate]. destruct r2; [reflexivity | discriminate]. }
  apply list_ext; [lia |]. intros i Hi.
  (* every cell is the address of a position *)
  set (q := trow H (f_td f) (Z.of_nat i / W) * W + Z.of_nat i mod W).
  assert (Hr : 0 <= Z.of_nat i / W < H).
  { split; [apply Z.div_pos; lia | apply Z.div_lt_upper_bound; lia]. }
  pose proof (Z.mod_pos_bound (Z.of_nat i) W ltac:(lia)) as Hm.
  pose proof (trow_range H (f_td f) _ Hr) as Ht.
  pose proof (row_in W H (trow H (f_td f) (Z.of_nat i / W)) ltac:(lia) Ht) as [R1 R2].
  assert (Hq : 0 <= q < W * H) by (unfold q; lia).
  assert (Ha : addr W H (f_td f) q = Z.of_nat i).
  { unfold q. rewrite addr_rx by lia.
    replace (trow H (f_td f) (trow H (f_td f) (Z.of_nat i / W))) with (Z.of_nat i / W)
      by (unfold trow; destruct (f_td f); lia).
    pose proof (Z.div_mod (Z.of_nat i) W ltac:(lia)). lia. }
  specialize (F1 q Hq). specialize (F2 q Hq). fold W H in F1, F2. rewrite Ha, Nat2Z.id in F1, F2.
  rewrite F1, F2. rewrite firstn_length.
  assert (Hif : ((0 <=? q) && (q <? 0 + Z.of_nat (Nat.min (Z.to_nat (W * H))
                   (length (expand (f_items f))))))%bool = true).
  { apply andb_true_intro. split; [apply Z.leb_le; lia | apply Z.ltb_lt; lia]. }
  rewrite Hif. reflexivity.
Qed.

(* ---- stored pixels ---- *)


Lemma land_7C_shift : forall b, (b < 256)%N -> N.shiftl (N.land b 124) 1 = (b / 4 mod 32 * 8)%N.
Proof.
  intros b Hb. apply N.eqb_eq.
  apply (byte_sweep (fun b => N.shiftl (N.land b 124) 1 =? b / 4 mod 32 * 8)%N);
    [vm_compute; reflexivity | exact Hb].
Qed.

Lemma land_03_val : forall b, (b < 256)%N -> N.land b 3 = (b mod 4)%N.
Proof.
  intros b Hb. apply N.eqb_eq.
  apply (byte_sweep (fun b => N.land b 3 =? b mod 4)%N);
    [vm_compute; reflexivity | exact Hb].
Qed.

Lemma land_E0_shift : forall b, (b < 256)%N -> N.shiftr (N.land b 224) 2 = (b / 32 * 8)%N.
Proof.
  intros b Hb. apply N.eqb_eq.
  apply (byte_sweep (fun b => N.shiftr (N.land b 224) 2 =? b / 32 * 8)%N);
    [vm_compute; reflexivity | exact Hb].
Qed.

Lemma land_1F_shift : forall b, (b < 256)%N -> N.shiftl (N.land b 31) 3 = (b mod 32 * 8)%N.
Proof.
  intros b Hb. apply N.eqb_eq.
  apply (byte_sweep (fun b => N.shiftl (N.land b 31) 3 =? b mod 32 * 8)%N);
    [vm_compute; reflexivity | exact Hb].
Qed.

Lemma lor4_val : forall a r g b, (a < 256)%N -> (r < 256)%N -> (g < 256)%N -> (b < 256)%N ->
  N.lor (N.lor (N.lor a (N.shiftl r 8)) (N.shiftl g 16)) (N.shiftl b 24) = bgra b g r a.
Proof.
  intros a r g b Ha Hr Hg Hb. unfold bgra.
  change (2 ^ 8)%N with 256%N. change (2 ^ 16)%N with 65536%N. change (2 ^ 24)%N with 16777216%N.
  rewrite (lor_shiftl_add a r 8) by (change (2 ^ 8)%N with 256%N; lia).
  change (2 ^ 8)%N with 256%N.
  rewrite (lor_shiftl_add (a + r * 256) g 16) by (change (2 ^ 16)%N with 65536%N; lia).
  change (2 ^ 16)%N with 65536%N.
  rewrite (lor_shiftl_add (a + r * 256 + g * 65536) b 24)
    by (change (2 ^ 24)%N with 16777216%N; lia).
  change (2 ^ 24)%N with 16777216%N. lia.
Qed.

Lemma tbyte_app : forall pre px k, tbyte (pre ++ px) (k + length pre) = nth k px 0%N.
Proof.
  intros pre px k. unfold tbyte. rewrite app_nth2 by lia. f_equal. lia.
Qed.

Lemma tga_px_spec : forall pre px depth, length px = depth -> (2 <= depth <= 4)%nat ->
  Forall is_byte px ->
  spec_pixel px = Some (tga_px (Z.of_nat depth) (pre ++ px) (length pre)).
Proof.
  intros pre px depth Hl Hd Hb. unfold tga_px.
  replace (tbyte (pre ++ px) (length pre)) with (nth 0 px 0%N)
    by (symmetry; apply (tbyte_app pre px 0)).
  rewrite (tbyte_app pre px 1), (tbyte_app pre px 2), (tbyte_app pre px 3).
  destruct px as [| b0 [| b1 [| b2 [| b3 [| b4 px]]]]]; cbn [length] in Hl; try lia;
    subst depth; cbn [nth];
    repeat match goal with H : Forall is_byte (_ :: _) |- _ => inversion H; subst; clear H end;
    unfold is_byte in *.
  - change (Z.of_nat 2 =? 3) with false. change (Z.of_nat 2 =? 4) with false. cbv iota.
    rewrite land_7C_shift, land_03_val, land_E0_shift, land_1F_shift by assumption.
    rewrite (N.lor_comm (N.shiftl (b1 mod 4) 6)).
    rewrite (lor_shiftl_add (b0 / 32 * 8) (b1 mod 4) 6) by (change (2 ^ 6)%N with 64%N; dlia).
    change (2 ^ 6)%N with 64%N.
    rewrite lor4_val by dlia. cbn [spec_pixel]. f_equal.
    assert (Hdiv3 : ((b0 + 256 * b1) mod 32 = b0 mod 32)%N) by dlia.
    assert (Hdiv : ((b0 + 256 * b1) / 32 mod 32 = b0 / 32 + b1 mod 4 * 8)%N) by dlia.
    assert (Hdiv2 : ((b0 + 256 * b1) / 1024 mod 32 = b1 / 4 mod 32)%N) by dlia.
    rewrite Hdiv, Hdiv2, Hdiv3. f_equal. lia.
  - change (Z.of_nat 3 =? 3) with true. cbv iota. rewrite lor4_val by lia. reflexivity.
  - change (Z.of_nat 4 =? 3) with false. change (Z.of_nat 4 =? 4) with true. cbv iota.
    rewrite N.lor_0_l, lor4_val by lia. reflexivity.
Qed.

(* ---- encoded packets ---- *)

Definition packet_count (p : packet) : nat := length (packet_pixels p).

Lemma firstn_app_exact : forall (A : Type) (l1 l2 : list A) n, length l1 = n ->
  firstn n (l1 ++ l2) = l1.
Proof.
  intros A l1 l2 n Hn. rewrite firstn_app, Hn, Nat.sub_diag. cbn [firstn].
  rewrite app_nil_r. apply firstn_all2. lia.
Qed.

Lemma skipn_app_exact : forall (A : Type) (l1 l2 : list A) n, length l1 = n ->
  skipn n (l1 ++ l2) = l2.
Proof.
  intros A l1 l2 n Hn. rewrite skipn_app, Hn, Nat.sub_diag. cbn [skipn].
  rewrite skipn_all2 by lia. reflexivity.
Qed.

Lemma map_repeat' : forall (A B : Type) (g : A -> B) a n, map g (repeat a n) = repeat (g a) n.
Proof. intros A B g a n. induction n as [| n IH]; [reflexivity |]. cbn [repeat map]. now rewrite IH. Qed.

Lemma items_encode : forall depth trail ps, (2 <= depth <= 4)%nat ->
  Forall (packet_ok depth) ps -> Forall one_raw ps ->
  exists its, items (Z.of_nat depth) true (encode ps ++ trail) =
              its ++ items (Z.of_nat depth) true trail /\
    map Some (expand its) = map spec_pixel (pixels ps).
Proof.
  intros depth trail ps Hd. induction ps as [| p ps IH]; intros Hok Hone.
  - exists []. split; reflexivity.
  - inversion Hok as [| ? ? Hp Hok']; subst. inversion Hone as [| ? ? H1 Hone']; subst.
    destruct (IH Hok' Hone') as (its & Ei & Ex).
    assert (Hsize : Z.to_nat (Z.of_nat depth + 1) = S depth) by lia.
    assert (Hshape : exists c hd px, encode_packet p = hd :: px /\ packet_pixels p = repeat px c /\
              length px = depth /\ Forall is_byte px /\
              item (Z.of_nat depth) true (hd :: px) = (c, tga_px (Z.of_nat depth) (hd :: px) 1)).
    { destruct p as [c px | pxs].
      - destruct Hp as (Hc & Hl & Hb). exists c, (128 + N.of_nat (c - 1))%N, px.
        split; [reflexivity |]. split; [reflexivity |]. split; [exact Hl |]. split; [exact Hb |].
        unfold item. cbn [tbyte nth].
        assert (Hbit : (N.land (128 + N.of_nat (c - 1)) 128 =? 0)%N = false /\
                       N.land (128 + N.of_nat (c - 1)) 127 = N.of_nat (c - 1)).
        { assert (Hs : forall b, (b < 256)%N ->
            (orb (b <? 128) (andb (negb (N.land b 128 =? 0)) (N.land b 127 =? b - 128)) = true)%N).
          { intros b Hb256. apply (byte_sweep (fun b => orb (b <? 128)
              (andb (negb (N.land b 128 =? 0)) (N.land b 127 =? b - 128)))%N);
              [vm_compute; reflexivity | exact Hb256]. }
          specialize (Hs (128 + N.of_nat (c - 1))%N ltac:(lia)).
          apply orb_true_iff in Hs. rewrite N.ltb_lt in Hs. destruct Hs as [Hs | Hs]; [lia |].
          apply andb_true_iff in Hs. destruct Hs as [Hs1 Hs2].
          apply negb_true_iff in Hs1. apply N.eqb_eq in Hs2. split; [exact Hs1 | lia]. }
        destruct Hbit as [-> ->]. cbn [negb]. f_equal. lia.
      - cbn [one_raw] in H1. destruct pxs as [| px [| q pxs]]; cbn [length] in H1; try lia.
        destruct Hp as (_ & Hf). inversion Hf as [| ? ? [Hl Hb] _]; subst.
        exists 1%nat, 0%N, px. cbn [encode_packet length concat Nat.sub N.of_nat].
        rewrite app_nil_r. split; [reflexivity |]. split; [reflexivity |].
        split; [reflexivity |]. split; [exact Hb |]. reflexivity. }
    destruct Hshape as (c & hd & px & Ep & Pp & Hl & Hb & Hit).
    exists (item (Z.of_nat depth) true (hd :: px) :: its).
    assert (Hstream : encode (p :: ps) ++ trail = (hd :: px) ++ (encode ps ++ trail)).
    { unfold encode. cbn [map concat]. rewrite Ep, <- app_assoc. reflexivity. }
    rewrite Hstream. split.
    + rewrite items_cons by (try lia; rewrite app_length; cbn [length]; lia).
      rewrite Hsize, firstn_app_exact, skipn_app_exact by (cbn [length]; lia).
      rewrite Ei. reflexivity.
    + unfold pixels. cbn [map concat expand flat_map]. fold (expand its). fold (pixels ps).
      rewrite map_app, map_app, Ex, Pp, Hit.
      cbn [fst snd]. f_equal. rewrite !map_repeat'.
      pose proof (tga_px_spec [hd] px depth Hl Hd Hb) as Hs.
      cbn [app length] in Hs. rewrite Hs. reflexivity.
Qed.

Lemma items_concat : forall depth trail pxs, (2 <= depth <= 4)%nat ->
  Forall (fun px => length px = depth /\ Forall is_byte px) pxs ->
  exists its, items (Z.of_nat depth) false (concat pxs ++ trail) =
              its ++ items (Z.of_nat depth) false trail /\
    map Some (expand its) = map spec_pixel pxs.
Proof.
  intros depth trail pxs Hd. induction pxs as [| px pxs IH]; intros Hok.
  - exists []. split; reflexivity.
  - inversion Hok as [| ? ? [Hl Hb] Hok']; subst.
    destruct (IH Hok') as (its & Ei & Ex).
    exists (item (Z.of_nat (length px)) false px :: its). cbn [concat]. rewrite <- app_assoc. split.
    + rewrite items_cons by (try lia; rewrite app_length; lia).
      rewrite firstn_app_exact, skipn_app_exact by lia. rewrite Ei. reflexivity.
    + cbn [expand flat_map map item fst snd repeat app]. fold (expand its). rewrite Ex. f_equal.
      pose proof (tga_px_spec [] px (length px) eq_refl Hd Hb) as Hs.
      cbn [app length] in Hs. now rewrite Hs.
Qed.

(* ---- headers ---- *)
Section Header.
Context (ty id_len bits depth_ w h : N) (td : bool).
Definition gen_header : list N :=
  ([id_len; 0; ty] ++ le16 0 ++ le16 0 ++ [0] ++ le16 0 ++ le16 0 ++
   le16 w ++ le16 h ++ [bits; if td then 0x20 else 0])%N.

Lemma gen_header_explicit : exists w0 w1 h0 h1,
  gen_header = [id_len; 0; ty; 0; 0; 0; 0; 0; 0; 0; 0; 0; w0; w1; h0; h1; bits;
                if td then 32 else 0]%N /\ le16 w = [w0; w1] /\ le16 h = [h0; h1].
Proof.
  destruct (le16 w) as [| w0 [| w1 [| ? ?]]] eqn:Ew; try discriminate Ew.
  destruct (le16 h) as [| h0 [| h1 [| ? ?]]] eqn:Eh; try discriminate Eh.
  exists w0, w1, h0, h1. unfold gen_header. rewrite Ew, Eh. repeat split.
Qed.

Lemma gen_header_fields : forall rest, (w < 65536)%N -> (h < 65536)%N ->
  t_id_len (gen_header ++ rest) = id_len /\ t_cmap_type (gen_header ++ rest) = 0%N /\
  t_datatype (gen_header ++ rest) = ty /\ t_width (gen_header ++ rest) = w /\
  t_height (gen_header ++ rest) = h /\ t_bpp (gen_header ++ rest) = bits /\
  t_descriptor (gen_header ++ rest) = (if td then 32 else 0)%N /\
  skipn 18 (gen_header ++ rest) = rest /\ (18 <= length (gen_header ++ rest))%nat.
Proof.
  intros rest Hw Hh.
  destruct gen_header_explicit as (w0 & w1 & h0 & h1 & -> & Ew & Eh).
  assert (Dw : dle16 w0 w1 = w).
  { pose proof (dle16_le16 w Hw) as D. unfold le16, u16 in *. congruence. }
  assert (Dh : dle16 h0 h1 = h).
  { pose proof (dle16_le16 h Hh) as D. unfold le16, u16 in *. congruence. }
  cbn [app]. unfold t_id_len, t_cmap_type, t_datatype, t_width, t_height, t_bpp, t_descriptor,
    t16, tbyte. cbn [nth Nat.add skipn length]. repeat split; try assumption. lia.
Qed.
End Header.


Lemma depth_of_range : forall bits depth, depth_of bits depth -> (2 <= depth <= 4)%nat.
Proof.
  intros bits depth Hd. unfold depth_of in Hd. cbn [In] in Hd.
  repeat (destruct Hd as [Hd | Hd]; [injection Hd as <- <-; lia |]). contradiction.
Qed.

Lemma gen_header_read : forall ty bits depth w h td id rest,
  depth_of bits depth -> (ty = 2 \/ ty = 10)%N -> (w < 65536)%N -> (h < 65536)%N ->
  let f := gen_header ty (N.of_nat (length id)) bits w h td ++ id ++ rest in
  tga_valid f = true /\ t_width f = w /\ t_height f = h /\ f_td f = td /\
  f_items f = items (Z.of_nat depth) (ty =? 10)%N rest /\ t_datatype f = ty.
Proof.
  intros ty bits depth w h td id rest Hd Hty Hw Hh f.
  destruct (gen_header_fields ty (N.of_nat (length id)) bits w h td (id ++ rest) Hw Hh)
    as (E1 & E2 & E3 & E4 & E5 & E6 & E7 & E8 & E9). fold f in E1, E2, E3, E4, E5, E6, E7, E8, E9.
  split; [| split; [exact E4 | split; [exact E5 | split; [| split; [| exact E3]]]]].
  - unfold tga_valid, valid_header. rewrite E2, E3, E6, E7.
    apply andb_true_intro. split; [apply Nat.leb_le; exact E9 |].
    unfold depth_of in Hd. cbn [In] in Hd.
    destruct Hty as [-> | ->]; destruct td;
      repeat (destruct Hd as [Hd | Hd]; [injection Hd as <- <-; reflexivity |]); contradiction.
  - unfold f_td. rewrite E7. destruct td; reflexivity.
  - unfold f_items, f_rle, f_stream, f_bpp. rewrite E1, E3, E6, E8.
    rewrite Nat2N.id, skipn_app_exact by reflexivity. unfold TGA_RGB_RLE. f_equal.
    unfold depth_of in Hd. cbn [In] in Hd.
    repeat (destruct Hd as [Hd | Hd]; [injection Hd as <- <-; reflexivity |]); contradiction.
Qed.

Lemma decode_main : forall f buf its rest PX w h td,
  tga_valid f = true -> t_width f = N.of_nat w -> t_height f = N.of_nat h -> f_td f = td ->
  Z.of_nat w * Z.of_nat h < 2 ^ 31 -> length buf = (w * h)%nat ->
  f_items f = its ++ rest -> map Some (expand its) = map spec_pixel PX ->
  (length PX = (w * h)%nat \/ (rest = [] /\ (length PX < w * h)%nat)) ->
  exists buf' ok, tga_read f buf = Ok (buf', ok) /\ length buf' = length buf /\
    (ok = true <-> length PX = (w * h)%nat) /\
    forall x y, (x < w)%nat -> (y < h)%nat ->
      nth_error buf' (y * w + x) =
      match nth_error PX (storage_index w h td x y) with
      | Some px => spec_pixel px
      | None => nth_error buf (y * w + x)
      end.
Proof.
  intros f buf its rest PX w h td Hv Hw Hh Htd Hwh Hb Hit Hpx Hlen.
  assert (Hwz : Z.of_N (t_width f) = Z.of_nat w) by (rewrite Hw; lia).
  assert (Hhz : Z.of_N (t_height f) = Z.of_nat h) by (rewrite Hh; lia).
  assert (Hel : length (expand its) = length PX).
  { rewrite <- (map_length (@Some N)), Hpx. apply map_length. }
  assert (Hprod : Z.of_nat (w * h) = Z.of_nat w * Z.of_nat h) by lia.
  assert (Hcounts : Forall (fun it => (1 <= fst it)%nat) its).
  { destruct (tga_valid_inv f Hv) as (_ & _ & Hbpp & _).
    pose proof (items_counts (f_bpp f) (f_rle f) (f_stream f)) as Hc.
    fold (f_items f) in Hc. rewrite Hit in Hc. apply Forall_app in Hc. apply Hc. }
  assert (Hfits : fits (Z.of_nat w * Z.of_nat h) (f_items f)).
  { rewrite Hit. apply fits_app; [exact Hcounts | lia |].
    destruct Hlen as [Hlen | [-> _]]; [| exact I].
    replace (Z.of_nat w * Z.of_nat h - Z.of_nat (length (expand its))) with 0 by lia.
    destruct rest; cbn [fits]; auto. }
  pose proof (tga_read_main f buf Hv) as M. cbv zeta in M. rewrite Hwz, Hhz in M.
  destruct (M Hwh ltac:(lia) (or_intror Hfits)) as (buf' & ok & E & L & _ & F).
  specialize (F Hfits). destruct F as [Hok [_ F]].
  exists buf', ok. split; [exact E |]. split; [exact L |].
  assert (Hexp : firstn (Z.to_nat (Z.of_nat w * Z.of_nat h)) (expand (f_items f)) = expand its).
  { rewrite Hit, expand_app, firstn_app. destruct Hlen as [Hlen | [-> Hlen]].
    - replace (Z.to_nat (Z.of_nat w * Z.of_nat h) - length (expand its))%nat with 0%nat by lia.
      cbn [firstn]. rewrite app_nil_r. apply firstn_all2. lia.
    - cbn [expand flat_map]. rewrite firstn_nil, app_nil_r. apply firstn_all2. lia. }
  rewrite Hexp in F.
  split.
  { rewrite <- Hok. rewrite Hit, expand_app, app_length.
    destruct Hlen as [Hlen | [-> Hlen]]; [lia |]. cbn [expand flat_map length]. lia. }
  intros x y Hx Hy. rewrite Htd in F.
  set (q := Z.of_nat (storage_index w h td x y)).
  assert (Eq : q = trow (Z.of_nat h) td (Z.of_nat y) * Z.of_nat w + Z.of_nat x).
  { unfold q, storage_index, trow. rewrite Nat2Z.inj_add, Nat2Z.inj_mul. f_equal. f_equal.
    clear - Hy. destruct td; lia. }
  pose proof (trow_range (Z.of_nat h) td (Z.of_nat y) ltac:(lia)) as Ht.
  pose proof (row_in (Z.of_nat w) (Z.of_nat h) _ ltac:(lia) Ht) as [R1 R2].
  assert (Hq : 0 <= q < Z.of_nat w * Z.of_nat h) by lia.
  assert (Ha : Z.to_nat (addr (Z.of_nat w) (Z.of_nat h) td q) = (y * w + x)%nat).
  { rewrite Eq, addr_rx by lia.
    replace (trow (Z.of_nat h) td (trow (Z.of_nat h) td (Z.of_nat y))) with (Z.of_nat y)
      by (unfold trow; destruct td; lia). lia. }
  specialize (F q Hq). rewrite Ha in F. rewrite F, Hel.
  assert (Es : Z.to_nat (q - 0) = storage_index w h td x y) by (unfold q; lia).
  rewrite Es.
  destruct (Z.leb_spec 0 q) as [_ | Hc]; [cbn [andb] | lia].
  destruct (Z.ltb_spec q (0 + Z.of_nat (length PX))) as [Hin | Hout].
  - assert (Hm : nth_error (map Some (expand its)) (storage_index w h td x y) =
                 nth_error (map spec_pixel PX) (storage_index w h td x y)) by now rewrite Hpx.
    rewrite !nth_error_map in Hm.
    destruct (nth_error PX (storage_index w h td x y)) as [px |] eqn:Ep.
    + cbn [option_map] in Hm.
      destruct (nth_error (expand its) (storage_index w h td x y)); cbn [option_map] in Hm;
        [congruence | discriminate].
    + apply nth_error_None in Ep. unfold q in Hin. lia.
  - destruct (nth_error PX (storage_index w h td x y)) as [px |] eqn:Ep; [| reflexivity].
    exfalso. assert (storage_index w h td x y < length PX)%nat
      by (apply nth_error_Some; congruence). unfold q in Hout. lia.
Qed.

Lemma tga_rle_decode_pf : forall w h td bits depth id ps trail buf,
  depth_of bits depth -> Z.of_nat w < 65536 -> Z.of_nat h < 65536 ->
  Z.of_nat w * Z.of_nat h < 2 ^ 31 -> (length id < 256)%nat -> length buf = (w * h)%nat ->
  Forall (packet_ok depth) ps -> Forall one_raw ps -> length (pixels ps) = (w * h)%nat ->
  exists buf',
    tga_read (rle_header (N.of_nat (length id)) bits (N.of_nat w) (N.of_nat h) td
                ++ id ++ encode ps ++ trail) buf = Ok (buf', true) /\
    length buf' = length buf /\
    forall x y, (x < w)%nat -> (y < h)%nat ->
      exists px, nth_error (pixels ps) (storage_index w h td x y) = Some px /\
                 nth_error buf' (y * w + x) = spec_pixel px.
Proof.
  intros w h td bits depth id ps trail buf Hd Hw Hh Hwh Hid Hb Hok Hone Hlen.
  pose proof (depth_of_range _ _ Hd) as Hdr.
  destruct (items_encode depth trail ps Hdr Hok Hone) as (its & Ei & Ex).
  destruct (gen_header_read 10 bits depth (N.of_nat w) (N.of_nat h) td id (encode ps ++ trail) Hd)
    as (Hv & Fw & Fh & Ft & Fi & _); [now right | lia | lia |].
  change (rle_header (N.of_nat (length id)) bits (N.of_nat w) (N.of_nat h) td)
    with (gen_header 10 (N.of_nat (length id)) bits (N.of_nat w) (N.of_nat h) td).
  set (f := gen_header _ _ _ _ _ _ ++ _) in *.
  change (10 =? 10)%N with true in Fi. rewrite Ei in Fi.
  destruct (decode_main f buf its _ (pixels ps) w h td Hv Fw Fh Ft Hwh Hb Fi Ex (or_introl Hlen))
    as (buf' & ok & E & L & Hokk & F).
  exists buf'. assert (ok = true) as -> by (apply Hokk; exact Hlen).
  split; [exact E |]. split; [exact L |]. intros x y Hx Hy. specialize (F x y Hx Hy).
  destruct (nth_error (pixels ps) (storage_index w h td x y)) as [px |] eqn:Ep.
  - exists px. auto.
  - exfalso. apply nth_error_None in Ep. rewrite Hlen in Ep.
    unfold storage_index in Ep. clear - Ep Hx Hy. destruct td; nia.
Qed.

Lemma tga_rle_truncated_pf : forall w h td bits depth id ps buf,
  depth_of bits depth -> Z.of_nat w < 65536 -> Z.of_nat h < 65536 ->
  Z.of_nat w * Z.of_nat h < 2 ^ 31 -> (length id < 256)%nat -> length buf = (w * h)%nat ->
  Forall (packet_ok depth) ps -> Forall one_raw ps -> (length (pixels ps) < w * h)%nat ->
  exists buf',
    tga_read (rle_header (N.of_nat (length id)) bits (N.of_nat w) (N.of_nat h) td
                ++ id ++ encode ps) buf = Ok (buf', false).
Proof.
  intros w h td bits depth id ps buf Hd Hw Hh Hwh Hid Hb Hok Hone Hlen.
  pose proof (depth_of_range _ _ Hd) as Hdr.
  destruct (items_encode depth [] ps Hdr Hok Hone) as (its & Ei & Ex).
  rewrite app_nil_r in Ei.
  destruct (gen_header_read 10 bits depth (N.of_nat w) (N.of_nat h) td id (encode ps) Hd)
    as (Hv & Fw & Fh & Ft & Fi & _); [now right | lia | lia |].
  change (rle_header (N.of_nat (length id)) bits (N.of_nat w) (N.of_nat h) td)
    with (gen_header 10 (N.of_nat (length id)) bits (N.of_nat w) (N.of_nat h) td).
  set (f := gen_header _ _ _ _ _ _ ++ _) in *.
  change (10 =? 10)%N with true in Fi. rewrite Ei in Fi.
  destruct (decode_main f buf its _ (pixels ps) w h td Hv Fw Fh Ft Hwh Hb Fi Ex)
    as (buf' & ok & E & L & Hokk & F).
  { right. split; [reflexivity | exact Hlen]. }
  exists buf'. destruct ok; [| exact E]. exfalso. destruct Hokk as [Hk _]. specialize (Hk eq_refl). lia.
Qed.

Lemma tga_raw_decode_pf : forall w h td bits depth id pxs trail buf,
  depth_of bits depth -> Z.of_nat w < 65536 -> Z.of_nat h < 65536 ->
  Z.of_nat w * Z.of_nat h < 2 ^ 31 -> (length id < 256)%nat -> length buf = (w * h)%nat ->
  Forall (fun px => length px = depth /\ Forall is_byte px) pxs -> length pxs = (w * h)%nat ->
  exists buf',
    tga_read (raw_header (N.of_nat (length id)) bits (N.of_nat w) (N.of_nat h) td
                ++ id ++ concat pxs ++ trail) buf = Ok (buf', true) /\
    length buf' = length buf /\
    forall x y, (x < w)%nat -> (y < h)%nat ->
      exists px, nth_error pxs (storage_index w h td x y) = Some px /\
                 nth_error buf' (y * w + x) = spec_pixel px.
Proof.
  intros w h td bits depth id pxs trail buf Hd Hw Hh Hwh Hid Hb Hok Hlen.
  pose proof (depth_of_range _ _ Hd) as Hdr.
  destruct (items_concat depth trail pxs Hdr Hok) as (its & Ei & Ex).
  destruct (gen_header_read 2 bits depth (N.of_nat w) (N.of_nat h) td id (concat pxs ++ trail) Hd)
    as (Hv & Fw & Fh & Ft & Fi & _); [now left | lia | lia |].
  change (raw_header (N.of_nat (length id)) bits (N.of_nat w) (N.of_nat h) td)
    with (gen_header 2 (N.of_nat (length id)) bits (N.of_nat w) (N.of_nat h) td).
  set (f := gen_header _ _ _ _ _ _ ++ _) in *.
  change (2 =? 10)%N with false in Fi. rewrite Ei in Fi.
  destruct (decode_main f buf its _ pxs w h td Hv Fw Fh Ft Hwh Hb Fi Ex (or_introl Hlen))
    as (buf' & ok & E & L & Hokk & F).
  exists buf'. assert (ok = true) as -> by (apply Hokk; exact Hlen).
  split; [exact E |]. split; [exact L |]. intros x y Hx Hy. specialize (F x y Hx Hy).
  destruct (nth_error pxs (storage_index w h td x y)) as [px |] eqn:Ep.
  - exists px. auto.
  - exfalso. apply nth_error_None in Ep. rewrite Hlen in Ep.
    unfold storage_index in Ep. clear - Ep Hx Hy. destruct td; nia.
Qed.

(* ---- writer ---- *)

Definition px_bgr (p : N) : list N := [px_blue p; px_green p; px_red p].

Lemma tga_write_row_ok : forall n w y x data,
  0 <= y -> 0 <= x -> 0 <= w -> y * w + x + Z.of_nat n < 2 ^ 31 ->
  y * w + x + Z.of_nat n <= Z.of_nat (length data) ->
  tga_write_row n w y x data =
  Ok (concat (map px_bgr (firstn n (skipn (Z.to_nat (y * w + x)) data)))).
Proof.
  intros n. induction n as [| n IH]; intros w y x data Hy Hx Hw Hlt Hle; [reflexivity |].
  cbn [tga_write_row].
  assert (Hyw : 0 <= y * w) by (apply Z.mul_nonneg_nonneg; lia).
  rewrite ck_ok by lia. cbn [bind]. rewrite ck_ok by lia. cbn [bind].
  destruct (rd_ok N data (y * w + x) ltac:(lia)) as (p & Er & En). rewrite Er. cbn [bind].
  rewrite IH by lia. cbn [bind].
  assert (Hsk : skipn (Z.to_nat (y * w + x)) data =
                p :: skipn (Z.to_nat (y * w + (x + 1))) data).
  { replace (Z.to_nat (y * w + (x + 1))) with (S (Z.to_nat (y * w + x))) by lia.
    clear - En. revert data En. generalize (Z.to_nat (y * w + x)) as k. intros k.
    induction k as [| k IH]; intros [| a data] En; try discriminate.
    - cbn in En. cbn [skipn]. congruence.
    - cbn [skipn]. apply IH. exact En. }
  rewrite Hsk. cbn [firstn map concat px_bgr app]. reflexivity.
Qed.

Lemma tga_write_rows_ok : forall n w y data,
  0 <= y -> 0 <= w -> (y + Z.of_nat n) * w < 2 ^ 31 ->
  (y + Z.of_nat n) * w <= Z.of_nat (length data) ->
  tga_write_rows n w y data =
  Ok (concat (map px_bgr (firstn (n * Z.to_nat w) (skipn (Z.to_nat (y * w)) data)))).
Proof.
  intros n. induction n as [| n IH]; intros w y data Hy Hw Hlt Hle; [reflexivity |].
  cbn [tga_write_rows].
  assert (Hyw : 0 <= y * w) by (apply Z.mul_nonneg_nonneg; lia).
  assert (Hnw : 0 <= Z.of_nat n * w) by (apply Z.mul_nonneg_nonneg; lia).
  replace ((y + Z.of_nat (S n)) * w) with (y * w + Z.of_nat n * w + w) in Hlt, Hle by lia.
  rewrite tga_write_row_ok by lia. cbn [bind]. rewrite IH by lia. cbn [bind].
  rewrite Z.add_0_r. f_equal. rewrite <- concat_app, <- map_app. f_equal. f_equal.
  replace (Z.to_nat ((y + 1) * w)) with (Z.to_nat (y * w) + Z.to_nat w)%nat by lia.
  replace (S n * Z.to_nat w)%nat with (Z.to_nat w + n * Z.to_nat w)%nat by lia.
  set (a := Z.to_nat w). set (b := Z.to_nat (y * w)). clearbody a b.
  replace (skipn (b + a) data) with (skipn a (skipn b data)).
  2: { clear. revert data. induction b as [| b IH]; intros data; [reflexivity |].
       destruct data as [| d data]; [now rewrite !skipn_nil |]. cbn [skipn Nat.add]. apply IH. }
  clear. generalize (skipn b data) as l, (n * a)%nat as m. intros l m. revert l. induction a as [| a IH]; intros l.
  - reflexivity.
  - destruct l as [| e l]; [now rewrite skipn_nil, !firstn_nil |].
    cbn [skipn firstn Nat.add app]. f_equal. apply IH.
Qed.

Lemma tga_write_ok : forall w h data, (length data = w * h)%nat ->
  3 * (Z.of_nat w * Z.of_nat h) < 2 ^ 31 -> Z.of_nat w * 3 < 2 ^ 31 ->
  tga_write (Z.of_nat w) (Z.of_nat h) data =
  Ok (raw_header 0 24 (N.of_nat w mod 65536) (N.of_nat h mod 65536) true
        ++ concat (map px_bgr data), true).
Proof.
  intros w h data Hl Hs Hw3. unfold tga_write.
  destruct (Z.ltb_spec (Z.of_nat w) 0) as [Hc | _]; [lia |].
  destruct (Z.ltb_spec (Z.of_nat h) 0) as [Hc | _]; [lia |]. cbn [orb].
  rewrite ck_ok by lia. cbn [bind].
  rewrite tga_write_rows_ok by lia. cbn [bind].
  rewrite ck_ok by lia. cbn [bind]. rewrite ck_ok by lia. cbn [bind].
  rewrite Z.eqb_refl. f_equal. f_equal.
  replace (Z.to_nat (Z.of_nat h) * Z.to_nat (Z.of_nat w))%nat with (length data) by lia.
  rewrite Z.mul_0_l. cbn [Z.to_nat skipn]. rewrite firstn_all.
  unfold raw_header, u16. change (2 ^ 16)%N with 65536%N.
  replace (Z.to_N (Z.of_nat w)) with (N.of_nat w) by lia.
  replace (Z.to_N (Z.of_nat h)) with (N.of_nat h) by lia. reflexivity.
Qed.

Lemma tga_write_dimensions_pf : forall w h data f ok, (length data = w * h)%nat ->
  3 * (Z.of_nat w * Z.of_nat h) < 2 ^ 31 -> Z.of_nat w * 3 < 2 ^ 31 ->
  tga_write (Z.of_nat w) (Z.of_nat h) data = Ok (f, ok) ->
  ok = true /\ tga_dimensions f = Some (Z.of_nat w mod 65536, Z.of_nat h mod 65536).
Proof.
  intros w h data f ok Hl Hs Hw3 E. rewrite tga_write_ok in E by assumption.
  assert (f = raw_header 0 24 (N.of_nat w mod 65536) (N.of_nat h mod 65536) true
        ++ concat (map px_bgr data)) as -> by congruence.
  split; [congruence |].
  destruct (gen_header_read 2 24 3 (N.of_nat w mod 65536) (N.of_nat h mod 65536) true []
              (concat (map px_bgr data))) as (Hv & Fw & Fh & _).
  { right. right. left. reflexivity. }
  { now left. }
  { apply N.mod_lt. discriminate. }
  { apply N.mod_lt. discriminate. }
  cbn [app length N.of_nat] in Hv, Fw, Fh. unfold gen_header in Hv, Fw, Fh.
  unfold tga_dimensions, raw_header. rewrite Hv, Fw, Fh, !N2Z.inj_mod, !nat_N_Z. reflexivity.
Qed.

Lemma px_bgr_spec : forall p, (p < 2 ^ 32)%N -> spec_pixel (px_bgr p) = Some (N.lor p 255).
Proof.
  intros p Hp. cbn [px_bgr spec_pixel]. f_equal. rewrite <- px_make_self by exact Hp.
  destruct (px_bytes p) as (Hr & Hg & Hb). rewrite px_make_val by assumption. unfold bgra. lia.
Qed.

Lemma tga_round_trip_pf : forall w h data buf,
  Z.of_nat w < 65536 -> Z.of_nat h < 65536 -> 3 * (Z.of_nat w * Z.of_nat h) < 2 ^ 31 ->
  length data = (w * h)%nat -> length buf = (w * h)%nat ->
  Forall (fun p => p < 2 ^ 32)%N data ->
  exists f, tga_write (Z.of_nat w) (Z.of_nat h) data = Ok (f, true) /\
    tga_valid f = true /\
    tga_dimensions f = Some (Z.of_nat w, Z.of_nat h) /\
    tga_read f buf = Ok (map (fun p => N.lor p 255) data, true).
Proof.
  intros w h data buf Hw Hh Hs Hl Hb Hd.
  pose proof (tga_write_ok w h data Hl Hs ltac:(lia)) as E.
  set (f := raw_header _ _ _ _ _ ++ _) in E.
  exists f. split; [exact E |].
  destruct (tga_write_dimensions_pf w h data f true Hl Hs ltac:(lia) E) as [_ D].
  rewrite !Z.mod_small in D by lia.
  split. { unfold tga_dimensions in D. destruct (tga_valid f); [reflexivity | discriminate]. }
  split; [exact D |].
  assert (Hpx : Forall (fun px => length px = 3%nat /\ Forall is_byte px) (map px_bgr data)).
  { apply Forall_forall. intros px Hin. apply in_map_iff in Hin. destruct Hin as (p & <- & _).
    destruct (px_bytes p) as (Hr & Hg & Hb'). split; [reflexivity |].
    repeat constructor; assumption. }
  destruct (tga_raw_decode_pf w h true 24 3 [] (map px_bgr data) [] buf) as (buf' & Er & L & F);
    try assumption.
  { right. right. left. reflexivity. }
  { lia. }
  { cbn [length]. lia. }
  { rewrite map_length. exact Hl. }
  cbn [app length] in Er. rewrite app_nil_r in Er.
  unfold f. rewrite !N.mod_small by lia. change (N.of_nat 0) with 0%N in Er. rewrite Er.
  f_equal. f_equal. apply list_ext; [rewrite map_length; lia |]. intros i Hi.
  assert (Hi' : (i < w * h)%nat) by lia.
  assert (Hw0 : (w <> 0)%nat) by (intros ->; lia).
  pose proof (Nat.div_mod i w Hw0) as Dm. pose proof (Nat.mod_upper_bound i w Hw0) as Mb.
  assert (Hy : (i / w < h)%nat) by (apply Nat.div_lt_upper_bound; lia).
  destruct (F (i mod w)%nat (i / w)%nat Mb Hy) as (px & E1 & E2).
  unfold storage_index in E1.
  replace (i / w * w + i mod w)%nat with i in E1, E2 by lia.
  rewrite E2, nth_error_map. rewrite nth_error_map in E1.
  destruct (nth_error data i) as [p |] eqn:Ep; [| discriminate].
  cbn [option_map] in *. injection E1 as <-. apply px_bgr_spec.
  rewrite Forall_forall in Hd. apply Hd. eapply nth_error_In. exact Ep.
Qed.
