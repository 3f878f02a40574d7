From Verif Require Import Common ByteLemmas ArrayIO PixelModel PixelProofs BmpModel BmpSpec.
Local Open Scope Z_scope.

(* ---- pure description of the reader ---- *)

Definition pix (bpp : Z) (l : list N) (o : Z) : N :=
  let b := byte l (Z.to_nat (o + 0)) in
  let g := byte l (Z.to_nat (o + 1)) in
  let r := byte l (Z.to_nat (o + 2)) in
  if bpp =? 4 then N.land (px_make r g b) (N.lor (byte l (Z.to_nat (o + 3))) 0xFFFFFF00)
  else px_make r g b.

Lemma rd_byte : forall l i, 0 <= i < Z.of_nat (length l) -> rd l i = Ok (byte l (Z.to_nat i)).
Proof.
  intros l i H. apply rd_nth; [lia |]. unfold byte.
  apply nth_error_nth'. lia.
Qed.

Lemma bmp_read_pixel_ok : forall bpp row x,
  (bpp = 3 \/ bpp = 4) -> 0 <= x -> x * bpp + bpp <= Z.of_nat (length row) ->
  bmp_read_pixel bpp row x = Ok (pix bpp row (x * bpp)).
Proof.
  intros bpp row x Hb Hx Hl. unfold bmp_read_pixel, pix.
  rewrite !rd_byte by nia. cbn [bind].
  destruct (Z.eqb_spec bpp 4) as [-> | Hn]; [| reflexivity].
  rewrite rd_byte by lia. reflexivity.
Qed.

Lemma bmp_read_row_ok : forall n row bpp W H y x buf,
  (bpp = 3 \/ bpp = 4) -> 0 <= x -> x + Z.of_nat n <= W -> 0 <= y < H ->
  W * H < 2 ^ 31 -> W * bpp <= Z.of_nat (length row) ->
  Z.of_nat (length buf) = W * H ->
  exists buf', bmp_read_row n row bpp W y x buf = Ok buf' /\
    length buf' = length buf /\
    forall j, nth_error buf' j =
      if ((y * W + x <=? Z.of_nat j) && (Z.of_nat j <? y * W + x + Z.of_nat n))%bool
      then Some (pix bpp row ((Z.of_nat j - y * W) * bpp))
      else nth_error buf j.
Proof.
  intros n. induction n as [| n IH]; intros row bpp W H y x buf Hb Hx Hn Hy HWH Hrow Hbuf.
  - exists buf. cbn [bmp_read_row]. split; [reflexivity |]. split; [reflexivity |].
    intros j. destruct (Z.leb_spec (y * W + x) (Z.of_nat j));
      destruct (Z.ltb_spec (Z.of_nat j) (y * W + x + Z.of_nat 0)); try lia; reflexivity.
  - cbn [bmp_read_row].
    rewrite bmp_read_pixel_ok by (assumption || nia). cbn [bind].
    pose proof (row_in W H y ltac:(lia) Hy) as [HyW HyW2].
    rewrite ck_ok by lia. cbn [bind]. rewrite ck_ok by lia. cbn [bind].
    destruct (upd_cases N buf (y * W + x) (pix bpp row (x * bpp))) as [[b1 E1] | [_ Hc]];
      [| lia].
    rewrite E1. cbn [bind].
    destruct (IH row bpp W H y (x + 1) b1) as (b2 & E2 & L2 & N2); try assumption; try lia.
    { rewrite (upd_length _ _ _ _ _ E1). exact Hbuf. }
    exists b2. split; [exact E2 |]. split; [rewrite L2; apply (upd_length _ _ _ _ _ E1) |].
    intros j. rewrite N2.
    destruct (Z.eq_dec (Z.of_nat j) (y * W + x)) as [Hj | Hj].
    + destruct (Z.leb_spec (y * W + (x + 1)) (Z.of_nat j)); [lia |]. cbn [andb].
      destruct (Z.leb_spec (y * W + x) (Z.of_nat j)); [| lia].
      destruct (Z.ltb_spec (Z.of_nat j) (y * W + x + Z.of_nat (S n))); [| lia]. cbn [andb].
      replace j with (Z.to_nat (y * W + x)) by lia.
      rewrite (nth_error_upd_eq _ _ _ _ _ E1). do 2 f_equal. lia.
    + rewrite (nth_error_upd_neq _ _ _ _ _ _ E1) by lia.
      destruct (Z.leb_spec (y * W + (x + 1)) (Z.of_nat j));
        destruct (Z.leb_spec (y * W + x) (Z.of_nat j)); try lia; cbn [andb]; try reflexivity.
      destruct (Z.ltb_spec (Z.of_nat j) (y * W + (x + 1) + Z.of_nat n));
        destruct (Z.ltb_spec (Z.of_nat j) (y * W + x + Z.of_nat (S n))); try lia; reflexivity.
Qed.

Lemma byte_skipn : forall l n i, byte (skipn n l) i = byte l (n + i).
Proof.
  intros l n. revert l. induction n as [| n IH]; intros l i; [reflexivity |].
  destruct l as [| a l]; cbn [skipn].
  - unfold byte. destruct i; reflexivity.
  - rewrite IH. reflexivity.
Qed.

Lemma byte_firstn : forall l n i, (i < n)%nat -> byte (firstn n l) i = byte l i.
Proof.
  intros l n. revert l. induction n as [| n IH]; intros l i H; [lia |].
  destruct l as [| a l]; [reflexivity |]. destruct i as [| i]; [reflexivity |].
  unfold byte in *. cbn [firstn nth]. apply IH. lia.
Qed.

Lemma pix_firstn : forall bpp l n o, (bpp = 3 \/ bpp = 4) -> 0 <= o -> o + bpp <= Z.of_nat n ->
  pix bpp (firstn n l) o = pix bpp l o.
Proof.
  intros bpp l n o Hb Ho Hn. unfold pix.
  destruct (Z.eqb_spec bpp 4) as [-> | Hne]; rewrite !byte_firstn by lia; reflexivity.
Qed.

Lemma pix_skipn : forall bpp l n o, 0 <= o ->
  pix bpp (skipn n l) o = pix bpp l (Z.of_nat n + o).
Proof.
  intros bpp l n o Ho. unfold pix.
  destruct (Z.eqb_spec bpp 4) as [-> | Hne]; rewrite !byte_skipn;
    replace (Z.to_nat (Z.of_nat n + o + 0)) with (n + Z.to_nat (o + 0))%nat by lia;
    replace (Z.to_nat (Z.of_nat n + o + 1)) with (n + Z.to_nat (o + 1))%nat by lia;
    replace (Z.to_nat (Z.of_nat n + o + 2)) with (n + Z.to_nat (o + 2))%nat by lia;
    replace (Z.to_nat (Z.of_nat n + o + 3)) with (n + Z.to_nat (o + 3))%nat by lia;
    reflexivity.
Qed.

(* row r of the file (from 0) lands on image row yof r *)
Definition yof (inc y0 r : Z) : Z := y0 + inc * r.

Lemma bmp_read_rows_ok : forall n bpp W H L inc y written stream buf,
  (bpp = 3 \/ bpp = 4) -> 0 < W -> W * bpp <= L ->
  W * H < 2 ^ 31 -> Z.of_nat (length buf) = W * H ->
  0 <= written -> written + Z.of_nat n * W <= W * H ->
  (inc = 1 \/ inc = -1) ->
  (inc = 1 -> 0 <= y /\ y + Z.of_nat n <= H) ->
  (inc = -1 -> y < H /\ 0 <= y - Z.of_nat n + 1) ->
  exists buf' k, bmp_read_rows n bpp W L inc y written stream buf = Ok (buf', written + k * W) /\
    k = Z.min (Z.of_nat n) (Z.of_nat (length stream) / L) /\
    length buf' = length buf /\
    forall r x, 0 <= x < W ->
      (0 <= r < k ->
       nth_error buf' (Z.to_nat (yof inc y r * W + x)) = Some (pix bpp stream (r * L + x * bpp))) /\
      (0 <= yof inc y r < H -> ~ (0 <= r < k) ->
       nth_error buf' (Z.to_nat (yof inc y r * W + x)) =
       nth_error buf (Z.to_nat (yof inc y r * W + x))).
Proof.
  intros n. induction n as [| n IH];
    intros bpp W H L inc y written stream buf Hb HW HL HWH Hbuf Hw Hwn Hinc H1 H2.
  - exists buf, 0. cbn [bmp_read_rows]. rewrite Z.add_0_r.
    split; [reflexivity |]. split.
    { change (Z.of_nat 0) with 0. pose proof (Z.div_pos (Z.of_nat (length stream)) L). nia. }
    split; [reflexivity |]. intros r x Hx. split; [lia | reflexivity].
  - cbn [bmp_read_rows].
    assert (HLp : 0 < L) by nia.
    destruct (Z.eqb_spec L 0) as [Hc | _]; [lia |]. cbn [orb].
    destruct (Z.ltb_spec (Z.of_nat (length stream)) L) as [Hlt | Hge].
    + exists buf, 0. rewrite Z.add_0_r. split; [reflexivity |]. split.
      { rewrite Z.div_small by lia. lia. }
      split; [reflexivity |]. intros r x Hx. split; [lia | reflexivity].
    + set (row := firstn (Z.to_nat L) stream).
      assert (Hrl : Z.of_nat (length row) = L).
      { unfold row. rewrite firstn_length. lia. }
      destruct (bmp_read_row_ok (Z.to_nat W) row bpp W H y 0 buf)
        as (b1 & E1 & L1 & N1); try assumption; try lia.
      rewrite E1. cbn [bind].
      assert (Hck : 0 <= written + W < 2 ^ 31) by nia.
      rewrite ck_ok by lia. cbn [bind].
      destruct (IH bpp W H L inc (y + inc) (written + W) (skipn (Z.to_nat L) stream) b1)
        as (b2 & k & E2 & Hk & L2 & N2); try assumption; try lia.
      exists b2, (k + 1). split.
      { rewrite E2. do 2 f_equal. lia. }
      assert (Hdiv : Z.of_nat (length stream) / L =
                     Z.of_nat (length (skipn (Z.to_nat L) stream)) / L + 1).
      { rewrite skipn_length.
        replace (Z.of_nat (length stream)) with
          (Z.of_nat (length stream - Z.to_nat L) + 1 * L) by lia.
        now rewrite Z.div_add by lia. }
      split; [rewrite Hdiv; lia |]. split; [lia |].
      intros r x Hx.
      assert (Hyofs : forall r, yof inc (y + inc) (r - 1) = yof inc y r)
        by (intros; unfold yof; lia).
      assert (Hyr : 0 <= y < H).
      { destruct Hinc as [-> | ->]; [specialize (H1 eq_refl) | specialize (H2 eq_refl)]; lia. }
      assert (Hk0 : 0 <= k).
      { rewrite Hk. pose proof (Z.div_pos (Z.of_nat (length (skipn (Z.to_nat L) stream))) L). lia. }
      (* the row written now *)
      assert (Hrow0 : nth_error b1 (Z.to_nat (y * W + x)) = Some (pix bpp stream (x * bpp))).
      { rewrite N1. pose proof (row_in W H y ltac:(lia) Hyr) as [HyW _].
        pose proof (mul_le_of_lt x W bpp Hx ltac:(lia)) as Hxb.
        rewrite Z2Nat.id by lia. rewrite Z.add_0_r.
        destruct (Z.leb_spec (y * W) (y * W + x)); [| lia].
        destruct (Z.ltb_spec (y * W + x) (y * W + Z.of_nat (Z.to_nat W))); [| lia].
        cbn [andb]. replace (y * W + x - y * W) with x by lia.
        unfold row. rewrite pix_firstn; [reflexivity | assumption | lia | lia]. }
      assert (Hother : forall y', 0 <= y' < H -> y' <> y ->
                nth_error b1 (Z.to_nat (y' * W + x)) = nth_error buf (Z.to_nat (y' * W + x))).
      { intros y' Hy' Hne. rewrite N1. pose proof (row_in W H y' ltac:(lia) Hy') as [HyW _].
        rewrite Z2Nat.id by lia. rewrite Z.add_0_r.
        destruct (Z.leb_spec (y * W) (y' * W + x));
          destruct (Z.ltb_spec (y' * W + x) (y * W + Z.of_nat (Z.to_nat W)));
          cbn [andb]; try reflexivity.
        exfalso. apply (rows_disjoint W y y' x); lia. }
      split.
      * intros Hr. destruct (Z.eq_dec r 0) as [-> | Hr0].
        -- destruct (N2 (-1) x Hx) as [_ N2b].
           replace (-1) with (0 - 1) in N2b by lia. rewrite Hyofs in N2b.
           replace (yof inc y 0) with y in * by (unfold yof; lia).
           rewrite N2b by lia. rewrite Hrow0. do 2 f_equal.
        -- destruct (N2 (r - 1) x Hx) as [N2a _]. rewrite Hyofs in N2a.
           rewrite N2a by lia.
           pose proof (Z.mul_nonneg_nonneg (r - 1) L ltac:(lia) ltac:(lia)).
           pose proof (mul_le_of_lt x W bpp Hx ltac:(lia)).
           rewrite pix_skipn by lia. do 2 f_equal. lia.
      * intros Hyb Hnr. destruct (N2 (r - 1) x Hx) as [_ N2b]. rewrite Hyofs in N2b.
        rewrite N2b by (assumption || lia). apply Hother; [exact Hyb |].
        unfold yof in *. destruct Hinc as [-> | ->]; lia.
Qed.

(* file row of image row y *)
Definition file_row (h y : Z) : Z := if h <? 0 then y else h - 1 - y.

Definition row_len (f : list N) : Z :=
  let bpp := Z.of_N (N.shiftr (h_bpp f) 3) in
  h_width f * bpp + Z.rem (h_width f * bpp) 4.

Lemma bmp_bpp : forall f, bmp_valid f = true ->
  (h_bpp f = 24%N /\ Z.of_N (N.shiftr (h_bpp f) 3) = 3) \/
  (h_bpp f = 32%N /\ Z.of_N (N.shiftr (h_bpp f) 3) = 4).
Proof.
  intros f H. unfold bmp_valid in H. rewrite !andb_true_iff, orb_true_iff in H.
  destruct H as [_ [H | H]]; apply N.eqb_eq in H; rewrite H; [left | right]; split; reflexivity.
Qed.

Lemma rem4_bounds : forall a, 0 <= a -> 0 <= Z.rem a 4 < 4.
Proof. intros a H. apply Z.rem_bound_pos; lia. Qed.

(* Full functional description of bmp_read on accepted files. *)
Lemma bmp_read_ok : forall f buf W Hs bpp,
  bmp_valid f = true ->
  h_width f = W -> h_height f = Hs -> Z.of_N (N.shiftr (h_bpp f) 3) = bpp ->
  0 <= W -> Hs <> 0 -> Hs <> - 2 ^ 31 ->
  W * 4 + 3 < 2 ^ 31 -> W * Z.abs Hs < 2 ^ 31 ->
  Z.of_nat (length buf) = W * Z.abs Hs ->
  let L := row_len f in
  let stream := skipn (N.to_nat (h_data_offset f)) f in
  let k := if W =? 0 then 0 else Z.min (Z.abs Hs) (Z.of_nat (length stream) / L) in
  exists buf',
    bmp_read f buf = Ok (buf', (k * W =? Z.abs Hs * W)) /\
    length buf' = length buf /\
    forall x y, 0 <= x < W -> 0 <= y < Z.abs Hs ->
      nth_error buf' (Z.to_nat (y * W + x)) =
      if file_row Hs y <? k
      then Some (pix bpp stream (file_row Hs y * L + x * bpp))
      else nth_error buf (Z.to_nat (y * W + x)).
Proof.
  intros f buf W Hs bpp Hv HW HH Hbpp HW0 HH0 HHm HW4 HWH Hbuf L stream k.
  assert (Hb : bpp = 3 \/ bpp = 4).
  { destruct (bmp_bpp f Hv) as [[_ E] | [_ E]]; rewrite E in Hbpp; lia. }
  pose proof (int32_bounds (f32 f 22)) as HHb. fold (h_height f) in HHb. rewrite HH in HHb.
  assert (Hrem : 0 <= Z.rem (W * bpp) 4 < 4) by (apply rem4_bounds; nia).
  assert (HL : L = W * bpp + Z.rem (W * bpp) 4).
  { unfold L, row_len. rewrite HW, Hbpp. reflexivity. }
  assert (Hwb : 0 <= W * bpp /\ W * bpp + 3 < 2 ^ 31) by (clear - Hb HW0 HW4; destruct Hb; subst; lia).
  assert (HLr : 0 <= W * bpp + Z.rem (W * bpp) 4 < 2 ^ 31) by (clear - Hwb Hrem; lia).
  unfold bmp_read. rewrite Hv. cbn [negb]. rewrite HW, HH, Hbpp.
  rewrite ck_ok by lia. cbn [bind].
  rewrite ck_ok by lia. cbn [bind].
  destruct (Z.eqb_spec Hs 0) as [Hc | _]; [lia |].
  rewrite ck_ok by lia. cbn [bind].
  destruct (Z.ltb_spec (W * bpp + Z.rem (W * bpp) 4) 0) as [Hc | _]; [lia |].
  rewrite <- HL. fold stream. assert (HLW : W * bpp <= L) by lia.
  clearbody L stream. clear Hv HW HH Hbpp.
  set (inc := Z.quot (- Hs) (Z.abs Hs)).
  assert (Hinc : (Hs < 0 /\ inc = 1) \/ (0 < Hs /\ inc = -1)).
  { unfold inc. destruct (Z.lt_ge_cases Hs 0) as [Hn | Hp].
    - left. split; [exact Hn |]. rewrite Z.abs_neq by lia. apply Z.quot_same. lia.
    - right. split; [lia |]. rewrite Z.abs_eq by lia.
      rewrite Z.quot_opp_l by lia. rewrite Z.quot_same by lia. reflexivity. }
  clearbody inc.
  set (habs := if inc <? 0 then Hs else - Hs).
  assert (Hhabs : habs = Z.abs Hs).
  { unfold habs. destruct (Z.ltb_spec inc 0); lia. }
  set (y0 := if inc <? 0 then Hs - 1 else 0).
  rewrite Hhabs.
  destruct (Z.eq_dec W 0) as [HWz | HWnz].
  - (* no columns: nothing is read *)
    subst W.
    assert (HL0 : L = 0) by (rewrite HL; reflexivity).
    unfold k. rewrite HL0. cbn [Z.eqb].
    exists buf.
    assert (Hrows : forall n, bmp_read_rows n bpp 0 0 inc y0 0 stream buf = Ok (buf, 0))
      by (intros [| n]; reflexivity).
    rewrite Hrows. cbn [bind]. rewrite ck_ok by lia. cbn [bind].
    split; [do 2 f_equal; lia |]. split; [reflexivity |]. intros; lia.
  - assert (Hk : k = Z.min (Z.abs Hs) (Z.of_nat (length stream) / L)).
    { unfold k. destruct (Z.eqb_spec W 0); [contradiction | reflexivity]. }
    clearbody k.
    assert (Hfr : forall y, 0 <= y < Z.abs Hs ->
              0 <= file_row Hs y < Z.abs Hs /\ yof inc y0 (file_row Hs y) = y).
    { intros y Hy. unfold file_row, yof, y0. clear - Hinc Hy.
      destruct Hinc as [[Hneg ->] | [Hpos ->]]; cbn [Z.ltb Z.compare];
        destruct (Z.ltb_spec Hs 0); lia. }
    assert (Hy1 : inc = 1 -> 0 <= y0 /\ y0 + Z.of_nat (Z.to_nat (Z.abs Hs)) <= Z.abs Hs).
    { unfold y0. clear - Hinc. intros ->. cbn [Z.ltb Z.compare]. lia. }
    assert (Hy2 : inc = -1 -> y0 < Z.abs Hs /\ 0 <= y0 - Z.of_nat (Z.to_nat (Z.abs Hs)) + 1).
    { unfold y0. clear - Hinc. intros ->. cbn [Z.ltb Z.compare]. lia. }
    assert (Hi : inc = 1 \/ inc = -1) by (clear - Hinc; lia).
    assert (Hn : 0 + Z.of_nat (Z.to_nat (Z.abs Hs)) * W <= W * Z.abs Hs).
    { rewrite Z2Nat.id by (clear; lia). clear. lia. }
    destruct (bmp_read_rows_ok (Z.to_nat (Z.abs Hs)) bpp W (Z.abs Hs) L inc y0 0 stream buf
                Hb ltac:(clear - HW0 HWnz; lia) HLW HWH Hbuf (Z.le_refl 0) Hn Hi Hy1 Hy2)
      as (buf' & k' & E & Hk' & Hlen & Hnth).
    rewrite E. cbn [bind].
    rewrite ck_ok
      by (pose proof (Z.mul_nonneg_nonneg (Z.abs Hs) W (Z.abs_nonneg Hs) HW0); clear - H HWH; lia).
    cbn [bind].
    assert (Hkk : k' = k).
    { rewrite Hk, Hk', Z2Nat.id by (clear; lia). reflexivity. }
    rewrite Hkk in *.
    exists buf'. split; [do 2 f_equal; clear; lia |]. split; [exact Hlen |].
    intros x y Hx Hy. destruct (Hfr y Hy) as [Hr Hyy].
    destruct (Hnth (file_row Hs y) x Hx) as [Ha Hbb]. rewrite Hyy in Ha, Hbb.
    clear - Ha Hbb Hr Hy.
    destruct (Z.ltb_spec (file_row Hs y) k).
    + apply Ha. lia.
    + apply Hbb; lia.
Qed.

(* ---- the writer ---- *)

Fixpoint row_bytes (l : list N) : list N :=
  match l with
  | [] => []
  | p :: l => px_blue p :: px_green p :: px_red p :: row_bytes l
  end.

Lemma row_bytes_length : forall l, length (row_bytes l) = (3 * length l)%nat.
Proof. induction l as [| p l IH]; cbn [row_bytes length]; [reflexivity | lia]. Qed.

Lemma skipn_nth_cons : forall A (l : list A) i a, nth_error l i = Some a ->
  skipn i l = a :: skipn (S i) l.
Proof.
  intros A l. induction l as [| b l IH]; intros i a H; destruct i as [| i]; try discriminate H.
  - cbn in H. injection H as ->. reflexivity.
  - cbn [nth_error] in H. cbn [skipn]. rewrite (IH i a H). reflexivity.
Qed.

Lemma bmp_write_row_ok : forall n W H y x data,
  0 <= x -> x + Z.of_nat n <= W -> 0 <= y < H -> W * H < 2 ^ 31 ->
  Z.of_nat (length data) = W * H ->
  bmp_write_row n W y x data = Ok (row_bytes (firstn n (skipn (Z.to_nat (y * W + x)) data))).
Proof.
  intros n. induction n as [| n IH]; intros W H y x data Hx Hn Hy HWH Hd; [reflexivity |].
  cbn [bmp_write_row].
  pose proof (row_in W H y ltac:(lia) Hy) as [HyW HyW2].
  rewrite ck_ok by lia. cbn [bind]. rewrite ck_ok by lia. cbn [bind].
  destruct (rd_ok N data (y * W + x)) as (p & Ep & Np); [lia |].
  rewrite Ep. cbn [bind]. rewrite (IH W H) by (assumption || lia). cbn [bind].
  rewrite (skipn_nth_cons _ _ _ _ Np).
  replace (Z.to_nat (y * W + (x + 1))) with (S (Z.to_nat (y * W + x))) by lia.
  reflexivity.
Qed.

Fixpoint rows_bytes (n : nat) (w : nat) (pad : list N) (data : list N) : list N :=
  match n with
  | O => []
  | S n => row_bytes (firstn w data) ++ pad ++ rows_bytes n w pad (skipn w data)
  end.

Lemma skipn_skipn' : forall A n m (l : list A), skipn n (skipn m l) = skipn (m + n) l.
Proof.
  intros A n m. induction m as [| m IH]; intros l; [reflexivity |].
  destruct l as [| a l]; cbn [skipn Nat.add].
  - now rewrite skipn_nil.
  - apply IH.
Qed.

Lemma bmp_write_rows_ok : forall n W H y pad data,
  0 <= W -> 0 <= y -> y + Z.of_nat n <= H -> W * H < 2 ^ 31 ->
  Z.of_nat (length data) = W * H ->
  bmp_write_rows n W y pad data =
  Ok (rows_bytes n (Z.to_nat W) pad (skipn (Z.to_nat (y * W)) data)).
Proof.
  intros n. induction n as [| n IH]; intros W H y pad data HW Hy Hn HWH Hd; [reflexivity |].
  cbn [bmp_write_rows rows_bytes].
  rewrite (bmp_write_row_ok _ W H) by (assumption || lia). cbn [bind].
  rewrite (IH W H) by (assumption || lia). cbn [bind].
  rewrite skipn_skipn'.
  assert (0 <= y * W) by nia.
  replace (Z.to_nat (y * W) + Z.to_nat W)%nat with (Z.to_nat ((y + 1) * W)) by lia.
  rewrite Z.add_0_r. reflexivity.
Qed.

Lemma rows_bytes_length : forall n w pad data,
  (length data >= n * w)%nat ->
  length (rows_bytes n w pad data) = (n * (3 * w + length pad))%nat.
Proof.
  intros n. induction n as [| n IH]; intros w pad data H; [reflexivity |].
  cbn [rows_bytes]. rewrite !app_length, row_bytes_length, firstn_length.
  rewrite IH by (rewrite skipn_length; lia).
  replace (Nat.min w (length data)) with w by lia. lia.
Qed.

(* the 54 header bytes written *)
Definition header_bytes (W H : Z) (size : N) : list N :=
  le16 BMP_MAGIC ++ le32 size ++ le16 0 ++ le16 0 ++ le32 54 ++
  le32 40 ++ le32 (pat32 W) ++ le32 (pat32 (- Z.abs H)) ++ le16 1 ++ le16 24 ++
  le32 0 ++ le32 0 ++ le32 0 ++ le32 0 ++ le32 0 ++ le32 0.

Definition fsize (W H : Z) : Z := 54 + 4 * (H * ((W * 24 + 31) / 32)).

Definition bmp_pad (garbage : nat -> N) (W : Z) : list N :=
  map garbage (seq 0 (Z.to_nat (Z.rem (W * 3) 4))).

(* sizes the writer can handle without overflowing an int *)
Definition bmp_writable (W H : Z) : Prop :=
  0 <= W /\ 0 <= H < 2 ^ 31 /\ W * 24 + 31 < 2 ^ 31 /\ fsize W H < 2 ^ 31 /\ W * H * 3 < 2 ^ 31.

Lemma bmp_write_ok : forall g W H data,
  bmp_writable W H -> Z.of_nat (length data) = W * H ->
  bmp_write g W H data =
  Ok (header_bytes W H (pat32 (fsize W H)) ++
      rows_bytes (Z.to_nat H) (Z.to_nat W) (bmp_pad g W) data, true).
Proof.
  intros g W H data (HW & HH & H24 & Hfs & HWH) Hd.
  unfold bmp_write.
  destruct (Z.ltb_spec W 0) as [Hc | _]; [lia |].
  destruct (Z.ltb_spec H 0) as [Hc | _]; [lia |]. cbn [orb].
  unfold create_bmp_header, bmp_size24.
  assert (Hq : Z.quot (W * 24 + 31) 32 = (W * 24 + 31) / 32).
  { apply Z.quot_div_nonneg; lia. }
  assert (Hdp : 0 <= (W * 24 + 31) / 32) by (apply Z.div_pos; lia).
  assert (Hcp : 0 <= H * ((W * 24 + 31) / 32)) by nia.
  unfold fsize in Hfs.
  rewrite ck_ok by lia. cbn [bind]. rewrite ck_ok by lia. cbn [bind].
  rewrite Hq. rewrite ck_ok by lia. cbn [bind].
  change (Z.land (Z.shiftl 1 24) 65535) with 0. rewrite Z.add_0_l.
  rewrite ck_ok by lia. cbn [bind].
  rewrite (ck_ok (- Z.abs H)) by lia. cbn [bind].
  assert (Hrem : 0 <= Z.rem (W * 3) 4 < 4) by (apply rem4_bounds; lia).
  rewrite (ck_ok (W * 3)) by lia. cbn [bind].
  rewrite (ck_ok (W * 3 + Z.rem (W * 3) 4)) by lia. cbn [bind].
  rewrite (bmp_write_rows_ok _ W H) by (assumption || lia). cbn [bind].
  assert (0 <= W * H) by nia.
  rewrite (ck_ok (W * H)) by lia. cbn [bind].
  rewrite (ck_ok (W * H * 3)) by lia. cbn [bind].
  rewrite Z.eqb_refl. unfold header_bytes, fsize, bmp_pad.
  change (Z.to_nat (0 * W)) with 0%nat. cbn [skipn].
  replace (14 + 40 + 4 * (H * ((W * 24 + 31) / 32)))
    with (54 + 4 * (H * ((W * 24 + 31) / 32))) by lia.
  reflexivity.
Qed.
