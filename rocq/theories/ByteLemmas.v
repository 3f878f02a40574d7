(* Lemmas about bytes, masks, shifts, little-endian fields, bounded arrays. *)
From Verif Require Import Common.
Local Open Scope N_scope.

Lemma land_zero_disjoint : forall a b k, a < 2 ^ k -> N.land a (N.shiftl b k) = 0.
Proof.
  intros a b k Ha. apply N.bits_inj_0. intros i. rewrite N.land_spec.
  destruct (N.lt_ge_cases i k) as [H | H].
  - rewrite N.shiftl_spec_low by exact H. apply andb_false_r.
  - replace (N.testbit a i) with false; [reflexivity |].
    symmetry. destruct (N.eq_dec a 0) as [-> | Hz]; [apply N.bits_0 |].
    apply N.bits_above_log2. assert (N.log2 a < k) by (apply N.log2_lt_pow2; lia). lia.
Qed.

Lemma lor_shiftl_add : forall a b k, a < 2 ^ k -> N.lor a (N.shiftl b k) = a + b * 2 ^ k.
Proof.
  intros a b k Ha. pose proof (land_zero_disjoint a b k Ha) as Hd.
  rewrite <- N.lxor_lor by exact Hd. rewrite <- N.add_nocarry_lxor by exact Hd.
  now rewrite N.shiftl_mul_pow2.
Qed.

Lemma shiftr_land_mask : forall p k, N.shiftr (N.land p (N.shiftl 255 k)) k = (p / 2 ^ k) mod 256.
Proof.
  intros p k. rewrite N.shiftr_land, N.shiftr_shiftl_l by lia.
  rewrite N.sub_diag, N.shiftl_0_r. change 255 with (N.ones 8).
  rewrite N.land_ones, N.shiftr_div_pow2. reflexivity.
Qed.

Lemma land_255 : forall p, N.land p 255 = p mod 256.
Proof. intros p. change 255 with (N.ones 8). now rewrite N.land_ones. Qed.

(* little-endian fields *)
Lemma dle16_le16 : forall x, x < 2 ^ 16 -> dle16 (x mod 256) ((x / 256) mod 256) = x.
Proof. intros x H. unfold dle16. change (2 ^ 16) with 65536 in H. dlia. Qed.

Lemma dle32_le32 : forall x, x < 2 ^ 32 ->
  dle32 (x mod 256) ((x / 256) mod 256) ((x / 65536) mod 256) ((x / 16777216) mod 256) = x.
Proof. intros x H. unfold dle32. change (2 ^ 32) with 4294967296 in H. dlia. Qed.

Lemma int32_pat32 : forall z, (- 2 ^ 31 <= z < 2 ^ 31)%Z -> int32 (pat32 z) = z.
Proof.
  intros z H. unfold int32, pat32.
  change (2 ^ 31)%Z with 2147483648%Z in *. change (2 ^ 32)%Z with 4294967296%Z in *.
  change (2 ^ 31) with 2147483648. change (2 ^ 32) with 4294967296.
  assert (E : Z.to_N (z mod 4294967296) mod 4294967296 = Z.to_N (z mod 4294967296)).
  { apply N.mod_small. dlia. }
  rewrite E. rewrite Z2N.id by dlia.
  destruct (N.ltb_spec (Z.to_N (z mod 4294967296)) 2147483648); dlia.
Qed.

Lemma pat32_word : forall z, pat32 z < 2 ^ 32.
Proof.
  intros z. unfold pat32. change (2 ^ 32)%Z with 4294967296%Z.
  change (2 ^ 32) with 4294967296. dlia.
Qed.

Lemma pat32_of_N : forall x, x < 2 ^ 32 -> pat32 (Z.of_N x) = x.
Proof.
  intros x H. unfold pat32. change (2 ^ 32)%Z with 4294967296%Z.
  change (2 ^ 32) with 4294967296 in H. rewrite Z.mod_small by lia. lia.
Qed.

Lemma int32_bounds : forall x, (- 2 ^ 31 <= int32 x < 2 ^ 31)%Z.
Proof.
  intros x. unfold int32. change (2 ^ 31)%Z with 2147483648%Z.
  change (2 ^ 32)%Z with 4294967296%Z.
  change (2 ^ 31) with 2147483648. change (2 ^ 32) with 4294967296.
  pose proof (N.mod_lt x 4294967296).
  destruct (N.ltb_spec (x mod 4294967296) 2147483648); lia.
Qed.

(* ---- finite sweeps over one byte ---- *)
Definition all_bytes : list N := map N.of_nat (seq 0 256).

Lemma all_bytes_in : forall b, b < 256 -> In b all_bytes.
Proof.
  intros b H. unfold all_bytes. apply in_map_iff. exists (N.to_nat b).
  split; [lia |]. apply in_seq. lia.
Qed.

Lemma byte_sweep : forall (P : N -> bool), forallb P all_bytes = true ->
  forall b, b < 256 -> P b = true.
Proof.
  intros P H b Hb. rewrite forallb_forall in H. apply H, all_bytes_in, Hb.
Qed.
