(* C49: masks and dual materials. *)
From Verif Require Import Common PixelModel MaskModel.
Local Open Scope N_scope.

(* the colour channel of a pixel, as imageio.h reads it *)
Definition pixel_channel (c : channel) (w : N) : N :=
  match c with Alpha => px_alpha w | Red => px_red w | Green => px_green w | Blue => px_blue w end.

Lemma texel_channel : forall c w, w < 2 ^ 32 -> texel_byte w c = pixel_channel c w.
Proof.
  intros c w L; unfold texel_byte, pixel_channel, px_alpha, px_red, px_green, px_blue,
    BGRA_RED_MASK, BGRA_GREEN_MASK, BGRA_BLUE_MASK, BGRA_ALPHA_MASK.
  assert (G : forall k x, N.shiftr (N.land x (N.shiftl 255 k)) k = N.shiftr x k mod 256).
  { intros k x; change 256 with (2 ^ 8); rewrite <- N.land_ones.
    apply N.bits_inj; intro i; rewrite N.shiftr_spec', !N.land_spec, N.shiftr_spec'.
    f_equal; rewrite N.shiftl_spec_high' by lia; f_equal; lia. }
  destruct c; cbn [channel_offset].
  - change (8 * 0) with 0; rewrite N.shiftr_0_r; change 255 with (N.ones 8); rewrite N.land_ones; reflexivity.
  - change 65280 with (N.shiftl 255 8); rewrite G; reflexivity.
  - change 16711680 with (N.shiftl 255 16); rewrite G; reflexivity.
  - change 4278190080 with (N.shiftl 255 24); rewrite G; reflexivity.
Qed.

(* C49.  A hit is visible iff the chosen channel of its pixel is at least 128, or less
   when the mask is inverted; masked is the opposite; a mask without image masks nothing. *)
Theorem mask_partition : forall H (tex : H -> N) c inv h, tex h < 2 ^ 32 ->
  (is_visible (mk_mask (Some tex) c inv) h = true <->
     if inv then pixel_channel c (tex h) < 128 else 128 <= pixel_channel c (tex h)) /\
  (is_masked (mk_mask (Some tex) c inv) h = true <-> is_visible (mk_mask (Some tex) c inv) h = false) /\
  (is_masked (mk_mask (Some tex) c inv) h = true <-> is_visible (mk_mask (Some tex) c (negb inv)) h = true) /\
  is_masked (@mask_none H) h = false.
Proof.
  intros H tex c inv h L; unfold is_masked, is_visible; cbn [mk_map mk_channel mk_inverted mask_none].
  rewrite (texel_channel c _ L).
  destruct (N.leb_spec 128 (pixel_channel c (tex h))), inv; cbn; repeat split; intro; lia || congruence.
Qed.
Print Assumptions mask_partition.
Example mask_partition_ex :
  is_visible (mk_mask (Some (fun _ : nat => 0x00FF00FF)) Green false) 0%nat = true /\
  is_visible (mk_mask (Some (fun _ : nat => 0x00FF00FF)) Red false) 0%nat = false.
Proof. split; reflexivity. Qed.

(* C49.  For one hit a dual material answers all four queries from one and the same of its
   materials, the first iff the hit is visible; inverting the mask exchanges them. *)
Theorem dual_one_layer : forall H A B C D VA VB VC VD
  (first second : bsdf H A B C D VA VB VC VD) (m : mask H) h,
  exists l, (l = first \/ l = second) /\
    (is_visible m h = true -> l = first) /\ (is_visible m h = false -> l = second) /\
    (forall a, m_value (dual first second m) a h = m_value l a h) /\
    (forall b, m_sample (dual first second m) b h = m_sample l b h) /\
    (forall c, m_pdf (dual first second m) c h = m_pdf l c h) /\
    (forall d, m_matrix (dual first second m) d h = m_matrix l d h).
Proof.
  intros; unfold dual; cbn [m_value m_sample m_pdf m_matrix].
  destruct (is_visible m h); [exists first | exists second];
    repeat split; auto; intro; discriminate.
Qed.
Print Assumptions dual_one_layer.

Theorem dual_inverted : forall H A B C D VA VB VC VD
  (first second : bsdf H A B C D VA VB VC VD) tex c inv h,
  let p := dual first second (mk_mask (Some tex) c (negb inv)) in
  let q := dual second first (mk_mask (Some tex) c inv) in
  (forall a, m_value p a h = m_value q a h) /\ (forall b, m_sample p b h = m_sample q b h) /\
  (forall c, m_pdf p c h = m_pdf q c h) /\ (forall d, m_matrix p d h = m_matrix q d h).
Proof.
  intros; unfold p, q, dual, is_visible; cbn [m_value m_sample m_pdf m_matrix mk_map mk_channel mk_inverted].
  destruct (N.leb 128 (texel_byte (tex h) c)), inv; cbn; auto.
Qed.
Print Assumptions dual_inverted.
Example dual_ex :
  let mat (n : nat) := mk_bsdf (fun (_ : unit) (_ : nat) => n) (fun (_ : unit) _ => n)
                               (fun (_ : unit) _ => n) (fun (_ : unit) _ => n) in
  let m := mk_mask (Some (fun h : nat => if Nat.eqb h 0 then 0x000000FF else 0xFFFFFFFF)) Blue false in
  m_value (dual (mat 1%nat) (mat 2%nat) m) tt 0%nat = 2%nat /\
  m_pdf (dual (mat 1%nat) (mat 2%nat) m) tt 5%nat = 1%nat.
Proof. split; reflexivity. Qed.
