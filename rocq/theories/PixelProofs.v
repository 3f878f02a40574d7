From Verif Require Import Common ByteLemmas PixelModel.
Local Open Scope N_scope.

Lemma px_red_val : forall x, px_red x = (x / 2 ^ 8) mod 256.
Proof. intros x. exact (shiftr_land_mask x 8). Qed.
Lemma px_green_val : forall x, px_green x = (x / 2 ^ 16) mod 256.
Proof. intros x. exact (shiftr_land_mask x 16). Qed.
Lemma px_blue_val : forall x, px_blue x = (x / 2 ^ 24) mod 256.
Proof. intros x. exact (shiftr_land_mask x 24). Qed.
Lemma px_alpha_val : forall x, px_alpha x = x mod 256.
Proof. intros x. apply land_255. Qed.

Lemma px_make_val : forall r g b, r < 256 -> g < 256 -> b < 256 ->
  px_make r g b = 255 + r * 2 ^ 8 + g * 2 ^ 16 + b * 2 ^ 24.
Proof.
  intros r g b Hr Hg Hb. unfold px_make.
  change (2 ^ 8) with 256. change (2 ^ 16) with 65536. change (2 ^ 24) with 16777216.
  rewrite (lor_shiftl_add 255 r 8) by (change (2 ^ 8) with 256; lia).
  change (2 ^ 8) with 256.
  rewrite (lor_shiftl_add _ g 16) by (change (2 ^ 16) with 65536; lia).
  change (2 ^ 16) with 65536.
  rewrite (lor_shiftl_add _ b 24) by (change (2 ^ 24) with 16777216; lia).
  reflexivity.
Qed.

Lemma px_make_channels : forall r g b, r < 256 -> g < 256 -> b < 256 ->
  px_red (px_make r g b) = r /\ px_green (px_make r g b) = g /\
  px_blue (px_make r g b) = b /\ px_alpha (px_make r g b) = 255 /\
  px_make r g b < 2 ^ 32.
Proof.
  intros r g b Hr Hg Hb.
  rewrite px_red_val, px_green_val, px_blue_val, px_alpha_val, px_make_val by assumption.
  change (2 ^ 8) with 256. change (2 ^ 16) with 65536. change (2 ^ 24) with 16777216.
  change (2 ^ 32) with 4294967296. repeat split; dlia.
Qed.

Lemma px_bytes : forall x, px_red x < 256 /\ px_green x < 256 /\ px_blue x < 256.
Proof.
  intros x. rewrite px_red_val, px_green_val, px_blue_val.
  repeat split; apply N.mod_lt; lia.
Qed.

(* the word with the same colour channels and alpha 255 *)
Lemma px_make_self : forall x, x < 2 ^ 32 ->
  px_make (px_red x) (px_green x) (px_blue x) = N.lor x 255.
Proof.
  intros x Hx. destruct (px_bytes x) as (Hr & Hg & Hb).
  rewrite px_make_val by assumption.
  rewrite px_red_val, px_green_val, px_blue_val.
  assert (E : x = x mod 256 + N.shiftl (x / 256) 8).
  { rewrite N.shiftl_mul_pow2. change (2 ^ 8) with 256. dlia. }
  assert (E2 : N.lor x 255 = 255 + (x / 256) * 256).
  { rewrite E at 1.
    assert (Hm : x mod 256 < 2 ^ 8) by (change (2 ^ 8) with 256; apply N.mod_lt; lia).
    rewrite N.shiftl_mul_pow2, <- lor_shiftl_add by exact Hm.
    rewrite <- N.lor_assoc, (N.lor_comm _ 255), N.lor_assoc.
    replace (N.lor (x mod 256) 255) with 255.
    - rewrite lor_shiftl_add; reflexivity.
    - symmetry. apply N.eqb_eq.
      apply (byte_sweep (fun b => N.lor b 255 =? 255)); [vm_compute; reflexivity | exact Hm]. }
  rewrite E2. change (2 ^ 8) with 256. change (2 ^ 16) with 65536.
  change (2 ^ 24) with 16777216. change (2 ^ 32) with 4294967296 in Hx. dlia.
Qed.

Lemma rgb_of_bgra : forall l, Forall (fun p => p < 2 ^ 32) l ->
  rgb_to_bgra (bgra_to_rgb l) = Ok (map (fun p => N.lor p 255) l).
Proof.
  intros l. induction l as [| p l IH]; intros H; [reflexivity |].
  inversion H as [| p' l' Hp Hl]; subst.
  cbn [bgra_to_rgb rgb_to_bgra]. rewrite IH by exact Hl. cbn [bind map].
  now rewrite px_make_self.
Qed.

Lemma bgra_of_rgb : forall l q, Forall (fun b => b < 256) l ->
  rgb_to_bgra l = Ok q -> bgra_to_rgb q = l.
Proof.
  assert (H : forall n l q, (length l <= n)%nat -> Forall (fun b => b < 256) l ->
             rgb_to_bgra l = Ok q -> bgra_to_rgb q = l).
  { intros n. induction n as [| n IH]; intros l q Hn HF Hq.
    - destruct l; [| cbn [length] in Hn; lia]. cbn in Hq. injection Hq as <-. reflexivity.
    - destruct l as [| r [| g [| b l]]]; cbn [rgb_to_bgra] in Hq; try discriminate Hq.
      + injection Hq as <-. reflexivity.
      + inversion HF as [| ? ? Hr HF1]; subst. inversion HF1 as [| ? ? Hg HF2]; subst.
        inversion HF2 as [| ? ? Hb HF3]; subst.
        destruct (rgb_to_bgra l) as [t | |] eqn:E; cbn [bind] in Hq; try discriminate Hq.
        injection Hq as <-. cbn [bgra_to_rgb].
        destruct (px_make_channels r g b Hr Hg Hb) as (-> & -> & -> & _).
        do 3 f_equal. apply IH; [cbn [length] in Hn; lia | exact HF3 | exact E]. }
  intros l q HF Hq. apply (H (length l)); auto.
Qed.

Lemma rgb_to_bgra_total : forall l, (exists k, length l = 3 * k)%nat ->
  exists q, rgb_to_bgra l = Ok q /\ (3 * length q = length l)%nat.
Proof.
  intros l [k Hk]. revert l Hk. induction k as [| k IH]; intros l Hk.
  - destruct l; [| cbn [length] in Hk; lia]. exists []. split; reflexivity.
  - destruct l as [| r [| g [| b l]]]; cbn [length] in Hk; try lia.
    destruct (IH l) as (q & Eq & Hq); [lia |].
    exists (px_make r g b :: q). cbn [rgb_to_bgra]. rewrite Eq. cbn [bind length].
    split; [reflexivity | lia].
Qed.
