(* C26, C27: the film, one sample and saving. *)
From Coq Require Import QArith Lqa.
From Verif Require Import Common FilmModel FilmSpec FilmProofs.
Local Open Scope Z_scope.

(* C26.  A sample updates each pixel at most once, only pixels inside the image
   and whose centre is within the filter extent of the sample. *)
Theorem film_update_inside : forall rx ry w h p,
  NoDup (affected rx ry w h p) /\
  forall x y, In (x, y) (affected rx ry w h p) ->
    0 <= x < w /\ 0 <= y < h /\
    (- rx <= inject_Z x + (1 # 2) - fst p <= rx)%Q /\
    (- ry <= inject_Z y + (1 # 2) - snd p <= ry)%Q.
Proof.
  intros rx ry w h p. split; [apply affected_nodup |]. intros x y H.
  apply in_affected in H. destruct H as [Hx Hy]. apply range_iff in Hx. apply range_iff in Hy.
  destruct Hx as (Bx & Lx & Ux). destruct Hy as (By & Ly & Uy).
  split; [exact Bx |]. split; [exact By |].
  rewrite inject_Z_plus in Ux, Uy. change (inject_Z 1) with 1%Q in Ux, Uy. split; lra.
Qed.
Print Assumptions film_update_inside.

(* C26.  With a filter extent of at least 3/2 (gaussian, tent, mitchell: 2,
   lanczos: 4) a sample contributes to the pixel that contains it. *)
Theorem film_update_covers : forall rx ry w h p x y,
  (3 # 2 <= rx)%Q -> (3 # 2 <= ry)%Q -> pixel_of p x y -> 0 <= x < w -> 0 <= y < h ->
  In (x, y) (affected rx ry w h p).
Proof.
  intros rx ry w h p x y Hrx Hry ((A & B) & (C & D)) Hx Hy. apply in_affected. rewrite !range_iff.
  rewrite !inject_Z_plus in *. change (inject_Z 1) with 1%Q in *.
  repeat split; try lia; lra.
Qed.
Print Assumptions film_update_covers.

(* C26.  The box filter (extent 1) reaches the pixel that contains the sample
   only from its lower right quarter. *)
Theorem film_update_box_refuted : forall w h p x y,
  pixel_of p x y -> 0 <= x < w -> 0 <= y < h ->
  (In (x, y) (affected 1 1 w h p) <->
   (inject_Z x + (1 # 2) <= fst p)%Q /\ (inject_Z y + (1 # 2) <= snd p)%Q).
Proof.
  intros w h p x y ((A & B) & (C & D)) Hx Hy. rewrite in_affected, !range_iff.
  rewrite !inject_Z_plus in *. change (inject_Z 1) with 1%Q in *.
  split; [intros ((_ & _ & U) & (_ & _ & V)); lra |].
  intros [U V]. repeat split; try lia; lra.
Qed.
Print Assumptions film_update_box_refuted.

(* C26.  A box-filtered sample in the left half of the first column is lost. *)
Theorem film_update_box_lost : forall w h p, (0 <= fst p < 1 # 2)%Q -> affected 1 1 w h p = [].
Proof.
  intros w h p H. destruct (affected 1 1 w h p) as [| [x y] l] eqn:E; [reflexivity | exfalso].
  assert (Hin : In (x, y) (affected 1 1 w h p)) by (rewrite E; now left).
  apply in_affected in Hin. destruct Hin as [Hx _]. apply range_iff in Hx.
  destruct Hx as (B & _ & U). assert (N : (inject_Z 1 <= inject_Z (x + 1))%Q) by (rewrite <- Zle_Qle; lia).
  change (inject_Z 1) with 1%Q in N. lra.
Qed.
Print Assumptions film_update_box_lost.

(* The filters are even, but the update is not: of two pixels of a row at the same distance,
   more than the range minus one, only the lower one is updated (the loop stops before the
   last pixel in range). *)
Theorem film_update_symmetric_refuted : forall rx ry w h p a b y o,
  (inject_Z a + (1 # 2) - fst p == - o)%Q -> (inject_Z b + (1 # 2) - fst p == o)%Q ->
  (0 < o)%Q -> (rx - 1 < o <= rx)%Q -> 0 <= a < w -> 0 <= b < w ->
  0 <= y < h -> (- ry <= inject_Z y + (1 # 2) - snd p <= ry - 1)%Q ->
  In (a, y) (affected rx ry w h p) /\ ~ In (b, y) (affected rx ry w h p).
Proof.
  intros rx ry w h p a b y o Ha Hb P [Ho1 Ho2] Wa Wb Hy [Y1 Y2].
  rewrite !in_affected, !range_iff.
  rewrite !inject_Z_plus. change (inject_Z 1) with 1%Q.
  destruct (Qlt_le_dec (rx - 1) (- o)) as [C | C].
  - (* both offsets above the range minus one: impossible for opposite numbers unless the range is below one *)
    split; [| intros ((_ & _ & U) & _); lra].
    exfalso. assert (inject_Z a < inject_Z b)%Q by lra. rewrite <- Zlt_Qlt in H.
    assert (inject_Z (a + 1) <= inject_Z b)%Q by (rewrite <- Zle_Qle; lia).
    rewrite inject_Z_plus in H0. change (inject_Z 1) with 1%Q in H0. lra.
  - split; [| intros ((_ & _ & U) & _); lra]. repeat split; try lia; lra.
Qed.
Print Assumptions film_update_symmetric_refuted.
Example film_update_symmetric_ex :
  In (8, 10) (affected 2 2 32 32 (10 # 1, 21 # 2)%Q) /\ ~ In (11, 10) (affected 2 2 32 32 (10 # 1, 21 # 2)%Q).
Proof. apply film_update_symmetric_refuted with (o := (3 # 2)%Q); try lia; try reflexivity; split; vm_compute; try reflexivity; discriminate. Qed.

Example film_update_ex :
  affected 2 2 64 32 (319 # 10, 1 # 10)%Q =
    [(30, 0); (31, 0); (32, 0)] /\
  affected 1 1 64 32 (105 # 10, 105 # 10)%Q = [(9, 9); (10, 9); (9, 10); (10, 10)].
Proof. split; vm_compute; reflexivity. Qed.

(* C27.  Saving never fails to convert a colour, whatever the channels hold,
   and produces one word per pixel in row-major order; each word has alpha 255
   and the clamped channels in their own bytes. *)
Theorem film_save_words : forall to_srgb buffer w h, 0 <= w -> 0 <= h ->
  exists l, save_words to_srgb buffer w h = Ok l /\ Z.of_nat (length l) = w * h /\
    forall x y, 0 <= x < w -> 0 <= y < h ->
      exists v, nth_error l (Z.to_nat (y * w + x)) = Some v /\
                word_of (film_colour to_srgb (buffer x y)) v.
Proof. exact save_pf. Qed.
Print Assumptions film_save_words.

(* C27.  A pixel without samples is saved black, one with samples is saved as
   the conversion of its weighted average. *)
Theorem film_save_average : forall to_srgb buffer w h l x y v,
  0 <= x < w -> 0 <= y < h -> save_words to_srgb buffer w h = Ok l ->
  nth_error l (Z.to_nat (y * w + x)) = Some v ->
  ((fp_samples (buffer x y) <= 0)%Q -> v = 255%N) /\
  (forall r g b, (0 < fp_samples (buffer x y))%Q ->
     to_srgb (fp_x (buffer x y) * (1 / fp_samples (buffer x y)))%Q
             (fp_y (buffer x y) * (1 / fp_samples (buffer x y)))%Q
             (fp_z (buffer x y) * (1 / fp_samples (buffer x y)))%Q = mk_rgb r g b ->
     word_of (mk_rgb r g b) v).
Proof.
  intros srgb buf w h l x y v Hx Hy E Hn.
  destruct (save_pf srgb buf w h ltac:(lia) ltac:(lia)) as (l' & E' & _ & F).
  rewrite E in E'. injection E' as <-. destruct (F x y Hx Hy) as (v' & Hn' & W).
  rewrite Hn in Hn'. injection Hn' as <-. split.
  - intros Hs. unfold film_colour in W.
    assert (Q0 : Qltb 0 (fp_samples (buf x y)) = false) by now apply Qltb_false.
    rewrite Q0 in W. destruct W as (W0 & W1 & W2 & W3 & W4). cbn [cr cg cb channel_value] in *.
    destruct W2 as (W2 & _). destruct W3 as (W3 & _). destruct W4 as (W4 & _).
    specialize (W2 ltac:(lra)). specialize (W3 ltac:(lra)). specialize (W4 ltac:(lra)).
    change (2 ^ 32)%N with 4294967296%N in *. change (2 ^ 8)%N with 256%N in *.
    change (2 ^ 16)%N with 65536%N in *. change (2 ^ 24)%N with 16777216%N in *.
    clear - W0 W1 W2 W3 W4. dlia.
  - intros r g b Hs Es. unfold film_colour in W.
    assert (Q0 : Qltb 0 (fp_samples (buf x y)) = true) by now apply Qltb_spec.
    rewrite Q0, Es in W. exact W.
Qed.
Print Assumptions film_save_average.

Example film_save_ex :
  save_words (fun x y z => mk_rgb (Fin x) (Fin y) NaN)
    (fun x y => mk_fp 1 (inject_Z x) 3 (inject_Z (2 * y))) 2 2 =
  Ok [0x000000FF; 0x000000FF; 0xFF007FFF; 0xFF7F7FFF]%N.
Proof. vm_compute. reflexivity. Qed.
