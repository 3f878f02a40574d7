From Coq Require Import String.
From Verif Require Import Common ByteLemmas PixelModel PixelProofs CodecModel CodecSpec.
Local Open Scope N_scope.

Lemma collect_ok {A} (P : nat -> A -> Prop) : forall f l,
  (forall i, In i l -> exists a, f i = Ok a /\ P i a) ->
  exists r, collect f l = Ok r /\ Forall2 P l r.
Proof.
  intros f l. induction l as [| i l IH]; intros H; cbn [collect].
  - exists []. split; [reflexivity | constructor].
  - destruct (H i (or_introl eq_refl)) as (a & -> & Pa).
    destruct IH as (r & -> & F). { intros j Hj. apply H. right. exact Hj. }
    cbn. exists (a :: r). split; [reflexivity | constructor; assumption].
Qed.

Lemma forall2_nth {A B} (P : A -> B -> Prop) : forall l r, Forall2 P l r ->
  forall i a, nth_error l i = Some a -> exists b, nth_error r i = Some b /\ P a b.
Proof.
  intros l r F. induction F; intros [| i] c E; cbn in *; try discriminate.
  - injection E as <-. exists y. split; [reflexivity | assumption].
  - apply IHF. exact E.
Qed.

Lemma forall2_len {A B} (P : A -> B -> Prop) : forall l r, Forall2 P l r -> length l = length r.
Proof. intros l r F. induction F; cbn; congruence. Qed.

Lemma nth_seq : forall n i, (i < n)%nat -> nth_error (seq 0 n) i = Some i.
Proof.
  intros n i H. rewrite (nth_error_nth' _ 0%nat) by (rewrite seq_length; exact H).
  rewrite seq_nth by exact H. reflexivity.
Qed.

Lemma nth_concat {A} : forall w (rows : list (list A)) x y,
  Forall (fun r => length r = w) rows -> (x < w)%nat ->
  nth_error (concat rows) (y * w + x) =
  match nth_error rows y with Some r => nth_error r x | None => None end.
Proof.
  intros w rows x. induction rows as [| r rows IH]; intros y F Hx; cbn [concat].
  - assert (X : nth_error (@nil A) (y * w + x) = None) by (apply nth_error_None; cbn; lia).
    rewrite X. destruct y; reflexivity.
  - inversion F as [| ? ? L F']; subst. destruct y as [| y]; cbn [nth_error].
    + cbn [Nat.mul Nat.add]. apply nth_error_app1. exact Hx.
    + rewrite nth_error_app2 by lia.
      replace (S y * length r + x - length r)%nat with (y * length r + x)%nat by lia.
      apply IH; assumption.
Qed.

Lemma length_concat_w {A} : forall w (rows : list (list A)),
  Forall (fun r => length r = w) rows -> length (concat rows) = (w * length rows)%nat.
Proof.
  intros w rows F. induction F as [| r rows L F IH]; cbn [concat length].
  - lia.
  - rewrite app_length, IH, L. lia.
Qed.

Lemma each_row_ok {A} (P : nat -> nat -> A -> Prop) : forall w h f,
  (forall x y, (x < w)%nat -> (y < h)%nat -> exists a, f x y = Ok a /\ P x y a) ->
  exists rows, each_row w h f = Ok rows /\ length rows = h /\ Forall (fun r => length r = w) rows /\
    forall x y, (x < w)%nat -> (y < h)%nat ->
      exists row a, nth_error rows y = Some row /\ nth_error row x = Some a /\ P x y a.
Proof.
  intros w h f H. unfold each_row.
  destruct (collect_ok (fun y row => length row = w /\
      forall x, (x < w)%nat -> exists a, nth_error row x = Some a /\ P x y a)
      (fun y => collect (fun x => f x y) (seq 0 w)) (seq 0 h)) as (rows & E & F).
  { intros y Hy. apply in_seq in Hy.
    destruct (collect_ok (fun x a => P x y a) (fun x => f x y) (seq 0 w)) as (row & Er & Fr).
    { intros x Hx. apply in_seq in Hx. apply H; lia. }
    exists row. split; [exact Er |]. split.
    - apply forall2_len in Fr. rewrite seq_length in Fr. lia.
    - intros x Hx. apply (forall2_nth _ _ _ Fr). apply nth_seq. exact Hx. }
  exists rows. split; [exact E |]. split.
  { apply forall2_len in F. rewrite seq_length in F. lia. }
  split.
  { clear E H. induction F; constructor; [tauto | assumption]. }
  intros x y Hx Hy. destruct (forall2_nth _ _ _ F y y (nth_seq h y Hy)) as (row & Er & L & Hrow).
  destruct (Hrow x Hx) as (a & Ea & Pa). exists row, a. tauto.
Qed.

Lemma each_pixel_ok {A} (P : nat -> nat -> A -> Prop) : forall w h f,
  (forall x y, (x < w)%nat -> (y < h)%nat -> exists a, f x y = Ok a /\ P x y a) ->
  exists out, each_pixel w h f = Ok out /\ length out = (w * h)%nat /\
    forall x y, (x < w)%nat -> (y < h)%nat ->
      exists a, nth_error out (y * w + x) = Some a /\ P x y a.
Proof.
  intros w h f H. destruct (each_row_ok P w h f H) as (rows & E & L & F & N).
  unfold each_pixel. rewrite E. cbn [bind]. exists (concat rows). split; [reflexivity |].
  split. { rewrite (length_concat_w w) by exact F. rewrite L. reflexivity. }
  intros x y Hx Hy. destruct (N x y Hx Hy) as (row & a & Er & Ea & Pa).
  exists a. split; [| exact Pa]. rewrite nth_concat by assumption. rewrite Er. exact Ea.
Qed.

(* one pixel that is undefined makes the loops undefined *)
Lemma collect_ub {A} : forall (f : nat -> res A) l i,
  In i l -> f i = UB -> (forall j, In j l -> f j <> OutOfFuel) -> collect f l = UB.
Proof.
  intros f l i. induction l as [| j l IH]; intros I U NF; [contradiction |]. cbn [collect].
  destruct (f j) eqn:E.
  - cbn [bind]. destruct I as [-> | I]; [congruence |].
    rewrite IH; [reflexivity | exact I | exact U |]. intros k Hk. apply NF. right. exact Hk.
  - reflexivity.
  - exfalso. apply (NF j); [left; reflexivity | exact E].
Qed.

Lemma collect_fuel {A} : forall (f : nat -> res A) l,
  (forall j, In j l -> f j <> OutOfFuel) -> collect f l <> OutOfFuel.
Proof.
  intros f l. induction l as [| j l IH]; intros NF; cbn [collect]; [discriminate |].
  destruct (f j) eqn:E; cbn [bind].
  - destruct (collect f l) eqn:E2; cbn [bind]; try discriminate.
    exfalso. apply IH; [| reflexivity]. intros k Hk. apply NF. right. exact Hk.
  - discriminate.
  - exfalso. apply (NF j); [left; reflexivity | exact E].
Qed.

(* ----- words ----- *)

Lemma word_channels : forall r g b a, r < 256 -> g < 256 -> b < 256 -> a < 256 ->
  let p := N.lor (N.lor (N.lor a (N.shiftl r 8)) (N.shiftl g 16)) (N.shiftl b 24) in
  p < 2 ^ 32 /\ channels p = (r, g, b, a).
Proof.
  intros r g b a Hr Hg Hb Ha p.
  assert (V : p = a + r * 2 ^ 8 + g * 2 ^ 16 + b * 2 ^ 24).
  { subst p. change (2 ^ 8) with 256. change (2 ^ 16) with 65536. change (2 ^ 24) with 16777216.
    rewrite (lor_shiftl_add a r 8) by (change (2 ^ 8) with 256; lia). change (2 ^ 8) with 256.
    rewrite (lor_shiftl_add _ g 16) by (change (2 ^ 16) with 65536; lia).
    change (2 ^ 16) with 65536.
    rewrite (lor_shiftl_add _ b 24) by (change (2 ^ 24) with 16777216; lia).
    reflexivity. }
  clearbody p. subst p. unfold channels.
  rewrite px_red_val, px_green_val, px_blue_val, px_alpha_val.
  change (2 ^ 8) with 256. change (2 ^ 16) with 65536. change (2 ^ 24) with 16777216.
  change (2 ^ 32) with 4294967296.
  split; [lia |]. repeat (apply f_equal2); dlia.
Qed.

(* ----- samples of a well formed raster ----- *)

Lemma row_of : forall f y, well_formed f -> (y < ra_height f)%nat ->
  exists row, nth_error (ra_rows f) y = Some row /\
    length row = (ra_width f * ra_samples f)%nat /\ Forall is_byte row.
Proof.
  intros f y (L & F) Hy. destruct (nth_error (ra_rows f) y) as [row |] eqn:E.
  - exists row. split; [reflexivity |]. rewrite Forall_forall in F. apply F.
    eapply nth_error_In. exact E.
  - apply nth_error_None in E. lia.
Qed.

Lemma nth_byte : forall row i, (i < length row)%nat -> Forall is_byte row ->
  exists b, nth_error row i = Some b /\ b < 256.
Proof.
  intros row i H F. destruct (nth_error row i) as [b |] eqn:E.
  - exists b. split; [reflexivity |]. rewrite Forall_forall in F. apply F. eapply nth_error_In. exact E.
  - apply nth_error_None in E. lia.
Qed.

Lemma sample_of : forall f x y c row, nth_error (ra_rows f) y = Some row ->
  sample f x y c = nth_error row (x * ra_samples f + c).
Proof. intros f x y c row E. unfold sample. rewrite E. reflexivity. Qed.

Lemma index_bound : forall x w s c, (x < w -> c < s -> x * s + c < w * s)%nat.
Proof. intros. nia. Qed.

(* ----- jpg ----- *)

Lemma jpg_read_shows : forall f, well_formed f -> ra_samples f = 3%nat ->
  exists out, jpg_read f = Ok out /\ shows out f.
Proof.
  intros f W S. unfold jpg_read, shows.
  apply (each_pixel_ok (fun x y p => p < 2 ^ 32 /\ colour_at f x y = Some (channels p))).
  intros x y Hx Hy. destruct (row_of f y W Hy) as (row & E & L & B).
  unfold at_index at 1. rewrite E. cbn [bind]. rewrite S in L.
  assert (I : forall c, (c < 3)%nat -> (x * 3 + c < length row)%nat).
  { intros c Hc. rewrite L. apply index_bound; assumption. }
  destruct (nth_byte row (x * 3 + 0) (I 0%nat ltac:(lia)) B) as (r & Er & Br).
  destruct (nth_byte row (x * 3 + 1) (I 1%nat ltac:(lia)) B) as (g & Eg & Bg).
  destruct (nth_byte row (x * 3 + 2) (I 2%nat ltac:(lia)) B) as (b & Eb & Bb).
  unfold jpg_pixel, at_index. rewrite Er, Eg, Eb. cbn [bind].
  exists (px_make r g b). split; [reflexivity |].
  destruct (word_channels r g b 255 Br Bg Bb ltac:(lia)) as (V & C).
  split; [exact V |]. unfold px_make. unfold px_make in *. rewrite C. unfold colour_at. rewrite S.
  rewrite !(sample_of f x y _ row E), S, Er, Eg, Eb. reflexivity.
Qed.

Lemma at_index_fuel {A} : forall (l : list A) i, at_index l i <> OutOfFuel.
Proof. intros l i. unfold at_index. destruct (nth_error l i); discriminate. Qed.

Lemma jpg_pixel_fuel : forall row x, jpg_pixel row x <> OutOfFuel.
Proof.
  intros row x. unfold jpg_pixel, at_index. repeat (destruct (nth_error _ _); cbn [bind]); discriminate.
Qed.

Lemma jpg_grey_ub : forall f, well_formed f -> ra_samples f = 1%nat ->
  (0 < ra_width f)%nat -> (0 < ra_height f)%nat -> jpg_read f = UB.
Proof.
  intros f W S Hw Hh. destruct (row_of f 0 W Hh) as (row & E & L & B). rewrite S in L.
  unfold jpg_read, each_pixel, each_row.
  rewrite (collect_ub _ (seq 0 (ra_height f)) 0%nat); [reflexivity | apply in_seq; lia | |].
  - apply (collect_ub _ _ (ra_width f - 1)%nat); [apply in_seq; lia | |].
    + unfold at_index at 1. rewrite E. cbn [bind]. unfold jpg_pixel, at_index.
      assert (X : nth_error row ((ra_width f - 1) * 3 + 2) = None) by (apply nth_error_None; lia).
      rewrite X. repeat (destruct (nth_error _ _); cbn [bind]); reflexivity.
    + intros j _. unfold at_index. rewrite E. cbn [bind]. apply jpg_pixel_fuel.
  - intros j _. apply collect_fuel. intros i _. unfold at_index.
    destruct (nth_error (ra_rows f) j); cbn [bind]; [apply jpg_pixel_fuel | discriminate].
Qed.

(* with four samples the readers are inside the row, at the wrong place *)
Lemma jpg_four_pixels : forall f, well_formed f -> ra_samples f = 4%nat ->
  exists out, jpg_read f = Ok out /\ length out = (ra_width f * ra_height f)%nat /\
  forall x y, (x < ra_width f)%nat -> (y < ra_height f)%nat ->
    exists p row r g b, nth_error out (y * ra_width f + x) = Some p /\
      nth_error (ra_rows f) y = Some row /\
      nth_error row (x * 3) = Some r /\ nth_error row (x * 3 + 1) = Some g /\
      nth_error row (x * 3 + 2) = Some b /\ channels p = (r, g, b, 255).
Proof.
  intros f W S.
  destruct (each_pixel_ok (fun x y p => exists row r g b, nth_error (ra_rows f) y = Some row /\
      nth_error row (x * 3) = Some r /\ nth_error row (x * 3 + 1) = Some g /\
      nth_error row (x * 3 + 2) = Some b /\ channels p = (r, g, b, 255))
    (ra_width f) (ra_height f)
    (fun x y => let! row := at_index (ra_rows f) y in jpg_pixel row x)) as (out & E & L & P).
  - intros x y Hx Hy. destruct (row_of f y W Hy) as (row & E & L & B).
    unfold at_index at 1. rewrite E. cbn [bind]. rewrite S in L.
    destruct (nth_byte row (x * 3 + 0) ltac:(lia) B) as (r & Er & Br).
    destruct (nth_byte row (x * 3 + 1) ltac:(lia) B) as (g & Eg & Bg).
    destruct (nth_byte row (x * 3 + 2) ltac:(lia) B) as (b & Eb & Bb).
    unfold jpg_pixel, at_index. rewrite Er, Eg, Eb. cbn [bind].
    exists (px_make r g b). split; [reflexivity |]. exists row, r, g, b.
    replace (x * 3 + 0)%nat with (x * 3)%nat in Er by lia.
    repeat (split; [first [reflexivity | assumption] |]).
    apply (word_channels r g b 255 Br Bg Bb ltac:(lia)).
  - exists out. split; [exact E |]. split; [exact L |].
    intros x y Hx Hy. destruct (P x y Hx Hy) as (p & Ep & row & r & g & b & Q).
    exists p, row, r, g, b. tauto.
Qed.

(* ----- png ----- *)

Lemma to_rgba_1 : forall w row x, length row = (w * 1)%nat -> (x < w)%nat ->
  exists g, nth_error row (x * 1 + 0) = Some g /\
    nth_error (to_rgba 1 row) (x * 4 + 0) = Some g /\ nth_error (to_rgba 1 row) (x * 4 + 1) = Some g /\
    nth_error (to_rgba 1 row) (x * 4 + 2) = Some g /\ nth_error (to_rgba 1 row) (x * 4 + 3) = Some 255.
Proof.
  induction w as [| w IH]; intros row x L Hx; [lia |].
  destruct row as [| g row]; cbn [length] in L; [lia |].
  destruct x as [| x].
  - exists g. repeat split.
  - destruct (IH row x ltac:(lia) ltac:(lia)) as (g' & H). exists g'. exact H.
Qed.

Lemma to_rgba_2 : forall w row x, length row = (w * 2)%nat -> (x < w)%nat ->
  exists g a, nth_error row (x * 2 + 0) = Some g /\ nth_error row (x * 2 + 1) = Some a /\
    nth_error (to_rgba 2 row) (x * 4 + 0) = Some g /\ nth_error (to_rgba 2 row) (x * 4 + 1) = Some g /\
    nth_error (to_rgba 2 row) (x * 4 + 2) = Some g /\ nth_error (to_rgba 2 row) (x * 4 + 3) = Some a.
Proof.
  induction w as [| w IH]; intros row x L Hx; [lia |].
  destruct row as [| g [| a row]]; cbn [length] in L; try lia.
  destruct x as [| x].
  - exists g, a. repeat split.
  - destruct (IH row x ltac:(lia) ltac:(lia)) as (g' & a' & H). exists g', a'. exact H.
Qed.

Lemma to_rgba_3 : forall w row x, length row = (w * 3)%nat -> (x < w)%nat ->
  exists r g b, nth_error row (x * 3 + 0) = Some r /\ nth_error row (x * 3 + 1) = Some g /\
    nth_error row (x * 3 + 2) = Some b /\
    nth_error (to_rgba 3 row) (x * 4 + 0) = Some r /\ nth_error (to_rgba 3 row) (x * 4 + 1) = Some g /\
    nth_error (to_rgba 3 row) (x * 4 + 2) = Some b /\ nth_error (to_rgba 3 row) (x * 4 + 3) = Some 255.
Proof.
  induction w as [| w IH]; intros row x L Hx; [lia |].
  destruct row as [| r [| g [| b row]]]; cbn [length] in L; try lia.
  destruct x as [| x].
  - exists r, g, b. repeat split.
  - destruct (IH row x ltac:(lia) ltac:(lia)) as (r' & g' & b' & H). exists r', g', b'. exact H.
Qed.

Lemma to_rgba_4 : forall row, to_rgba 4 row = row.
Proof. intros [| ? ?]; reflexivity. Qed.

Lemma png_word : forall r g b a,
  N.lor (N.lor (N.lor a (N.shiftl b 24)) (N.shiftl g 16)) (N.shiftl r 8) =
  N.lor (N.lor (N.lor a (N.shiftl r 8)) (N.shiftl g 16)) (N.shiftl b 24).
Proof.
  intros. generalize (N.shiftl b 24) (N.shiftl g 16) (N.shiftl r 8). intros B G R.
  rewrite <- !N.lor_assoc. f_equal. rewrite (N.lor_comm B), (N.lor_comm G R), <- N.lor_assoc.
  rewrite (N.lor_comm G B). reflexivity.
Qed.

Lemma png_read_shows : forall f, well_formed f -> (1 <= ra_samples f <= 4)%nat ->
  exists out, png_read f = Ok out /\ shows out f.
Proof.
  intros f W S. unfold png_read, shows.
  apply (each_pixel_ok (fun x y p => p < 2 ^ 32 /\ colour_at f x y = Some (channels p))).
  intros x y Hx Hy. destruct (row_of f y W Hy) as (row & E & L & B).
  unfold at_index at 1. rewrite nth_error_map, E. cbn [option_map bind].
  assert (X : exists r g b a, colour_at f x y = Some (r, g, b, a) /\ r < 256 /\ g < 256 /\ b < 256 /\ a < 256 /\
     nth_error (to_rgba (ra_samples f) row) (x * 4 + 0) = Some r /\
     nth_error (to_rgba (ra_samples f) row) (x * 4 + 1) = Some g /\
     nth_error (to_rgba (ra_samples f) row) (x * 4 + 2) = Some b /\
     nth_error (to_rgba (ra_samples f) row) (x * 4 + 3) = Some a).
  { assert (BB : forall i v, nth_error row i = Some v -> v < 256).
    { intros i v Ei. rewrite Forall_forall in B. apply B. eapply nth_error_In. exact Ei. }
    unfold colour_at. rewrite !(sample_of f x y _ row E).
    destruct (ra_samples f) as [| [| [| [| [|]]]]]; try lia.
    - destruct (to_rgba_1 _ row x L Hx) as (g & E0 & A0 & A1 & A2 & A3).
      rewrite E0. exists g, g, g, 255. pose proof (BB _ _ E0). repeat (split; [first [reflexivity | assumption | lia] |]).
      exact A3.
    - destruct (to_rgba_2 _ row x L Hx) as (g & a & E0 & E1 & A0 & A1 & A2 & A3).
      rewrite E0, E1. exists g, g, g, a. pose proof (BB _ _ E0). pose proof (BB _ _ E1).
      repeat (split; [first [reflexivity | assumption | lia] |]). exact A3.
    - destruct (to_rgba_3 _ row x L Hx) as (r & g & b & E0 & E1 & E2 & A0 & A1 & A2 & A3).
      rewrite E0, E1, E2. exists r, g, b, 255. pose proof (BB _ _ E0). pose proof (BB _ _ E1). pose proof (BB _ _ E2).
      repeat (split; [first [reflexivity | assumption | lia] |]). exact A3.
    - rewrite to_rgba_4.
      destruct (nth_byte row (x * 4 + 0) ltac:(lia) B) as (r & E0 & B0).
      destruct (nth_byte row (x * 4 + 1) ltac:(lia) B) as (g & E1 & B1).
      destruct (nth_byte row (x * 4 + 2) ltac:(lia) B) as (b & E2 & B2).
      destruct (nth_byte row (x * 4 + 3) ltac:(lia) B) as (a & E3 & B3).
      rewrite E0, E1, E2, E3. exists r, g, b, a.
      repeat (split; [first [reflexivity | assumption | lia] |]). reflexivity. }
  destruct X as (r & g & b & a & C & Br & Bg & Bb & Ba & A0 & A1 & A2 & A3).
  unfold png_pixel, at_index. rewrite A0, A1, A2, A3. cbn [bind].
  eexists. split; [reflexivity |]. rewrite png_word.
  destruct (word_channels r g b a Br Bg Bb Ba) as (V & CC). rewrite CC. split; assumption.
Qed.

(* ----- tiff ----- *)

Lemma abgr_channels : forall r g b a, r < 256 -> g < 256 -> b < 256 -> a < 256 ->
  tiff_r (abgr r g b a) = r /\ tiff_g (abgr r g b a) = g /\
  tiff_b (abgr r g b a) = b /\ tiff_a (abgr r g b a) = a.
Proof.
  intros r g b a Hr Hg Hb Ha. unfold tiff_r, tiff_g, tiff_b, tiff_a, abgr.
  rewrite !N.shiftr_div_pow2, !land_255.
  change (2 ^ 8) with 256. change (2 ^ 16) with 65536. change (2 ^ 24) with 16777216.
  repeat split; dlia.
Qed.

Lemma abgr_row_3 : forall w row, length row = (w * 3)%nat -> length (abgr_row 3 row) = w /\
  forall x, (x < w)%nat -> exists r g b, nth_error row (x * 3 + 0) = Some r /\
    nth_error row (x * 3 + 1) = Some g /\ nth_error row (x * 3 + 2) = Some b /\
    nth_error (abgr_row 3 row) x = Some (abgr r g b 255).
Proof.
  induction w as [| w IH]; intros row L.
  { destruct row; [| discriminate]. split; [reflexivity | intros; lia]. }
  destruct row as [| r [| g [| b row]]]; cbn [length] in L; try lia.
  destruct (IH row ltac:(lia)) as (LL & P). cbn [abgr_row length]. split; [lia |].
  intros [| x] Hx.
  - exists r, g, b. repeat split.
  - apply (P x). lia.
Qed.

Lemma abgr_row_4 : forall w row, length row = (w * 4)%nat -> length (abgr_row 4 row) = w /\
  forall x, (x < w)%nat -> exists r g b a, nth_error row (x * 4 + 0) = Some r /\
    nth_error row (x * 4 + 1) = Some g /\ nth_error row (x * 4 + 2) = Some b /\
    nth_error row (x * 4 + 3) = Some a /\
    nth_error (abgr_row 4 row) x = Some (abgr r g b a).
Proof.
  induction w as [| w IH]; intros row L.
  { destruct row; [| discriminate]. split; [reflexivity | intros; lia]. }
  destruct row as [| r [| g [| b [| a row]]]]; cbn [length] in L; try lia.
  destruct (IH row ltac:(lia)) as (LL & P). cbn [abgr_row length]. split; [lia |].
  intros [| x] Hx.
  - exists r, g, b, a. repeat split.
  - apply (P x). lia.
Qed.

Lemma nth_rev {A} : forall (l : list A) i, (i < length l)%nat ->
  nth_error (rev l) i = nth_error l (length l - 1 - i).
Proof.
  intros l i H. destruct l as [| d l']; [cbn in H; lia |]. set (l := d :: l') in *.
  rewrite (nth_error_nth' (rev l) d) by (rewrite rev_length; exact H).
  rewrite rev_nth by exact H. symmetry. rewrite (nth_error_nth' l d) by lia.
  f_equal. f_equal. lia.
Qed.

Lemma tiff_word : forall r g b a,
  N.lor (N.lor (N.lor (N.shiftl b 24) (N.shiftl g 16)) (N.shiftl r 8)) a =
  N.lor (N.lor (N.lor a (N.shiftl r 8)) (N.shiftl g 16)) (N.shiftl b 24).
Proof.
  intros. rewrite <- (png_word r g b a). generalize (N.shiftl b 24) (N.shiftl g 16) (N.shiftl r 8).
  intros B G R. rewrite (N.lor_comm _ a), !N.lor_assoc. reflexivity.
Qed.

Lemma tiff_read_shows : forall f, well_formed f -> ra_samples f = 3%nat \/ ra_samples f = 4%nat ->
  exists out, tiff_read f = Ok (Some out) /\ shows out f.
Proof.
  intros f W S. unfold tiff_read.
  assert (T : ((ra_samples f =? 3) || (ra_samples f =? 4))%nat = true).
  { destruct S as [-> | ->]; reflexivity. }
  rewrite T.
  destruct (each_pixel_ok (fun x y p => p < 2 ^ 32 /\ colour_at f x y = Some (channels p))
    (ra_width f) (ra_height f)
    (tiff_pixel (ra_width f) (ra_height f) (ra_samples f) (read_rgba_image f))) as (out & E & P).
  2:{ exists out. rewrite E. split; [reflexivity | exact P]. }
  intros x y Hx Hy. destruct (row_of f y W Hy) as (row & E & L & B).
  assert (RW : Forall (fun r => length r = ra_width f)
                 (map (abgr_row (ra_samples f)) (rev (ra_rows f)))).
  { destruct W as (_ & F). apply Forall_forall. intros r Hr. apply in_map_iff in Hr.
    destruct Hr as (q & <- & Hq). rewrite <- in_rev in Hq. rewrite Forall_forall in F.
    destruct (F q Hq) as (Lq & _). destruct S as [S | S]; rewrite S in *.
    - apply abgr_row_3. exact Lq.
    - apply abgr_row_4. exact Lq. }
  assert (D : nth_error (read_rgba_image f) ((ra_height f - 1 - y) * ra_width f + x) =
              nth_error (abgr_row (ra_samples f) row) x).
  { unfold read_rgba_image. rewrite nth_concat by assumption. destruct W as (LR & _).
    rewrite nth_error_map, nth_rev by lia. rewrite LR.
    replace (ra_height f - 1 - (ra_height f - 1 - y))%nat with y by lia.
    rewrite E. reflexivity. }
  assert (BB : forall i v, nth_error row i = Some v -> v < 256).
  { intros i v Ei. rewrite Forall_forall in B. apply B. eapply nth_error_In. exact Ei. }
  unfold tiff_pixel, at_index. rewrite D. unfold colour_at. rewrite !(sample_of f x y _ row E).
  destruct S as [S | S]; rewrite S in *.
  - destruct (abgr_row_3 _ row L) as (_ & A). destruct (A x Hx) as (r & g & b & E0 & E1 & E2 & ->).
    rewrite E0, E1, E2. cbn [bind Nat.eqb].
    pose proof (BB _ _ E0). pose proof (BB _ _ E1). pose proof (BB _ _ E2).
    destruct (abgr_channels r g b 255) as (-> & -> & -> & _); try lia.
    eexists. split; [reflexivity |]. rewrite tiff_word.
    destruct (word_channels r g b 255) as (V & ->); try lia. split; [exact V | reflexivity].
  - destruct (abgr_row_4 _ row L) as (_ & A). destruct (A x Hx) as (r & g & b & a & E0 & E1 & E2 & E3 & ->).
    rewrite E0, E1, E2, E3. cbn [bind Nat.eqb].
    pose proof (BB _ _ E0). pose proof (BB _ _ E1). pose proof (BB _ _ E2). pose proof (BB _ _ E3).
    destruct (abgr_channels r g b a) as (-> & -> & -> & ->); try lia.
    eexists. split; [reflexivity |]. rewrite tiff_word.
    destruct (word_channels r g b a) as (V & ->); try lia. split; [exact V | reflexivity].
Qed.

(* ----- writing ----- *)

Lemma rgb_write_ok : forall w h data, length data = (w * h)%nat ->
  exists f, rgb_write w h data = Ok f /\ well_formed f /\
    ra_width f = w /\ ra_height f = h /\ ra_samples f = 3%nat /\
    forall x y p, (x < w)%nat -> (y < h)%nat -> nth_error data (y * w + x) = Some p ->
      colour_at f x y = Some (px_red p, px_green p, px_blue p, 255).
Proof.
  intros w h data L. unfold rgb_write.
  destruct (each_row_ok (fun x y v => exists p, nth_error data (y * w + x) = Some p /\ v = rgb_bytes p)
    w h (fun x y => let! p := at_index data (y * w + x) in Ok (rgb_bytes p))) as (rows & E & LR & F & P).
  { intros x y Hx Hy. unfold at_index. destruct (nth_error data (y * w + x)) as [p |] eqn:Ep.
    - exists (rgb_bytes p). split; [reflexivity |]. exists p. tauto.
    - apply nth_error_None in Ep. nia. }
  rewrite E. cbn [bind]. eexists. split; [reflexivity |].
  assert (R : forall y row, nth_error rows y = Some row ->
     length row = w /\ Forall (fun v => length v = 3%nat /\ Forall is_byte v) row).
  { intros y row Er. assert (Hy : (y < h)%nat). { rewrite <- LR. apply nth_error_Some. congruence. }
    assert (LW : length row = w). { rewrite Forall_forall in F. apply F. eapply nth_error_In. exact Er. }
    split; [exact LW |]. apply Forall_forall. intros v Hv. apply In_nth_error in Hv. destruct Hv as (x & Ex).
    assert (Hx : (x < w)%nat). { rewrite <- LW. apply nth_error_Some. congruence. }
    destruct (P x y Hx Hy) as (row' & v' & Er' & Ex' & p & _ & ->).
    assert (row' = row) by congruence. subst row'. assert (v = rgb_bytes p) by congruence. subst v.
    split; [reflexivity |]. destruct (px_bytes p) as (? & ? & ?). repeat constructor; assumption. }
  split.
  { split; cbn [ra_rows ra_height ra_width ra_samples].
    - rewrite map_length. exact LR.
    - apply Forall_forall. intros q Hq. apply in_map_iff in Hq. destruct Hq as (row & <- & Hr).
      apply In_nth_error in Hr. destruct Hr as (y & Er). destruct (R y row Er) as (LW & FV). split.
      + rewrite (length_concat_w 3). { rewrite LW. lia. }
        eapply Forall_impl; [| exact FV]. cbn. tauto.
      + apply Forall_concat. eapply Forall_impl; [| exact FV]. cbn. tauto. }
  split; [reflexivity |]. split; [reflexivity |]. split; [reflexivity |].
  intros x y p Hx Hy Ep. destruct (P x y Hx Hy) as (row & v & Er & Ex & p' & Ep' & ->).
  assert (p' = p) by congruence. subst p'. destruct (R y row Er) as (LW & FV).
  unfold colour_at, sample. cbn [ra_samples ra_rows]. rewrite nth_error_map, Er. cbn [option_map].
  assert (F3 : Forall (fun v : list N => length v = 3%nat) row).
  { eapply Forall_impl; [| exact FV]. cbn. tauto. }
  rewrite !(nth_concat 3) by (first [exact F3 | lia]). rewrite Ex. reflexivity.
Qed.

Lemma shows_written : forall w h data f out, length data = (w * h)%nat ->
  ra_width f = w -> ra_height f = h ->
  (forall x y p, (x < w)%nat -> (y < h)%nat -> nth_error data (y * w + x) = Some p ->
      colour_at f x y = Some (px_red p, px_green p, px_blue p, 255)) ->
  shows out f -> opaque_copy out data.
Proof.
  intros w h data f out L Ew Eh C (LO & S). rewrite Ew, Eh in *. split; [lia |].
  intros i p Ep. assert (Hi : (i < w * h)%nat). { rewrite <- L. apply nth_error_Some. congruence. }
  assert (w <> 0)%nat by nia. assert (i / w < h)%nat by (apply Nat.div_lt_upper_bound; lia).
  assert (i mod w < w)%nat by (apply Nat.mod_upper_bound; lia).
  assert (D : (i / w * w + i mod w)%nat = i) by (rewrite (Nat.div_mod i w) at 3 by lia; lia).
  destruct (S (i mod w)%nat (i / w)%nat) as (q & Eq & V & Cq); try assumption. rewrite D in Eq.
  rewrite (C _ _ p) in Cq; try assumption. 2:{ rewrite D. exact Ep. }
  exists q. split; [exact Eq |]. split; [exact V |]. congruence.
Qed.
