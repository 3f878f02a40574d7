From Coq Require Import QArith Qround Lqa.
From Verif Require Import Common ByteLemmas FilmModel FilmSpec.
Local Open Scope Z_scope.

Lemma in_zrange : forall a b x, In x (zrange a b) <-> a <= x < b.
Proof.
  intros a b x. unfold zrange. rewrite in_map_iff. split.
  - intros (i & <- & Hi). apply in_seq in Hi. lia.
  - intros H. exists (Z.to_nat (x - a)). split; [lia |]. apply in_seq. lia.
Qed.

Lemma zrange_nodup : forall a b, NoDup (zrange a b).
Proof.
  intros a b. unfold zrange.
  assert (H : forall m n, NoDup (map (fun i => a + Z.of_nat i) (seq m n))).
  { intros m n. revert m. induction n as [| n IH]; intros m; [constructor |].
    cbn [seq map]. constructor; [| apply IH]. intros Hin. apply in_map_iff in Hin.
    destruct Hin as (i & E & Hi). apply in_seq in Hi. lia. }
  apply H.
Qed.

Lemma in_affected : forall rx ry w h p x y, In (x, y) (affected rx ry w h p) <->
  (fst (film_range (fst p) rx w) <= x < snd (film_range (fst p) rx w) /\
   fst (film_range (snd p) ry h) <= y < snd (film_range (snd p) ry h)).
Proof.
  intros rx ry w h p x y. unfold affected.
  destruct (film_range (fst p) rx w) as [x0 x1]. destruct (film_range (snd p) ry h) as [y0 y1].
  cbn [fst snd]. rewrite in_flat_map. split.
  - intros (y' & Hy & Hin). apply in_map_iff in Hin. destruct Hin as (x' & E & Hx).
    injection E as -> ->. rewrite in_zrange in *. lia.
  - intros [Hx Hy]. exists y. rewrite in_zrange. split; [exact Hy |]. apply in_map_iff.
    exists x. rewrite in_zrange. auto.
Qed.

Lemma affected_nodup : forall rx ry w h p, NoDup (affected rx ry w h p).
Proof.
  intros rx ry w h p. unfold affected.
  destruct (film_range (fst p) rx w) as [x0 x1]. destruct (film_range (snd p) ry h) as [y0 y1].
  pose proof (zrange_nodup y0 y1) as N. induction N as [| y l Hn _ IH]; [constructor |].
  cbn [flat_map].
  assert (A : forall a b : list (Z * Z), NoDup a -> NoDup b -> (forall x, In x a -> ~ In x b) -> NoDup (a ++ b)).
  { intros a. induction a as [| u a IHa]; intros b Ha Hb Hd; [exact Hb |].
    cbn [app]. inversion Ha; subst. constructor.
    - intros Hin. apply in_app_or in Hin. destruct Hin as [Hin | Hin]; [contradiction |].
      apply (Hd u (or_introl eq_refl) Hin).
    - apply IHa; try assumption. intros x Hx. apply Hd. now right. }
  apply A; [| exact IH |].
  - pose proof (zrange_nodup x0 x1) as Nx. clear - Nx. induction Nx as [| x l' Hx _ IHx]; [constructor |].
    cbn [map]. constructor; [| exact IHx]. intros Hin. apply in_map_iff in Hin.
    destruct Hin as (x' & E & Hx'). injection E as ->. contradiction.
  - intros q Hq Hq'. apply in_map_iff in Hq. destruct Hq as (x & <- & _).
    apply in_flat_map in Hq'. destruct Hq' as (y' & Hy' & Hq'). apply in_map_iff in Hq'.
    destruct Hq' as (x' & E & _). injection E as -> ->. contradiction.
Qed.

Lemma ceil_le : forall q z, (Qceiling q <= z)%Z <-> (q <= inject_Z z)%Q.
Proof.
  intros q z. split; intros H.
  - apply Qle_trans with (inject_Z (Qceiling q)); [apply Qle_ceiling |]. now rewrite <- Zle_Qle.
  - rewrite <- (Qceiling_Z z). now apply Qceiling_resp_le.
Qed.

Lemma le_floor : forall q z, (z <= Qfloor q)%Z <-> (inject_Z z <= q)%Q.
Proof.
  intros q z. split; intros H.
  - apply Qle_trans with (inject_Z (Qfloor q)); [now rewrite <- Zle_Qle | apply Qfloor_le].
  - rewrite <- (Qfloor_Z z). now apply Qfloor_resp_le.
Qed.

(* x is updated iff it is inside the image, not below pos-1/2-range, and its
   successor is not above pos-1/2+range *)
Lemma range_iff : forall pos r lim x,
  fst (film_range pos r lim) <= x < snd (film_range pos r lim) <->
  0 <= x < lim /\ (pos - (1 # 2) - r <= inject_Z x)%Q /\ (inject_Z (x + 1) <= pos - (1 # 2) + r)%Q.
Proof.
  intros pos r lim x. unfold film_range. cbv zeta. cbn [fst snd].
  pose proof (ceil_le (pos - (1 # 2) - r) x) as A.
  pose proof (le_floor (pos - (1 # 2) + r) (x + 1)) as B.
  set (c := Qceiling (pos - (1 # 2) - r)) in *. set (f := Qfloor (pos - (1 # 2) + r)) in *.
  rewrite <- A, <- B. lia.
Qed.

(* ---- saving ---- *)

Lemma Qltb_spec : forall a b, Qltb a b = true <-> (a < b)%Q.
Proof.
  intros a b. unfold Qltb. rewrite negb_true_iff. split.
  - intros H. apply Qnot_le_lt. intros L. apply Qle_bool_iff in L. congruence.
  - intros H. destruct (Qle_bool b a) eqn:E; [| reflexivity].
    apply Qle_bool_iff in E. exfalso. apply (Qlt_not_le _ _ H E).
Qed.

Lemma Qltb_false : forall a b, Qltb a b = false <-> (b <= a)%Q.
Proof.
  intros a b. unfold Qltb. rewrite negb_false_iff. apply Qle_bool_iff.
Qed.

Lemma u32_of : forall q, (0 <= q)%Q -> (q <= 255)%Q ->
  fl_u32 (Fin q) = Ok (Z.to_N (Qfloor q)) /\ 0 <= Qfloor q <= 255.
Proof.
  intros q H0 H1.
  assert (F0 : 0 <= Qfloor q) by (apply le_floor; exact H0).
  assert (F1 : Qfloor q <= 255).
  { assert (H : (inject_Z (Qfloor q) < inject_Z 256)%Q).
    { apply Qle_lt_trans with q; [apply Qfloor_le |]. apply Qle_lt_trans with 255%Q; [exact H1 | reflexivity]. }
    rewrite <- Zlt_Qlt in H. lia. }
  split; [| lia]. unfold fl_u32.
  assert (E1 : Qltb (- (1 # 1)) q = true) by (apply Qltb_spec; lra).
  assert (E2 : Qltb q (inject_Z (2 ^ 32)) = true).
  { apply Qltb_spec. apply Qle_lt_trans with 255%Q; [exact H1 | reflexivity]. }
  rewrite E1, E2. cbn [andb]. f_equal. f_equal. lia.
Qed.

Lemma channel_ok : forall c, exists v, film_channel c = Ok v /\ (v < 256)%N /\ channel_value c v.
Proof.
  intros c. unfold film_channel.
  assert (C255 : fl_u32 (Fin 255) = Ok 255%N) by (vm_compute; reflexivity).
  assert (C0 : fl_u32 (Fin (0 * 255)) = Ok 0%N) by (vm_compute; reflexivity).
  destruct c as [q | | |].
  - unfold fl_max, fl_lt. destruct (Qltb q 0) eqn:E0.
    + apply Qltb_spec in E0. cbn [fl_mul255]. unfold fl_min.
      assert (L : fl_lt (Fin (0 * 255)) (Fin 255) = true) by (vm_compute; reflexivity).
      rewrite L, C0. exists 0%N. split; [reflexivity |]. split; [lia |]. cbn [channel_value].
      split; [reflexivity |]. split; intros H; lra.
    + apply Qltb_false in E0. cbn [fl_mul255]. unfold fl_min. cbn [fl_lt].
      destruct (Qltb (q * 255) 255) eqn:E1.
      * apply Qltb_spec in E1. destruct (u32_of (q * 255)) as [E B]; [lra | lra |].
        rewrite E. eexists. split; [reflexivity |]. split; [lia |]. cbn [channel_value].
        split; [| split].
        -- intros H. assert (Eq : (q * 255 == 0)%Q) by lra. rewrite Eq. reflexivity.
        -- intros H. lra.
        -- intros H. rewrite Z2N.id by lia. split; [apply Qfloor_le | apply Qlt_floor].
      * apply Qltb_false in E1. rewrite C255. exists 255%N. split; [reflexivity |]. split; [lia |].
        cbn [channel_value]. split; [| split]; intros H; [lra | reflexivity | lra].
  - vm_compute. exists 255%N. auto.
  - vm_compute. exists 0%N. auto.
  - vm_compute. exists 255%N. auto.
Qed.

Lemma mapM_ok : forall A B (f : A -> res B) (P : A -> B -> Prop) l,
  (forall a, In a l -> exists b, f a = Ok b /\ P a b) ->
  exists r, mapM f l = Ok r /\ Forall2 P l r.
Proof.
  intros A B f P l. induction l as [| a l IH]; intros H.
  - exists []. split; [reflexivity | constructor].
  - destruct (H a (or_introl eq_refl)) as (b & E & Hb).
    destruct IH as (r & Er & F). { intros x Hx. apply H. now right. }
    exists (b :: r). split; [cbn [mapM]; rewrite E; cbn [bind]; rewrite Er; reflexivity |].
    now constructor.
Qed.

Lemma word_ok : forall c, exists w, film_word c = Ok w /\ word_of c w.
Proof.
  intros c. unfold film_word.
  destruct (channel_ok (cr c)) as (r & Er & Hr & Vr).
  destruct (channel_ok (cg c)) as (g & Eg & Hg & Vg).
  destruct (channel_ok (cb c)) as (b & Eb & Hb & Vb).
  rewrite Er, Eg, Eb. cbn [bind]. eexists. split; [reflexivity |].
  assert (S : forall v k, (v < 256)%N -> (k <= 24)%N -> u32 (N.shiftl v k) = N.shiftl v k).
  { intros v k Hv Hk. unfold u32. apply N.mod_small. rewrite N.shiftl_mul_pow2.
    apply N.lt_le_trans with (256 * 2 ^ k)%N.
    - apply N.mul_lt_mono_pos_r; [apply N.neq_0_lt_0, N.pow_nonzero; lia | exact Hv].
    - change (2 ^ 32)%N with (256 * 2 ^ 24)%N. apply N.mul_le_mono_l. apply N.pow_le_mono_r; lia. }
  rewrite !S by lia.
  rewrite (lor_shiftl_add 255 r 8) by (change (2 ^ 8)%N with 256%N; lia).
  rewrite (lor_shiftl_add _ g 16) by (change (2 ^ 8)%N with 256%N; change (2 ^ 16)%N with 65536%N; lia).
  rewrite (lor_shiftl_add _ b 24) by (change (2 ^ 8)%N with 256%N; change (2 ^ 16)%N with 65536%N;
    change (2 ^ 24)%N with 16777216%N; lia).
  change (2 ^ 8)%N with 256%N; change (2 ^ 16)%N with 65536%N; change (2 ^ 24)%N with 16777216%N.
  set (w := (255 + r * 256 + g * 65536 + b * 16777216)%N).
  assert (W : (w mod 256 = 255 /\ (w / 256) mod 256 = r /\ (w / 65536) mod 256 = g /\
               (w / 16777216) mod 256 = b /\ w < 4294967296)%N).
  { unfold w. clear - Hr Hg Hb. repeat split; try (clear - Hr Hg Hb; dlia). }
  destruct W as (W0 & W1 & W2 & W3 & W4). unfold word_of.
  change (2 ^ 8)%N with 256%N; change (2 ^ 16)%N with 65536%N; change (2 ^ 24)%N with 16777216%N.
  change (2 ^ 32)%N with 4294967296%N. rewrite W1, W2, W3. auto 6.
Qed.

Lemma nth_grid : forall w h x y, 0 <= x < w -> 0 <= y < h ->
  nth_error (flat_map (fun y => map (fun x => (x, y)) (zrange 0 w)) (zrange 0 h))
            (Z.to_nat (y * w + x)) = Some (x, y).
Proof.
  intros w h x y Hx Hy. unfold zrange. rewrite !Z.sub_0_r.
  assert (G : forall n m i, (m <= i < m + n)%nat -> 
    nth_error (flat_map (fun y => map (fun x => (x, y)) (map (fun i => 0 + Z.of_nat i) (seq 0 (Z.to_nat w))))
       (map (fun i => 0 + Z.of_nat i) (seq m n))) ((i - m) * Z.to_nat w + Z.to_nat x) = Some (x, Z.of_nat i)).
  { intros n. induction n as [| n IH]; intros m i Hi; [lia |].
    cbn [seq map flat_map].
    destruct (Nat.eq_dec i m) as [-> | Hne].
    - rewrite Nat.sub_diag. cbn [Nat.mul Nat.add].
      rewrite nth_error_app1 by (rewrite !map_length, seq_length; lia).
      rewrite !nth_error_map, (nth_error_nth' _ 0%nat) by (rewrite seq_length; lia).
      rewrite seq_nth by lia. cbn [option_map]. f_equal. f_equal. lia.
    - rewrite nth_error_app2; rewrite !map_length, seq_length.
      + replace ((i - m) * Z.to_nat w + Z.to_nat x - Z.to_nat w)%nat
          with ((i - S m) * Z.to_nat w + Z.to_nat x)%nat; [apply IH; lia |].
        replace (i - m)%nat with (S (i - S m)) by lia. rewrite Nat.mul_succ_l.
        generalize ((i - S m) * Z.to_nat w)%nat. intros k. lia.
      + replace (i - m)%nat with (S (i - S m)) by lia. rewrite Nat.mul_succ_l.
        generalize ((i - S m) * Z.to_nat w)%nat. intros k. lia. }
  specialize (G (Z.to_nat h) 0%nat (Z.to_nat y) ltac:(lia)).
  rewrite Nat.sub_0_r, Z2Nat.id in G by lia.
  replace (Z.to_nat (y * w + x)) with (Z.to_nat y * Z.to_nat w + Z.to_nat x)%nat; [exact G |].
  rewrite Z2Nat.inj_add, Z2Nat.inj_mul by nia. reflexivity.
Qed.

Lemma grid_length : forall w h, 0 <= w -> 0 <= h ->
  Z.of_nat (length (flat_map (fun y => map (fun x => (x, y)) (zrange 0 w)) (zrange 0 h))) = w * h.
Proof.
  intros w h Hw Hh. unfold zrange. rewrite !Z.sub_0_r.
  assert (G : forall n m, 
    length (flat_map (fun y => map (fun x => (x, y)) (map (fun i => 0 + Z.of_nat i) (seq 0 (Z.to_nat w))))
       (map (fun i => 0 + Z.of_nat i) (seq m n))) = (n * Z.to_nat w)%nat).
  { intros n. induction n as [| n IH]; intros m; [reflexivity |].
    cbn [seq map flat_map]. rewrite app_length, IH, !map_length, seq_length. lia. }
  rewrite G. nia.
Qed.

Lemma Forall2_nth : forall A B (P : A -> B -> Prop) l r, Forall2 P l r ->
  forall i a, nth_error l i = Some a -> exists b, nth_error r i = Some b /\ P a b.
Proof.
  intros A B P l r F. induction F as [| x y l r H F IH]; intros [| i] a E; try discriminate.
  - injection E as <-. exists y. auto.
  - apply IH. exact E.
Qed.

Lemma Forall2_len : forall A B (P : A -> B -> Prop) l r, Forall2 P l r -> length l = length r.
Proof. intros A B P l r F. induction F; cbn; congruence. Qed.

Lemma save_pf : forall srgb buf w h, 0 <= w -> 0 <= h ->
  exists l, save_words srgb buf w h = Ok l /\ Z.of_nat (length l) = w * h /\
    forall x y, 0 <= x < w -> 0 <= y < h ->
      exists v, nth_error l (Z.to_nat (y * w + x)) = Some v /\
                word_of (film_colour srgb (buf x y)) v.
Proof.
  intros srgb buf w h Hw Hh. unfold save_words.
  destruct (mapM_ok _ _ (fun '(x, y) => film_word (film_colour srgb (buf x y)))
    (fun '(x, y) v => word_of (film_colour srgb (buf x y)) v)
    (flat_map (fun y => map (fun x => (x, y)) (zrange 0 w)) (zrange 0 h))) as (l & E & F).
  { intros [x y] _. apply word_ok. }
  exists l. split; [exact E |]. split.
  - rewrite <- (Forall2_len _ _ _ _ _ F). now apply grid_length.
  - intros x y Hx Hy. exact (Forall2_nth _ _ _ _ _ F _ _ (nth_grid w h x y Hx Hy)).
Qed.
