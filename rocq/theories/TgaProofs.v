From Verif Require Import Common ByteLemmas ArrayIO PixelModel PixelProofs TgaModel TgaSpec.
Local Open Scope Z_scope.

Section Loop.
Context (W H : Z) (td : bool).
Hypothesis HW : 0 < W.
Hypothesis HH : 0 <= H.
Hypothesis HWH : W * H < 2 ^ 31.

Let inc : Z := if td then 1 else -1.
Let ymax : Z := if td then H else -1.
Definition trow (r : Z) : Z := if td then r else H - 1 - r.
Definition addr (j : Z) : Z := trow (j / W) * W + j mod W.

Lemma trow_range : forall r, 0 <= r < H -> 0 <= trow r < H.
Proof. intros r Hr. unfold trow. destruct td; lia. Qed.

Lemma trow_next : forall r, trow r + inc = trow (r + 1).
Proof. intros r. unfold trow, inc. destruct td; lia. Qed.

Lemma trow_H : trow H = ymax.
Proof. unfold trow, ymax. destruct td; lia. Qed.

Lemma trow_inj : forall r r', trow r = trow r' -> r = r'.
Proof. intros r r'. unfold trow. destruct td; lia. Qed.

Lemma addr_rx : forall r x, 0 <= x < W -> addr (r * W + x) = trow r * W + x.
Proof.
  intros r x Hx. unfold addr. rewrite (Z.add_comm (r * W) x).
  rewrite Z.div_add, Z.mod_add by lia. rewrite Z.div_small, Z.mod_small by lia. reflexivity.
Qed.

Lemma addr_range : forall j, 0 <= j < W * H -> 0 <= addr j < W * H.
Proof.
  intros j Hj. unfold addr.
  assert (Hr : 0 <= j / W < H).
  { split; [apply Z.div_pos; lia | apply Z.div_lt_upper_bound; lia]. }
  pose proof (Z.mod_pos_bound j W HW) as Hm.
  pose proof (row_in W H (trow (j / W)) ltac:(lia) (trow_range _ Hr)). lia.
Qed.

Lemma addr_inj : forall j j', 0 <= j < W * H -> 0 <= j' < W * H -> addr j = addr j' -> j = j'.
Proof.
  intros j j' Hj Hj' E. unfold addr in E.
  pose proof (Z.mod_pos_bound j W HW) as Hm. pose proof (Z.mod_pos_bound j' W HW) as Hm'.
  pose proof (Z.div_mod j W ltac:(lia)) as D. pose proof (Z.div_mod j' W ltac:(lia)) as D'.
  destruct (Z.eq_dec (trow (j / W)) (trow (j' / W))) as [Et | Ent].
  - rewrite Et in E. apply trow_inj in Et. rewrite Et in D. lia.
  - exfalso. apply (rows_disjoint W (trow (j / W)) (trow (j' / W)) (j' mod W)); try lia.
Qed.

(* b' is b with the pixels P stored at positions q, q+1, ... *)
Definition Fill (q : Z) (P : list N) (b b' : list N) : Prop :=
  length b' = length b /\
  forall j, 0 <= j < W * H ->
    nth_error b' (Z.to_nat (addr j)) =
    if ((q <=? j) && (j <? q + Z.of_nat (length P)))%bool
    then nth_error P (Z.to_nat (j - q)) else nth_error b (Z.to_nat (addr j)).

Lemma Fill_nil : forall q b, Fill q [] b b.
Proof.
  intros q b. split; [reflexivity |]. intros j Hj. cbn [length].
  destruct (Z.leb_spec q j); destruct (Z.ltb_spec j (q + Z.of_nat 0)); cbn [andb];
    try reflexivity; lia.
Qed.

Lemma Fill_one : forall q p b b', 0 <= q < W * H ->
  upd b (addr q) p = Ok b' -> Fill q [p] b b'.
Proof.
  intros q p b b' Hq E. split; [apply (upd_length _ _ _ _ _ E) |].
  intros j Hj. cbn [length].
  destruct (Z.eq_dec j q) as [-> | Hne].
  - rewrite (nth_error_upd_eq _ _ _ _ _ E).
    destruct (Z.leb_spec q q); destruct (Z.ltb_spec q (q + Z.of_nat 1)); try lia.
    cbn [andb]. now rewrite Z.sub_diag.
  - rewrite (nth_error_upd_neq _ _ _ _ _ _ E).
    + destruct (Z.leb_spec q j); destruct (Z.ltb_spec j (q + Z.of_nat 1)); cbn [andb];
        try reflexivity; lia.
    + intros Hc. apply Hne. apply addr_inj; try assumption.
      pose proof (addr_range j Hj). pose proof (addr_range q Hq). lia.
Qed.

Lemma Fill_app : forall q P P' b b1 b2,
  Fill q P b b1 -> Fill (q + Z.of_nat (length P)) P' b1 b2 -> Fill q (P ++ P') b b2.
Proof.
  intros q P P' b b1 b2 [L1 F1] [L2 F2]. split; [congruence |].
  intros j Hj. rewrite F2, F1, app_length by exact Hj.
  destruct (Z.leb_spec q j); cbn [andb].
  - destruct (Z.ltb_spec j (q + Z.of_nat (length P)));
      destruct (Z.leb_spec (q + Z.of_nat (length P)) j); try lia; cbn [andb];
      destruct (Z.ltb_spec j (q + Z.of_nat (length P + length P'))); try lia.
    + rewrite nth_error_app1 by lia. reflexivity.
    + destruct (Z.ltb_spec j (q + Z.of_nat (length P) + Z.of_nat (length P'))); [| lia].
      rewrite nth_error_app2 by lia. f_equal. lia.
    + destruct (Z.ltb_spec j (q + Z.of_nat (length P) + Z.of_nat (length P'))); [lia |].
      reflexivity.
  - destruct (Z.leb_spec (q + Z.of_nat (length P)) j); [lia |]. reflexivity.
Qed.

(* A cursor: the next pixel position is q = r*W+x. *)
Definition at_pos (r x : Z) (s : st) : Prop :=
  0 <= r < H /\ 0 <= x <= W /\ sx s = x /\ sy s = trow r /\
  (x < W -> si s = trow r * W + x) /\ Z.of_nat (length (sbuf s)) = W * H.

Lemma tga_store_ok : forall p r x s, at_pos r x s -> x < W ->
  exists s', tga_store p s = Ok s' /\ at_pos r (x + 1) s' /\ sw s' = sw s + 1 /\
             Fill (r * W + x) [p] (sbuf s) (sbuf s').
Proof.
  intros p r x s (Hr & Hx & Ex & Ey & Ei & Eb) Hlt. specialize (Ei Hlt).
  pose proof (row_in W H r ltac:(lia) Hr) as [R1 R2].
  assert (Hq : 0 <= r * W + x < W * H) by lia.
  pose proof (addr_range _ Hq) as Ha. rewrite addr_rx in Ha by lia.
  unfold tga_store. rewrite Ei.
  destruct (upd_cases N (sbuf s) (trow r * W + x) p) as [[b' E] | [_ Hc]]; [| lia].
  rewrite E. cbn [bind]. eexists. split; [reflexivity |]. cbn [sx sy si sw sbuf].
  split; [| split; [reflexivity |]].
  - unfold at_pos. cbn [sx sy si sw sbuf]. rewrite (upd_length _ _ _ _ _ E).
    repeat split; try lia.
  - apply Fill_one; [exact Hq |]. rewrite addr_rx by lia. exact E.
Qed.

Lemma tga_wrap_ok : forall r x s, at_pos r x s -> 0 < x ->
  exists r' x' s', tga_wrap W inc ymax s = Ok s' /\ at_pos r' x' s' /\
    r' * W + x' = r * W + x /\ sw s' = sw s /\ sbuf s' = sbuf s /\
    r <= r' /\ (x' < W \/ (x' = W /\ r' = H - 1)).
Proof.
  intros r x s (Hr & Hx & Ex & Ey & Ei & Eb) Hx0. unfold tga_wrap. rewrite Ex, Ey.
  destruct (Z.eqb_spec x W) as [-> | Hne].
  - rewrite trow_next, <- trow_H.
    destruct (Z.eqb_spec (trow (r + 1)) (trow H)) as [Et | Ent].
    + apply trow_inj in Et. cbn [sx sy si sw sbuf].
      assert (Hl : trow H - inc = trow (H - 1)) by (unfold trow, inc; destruct td; lia).
      rewrite Hl.
      pose proof (row_in W H (trow (H - 1)) ltac:(lia) (trow_range (H - 1) ltac:(lia))) as [R1 R2].
      rewrite ck_ok by lia. cbn [bind].
      exists (H - 1), W. eexists. split; [reflexivity |]. cbn [sx sy si sw sbuf].
      split; [unfold at_pos; cbn [sx sy si sw sbuf]; repeat split; lia |].
      split; [| repeat split; try lia]. replace r with (H - 1) by lia. reflexivity.
    + cbn [sx sy si sw sbuf].
      assert (Hr1 : r + 1 < H).
      { destruct (Z.eq_dec (r + 1) H) as [E | E]; [rewrite E in Ent; congruence | lia]. }
      pose proof (row_in W H (trow (r + 1)) ltac:(lia) (trow_range (r + 1) ltac:(lia))) as [R1 R2].
      rewrite ck_ok by lia. cbn [bind].
      exists (r + 1), 0. eexists. split; [reflexivity |]. cbn [sx sy si sw sbuf].
      split; [unfold at_pos; cbn [sx sy si sw sbuf]; repeat split; lia |].
      repeat split; lia.
  - exists r, x, s. split; [reflexivity |].
    split; [unfold at_pos; repeat split; lia || assumption |].
    repeat split; lia.
Qed.

(* run that fits *)
Lemma tga_run_ok : forall n p r x s, at_pos r x s -> x < W ->
  r * W + x + Z.of_nat (S n) <= W * H ->
  exists r' x' s', tga_run (S n) W inc ymax p s = Ok s' /\ at_pos r' x' s' /\
    r' * W + x' = r * W + x + Z.of_nat (S n) /\ sw s' = sw s + Z.of_nat (S n) /\
    Fill (r * W + x) (repeat p (S n)) (sbuf s) (sbuf s') /\ r <= r' /\
    (x' < W \/ (x' = W /\ r' = H - 1)).
Proof.
  intros n. induction n as [| n IH]; intros p r x s Hat Hx Hfit.
  - destruct (tga_store_ok p r x s Hat Hx) as (s1 & E1 & A1 & W1 & F1).
    destruct (tga_wrap_ok r (x + 1) s1 A1) as (r2 & x2 & s2 & E2 & A2 & Q2 & W2 & B2 & R2 & X2).
    { destruct Hat as (_ & Hx0 & _). lia. }
    exists r2, x2, s2. cbn [tga_run]. rewrite E1. cbn [bind]. rewrite E2. cbn [bind].
    split; [reflexivity |]. split; [exact A2 |]. rewrite B2.
    repeat split; try lia; try exact X2; apply F1.
  - destruct (tga_store_ok p r x s Hat Hx) as (s1 & E1 & A1 & W1 & F1).
    destruct (tga_wrap_ok r (x + 1) s1 A1) as (r2 & x2 & s2 & E2 & A2 & Q2 & W2 & B2 & R2 & X2).
    { destruct Hat as (_ & Hx0 & _). lia. }
    assert (Hx2 : x2 < W).
    { destruct X2 as [X2 | [-> ->]]; [exact X2 |]. exfalso.
      clear - Q2 Hfit. lia. }
    destruct (IH p r2 x2 s2 A2 Hx2) as (r3 & x3 & s3 & E3 & A3 & Q3 & W3 & F3 & R3 & X3).
    { clear - Q2 Hfit. lia. }
    exists r3, x3, s3.
    change (tga_run (S (S n)) W inc ymax p s) with
      (let! s := tga_store p s in let! s := tga_wrap W inc ymax s in
       tga_run (S n) W inc ymax p s).
    rewrite E1. cbn [bind]. rewrite E2. cbn [bind].
    split; [exact E3 |]. split; [exact A3 |]. split; [clear - Q2 Q3; lia |].
    split; [clear - W1 W2 W3; lia |]. split.
    { change (repeat p (S (S n))) with ([p] ++ repeat p (S n)).
      apply (Fill_app _ _ _ _ (sbuf s1)); [exact F1 |].
      rewrite <- B2. cbn [length]. replace (r * W + x + Z.of_nat 1) with (r2 * W + x2)
        by (clear - Q2; lia). exact F3. }
    split; [clear - R2 R3; lia | exact X3].
Qed.

(* after the end of the image a run keeps storing from the start of the last
   row; there is room for that when the row is long enough *)
Definition past_end (j : Z) (s : st) : Prop :=
  0 < H /\ 0 <= j /\ sx s = W + j /\ sy s = trow (H - 1) /\ si s = trow (H - 1) * W + j /\
  Z.of_nat (length (sbuf s)) = W * H.

Lemma tga_run_past : forall n p j s, past_end j s -> j + Z.of_nat n <= W ->
  exists s', tga_run n W inc ymax p s = Ok s' /\ past_end (j + Z.of_nat n) s' /\
             sw s' = sw s + Z.of_nat n.
Proof.
  intros n. induction n as [| n IH]; intros p j s HP Hn.
  - exists s. split; [reflexivity |]. change (Z.of_nat 0) with 0. rewrite !Z.add_0_r.
    split; [exact HP | reflexivity].
  - destruct HP as (Hh & Hj & Ex & Ey & Ei & Eb). cbn [tga_run].
    unfold tga_store at 1.
    pose proof (row_in W H (trow (H - 1)) ltac:(lia) (trow_range (H - 1) ltac:(lia))) as [R1 R2].
    rewrite Ei.
    destruct (upd_cases N (sbuf s) (trow (H - 1) * W + j) p) as [[b' E] | [_ Hc]]; [| lia].
    rewrite E. cbn [bind]. unfold tga_wrap at 1. cbn [sx sy si sw sbuf].
    destruct (Z.eqb_spec (sx s + 1) W) as [Hc | _]; [lia |]. cbn [bind].
    destruct (IH p (j + 1) (mk_st (sx s + 1) (sy s) (trow (H - 1) * W + j + 1) (sw s + 1) b'))
      as (s' & E' & P' & W'); try lia.
    { unfold past_end. cbn [sx sy si sw sbuf]. rewrite (upd_length _ _ _ _ _ E).
      repeat split; lia. }
    exists s'. split; [exact E' |]. cbn [sw] in W'.
    replace (j + Z.of_nat (S n)) with (j + 1 + Z.of_nat n) by lia.
    split; [exact P' | lia].
Qed.

Lemma tga_run_app : forall n m p s,
  tga_run (n + m) W inc ymax p s =
  let! s := tga_run n W inc ymax p s in tga_run m W inc ymax p s.
Proof.
  intros n. induction n as [| n IH]; intros m p s; [reflexivity |].
  cbn [Nat.add tga_run].
  destruct (tga_store p s) as [s1 | |]; cbn [bind]; try reflexivity.
  destruct (tga_wrap W inc ymax s1) as [s2 | |]; cbn [bind]; try reflexivity.
  apply IH.
Qed.

(* the last store of the image leaves i at the start of the last row *)
Lemma tga_last_store : forall p r x s, at_pos r x s -> r * W + x + 1 = W * H -> x < W ->
  exists s1 s2, tga_store p s = Ok s1 /\ tga_wrap W inc ymax s1 = Ok s2 /\
     past_end 0 s2 /\ sw s2 = sw s + 1.
Proof.
  intros p r x s Hat Hq Hx.
  destruct (tga_store_ok p r x s Hat Hx) as (s1 & E1 & A1 & W1 & F1).
  exists s1. unfold tga_wrap.
  destruct A1 as (Hr & Hx1 & Ex & Ey & _ & Eb).
  assert (Hx0 : x + 1 = W /\ r = H - 1).
  { destruct Hat as (_ & Hx0 & _). clear - Hr Hx0 Hq Hx. nia. }
  destruct Hx0 as [Hx0 Hr0]. rewrite Ex, Ey.
  destruct (Z.eqb_spec (x + 1) W) as [_ | Hc]; [| lia].
  rewrite trow_next, <- trow_H.
  destruct (Z.eqb_spec (trow (r + 1)) (trow H)) as [_ | Hc].
  2: { exfalso. apply Hc. f_equal. lia. }
  cbn [sx sy si sw sbuf].
  assert (Hl : trow H - inc = trow (H - 1)) by (unfold trow, inc; destruct td; lia).
  rewrite Hl.
  pose proof (row_in W H (trow (H - 1)) ltac:(lia) (trow_range (H - 1) ltac:(lia))) as [R1 R2].
  rewrite ck_ok by lia. cbn [bind]. eexists. split; [exact E1 |].
  split; [reflexivity |]. cbn [sw]. split; [| lia].
  unfold past_end. cbn [sx sy si sw sbuf]. repeat split; lia.
Qed.

(* run that goes past the end of the image *)
Lemma tga_run_over : forall n p r x s, at_pos r x s -> x < W ->
  r * W + x + Z.of_nat n > W * H -> Z.of_nat n <= 128 -> 127 <= W ->
  exists s' j, tga_run n W inc ymax p s = Ok s' /\ past_end j s' /\
    sw s' = sw s + Z.of_nat n.
Proof.
  intros n p r x s Hat Hx Hover Hn Hw.
  pose proof Hat as Hat0. destruct Hat0 as (Hr & Hx0 & _).
  pose proof (row_in W H r ltac:(lia) Hr) as [R1 R2].
  set (m := Z.to_nat (W * H - (r * W + x))).
  assert (Hm : Z.of_nat m = W * H - (r * W + x)) by (unfold m; lia).
  assert (Hm1 : (1 <= m)%nat) by lia.
  assert (Hmn : (m < n)%nat) by lia.
  clearbody m.
  destruct m as [| m]; [lia |].
  replace n with (m + (1 + (n - S m)))%nat by lia.
  assert (Hmid : exists r' x' s1, tga_run m W inc ymax p s = Ok s1 /\ at_pos r' x' s1 /\
             x' < W /\ r' * W + x' + 1 = W * H /\ sw s1 = sw s + Z.of_nat m).
  { destruct m as [| m].
    - exists r, x, s. split; [reflexivity |]. split; [exact Hat |]. lia.
    - destruct (tga_run_ok m p r x s Hat Hx) as (r1 & x1 & s1 & E1 & A1 & Q1 & W1 & _ & _ & X1).
      { clear - Hm. lia. }
      exists r1, x1, s1. split; [exact E1 |]. split; [exact A1 |].
      destruct X1 as [X1 | [-> ->]]; [| exfalso; clear - Q1 Hm; lia].
      clear - X1 Q1 W1 Hm. lia. }
  destruct Hmid as (r1 & x1 & s1 & E1 & A1 & X1 & Q1 & W1).
  rewrite tga_run_app, E1. cbn [bind]. rewrite tga_run_app.
  destruct (tga_last_store p r1 x1 s1 A1 Q1 X1) as (s2 & s3 & E2 & E3 & P3 & W3).
  cbn [tga_run]. rewrite E2. cbn [bind]. rewrite E3. cbn [bind].
  destruct (tga_run_past (n - S m) p 0 s3 P3) as (s4 & E4 & P4 & W4).
  { clear - Hn Hw. lia. }
  exists s4. eexists. split; [exact E4 |]. split; [exact P4 |].
  clear - W4 W3 W1 Hmn. lia.
Qed.

(* ---- items of the stream ---- *)
Context (bpp : Z) (compressed : bool).
Hypothesis Hbpp : 2 <= bpp <= 4.
Let size : nat := Z.to_nat (bpp + (if compressed then 1 else 0)).

Lemma size_pos : (1 <= size)%nat.
Proof using Hbpp. clear inc ymax. unfold size. destruct compressed; lia. Qed.

(* number of pixels and pixel of one item *)
Definition item (l : list N) : nat * N :=
  if compressed then
    (if negb (N.land (tbyte l 0) 0x80 =? 0)%N then N.to_nat (1 + N.land (tbyte l 0) 0x7F) else 1%nat,
     tga_px bpp l 1)
  else (1%nat, tga_px bpp l 0).

Fixpoint items_f (fuel : nat) (stream : list N) : list (nat * N) :=
  match fuel with
  | O => []
  | S fuel => if (length stream <? size)%nat then []
              else item (firstn size stream) :: items_f fuel (skipn size stream)
  end.
Definition items (stream : list N) : list (nat * N) := items_f (length stream) stream.

Lemma items_f_enough : forall n m stream, (length stream <= n)%nat -> (length stream <= m)%nat ->
  items_f n stream = items_f m stream.
Proof using Hbpp. clear inc ymax.
  pose proof size_pos as Hs.
  intros n. induction n as [| n IH]; intros m stream Hn Hm.
  - destruct m as [| m]; [reflexivity |]. cbn [items_f].
    destruct (Nat.ltb_spec (length stream) size); [reflexivity | lia].
  - destruct m as [| m]; cbn [items_f].
    + destruct (Nat.ltb_spec (length stream) size); [reflexivity | lia].
    + destruct (Nat.ltb_spec (length stream) size); [reflexivity |].
      f_equal. apply IH; rewrite skipn_length; lia.
Qed.

Lemma items_short : forall stream, (length stream < size)%nat -> items stream = [].
Proof using Hbpp. clear inc ymax.
  intros stream H'. unfold items. destruct (length stream) as [| n] eqn:E; [reflexivity |].
  cbn [items_f]. rewrite E. destruct (Nat.ltb_spec (S n) size); [reflexivity | lia].
Qed.

Lemma items_cons : forall stream, (size <= length stream)%nat ->
  items stream = item (firstn size stream) :: items (skipn size stream).
Proof using Hbpp. clear inc ymax.
  pose proof size_pos as Hs.
  intros stream H'. unfold items. destruct (length stream) as [| n] eqn:E; [lia |].
  cbn [items_f]. rewrite E. destruct (Nat.ltb_spec (S n) size); [lia |]. f_equal.
  apply items_f_enough; rewrite skipn_length; lia.
Qed.

Lemma item_count : forall l, (1 <= fst (item l) <= 128)%nat.
Proof using. clear inc ymax.
  intros l. unfold item. destruct compressed; cbn [fst]; [| lia].
  destruct (negb _); [| lia].
  assert (N.land (tbyte l 0) 127 < 128)%N; [| lia].
  change 127%N with (N.ones 7). rewrite N.land_ones. apply N.mod_lt. discriminate.
Qed.

Definition expand (l : list (nat * N)) : list N :=
  flat_map (fun it => repeat (snd it) (fst it)) l.

(* no run goes past the end of an image with [left] pixels still to come *)
Fixpoint fits (left : Z) (l : list (nat * N)) : Prop :=
  match l with
  | [] => True
  | it :: l => left = 0 \/ (Z.of_nat (fst it) <= left /\ fits (left - Z.of_nat (fst it)) l)
  end.

(* one item executed by the inner loop body *)
Definition exec_item (l : list N) (s : st) : res st :=
  if compressed then
    if negb (N.land (tbyte l 0) 0x80 =? 0)%N then
      tga_run (N.to_nat (1 + N.land (tbyte l 0) 0x7F)) W inc ymax (tga_px bpp l 1) s
    else tga_store (tga_px bpp l 1) s
  else tga_store (tga_px bpp l 0) s.

Lemma exec_item_fits : forall l r x s, at_pos r x s -> x < W ->
  r * W + x + Z.of_nat (fst (item l)) <= W * H ->
  exists r' x' s', exec_item l s = Ok s' /\ at_pos r' x' s' /\
    r' * W + x' = r * W + x + Z.of_nat (fst (item l)) /\
    sw s' = sw s + Z.of_nat (fst (item l)) /\
    Fill (r * W + x) (repeat (snd (item l)) (fst (item l))) (sbuf s) (sbuf s') /\ r <= r'.
Proof.
  intros l r x s Hat Hx Hfit. unfold exec_item, item in *.
  assert (Hstore : forall p, exists r' x' s', tga_store p s = Ok s' /\ at_pos r' x' s' /\
            r' * W + x' = r * W + x + Z.of_nat 1 /\ sw s' = sw s + Z.of_nat 1 /\
            Fill (r * W + x) (repeat p 1) (sbuf s) (sbuf s') /\ r <= r').
  { intros p. destruct (tga_store_ok p r x s Hat Hx) as (s1 & E1 & A1 & W1 & F1).
    exists r, (x + 1), s1. split; [exact E1 |]. split; [exact A1 |].
    split; [lia |]. split; [lia |]. split; [exact F1 | lia]. }
  destruct compressed; [| apply Hstore].
  destruct (negb (N.land (tbyte l 0) 128 =? 0)%N) eqn:Eb; cbn [fst snd] in *.
  - replace (N.to_nat (1 + N.land (tbyte l 0) 127)) with (S (N.to_nat (N.land (tbyte l 0) 127)))
      in * by lia.
    destruct (tga_run_ok _ (tga_px bpp l 1) r x s Hat Hx Hfit)
      as (r1 & x1 & s1 & E1 & A1 & Q1 & W1 & F1 & R1 & _).
    exists r1, x1, s1. repeat (split; [assumption |]). assumption.
  - apply Hstore.
Qed.

Lemma exec_item_over : forall l r x s, at_pos r x s -> x < W ->
  r * W + x + Z.of_nat (fst (item l)) > W * H -> 127 <= W ->
  exists s' j, exec_item l s = Ok s' /\ past_end j s' /\
    sw s' = sw s + Z.of_nat (fst (item l)).
Proof.
  intros l r x s Hat Hx Hover Hw.
  pose proof (item_count l) as Hc. unfold exec_item, item in *.
  assert (Hq : r * W + x < W * H).
  { destruct Hat as (Hr & Hx0 & _). pose proof (row_in W H r ltac:(lia) Hr). lia. }
  destruct compressed; cbn [fst snd] in *; [| exfalso; lia].
  destruct (negb (N.land (tbyte l 0) 128 =? 0)%N) eqn:Eb; cbn [fst snd] in *; [| exfalso; lia].
  apply (tga_run_over _ _ r x); try assumption. lia.
Qed.

(* the inner loop *)
Lemma tga_inner_ok : forall fuel stream r x s,
  (length stream < fuel)%nat -> at_pos r x s ->
  (127 <= W \/ fits (W * H - (r * W + x)) (items stream)) ->
  exists s' stream', tga_inner fuel bpp compressed W inc ymax stream s = Ok (s', stream') /\
  (length stream' <= length stream)%nat /\
  ((exists its r' x', items stream = its ++ items stream' /\
      at_pos r' x' s' /\ r <= r' /\
      r' * W + x' = r * W + x + Z.of_nat (length (expand its)) /\
      sw s' = sw s + Z.of_nat (length (expand its)) /\
      Fill (r * W + x) (expand its) (sbuf s) (sbuf s') /\
      (x' = W \/ items stream' = []))
   \/
   (exists j, past_end j s' /\ ~ fits (W * H - (r * W + x)) (items stream) /\
      sw s' > sw s + (W * H - (r * W + x)))).
Proof.
  pose proof size_pos as Hsz.
  intros fuel. induction fuel as [| fuel IH]; intros stream r x s Hfuel Hat Hsafe; [lia |].
  assert (Hq : 0 <= r * W + x <= W * H).
  { destruct Hat as (Hr & Hx0 & _). pose proof (row_in W H r ltac:(lia) Hr). lia. }
  cbn [tga_inner]. pose proof Hat as Hat0. destruct Hat0 as (Hr & Hx0 & Ex & _). rewrite Ex.
  destruct (Z.ltb_spec x W) as [Hx | Hx].
  2: { exists s, stream. split; [reflexivity |]. split; [lia |]. left.
       exists [], r, x. cbn [app expand flat_map length]. split; [reflexivity |].
       split; [exact Hat |]. split; [lia |]. split; [lia |]. split; [lia |].
       split; [apply Fill_nil | left; lia]. }
  fold size. destruct (Nat.ltb_spec (length stream) size) as [Hsh | Hlong].
  { exists s, []. split; [reflexivity |]. split; [cbn [length]; lia |]. left.
    exists [], r, x. cbn [app expand flat_map length].
    rewrite (items_short stream Hsh). split; [reflexivity |].
    split; [exact Hat |]. split; [lia |]. split; [lia |]. split; [lia |].
    split; [apply Fill_nil | right; reflexivity]. }
  set (l := firstn size stream). set (rest := skipn size stream).
  assert (Hrl : (length rest < length stream)%nat) by (unfold rest; rewrite skipn_length; lia).
  fold (exec_item l s).
  rewrite (items_cons stream Hlong) in *. fold l rest in Hsafe |- *.
  pose proof (item_count l) as Hic.
  destruct (Z.le_gt_cases (r * W + x + Z.of_nat (fst (item l))) (W * H)) as [Hfit | Hover].
  - destruct (exec_item_fits l r x s Hat Hx Hfit) as (r1 & x1 & s1 & E1 & A1 & Q1 & W1 & F1 & R1).
    rewrite E1. cbn [bind].
    destruct (IH rest r1 x1 s1) as (s2 & st2 & E2 & L2 & D2).
    { clear - Hrl Hfuel. lia. }
    { exact A1. }
    { destruct Hsafe as [Hw | Hf]; [left; exact Hw | right].
      cbn [fits] in Hf. destruct Hf as [Hz | [_ Hf]].
      - exfalso. clear - Hz Hfit Hic. lia.
      - rewrite Q1. replace (W * H - (r * W + x + Z.of_nat (fst (item l))))
          with (W * H - (r * W + x) - Z.of_nat (fst (item l))) by (clear; lia). exact Hf. }
    exists s2, st2. split; [exact E2 |]. split; [clear - L2 Hrl; lia |].
    destruct D2 as [(its & r2 & x2 & I2 & A2 & R2 & Q2 & W2 & F2 & X2) | (j & P2 & NF & W2)].
    + left. exists (item l :: its), r2, x2. rewrite I2. split; [reflexivity |].
      split; [exact A2 |]. split; [clear - R1 R2; lia |].
      assert (Hlen : length (expand (item l :: its)) =
                     (fst (item l) + length (expand its))%nat).
      { cbn [expand flat_map]. rewrite app_length, repeat_length. reflexivity. }
      rewrite Hlen. split; [clear - Q1 Q2; lia |]. split; [clear - W1 W2; lia |].
      split; [| exact X2].
      cbn [expand flat_map]. apply (Fill_app _ _ _ _ (sbuf s1)); [exact F1 |].
      rewrite repeat_length, <- Q1. exact F2.
    + right. exists j. split; [exact P2 |]. split.
      * cbn [fits]. intros [Hz | [_ Hf]].
        -- clear - Hz Hfit Hic. lia.
        -- apply NF. rewrite Q1.
           replace (W * H - (r * W + x + Z.of_nat (fst (item l))))
             with (W * H - (r * W + x) - Z.of_nat (fst (item l))) by (clear; lia). exact Hf.
      * clear - W1 W2 Q1. lia.
  - assert (HNF : ~ fits (W * H - (r * W + x)) (item l :: items rest)).
    { cbn [fits]. intros [Hz | [Hf _]]; [| clear - Hf Hover; lia].
      assert (Hr1 : r * W + x < W * H) by (pose proof (row_in W H r ltac:(lia) Hr); lia).
      clear - Hz Hr1. lia. }
    destruct Hsafe as [Hw | Hf]; [| contradiction].
    assert (Hover' : r * W + x + Z.of_nat (fst (item l)) > W * H) by (clear - Hover; lia).
    destruct (exec_item_over l r x s Hat Hx Hover' Hw) as (s1 & j & E1 & P1 & W1).
    rewrite E1. cbn [bind].
    exists s1, rest. destruct fuel as [| fuel]; [clear - Hfuel Hrl; lia |].
    cbn [tga_inner].
    pose proof P1 as P1'. destruct P1' as (_ & Hj & Ex1 & _). rewrite Ex1.
    destruct (Z.ltb_spec (W + j) W) as [Hc | _]; [clear - Hc Hj; lia |].
    split; [reflexivity |]. split; [clear - Hrl; lia |]. right. exists j.
    split; [exact P1 |]. split; [exact HNF |]. clear - W1 Hover. lia.
Qed.

(* nothing more to read: the remaining rows are left alone *)
Lemma tga_outer_rest : forall n fuel stream r s,
  (length stream < size)%nat -> 0 <= r -> r + Z.of_nat n = H -> (n <= fuel)%nat ->
  sy s = trow r ->
  exists s', tga_outer fuel bpp compressed W inc ymax stream s = Ok s' /\
             sbuf s' = sbuf s /\ sw s' = sw s.
Proof.
  intros n. induction n as [| n IH]; intros fuel stream r s Hst Hr Hn Hf Hy.
  - exists s. assert (E : sy s = ymax) by (rewrite Hy, <- trow_H; f_equal; lia).
    destruct fuel; cbn [tga_outer]; rewrite E, Z.eqb_refl; auto.
  - destruct fuel as [| fuel]; [lia |]. cbn [tga_outer]. rewrite Hy, <- trow_H.
    destruct (Z.eqb_spec (trow r) (trow H)) as [E | _]; [apply trow_inj in E; lia |].
    pose proof (row_in W H (trow r) ltac:(lia) (trow_range r ltac:(lia))) as [R1 R2].
    rewrite ck_ok by lia. cbn [bind].
    cbn [tga_inner sx]. destruct (Z.ltb_spec 0 W) as [_ | Hc]; [| lia].
    fold size. destruct (Nat.ltb_spec (length stream) size) as [_ | Hc]; [| lia].
    cbn [bind sx sy si sw sbuf]. rewrite trow_next, trow_H.
    destruct (IH fuel [] (r + 1) (mk_st 0 (trow (r + 1)) (trow r * W) (sw s) (sbuf s)))
      as (s' & E & B & Ws); try lia.
    { cbn [length]. pose proof size_pos. lia. }
    { reflexivity. }
    exists s'. cbn [sbuf sw] in B, Ws. auto.
Qed.

Lemma expand_length_cons : forall it l,
  length (expand (it :: l)) = (fst it + length (expand l))%nat.
Proof using. clear inc ymax. intros it l. cbn [expand flat_map]. rewrite app_length, repeat_length. reflexivity. Qed.

Lemma expand_app : forall l1 l2, expand (l1 ++ l2) = expand l1 ++ expand l2.
Proof. intros l1 l2. apply flat_map_app. Qed.

Lemma fits_app : forall l1 l2 left,
  Forall (fun it => (1 <= fst it)%nat) l1 -> Z.of_nat (length (expand l1)) <= left ->
  fits left (l1 ++ l2) <-> fits (left - Z.of_nat (length (expand l1))) l2.
Proof using. clear inc ymax size.
  intros l1. induction l1 as [| it l1 IH]; intros l2 left Hc Hl.
  - cbn [app expand flat_map length]. now rewrite Z.sub_0_r.
  - inversion Hc as [| ? ? Hit Hc']; subst. rewrite expand_length_cons in *.
    cbn [app fits]. rewrite IH by (assumption || lia).
    replace (left - Z.of_nat (fst it) - Z.of_nat (length (expand l1)))
      with (left - Z.of_nat (fst it + length (expand l1))) by lia.
    split; [intros [Hz | [_ Hf]]; [lia | exact Hf] | intros Hf; right; split; [lia | exact Hf]].
Qed.

Lemma items_counts : forall stream, Forall (fun it => (1 <= fst it)%nat) (items stream).
Proof using. clear inc ymax.
  intros stream. unfold items. generalize (length stream) as n. intros n. revert stream.
  induction n as [| n IH]; intros stream; cbn [items_f]; [constructor |].
  destruct (length stream <? size)%nat; constructor; [apply item_count | apply IH].
Qed.

Lemma items_nil : forall stream, items stream = [] -> (length stream < size)%nat.
Proof using Hbpp. clear inc ymax.
  intros stream E. destruct (Nat.lt_ge_cases (length stream) size) as [Hl | Hg]; [exact Hl |].
  rewrite items_cons in E by exact Hg. discriminate.
Qed.

Lemma tga_outer_ok : forall n fuel stream r s,
  0 <= r -> r + Z.of_nat n = H -> (n <= fuel)%nat -> sy s = trow r ->
  Z.of_nat (length (sbuf s)) = W * H ->
  (127 <= W \/ fits (W * H - r * W) (items stream)) ->
  exists s', tga_outer fuel bpp compressed W inc ymax stream s = Ok s' /\
    length (sbuf s') = length (sbuf s) /\
    ((fits (W * H - r * W) (items stream) /\
      sw s' = sw s + Z.min (W * H - r * W) (Z.of_nat (length (expand (items stream)))) /\
      Fill (r * W) (firstn (Z.to_nat (W * H - r * W)) (expand (items stream)))
        (sbuf s) (sbuf s'))
     \/ (~ fits (W * H - r * W) (items stream) /\ sw s' > sw s + (W * H - r * W))).
Proof.
  intros n. induction n as [n IH] using lt_wf_ind.
  intros fuel stream r s Hr Hn Hf Hy Hb Hsafe.
  destruct n as [| n].
  - exists s. assert (E : sy s = ymax) by (rewrite Hy, <- trow_H; f_equal; lia).
    assert (Eo : tga_outer fuel bpp compressed W inc ymax stream s = Ok s)
      by (destruct fuel; cbn [tga_outer]; now rewrite E, Z.eqb_refl).
    split; [exact Eo |]. split; [reflexivity |]. left.
    assert (Hz : W * H - r * W = 0) by (replace r with H by lia; lia).
    rewrite Hz. split; [| split].
    + destruct (items stream); cbn [fits]; auto.
    + lia.
    + cbn [Z.to_nat firstn]. apply Fill_nil.
  - destruct fuel as [| fuel]; [lia |].
    pose proof (row_in W H r ltac:(lia) ltac:(lia)) as [Q1 Q2].
    pose proof (row_in W H (trow r) ltac:(lia) (trow_range r ltac:(lia))) as [R1 R2].
    cbn [tga_outer]. rewrite Hy, <- trow_H.
    destruct (Z.eqb_spec (trow r) (trow H)) as [E | _]; [apply trow_inj in E; lia |].
    rewrite ck_ok by lia. cbn [bind]. rewrite trow_H.
    set (s0 := mk_st 0 (trow r) (trow r * W) (sw s) (sbuf s)).
    assert (A0 : at_pos r 0 s0).
    { unfold at_pos, s0. cbn [sx sy si sw sbuf]. repeat split; lia. }
    assert (Hsafe0 : 127 <= W \/ fits (W * H - (r * W + 0)) (items stream))
      by (rewrite Z.add_0_r; exact Hsafe).
    destruct (tga_inner_ok (S (length stream)) stream r 0 s0 ltac:(lia) A0 Hsafe0)
      as (s1 & stream1 & E1 & L1 & D1).
    rewrite Z.add_0_r in D1.
    rewrite E1. cbn [bind]. change (sbuf s0) with (sbuf s) in D1. change (sw s0) with (sw s) in D1.
    destruct D1 as [(its & r1 & x1 & I1 & A1 & Rr & Qr & W1 & F1 & X1) | (j & P1 & NF & W1)].
    + pose proof A1 as A1'. destruct A1' as (Hr1 & Hx1 & _ & Ey1 & _ & Eb1).
      rewrite Ey1, trow_next.
      set (left := W * H - r * W) in *.
      set (k := Z.of_nat (length (expand its))) in *.
      pose proof (items_counts stream) as Hc. rewrite I1 in Hc. apply Forall_app in Hc.
      destruct Hc as [Hc _].
      assert (Hk : k <= left).
      { pose proof (row_in W H r1 ltac:(lia) Hr1). unfold left. lia. }
      assert (Hk0 : 0 <= k) by (unfold k; lia).
      assert (Hfits : fits left (items stream) <-> fits (left - k) (items stream1))
        by (rewrite I1; apply fits_app; [exact Hc | exact Hk]).
      destruct X1 as [-> | X1].
      * destruct (IH (Z.to_nat (H - (r1 + 1))) ltac:(lia) fuel stream1 (r1 + 1)
          (mk_st (sx s1) (trow (r1 + 1)) (si s1) (sw s1) (sbuf s1))) as (s2 & E2 & L2 & D2);
          cbn [sy sbuf]; try lia; try reflexivity.
        { replace (W * H - (r1 + 1) * W) with (left - k) by (unfold left; lia).
          destruct Hsafe as [Hw | Hfit]; [left; exact Hw | right; apply Hfits; exact Hfit]. }
        exists s2. split; [exact E2 |]. cbn [sbuf sw] in L2, D2.
        replace (W * H - (r1 + 1) * W) with (left - k) in D2 by (unfold left; lia).
        split; [rewrite L2; apply F1 |].
        destruct D2 as [(FF & W2 & F2) | (NF & W2)].
        -- left. split; [apply Hfits; exact FF |]. split.
           ++ rewrite I1, expand_app, app_length. fold k.
              clear - W1 W2 Hk Hk0. unfold k in *. lia.
           ++ rewrite I1, expand_app, firstn_app.
              rewrite (firstn_all2 (expand its)) by (unfold k in Hk; lia).
              apply (Fill_app _ _ _ _ (sbuf s1)); [exact F1 |]. fold k.
              replace (r * W + k) with ((r1 + 1) * W) by lia.
              replace (Z.to_nat left - length (expand its))%nat with (Z.to_nat (left - k))
                by (unfold k; lia). exact F2.
        -- right. split; [rewrite Hfits; exact NF |]. clear - W1 W2. lia.
      * destruct (tga_outer_rest (Z.to_nat (H - (r1 + 1))) fuel stream1 (r1 + 1)
          (mk_st (sx s1) (trow (r1 + 1)) (si s1) (sw s1) (sbuf s1))) as (s2 & E2 & B2 & W2);
          cbn [sy]; try lia; try reflexivity.
        { apply items_nil. exact X1. }
        exists s2. split; [exact E2 |]. cbn [sbuf sw] in B2, W2. rewrite B2, W2.
        split; [apply F1 |]. left. rewrite X1 in *.
        split; [apply Hfits; exact I |]. rewrite I1, app_nil_r. fold k.
        split; [rewrite W1; clear - Hk; lia |].
        rewrite firstn_all2 by (unfold k in Hk; lia). exact F1.
    + pose proof P1 as (_ & _ & _ & Ey1 & _ & Eb1). exists (mk_st (sx s1) ymax (si s1) (sw s1) (sbuf s1)).
      assert (Ey : sy s1 + inc = ymax).
      { rewrite Ey1, trow_next, <- trow_H. f_equal. lia. }
      rewrite Ey. cbn [sbuf sw].
      split; [destruct fuel; cbn [tga_outer sy]; now rewrite Z.eqb_refl |].
      split; [lia |]. right. split; [exact NF | exact W1].
Qed.

End Loop.
