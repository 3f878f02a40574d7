From Verif Require Import Common ByteLemmas ArrayIO PixelModel DecimalModel UtilModel ConfigModel ConfigProofs
  PpmModel PpmSpec.
Local Open Scope N_scope.

(* ---- scanning ---- *)

Lemma blank_space : forall c, blank c -> is_space c = true.
Proof.
  intros c [-> | H]; [reflexivity |]. unfold is_space.
  destruct (N.leb_spec 9 c); [| lia]. destruct (N.leb_spec c 13); [| lia]. now rewrite orb_true_r.
Qed.

Lemma digit_space : forall c, is_digit c = true -> is_space c = false.
Proof.
  intros c H. unfold is_digit in H. apply andb_prop in H. destruct H as [H1 H2].
  apply N.leb_le in H1, H2. unfold is_space.
  destruct (N.eqb_spec c 32); [lia |]. destruct (N.leb_spec c 13); [lia |]. now rewrite andb_false_r.
Qed.

Lemma blank_digit : forall c, blank c -> is_digit c = false.
Proof.
  intros c H. destruct (is_digit c) eqn:E; [| reflexivity]. apply digit_space in E.
  rewrite (blank_space c H) in E. discriminate.
Qed.

Lemma skip_space_app : forall s l, Forall blank s -> skip_space (s ++ l) = skip_space l.
Proof.
  intros s l H. induction H as [| c s Hc _ IH]; [reflexivity |]. cbn [app skip_space].
  now rewrite (blank_space c Hc).
Qed.

Lemma skipn_skipn : forall A m n (l : list A), skipn m (skipn n l) = skipn (n + m) l.
Proof.
  intros A m n. induction n as [| n IH]; intros l; [reflexivity |].
  destruct l as [| a l]; [now rewrite !skipn_nil | apply IH].
Qed.

Definition stops (l : list N) : Prop := match l with [] => True | c :: _ => is_digit c = false end.

Lemma span_digits_app : forall d r, Forall (fun c => is_digit c = true) d -> stops r ->
  span_digits (d ++ r) = (d, r).
Proof.
  intros d r H Hr. induction H as [| c d Hc _ IH].
  - destruct r as [| c r]; [reflexivity |]. cbn in *. now rewrite Hr.
  - cbn [app span_digits]. now rewrite Hc, IH.
Qed.

Lemma skip_space_digits : forall n r, skip_space (dec n ++ r) = dec n ++ r.
Proof.
  intros n r. destruct (dec_spec n) as (F & Ne & _). destruct (dec n) as [| c d]; [congruence |].
  inversion F; subst. cbn [app skip_space]. now rewrite (digit_space c).
Qed.

Lemma scan_uint_dec : forall limit s n r, Forall blank s -> n < limit -> stops r ->
  scan_uint limit (s ++ dec n ++ r) = Some (Ok n, r).
Proof.
  intros limit s n r Hs Hn Hr. unfold scan_uint.
  rewrite skip_space_app, skip_space_digits by exact Hs.
  destruct (dec_spec n) as (F & Ne & V & _).
  assert (Hhead : match dec n ++ r with
    | c :: r0 => if c =? 45 then (true, r0) else if c =? 43 then (false, r0) else (false, dec n ++ r)
    | [] => (false, []) end = (false, dec n ++ r)).
  { destruct (dec n) as [| c d]; [congruence |]. inversion F as [| ? ? Hc]; subst. cbn [app].
    unfold is_digit in Hc. apply andb_prop in Hc. destruct Hc as [H1 _]. apply N.leb_le in H1.
    destruct (N.eqb_spec c 45); [lia |]. destruct (N.eqb_spec c 43); [lia |]. reflexivity. }
  rewrite Hhead, (span_digits_app _ _ F Hr).
  destruct (dec n) as [| c d] eqn:E; [congruence |]. rewrite V. cbn [orb].
  destruct (N.leb_spec limit n); [lia | reflexivity].
Qed.

Lemma stops_blank : forall s l, Forall blank s -> s <> [] -> stops (s ++ l).
Proof.
  intros s l H Hn. destruct H as [| c s Hc]; [congruence |]. cbn. now apply blank_digit.
Qed.

(* ---- samples ---- *)

Lemma fl_frac_le : forall n d c, (0 < n -> 0 < d -> 0 < c < 2 ^ 24 -> n <= c * d ->
  fst (fl_frac n d) <= c * snd (fl_frac n d))%Z.
Proof.
  intros n d c Hn Hd Hc H. assert (R := fl_frac_rel n d Hn Hd). unfold fl_frac in *. cbn zeta in *.
  set (e := if (d * 2 ^ Z.max (Z.log2 n - Z.log2 d) 0 <=? n * 2 ^ Z.max (- (Z.log2 n - Z.log2 d)) 0)%Z
            then (Z.log2 n - Z.log2 d)%Z else (Z.log2 n - Z.log2 d - 1)%Z) in *. clearbody e.
  cbn [fst snd]. set (k := (23 - e)%Z) in *. clearbody k.
  destruct (Z_le_gt_dec 0 k) as [K | K].
  - replace (Z.max (- k) 0)%Z with 0%Z by lia. rewrite Z.pow_0_r, !Z.mul_1_r.
    replace (Z.max k 0) with k by lia.
    apply rne_mono_r; [exact Hd |]. assert (P := pow2_pos k K). nia.
  - replace (Z.max k 0)%Z with 0%Z in * by lia. replace (Z.max (- k) 0)%Z with (- k)%Z in * by lia.
    rewrite Z.pow_0_r, !Z.mul_1_r in *. destruct R as (R1 & _ & R2).
    set (m := rne n (d * 2 ^ - k)) in *. clearbody m. assert (P := pow2_pos (- k) ltac:(lia)).
    assert (M : (m <= 0 \/ 1 <= m)%Z) by lia. destruct M as [M | M]; [nia |].
    (* the rounded quotient is within a relative 2^-24 of n/d <= c *)
    apply Z.nlt_ge. intros C. set (q := (2 ^ - k)%Z) in *. clearbody q. assert (X : ((c + 1) * d <= m * q * d)%Z) by nia.
    assert (Y : (2 ^ 24 * (m * q * d) <= (2 ^ 24 + 1) * n)%Z) by lia.
    assert (Z1 : (2 ^ 24 * ((c + 1) * d) <= (2 ^ 24 + 1) * (c * d))%Z) by lia.
    assert (Z2 : (c * d < 2 ^ 24 * d)%Z) by nia. lia.
Qed.

(* bounds of the two roundings, before truncation *)
Lemma sample_chain : forall v m, (0 < v -> 0 < m ->
  let '(n, d) := fl_frac v m in let '(n2, d2) := fl_frac (n * 255) d in
  0 < n /\ 0 < d /\ 0 < n2 /\ 0 < d2 /\
  n2 * m * (2 ^ 48) <= 255 * v * d2 * ((2 ^ 24 + 1) * (2 ^ 24 + 1)) /\
  255 * v * d2 * ((2 ^ 24 - 1) * (2 ^ 24 - 1)) <= n2 * m * 2 ^ 48)%Z.
Proof.
  intros v m Hv Hm. assert (F1 := fl_frac_rel v m Hv Hm).
  destruct (fl_frac v m) as [n d]. destruct F1 as (P1 & P2 & F1).
  assert (F2 := fl_frac_rel (n * 255)%Z d ltac:(lia) P2).
  destruct (fl_frac (n * 255) d) as [n2 d2]. destruct F2 as (P3 & P4 & F2).
  split; [exact P1 |]. split; [exact P2 |]. split; [exact P3 |]. split; [exact P4 |].
  set (U := (2 ^ 24)%Z) in *. replace (2 ^ 48)%Z with (U * U)%Z by reflexivity.
  assert (HU : (1 < U)%Z) by reflexivity. clearbody U.
  assert (A1 : (n * m * U <= v * d * (U + 1))%Z) by lia.
  assert (A2 : (v * d * (U - 1) <= n * m * U)%Z) by lia.
  assert (B1 : (n2 * d * U <= 255 * n * d2 * (U + 1))%Z) by lia.
  assert (B2 : (255 * n * d2 * (U - 1) <= n2 * d * U)%Z) by lia.
  clear F1 F2. split.
  - apply (Z.mul_le_mono_pos_r _ _ d P2).
    transitivity (255 * d2 * (U + 1) * (n * m * U))%Z.
    + replace (n2 * m * (U * U) * d)%Z with (n2 * d * U * (m * U))%Z by ring.
      replace (255 * d2 * (U + 1) * (n * m * U))%Z with (255 * n * d2 * (U + 1) * (m * U))%Z by ring.
      apply Z.mul_le_mono_nonneg_r; [nia | exact B1].
    + replace (255 * v * d2 * ((U + 1) * (U + 1)) * d)%Z with (255 * d2 * (U + 1) * (v * d * (U + 1)))%Z by ring.
      apply Z.mul_le_mono_nonneg_l; [nia | exact A1].
  - apply (Z.mul_le_mono_pos_r _ _ d P2).
    transitivity (255 * d2 * (U - 1) * (n * m * U))%Z.
    + replace (255 * v * d2 * ((U - 1) * (U - 1)) * d)%Z with (255 * d2 * (U - 1) * (v * d * (U - 1)))%Z by ring.
      apply Z.mul_le_mono_nonneg_l; [nia | exact A2].
    + replace (n2 * m * (U * U) * d)%Z with (n2 * d * U * (m * U))%Z by ring.
      replace (255 * d2 * (U - 1) * (n * m * U))%Z with (255 * n * d2 * (U - 1) * (m * U))%Z by ring.
      apply Z.mul_le_mono_nonneg_r; [nia | exact B2].
Qed.

Lemma to_byte_rescaled : forall v m slack, 0 < v <= m -> m <= 65535 ->
  (slack = 2 \/ (slack = 0 /\ m <= 255)) ->
  let '(n, d) := fl_frac (Z.of_N v) (Z.of_N m) in
  (n <= d)%Z /\ exists t, to_byte n d = Ok t /\ rescaled slack m v t.
Proof.
  intros v m slack Hv Hm Hs.
  assert (C := sample_chain (Z.of_N v) (Z.of_N m) ltac:(lia) ltac:(lia)).
  assert (L1 := fl_frac_le (Z.of_N v) (Z.of_N m) 1 ltac:(lia) ltac:(lia) ltac:(lia) ltac:(lia)).
  destruct (fl_frac (Z.of_N v) (Z.of_N m)) as [n d]. cbn [fst snd] in L1.
  unfold to_byte.
  destruct (fl_frac (n * 255) d) as [n2 d2] eqn:E2. destruct C as (P1 & P2 & P3 & P4 & C1 & C2).
  assert (L2 := fl_frac_le (n * 255)%Z d 255 ltac:(lia) P2 ltac:(lia) ltac:(lia)).
  rewrite E2 in L2. cbn [fst snd] in L2.
  split; [lia |]. destruct (Z.eqb_spec n 0) as [C | _]; [lia |].
  assert (E := Z.div_mod n2 d2 ltac:(lia)). assert (M := Z.mod_pos_bound n2 d2 P4).
  assert (T0 : (0 <= n2 / d2)%Z) by (apply Z.div_pos; lia).
  assert (T1 : (n2 / d2 <= 255)%Z).
  { apply Z.lt_succ_r. apply Z.div_lt_upper_bound; lia. }
  set (t := (n2 / d2)%Z) in *. clearbody t.
  destruct (Z.leb_spec t 255); [| lia]. exists (Z.to_N t). split; [reflexivity |].
  assert (R1 : (t * Z.of_N m * 2 ^ 48 <= 255 * Z.of_N v * ((2 ^ 24 + 1) * (2 ^ 24 + 1)))%Z).
  { apply (Z.mul_le_mono_pos_r _ _ d2 P4).
    transitivity (n2 * Z.of_N m * 2 ^ 48)%Z; [| lia].
    replace (t * Z.of_N m * 2 ^ 48 * d2)%Z with (t * d2 * (Z.of_N m * 2 ^ 48))%Z by ring.
    replace (n2 * Z.of_N m * 2 ^ 48)%Z with (n2 * (Z.of_N m * 2 ^ 48))%Z by ring.
    apply Z.mul_le_mono_nonneg_r; lia. }
  assert (R2 : (255 * Z.of_N v * ((2 ^ 24 - 1) * (2 ^ 24 - 1)) <= (t + 1) * Z.of_N m * 2 ^ 48)%Z).
  { apply (Z.mul_le_mono_pos_r _ _ d2 P4).
    transitivity (n2 * Z.of_N m * 2 ^ 48)%Z; [lia |].
    replace ((t + 1) * Z.of_N m * 2 ^ 48 * d2)%Z with ((t + 1) * d2 * (Z.of_N m * 2 ^ 48))%Z by ring.
    replace (n2 * Z.of_N m * 2 ^ 48)%Z with (n2 * (Z.of_N m * 2 ^ 48))%Z by ring.
    apply Z.mul_le_mono_nonneg_r; lia. }
  clear - R1 R2 Hv Hm Hs T0 T1. unfold rescaled.
  assert (T : Z.of_N (Z.to_N t) = t) by lia. set (tn := Z.to_N t) in *. clearbody tn. subst t.
  rewrite <- N2Z.inj_mul in R1.
  replace ((Z.of_N tn + 1) * Z.of_N m)%Z with (Z.of_N ((tn + 1) * m)) in R2 by lia.
  generalize dependent (tn * m). generalize dependent ((tn + 1) * m). intros a Ha b Hb.
  destruct Hs as [-> | [-> Hs]]; lia.
Qed.

Lemma sample8_rescaled : forall m v, 1 <= m <= 255 -> v <= m ->
  exists t, sample8 m v = Ok t /\ rescaled 0 m v t.
Proof.
  intros m v Hm Hv. unfold sample8. destruct (N.eqb_spec m 0); [lia |].
  destruct (N.eqb_spec v 0) as [-> | Hv0].
  - exists 0. split; [reflexivity |]. unfold rescaled. lia.
  - assert (T := to_byte_rescaled v m 0 ltac:(lia) ltac:(lia) ltac:(lia)).
    destruct (fl_frac (Z.of_N v) (Z.of_N m)) as [a b]. apply T.
Qed.

Lemma sample_clamp_rescaled : forall m v, 1 <= m <= 65535 -> v <= m ->
  exists t, sample_clamp m v = Ok t /\ rescaled 2 m v t.
Proof.
  intros m v Hm Hv. unfold sample_clamp. destruct (N.eqb_spec m 0); [lia |].
  destruct (N.eqb_spec v 0) as [-> | Hv0].
  - exists 0. split; [reflexivity |]. unfold rescaled. lia.
  - assert (T := to_byte_rescaled v m 2 ltac:(lia) ltac:(lia) ltac:(lia)).
    destruct (fl_frac (Z.of_N v) (Z.of_N m)) as [a b]. destruct T as [L T].
    destruct (Z.ltb_spec b a); [lia | exact T].
Qed.

Lemma sample8_exact : forall v, v <= 255 -> sample8 255 v = Ok v.
Proof.
  assert (H : forallb (fun v => match sample8 255 (N.of_nat v) with Ok t => t =? N.of_nat v | _ => false end)
    (seq 0 256) = true) by (vm_compute; reflexivity).
  intros v Hv. rewrite forallb_forall in H. specialize (H (N.to_nat v)).
  rewrite in_seq, N2Nat.id in H. specialize (H ltac:(lia)).
  destruct (sample8 255 v) as [t | |]; try discriminate. apply N.eqb_eq in H. now subst.
Qed.

(* ---- pixels and rows ---- *)

Fixpoint words (l : list N) : list N :=
  match l with
  | r :: g :: b :: l => px_make r g b :: words l
  | _ => []
  end.

Lemma words_length : forall n ts, length ts = (3 * n)%nat -> length (words ts) = n.
Proof.
  induction n as [| n IH]; intros ts L.
  - destruct ts; [reflexivity | discriminate].
  - destruct ts as [| a [| b [| c ts]]]; cbn [length] in L; try lia. cbn [words length].
    f_equal. apply IH. lia.
Qed.

Lemma words_app : forall n l1 l2, length l1 = (3 * n)%nat -> words (l1 ++ l2) = words l1 ++ words l2.
Proof.
  induction n as [| n IH]; intros l1 l2 L.
  - destruct l1; [reflexivity | discriminate].
  - destruct l1 as [| a [| b [| c l1]]]; cbn [length] in L; try lia. cbn [words app].
    f_equal. apply IH. lia.
Qed.

Lemma Forall2_len : forall A B (P : A -> B -> Prop) l l', Forall2 P l l' -> length l = length l'.
Proof. intros A B P l l' H. induction H; cbn; congruence. Qed.

Section Rows.
  Variable V : Type.
  Variable enc : V -> list N.
  Variable es : nat.
  Variable next : list N -> res (N * list N).
  Variable S : V -> N -> Prop.
  Hypothesis Hlen : forall v, length (enc v) = es.
  Hypothesis Hnext : forall v t l, S v t -> next (enc v ++ l) = Ok (t, l).

  Lemma read_pixels_ok : forall n vs ts l buf idx, Forall2 S vs ts -> length vs = (3 * n)%nat ->
    (0 <= idx)%Z -> (idx + Z.of_nat n <= Z.of_nat (length buf))%Z ->
    read_pixels next n (flat_map enc vs ++ l) buf idx =
      Ok (firstn (Z.to_nat idx) buf ++ words ts ++ skipn (Z.to_nat idx + n) buf,
          (idx + Z.of_nat n)%Z, l).
  Proof using Hnext Hlen.
    induction n as [| n IH]; intros vs ts l buf idx F L H0 H1.
    - destruct vs; [| discriminate]. inversion F; subst. cbn [flat_map app words read_pixels].
      rewrite Nat.add_0_r, firstn_skipn. replace (idx + Z.of_nat 0)%Z with idx by lia. reflexivity.
    - destruct vs as [| r [| g [| b vs]]]; cbn [length] in L; try lia.
      inversion F as [| ? r' ? t1 Sr F1]; subst. inversion F1 as [| ? g' ? t2 Sg F2]; subst.
      inversion F2 as [| ? b' ? t3 Sb F3]; subst.
      cbn [flat_map read_pixels]. rewrite <- !app_assoc.
      rewrite (Hnext r r' _ Sr). cbn [bind]. rewrite (Hnext g g' _ Sg). cbn [bind].
      rewrite (Hnext b b' _ Sb). cbn [bind].
      rewrite upd_ok by lia. cbn [bind].
      set (buf' := firstn (Z.to_nat idx) buf ++ px_make r' g' b' :: skipn (Datatypes.S (Z.to_nat idx)) buf).
      assert (Lf : length (firstn (Z.to_nat idx) buf) = Z.to_nat idx) by (rewrite firstn_length; lia).
      assert (Lb : length buf' = length buf)
        by (unfold buf'; rewrite app_length; cbn [length]; rewrite skipn_length; lia).
      rewrite (IH vs t3 l buf' (idx + 1)%Z F3) by lia.
      replace (Z.to_nat (idx + 1)) with (Datatypes.S (Z.to_nat idx)) by lia.
      cbn [words].
      replace (idx + 1 + Z.of_nat n)%Z with (idx + Z.of_nat (Datatypes.S n))%Z by lia. do 3 f_equal.
      unfold buf'. rewrite firstn_app, Lf.
      replace (Datatypes.S (Z.to_nat idx) - Z.to_nat idx)%nat with 1%nat by lia.
      rewrite firstn_all2 by lia. cbn [firstn]. rewrite <- app_assoc. cbn [app].
      do 3 f_equal. rewrite skipn_app, Lf. rewrite skipn_all2 by lia. cbn [app].
      replace (Datatypes.S (Z.to_nat idx) + n - Z.to_nat idx)%nat with (Datatypes.S n) by lia.
      rewrite skipn_cons, skipn_skipn. f_equal. lia.
  Qed.

  Lemma enc_length : forall vs, length (flat_map enc vs) = (length vs * es)%nat.
  Proof using Hlen Hnext.
    induction vs as [| v vs IH]; [reflexivity |]. cbn [flat_map length Nat.mul].
    rewrite app_length, Hlen, IH. lia.
  Qed.

  (* k complete rows of w pixels, of which at most h are read *)
  Lemma read_rows_ok : forall h k w vs ts trail size buf idx,
    (1 <= w)%nat -> (1 <= es)%nat -> size = N.of_nat (3 * w * es) ->
    Forall2 S vs ts -> length vs = (3 * w * k)%nat ->
    (k <= h)%nat -> (k = h \/ N.of_nat (length trail) < size) ->
    (0 <= idx)%Z -> (idx + Z.of_nat (w * k) <= Z.of_nat (length buf))%Z ->
    read_rows next size h w (flat_map enc vs ++ trail) buf idx =
      Ok (firstn (Z.to_nat idx) buf ++ words ts ++ skipn (Z.to_nat idx + w * k) buf,
          (idx + Z.of_nat (w * k))%Z).
  Proof using Hnext Hlen.
    induction h as [| h IH]; intros k w vs ts trail size buf idx Hw Hes Hsize F L Hk Ht H0 H1.
    - assert (k = 0%nat) as -> by lia. rewrite Nat.mul_0_r in *. destruct vs; [| discriminate].
      inversion F; subst. cbn [read_rows words app]. rewrite Nat.add_0_r, firstn_skipn. do 2 f_equal. lia.
    - cbn [read_rows].
      assert (Hpos : 0 < size) by (rewrite Hsize; nia).
      destruct (N.eqb_spec size 0); [lia |]. cbn [orb].
      destruct k as [| k].
      + rewrite Nat.mul_0_r in *. destruct vs; [| discriminate]. inversion F; subst. cbn [flat_map app words].
        destruct Ht as [| Ht]; [lia |]. destruct (N.ltb_spec (N.of_nat (length trail)) (N.of_nat (3 * w * es))); [| lia].
        rewrite Nat.add_0_r, firstn_skipn. do 2 f_equal. lia.
      + assert (Lrow : (3 * w <= length vs)%nat) by nia.
        rewrite <- (firstn_skipn (3 * w) vs) in F.
        apply Forall2_app_inv_l in F. destruct F as (t1 & t2 & F1 & F2 & ->).
        assert (L1 : length (firstn (3 * w) vs) = (3 * w)%nat) by (rewrite firstn_length; lia).
        assert (L2 : length (skipn (3 * w) vs) = (3 * w * k)%nat) by (rewrite skipn_length; nia).
        assert (Lt1 : length t1 = (3 * w)%nat) by (rewrite <- (Forall2_len _ _ _ _ _ F1); exact L1).
        assert (Eb : flat_map enc vs ++ trail =
          flat_map enc (firstn (3 * w) vs) ++ flat_map enc (skipn (3 * w) vs) ++ trail).
        { rewrite app_assoc, <- flat_map_app, firstn_skipn. reflexivity. }
        assert (Lr : length (flat_map enc (firstn (3 * w) vs)) = N.to_nat size)
          by (rewrite enc_length, L1, Hsize; lia).
        rewrite Eb. destruct (N.ltb_spec (N.of_nat (length (flat_map enc (firstn (3 * w) vs) ++
          flat_map enc (skipn (3 * w) vs) ++ trail))) size) as [C | _].
        { rewrite app_length, Lr in C. lia. }
        rewrite firstn_app, Lr, Nat.sub_diag, firstn_all2 by lia. cbn [firstn].
        rewrite (read_pixels_ok w (firstn (3 * w) vs) t1 [] buf idx F1) by (try lia; nia).
        cbn [bind]. rewrite skipn_app, Lr, Nat.sub_diag, skipn_all2 by lia. cbn [skipn app].
        set (buf' := firstn (Z.to_nat idx) buf ++ words t1 ++ skipn (Z.to_nat idx + w) buf).
        assert (Lf : length (firstn (Z.to_nat idx) buf) = Z.to_nat idx) by (rewrite firstn_length; nia).
        assert (Lw1 := words_length w t1 Lt1).
        assert (Lb : length buf' = length buf)
          by (unfold buf'; rewrite !app_length, skipn_length, Lf, Lw1; nia).
        rewrite (IH k w (skipn (3 * w) vs) t2 trail size buf' (idx + Z.of_nat w)%Z); try assumption; try lia; try nia.
        replace (Z.to_nat (idx + Z.of_nat w)) with (Z.to_nat idx + w)%nat by lia.
        rewrite (words_app w t1 t2 Lt1). f_equal. f_equal; [| nia].
        unfold buf'. rewrite firstn_app, Lf. replace (Z.to_nat idx + w - Z.to_nat idx)%nat with w by lia.
        rewrite (firstn_all2 (firstn (Z.to_nat idx) buf)) by lia.
        rewrite firstn_app, Lw1, Nat.sub_diag. rewrite (firstn_all2 (words t1)) by lia. cbn [firstn].
        rewrite app_nil_r, <- !app_assoc. do 3 f_equal.
        rewrite skipn_app, Lf. rewrite (skipn_all2 (firstn (Z.to_nat idx) buf)) by lia. cbn [app].
        replace (Z.to_nat idx + w + w * k - Z.to_nat idx)%nat with (w + w * k)%nat by lia.
        rewrite skipn_app, Lw1. rewrite (skipn_all2 (words t1)) by lia. cbn [app].
        rewrite skipn_skipn. f_equal. lia.
  Qed.
End Rows.

Lemma px_make_colour : forall r g b, r <= 255 -> g <= 255 -> b <= 255 -> px_make r g b = colour r g b.
Proof.
  intros r g b Hr Hg Hb. unfold px_make, colour.
  rewrite (lor_shiftl_add 255 r 8) by lia.
  rewrite (lor_shiftl_add (255 + r * 2 ^ 8) g 16) by lia.
  rewrite (lor_shiftl_add (255 + r * 2 ^ 8 + g * 2 ^ 16) b 24) by lia. lia.
Qed.

Lemma decoded_words : forall (R : N -> N -> Prop) n vs ts,
  (forall v t, R v t -> t <= 255) -> Forall2 R vs ts -> length vs = (3 * n)%nat -> decoded R vs (words ts).
Proof.
  intros R n. induction n as [| n IH]; intros vs ts HR F L.
  - destruct vs; [| discriminate]. inversion F; subst. constructor.
  - destruct vs as [| r [| g [| b vs]]]; cbn [length] in L; try lia.
    inversion F as [| ? r' ? t1 Sr F1]; subst. inversion F1 as [| ? g' ? t2 Sg F2]; subst.
    inversion F2 as [| ? b' ? t3 Sb F3]; subst. cbn [words].
    rewrite px_make_colour by (eapply HR; eassumption).
    constructor; try assumption. apply IH; [exact HR | exact F3 | lia].
Qed.

Lemma Forall2_exists : forall A B (P : A -> B -> Prop) l, (forall a, In a l -> exists b, P a b) ->
  exists l', Forall2 P l l'.
Proof.
  intros A B P l H. induction l as [| a l IH]; [exists []; constructor |].
  destruct (H a (or_introl eq_refl)) as [b Hb]. destruct IH as [l' Hl']; [intros; apply H; now right |].
  exists (b :: l'). constructor; assumption.
Qed.

(* ---- header ---- *)

Lemma ppm_read_header : forall kind w h m s1 s2 s3 s4 body buf,
  separators s1 s2 s3 s4 -> w < 2 ^ 32 -> h < 2 ^ 32 -> m < 2 ^ 16 -> kind = 51 \/ kind = 54 ->
  ppm_read (ppm_file kind w h m s1 s2 s3 s4 body) buf =
    (if kind =? 51 then
       let! buf := read_ascii (N.to_nat (u32 (w * h))) m (s4 :: body, None, None) buf 0 in Ok (buf, true)
     else
       let! (buf, idx) :=
         if m <=? 255
         then read_rows (next8 m) (u32 (w * 3)) (N.to_nat h) (N.to_nat w) body buf 0
         else read_rows (next16 m) (2 * u32 (w * 3)) (N.to_nat h) (N.to_nat w) body buf 0 in
       Ok (buf, (idx =? Z.of_N (u32 (w * h)))%Z)).
Proof.
  intros kind w h m s1 s2 s3 s4 body buf (B1 & B2 & N2 & B3 & N3 & B4) Hw Hh Hm Hk.
  unfold ppm_file, ppm_read. cbn [app].
  change (negb (80 =? 80)) with false. cbn match.
  replace (negb ((kind =? 51) || (kind =? 54))) with false
    by (destruct Hk as [-> | ->]; reflexivity). cbn match.
  rewrite (scan_uint_dec (2 ^ 32) s1 w) by (try assumption; now apply stops_blank).
  rewrite (scan_uint_dec (2 ^ 32) s2 h) by (try assumption; now apply stops_blank).
  rewrite (scan_uint_dec (2 ^ 16) s3 m) by (try assumption; cbn; now apply blank_digit).
  cbn [bind skipn]. reflexivity.
Qed.

Lemma ppm_dimensions_header : forall kind w h m s1 s2 s3 s4 body,
  separators s1 s2 s3 s4 -> w < 2 ^ 31 -> h < 2 ^ 31 -> kind = 51 \/ kind = 54 ->
  ppm_dimensions (ppm_file kind w h m s1 s2 s3 s4 body) = Ok (Some (w, h)).
Proof.
  intros kind w h m s1 s2 s3 s4 body (B1 & B2 & N2 & B3 & N3 & B4) Hw Hh Hk.
  unfold ppm_file, ppm_dimensions. cbn [app ppm_magic skipn].
  replace ((kind =? 51) || (kind =? 54)) with true by (destruct Hk as [-> | ->]; reflexivity).
  cbn [bind negb N.eqb andb Pos.eqb].
  rewrite (scan_uint_dec (2 ^ 31) s1 w) by (try assumption; now apply stops_blank).
  rewrite (scan_uint_dec (2 ^ 31) s2 h) by (try assumption; now apply stops_blank). reflexivity.
Qed.

(* ---- ASCII ---- *)

Lemma take_word_app : forall d n r, Forall (fun c => is_digit c = true) d -> (length d <= n)%nat ->
  match r with [] => True | c :: _ => is_space c = true end ->
  take_word n (d ++ r) = (d, r).
Proof.
  intros d n r F. revert n. induction F as [| c d Hc _ IH]; intros n L Hr.
  - destruct n as [| n]; [reflexivity |]. destruct r as [| c r]; [reflexivity |].
    cbn [app take_word]. now rewrite Hr.
  - destruct n as [| n]; cbn [length] in L; [lia |]. cbn [app take_word].
    rewrite (digit_space c Hc). rewrite (IH n) by (try assumption; lia). reflexivity.
Qed.

Lemma next_ascii_ok : forall m s v s' r val num t, Forall blank s -> Forall blank s' -> s' <> [] ->
  v < 65536 -> sample_clamp m v = Ok t ->
  next_ascii m (s ++ dec v ++ s' ++ r, val, num) = Ok (t, (s' ++ r, Some (dec v), Some v)).
Proof.
  intros m s v s' r val num t B B' Ne Hv Ht. unfold next_ascii, scan_word.
  rewrite skip_space_app, skip_space_digits by exact B.
  destruct (dec_spec v) as (F & Nd & Vd & L).
  rewrite take_word_app.
  - destruct (dec v) as [| c d] eqn:E; [congruence |]. rewrite <- E in *.
    assert (X := scan_uint_dec (2 ^ 16) [] v [] ltac:(constructor) ltac:(lia) I).
    cbn [app] in X. rewrite app_nil_r in X. rewrite X. cbn [bind]. rewrite Ht. reflexivity.
  - exact F.
  - apply (L 4%nat). change (10 ^ N.of_nat 5) with 100000. lia.
  - destruct B' as [| c s' Hc]; [congruence |]. cbn. now apply blank_space.
Qed.

Definition ascii_body (items : list (N * list N)) : list N :=
  flat_map (fun p => dec (fst p) ++ snd p) items.

Lemma read_ascii_ok : forall n m s items ts val num buf idx,
  Forall blank s -> Forall (fun p => Forall blank (snd p) /\ snd p <> [] /\ fst p < 65536) items ->
  Forall2 (fun v t => sample_clamp m v = Ok t) (map fst items) ts ->
  length items = (3 * n)%nat -> (0 <= idx)%Z -> (idx + Z.of_nat n <= Z.of_nat (length buf))%Z ->
  read_ascii n m (s ++ ascii_body items, val, num) buf idx =
    Ok (firstn (Z.to_nat idx) buf ++ words ts ++ skipn (Z.to_nat idx + n) buf).
Proof.
  induction n as [| n IH]; intros m s items ts val num buf idx B FI F L H0 H1.
  - destruct items; [| discriminate]. inversion F; subst. cbn [read_ascii words app].
    now rewrite Nat.add_0_r, firstn_skipn.
  - destruct items as [| [r sr] [| [g sg] [| [b sb] items]]]; cbn [length] in L; try lia.
    cbn [map fst] in F.
    inversion F as [| ? r' ? t1 Sr F1]; subst. inversion F1 as [| ? g' ? t2 Sg F2]; subst.
    inversion F2 as [| ? b' ? t3 Sb F3]; subst.
    inversion FI as [| ? ? (Br & Nr & Hr) FI1]; subst. inversion FI1 as [| ? ? (Bg & Ng & Hg) FI2]; subst.
    inversion FI2 as [| ? ? (Bb & Nb & Hb) FI3]; subst. cbn [fst snd] in *.
    unfold ascii_body. cbn [flat_map fst snd]. fold (ascii_body items). rewrite <- !app_assoc.
    cbn [read_ascii].
    rewrite (next_ascii_ok m s r sr _ val num r') by assumption. cbn [bind].
    rewrite (next_ascii_ok m sr g sg _ _ _ g') by assumption. cbn [bind].
    rewrite (next_ascii_ok m sg b sb _ _ _ b') by assumption. cbn [bind].
    rewrite upd_ok by lia. cbn [bind].
    set (buf' := firstn (Z.to_nat idx) buf ++ px_make r' g' b' :: skipn (S (Z.to_nat idx)) buf).
    assert (Lf : length (firstn (Z.to_nat idx) buf) = Z.to_nat idx) by (rewrite firstn_length; lia).
    assert (Lb : length buf' = length buf)
      by (unfold buf'; rewrite app_length; cbn [length]; rewrite skipn_length; lia).
    rewrite (IH m sb items t3 _ _ buf' (idx + 1)%Z) by (try assumption; lia).
    replace (Z.to_nat (idx + 1)) with (S (Z.to_nat idx)) by lia.
    cbn [words]. f_equal. unfold buf'. rewrite firstn_app, Lf.
    replace (S (Z.to_nat idx) - Z.to_nat idx)%nat with 1%nat by lia.
    rewrite firstn_all2 by lia. cbn [firstn]. rewrite <- app_assoc. cbn [app].
    do 3 f_equal. rewrite skipn_app, Lf. rewrite skipn_all2 by lia. cbn [app].
    replace (S (Z.to_nat idx) + n - Z.to_nat idx)%nat with (S n) by lia.
    rewrite skipn_cons, skipn_skipn. f_equal. lia.
Qed.

(* ---- writer ---- *)

Lemma write_pixels_ok : forall n i data, (0 <= i)%Z -> (i + Z.of_nat n <= Z.of_nat (length data))%Z ->
  ppm_write_pixels n i data = Ok (flat_map px_bytes (firstn n (skipn (Z.to_nat i) data))).
Proof.
  induction n as [| n IH]; intros i data H0 H1; [reflexivity |]. cbn [ppm_write_pixels].
  destruct (rd_ok _ data i) as (p & Ep & En); [lia |]. rewrite Ep. cbn [bind].
  rewrite IH by lia. cbn [bind]. do 2 f_equal.
  assert (E : skipn (Z.to_nat i) data = p :: skipn (Z.to_nat (i + 1)) data).
  { replace (Z.to_nat (i + 1)) with (S (Z.to_nat i)) by lia. clear - En.
    revert data En. induction (Z.to_nat i) as [| k IHk]; intros [| a data] En; try discriminate.
    - injection En as ->. reflexivity.
    - cbn [skipn]. rewrite (IHk data En). reflexivity. }
  rewrite E. cbn [firstn flat_map]. reflexivity.
Qed.
