(* Diffuse surfaces in single precision: sampled directions and the power of a path. *)
From Coq Require Import ZArith Reals List Lra Psatz Lia Bool.
From Flocq Require Import Core.Core IEEE754.BinarySingleNaN.
From Verif Require Import Common FltModel FltFacts FltProps FExtFacts FRayModel FSphereProps FBoxMarginProps FMatBoundProps FFilmProps FFresProps FFresNearProps FTexModel FTexProps FSpecModel FSpecNearProps FNearFacts FMisProps FGgxProps FOrenModel FOrenProps FltVecProps FShadeModel FShadeProps FVecEqModel FVecEqProps FFaceProps FDiffModel.
Local Open Scope R_scope.

Lemma root_square : forall m, fin m -> 0 <= val m <= 2 -> fin (fsqrt m) /\ 0 <= val (fsqrt m) /\ Rabs (val (fsqrt m) * val (fsqrt m) - val m) <= 8 * u24.
Proof.
  intros m F M. destruct (fsqrt_val m F) as (FS & VS); [lra|]. split; [exact FS|]. assert (P : 0 <= sqrt (val m)) by apply sqrt_pos. assert (Q : sqrt (val m) * sqrt (val m) = val m) by (apply sqrt_sqrt; lra).
  pose proof (rnd_nonneg _ P) as N. rewrite <- VS in N. split; [exact N|]. pose proof (rerr (sqrt (val m))) as E. rewrite <- VS in E. set (q := sqrt (val m)) in *. clearbody q. set (z := val (fsqrt m)) in *. clearbody z.
  assert (QL : q <= 3 / 2) by nra. rewrite (Rabs_pos_eq q) in E by exact P. destruct h150_u24 as (H0 & H1). rewrite <- Q. replace (z * z - q * q) with ((z - q) * (z + q)) by ring.
  assert (D : Rabs (z - q) <= 2 * u24). { eapply Rle_trans; [exact E|]. unfold u24 in *. lra. } assert (S : Rabs (z + q) <= 4) by (apply Rabs_le; apply abs_both in D; unfold u24 in D; lra).
  rewrite Rabs_mult. replace (8 * u24) with (2 * u24 * 4) by ring. apply Rmult_le_compat; try apply Rabs_pos; assumption.
Qed.

(* a coordinate *)
Lemma coord_near : forall r c q, near r q 1 (3 / 2) -> 0 <= q <= 1 -> fin c -> -1 <= val c <= 1 -> near (fmul r c) (q * val c) 1 (13 / 4).
Proof.
  intros r c q NR Q FC C. apply (near_weaken _ _ 1 (3 / 2 * 1 + 0 * 1 + 1 + 3 / 4)); [|lra|lra]. apply (near_mul _ _ _ _ 1 1); try assumption; try lra; [apply near_exact; [exact FC|apply Rabs_le; lra]|]. apply Rabs_le. nra.
Qed.

Lemma square_sum : forall x y a b p, Rabs (x - a) <= 13 / 4 * u24 -> Rabs (y - b) <= 13 / 4 * u24 -> -1 <= a <= 1 -> -1 <= b <= 1 -> a * a + b * b <= p -> x * x + y * y <= p + 14 * u24.
Proof.
  intros x y a b p X Y A B P. apply abs_both in X, Y.
  assert (K : forall t d, -1 <= d <= 1 -> - (13 / 4 * u24) <= t - d <= 13 / 4 * u24 -> t * t <= d * d + 7 * u24).
  { clear. intros t d D T. replace (t * t) with (d * d + 2 * d * (t - d) + (t - d) * (t - d)) by ring. assert (d * (t - d) <= 13 / 4 * u24) by (unfold u24 in *; nra). assert ((t - d) * (t - d) <= / 2 * u24) by (unfold u24 in *; nra). lra. }
  pose proof (K x a A X). pose proof (K y b B Y). lra.
Qed.

Lemma height : forall x y, fin x -> fin y -> val x * val x + val y * val y <= 1 + 2 / 1000000 ->
  let z := fsqrt (fmax fzero (fsub (fsub fone (fmul x x)) (fmul y y))) in
  fin z /\ 0 <= val z <= 1001 / 1000 /\ Rabs (val x * val x + val y * val y + val z * val z - 1) <= 3 / 1000000.
Proof.
  intros x y FX FY L. cbv zeta. assert (X : Rabs (val x) <= 1001 / 1000) by (apply Rabs_le; nra). assert (Y : Rabs (val y) <= 1001 / 1000) by (apply Rabs_le; nra).
  pose proof (prod_near x x FX FX X X) as PX. pose proof (prod_near y y FY FY Y Y) as PY. set (a := val x * val x) in *. set (b := val y * val y) in *. assert (A : 0 <= a) by (unfold a; nra). assert (B : 0 <= b) by (unfold b; nra). clearbody a b.
  assert (N1 : near (fsub fone (fmul x x)) (1 - a) (11 / 10) 4) by (apply (near_weaken _ _ (11 / 10) (0 + 2 + 11 / 10 + / 2)); [|lra|lra]; apply (near_sub _ _ _ _ 1 (11 / 10)); try apply near_one; try assumption; try lra; apply Rabs_le; lra).
  assert (N2 : near (fsub (fsub fone (fmul x x)) (fmul y y)) (1 - a - b) (11 / 10) 8) by (apply (near_weaken _ _ (11 / 10) (4 + 2 + 11 / 10 + / 2)); [|lra|lra]; apply (near_sub _ _ _ _ (11 / 10) (11 / 10)); try assumption; try lra; apply Rabs_le; lra).
  set (q := fsub (fsub fone (fmul x x)) (fmul y y)) in *. clearbody q. destruct N2 as (FQ & EQ & _). destruct (max_zero q FQ) as (FM & VM). set (m := fmax fzero q) in *. clearbody m. apply abs_both in EQ. unfold u24 in EQ.
  assert (M : 0 <= val m <= 2) by (rewrite VM; split; [apply Rmax_l|apply Rmax_lub; lra]). destruct (root_square m FM M) as (FZ & Z0 & EZ). set (z := fsqrt m) in *. clearbody z. apply abs_both in EZ. unfold u24 in EZ.
  assert (D : val m <= 1 - a - b + 3 / 1000000 - 1 / 1000000 /\ 1 - a - b - / 1000000 <= val m) by (rewrite VM; split; [apply Rmax_lub; lra|apply Rle_trans with (val q); [lra|apply Rmax_r]]).
  split; [exact FZ|]. split; [split; [exact Z0|nra]|]. apply Rabs_le. lra.
Qed.

Lemma dir_parts : forall wo r1 c s, fin (fz wo) -> fin r1 -> 0 <= val r1 <= 1 -> fin c -> fin s -> -1 <= val c <= 1 -> -1 <= val s <= 1 -> val c * val c + val s * val s <= 1 + / 1000000 ->
  let d := f_diffuse_dir wo r1 c s in let q := sqrt (val r1) in
  vfin d /\ Rabs (length2 d - 1) <= 3 / 1000000 /\ Rabs (val (fx d) - q * val c) <= 13 / 4 * u24 /\ Rabs (val (fy d) - q * val s) <= 13 / 4 * u24 /\
  (val (fz wo) < 0 -> val (fz d) <= 0) /\ (0 <= val (fz wo) -> 0 <= val (fz d)) /\ Rabs (val (fz d)) <= 1001 / 1000.
Proof.
  intros wo r1 c s FW F1 R1 FC FS C S L. cbv zeta. destruct (fsqrt_val r1 F1) as (FR & VR); [lra|]. assert (Q : 0 <= sqrt (val r1) <= 1) by (apply sqrt_unit; exact R1). unfold f_diffuse_dir. cbv zeta. unfold vfin, length2. cbn [fx fy fz].
  set (q := sqrt (val r1)) in *. clearbody q. set (r := fsqrt r1) in *. clearbody r.
  assert (NR : near r q 1 (3 / 2)).
  { apply (near_weaken _ _ 1 (0 + 1 + / 2)); [|lra|lra]. apply (near_round _ q); [exact FR|exact VR| | |lra]; [rewrite Rminus_diag_eq, Rabs_R0 by reflexivity; lra|apply Rabs_le; lra]. }
  destruct (coord_near r c q NR Q FC C) as (FX & EX & _). destruct (coord_near r s q NR Q FS S) as (FY & EY & _). set (x := fmul r c) in *. set (y := fmul r s) in *. clearbody x y. clear NR FR VR r.
  assert (P : val x * val x + val y * val y <= 1 + 2 / 1000000).
  { pose proof (square_sum _ _ (q * val c) (q * val s) (1 + / 1000000) EX EY) as K. assert (KC : -1 <= q * val c <= 1) by nra. assert (KS : -1 <= q * val s <= 1) by nra.
    assert (KL : q * val c * (q * val c) + q * val s * (q * val s) <= 1 + / 1000000). { replace (q * val c * (q * val c) + q * val s * (q * val s)) with (q * q * (val c * val c + val s * val s)) by ring. assert (q * q <= 1) by nra. assert (0 <= q * q) by nra. assert (0 <= val c * val c + val s * val s) by nra. nra. }
    specialize (K KC KS KL). unfold u24 in K. lra. }
  destruct (height x y FX FY P) as (FZ & Z & E). set (z := fsqrt (fmax fzero (fsub (fsub fone (fmul x x)) (fmul y y)))) in *. clearbody z. destruct fzero_val as (F0 & V0). pose proof (flt_val _ _ FW F0) as T. rewrite V0 in T.
  destruct (flt (fz wo) fzero).
  - assert (W : val (fz wo) < 0) by (apply T; reflexivity). assert (N : fin (of_Z (-1)) /\ val (of_Z (-1)) = -1) by (apply of_Z_exact; lia). destruct N as (FN & VN).
    destruct (fmul_val z _ FZ FN) as (FM & VM). { rewrite VN. apply (small_127 _ 1); [lia|]. cbn. apply Rabs_le. lra. } rewrite VN in VM. replace (val z * -1) with (- val z) in VM by ring. rewrite rnd_fits in VM by (apply fits_opp, fits_val).
    rewrite VM. split; [exact (conj FX (conj FY FM))|]. split; [replace (- val z * - val z) with (val z * val z) by ring; exact E|]. split; [exact EX|]. split; [exact EY|]. split; [intros _; lra|]. split; [intro; lra|]. rewrite Rabs_Ropp. apply Rabs_le. lra.
  - assert (W : 0 <= val (fz wo)) by (apply Rnot_lt_le; intro K; apply T in K; discriminate K).
    split; [exact (conj FX (conj FY FZ))|]. split; [exact E|]. split; [exact EX|]. split; [exact EY|]. split; [intro; lra|]. split; [intros _; lra|]. apply Rabs_le. lra.
Qed.

(* Directions sampled on a diffuse surface, for all random numbers and any cosine and sine of the
   library whose squares add up to at most 1 + 1e-6: length 1 up to 3e-6 (so that normalising leaves
   them alone), the root of r1 from the normal, on the side of the other direction. *)
Theorem float_diffuse_dir : forall wo r1 c s, fin (fz wo) -> fin r1 -> 0 <= val r1 <= 1 -> fin c -> fin s -> -1 <= val c <= 1 -> -1 <= val s <= 1 -> val c * val c + val s * val s <= 1 + / 1000000 ->
  let d := f_diffuse_dir wo r1 c s in let q := sqrt (val r1) in
  vfin d /\ Rabs (length2 d - 1) <= 3 / 1000000 /\ f_normalize d = d /\
  Rabs (val (fx d) - q * val c) <= / 4000000 /\ Rabs (val (fy d) - q * val s) <= / 4000000 /\
  (val (fz wo) < 0 -> val (fz d) <= 0) /\ (0 <= val (fz wo) -> 0 <= val (fz d)).
Proof.
  intros wo r1 c s FW F1 R1 FC FS C S L. cbv zeta. destruct (dir_parts wo r1 c s FW F1 R1 FC FS C S L) as (F & E & X & Y & N & P & _). cbv zeta in *. set (d := f_diffuse_dir wo r1 c s) in *. clearbody d.
  split; [exact F|]. split; [exact E|]. split; [|split; [unfold u24 in X; lra|split; [unfold u24 in Y; lra|split; assumption]]].
  unfold f_normalize. fold (f_is_normalized d). rewrite counts; [reflexivity|exact F|lra].
Qed.
Print Assumptions float_diffuse_dir.

(* r1 = 1/4 straight along the first axis: 1/2, 0 and the root of 3/4, above and below *)
Example diffuse_dir_case :
  let up := mk_fvec fzero fzero fone in let down := mk_fvec fzero fzero (of_Z (-1)) in
  B2SF (fx (f_diffuse_dir up (fnum 1 (-2)) fone fzero)) = B2SF (fnum 1 (-1)) /\ B2SF (fz (f_diffuse_dir up (fnum 1 (-2)) fone fzero)) = SpecFloat.S754_finite false 14529495 (-24) /\
  B2SF (fz (f_diffuse_dir down (fnum 1 (-2)) fone fzero)) = SpecFloat.S754_finite true 14529495 (-24).
Proof. repeat split; vm_compute; reflexivity. Qed.

Lemma inv_pi_val : fin f_inv_pi /\ val f_inv_pi = 10680707 / 33554432 /\ f_diffuse = f_inv_pi.
Proof. split; [reflexivity|]. split; [unfold f_inv_pi; erewrite lit_val by (vm_compute; reflexivity); cbn; lra|]. apply same_float; [reflexivity|reflexivity| |]; [|unfold f_inv_pi; erewrite lit_val by (vm_compute; reflexivity); cbn; lra]. unfold f_diffuse. erewrite lit_val by (vm_compute; reflexivity). unfold f_inv_pi. erewrite lit_val by (vm_compute; reflexivity). reflexivity. Qed.

(* the quotient, over the reals *)
Lemma power_real : forall P z k num den dz, 3183 / 10000 <= P <= 3184 / 10000 -> / 64 <= z <= 1001 / 1000 -> 0 <= k <= 1 -> 0 <= dz <= 51 / 100000 ->
  Rabs (num - P * k * z) <= 3184 / 10000 * dz + 4 * u24 -> Rabs (den - P * z) <= u24 -> 0 < den /\ Rabs (num / den - k) <= 56 / 100000 / z.
Proof.
  intros P z k num den dz HP Z K D N E. apply abs_both in E. assert (PZ : 3183 / 10000 * z <= P * z) by (apply Rmult_le_compat_r; lra). assert (DP : 318 / 1000 * z <= den) by (unfold u24 in E; lra). split; [lra|].
  replace (num / den - k) with ((num - k * den) / den) by (field; lra). unfold Rdiv at 1. rewrite Rabs_mult, (Rabs_pos_eq (/ den)) by (left; apply Rinv_0_lt_compat; lra).
  assert (A : Rabs (num - k * den) <= 178 / 1000000).
  { replace (num - k * den) with ((num - P * k * z) - k * (den - P * z)) by ring. unfold Rminus at 1. eapply Rle_trans; [apply Rabs_triang|]. rewrite Rabs_Ropp, Rabs_mult, (Rabs_pos_eq k) by lra. assert (k * Rabs (den - P * z) <= u24). { apply Rle_trans with (1 * u24); [|lra]. apply Rmult_le_compat; try lra; [apply Rabs_pos|apply Rabs_le; lra]. } unfold u24 in *. lra. }
  apply Rle_trans with (178 / 1000000 * / (318 / 1000 * z)).
  - apply Rmult_le_compat; [apply Rabs_pos|left; apply Rinv_0_lt_compat; lra|exact A|apply Rinv_le; lra].
  - unfold Rdiv. rewrite Rinv_mult. assert (0 < / z) by (apply Rinv_0_lt_compat; lra). lra.
Qed.

Lemma power_float : forall k a z dz, fin k -> 0 <= val k <= 1 -> fin a -> fin z -> / 64 <= Rabs (val z) <= 1001 / 1000 -> 0 <= dz <= 51 / 100000 -> Rabs (Rabs (val a) - Rabs (val z)) <= dz ->
  let f := f_power_factor (fmul f_diffuse k) (fabs a) (fmul (fabs z) f_inv_pi) fone in
  fin f /\ Rabs (val f - val k) <= 6 / 10000 / Rabs (val z).
Proof.
  intros k a z dz FK K FA FZ Z D E. cbv zeta. unfold f_power_factor. destruct inv_pi_val as (FP & VP & ->). destruct (abs_val a FA) as (FA' & VA). destruct (abs_val z FZ) as (FZ' & VZ). rewrite <- VZ in *. rewrite <- VA in E. set (A := fabs a) in *. set (Y := fabs z) in *. clearbody A Y. clear a z FA FZ VA VZ.
  set (p := f_inv_pi) in *. clearbody p. set (P := val p) in *. assert (HP : 3183 / 10000 <= P <= 3184 / 10000) by lra. clear VP. apply abs_both in E.
  assert (NP : near p P 1 0) by (apply near_exact; [exact FP|fold P; apply Rabs_le; lra]).
  assert (PK : 0 <= P * val k <= 3184 / 10000) by nra.
  assert (NV : near (fmul p k) (P * val k) (3184 / 10000) (11 / 10)) by (apply (near_weaken _ _ (3184 / 10000) (0 * 1 + 0 * 1 + 3184 / 10000 + 3 / 4)); [|lra|lra]; apply (near_mul _ _ _ _ 1 1); try assumption; try lra; [apply near_exact; [exact FK|apply Rabs_le; lra]|apply Rabs_le; lra]).
  assert (AB : 0 <= val A <= 11 / 10) by lra. assert (NA : near A (val A) (11 / 10) 0) by (apply near_exact; [exact FA'|apply Rabs_le; lra]).
  assert (NN : near (fmul (fmul p k) A) (P * val k * val A) (4 / 10) (28 / 10)) by (apply (near_weaken _ _ (4 / 10) (11 / 10 * (11 / 10) + 0 * (3184 / 10000) + 4 / 10 + 3 / 4)); [|lra|lra]; apply (near_mul _ _ _ _ (3184 / 10000) (11 / 10)); try assumption; try lra; apply Rabs_le; nra).
  destruct NN as (FN & EN & _). set (num := fmul (fmul p k) A) in *. clearbody num.
  destruct (fmul_val Y p FZ' FP) as (FD & VD). { fold P. apply one_127. apply Rabs_le. nra. }
  pose proof (rerr (val Y * P)) as ED. fold P in VD. rewrite <- VD in ED. rewrite (Rabs_pos_eq (val Y * P)) in ED by nra. destruct h150_u24 as (H0 & H1).
  assert (PY : val Y * P <= 4 / 10) by nra. set (den := fmul Y p) in *. clearbody den.
  destruct (power_real P (val Y) (val k) (val num) (val den) dz HP Z K D) as (DP & Q).
  { replace (val num - P * val k * val Y) with ((val num - P * val k * val A) + P * val k * (val A - val Y)) by ring. eapply Rle_trans; [apply Rabs_triang|]. rewrite (Rabs_mult (P * val k)), (Rabs_pos_eq (P * val k)) by lra.
    assert (P * val k * Rabs (val A - val Y) <= 3184 / 10000 * dz) by (apply Rmult_le_compat; try lra; [apply Rabs_pos|apply Rabs_le; lra]). unfold u24 in *. lra. }
  { replace (val den - P * val Y) with (val den - val Y * P) by ring. eapply Rle_trans; [exact ED|]. unfold u24 in *. lra. }
  assert (IZ : 0 < / val Y <= 64). { split; [apply Rinv_0_lt_compat; lra|]. rewrite <- (Rinv_inv 64). apply Rinv_le; lra. } assert (IL : 99 / 100 <= / val Y). { replace (99 / 100) with (/ (100 / 99)) by lra. apply Rinv_le; lra. } unfold Rdiv in Q at 2. apply abs_both in Q.
  destruct (fdiv_val num den FN) as (FQ & VQ). { lra. } { apply (small_127 _ 2); [lia|]. cbn. apply Rabs_le. unfold Rdiv in Q |- *. lra. }
  pose proof (rerr (val num / val den)) as EQ. rewrite <- VQ in EQ. assert (QB : Rabs (val num / val den) <= 2) by (apply Rabs_le; unfold Rdiv in Q |- *; lra).
  set (f := fdiv num den) in *. clearbody f. destruct fone_val as (FO & VO). assert (FB : Rabs (val f - val num / val den) <= 3 * u24) by (eapply Rle_trans; [exact EQ|]; unfold u24 in *; lra). apply abs_both in FB.
  destruct (fmul_val f fone FQ FO) as (FF & VF). { rewrite VO, Rmult_1_r. apply (small_127 _ 2); [lia|]. cbn. apply Rabs_le. apply abs_both in QB. unfold u24 in FB. lra. }
  rewrite VO, Rmult_1_r, rnd_fits in VF by apply fits_val. split; [exact FF|]. rewrite VF. apply Rabs_le. unfold u24 in FB. unfold Rdiv in *. lra.
Qed.

Lemma power_form : forall tangent n wo r1 c s k,
  f_lambert_power tangent n wo r1 c s k =
  f_power_factor (fmul f_diffuse k) (fabs (fv_dot (f_to_world tangent (f_frame_t tangent n) n (f_normalize (f_diffuse_dir wo r1 c s))) n)) (fmul (fabs (fz (f_diffuse_dir wo r1 c s))) f_inv_pi) fone.
Proof. intros. unfold f_lambert_power, f_lambert_sample, f_diffuse_density. reflexivity. Qed.

Lemma dot_real : forall w n, unit_v w -> unit_v n -> fin (fv_dot w n) /\ Rabs (val (fv_dot w n) - dotr w n) <= 16 * u24.
Proof.
  intros w n UW UN. destruct (unit_le w UW) as ((WX & WY & WZ) & _ & BX & BY & BZ). destruct (unit_le n UN) as ((NX & NY & NZ) & _ & CX & CY & CZ).
  destruct (dot3_near _ _ _ _ _ _ WX WY WZ NX NY NZ BX BY BZ CX CY CZ) as (FA & EA & _). unfold fv_dot, dotr. split; [exact FA|exact EA].
Qed.

Lemma abs_close : forall a r z, Rabs (a - r) <= 16 * u24 -> Rabs (r - z) <= 5 / 10000 -> Rabs (Rabs a - Rabs z) <= 51 / 100000.
Proof.
  intros a r z A R. eapply Rle_trans; [apply Rabs_triang_inv2|]. replace (a - z) with ((a - r) + (r - z)) by ring. eapply Rle_trans; [apply Rabs_triang|]. unfold u24 in A. lra.
Qed.

(* the cosine in the world *)
Lemma world_cosine : forall tangent n d, unit_v tangent -> unit_v n -> Rabs (dotr tangent n) <= / 10000 -> unit_v d ->
  fin (fv_dot (f_to_world tangent (f_frame_t tangent n) n d) n) /\ Rabs (Rabs (val (fv_dot (f_to_world tangent (f_frame_t tangent n) n d) n)) - Rabs (val (fz d))) <= 51 / 100000.
Proof.
  intros tangent n d UT UN O UD. pose proof (float_shading_round_trip tangent n d UT UN O UD) as H. cbv zeta in H. destruct H as (UW & RN & _).
  generalize dependent (f_to_world tangent (f_frame_t tangent n) n d). intros w UW RN. destruct (dot_real w n UW UN) as (FA & EA). split; [exact FA|]. exact (abs_close _ _ _ EA RN).
Qed.

Lemma dir_kept : forall d, vfin d -> Rabs (length2 d - 1) <= 3 / 1000000 -> f_normalize d = d.
Proof. intros d F E. destruct (float_is_normalized d F) as (_ & K & C); [apply abs_both in E; split; [apply Rle_trans with (bpow radix2 (-1)); [apply bpow_le; lia|cbn; lra]|apply Rle_trans with (bpow radix2 1); [cbn; lra|apply bpow_le; lia]]|]. apply K, C. lra. Qed.

(* The power of a path that leaves a diffuse surface is multiplied by the entry of the texture: for
   every frame of length 1 that is orthogonal up to 1e-4, all random numbers and every direction at
   least 1/64 above the surface, the factor is k up to 6e-4 over the cosine. *)
Theorem float_lambert_power : forall tangent n wo r1 c s k, unit_v tangent -> unit_v n -> Rabs (dotr tangent n) <= / 10000 ->
  fin (fz wo) -> fin r1 -> 0 <= val r1 <= 1 -> fin c -> fin s -> -1 <= val c <= 1 -> -1 <= val s <= 1 -> val c * val c + val s * val s <= 1 + / 1000000 -> fin k -> 0 <= val k <= 1 ->
  let z := Rabs (val (fz (f_diffuse_dir wo r1 c s))) in / 64 <= z ->
  let f := f_lambert_power tangent n wo r1 c s k in
  fin f /\ Rabs (val f - val k) <= 6 / 10000 / z.
Proof.
  intros tangent n wo r1 c s k UT UN O FW F1 R1 FC FS C S L FK K z Z f. unfold f. rewrite power_form. clear f. destruct (dir_parts wo r1 c s FW F1 R1 FC FS C S L) as (F & E & _ & _ & _ & _ & ZU). unfold z in *. clear z.
  set (d := f_diffuse_dir wo r1 c s) in *. clearbody d. rewrite (dir_kept d F E).
  assert (UD : unit_v d) by (split; [exact F|lra]). destruct (world_cosine tangent n d UT UN O UD) as (FA & EA). set (a := fv_dot (f_to_world tangent (f_frame_t tangent n) n d) n) in *. clearbody a.
  apply (power_float k a (fz d) (51 / 100000)); try assumption; try lra; apply F.
Qed.
Print Assumptions float_lambert_power.

(* the frame of shading_case, texture 1/2, r1 = 1/4 *)
Example lambert_power_case :
  let a := fnum 10066330 (-24) in let b := fnum 13421773 (-24) in let tangent := mk_fvec a fzero (fneg b) in let n := mk_fvec b fzero a in let wo := mk_fvec fzero fzero fone in
  let f := f_lambert_power tangent n wo (fnum 1 (-2)) fone fzero (fnum 1 (-1)) in
  flt (fnum 8388600 (-24)) f = true /\ flt f (fnum 8388616 (-24)) = true /\ flt (fnum 1 (-6)) (fz (f_diffuse_dir wo (fnum 1 (-2)) fone fzero)) = true.
Proof. repeat split; vm_compute; reflexivity. Qed.

(* The density of a given direction: 0 if the directions are on different sides or one lies in the
   surface, and the same float as the density of the sampled direction if the cosines are at least 2^-60. *)
Theorem float_diffuse_pdf : forall wo wi, fin (fz wo) -> fin (fz wi) -> Rabs (val (fz wo)) <= 2 -> Rabs (val (fz wi)) <= 2 ->
  (val (fz wo) * val (fz wi) <= 0 -> f_diffuse_pdf wo wi = fzero) /\
  (0 < val (fz wo) * val (fz wi) -> bpow radix2 (-60) <= Rabs (val (fz wo)) -> bpow radix2 (-60) <= Rabs (val (fz wi)) ->
     f_diffuse_pdf wo wi = f_diffuse_density wi /\ 0 < val (f_diffuse_density wi)).
Proof.
  intros wo wi FO FI LO LI. unfold f_diffuse_pdf, f_diffuse_density. set (o := fz wo) in *. set (i := fz wi) in *. clearbody o i. clear wo wi.
  assert (B4 : Rabs (val o * val i) <= 4) by (rewrite Rabs_mult; replace 4 with (2 * 2) by ring; apply Rmult_le_compat; try apply Rabs_pos; assumption).
  destruct (fmul_val o i FO FI) as (FM & VM). { apply (small_127 _ 2); [lia|]. cbn. lra. } destruct fzero_val as (F0 & V0). pose proof (flt_val _ _ F0 FM) as T. unfold fgt. fold (flt fzero (fmul o i)). rewrite V0, VM in T. split.
  - intro N. destruct (flt fzero (fmul o i)); [|reflexivity]. exfalso. destruct T as (T & _). specialize (T eq_refl). pose proof (rnd_le _ _ N) as R. rewrite rnd_0 in R. lra.
  - intros P PO PI. assert (B : bpow radix2 (-120) <= val o * val i). { rewrite <- (Rabs_pos_eq (val o * val i)) by lra. rewrite Rabs_mult. change (-120)%Z with (-60 + -60)%Z. rewrite bpow_plus. apply Rmult_le_compat; try apply bpow_ge_0; assumption. }
    pose proof (bpow_gt_0 radix2 (-120)) as P120. pose proof (bpow_gt_0 radix2 (-62)) as P62. assert (R : bpow radix2 (-120) <= rnd (val o * val i)) by (rewrite <- (rnd_fits (bpow radix2 (-120))) by (apply fits_bpow; lia); apply rnd_le; exact B).
    rewrite (proj2 T) by lra. split; [reflexivity|]. destruct inv_pi_val as (FP & VP & _). destruct (abs_val i FI) as (FA & VA). destruct (fmul_val (fabs i) f_inv_pi FA FP) as (_ & V). { rewrite VA, VP. apply one_127. apply Rabs_le. pose proof (Rabs_pos (val i)). lra. }
    rewrite V, VA, VP. assert (Q : bpow radix2 (-62) <= Rabs (val i) * (10680707 / 33554432)). { assert (bpow radix2 (-60) = 4 * bpow radix2 (-62)) by (cbn; lra). lra. }
    apply rnd_le in Q. rewrite (rnd_fits (bpow radix2 (-62))) in Q by (apply fits_bpow; lia). lra.
Qed.
Print Assumptions float_diffuse_pdf.

(* For closer cosines the product vanishes: the density of a direction that was sampled with a
   density above 0 is 0, for all cosines from 2^-140 to 2^-76. *)
Theorem float_diffuse_pdf_refuted : forall wo wi, fin (fz wo) -> fin (fz wi) -> bpow radix2 (-140) <= val (fz wo) <= bpow radix2 (-76) -> bpow radix2 (-140) <= val (fz wi) <= bpow radix2 (-76) ->
  f_diffuse_pdf wo wi = fzero /\ 0 < val (f_diffuse_density wi).
Proof.
  intros wo wi FO FI LO LI. unfold f_diffuse_pdf, f_diffuse_density. set (o := fz wo) in *. set (i := fz wi) in *. clearbody o i. clear wo wi. pose proof (bpow_gt_0 radix2 (-140)) as P140. pose proof (bpow_gt_0 radix2 (-142)) as P142.
  assert (S : bpow radix2 (-76) <= / 2) by (apply Rle_trans with (bpow radix2 (-1)); [apply bpow_le; lia|cbn; lra]).
  assert (B : 0 <= val o * val i < bpow radix2 (-150)).
  { split; [apply Rmult_le_pos; lra|]. apply Rle_lt_trans with (bpow radix2 (-76) * bpow radix2 (-76)); [apply Rmult_le_compat; lra|]. rewrite <- bpow_plus. apply bpow_lt. lia. }
  destruct (fmul_val o i FO FI) as (FM & VM). { apply one_127. rewrite Rabs_pos_eq by lra. apply Rle_trans with (/ 2 * / 2); [apply Rmult_le_compat; lra|lra]. } rewrite (tiny_zero _ B) in VM. destruct fzero_val as (F0 & V0). pose proof (flt_val _ _ F0 FM) as T. rewrite V0, VM in T. unfold fgt. fold (flt fzero (fmul o i)).
  split; [destruct (flt fzero (fmul o i)); [exfalso; assert (0 < 0) by (apply T; reflexivity); lra|reflexivity]|].
  destruct inv_pi_val as (FP & VP & _). destruct (abs_val i FI) as (FA & VA). rewrite Rabs_pos_eq in VA by lra. destruct (fmul_val (fabs i) f_inv_pi FA FP) as (_ & V). { rewrite VA, VP. apply one_127. apply Rabs_le. lra. }
  rewrite V, VA, VP. assert (Q : bpow radix2 (-142) <= val i * (10680707 / 33554432)). { assert (bpow radix2 (-140) = 4 * bpow radix2 (-142)) by (cbn; lra). lra. }
  apply rnd_le in Q. rewrite (rnd_fits (bpow radix2 (-142))) in Q by (apply fits_bpow; lia). lra.
Qed.
Print Assumptions float_diffuse_pdf_refuted.

Example diffuse_pdf_case :
  let v z := mk_fvec fzero fone z in
  B2SF (f_diffuse_pdf (v (fnum 1 (-1))) (v (fnum 1 (-2)))) = SpecFloat.S754_finite false 10680707 (-27) /\ B2SF (f_diffuse_pdf (v (fnum 1 (-80))) (v (fnum 1 (-80)))) = B2SF fzero /\
  B2SF (f_diffuse_density (v (fnum 1 (-80)))) = SpecFloat.S754_finite false 10680707 (-105) /\ B2SF (f_diffuse_pdf (v (fnum 1 (-1))) (v (fnum (-1) (-2)))) = B2SF fzero.
Proof. repeat split; vm_compute; reflexivity. Qed.
