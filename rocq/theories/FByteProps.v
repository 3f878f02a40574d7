(* Colours made of bytes in single precision. *)
From Coq Require Import ZArith Reals List Lra Lia Bool.
From Flocq Require Import Core.Core IEEE754.BinarySingleNaN.
From Verif Require Import Common FltModel FltFacts FExtFacts FSphereProps FGgxProps PixelModel PixelProofs FByteModel.
Import ListNotations.
Local Open Scope Z_scope.

Fixpoint upto (n : nat) (f : Z -> bool) : bool := match n with O => true | S k => f (Z.of_nat k) && upto k f end.
Lemma upto_spec : forall n f, upto n f = true -> forall b, 0 <= b < Z.of_nat n -> f b = true.
Proof.
  induction n as [|n IH]; intros f U b B; [lia|]. cbn in U. apply andb_prop in U. destruct U as (H & T). destruct (Z.eq_dec b (Z.of_nat n)) as [->|N]; [exact H|]. apply (IH f T). lia.
Qed.

Definition channel_ok (b : Z) : bool :=
  is_finite (f_channel b) && fle fzero (f_channel b) && fle (f_channel b) fone && flt (f_channel b) (f_channel (b + 1)) && match f_byte (f_channel b) with Ok c => c =? b | _ => false end.
Lemma all_ok : upto 256 channel_ok = true.
Proof. vm_compute. reflexivity. Qed.

Lemma channel_facts : forall b, 0 <= b <= 255 -> fin (f_channel b) /\ (0 <= val (f_channel b) <= 1)%R /\ f_byte (f_channel b) = Ok b /\ flt (f_channel b) (f_channel (b + 1)) = true.
Proof.
  intros b B. pose proof (upto_spec 256 channel_ok all_ok b ltac:(lia)) as H. unfold channel_ok in H. apply andb_prop in H. destruct H as (H & E). apply andb_prop in H. destruct H as (H & M). apply andb_prop in H. destruct H as (H & U). apply andb_prop in H. destruct H as (F & L).
  destruct fzero_val as (FZ & VZ). destruct fone_val as (FO & VO). split; [exact F|].
  apply (fle_val _ _ FZ F) in L. apply (fle_val _ _ F FO) in U. rewrite VZ in L. rewrite VO in U. split; [split; assumption|]. split; [|exact M].
  destruct (f_byte (f_channel b)) as [c| |]; try discriminate. apply Z.eqb_eq in E. congruence.
Qed.

(* A byte becomes a number from 0 to 1, 0 becomes 0 and 255 becomes 1 exactly, larger bytes become larger
   numbers, and the conversion of the film gives the byte back although it truncates. *)
Theorem float_byte_colour : forall b, 0 <= b <= 255 ->
  fin (f_channel b) /\ (0 <= val (f_channel b) <= 1)%R /\ f_byte (f_channel b) = Ok b /\
  (val (f_channel b) = 0%R <-> b = 0) /\ (val (f_channel b) = 1%R <-> b = 255) /\
  forall c, 0 <= c <= 255 -> (b < c <-> (val (f_channel b) < val (f_channel c))%R).
Proof.
  assert (MONO : forall n b, 0 <= b -> b + Z.of_nat (S n) <= 255 -> (val (f_channel b) < val (f_channel (b + Z.of_nat (S n))))%R).
  { induction n as [|n IH]; intros b B N.
    - destruct (channel_facts b ltac:(lia)) as (F & _ & _ & M). destruct (channel_facts (b + 1) ltac:(lia)) as (G & _). apply (flt_val _ _ F G) in M. exact M.
    - apply Rlt_trans with (1 := IH b B ltac:(lia)). destruct (channel_facts (b + Z.of_nat (S n)) ltac:(lia)) as (F & _ & _ & M). destruct (channel_facts (b + Z.of_nat (S n) + 1) ltac:(lia)) as (G & _).
      apply (flt_val _ _ F G) in M. replace (b + Z.of_nat (S (S n))) with (b + Z.of_nat (S n) + 1) by lia. exact M. }
  assert (LT : forall b c, 0 <= b -> b < c -> c <= 255 -> (val (f_channel b) < val (f_channel c))%R).
  { intros b c B L C. replace c with (b + Z.of_nat (S (Z.to_nat (c - b - 1)))) by lia. apply MONO; lia. }
  assert (V0 : val (f_channel 0) = 0%R) by (destruct fzero_val as (FZ & VZ); rewrite <- VZ; apply eqb_val; [vm_compute; reflexivity|exact FZ|vm_compute; reflexivity]).
  assert (V1 : val (f_channel 255) = 1%R) by (destruct fone_val as (FO & VO); rewrite <- VO; apply eqb_val; [vm_compute; reflexivity|exact FO|vm_compute; reflexivity]).
  intros b B. destruct (channel_facts b B) as (F & R & E & _). split; [exact F|]. split; [exact R|]. split; [exact E|].
  split; [|split].
  - split; [intro Z0|intros ->; exact V0]. destruct (Z.eq_dec b 0) as [|N]; [assumption|]. pose proof (LT 0 b ltac:(lia) ltac:(lia) ltac:(lia)) as L. lra.
  - split; [intro Z1|intros ->; exact V1]. destruct (Z.eq_dec b 255) as [|N]; [assumption|]. pose proof (LT b 255 ltac:(lia) ltac:(lia) ltac:(lia)) as L. lra.
  - intros c C. split; [intro L; apply LT; lia|]. intro L. destruct (Z_lt_le_dec b c) as [|G]; [assumption|]. exfalso. destruct (Z.eq_dec b c) as [->|N]; [lra|]. pose proof (LT c b ltac:(lia) ltac:(lia) ltac:(lia)). lra.
Qed.

(* A pixel read as a colour and written by the film is the same pixel, with full opacity. *)
Theorem float_pixel_round_trip : forall p, (p < 2 ^ 32)%N -> f_to_pixel (f_of_pixel p) = Ok (N.lor p 255).
Proof.
  intros p P. rewrite <- (px_make_self p P). unfold f_to_pixel, f_of_pixel. assert (B : (px_red p < 256 /\ px_green p < 256 /\ px_blue p < 256)%N).
  { rewrite px_red_val, px_green_val, px_blue_val by assumption. repeat split; apply N.mod_lt || (apply N.div_lt_upper_bound; [discriminate|exact P]); discriminate. }
  destruct B as (R & G & B). destruct (channel_facts (Z.of_N (px_red p)) ltac:(lia)) as (_ & _ & ER & _). destruct (channel_facts (Z.of_N (px_green p)) ltac:(lia)) as (_ & _ & EG & _). destruct (channel_facts (Z.of_N (px_blue p)) ltac:(lia)) as (_ & _ & EB & _).
  rewrite ER, EG, EB. cbn [bind]. rewrite !N2Z.id. reflexivity.
Qed.

Example pixel_case : (0x336699FF < 2 ^ 32)%N /\ f_to_pixel (f_of_pixel 0x336699FF) = Ok 0x336699FF%N.
Proof. split; [reflexivity|vm_compute; reflexivity]. Qed.
Example byte_case : B2SF (f_channel 100) = SpecFloat.S754_finite false 13158602 (-25).
Proof. vm_compute. reflexivity. Qed.
Print Assumptions float_byte_colour.
Print Assumptions float_pixel_round_trip.
