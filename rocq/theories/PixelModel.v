(* Pixels as 0xBBGGRRAA words; src/utility/imageio/imageio.{h,c}. *)
From Verif Require Import Common.
Local Open Scope N_scope.

Definition BGRA_RED_MASK : N := 0x0000FF00.    (* imageio.h:44 *)
Definition BGRA_GREEN_MASK : N := 0x00FF0000.  (* imageio.h:47 *)
Definition BGRA_BLUE_MASK : N := 0xFF000000.   (* imageio.h:50 *)
Definition BGRA_ALPHA_MASK : N := 0x000000FF.  (* imageio.h:53 *)

Definition px_red (x : N) : N := N.shiftr (N.land x BGRA_RED_MASK) 8.     (* imageio.h:56 *)
Definition px_green (x : N) : N := N.shiftr (N.land x BGRA_GREEN_MASK) 16. (* imageio.h:59 *)
Definition px_blue (x : N) : N := N.shiftr (N.land x BGRA_BLUE_MASK) 24.  (* imageio.h:62 *)
Definition px_alpha (x : N) : N := N.land x BGRA_ALPHA_MASK.              (* imageio.h:65 *)

(* value = 0x000000FF; value |= r << 8; value |= g << 16; value |= b << 24;
   imageio.c:151-154, bmp.c:166-169, tga.c:164-167, ppm.c:133-136.  The left
   shift of a byte promoted to int into the sign bit is taken with its usual
   two's complement meaning. *)
Definition px_make (r g b : N) : N :=
  N.lor (N.lor (N.lor 0x000000FF (N.shiftl r 8)) (N.shiftl g 16)) (N.shiftl b 24).

(* imageio.c:132-143; the output array has exactly the room documented
   (len*3), so the function is the list of written bytes. *)
Fixpoint bgra_to_rgb (l : list N) : list N :=
  match l with
  | [] => []
  | p :: l => px_red p :: px_green p :: px_blue p :: bgra_to_rgb l
  end.

(* imageio.c:145-157; when the length is not a multiple of three the loop
   reads beyond the input. *)
Fixpoint rgb_to_bgra (l : list N) : res (list N) :=
  match l with
  | [] => Ok []
  | r :: g :: b :: l => let! t := rgb_to_bgra l in Ok (px_make r g b :: t)
  | _ => UB
  end.
