(* src/textures/mask_boolean.{hpp,cpp} and src/materials/dual.cpp.  Hits are of any type:
   the mask only looks at the texel the texture gives for them. *)
From Verif Require Import Common PixelModel.
Local Open Scope N_scope.

(* texture_image.hpp:39-45, little endian *)
Inductive channel := Alpha | Red | Green | Blue.
Definition channel_offset (c : channel) : N :=
  match c with Alpha => 0 | Red => 1 | Green => 2 | Blue => 3 end.

(* mask_boolean.cpp:22 *(&(texel.a)+channel): the byte of the word at that offset, for
   image_map.hpp:43-65 on a little endian machine *)
Definition texel_byte (word : N) (c : channel) : N := N.shiftr word (8 * channel_offset c) mod 256.

(* mask_boolean.hpp: map (NULL is None; otherwise what map_value gives), channel, inverted *)
Record mask (H : Type) := mk_mask { mk_map : option (H -> N); mk_channel : channel; mk_inverted : bool }.
Arguments mk_mask {H}. Arguments mk_map {H}. Arguments mk_channel {H}. Arguments mk_inverted {H}.

(* mask_boolean.cpp:6-7; channel and inverted are not initialised and not read *)
Definition mask_none {H} : mask H := mk_mask None Alpha false.

(* mask_boolean.cpp:13-31 *)
Definition is_visible {H} (m : mask H) (h : H) : bool :=
  match mk_map m with
  | None => true
  | Some tex =>
      let masked := N.leb 128 (texel_byte (tex h) (mk_channel m)) in
      negb (Bool.eqb masked (mk_inverted m))
  end.
(* mask_boolean.cpp:33-36 *)
Definition is_masked {H} (m : mask H) (h : H) : bool := negb (is_visible m h).

(* bsdf.hpp: the four queries of a material; A, B, C, D are their other arguments and
   VA, .. VD their results and the arguments they write *)
Record bsdf (H A B C D VA VB VC VD : Type) := mk_bsdf {
  m_value : A -> H -> VA;
  m_sample : B -> H -> VB;
  m_pdf : C -> H -> VC;
  m_matrix : D -> H -> VD }.
Arguments mk_bsdf {H A B C D VA VB VC VD}.
Arguments m_value {H A B C D VA VB VC VD}. Arguments m_sample {H A B C D VA VB VC VD}.
Arguments m_pdf {H A B C D VA VB VC VD}. Arguments m_matrix {H A B C D VA VB VC VD}.

(* dual.cpp:6-53 *)
Definition dual {H A B C D VA VB VC VD} (first second : bsdf H A B C D VA VB VC VD) (m : mask H) :
    bsdf H A B C D VA VB VC VD :=
  mk_bsdf
    (fun a h => if is_visible m h then m_value first a h else m_value second a h)
    (fun b h => if is_visible m h then m_sample first b h else m_sample second b h)
    (fun c h => if is_visible m h then m_pdf first c h else m_pdf second c h)
    (fun d h => if is_visible m h then m_matrix first d h else m_matrix second d h).
