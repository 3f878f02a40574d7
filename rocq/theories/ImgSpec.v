(* Pictures as functions of column and row, independent of how levels are stored. *)
From Coq Require Import QArith Qround.
From Verif Require Import Common ImgModel.
Local Open Scope N_scope.

Definition picture := N -> N -> texel.

(* the four channels of a texel *)
Definition channel (c : texel -> N) : Prop := c = t_a \/ c = t_r \/ c = t_g \/ c = t_b.

(* g is f at half the size: every texel is the mean, rounded down, of a square of four *)
Definition halves (f g : picture) : Prop :=
  forall c, channel c -> forall x y,
    c (g x y) = (c (f (2 * x) (2 * y)) + c (f (2 * x + 1) (2 * y)) +
                 c (f (2 * x) (2 * y + 1)) + c (f (2 * x + 1) (2 * y + 1))) / 4.

(* the stored level shows the picture f of the given side *)
Definition shows (l : level) (side : N) (f : picture) : Prop :=
  l_side l = side /\
  forall x y, x < side -> y < side -> fetch l (Z.of_N x) (Z.of_N y) = Ok (f x y).

(* the picture of a buffer of pixels in rows *)
Definition picture_of (values : list texel) (side : N) : picture :=
  fun x y => nth (N.to_nat (y * side + x)) values (mk_texel 0 0 0 0).

(* all texels inside the picture have their channel between lo and hi *)
Definition within (f : picture) (side lo hi : N) : Prop :=
  forall c, channel c -> forall x y, x < side -> y < side -> lo <= c (f x y) <= hi.

(* column of the picture at a distance of k texels, the picture being repeated *)
Definition wrapped (side : N) (k : Z) : N := Z.to_N (k mod Z.of_N side).

(* exact bilinear interpolation at column p and row q, measured from the centre of the
   first texel, of the repeated picture *)
Definition interpolated (f : picture) (side : N) (c : texel -> N) (p q : Q) : Q :=
  let x := Qfloor p in
  let y := Qfloor q in
  let fx := (p - inject_Z x)%Q in
  let fy := (q - inject_Z y)%Q in
  let at_ i j := qN (c (f (wrapped side i) (wrapped side j))) in
  ((1 - fy) * ((1 - fx) * at_ x y + fx * at_ (x + 1)%Z y) +
   fy * ((1 - fx) * at_ x (y + 1)%Z + fx * at_ (x + 1)%Z (y + 1)%Z))%Q.

(* position of a texture coordinate in texels from the centre of the first one *)
Definition place (side : N) (u : Q) : Q := (u * qN side - (1 # 2))%Q.

(* texel x of a row covers the coordinate u *)
Definition covers (side x : N) (u : Q) : Prop := (qN x <= u * qN side /\ u * qN side < qN x + 1)%Q.
