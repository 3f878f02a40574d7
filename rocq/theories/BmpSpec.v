(* Specifications for the BMP properties, independent of the code. *)
From Verif Require Import Common.
Local Open Scope Z_scope.

(* The BMP file format (BITMAPINFOHEADER, uncompressed, 24 bit): rows of the
   pixel array start at the offset found at byte 10 and occupy a multiple of 4
   bytes; negative heights mean that the first row is the top one.  Returns the
   colour (red, green, blue) of pixel (x,y), y counted from the top. *)
Definition le_at (f : list N) (n : nat) (pos : nat) : option N :=
  if (pos + n <=? length f)%nat
  then Some (fold_right (fun i acc => nth (pos + i) f 0 + 256 * acc)%N 0%N (seq 0 n))
  else None.

Definition signed32 (n : N) : Z :=
  if (n <? 2 ^ 31)%N then Z.of_N n else Z.of_N n - 2 ^ 32.

Definition std_stride24 (w : Z) : Z := (w * 24 + 31) / 32 * 4.

Definition std_bmp24_pixel (f : list N) (x y : Z) : option (N * N * N) :=
  match le_at f 4 10, le_at f 4 18, le_at f 4 22, le_at f 2 28, le_at f 2 0 with
  | Some off, Some w, Some h, Some bpp, Some magic =>
      let w := signed32 w in
      let h := signed32 h in
      let row := if h <? 0 then y else h - 1 - y in
      if ((magic =? 0x4D42)%N && (bpp =? 24)%N && (0 <=? x) && (x <? w) &&
          (0 <=? y) && (y <? Z.abs h))%bool
      then
        let pos := Z.to_nat (Z.of_N off + row * std_stride24 w + x * 3) in
        match le_at f 1 pos, le_at f 1 (pos + 1), le_at f 1 (pos + 2) with
        | Some b, Some g, Some r => Some (r, g, b)
        | _, _, _ => None
        end
      else None
  | _, _, _, _, _ => None
  end.

Definition std_file_size (f : list N) : option N := le_at f 4 2.
