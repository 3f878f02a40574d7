(* Model of src/utility/imageio/ppm.c (whole file) on a little-endian machine.

   A file is the list of its bytes; fopen, malloc and fwrite are assumed to
   succeed.  Float operations are exact operations rounded to 24 bits
   (ConfigModel).  Reading a variable that no scanf has set is UB. *)
From Verif Require Import Common ArrayIO PixelModel DecimalModel UtilModel ConfigModel.
Local Open Scope N_scope.

(* ---- scanf ---- *)

(* isspace in the C locale *)
Definition is_space (c : N) : bool := (c =? 32) || ((9 <=? c) && (c <=? 13)).

Fixpoint skip_space (l : list N) : list N :=
  match l with
  | c :: l' => if is_space c then skip_space l' else l
  | [] => []
  end.

(* longest prefix of digits and the rest *)
Fixpoint span_digits (l : list N) : list N * list N :=
  match l with
  | c :: l' => if is_digit c then let '(d, r) := span_digits l' in (c :: d, r) else ([], l)
  | [] => ([], [])
  end.

(* Conversions %u and %hu with an upper limit: spaces, an optional sign, digits.
   None is a matching failure.  A number beyond the limit, and a negative one
   for simplicity, is UB. *)
Definition scan_uint (limit : N) (l : list N) : option (res N * list N) :=
  let l := skip_space l in
  let '(neg, l) := match l with
                   | c :: r => if c =? 45 then (true, r) else if c =? 43 then (false, r) else (false, l)
                   | [] => (false, [])
                   end in
  let '(d, r) := span_digits l in
  match d with
  | [] => None
  | _ => Some (if neg || (limit <=? digits_value d) then UB else Ok (digits_value d), r)
  end.

(* Conversion %5s: at most five non-space characters. *)
Fixpoint take_word (n : nat) (l : list N) : list N * list N :=
  match n, l with
  | S n, c :: l' => if is_space c then ([], l) else let '(w, r) := take_word n l' in (c :: w, r)
  | _, _ => ([], l)
  end.
Definition scan_word (l : list N) : option (list N * list N) :=
  match take_word 5 (skip_space l) with
  | ([], _) => None
  | (w, r) => Some (w, r)
  end.

(* ---- conversion of samples ---- *)

(* (uint8_t)(x*255) for the float x = n/d *)
Definition to_byte (n d : Z) : res N :=
  let '(n2, d2) := if (n =? 0)%Z then (0, 1)%Z else fl_frac (n * 255) d in
  let t := (n2 / d2)%Z in
  if (t <=? 255)%Z then Ok (Z.to_N t) else UB.

(* ppm.c:129-131: (uint8_t)((v/depth)*255) *)
Definition sample8 (depth v : N) : res N :=
  if depth =? 0 then UB (* infinity or NaN *)
  else if v =? 0 then Ok 0
  else let '(n, d) := fl_frac (Z.of_N v) (Z.of_N depth) in to_byte n d.

(* ppm.c:96-103 and 157-163: (uint8_t)(CLAMP(v/depth, 0.f, 1.f)*255), where
   ppm.c:6 defines CLAMP without outer parentheses, so that the product by 255
   belongs to the last branch only *)
Definition sample_clamp (depth v : N) : res N :=
  if depth =? 0 then (if v =? 0 then UB else Ok 1)
  else if v =? 0 then Ok 0
  else let '(n, d) := fl_frac (Z.of_N v) (Z.of_N depth) in
       if (d <? n)%Z then Ok 1 else to_byte n d.

(* ---- writer ---- *)

Definition px_bytes (p : N) : list N := [px_red p; px_green p; px_blue p]. (* ppm.c:22-24 *)

(* ppm.c:19-26, n iterations from i *)
Fixpoint ppm_write_pixels (n : nat) (i : Z) (data : list N) : res (list N) :=
  match n with
  | O => Ok []
  | S n =>
      let! p := rd data i in
      let! rest := ppm_write_pixels n (i + 1) data in
      Ok (px_bytes p ++ rest)
  end.

(* ppm.c:8-31, for non-negative width and height; the header is "P6 %d %d 255 " *)
Definition ppm_write (width height : Z) (data : list N) : res (list N * bool) :=
  if ((width <? 0) || (height <? 0))%Z%bool then UB (* not modelled *) else
  let! n := ck (width * height)%Z in
  let! body := ppm_write_pixels (Z.to_nat n) 0 data in
  let! n3 := ck (n * 3)%Z in
  Ok ([80; 54; 32] ++ dec (Z.to_N width) ++ [32] ++ dec (Z.to_N height) ++ [32; 50; 53; 53; 32] ++ body,
      (Z.of_nat (length body) =? n3)%Z).

(* ---- reader ---- *)

(* ppm.c:33-49 and 51-63: magic number *)
Definition ppm_magic (f : list N) : res bool :=
  match f with
  | m0 :: m1 :: _ => Ok ((m0 =? 80) && ((m1 =? 51) || (m1 =? 54)))
  | _ => UB
  end.
Definition ppm_valid := ppm_magic.

(* ppm.c:33-49.  %d is modelled as %u with the limit of int; None: returns 0.  A
   failed scanf leaves the caller's variables as they were, here UB. *)
Definition ppm_dimensions (f : list N) : res (option (N * N)) :=
  let! ok := ppm_magic f in
  if negb ok then Ok None
  else match scan_uint (2 ^ 31) (skipn 2 f) with
       | None => UB
       | Some (w, r) =>
           match scan_uint (2 ^ 31) r with
           | None => UB
           | Some (h, _) => let! w := w in let! h := h in Ok (Some (w, h))
           end
       end.

(* ppm.c:127-138 and 152-170, n pixels of a row: [next] takes one sample *)
Fixpoint read_pixels (next : list N -> res (N * list N)) (n : nat) (l : list N) (buf : list N) (idx : Z)
  : res (list N * Z * list N) :=
  match n with
  | O => Ok (buf, idx, l)
  | S n =>
      let! (r, l) := next l in
      let! (g, l) := next l in
      let! (b, l) := next l in
      let! buf := upd buf idx (px_make r g b) in
      read_pixels next n l buf (idx + 1)
  end.

Definition next8 (depth : N) (l : list N) : res (N * list N) :=
  match l with
  | v :: l => let! s := sample8 depth v in Ok (s, l)
  | [] => UB
  end.
Definition next16 (depth : N) (l : list N) : res (N * list N) :=
  match l with
  | b0 :: b1 :: l => let! s := sample_clamp depth (endianness_big16 (dle16 b0 b1)) in Ok (s, l)
  | _ => UB
  end.

(* ppm.c:122-140 and 147-172: at most n rows; [size] is the size given to
   fread, a 32-bit product *)
Fixpoint read_rows (next : list N -> res (N * list N)) (size : N) (n : nat) (width : nat)
  (l : list N) (buf : list N) (idx : Z) : res (list N * Z) :=
  match n with
  | O => Ok (buf, idx)
  | S n =>
      if (size =? 0) || (N.of_nat (length l) <? size) then Ok (buf, idx)
      else
        let! (buf, idx, _) := read_pixels next width (firstn (N.to_nat size) l) buf idx in
        read_rows next size n width (skipn (N.to_nat size) l) buf idx
  end.

(* ppm.c:88-107: [val] and [num] are the variables of the same name, None when
   not set yet *)
Definition next_ascii (depth : N) (st : list N * option (list N) * option N)
  : res (N * (list N * option (list N) * option N)) :=
  let '(l, val, num) := st in
  let '(val, l) := match scan_word l with Some (w, r) => (Some w, r) | None => (val, skip_space l) end in
  match val with
  | None => UB
  | Some w =>
      let! num := match scan_uint (2 ^ 16) w with
                  | None => Ok num
                  | Some (v, _) => let! v := v in Ok (Some v)
                  end in
      match num with
      | None => UB
      | Some v => let! s := sample_clamp depth v in Ok (s, (l, val, num))
      end
  end.
Fixpoint read_ascii (n : nat) (depth : N) st (buf : list N) (idx : Z) : res (list N) :=
  match n with
  | O => Ok buf
  | S n =>
      let! (r, st) := next_ascii depth st in
      let! (g, st) := next_ascii depth st in
      let! (b, st) := next_ascii depth st in
      let! buf := upd buf idx (px_make r g b) in
      read_ascii n depth st buf (idx + 1)
  end.

(* ppm.c:65-180 *)
Definition ppm_read (f : list N) (buf : list N) : res (list N * bool) :=
  match f with
  | m0 :: m1 :: l =>
      if negb (m0 =? 80) then Ok (buf, false)
      else if negb ((m1 =? 51) || (m1 =? 54)) then Ok (buf, false)
      else
        match scan_uint (2 ^ 32) l with
        | None => UB
        | Some (w, l) =>
        match scan_uint (2 ^ 32) l with
        | None => UB
        | Some (h, l) =>
        match scan_uint (2 ^ 16) l with
        | None => UB
        | Some (m, l) =>
            let! w := w in let! h := h in let! depth := m in
            let total := u32 (w * h) in
            if m1 =? 51 then
              let! buf := read_ascii (N.to_nat total) depth (l, None, None) buf 0 in
              Ok (buf, true)
            else
              let l := skipn 1 l in
              let! (buf, idx) :=
                if depth <=? 255
                then read_rows (next8 depth) (u32 (w * 3)) (N.to_nat h) (N.to_nat w) l buf 0
                else read_rows (next16 depth) (2 * u32 (w * 3)) (N.to_nat h) (N.to_nat w) l buf 0 in
              Ok (buf, (idx =? Z.of_N total)%Z)
        end end end
  | _ => UB
  end.
