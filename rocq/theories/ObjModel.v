(* The Wavefront obj reader, src/parsers/parser_obj.cpp, and the loop that calls
   it, src/parsers/config_driver.cpp.  Characters are their codes.  Line numbers
   of error messages, and the messages, are not modelled. *)
From Verif Require Import Common DecimalModel MeshModel.
Local Open Scope N_scope.

(* ---- the input buffer ---- *)

(* parser_obj.cpp:9 *)
Definition guard : N := 7.
Definition ch_space : N := 32.
Definition ch_tab : N := 9.
Definition ch_nl : N := 10.
Definition ch_cr : N := 13.
Definition ch_slash : N := 47.

(* parser_obj.hpp:148-156: [s_cur] is the part of buffer_ro from [buffer] on,
   without the guard stored after it; [s_rest] is what fread has not returned yet *)
Record src := mk_src { s_cur : list N; s_rest : list N }.

(* *buffer: after the last character there is the guard *)
Definition peek (s : src) : N := match s_cur s with [] => guard | c :: _ => c end.

(* buffer++: only ever applied to a character that is not the guard *)
Definition advance (s : src) : src := mk_src (tl (s_cur s)) (s_rest s).

(* parser_obj.cpp:521-525 followed by "buffer = buffer_ro": the next [bs] bytes of
   the file (BUFFER_SIZE, lines 3-8); fread returns less only at the end *)
Definition feed (bs : nat) (s : src) : src := mk_src (firstn bs (s_rest s)) (skipn bs (s_rest s)).

(* parser_obj.cpp:42-47 *)
Definition open_text (bs : nat) (text : list N) : src := feed bs (mk_src [] text).

(* parser_obj.cpp:477-494: skip spaces *)
Fixpoint skip_spaces (bs fuel : nat) (s : src) : res src :=
  match fuel with
  | O => OutOfFuel
  | S fuel =>
    let c := peek s in
    if c =? guard then skip_spaces bs fuel (feed bs s)
    else if (c =? ch_space) || (c =? ch_tab) then skip_spaces bs fuel (advance s)
    else Ok s
  end.

(* parser_obj.cpp:12,10: TOKEN_SIZE *)
Definition token_size : nat := 255.

(* the array [token] of get_next_mesh, parser_obj.cpp:88: [None] is a byte never
   written *)
Definition mem := list (option N).
Definition fresh_token : mem := repeat None token_size.

(* parser_obj.cpp:497-517: the characters of the token, in reverse; those beyond
   max_size-1 are read but not stored *)
Fixpoint read_chars (bs fuel : nat) (s : src) (acc : list N) : res (src * list N) :=
  match fuel with
  | O => OutOfFuel
  | S fuel =>
    let c := peek s in
    if (c =? ch_space) || (c =? ch_nl) || (c =? ch_cr) then Ok (s, acc)
    else if c =? guard then read_chars bs fuel (feed bs s) acc
    else read_chars bs fuel (advance s)
           (if (length acc <? token_size - 1)%nat then c :: acc else acc)
  end.

(* what the array holds after the characters [l] and a NUL are stored from its
   beginning on (parser_obj.cpp:513, 518): the bytes behind keep their old value *)
Definition store (l : list N) (m : mem) : mem :=
  map Some l ++ Some 0 :: skipn (S (length l)) m.

(* parser_obj.cpp:472-519 *)
Definition get_next_token (bs fuel : nat) (s : src) (m : mem) : res (src * mem) :=
  let! s := skip_spaces bs fuel s in
  let! (s, acc) := read_chars bs fuel s [] in
  Ok (s, store (rev acc) m).

(* parser_obj.cpp:378-387 *)
Fixpoint skip_line_loop (bs fuel : nat) (s : src) : res src :=
  match fuel with
  | O => OutOfFuel
  | S fuel =>
    let c := peek s in
    if c =? ch_nl then Ok s
    else if c =? guard then skip_line_loop bs fuel (feed bs s)
    else skip_line_loop bs fuel (advance s)
  end.

(* parser_obj.cpp:377-401: the character found is a newline, so the test of line 389
   always holds *)
Definition skip_line (bs fuel : nat) (s : src) : res src :=
  let! s := skip_line_loop bs fuel s in
  let s := advance s in
  Ok (if peek s =? guard then feed bs s else s).

(* The three ways in which get_next_mesh uses its input.  The parser below is written
   against them, so that the same function can be run on the buffered file and on the
   plain text. *)
Record input (T : Type) := mk_input {
  in_peek : T -> N;                          (* *buffer *)
  in_token : T -> mem -> res (T * mem);      (* get_next_token *)
  in_line : T -> res T                       (* the rest of the line *)
}.
Arguments in_peek {T}. Arguments in_token {T}. Arguments in_line {T}.

Definition buffered (bs fuel : nat) : input src :=
  mk_input src peek (get_next_token bs fuel) (skip_line bs fuel).

(* ---- C library functions on the token ---- *)

(* a byte of the array: undefined if outside or never written *)
Definition mget (m : mem) (i : nat) : res N :=
  match nth_error m i with Some (Some c) => Ok c | _ => UB end.

(* the NUL terminated string at the start of [m] *)
Fixpoint cstr (m : mem) : res (list N) :=
  match m with
  | Some c :: m => if c =? 0 then Ok [] else let! l := cstr m in Ok (c :: l)
  | _ => UB
  end.

(* isspace in the C locale *)
Definition is_white (c : N) : bool := (c =? 32) || ((9 <=? c) && (c <=? 13)).

(* strtol, base 10: the length of the leading white space *)
Fixpoint white_len (m : mem) : res nat :=
  match m with
  | Some c :: m => if is_white c then let! n := white_len m in Ok (S n) else Ok O
  | _ => UB
  end.

(* strtol: the value and the number of the leading digits *)
Fixpoint digits_of (m : mem) (acc : N) (len : nat) : res (N * nat) :=
  match m with
  | Some c :: m => if is_digit c then digits_of m (10 * acc + (c - 48)) (S len) else Ok (acc, len)
  | _ => UB
  end.

(* "(int)strtol(token+i, &end, 10)": the value, saturated to the range of a 64 bit
   long and then converted to int, and the index of the first character not used (i
   itself if there is no number) *)
Definition strtol (m : mem) (i : nat) : res (Z * nat) :=
  let! w := white_len (skipn i m) in
  let! c := mget m (i + w) in
  let neg := c =? 45 in
  let j := if neg || (c =? 43) then (i + w + 1)%nat else (i + w)%nat in
  let! (v, len) := digits_of (skipn j m) 0 0 in
  if (len =? 0)%nat then Ok (0%Z, i)
  else
    let z := if neg then (- Z.of_N v)%Z else Z.of_N v in
    Ok (int32 (pat32 (Z.max (- 2 ^ 63) (Z.min z (2 ^ 63 - 1)))), (j + len)%nat).

(* parser_obj.cpp:230-244: the indices of one vertex of a face *)
Definition face_indices (m : mem) : res (Z * Z * Z) :=
  let! (v, i) := strtol m 0 in
  let! c := mget m i in
  if c =? 0 then Ok (v, 0%Z, 0%Z)
  else
    let i := (i + 1)%nat in
    let! c := mget m i in
    let! (t, i) := if c =? ch_slash then Ok (0%Z, i) else strtol m i in
    let i := (i + 1)%nat in
    let! (n, _) := strtol m i in
    Ok (v, t, n).

(* ---- vertices, materials ---- *)

(* the outcome of looking up an index: index 0 means that it was not given; [Refused]
   is the "return false" of lines 253-259; [Threw] is the std::out_of_range of
   std::vector::at, which nobody catches *)
Inductive lookup (A : Type) := Missing | Found (a : A) | Refused | Threw.
Arguments Missing {A}. Arguments Found {A}. Arguments Refused {A}. Arguments Threw {A}.

(* std::vector::at applied to an int converted to unsigned long *)
Definition vec_at {A} (l : list A) (i : Z) : lookup A :=
  if (i <? 0)%Z then Threw
  else match nth_error l (Z.to_nat i) with Some a => Found a | None => Threw end.

(* parser_obj.cpp:246-261, and 262-277, 282-297.  The size of the vector, an int in
   the source, is assumed to be less than 2^31. *)
Definition find_index {A} (l : list A) (i : Z) : lookup A :=
  let size := Z.of_nat (length l) in
  if (i =? 0)%Z then Missing
  else if (i <? 0)%Z then vec_at l (size + i)
  else if (i <=? size)%Z then vec_at l (i - 1)
  else Refused.

(* parser_obj.cpp:152: the word usemtl *)
Definition word_usemtl : list N := [117; 115; 101; 109; 116; 108].
(* parser_obj.cpp:86: the word Default *)
Definition word_default : list N := [68; 101; 102; 97; 117; 108; 116].
(* parser_obj.cpp:413: the word Unnamed *)
Definition word_unnamed : list N := [85; 110; 110; 97; 109; 101; 100].

Definition str_eqb (a b : list N) : bool := if list_eq_dec N.eq_dec a b then true else false.

Definition is_nil {A} (l : list A) : bool := match l with [] => true | _ => false end.

Definition upd {A} (l : list A) (i : nat) (x : A) : list A := firstn i l ++ x :: skipn (S i) l.

(* ---- the compaction of the materials ---- *)

(* parser_obj.cpp:424-430: the array count (-1 is None) and the number of materials
   in use (index+1) *)
Definition count_step (st : list (option N) * N) (a : N) : list (option N) * N :=
  let (count, used) := st in
  match nth (N.to_nat a) count None with
  | None => (upd count (N.to_nat a) (Some used), used + 1)
  | Some _ => st
  end.
Definition count_used (assoc : list N) : list (option N) * N :=
  fold_left count_step assoc (repeat None 256, 0).

(* parser_obj.cpp:433-437: [i] is the index in count of the first element of the list *)
Fixpoint move_materials {B} (old : list B) (i : nat) (count : list (option N)) (out : list (option B))
  : res (list (option B)) :=
  match count with
  | [] => Ok out
  | None :: count => move_materials old (S i) count out
  | Some k :: count =>
    match nth_error old i with
    | Some b => if (N.to_nat k <? length out)%nat
                then move_materials old (S i) count (upd out (N.to_nat k) (Some b)) else UB
    | None => UB
    end
  end.

(* parser_obj.cpp:414-441 for at least one face: the new materials, where [None] is the
   null pointer of resize, and the new material of every face.  The number of faces is
   less than 2^32. *)
Definition compact {B} (mats : list B) (assoc : list N) : res (list (option B) * list N) :=
  let (count, used) := count_used assoc in
  let! out := move_materials mats 0 count (repeat None (N.to_nat used)) in
  Ok (out, map (fun a => match nth (N.to_nat a) count None with Some k => k | None => 255 end) assoc).

Section Parser.
  (* float, and the functions on it: strtof on a string, the literals 0 and 1, the
     normal of a face computed from its first three points (lines 317-320); Bsdf
     pointers, MtlLib.get and MtlLib.get_default *)
  Context {F B : Type} (strtof : list N -> F) (f0 f1 : F)
    (face_normal : F * F * F -> F * F * F -> F * F * F -> F * F * F)
    (mtl_get : list N -> option B) (mtl_default : B).

  (* triangle.hpp:31-46; the constructors of Point3, Normal and Point2 set zeros *)
  Record vertex := mk_vertex { vx_p : F * F * F; vx_n : F * F * F; vx_t : F * F }.
  Definition vertex0 := mk_vertex (f0, f0, f0) (f0, f0, f0) (f0, f0).
  Definition set_p p v := mk_vertex p (vx_n v) (vx_t v).
  Definition set_n n v := mk_vertex (vx_p v) n (vx_t v).
  Definition set_t t v := mk_vertex (vx_p v) (vx_n v) t.
  Definition tri : Type := vertex * vertex * vertex.

  (* the members that outlive a call of get_next_mesh, parser_obj.hpp:148-182 *)
  Record parser (T : Type) := mk_parser {
    p_src : T; p_craft : N; p_groups : bool;
    p_vertices : list (F * F * F); p_textures : list (F * F); p_normals : list (F * F * F) }.
  Arguments mk_parser {T}. Arguments p_src {T}. Arguments p_craft {T}. Arguments p_groups {T}.
  Arguments p_vertices {T}. Arguments p_textures {T}. Arguments p_normals {T}.

  (* the local variables of get_next_mesh, with the members that it resets; face_no is
     the length of material_association *)
  Record locals := mk_locals {
    l_mats : list B; l_assoc : list N; l_used : list (list N * N); l_current : N;
    l_name : list N; l_mesh : mesh tri; l_ret : bool }.

  (* what the getters give after get_next_mesh *)
  Record result := mk_result {
    r_ret : bool; r_name : list N; r_mats : list (option B); r_assoc : list N; r_mesh : mesh tri }.

  (* get_next_mesh returns, or an exception leaves it *)
  Inductive outcome := Returned (r : result) | Thrown.

  (* parser_obj.cpp:407-442; of Mesh::finalize only the buffer *)
  Definition finalize_mesh (l : locals) (ret : bool) : res outcome :=
    let name := if is_nil (l_name l) then word_unnamed else l_name l in
    let m := mesh_trim (l_mesh l) in
    if is_nil (l_assoc l) then Ok (Returned (mk_result ret name (map Some (l_mats l)) [] m))
    else
      let! (mats, assoc) := compact (l_mats l) (l_assoc l) in
      Ok (Returned (mk_result ret name mats assoc m)).

  (* parser_obj.cpp:230-302: one vertex of a face, and whether its texture coordinate
     and its normal are missing; [None] is an error *)
  Inductive face_vertex := FVertex (v : vertex) (no_t no_n : bool) | FRefused | FThrew.
  Definition read_vertex (vs : list (F * F * F)) (ts : list (F * F)) (ns : list (F * F * F)) (m : mem)
    : res face_vertex :=
    let! (vi, ti, ni) := face_indices m in
    let v := vertex0 in
    match find_index vs vi with
    | Refused => Ok FRefused
    | Threw => Ok FThrew
    | rv =>
      let v := match rv with Found p => set_p p v | _ => v end in
      match find_index ts ti with
      | Refused => Ok FRefused
      | Threw => Ok FThrew
      | rt =>
        let v := match rt with Found t => set_t t v | _ => v end in
        match find_index ns ni with
        | Refused => Ok FRefused
        | Threw => Ok FThrew
        | rn =>
          let v := match rn with Found n => set_n n v | _ => v end in
          Ok (FVertex v (match rt with Found _ => false | _ => true end)
                        (match rn with Found _ => false | _ => true end))
        end
      end
    end.

  Section Input.
    Context {T : Type} (I : input T).

    Inductive face_line := FLine (vs : list vertex) (no_t no_n : bool) | FLRefused | FLThrew.

    (* parser_obj.cpp:226-310: the vertices in order, the flags are set if any vertex
       sets them *)
    Fixpoint read_face (fuel : nat) (vs : list (F * F * F)) (ts : list (F * F)) (ns : list (F * F * F))
        (s : T) (m : mem) (acc : list vertex) (no_t no_n : bool) : res (T * mem * face_line) :=
      match fuel with
      | O => OutOfFuel
      | S fuel =>
        if in_peek I s =? ch_space then
          let! (s, m) := in_token I s m in
          let! fv := read_vertex vs ts ns m in
          match fv with
          | FVertex v t n => read_face fuel vs ts ns s m (acc ++ [v]) (no_t || t) (no_n || n)
          | FRefused => Ok (s, m, FLRefused)
          | FThrew => Ok (s, m, FLThrew)
          end
        else Ok (s, m, FLine acc no_t no_n)
      end.

    (* parser_obj.cpp:311-323 *)
    Definition with_normals (no_n : bool) (vs : list vertex) : res (list vertex) :=
      if no_n then
        match vs with
        | a :: b :: c :: _ => Ok (map (set_n (face_normal (vx_p a) (vx_p b) (vx_p c))) vs)
        | _ => UB
        end
      else Ok vs.

    (* parser_obj.cpp:349-364: the triangles after the first; [prev] is face_tmp[i-1] *)
    Fixpoint fan (no_t : bool) (first prev : vertex) (rest : list vertex) : list tri :=
      match rest with
      | [] => []
      | x :: rest =>
        let prev := if no_t then set_t (f1, f0) prev else prev in
        let x := if no_t then set_t (f1, f1) x else x in
        (first, prev, x) :: fan no_t first x rest
      end.

    (* parser_obj.cpp:324-370: [None] if there are less than three vertices *)
    Definition triangulate (no_t : bool) (vs : list vertex) : option (list tri) :=
      match vs with
      | a :: b :: c :: rest =>
        let a := if no_t then set_t (f0, f0) a else a in
        let b := if no_t then set_t (f1, f0) b else b in
        let c := if no_t then set_t (f1, f1) c else c in
        Some ((a, b, c) :: fan no_t a c rest)
      | _ => None
      end.

    (* what the switch decides: go on with the rest of the line, or leave *)
    Inductive action := Go (p : parser T) (m : mem) (l : locals) | Leave (p : parser T) (o : outcome).

    Definition leave (p : parser T) (l : locals) (ret : bool) : res action :=
      let! o := finalize_mesh l ret in Ok (Leave p o).

    Definition with_src (p : parser T) (s : T) : parser T :=
      mk_parser s (p_craft p) (p_groups p) (p_vertices p) (p_textures p) (p_normals p).

    (* a token read as a float *)
    Definition token_float (s : T) (m : mem) : res (T * mem * F) :=
      let! (s, m) := in_token I s m in
      let! l := cstr m in
      Ok (s, m, strtof l).

    Definition token_float3 (s : T) (m : mem) : res (T * mem * (F * F * F)) :=
      let! (s, m, x) := token_float s m in
      let! (s, m, y) := token_float s m in
      let! (s, m, z) := token_float s m in
      Ok (s, m, (x, y, z)).

    (* parser_obj.cpp:102-149: case 'v' *)
    Definition case_v (p : parser T) (m : mem) (l : locals) : res action :=
      let! c := mget m 1 in
      if c =? 116 then
        let! (s, m, u) := token_float (p_src p) m in
        let! (s, m, v) := token_float s m in
        Ok (Go (mk_parser s (p_craft p) (p_groups p) (p_vertices p) (p_textures p ++ [(u, v)]) (p_normals p)) m l)
      else
        let! (s, m, x) := token_float3 (p_src p) m in
        if c =? 110 then
          Ok (Go (mk_parser s (p_craft p) (p_groups p) (p_vertices p) (p_textures p) (p_normals p ++ [x])) m l)
        else
          Ok (Go (mk_parser s (p_craft p) (p_groups p) (p_vertices p ++ [x]) (p_textures p) (p_normals p)) m l).

    Definition with_material (l : locals) mats used cur : locals :=
      mk_locals mats (l_assoc l) used cur (l_name l) (l_mesh l) (l_ret l).

    (* parser_obj.cpp:158-179: the material called [name] becomes the current one *)
    Definition use_material (l : locals) (name : list N) : locals :=
      match find (fun e => str_eqb (fst e) name) (l_used l) with
      | Some (_, i) => with_material l (l_mats l) (l_used l) i
      | None =>
        match mtl_get name with
        | None => with_material l (l_mats l) ((name, 0) :: l_used l) 0
        | Some b =>
          let cur := u8 (N.of_nat (length (l_mats l))) in
          with_material l (l_mats l ++ [b]) ((name, cur) :: l_used l) cur
        end
      end.

    (* parser_obj.cpp:150-182: case 'u' *)
    Definition case_u (p : parser T) (m : mem) (l : locals) : res action :=
      let! w := cstr m in
      if str_eqb w word_usemtl then
        let! (s, m) := in_token I (p_src p) m in
        let! name := cstr m in
        Ok (Go (with_src p s) m (use_material l name))
      else Ok (Go p m l).

    Definition with_name (l : locals) (n : list N) : locals :=
      mk_locals (l_mats l) (l_assoc l) (l_used l) (l_current l) n (l_mesh l) (l_ret l).

    (* parser_obj.cpp:183-201: case 'o' *)
    Definition case_o (p : parser T) (m : mem) (l : locals) : res action :=
      if negb (is_nil (l_name l)) then
        leave (mk_parser (p_src p) 111 (p_groups p) (p_vertices p) (p_textures p) (p_normals p)) l (l_ret l)
      else
        let! (s, m) := in_token I (p_src p) m in
        let! name := cstr m in
        Ok (Go (with_src p s) m (with_name l name)).

    (* parser_obj.cpp:202-221: case 'g' *)
    Definition case_g (p : parser T) (m : mem) (l : locals) : res action :=
      if negb (is_nil (l_name l)) && p_groups p then
        leave (mk_parser (p_src p) 103 (p_groups p) (p_vertices p) (p_textures p) (p_normals p)) l (l_ret l)
      else if is_nil (l_name l) || p_groups p then
        let! (s, m) := in_token I (p_src p) m in
        let! name := cstr m in
        Ok (Go (mk_parser s (p_craft p) true (p_vertices p) (p_textures p) (p_normals p)) m (with_name l name))
      else Ok (Go p m l).

    (* parser_obj.cpp:222-373: case 'f' *)
    Definition case_f (fuel : nat) (p : parser T) (m : mem) (l : locals) : res action :=
      let! (s, m, fl) := read_face fuel (p_vertices p) (p_textures p) (p_normals p) (p_src p) m [] false false in
      let p := with_src p s in
      match fl with
      | FLRefused => leave p l false
      | FLThrew => Ok (Leave p Thrown)
      | FLine vs no_t no_n =>
        let! vs := with_normals no_n vs in
        match triangulate no_t vs with
        | None => leave p l false
        | Some ts =>
          let! mm := add_triangles (l_mesh l) ts in
          Ok (Go p m (mk_locals (l_mats l) (l_assoc l ++ repeat (l_current l) (length ts)) (l_used l) (l_current l)
                                (l_name l) mm true))
        end
      end.

    (* parser_obj.cpp:100-376: the switch *)
    Definition switch (fuel : nat) (p : parser T) (m : mem) (l : locals) : res action :=
      let! c := mget m 0 in
      if c =? 118 then case_v p m l
      else if c =? 117 then case_u p m l
      else if c =? 111 then case_o p m l
      else if c =? 103 then case_g p m l
      else if c =? 102 then case_f fuel p m l
      else Ok (Go p m l).

    (* parser_obj.cpp:91-99 *)
    Definition keyword (p : parser T) (m : mem) : res (parser T * mem) :=
      if negb (p_craft p =? 0) then
        Ok (mk_parser (p_src p) 0 (p_groups p) (p_vertices p) (p_textures p) (p_normals p), store [p_craft p] m)
      else let! (s, m) := in_token I (p_src p) m in Ok (with_src p s, m).

    (* parser_obj.cpp:89-404: the loop over the lines *)
    Fixpoint lines (fuel : nat) (p : parser T) (m : mem) (l : locals) : res (parser T * outcome) :=
      match fuel with
      | O => OutOfFuel
      | S fuel' =>
        if in_peek I (p_src p) =? guard then let! o := finalize_mesh l (l_ret l) in Ok (p, o)
        else
          let! (p, m) := keyword p m in
          let! a := switch fuel p m l in
          match a with
          | Leave p o => Ok (p, o)
          | Go p m l => let! s := in_line I (p_src p) in lines fuel' (with_src p s) m l
          end
      end.

    (* parser_obj.cpp:66-88, for a file that could be opened *)
    Definition get_next_mesh (fuel : nat) (p : parser T) (obj : mesh tri) : res (parser T * outcome) :=
      lines fuel p fresh_token (mk_locals [mtl_default] [] [(word_default, 0)] 0 [] obj false).

    (* what config_driver keeps of every mesh: config_driver.cpp:540-548.  The array for
       the materials has room for get_material_no of them, an unsigned char, and
       get_materials (parser_obj.cpp:455-459) writes up to 256. *)
    Definition keep_mesh (r : result) : res result :=
      let no := u8 (N.of_nat (length (r_mats r))) in
      if N.of_nat (Nat.min (length (r_mats r)) 256) <=? no then
        Ok (mk_result (r_ret r) (r_name r) (firstn 256 (r_mats r)) (r_assoc r) (r_mesh r))
      else UB.

    (* config_driver.cpp:537-569: the meshes of the file; [None] stands for an exception
       that leaves the program *)
    Fixpoint load (calls fuel : nat) (p : parser T) : res (option (list result)) :=
      match calls with
      | O => OutOfFuel
      | S calls =>
        let! (p, o) := get_next_mesh fuel p (mesh_new 1) in
        match o with
        | Thrown => Ok None
        | Returned r =>
          if r_ret r then
            let! r := keep_mesh r in
            let! rest := load calls fuel p in
            Ok (match rest with Some rs => Some (r :: rs) | None => None end)
          else Ok (Some [])
        end
      end.
  End Input.

  (* parser_obj.cpp:32-50: a new file is opened; the vectors are those of the parser, so
     a parser used before keeps the vertices of the files it has read *)
  Definition start_parsing {T T'} (old : option (parser T')) (s : T) : parser T :=
    match old with
    | None => mk_parser s 0 false [] [] []
    | Some p => mk_parser s 0 false (p_vertices p) (p_textures p) (p_normals p)
    end.

  (* config_driver.cpp:535-569 on a file with the content [text], read with a buffer of
     [bs] bytes; [fuel] bounds the iterations of every loop *)
  Definition load_obj (bs fuel : nat) (text : list N) : res (option (list result)) :=
    load (buffered bs fuel) fuel fuel (start_parsing (T' := src) None (open_text bs text)).
End Parser.

(* asset.cpp:70-81: get_material after set_materials with what was kept of a mesh *)
Definition get_material {B} (mats : list (option B)) (assoc : list N) (face : nat) : res (option B) :=
  match nth_error assoc face with
  | Some i => match nth_error mats (N.to_nat i) with Some b => Ok b | None => UB end
  | None => UB
  end.
