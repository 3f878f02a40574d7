(* What an obj file means, independently of how it is read. *)
From Verif Require Import Common DecimalModel.
Local Open Scope N_scope.

(* ---- statements and their text ---- *)

(* the indices of one vertex of a face: position, texture coordinate, normal *)
Record corner := mk_corner { c_v : Z; c_t : option Z; c_n : option Z }.

Inductive stmt :=
| SV (x y z : list N)        (* v  x y z *)
| ST (u v : list N)          (* vt u v *)
| SN (x y z : list N)        (* vn x y z *)
| SF (cs : list corner)      (* f  c1 c2 ... *)
| SU (name : list N)         (* usemtl name *)
| SO (name : list N)         (* o name *)
| SG (name : list N)         (* g name *)
| SX (line : list N).        (* anything else: comments, mtllib, s, ... *)

Definition show_int (z : Z) : list N :=
  if (z <? 0)%Z then 45 :: dec (Z.to_N (- z)) else dec (Z.to_N z).

(* v, v//n or v/t/n *)
Definition show_corner (c : corner) : list N :=
  show_int (c_v c) ++
  match c_t c, c_n c with
  | None, None => []
  | None, Some n => [47; 47] ++ show_int n
  | Some t, None => [47] ++ show_int t
  | Some t, Some n => [47] ++ show_int t ++ [47] ++ show_int n
  end.

Definition words (l : list (list N)) : list N := concat (map (cons 32) l).

Definition show (s : stmt) : list N :=
  match s with
  | SV x y z => [118] ++ words [x; y; z]
  | ST u v => [118; 116] ++ words [u; v]
  | SN x y z => [118; 110] ++ words [x; y; z]
  | SF cs => [102] ++ words (map show_corner cs)
  | SU n => [117; 115; 101; 109; 116; 108] ++ words [n]
  | SO n => [111] ++ words [n]
  | SG n => [103] ++ words [n]
  | SX l => l
  end ++ [10].

Definition show_doc (d : list stmt) : list N := concat (map show d).

(* a word: no blanks, line ends, NUL, nor the byte 7 *)
Definition word_char (c : N) : Prop := c <> 0 /\ c <> 7 /\ c <> 9 /\ c <> 10 /\ c <> 13 /\ c <> 32.
Definition word (w : list N) : Prop := w <> [] /\ Forall word_char w /\ (length w <= 254)%nat.

Definition int_range (z : Z) : Prop := (- 2 ^ 31 <= z < 2 ^ 31)%Z.

(* a corner that is not of the form v/t *)
Definition corner_ok (c : corner) : Prop :=
  int_range (c_v c) /\ (forall t, c_t c = Some t -> int_range t /\ c_n c <> None) /\
  (forall n, c_n c = Some n -> int_range n).

Definition stmt_ok (s : stmt) : Prop :=
  match s with
  | SV x y z | SN x y z => word x /\ word y /\ word z
  | ST u v => word u /\ word v
  | SF cs => Forall corner_ok cs
  | SU n | SO n | SG n => word n
  | SX l => ~ In 7 l /\ ~ In 10 l /\
            match l with [] => True | c :: _ => ~ In c [9; 32; 118; 117; 111; 103; 102] end
  end.

(* ---- meaning ---- *)

(* element i of a list counted from 1, or from the end if negative *)
Definition pick {A} (l : list A) (i : Z) : option A :=
  if (0 <? i)%Z then nth_error l (Z.to_nat (i - 1))
  else if (i <? 0)%Z && (- i <=? Z.of_nat (length l))%Z then nth_error l (Z.to_nat (Z.of_nat (length l) + i))
  else None.

Section Meaning.
  Context {F B : Type} (number : list N -> F) (zero one : F)
    (face_normal : F * F * F -> F * F * F -> F * F * F -> F * F * F)
    (library : list N -> option B) (default : B).

  (* position, normal, texture coordinate *)
  Definition point : Type := F * F * F.
  Definition vert : Type := point * point * (F * F).

  (* position, texture coordinate and normal named by a corner *)
  Definition corner_of (vs : list point) (ts : list (F * F)) (ns : list point) (c : corner)
    : option (point * option (F * F) * option point) :=
    match pick vs (c_v c) with
    | None => None
    | Some p =>
      match match c_t c with None => Some None | Some i => option_map Some (pick ts i) end,
            match c_n c with None => Some None | Some i => option_map Some (pick ns i) end with
      | Some t, Some n => Some (p, t, n)
      | _, _ => None
      end
    end.

  Fixpoint all {A} (l : list (option A)) : option (list A) :=
    match l with
    | [] => Some []
    | Some x :: l => match all l with Some l => Some (x :: l) | None => None end
    | None :: _ => None
    end.

  (* the triangles of a face: its first corner with every two consecutive other ones.  If a corner has no normal, all have the
     one of the face; if a corner has no texture coordinate, all triangles have the same
     three. *)
  Definition face_triangles (cs : list (point * option (F * F) * option point)) : list (vert * vert * vert) :=
    let has_t := forallb (fun c => match snd (fst c) with Some _ => true | None => false end) cs in
    let has_n := forallb (fun c => match snd c with Some _ => true | None => false end) cs in
    match cs with
    | c0 :: (c1 :: c2 :: _) as rest =>
      let fn := face_normal (fst (fst c0)) (fst (fst c1)) (fst (fst c2)) in
      let normal (c : point * option (F * F) * option point) :=
        match snd c with Some n => if has_n then n else fn | None => fn end in
      let texture (c : point * option (F * F) * option point) other :=
        match snd (fst c) with Some t => if has_t then t else other | None => other end in
      let v c other := (fst (fst c), normal c, texture c other) in
      map (fun bc => (v c0 (zero, zero), v (fst bc) (one, zero), v (snd bc) (one, one))) (combine rest (tl rest))
    | _ => []
    end.

  (* an object: its name, its triangles with their materials, the materials named in it *)
  Record object := mk_object {
    o_name : list N; o_faces : list (vert * vert * vert * B); o_mtls : list (list N) }.
  Definition object0 := mk_object [] [] [].

  Definition default_word : list N := [68; 101; 102; 97; 117; 108; 116].
  Definition unnamed : list N := [85; 110; 110; 97; 109; 101; 100].

  (* the material a name stands for, and whether it takes up an entry of its own *)
  Definition known (n : list N) : option B :=
    if list_eq_dec N.eq_dec n default_word then None else library n.
  Definition material (n : list N) : B := match known n with Some b => b | None => default end.

  Record state := mk_state {
    st_v : list point; st_t : list (F * F); st_n : list point;
    st_groups : bool;            (* objects are introduced by g *)
    st_mat : B;                  (* the material of the next face *)
    st_done : list object; st_cur : object }.
  Definition state0 := mk_state [] [] [] false default [] object0.

  Definition name_object (o : object) n := mk_object n (o_faces o) (o_mtls o).

  (* a new object: the first name goes to the object that is being read *)
  Definition new_object (s : state) (groups : bool) (n : list N) : state :=
    match o_name (st_cur s) with
    | [] => mk_state (st_v s) (st_t s) (st_n s) groups (st_mat s) (st_done s) (name_object (st_cur s) n)
    | _ => mk_state (st_v s) (st_t s) (st_n s) groups default (st_done s ++ [st_cur s]) (name_object object0 n)
    end.

  Definition is_empty {A} (l : list A) : bool := match l with [] => true | _ => false end.

  (* [None]: a face with less than three corners, or an index of nothing *)
  Definition step (s : state) (x : stmt) : option state :=
    match x with
    | SV a b c => Some (mk_state (st_v s ++ [(number a, number b, number c)]) (st_t s) (st_n s)
                                 (st_groups s) (st_mat s) (st_done s) (st_cur s))
    | ST a b => Some (mk_state (st_v s) (st_t s ++ [(number a, number b)]) (st_n s)
                               (st_groups s) (st_mat s) (st_done s) (st_cur s))
    | SN a b c => Some (mk_state (st_v s) (st_t s) (st_n s ++ [(number a, number b, number c)])
                                 (st_groups s) (st_mat s) (st_done s) (st_cur s))
    | SF cs =>
      match all (map (corner_of (st_v s) (st_t s) (st_n s)) cs) with
      | Some cs =>
        if (3 <=? length cs)%nat then
          Some (mk_state (st_v s) (st_t s) (st_n s) (st_groups s) (st_mat s) (st_done s)
                 (mk_object (o_name (st_cur s))
                    (o_faces (st_cur s) ++ map (fun t => (t, st_mat s)) (face_triangles cs)) (o_mtls (st_cur s))))
        else None
      | None => None
      end
    | SU n =>
      let m := o_mtls (st_cur s) in
      let m := match known n with
               | None => m
               | Some _ => if in_dec (list_eq_dec N.eq_dec) n m then m else m ++ [n]
               end in
      Some (mk_state (st_v s) (st_t s) (st_n s) (st_groups s) (material n) (st_done s)
              (mk_object (o_name (st_cur s)) (o_faces (st_cur s)) m))
    | SO n => Some (new_object s (st_groups s) n)
    | SG n => if st_groups s || is_empty (o_name (st_cur s)) then Some (new_object s true n) else Some s
    | SX _ => Some s
    end.

  Fixpoint steps (s : state) (d : list stmt) : option state :=
    match d with
    | [] => Some s
    | x :: d => match step s x with Some s => steps s d | None => None end
    end.

  (* the objects of a document in order *)
  Definition objects (d : list stmt) : option (list object) :=
    match steps state0 d with
    | Some s =>
      let o := st_cur s in
      Some (st_done s ++ [match o_name o with [] => name_object o unnamed | _ => o end])
    | None => None
    end.

  (* the objects before the first one without faces *)
  Fixpoint until_empty (l : list object) : list object :=
    match l with
    | [] => []
    | o :: l => if is_empty (o_faces o) then [] else o :: until_empty l
    end.
End Meaning.
