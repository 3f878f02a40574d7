(* The member functions of src/geometry/vec3.cpp and src/geometry/matrix4.cpp that write into
   an object, as sequences of assignments to floats in memory, so that arguments may be the
   same object.  Exact arithmetic over the real numbers; x / 0 is what the library defines. *)
From Coq Require Import Reals Lra List Arith.
From Verif Require Import RVecModel MatModel.
Import ListNotations.
Local Open Scope R_scope.

(* objects are numbered; the floats of an object are its components: 0, 1, 2 are x, y, z of a
   Vec3, 0 to 15 are m00 to m33 of a Matrix4 *)
Definition mem := nat -> nat -> R.
Definition store (m : mem) (o k : nat) (v : R) : mem :=
  fun o' k' => if (Nat.eqb o o' && Nat.eqb k k')%bool then v else m o' k'.

(* an assignment to component k of o of an expression that reads the memory *)
Record assign := mk_assign { as_obj : nat; as_comp : nat; as_expr : mem -> R }.
Definition run (l : list assign) (m : mem) : mem :=
  fold_left (fun m a => store m (as_obj a) (as_comp a) (as_expr a m)) l m.

Definition vec_at (m : mem) (o : nat) : rv := RV (m o 0%nat) (m o 1%nat) (m o 2%nat).
Definition mat_at (m : mem) (o : nat) : rmat :=
  RM (m o 0%nat) (m o 1%nat) (m o 2%nat) (m o 3%nat) (m o 4%nat) (m o 5%nat) (m o 6%nat) (m o 7%nat)
     (m o 8%nat) (m o 9%nat) (m o 10%nat) (m o 11%nat) (m o 12%nat) (m o 13%nat) (m o 14%nat) (m o 15%nat).

(* vec3.cpp:336-341 += , 360-365 -= , 384-389 *= , 422-434 /= without DEBUG *)
Definition componentwise (op : R -> R -> R) (this v : nat) : list assign :=
  map (fun k => mk_assign this k (fun m => op (m this k) (m v k))) [0%nat; 1%nat; 2%nat].
Definition add_assign := componentwise Rplus.
Definition sub_assign := componentwise Rminus.
Definition mul_assign := componentwise Rmult.
Definition div_assign := componentwise Rdiv.

(* vec3.cpp:180-196: `if(x<min.x) x = min.x; else if(x>max.x) x = max.x;` for each component *)
Definition clamp_assign (this mn mx : nat) : list assign :=
  map (fun k => mk_assign this k (fun m =>
    if Rlt_dec (m this k) (m mn k) then m mn k
    else if Rgt_dec (m this k) (m mx k) then m mx k else m this k)) [0%nat; 1%nat; 2%nat].

(* vec3.cpp:210-231 and 233-254: the three results are computed before they are stored *)
Definition max_assign (this v : nat) (m : mem) : mem :=
  let pick k := if Rgt_dec (m this k) (m v k) then m this k else m v k in
  let x := pick 0%nat in let y := pick 1%nat in let z := pick 2%nat in
  store (store (store m this 0%nat x) this 1%nat y) this 2%nat z.
Definition min_assign (this v : nat) (m : mem) : mem :=
  let pick k := if Rlt_dec (m this k) (m v k) then m this k else m v k in
  let x := pick 0%nat in let y := pick 1%nat in let z := pick 2%nat in
  store (store (store m this 0%nat x) this 1%nat y) this 2%nat z.

(* vec3.cpp:256-266 and 268-278: the product is computed first *)
Definition reflect_assign (this centre : nat) (m : mem) : mem :=
  let dot := rdot (vec_at m this) (vec_at m centre) in
  run (map (fun k => mk_assign this k (fun m => m this k - (2 * dot) * m centre k)) [0%nat; 1%nat; 2%nat]) m.

(* vec3.cpp:280-300; false leaves the vector alone *)
Definition refract_assign (this interface : nat) (eta : R) (m : mem) : bool * mem :=
  let cosi := rdot (vec_at m this) (vec_at m interface) in
  let sin2i := Rmax 0 (1 - cosi * cosi) in
  let sin2t := sin2i * eta * eta in
  if Rlt_dec 1 sin2t then (false, m)
  else
    let cost := sqrt (1 - sin2t) in
    (* `*this = -*this*eta;` *)
    let t := rscale eta (rneg (vec_at m this)) in
    let m := store (store (store m this 0%nat (rx t)) this 1%nat (ry t)) this 2%nat (rz t) in
    (* `interface*(cosi*eta-cost)` is a temporary, then += *)
    let u := rscale (cosi * eta - cost) (vec_at m interface) in
    (true, store (store (store m this 0%nat (m this 0%nat + rx u)) this 1%nat (m this 1%nat + ry u)) this 2%nat (m this 2%nat + rz u)).

(* vec3.cpp:121-126 *)
Definition cross_into (this target output : nat) : list assign :=
  [ mk_assign output 0%nat (fun m => m this 1%nat * m target 2%nat - m this 2%nat * m target 1%nat);
    mk_assign output 1%nat (fun m => m this 2%nat * m target 0%nat - m this 0%nat * m target 2%nat);
    mk_assign output 2%nat (fun m => m this 0%nat * m target 1%nat - m this 1%nat * m target 0%nat) ].

(* matrix4.cpp:273-291 *)
Definition transpose_into (this output : nat) : list assign :=
  map (fun k => mk_assign output k (fun m => m this (4 * (k mod 4) + k / 4)%nat)) (seq 0 16).

(* writing sixteen values that were computed before *)
Definition store_mat (o : nat) (v : rmat) (m : mem) : mem :=
  run (map (fun p => mk_assign o (fst p) (fun _ => snd p))
        (combine (seq 0 16) [m00 v; m01 v; m02 v; m03 v; m10 v; m11 v; m12 v; m13 v;
                             m20 v; m21 v; m22 v; m23 v; m30 v; m31 v; m32 v; m33 v])) m.
(* matrix4.cpp:293-435: the adjugate and the determinant are computed before the output is
   written *)
Definition inverse_into (this output : nat) (m : mem) : bool * mem :=
  match m_inverse (mat_at m this) with
  | None => (false, m)
  | Some v => (true, store_mat output v m)
  end.
(* matrix4.cpp:624-723: the product is computed before it is written *)
Definition mul_assign_mat (this mat : nat) (m : mem) : mem :=
  store_mat this (m_mul (mat_at m this) (mat_at m mat)) m.
