(* Model of src/primitives/triangle.cpp in exact arithmetic (see GeomModel). *)
From Verif Require Export Common GeomModel AabbModel.
Local Open Scope Q_scope.

(* settings.h: SELF_INTERSECT_ERROR, the value of the float 1e-2f *)
Definition self_err : Q := 5368709 # 536870912.

(* triangle.hpp: Vertex, Triangle *)
Record vertex := mk_vertex { v_p : vec; v_n : vec; v_t : Q * Q }.
Record triangle := mk_tri { t_a : vertex; t_b : vertex; t_c : vertex }.

(* hit_point.hpp, without the asset *)
Record hit := mk_hit
  { h_point : vec; h_normal : vec; h_dpdu : xvec; h_dpdv : xvec; h_index : nat;
    h_uv : Q * Q; h_du : Q * Q; h_dv : Q * Q; h_diff : bool }.

(* triangle.cpp:12-20 *)
Definition tri_aabb (T : triangle) : aabb :=
  let a := v_p (t_a T) in let b := v_p (t_b T) in let c := v_p (t_c T) in
  aabb_of (pmin (pmin a b) c) (pmax (pmax a b) c).

Definition xscale (v : vec) (s : xq) : xvec :=
  XV (xmul (Fin (vx v)) s) (xmul (Fin (vy v)) s) (xmul (Fin (vz v)) s).

(* triangle.cpp:55-122.  Some (d, h) is `true` with d stored in *distance and the
   hit point h; None is `false`, which leaves both untouched.  [masked] is
   mask->is_masked.  A zero uvdet is taken to be the positive zero. *)
Definition tri_intersect (masked : hit -> bool) (T : triangle) (r : ray) (distance : xq)
    (h : hit) : option (Q * hit) :=
  let a := t_a T in let b := t_b T in let c := t_c T in
  let ba := vsub (v_p b) (v_p a) in
  let ca := vsub (v_p c) (v_p a) in
  let pv := cross (r_d r) ca in
  let det := dot pv ba in
  if Qeq_bool det 0 then None
  else
    let invdet := / det in
    let tv := vsub (r_o r) (v_p a) in
    let u := dot pv tv * invdet in
    if qltb u 0 || qltb 1 u then None
    else
      let qv := cross tv ba in
      let v := dot (r_d r) qv * invdet in
      if qltb v 0 || qltb 1 (u + v) then None
      else
        let dist := dot ca qv * invdet in
        if qltb dist self_err || xlt distance (Fin dist) then None
        else
          let w := 1 - u - v in
          let ta := v_t a in let tb := v_t b in let tc := v_t c in
          let d00 := fst ta - fst tc in let d01 := fst tb - fst tc in
          let d10 := snd ta - snd tc in let d11 := snd tb - snd tc in
          let uvdet := d00 * d11 - d01 * d10 in
          let invuvdet := recip false uvdet in
          let ac := vsub (v_p a) (v_p c) in
          let bc := vsub (v_p b) (v_p c) in
          let dpdu := xscale (vsub (vscale ac d11) (vscale bc d10)) invuvdet in
          let dpdv := xscale (vsub (vscale bc d00) (vscale ac d01)) invuvdet in
          let uv := (w * fst ta + u * fst tb + v * fst tc,
                     w * snd ta + u * snd tb + v * snd tc) in
          let tmp := mk_hit (V 0 0 0) (V 0 0 0) dpdu dpdv 0 uv (h_du h) (h_du h) (h_diff h) in
          if masked tmp then None
          else
            Some (dist,
                  mk_hit (ray_apply r dist)
                         (vadd (vadd (vscale (v_n a) w) (vscale (v_n b) u)) (vscale (v_n c) v))
                         dpdu dpdv (h_index h) uv (h_du h) (h_dv h) (h_diff h)).

(* the mask that hides nothing (map == NULL, mask_boolean.cpp:13-17) *)
Definition no_mask (h : hit) : bool := false.
