(* Model of Box::intersect of src/primitives/box.cpp in exact arithmetic (see GeomModel). *)
From Verif Require Import Common GeomModel AabbModel TriModel.
Local Open Scope Q_scope.

(* box.cpp:67-71, 76-80 and 91-95: one pair of planes *)
Definition box_axis (nz : bool) (o d : Q) : xq * xq :=
  let invr := recip nz d in
  let near := xmul (Fin (- o)) invr in
  let far := xmul (Fin (1 - o)) invr in
  if xlt far near then (far, near) else (near, far).

(* box.cpp:81-86 and 96-101 *)
Definition box_narrow (k : nat) (nf : xq * xq) (st : xq * xq * nat) : option (xq * xq * nat) :=
  let '(near, far) := nf in
  let '(mint, maxt, axis) := st in
  let '(mint, axis) := if xlt mint near then (near, k) else (mint, axis) in
  let maxt := if xlt far maxt then far else maxt in
  if xlt maxt mint then None else Some (mint, maxt, axis).

(* utility.hpp:235-238 *)
Definition qsign (a : Q) : Q := if qltb a 0 then -1 else 1.

Definition unit_axis (k : nat) (s : Q) : vec :=
  match k with O => V s 0 0 | 1%nat => V 0 s 0 | _ => V 0 0 s end.

(* the written fields of the hit point; the texture coordinates keep their old values *)
Record box_hit := mk_bhit { bh_t : xq; bh_point : xvec; bh_normal : vec; bh_dpdu : vec }.

(* box.cpp:58-132.  [masked] is mask->is_masked and [h] the hit point passed in. *)
Definition box_intersect (masked : hit -> bool) (r : ray) (distance : xq) (h : hit) : option box_hit :=
  let x := box_axis (r_nzx r) (vx (r_o r)) (vx (r_d r)) in
  match box_narrow 1 (box_axis (r_nzy r) (vy (r_o r)) (vy (r_d r))) (fst x, snd x, O) with
  | None => None
  | Some st =>
      match box_narrow 2 (box_axis (r_nzz r) (vz (r_o r)) (vz (r_d r))) st with
      | None => None
      | Some (mint, maxt, axis) =>
          let found :=
            if xlt (Fin self_err) mint then Some (false, mint)
            else if xlt (Fin self_err) maxt then Some (true, maxt)
            else None in
          match found with
          | None => None
          | Some (inside, t) =>
              if xlt distance t || masked h then None
              else
                let s := - qsign (coord axis (r_d r)) in
                let n := unit_axis axis (if inside then s * -1 else s) in
                Some (mk_bhit t
                  (XV (xadd (Fin (vx (r_o r))) (xmul (Fin (vx (r_d r))) t))
                      (xadd (Fin (vy (r_o r))) (xmul (Fin (vy (r_d r))) t))
                      (xadd (Fin (vz (r_o r))) (xmul (Fin (vz (r_d r))) t)))
                  n
                  (if Qeq_bool (vz n) 0 then V (- vy n) (vx n) 0 else V (vz n) 0 0))
          end
      end
  end.
