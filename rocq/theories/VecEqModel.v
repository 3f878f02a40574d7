(* The comparisons of src/geometry/vec3.cpp, point3.cpp, vec2.cpp and point2.cpp with a
   tolerance, on finite numbers, infinities and NaN, without rounding of the difference.
   Vec2 and Point2 are the case of equal third components. *)
From Verif Require Import Common GeomModel AabbModel AabbOpModel.
Local Open Scope Q_scope.

(* FLT_EPSILON of the C library: 2^-23 *)
Definition flt_eps : Q := 1 # 8388608.
(* fabs *)
Definition xabs (a : xq) : xq :=
  match a with Fin q => Fin (if qltb q 0 then - q else q) | NInf | PInf => PInf | NaN => NaN end.

(* vec3.cpp:460-465, point3.cpp:105-115, vec2.cpp:296-300, point2.cpp:85-94 *)
Definition vec_eq (a b : xvec) : bool :=
  xge (Fin flt_eps) (xabs (xsub (xx a) (xx b))) &&
  xge (Fin flt_eps) (xabs (xsub (xy a) (xy b))) &&
  xge (Fin flt_eps) (xabs (xsub (xz a) (xz b))).
(* vec3.cpp:467-472, point3.cpp:117-127, vec2.cpp:302-306, point2.cpp:96-105 *)
Definition vec_ne (a b : xvec) : bool :=
  xlt (Fin flt_eps) (xabs (xsub (xx a) (xx b))) ||
  xlt (Fin flt_eps) (xabs (xsub (xy a) (xy b))) ||
  xlt (Fin flt_eps) (xabs (xsub (xz a) (xz b))).
(* vec3.cpp:854-862: operator== and != of Normal, exact *)
Definition normal_eq (a b : xvec) : bool :=
  xeqf (xx a) (xx b) && xeqf (xy a) (xy b) && xeqf (xz a) (xz b).
Definition normal_ne (a b : xvec) : bool :=
  negb (xeqf (xx a) (xx b)) || negb (xeqf (xy a) (xy b)) || negb (xeqf (xz a) (xz b)).
