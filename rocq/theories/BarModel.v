(* The progress bar: the listener of renderer.cpp:247-293 and console.cpp:155-184.
   Arithmetic is exact.  The listener reads the size of the stack without the lock while workers pop
   (renderer.cpp:281, a data race in C++); here it sees the size between two steps. *)
From Coq Require Import Qround.
From Coq Require Export QArith.
From Verif Require Import Common TilesModel RenderModel.
Local Open Scope Z_scope.

(* what is printed: the blocks between the parentheses, the percentage and the seconds; the escape
   codes around them and the format of the seconds are left out *)
Record bar := mk_bar { b_blocks : list bool (* true is '#' *); b_percent : Z; b_eta : Z }.

(* console.cpp:155-184; (int) of a non-negative number is its floor *)
Definition progress_bar (done : Q) (eta : Z) : bar :=
  let done := (done * 20)%Q in
  let full := Z.to_nat (Qfloor done) in
  mk_bar (repeat true full ++ repeat false (20 - full)) (Qfloor (done * 5)) eta.

(* renderer.cpp:281-289: one round of the loop.  The division by jobs_no-remaining is a float
   division: by zero it yields an infinity or NaN, and the conversion to time_t is undefined; so is that
   of a number that does not fit. *)
Definition poll (jobs_no remaining : nat) (elapsed : Z) : res (option bar) :=
  let jobs_no := Z.of_nat jobs_no in let remaining := Z.of_nat remaining in
  let done := (inject_Z (jobs_no - remaining) / inject_Z jobs_no)%Q in
  if jobs_no - remaining =? 0 then UB
  else
    let eta := Qfloor (inject_Z elapsed / inject_Z (jobs_no - remaining) * inject_Z remaining) in
    if 2 ^ 63 <=? eta then UB
    else Ok (if 0 <? eta then Some (progress_bar done eta) else None).

(* the listener looks at a state of the renderer *)
Definition watch (jobs : list tile) (elapsed : Z) (s : state) : res (option bar) :=
  poll (length jobs) (length (sh_jobs (st_shared s))) elapsed.
