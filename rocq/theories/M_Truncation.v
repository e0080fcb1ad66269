(** Model of cafes/particle/singularity/truncation.hpp.  Real arithmetic stands for double. *)
From Verif Require Import Base M_Geometry.
Open Scope R_scope.

(** truncation.hpp l.41-56 *)
Definition alphaTrunc (X : R) : R :=
  let X2 := X * X in let X3 := X * X2 in let X5 := X3 * X2 in let X7 := X5 * X2 in let X9 := X7 * X2 in
  315 / 128 * (X9 / 9 - 4 / 7 * X7 + 6 / 5 * X5 - 4 / 3 * X3 + X).
(** l.58-69 *)
Definition dalphaTrunc (X : R) : R :=
  let X2Mun := X * X - 1 in let X2Mun2 := X2Mun * X2Mun in let X2Mun4 := X2Mun2 * X2Mun2 in 315 / 128 * X2Mun4.
(** l.71-80 *)
Definition d2alphaTrunc (X : R) : R :=
  let X2Mun := X * X - 1 in let X2Mun3 := X2Mun * X2Mun * X2Mun in 2520 / 128 * X2Mun3 * X.
(** l.81-92 *)
Definition d3alphaTrunc (X : R) : R :=
  let X2Mun := X * X - 1 in let X2Mun2 := X2Mun * X2Mun in let septX2Mun := 7 * X * X - 1 in 2520 / 128 * X2Mun2 * septX2Mun.
(** l.95-104 *)
Definition d4alphaTrunc (X : R) : R :=
  let X2 := X * X in let X4 := X2 * X2 in 15120 / 128 * (7 * X4 - 10 * X2 + 3).

(** C++ [0<=x<y] is [(0<=x) < y]: the comparison of the truth value, 0 or 1, with y *)
Definition chained (x y : R) : bool := Rltb (if Rleb 0 x then 1 else 0) y.
(** the three-way selection shared by l.106-119 [chiTrunc], l.121-135 [dchiTrunc], l.137-150
    [d2chiTrunc], l.152-165 [d3chiTrunc], l.167-179 [d4chiTrunc]: [first] is what the chained
    comparison reads (X2 in the first two functions, X in the others).  [assert(l>=eps)] is
    a hypothesis of the theorems. *)
Definition trunc_select (first X2 l eps v : R) : R :=
  if chained first (l - eps) then 1
  else if Rleb (l - eps) X2 && Rltb X2 (l + eps) then v
  else 0.
Definition chiTrunc (X l eps : R) : R := let X2 := X * X in trunc_select X2 X2 l eps (1 / 2 * (1 - alphaTrunc ((X2 - l) / eps))).
Definition dchiTrunc (X l eps : R) : R := let X2 := X * X in trunc_select X2 X2 l eps (- dalphaTrunc ((X2 - l) / eps) / eps / 2).
Definition d2chiTrunc (X l eps : R) : R := let X2 := X * X in trunc_select X X2 l eps (- d2alphaTrunc ((X2 - l) / eps) / eps / eps / 2).
Definition d3chiTrunc (X l eps : R) : R := let X2 := X * X in trunc_select X X2 l eps (- d3alphaTrunc ((X2 - l) / eps) / eps / eps / eps / 2).
Definition d4chiTrunc (X l eps : R) : R := let X2 := X * X in trunc_select X X2 l eps (- d4alphaTrunc ((X2 - l) / eps) / eps / eps / eps / eps / 2).
