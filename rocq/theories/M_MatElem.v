(** Model of cafes/fem/matElem.hpp.  The numeric tables are transcribed by a script from
    the source text; doubles such as 1./3 are modelled by the exact rational. *)
From Coq Require Import QArith Qreals.
From Verif Require Import Base.

Definition entry (T : list (list Q)) (i j : nat) : R := Q2R (nth j (nth i T []) 0%Q).
Open Scope Q_scope.

(** l.45-48 [matElem2d_dxudxu] *)
Definition matElem2d_dxudxu_q : list (list Q) :=
  [[1#3; -1#3; 1#6; -1#6];
   [-1#3; 1#3; -1#6; 1#6];
   [1#6; -1#6; 1#3; -1#3];
   [-1#6; 1#6; -1#3; 1#3]].
Definition matElem2d_dxudxu (i j : nat) : R := entry matElem2d_dxudxu_q i j.

(** l.51-54 [matElem2d_dyudyu] *)
Definition matElem2d_dyudyu_q : list (list Q) :=
  [[1#3; 1#6; -1#3; -1#6];
   [1#6; 1#3; -1#6; -1#3];
   [-1#3; -1#6; 1#3; 1#6];
   [-1#6; -1#3; 1#6; 1#3]].
Definition matElem2d_dyudyu (i j : nat) : R := entry matElem2d_dyudyu_q i j.

(** l.57-60 [matElem2d_dxudyu] *)
Definition matElem2d_dxudyu_q : list (list Q) :=
  [[1#4; -1#4; 1#4; -1#4];
   [1#4; -1#4; 1#4; -1#4];
   [-1#4; 1#4; -1#4; 1#4];
   [-1#4; 1#4; -1#4; 1#4]].
Definition matElem2d_dxudyu (i j : nat) : R := entry matElem2d_dxudyu_q i j.

(** l.63-66 [matElemMass2d] *)
Definition matElemMass2d_q : list (list Q) :=
  [[1#9; 1#18; 1#18; 1#36];
   [1#18; 1#9; 1#36; 1#18];
   [1#18; 1#36; 1#9; 1#18];
   [1#36; 1#18; 1#18; 1#9]].
Definition matElemMass2d (i j : nat) : R := entry matElemMass2d_q i j.

(** l.68-76 [matElem2d_pdxu] *)
Definition matElem2d_pdxu_q : list (list Q) :=
  [[15#48; -10#48; -5#48; 18#48; -12#48; -6#48; 3#48; -2#48; -1#48];
   [5#48; 10#48; -15#48; 6#48; 12#48; -18#48; 1#48; 2#48; -3#48];
   [3#48; -2#48; -1#48; 18#48; -12#48; -6#48; 15#48; -10#48; -5#48];
   [1#48; 2#48; -3#48; 6#48; 12#48; -18#48; 5#48; 10#48; -15#48]].
Definition matElem2d_pdxu (i j : nat) : R := entry matElem2d_pdxu_q i j.

(** l.78-86 [matElem2d_pdyu] *)
Definition matElem2d_pdyu_q : list (list Q) :=
  [[15#48; 18#48; 3#48; -10#48; -12#48; -2#48; -5#48; -6#48; -1#48];
   [3#48; 18#48; 15#48; -2#48; -12#48; -10#48; -1#48; -6#48; -5#48];
   [5#48; 6#48; 1#48; 10#48; 12#48; 2#48; -15#48; -18#48; -3#48];
   [1#48; 6#48; 5#48; 2#48; 12#48; 10#48; -3#48; -18#48; -15#48]].
Definition matElem2d_pdyu (i j : nat) : R := entry matElem2d_pdyu_q i j.

(** l.89-104 [matElem3d_dxudxu] *)
Definition matElem3d_dxudxu_q : list (list Q) :=
  [[1#9; -1#9; 1#18; -1#18; 1#18; -1#18; 1#36; -1#36];
   [-1#9; 1#9; -1#18; 1#18; -1#18; 1#18; -1#36; 1#36];
   [1#18; -1#18; 1#9; -1#9; 1#36; -1#36; 1#18; -1#18];
   [-1#18; 1#18; -1#9; 1#9; -1#36; 1#36; -1#18; 1#18];
   [1#18; -1#18; 1#36; -1#36; 1#9; -1#9; 1#18; -1#18];
   [-1#18; 1#18; -1#36; 1#36; -1#9; 1#9; -1#18; 1#18];
   [1#36; -1#36; 1#18; -1#18; 1#18; -1#18; 1#9; -1#9];
   [-1#36; 1#36; -1#18; 1#18; -1#18; 1#18; -1#9; 1#9]].
Definition matElem3d_dxudxu (i j : nat) : R := entry matElem3d_dxudxu_q i j.

(** l.106-121 [matElem3d_dyudyu] *)
Definition matElem3d_dyudyu_q : list (list Q) :=
  [[1#9; 1#18; -1#9; -1#18; 1#18; 1#36; -1#18; -1#36];
   [1#18; 1#9; -1#18; -1#9; 1#36; 1#18; -1#36; -1#18];
   [-1#9; -1#18; 1#9; 1#18; -1#18; -1#36; 1#18; 1#36];
   [-1#18; -1#9; 1#18; 1#9; -1#36; -1#18; 1#36; 1#18];
   [1#18; 1#36; -1#18; -1#36; 1#9; 1#18; -1#9; -1#18];
   [1#36; 1#18; -1#36; -1#18; 1#18; 1#9; -1#18; -1#9];
   [-1#18; -1#36; 1#18; 1#36; -1#9; -1#18; 1#9; 1#18];
   [-1#36; -1#18; 1#36; 1#18; -1#18; -1#9; 1#18; 1#9]].
Definition matElem3d_dyudyu (i j : nat) : R := entry matElem3d_dyudyu_q i j.

(** l.123-138 [matElem3d_dzudzu] *)
Definition matElem3d_dzudzu_q : list (list Q) :=
  [[1#9; 1#18; 1#18; 1#36; -1#9; -1#18; -1#18; -1#36];
   [1#18; 1#9; 1#36; 1#18; -1#18; -1#9; -1#36; -1#18];
   [1#18; 1#36; 1#9; 1#18; -1#18; -1#36; -1#9; -1#18];
   [1#36; 1#18; 1#18; 1#9; -1#36; -1#18; -1#18; -1#9];
   [-1#9; -1#18; -1#18; -1#36; 1#9; 1#18; 1#18; 1#36];
   [-1#18; -1#9; -1#36; -1#18; 1#18; 1#9; 1#36; 1#18];
   [-1#18; -1#36; -1#9; -1#18; 1#18; 1#36; 1#9; 1#18];
   [-1#36; -1#18; -1#18; -1#9; 1#36; 1#18; 1#18; 1#9]].
Definition matElem3d_dzudzu (i j : nat) : R := entry matElem3d_dzudzu_q i j.

(** l.140-155 [matElem3d_dxudyu] *)
Definition matElem3d_dxudyu_q : list (list Q) :=
  [[2#24; -2#24; 2#24; -2#24; 1#24; -1#24; 1#24; -1#24];
   [2#24; -2#24; 2#24; -2#24; 1#24; -1#24; 1#24; -1#24];
   [-2#24; 2#24; -2#24; 2#24; -1#24; 1#24; -1#24; 1#24];
   [-2#24; 2#24; -2#24; 2#24; -1#24; 1#24; -1#24; 1#24];
   [1#24; -1#24; 1#24; -1#24; 2#24; -2#24; 2#24; -2#24];
   [1#24; -1#24; 1#24; -1#24; 2#24; -2#24; 2#24; -2#24];
   [-1#24; 1#24; -1#24; 1#24; -2#24; 2#24; -2#24; 2#24];
   [-1#24; 1#24; -1#24; 1#24; -2#24; 2#24; -2#24; 2#24]].
Definition matElem3d_dxudyu (i j : nat) : R := entry matElem3d_dxudyu_q i j.

(** l.157-172 [matElem3d_dyudzu] *)
Definition matElem3d_dyudzu_q : list (list Q) :=
  [[2#24; 1#24; -2#24; -1#24; 2#24; 1#24; -2#24; -1#24];
   [1#24; 2#24; -1#24; -2#24; 1#24; 2#24; -1#24; -2#24];
   [2#24; 1#24; -2#24; -1#24; 2#24; 1#24; -2#24; -1#24];
   [1#24; 2#24; -1#24; -2#24; 1#24; 2#24; -1#24; -2#24];
   [-2#24; -1#24; 2#24; 1#24; -2#24; -1#24; 2#24; 1#24];
   [-1#24; -2#24; 1#24; 2#24; -1#24; -2#24; 1#24; 2#24];
   [-2#24; -1#24; 2#24; 1#24; -2#24; -1#24; 2#24; 1#24];
   [-1#24; -2#24; 1#24; 2#24; -1#24; -2#24; 1#24; 2#24]].
Definition matElem3d_dyudzu (i j : nat) : R := entry matElem3d_dyudzu_q i j.

(** l.174-189 [matElem3d_dxudzu] *)
Definition matElem3d_dxudzu_q : list (list Q) :=
  [[2#24; -2#24; 1#24; -1#24; 2#24; -2#24; 1#24; -1#24];
   [2#24; -2#24; 1#24; -1#24; 2#24; -2#24; 1#24; -1#24];
   [1#24; -1#24; 2#24; -2#24; 1#24; -1#24; 2#24; -2#24];
   [1#24; -1#24; 2#24; -2#24; 1#24; -1#24; 2#24; -2#24];
   [-2#24; 2#24; -1#24; 1#24; -2#24; 2#24; -1#24; 1#24];
   [-2#24; 2#24; -1#24; 1#24; -2#24; 2#24; -1#24; 1#24];
   [-1#24; 1#24; -2#24; 2#24; -1#24; 1#24; -2#24; 2#24];
   [-1#24; 1#24; -2#24; 2#24; -1#24; 1#24; -2#24; 2#24]].
Definition matElem3d_dxudzu (i j : nat) : R := entry matElem3d_dxudzu_q i j.

(** l.191-206 [matElemMass3d] *)
Definition matElemMass3d_q : list (list Q) :=
  [[1#27; 1#54; 1#54; 1#108; 1#54; 1#108; 1#108; 1#216];
   [1#54; 1#27; 1#108; 1#54; 1#108; 1#54; 1#216; 1#108];
   [1#54; 1#108; 1#27; 1#54; 1#108; 1#216; 1#54; 1#108];
   [1#108; 1#54; 1#54; 1#27; 1#216; 1#108; 1#108; 1#54];
   [1#54; 1#108; 1#108; 1#216; 1#27; 1#54; 1#54; 1#108];
   [1#108; 1#54; 1#216; 1#108; 1#54; 1#27; 1#108; 1#54];
   [1#108; 1#216; 1#54; 1#108; 1#54; 1#108; 1#27; 1#54];
   [1#216; 1#108; 1#108; 1#54; 1#108; 1#54; 1#54; 1#27]].
Definition matElemMass3d (i j : nat) : R := entry matElemMass3d_q i j.

(** l.208-248 [matElem3d_pdxu] *)
Definition matElem3d_pdxu_q : list (list Q) :=
  [[25#192; -25#288; -25#576; 5#32; -5#48; -5#96; 5#192; -5#288; -5#576; 5#32; -5#48; -5#96; 3#16; -1#8; -1#16; 1#32; -1#48; -1#96; 5#192; -5#288; -5#576; 1#32; -1#48; -1#96; 1#192; -1#288; -1#576];
   [25#576; 25#288; -25#192; 5#96; 5#48; -5#32; 5#576; 5#288; -5#192; 5#96; 5#48; -5#32; 1#16; 1#8; -3#16; 1#96; 1#48; -1#32; 5#576; 5#288; -5#192; 1#96; 1#48; -1#32; 1#576; 1#288; -1#192];
   [5#192; -5#288; -5#576; 5#32; -5#48; -5#96; 25#192; -25#288; -25#576; 1#32; -1#48; -1#96; 3#16; -1#8; -1#16; 5#32; -5#48; -5#96; 1#192; -1#288; -1#576; 1#32; -1#48; -1#96; 5#192; -5#288; -5#576];
   [5#576; 5#288; -5#192; 5#96; 5#48; -5#32; 25#576; 25#288; -25#192; 1#96; 1#48; -1#32; 1#16; 1#8; -3#16; 5#96; 5#48; -5#32; 1#576; 1#288; -1#192; 1#96; 1#48; -1#32; 5#576; 5#288; -5#192];
   [5#192; -5#288; -5#576; 1#32; -1#48; -1#96; 1#192; -1#288; -1#576; 5#32; -5#48; -5#96; 3#16; -1#8; -1#16; 1#32; -1#48; -1#96; 25#192; -25#288; -25#576; 5#32; -5#48; -5#96; 5#192; -5#288; -5#576];
   [5#576; 5#288; -5#192; 1#96; 1#48; -1#32; 1#576; 1#288; -1#192; 5#96; 5#48; -5#32; 1#16; 1#8; -3#16; 1#96; 1#48; -1#32; 25#576; 25#288; -25#192; 5#96; 5#48; -5#32; 5#576; 5#288; -5#192];
   [1#192; -1#288; -1#576; 1#32; -1#48; -1#96; 5#192; -5#288; -5#576; 1#32; -1#48; -1#96; 3#16; -1#8; -1#16; 5#32; -5#48; -5#96; 5#192; -5#288; -5#576; 5#32; -5#48; -5#96; 25#192; -25#288; -25#576];
   [1#576; 1#288; -1#192; 1#96; 1#48; -1#32; 5#576; 5#288; -5#192; 1#96; 1#48; -1#32; 1#16; 1#8; -3#16; 5#96; 5#48; -5#32; 5#576; 5#288; -5#192; 5#96; 5#48; -5#32; 25#576; 25#288; -25#192]].
Definition matElem3d_pdxu (i j : nat) : R := entry matElem3d_pdxu_q i j.

(** l.250-290 [matElem3d_pdyu] *)
Definition matElem3d_pdyu_q : list (list Q) :=
  [[25#192; 5#32; 5#192; -25#288; -5#48; -5#288; -25#576; -5#96; -5#576; 5#32; 3#16; 1#32; -5#48; -1#8; -1#48; -5#96; -1#16; -1#96; 5#192; 1#32; 1#192; -5#288; -1#48; -1#288; -5#576; -1#96; -1#576];
   [5#192; 5#32; 25#192; -5#288; -5#48; -25#288; -5#576; -5#96; -25#576; 1#32; 3#16; 5#32; -1#48; -1#8; -5#48; -1#96; -1#16; -5#96; 1#192; 1#32; 5#192; -1#288; -1#48; -5#288; -1#576; -1#96; -5#576];
   [25#576; 5#96; 5#576; 25#288; 5#48; 5#288; -25#192; -5#32; -5#192; 5#96; 1#16; 1#96; 5#48; 1#8; 1#48; -5#32; -3#16; -1#32; 5#576; 1#96; 1#576; 5#288; 1#48; 1#288; -5#192; -1#32; -1#192];
   [5#576; 5#96; 25#576; 5#288; 5#48; 25#288; -5#192; -5#32; -25#192; 1#96; 1#16; 5#96; 1#48; 1#8; 5#48; -1#32; -3#16; -5#32; 1#576; 1#96; 5#576; 1#288; 1#48; 5#288; -1#192; -1#32; -5#192];
   [5#192; 1#32; 1#192; -5#288; -1#48; -1#288; -5#576; -1#96; -1#576; 5#32; 3#16; 1#32; -5#48; -1#8; -1#48; -5#96; -1#16; -1#96; 25#192; 5#32; 5#192; -25#288; -5#48; -5#288; -25#576; -5#96; -5#576];
   [1#192; 1#32; 5#192; -1#288; -1#48; -5#288; -1#576; -1#96; -5#576; 1#32; 3#16; 5#32; -1#48; -1#8; -5#48; -1#96; -1#16; -5#96; 5#192; 5#32; 25#192; -5#288; -5#48; -25#288; -5#576; -5#96; -25#576];
   [5#576; 1#96; 1#576; 5#288; 1#48; 1#288; -5#192; -1#32; -1#192; 5#96; 1#16; 1#96; 5#48; 1#8; 1#48; -5#32; -3#16; -1#32; 25#576; 5#96; 5#576; 25#288; 5#48; 5#288; -25#192; -5#32; -5#192];
   [1#576; 1#96; 5#576; 1#288; 1#48; 5#288; -1#192; -1#32; -5#192; 1#96; 1#16; 5#96; 1#48; 1#8; 5#48; -1#32; -3#16; -5#32; 5#576; 5#96; 25#576; 5#288; 5#48; 25#288; -5#192; -5#32; -25#192]].
Definition matElem3d_pdyu (i j : nat) : R := entry matElem3d_pdyu_q i j.

(** l.292-332 [matElem3d_pdzu] *)
Definition matElem3d_pdzu_q : list (list Q) :=
  [[25#192; 5#32; 5#192; 5#32; 3#16; 1#32; 5#192; 1#32; 1#192; -25#288; -5#48; -5#288; -5#48; -1#8; -1#48; -5#288; -1#48; -1#288; -25#576; -5#96; -5#576; -5#96; -1#16; -1#96; -5#576; -1#96; -1#576];
   [5#192; 5#32; 25#192; 1#32; 3#16; 5#32; 1#192; 1#32; 5#192; -5#288; -5#48; -25#288; -1#48; -1#8; -5#48; -1#288; -1#48; -5#288; -5#576; -5#96; -25#576; -1#96; -1#16; -5#96; -1#576; -1#96; -5#576];
   [5#192; 1#32; 1#192; 5#32; 3#16; 1#32; 25#192; 5#32; 5#192; -5#288; -1#48; -1#288; -5#48; -1#8; -1#48; -25#288; -5#48; -5#288; -5#576; -1#96; -1#576; -5#96; -1#16; -1#96; -25#576; -5#96; -5#576];
   [1#192; 1#32; 5#192; 1#32; 3#16; 5#32; 5#192; 5#32; 25#192; -1#288; -1#48; -5#288; -1#48; -1#8; -5#48; -5#288; -5#48; -25#288; -1#576; -1#96; -5#576; -1#96; -1#16; -5#96; -5#576; -5#96; -25#576];
   [25#576; 5#96; 5#576; 5#96; 1#16; 1#96; 5#576; 1#96; 1#576; 25#288; 5#48; 5#288; 5#48; 1#8; 1#48; 5#288; 1#48; 1#288; -25#192; -5#32; -5#192; -5#32; -3#16; -1#32; -5#192; -1#32; -1#192];
   [5#576; 5#96; 25#576; 1#96; 1#16; 5#96; 1#576; 1#96; 5#576; 5#288; 5#48; 25#288; 1#48; 1#8; 5#48; 1#288; 1#48; 5#288; -5#192; -5#32; -25#192; -1#32; -3#16; -5#32; -1#192; -1#32; -5#192];
   [5#576; 1#96; 1#576; 5#96; 1#16; 1#96; 25#576; 5#96; 5#576; 5#288; 1#48; 1#288; 5#48; 1#8; 1#48; 25#288; 5#48; 5#288; -5#192; -1#32; -1#192; -5#32; -3#16; -1#32; -25#192; -5#32; -5#192];
   [1#576; 1#96; 5#576; 1#96; 1#16; 5#96; 5#576; 5#96; 25#576; 1#288; 1#48; 5#288; 1#48; 1#8; 5#48; 5#288; 5#48; 25#288; -1#192; -1#32; -5#192; -1#32; -3#16; -5#32; -5#192; -5#32; -25#192]].
Definition matElem3d_pdzu (i j : nat) : R := entry matElem3d_pdzu_q i j.
Close Scope Q_scope.
Open Scope R_scope.

(** l.334-345 [getMatElemLaplacian], 2D: entry [i][j] *)
Definition getMatElemLaplacian2 (h0 h1 : R) (i j : nat) : R :=
  let hxy := h0 / h1 in let hyx := h1 / h0 in
  hyx * matElem2d_dxudxu i j + hxy * matElem2d_dyudyu i j.

(** l.360-382 [getMatElemStrainTensor], 2D: entry [i][j][a][b]; the second double loop
    writes [j][i][1][0] from [i][j][0][1]. *)
Definition getMatElemStrainTensor2 (h0 h1 : R) (i j a b : nat) : R :=
  let hxy := h0 / h1 in let hyx := h1 / h0 in
  match a, b with
  | 0%nat, 0%nat => 2 * hyx * matElem2d_dxudxu i j + hxy * matElem2d_dyudyu i j
  | 0%nat, 1%nat => matElem2d_dxudyu i j
  | 1%nat, 0%nat => matElem2d_dxudyu j i
  | _, _ => hyx * matElem2d_dxudxu i j + 2 * hxy * matElem2d_dyudyu i j
  end.

(** l.405-420 [getMatElemPressure], 2D: entry [i][j][d] *)
Definition getMatElemPressure2 (h0 h1 : R) (i j d : nat) : R :=
  match d with
  | 0%nat => - h1 * matElem2d_pdxu i j
  | _ => - h0 * matElem2d_pdyu i j
  end.

(** l.456-465 [getMatElemMass], 2D *)
Definition getMatElemMass2 (h0 h1 : R) (i j : nat) : R := h0 * h1 * matElemMass2d i j.

(** The "A" variants fill a flat array by a double loop.  A flat array is modelled by the
    chronological list of the writes (index, value); reading an index gives the value of
    the last write there, [None] if it was never written (uninitialised). *)
Fixpoint read_flat (w : list (nat * R)) (k : nat) : option R :=
  match w with
  | [] => None
  | (n, v) :: t => match read_flat t k with Some u => Some u | None => if Nat.eqb n k then Some v else None end
  end.
Definition loop2 (n m : nat) (body : nat -> nat -> list (nat * R)) : list (nat * R) :=
  flat_map (fun i => flat_map (fun j => body i j) (seq 0 m)) (seq 0 n).

(** l.347-358 [getMatElemLaplacianA] *)
Definition getMatElemLaplacianA (h0 h1 : R) : list (nat * R) :=
  let hxy := h0 / h1 in let hyx := h1 / h0 in
  loop2 4 4 (fun i j => [((i + j * 4)%nat, hyx * matElem2d_dxudxu i j + hxy * matElem2d_dyudyu i j)]).

(** l.384-403 [getMatElemStrainTensorA] *)
Definition getMatElemStrainTensorA (h0 h1 : R) : list (nat * R) :=
  let hxy := h0 / h1 in let hyx := h1 / h0 in
  loop2 4 4 (fun i j =>
    [((i + j * 8)%nat, 2 * hyx * matElem2d_dxudxu i j + hxy * matElem2d_dyudyu i j);
     ((i + 4 + j * 8)%nat, matElem2d_dxudyu i j);
     ((i + (j + 4) * 8)%nat, matElem2d_dxudyu i j);
     ((i + 4 + (j + 4) * 8)%nat, hyx * matElem2d_dxudxu i j + 2 * hxy * matElem2d_dyudyu i j)]).

(** l.422-437 [getMatElemPressureA] *)
Definition getMatElemPressureA (h0 h1 : R) : list (nat * R) :=
  loop2 4 9 (fun i j =>
    [((18 * i + j)%nat, - h1 * matElem2d_pdxu i j);
     ((18 * i + j + 9)%nat, - h0 * matElem2d_pdyu i j)]).

(** l.439-454 [getMatElemPressureAT]: outer loop on j, no minus sign *)
Definition getMatElemPressureAT (h0 h1 : R) : list (nat * R) :=
  loop2 9 4 (fun j i =>
    [((i + 4 * j)%nat, h1 * matElem2d_pdxu i j);
     ((i + 4 * (j + 9))%nat, h0 * matElem2d_pdyu i j)]).

(** l.467-476 [getMatElemMassA] *)
Definition getMatElemMassA (h0 h1 : R) : list (nat * R) :=
  loop2 4 4 (fun i j => [((i + 4 * j)%nat, h0 * h1 * matElemMass2d i j)]).

(** l.478-490 [getMatElemLaplacian], 3D *)
Definition getMatElemLaplacian3 (h0 h1 h2 : R) (i j : nat) : R :=
  let hxy := h0 * h1 in let hxz := h0 * h2 in let hyz := h1 * h2 in
  hyz / h0 * matElem3d_dxudxu i j + hxz / h1 * matElem3d_dyudyu i j + hxy / h2 * matElem3d_dzudzu i j.

(** l.492-525 [getMatElemStrainTensor], 3D *)
Definition getMatElemStrainTensor3 (h0 h1 h2 : R) (i j a b : nat) : R :=
  let hxy := h0 * h1 in let hxz := h0 * h2 in let hyz := h1 * h2 in
  match a, b with
  | 0%nat, 0%nat => 2 * hyz / h0 * matElem3d_dxudxu i j + hxz / h1 * matElem3d_dyudyu i j + hxy / h2 * matElem3d_dzudzu i j
  | 1%nat, 1%nat => hyz / h0 * matElem3d_dxudxu i j + 2 * hxz / h1 * matElem3d_dyudyu i j + hxy / h2 * matElem3d_dzudzu i j
  | 0%nat, 1%nat => h2 * matElem3d_dxudyu i j
  | 0%nat, 2%nat => h1 * matElem3d_dxudzu i j
  | 1%nat, 2%nat => h0 * matElem3d_dyudzu i j
  | 1%nat, 0%nat => h2 * matElem3d_dxudyu j i
  | 2%nat, 0%nat => h1 * matElem3d_dxudzu j i
  | 2%nat, 1%nat => h0 * matElem3d_dyudzu j i
  | _, _ => hyz / h0 * matElem3d_dxudxu i j + hxz / h1 * matElem3d_dyudyu i j + 2 * hxy / h2 * matElem3d_dzudzu i j
  end.

(** l.527-542 [getMatElemPressure], 3D *)
Definition getMatElemPressure3 (h0 h1 h2 : R) (i j d : nat) : R :=
  match d with
  | 0%nat => - h1 * h2 * matElem3d_pdxu i j
  | 1%nat => - h0 * h2 * matElem3d_pdyu i j
  | _ => - h0 * h1 * matElem3d_pdzu i j
  end.

(** l.544-553 [getMatElemMass], 3D *)
Definition getMatElemMass3 (h0 h1 h2 : R) (i j : nat) : R := h0 * h1 * h2 * matElemMass3d i j.
Close Scope R_scope.
