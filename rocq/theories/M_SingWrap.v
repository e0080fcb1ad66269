(** Model of the cartesian components and divergences of the singular fields:
    cafes/particle/singularity/UandPNormal.hpp l.350-355, 703-824, 884-901 and
    UandPTang.hpp l.541-545, 557-576, 1141-1494.  The closed forms they call are in the
    generated files M_SingNormal, M_SingTang.  Real arithmetic stands for double; the
    unused argument [param] is dropped. *)
From Verif Require Import Base M_Truncation M_SingNormal M_SingTang.
Open Scope R_scope.

Definition x_ (X : list R) := nth 0 X 0.
Definition y_ (X : list R) := nth 1 X 0.
(** [double r2 = X[0]*X[0]+X[1]*X[1]; double r = sqrt(r2);] *)
Definition rr2 (X : list R) := x_ X * x_ X + y_ X * y_ X.
Definition rr (X : list R) := sqrt (rr2 X).

(** UandPNormal.hpp l.350-355 *)
Definition DIVCART_normalMvt2D X H M d U l eps := dxux_sing_normalMvt2D X H M d U l eps + dzuz_sing_normalMvt2D X H M d U l eps.
(** UandPTang.hpp l.541-545 *)
Definition DIVCART_tangMvt2D X H M d U l eps := dxux_sing_tangMvt2D X H M d U l eps + dzuz_sing_tangMvt2D X H M d U l eps.

(** ** normal, 3D *)
Section Normal.
Variables (X : list R) (H M a U l eps : R).
Notation ur := (ur_sing_normalMvt3D X H M a U l eps).
Notation drur := (drur_sing_normalMvt3D X H M a U l eps).
Notation dzur := (dzur_sing_normalMvt3D X H M a U l eps).
Notation druz := (druz_sing_normalMvt3D X H M a U l eps).
Notation dzuz := (dzuz_sing_normalMvt3D X H M a U l eps).
Notation r2 := (rr2 X). Notation r := (rr X). Notation x := (x_ X). Notation y := (y_ X).
(** l.703-712 *)
Definition ux_sing_normalMvt3D := if negb (Reqb r2 0) then ur * x / r else ur.
(** l.714-723 *)
Definition uy_sing_normalMvt3D := if negb (Reqb r2 0) then ur * y / r else 0.
(** l.733-743 *)
Definition dxux_sing_normalMvt3D := if negb (Reqb r2 0) then drur * x * x / r2 + ur * y * y / r2 / r else 0.
(** l.745-755 *)
Definition dyux_sing_normalMvt3D := if negb (Reqb r2 0) then drur * x * y / r2 - ur * x * y / r2 / r else 0.
(** l.757-766 *)
Definition dzux_sing_normalMvt3D := if negb (Reqb r2 0) then dzur * x / r else dzur.
(** l.768-778 *)
Definition dxuy_sing_normalMvt3D := if negb (Reqb r2 0) then drur * x * y / r2 - ur * x * y / r2 / r else 0.
(** l.780-790 *)
Definition dyuy_sing_normalMvt3D := if negb (Reqb r2 0) then drur * y * y / r2 + ur * x * x / r2 / r else 0.
(** l.792-801 *)
Definition dzuy_sing_normalMvt3D := if negb (Reqb r2 0) then dzur * y / r else 0.
(** l.803-812 *)
Definition dxuz_sing_normalMvt3D := if negb (Reqb r2 0) then druz * x / r else 0.
(** l.815-824 *)
Definition dyuz_sing_normalMvt3D := if negb (Reqb r2 0) then druz * y / r else 0.
(** l.884-892 *)
Definition DIVCYLIND_normalMvt3D := drur + ur / r + dzuz.
(** l.894-899 *)
Definition DIVCART_normalMvt3D := dxux_sing_normalMvt3D + dyuy_sing_normalMvt3D + dzuz.
End Normal.

(** ** tangential, 3D *)
Section Tang.
Variables (X : list R) (H M d U l eps : R).
Notation U0 := (U0_tang3D X H M d U l eps).
Notation V0 := (V0_tang3D X H M d U l eps).
Notation W0 := (W0_tang3D X H M d U l eps).
Notation r2 := (rr2 X). Notation r := (rr X). Notation x := (x_ X). Notation y := (y_ X).
(** the cosine and sine of the polar angle, as every function below computes them *)
Definition cosTheta := if negb (Reqb r2 0) then x / sqrt r2 else 1.
Definition sinTheta := if negb (Reqb r2 0) then y / sqrt r2 else 0.
(** l.557-576; the test there is on r *)
Definition p_sing_withT_tangMvt3D :=
  let mu := 1 in let t3 := r2 in let r := sqrt t3 in
  let cosTheta := if negb (Reqb r 0) then x / r else 1 in
  let t4 := chiTrunc r l eps in
  let t11 := (H * t3 + M * t3 + 2 * d) ^ 2 in
  let P := 48 / 5 * r * (H - M) * t4 / t11 / (H + M) in
  mu * U * P * cosTheta / 2.
(** l.1141-1152 *)
Definition ur_sing_tangMvt3D := U * U0 * cosTheta / 2.
(** l.1154-1165 *)
Definition ut_sing_tangMvt3D := U * V0 * sinTheta / 2.
(** l.1167-1180 *)
Definition uz_sing_tangMvt3D := U * W0 * cosTheta / 2.
(** l.1182-1193 *)
Definition drur_sing_tangMvt3D := U * drU0_tang3D X H M d U l eps * cosTheta / 2.
(** l.1195-1206 *)
Definition dtur_sing_tangMvt3D := - U * U0 * sinTheta / 2.
(** l.1208-1219 *)
Definition dzur_sing_tangMvt3D := U * dzU0_tang3D X H M d U l eps * cosTheta / 2.
(** l.1221-1232 *)
Definition drut_sing_tangMvt3D := U * drV0_tang3D X H M d U l eps * sinTheta / 2.
(** l.1234-1245 *)
Definition dtut_sing_tangMvt3D := U * V0 * cosTheta / 2.
(** l.1247-1258 *)
Definition dzut_sing_tangMvt3D := U * dzV0_tang3D X H M d U l eps * sinTheta / 2.
(** l.1260-1271 *)
Definition druz_sing_tangMvt3D := U * drW0_tang3D X H M d U l eps * cosTheta / 2.
(** l.1273-1284 *)
Definition dtuz_sing_tangMvt3D := - U * W0 * sinTheta / 2.
(** l.1286-1297 *)
Definition dzuz_sing_tangMvt3D := U * dzW0_tang3D X H M d U l eps * cosTheta / 2.
Notation ur := ur_sing_tangMvt3D. Notation ut := ut_sing_tangMvt3D.
Notation drur := drur_sing_tangMvt3D. Notation dtur := dtur_sing_tangMvt3D. Notation dzur := dzur_sing_tangMvt3D.
Notation drut := drut_sing_tangMvt3D. Notation dtut := dtut_sing_tangMvt3D. Notation dzut := dzut_sing_tangMvt3D.
(** l.1302-1314 *)
Definition ux_sing_tangMvt3D := if negb (Reqb r2 0) then ur * x / r - ut * y / r else ur.
(** l.1316-1327 *)
Definition uy_sing_tangMvt3D := if negb (Reqb r2 0) then ur * y / r + ut * x / r else ut.
(** l.1343-1361 *)
Definition dxux_sing_tangMvt3D :=
  let x2 := x * x in let y2 := y * y in let xy := x * y in
  if negb (Reqb r2 0) then drur * x2 / r2 + ur * y2 / r2 / r - dtur * xy / r2 / r + ut * xy / r2 / r - drut * xy / r2 + dtut * y2 / r2 / r else 0.
(** l.1363-1381 *)
Definition dyux_sing_tangMvt3D :=
  let x2 := x * x in let y2 := y * y in let xy := x * y in
  if negb (Reqb r2 0) then drur * xy / r2 - ur * xy / r2 / r + dtur * x2 / r2 / r - ut * x2 / r2 / r - drut * y2 / r2 - dtut * xy / r2 / r else 0.
(** l.1383-1393 *)
Definition dzux_sing_tangMvt3D := if negb (Reqb r2 0) then dzur * x / r - dzut * y / r else dzur.
(** l.1395-1413 *)
Definition dxuy_sing_tangMvt3D :=
  let x2 := x * x in let y2 := y * y in let xy := x * y in
  if negb (Reqb r2 0) then drur * xy / r2 - ur * xy / r2 / r - dtur * y2 / r2 / r + ut * y2 / r2 / r + drut * x2 / r2 - dtut * xy / r2 / r else 0.
(** l.1415-1433 *)
Definition dyuy_sing_tangMvt3D :=
  let x2 := x * x in let y2 := y * y in let xy := x * y in
  if negb (Reqb r2 0) then drur * y2 / r2 + ur * x2 / r2 / r + dtur * xy / r2 / r - ut * xy / r2 / r + drut * xy / r2 + dtut * x2 / r2 / r else 0.
(** l.1435-1445 *)
Definition dzuy_sing_tangMvt3D := if negb (Reqb r2 0) then dzur * y / r + dzut * x / r else dzut.
(** l.1447-1457 *)
Definition dxuz_sing_tangMvt3D := if negb (Reqb r2 0) then druz_sing_tangMvt3D * x / r - dtuz_sing_tangMvt3D * y / r2 else 0.
(** l.1459-1469 *)
Definition dyuz_sing_tangMvt3D := if negb (Reqb r2 0) then druz_sing_tangMvt3D * y / r + dtuz_sing_tangMvt3D * x / r2 else 0.
(** l.1471-1485 *)
Definition DIVCYLIND_tangMvt3D := drU0_tang3D X H M d U l eps + U0 / r + V0 / r + dzW0_tang3D X H M d U l eps.
(** l.1487-1492 *)
Definition DIVCART_tangMvt3D := dxux_sing_tangMvt3D + dyuy_sing_tangMvt3D + dzuz_sing_tangMvt3D.
End Tang.
