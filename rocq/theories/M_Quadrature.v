(** Model of cafes/fem/quadrature.hpp. *)
From Verif Require Import Base M_Geometry.
Open Scope R_scope.

(** l.39-49 [P1_integration], 2D *)
Definition P1_integration2 (x h : R * R) : list R :=
  let '(x0, x1) := x in let '(h0, h1) := h in
  let c := 1 / (h0 * h1) in
  [c * (x0 - h0) * (x1 - h1); c * x0 * (h1 - x1); c * (h0 - x0) * x1; c * x0 * x1].

(** l.51-61 [P1_integration_grad], 2D (the factor c is commented out in the code) *)
Definition P1_integration_grad2 (x h : R * R) : list (R * R) :=
  let '(x0, x1) := x in let '(h0, h1) := h in
  [(x1 - h1, x0 - h0); (h1 - x1, - x0); (- x1, h0 - x0); (x1, x0)].

(** l.63-79 [P1_integration], 3D *)
Definition P1_integration3 (x h : R * R * R) : list R :=
  let '(x0, x1, x2) := x in let '(h0, h1, h2) := h in
  let c := 1 / (h0 * h1 * h2) in
  [c * (h0 - x0) * (h1 - x1) * (h2 - x2); c * x0 * (h1 - x1) * (h2 - x2);
   c * (h0 - x0) * x1 * (h2 - x2); c * x0 * x1 * (h2 - x2);
   c * (h0 - x0) * (h1 - x1) * x2; c * x0 * (h1 - x1) * x2;
   c * (h0 - x0) * x1 * x2; c * x0 * x1 * x2].

(** l.80-102 [P1_integration_grad], 3D *)
Definition P1_integration_grad3 (x h : R * R * R) : list (R * R * R) :=
  let '(x0, x1, x2) := x in let '(h0, h1, h2) := h in
  [(- (h1 - x1) * (h2 - x2), - (h0 - x0) * (h2 - x2), - (h0 - x0) * (h1 - x1));
   ((h1 - x1) * (h2 - x2), - x0 * (h2 - x2), - x0 * (h1 - x1));
   (- x1 * (h2 - x2), (h0 - x0) * (h2 - x2), - (h0 - x0) * x1);
   (x1 * (h2 - x2), x0 * (h2 - x2), - x0 * x1);
   (- (h1 - x1) * x2, - (h0 - x0) * x2, (h0 - x0) * (h1 - x1));
   ((h1 - x1) * x2, - x0 * x2, x0 * (h1 - x1));
   (- x1 * x2, (h0 - x0) * x2, (h0 - x0) * x1);
   (x1 * x2, x0 * x2, x0 * x1)].
Close Scope R_scope.

(** l.104-113, 148-161 [get_element] *)
Definition get_element2 (i j : Z) : list (list Z) :=
  [[i; j];
   [i + 1; j];
   [i; j + 1];
   [i + 1; j + 1]]%Z.
Definition get_element3 (i j k : Z) : list (list Z) :=
  [[i; j; k];
   [i + 1; j; k];
   [i; j + 1; k];
   [i + 1; j + 1; k];
   [i; j; k + 1];
   [i + 1; j; k + 1];
   [i; j + 1; k + 1];
   [i + 1; j + 1; k + 1]]%Z.

(** l.163-177, 208-241 [get_element_4Q1] *)
Definition get_element_4Q1_2 (i j : Z) : list (list Z) :=
  [[2 * i; 2 * j];
   [2 * i + 1; 2 * j];
   [2 * i + 2; 2 * j];
   [2 * i; 2 * j + 1];
   [2 * i + 1; 2 * j + 1];
   [2 * i + 2; 2 * j + 1];
   [2 * i; 2 * j + 2];
   [2 * i + 1; 2 * j + 2];
   [2 * i + 2; 2 * j + 2]]%Z.
Definition get_element_4Q1_3 (i j k : Z) : list (list Z) :=
  [[2 * i; 2 * j; 2 * k];
   [2 * i + 1; 2 * j; 2 * k];
   [2 * i + 2; 2 * j; 2 * k];
   [2 * i; 2 * j + 1; 2 * k];
   [2 * i + 1; 2 * j + 1; 2 * k];
   [2 * i + 2; 2 * j + 1; 2 * k];
   [2 * i; 2 * j + 2; 2 * k];
   [2 * i + 1; 2 * j + 2; 2 * k];
   [2 * i + 2; 2 * j + 2; 2 * k];
   [2 * i; 2 * j; 2 * k + 1];
   [2 * i + 1; 2 * j; 2 * k + 1];
   [2 * i + 2; 2 * j; 2 * k + 1];
   [2 * i; 2 * j + 1; 2 * k + 1];
   [2 * i + 1; 2 * j + 1; 2 * k + 1];
   [2 * i + 2; 2 * j + 1; 2 * k + 1];
   [2 * i; 2 * j + 2; 2 * k + 1];
   [2 * i + 1; 2 * j + 2; 2 * k + 1];
   [2 * i + 2; 2 * j + 2; 2 * k + 1];
   [2 * i; 2 * j; 2 * k + 2];
   [2 * i + 1; 2 * j; 2 * k + 2];
   [2 * i + 2; 2 * j; 2 * k + 2];
   [2 * i; 2 * j + 1; 2 * k + 2];
   [2 * i + 1; 2 * j + 1; 2 * k + 2];
   [2 * i + 2; 2 * j + 1; 2 * k + 2];
   [2 * i; 2 * j + 2; 2 * k + 2];
   [2 * i + 1; 2 * j + 2; 2 * k + 2];
   [2 * i + 2; 2 * j + 2; 2 * k + 2]]%Z.

(** The fields of PETSc's DMDALocalInfo the code reads (2D): global sizes, owned
    corner and sizes, ghosted corner and sizes, dof, periodicity. *)
Record dmda_info := mkinfo {
  i_mx : Z; i_my : Z;
  i_xs : Z; i_ys : Z; i_xm : Z; i_ym : Z;
  i_gxs : Z; i_gys : Z; i_gxm : Z; i_gym : Z;
  i_dof : Z }.

(** l.115-118 [DMDALocalIndex2D] *)
Definition DMDALocalIndex2D (info : dmda_info) (i j : Z) : Z :=
  (i_dof info * ((j - i_gys info) * i_gxm info + i - i_gxs info))%Z.

(** l.120-130 [get_indices] *)
Definition get_indices (info : dmda_info) (i j dof : Z) : list Z :=
  [dof + DMDALocalIndex2D info i j; dof + DMDALocalIndex2D info (i + 1) j;
   dof + DMDALocalIndex2D info i (j + 1); dof + DMDALocalIndex2D info (i + 1) (j + 1)]%Z.

(** l.132-146 [get_indices_tensor] *)
Definition get_indices_tensor (info : dmda_info) (i j : Z) : list Z :=
  [DMDALocalIndex2D info i j; DMDALocalIndex2D info (i + 1) j;
   DMDALocalIndex2D info i (j + 1); DMDALocalIndex2D info (i + 1) (j + 1);
   1 + DMDALocalIndex2D info i j; 1 + DMDALocalIndex2D info (i + 1) j;
   1 + DMDALocalIndex2D info i (j + 1); 1 + DMDALocalIndex2D info (i + 1) (j + 1)]%Z.

(** l.179-206 [get_indices_4Q1]: the two passes of the loop on d fill entries d*9 .. d*9+8 *)
Definition get_indices_4Q1 (info : dmda_info) (i j : Z) : list Z :=
  flat_map (fun d =>
    [d + DMDALocalIndex2D info (2 * i) (2 * j); d + DMDALocalIndex2D info (2 * i + 1) (2 * j);
     d + DMDALocalIndex2D info (2 * i + 2) (2 * j);
     d + DMDALocalIndex2D info (2 * i) (2 * j + 1); d + DMDALocalIndex2D info (2 * i + 1) (2 * j + 1);
     d + DMDALocalIndex2D info (2 * i + 2) (2 * j + 1);
     d + DMDALocalIndex2D info (2 * i) (2 * j + 2); d + DMDALocalIndex2D info (2 * i + 1) (2 * j + 2);
     d + DMDALocalIndex2D info (2 * i + 2) (2 * j + 2)]%Z) [0; 1]%Z.
