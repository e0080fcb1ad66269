(** Model of cafes/posttraitement/interpolation.hpp (2D: the kernel builds positions of two
    coordinates).  The arrays are those of [M_Vec]; a process works on the cells of its own points.
    PETSc side: DMRefine, the creation of the refined vectors and the transfers are parameters. *)
From Verif Require Import Base M_Geometry M_Particle M_Quadrature M_Mesh M_Operator M_Vec.
Open Scope R_scope.

Section Interp.
Variables (bc br : box Z) (dofc dofr : Z) (refine0 refine1 : nat) (h0 h1 : R).
Variable mc : mem. (* solv: the ghosted coarse array *)
(** l.102-131, the body of the two inner loops at (pos, i, j); [uref[d] = 0] and the accumulation loop over d < Dimensions = 2 *)
Definition interp_point (pos : list Z) (i j : nat) (mr : mem) : outcome mem :=
  let ielem := get_element pos in
  let p0 := nth 0 pos 0%Z in let p1 := nth 1 pos 0%Z in
  let refcoord0 := IZR p0 * h0 + INR i * h0 / INR refine0 in
  let refcoord1 := IZR p1 * h1 + INR j * h1 / INR refine1 in
  let bfunc := P1_integration2 (refcoord0 - h0 * IZR p0, refcoord1 - h1 * IZR p1) (h0, h1) in
  bind (at_ br dofr [(Z.of_nat i + p0 * Z.of_nat refine0)%Z; (Z.of_nat j + p1 * Z.of_nat refine1)%Z]) (fun uref =>
  bind (for_ 2 (fun d mr => store mr (uref + Z.of_nat d) 0) mr) (fun mr =>
  for_ (length bfunc) (fun k mr =>
    bind (at_ bc dofc (nth k ielem [])) (fun u =>
    for_ 2 (fun d mr =>
      bind (load mc (u + Z.of_nat d)) (fun x =>
      bind (load mr (uref + Z.of_nat d)) (fun y =>
      store mr (uref + Z.of_nat d) (y + x * nth k bfunc 0)))) mr)) mr)).
(** l.98-132: [j] runs to refine[0], [i] to refine[1] *)
Definition interp_kernel (pos : list Z) (mr : mem) : outcome mem :=
  for_ (refine0 + 1) (fun j mr => for_ (refine1 + 1) (fun i mr => interp_point pos i j mr) mr) mr.
End Interp.
(** l.138-144: the same kernel for the velocity (dof 2) and for the pressure (dof 1); [dmc], [dmr]: coarse and refined grids of one process *)
Definition linear_interpolation (dmc dmr : dmda) (refine0 refine1 : nat) (h0 h1 : R) (mc mr : mem) : outcome mem :=
  iterate_o (get_DM_bounds dmc true) (interp_kernel (g_ghost dmc) (g_ghost dmr) (Z.of_nat (g_dof dmc)) (Z.of_nat (g_dof dmr)) refine0 refine1 h0 h1 mc) mr.
