(** Model of the matrix-free preconditioner of problem/stokes.hpp. *)
From Coquelicot Require Import Coquelicot.
From Verif Require Import Base M_Geometry M_Mesh M_MatElem M_Operator M_Bc.
Local Open Scope R_scope.

(** stokes.hpp l.219-225: [hu[i] = .5 * hp[i]] *)
Definition half_steps (hp : list R) : list R := map (fun s => / 2 * s) hp.
(** stokes.hpp l.226-235: the operator chosen by [opt.strain_tensor] *)
Definition visc_mult (strain : bool) (h : list R) := if strain then strain_tensor_mult h else laplacian_mult h.
(** stokes.hpp l.286-307: MatCreateNest of the two shells [slap] (velocity grid, steps hu, the
    conditions bc) and [smass] (pressure grid, steps hp, no conditions); a NULL block is zero. *)
Definition precond (strain : bool) (hp : list R) (D : nat) (bc : list (option bc_row)) (dms : list (dmda * dmda)) (xv xp : field) : outcome (field * field) :=
  bind (diag_block_matrix (visc_mult strain (half_steps hp)) D (Some bc) (map fst dms) xv) (fun yv =>
  bind (diag_block_matrix (mass_mult hp) D None (map snd dms) xp) (fun yp => Ok (yv, yp))).
(** what MATOP_GET_DIAGONAL of the two shells returns, for PCJACOBI (l.155, l.162):
    [fem::diag_laplacian_mult] and [fem::diag_mass_mult], whatever [opt.strain_tensor] *)
Definition precond_diag (hp : list R) (dms : list (dmda * dmda)) : outcome (field * field) :=
  bind (diag_diag_block_matrix (diag_laplacian_mult (half_steps hp)) (map fst dms)) (fun dv =>
  bind (diag_diag_block_matrix (diag_mass_mult hp) (map snd dms)) (fun dp => Ok (dv, dp))).
