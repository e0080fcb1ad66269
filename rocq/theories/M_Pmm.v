(** Model of the solver chosen by opt.pmm: problem/stokes.hpp l.96-162 [setPMMSolver].
    PCFIELDSPLIT, PC_COMPOSITE_SCHUR, PC_FIELDSPLIT_SCHUR_FACT_UPPER (l.112-116): one application to a residual (rv, rp) first solves for the pressure with
    the second sub-solver, then for the velocity with the first one and the right-hand side rv - A01 yp.
    Simplification: the first sub-solver (l.125-156: GCR on PCMG with relative tolerance 1e-2) is taken to solve exactly. *)
From Coquelicot Require Import Coquelicot.
From Verif Require Import Base M_Geometry M_Mesh M_MatElem M_Operator M_Bc S_Operator M_Precond.
Local Open Scope R_scope.
(** the operator of the outer iteration: stokes.hpp l.283 [A] *)
Definition stokes_shell (strain : bool) (hp : list R) (D : nat) (bc : list (option bc_row)) (dms : list (dmda * dmda)) (xv xp : field) : outcome (field * field) :=
  stokes_matrix (visc_mult strain (half_steps hp)) (half_steps hp) D (Some bc) dms xv xp.
(** l.116 with PETSC_NULL: the second sub-solver works on the second diagonal block of P; l.158-162: one application of its Jacobi preconditioner *)
Definition pmm_pressure (hp : list R) (dms : list (dmda * dmda)) (rp : field) : outcome field :=
  bind (precond_diag hp dms) (fun dd => Ok (fun n c => rp n c / snd dd n c)).
(** l.114 [PCFieldSplitSetOffDiagUseAmat]: A01 is a block of the operator A itself *)
Definition pmm_rhs (strain : bool) (hp : list R) (D : nat) (bc : list (option bc_row)) (dms : list (dmda * dmda)) (rv yp : field) : outcome field :=
  bind (stokes_shell strain hp D bc dms (fun _ _ => 0) yp) (fun g => Ok (fun n c => rv n c - fst g n c)).
(** one application of the preconditioner: [yv] solves A11 yv = rv - A01 yp (values at the nodes of the velocity grid [mv] and of the pressure grid [mp]) *)
Definition pmm_apply (strain : bool) (hp : list R) (D : nat) (bc : list (option bc_row)) (dms : list (dmda * dmda)) (mv mp : list Z) (rv rp yv yp : field) : Prop :=
  exists yp0 f av ap, pmm_pressure hp dms rp = Ok yp0 /\ same_field mp 1 yp yp0 /\
    pmm_rhs strain hp D bc dms rv yp = Ok f /\ precond strain hp D bc dms yv yp = Ok (av, ap) /\ same_field mv D av f.
