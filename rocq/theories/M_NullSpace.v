(** Model of [CreatePressureNullSpace] (cafes/problem/stokes.hpp l.371-397): the vector given
    to PETSc as a basis of the null space of the assembled matrix. *)
From Verif Require Import Base M_Geometry M_Particle M_Mesh M_Operator M_Assembly.

(** [VecSet(tmp, a)] on the composite vector (velocity [false], pressure [true]) *)
Definition VecSet (a : R) : bool -> field := fun _ _ _ => a.
(** [petsc_vec(dm, v, entry, false)] and [fill_global(a)] (petsc/vec.hpp l.202-209): VecSet on one entry of the composite vector *)
Definition fill_global (entry : bool) (a : R) (x : bool -> field) : bool -> field := fun b n c => if Bool.eqb b entry then a else x b n c.
(** sum over the unknowns of the nodes owned by a process, then over the processes (MPI_Allreduce) *)
Definition owned_sum (f : list Z -> nat -> R) (dms : list dmda) : R :=
  fold_right Rplus 0%R (map (fun dm => fold_right Rplus 0%R (map (fun n => fold_right Rplus 0%R (map (f n) (seq 0 (g_dof dm)))) (box_points_list (g_own dm)))) dms).
(** [VecNorm(tmp, NORM_2)] *)
Definition VecNorm (dms : list (dmda * dmda)) (x : bool -> field) : R :=
  sqrt (owned_sum (fun n c => x false n c * x false n c)%R (map fst dms) + owned_sum (fun n c => x true n c * x true n c)%R (map snd dms))%R.
(** [VecNormalize(tmp, NULL)]: a null vector is left as it is *)
Definition VecNormalize (dms : list (dmda * dmda)) (x : bool -> field) : bool -> field :=
  let s := VecNorm dms x in if Req_EM_T s 0%R then x else fun b n c => (x b n c / s)%R.
(** l.373-397; [MatNullSpaceCreate(..., PETSC_FALSE, 1, &tmp, ..)]: one basis vector, no implicit constant *)
Definition CreatePressureNullSpace (dms : list (dmda * dmda)) : bool -> field :=
  VecNormalize dms (fill_global true 1%R (VecSet 0%R)).
