(** Model of cafes/petsc/vec.hpp: how a node position is turned into an address, and the
    transfers between the ghosted and the global vector.
    PETSc side (not in /repo): DMDAVecGetArrayDOF on a vector whose points are those of the box
    [b] builds one table of pointers per row, the first axis fastest, shifted so that it is
    indexed by global node numbers; [dof] consecutive doubles per node. *)
From Verif Require Import Base M_Geometry M_Particle M_Mesh M_Operator.
Open Scope Z_scope.

(** an array of doubles of the given size; an access outside is undefined behaviour *)
Record mem := mkmem { m_size : Z; m_val : Z -> R }.
Definition in_mem (m : mem) (a : Z) : bool := (0 <=? a) && (a <? m_size m).
Definition load (m : mem) (a : Z) : outcome R := if in_mem m a then Ok (m_val m a) else UB.
Definition store (m : mem) (a : Z) (v : R) : outcome mem :=
  if in_mem m a then Ok (mkmem (m_size m) (fun x => if a =? x then v else m_val m x)) else UB.

Definition ext (b : box Z) (d : nat) : Z := nth d (upper_right b) 0 - nth d (bottom_left b) 0.
Definition low (b : box Z) (d : nat) : Z := nth d (bottom_left b) 0.
(** PETSc: [pv[j][i]] and [pv[k][j][i]]; the row tables are contiguous, so that an index [i]
    beyond the end of a row designates a node of the next row *)
Definition row2 (b : box Z) (dof : Z) (j i : Z) : outcome Z :=
  if (0 <=? j - low b 1) && (j - low b 1 <? ext b 1) then Ok (((j - low b 1) * ext b 0 + (i - low b 0)) * dof) else UB.
Definition row3 (b : box Z) (dof : Z) (k j i : Z) : outcome Z :=
  if (0 <=? k - low b 2) && (k - low b 2 <? ext b 2) then
    Ok ((((k - low b 2) * ext b 1 + (j - low b 1)) * ext b 0 + (i - low b 0)) * dof) else UB.
(** vec.hpp l.120-166 [at], [at_g] and their overloads: [pv_[indices[1]][indices[0]]],
    [pv_[indices[2]][indices[1]][indices[0]]]; [b] is the ghosted box for [at], the owned one for [at_g] *)
Definition at_ (b : box Z) (dof : Z) (p : list Z) : outcome Z :=
  match p with
  | [_; _] => row2 b dof (nth 1 p 0) (nth 0 p 0)
  | [_; _; _] => row3 b dof (nth 2 p 0) (nth 1 p 0) (nth 0 p 0)
  | _ => UB
  end.
(** number of doubles PETSc allocates for the points of a box *)
Definition vec_size (b : box Z) (dof : Z) : Z := zprod (extents b) * dof.

(** l.192-201 [local_to_global(INSERT_VALUES)] (PETSc: each process writes its owned points, ghost values are dropped) *)
Definition local_to_global_insert (dms : list dmda) (ls : list lvec) (g : field) : field :=
  fun n d => fold_left (fun acc (dl : dmda * lvec) => if point_inside Z.ltb (g_own (fst dl)) n then lv_val (snd dl) n d else acc) (combine dms ls) (g n d).
Close Scope Z_scope.
