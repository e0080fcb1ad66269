(** Model of cafes/fem/bc.hpp, of cafes/fem/rhs.hpp and of the boundary-condition part of cafes/fem/matrixFree.hpp
    on vectors of IEEE doubles.  The definitions follow those of M_Bc with [double] for [R]. *)
From Flocq Require Import BinarySingleNaN.
From Verif Require Import Base M_Geometry M_Particle M_Quadrature M_MatElem M_Mesh M_Operator.
From Verif Require Import M_Double M_DoubleOp.

(** bc.hpp l.41 [condition_fn]: called as [f(coord, &u)] on an array of doubles. Simplification (as in M_Bc): the
    function writes exactly one value, computed from the coordinates. A null pointer is [None]. *)
Definition dcondition_fn := list double -> double.
Definition dbc_row := list (option dcondition_fn).
(** [bc.conditions_[s]] and [bc_conditions[dof]] *)
Definition dbc_side (bc : list (option dbc_row)) (s : nat) : outcome dbc_row :=
  match nth_error bc s with Some (Some r) => Ok r | _ => UB end.
Definition dbc_cond (r : dbc_row) (d : nat) : outcome (option dcondition_fn) :=
  match nth_error r d with Some c => Ok c | None => UB end.
(** [u = y.at_g(pos); u[dof] = v] (vec.hpp l.152-166): a copy, no rounding *)
Definition dset_g (dm : dmda) (y : dfield) (p : list Z) (d : nat) (v : double) : outcome dfield :=
  if point_inside Z.ltb (g_own dm) p then Ok (fun q c => if same_node p q && Nat.eqb d c then v else y q c) else UB.
(** l.64-104: the loop common to [kernel_vec_on_bc], [kernel_const_on_bc] and [kernel_func_on_bc] *)
Definition dkernel_on_bc (val : list Z -> nat -> dcondition_fn -> double) (dm : dmda) (row : dbc_row) (pos : list Z) (y : dfield) : outcome dfield :=
  for_ (g_dof dm) (fun dof y =>
    bind (dbc_cond row dof) (fun c =>
    match c with None => Ok y | Some f => dset_g dm y pos dof (val pos dof f) end)) y.
(** l.69 [uy[dof] = ux[dof]] *)
Definition dval_vec (x : dfield) : list Z -> nat -> dcondition_fn -> double := fun pos dof _ => x pos dof.
(** l.81 [uy[dof] = x] *)
Definition dval_const (x : double) : list Z -> nat -> dcondition_fn -> double := fun _ _ _ => x.
(** l.92-93 [coord[i] = pos[i]*h[i]]: an int converted to a double, a rounded product *)
Definition dcoord (pos : list Z) (h : list double) : list double := zip_with (fun i s => dmult (dint i) s) pos h.
(** l.95-97 *)
Definition dval_func (h : list double) : list Z -> nat -> dcondition_fn -> double := fun pos _ f => f (dcoord pos h).
(** l.106-144 [set_dirichlet_impl] on one process *)
Definition dset_dirichlet_impl (D : nat) (val : list Z -> nat -> dcondition_fn -> double) (bc : list (option dbc_row)) (dm : dmda) (y : dfield) : outcome dfield :=
  let bd_type := get_boundary_type dm in
  let gbounds := get_global_bounds dm in
  let b := get_DM_bounds dm false in
  for_ D (fun d y =>
    if nth d bd_type false then Ok y else
    bind (if Z.eqb (nth d (bottom_left b) 0%Z) 0 then
            bind (dbc_side bc (2 * d)) (fun row =>
            iterate_o (mkbox (bottom_left b) (set_nth d 1%Z (upper_right b))) (dkernel_on_bc val dm row) y)
          else Ok y) (fun y =>
    if Z.eqb (nth d (upper_right b) 0%Z) (nth d gbounds 0%Z) then
      bind (dbc_side bc (2 * d + 1)) (fun row =>
      iterate_o (mkbox (set_nth d (nth d gbounds 0 - 1)%Z (bottom_left b)) (upper_right b)) (dkernel_on_bc val dm row) y)
    else Ok y)) y.
(** every process on the entries it owns (disjoint, so the order does not matter) *)
Definition dset_dirichlet (D : nat) (val : list Z -> nat -> dcondition_fn -> double) (bc : list (option dbc_row)) (dms : list dmda) (y : dfield) : outcome dfield :=
  fold_left (fun o dm => bind o (dset_dirichlet_impl D val bc dm)) dms (Ok y).
(** l.146-192 *)
Definition dSetDirichletOnVec (D : nat) (dms : list dmda) (x y : dfield) (bc : list (option dbc_row)) : outcome dfield :=
  dset_dirichlet D (dval_vec x) bc dms y.
Definition dSetDirichletOnRHS (D : nat) (dms : list dmda) (y : dfield) (bc : list (option dbc_row)) (h : list double) : outcome dfield :=
  dset_dirichlet D (dval_func h) bc dms y.
Definition dSetNullDirichletOnRHS (D : nat) (dms : list dmda) (y : dfield) (bc : list (option dbc_row)) : outcome dfield :=
  dset_dirichlet D (dval_const dzero) bc dms y.

(** matrixFree.hpp l.44-82 [diag_block_matrix] with its boundary conditions: Y is a result (the additions between
    processes have no fixed order, see [dlocal_to_global]) *)
Definition ddiag_block_matrix (apply : dmda -> dlvec -> dlvec -> outcome dlvec) (D : nat) (bc : list (option dbc_row)) (dms : list dmda) (x Y : dfield) : Prop :=
  exists R, ddiag_block_matrix_raw apply dms x R /\ dSetDirichletOnVec D dms x R bc = Ok Y.
(** l.195-246 [stokes_matrix] with its boundary conditions: only the velocity part is overwritten *)
Definition dstokes_matrix (apply : dmda -> dlvec -> dlvec -> outcome dlvec) (M : nat -> nat -> nat -> double) (D : nat) (bc : list (option dbc_row))
    (dms : list (dmda * dmda)) (xv xp Yv Yp : dfield) : Prop :=
  exists Rv, dstokes_matrix_raw apply M dms xv xp Rv Yp /\ dSetDirichletOnVec D (map fst dms) xv Rv bc = Ok Yv.

(** rhs.hpp l.53-86 [kernel_func_on_rhs], [set_rhs_impl] *)
Definition dkernel_func_on_rhs (conds : dbc_row) (h : list double) (dm : dmda) (pos : list Z) (x : dfield) : outcome dfield :=
  for_ (g_dof dm) (fun dof x =>
    bind (dbc_cond conds dof) (fun c =>
    match c with None => Ok x | Some f => dset_g dm x pos dof (dval_func h pos dof f) end)) x.
Definition dset_rhs_impl (conds : dbc_row) (h : list double) (dm : dmda) (x : dfield) : outcome dfield :=
  iterate_o (get_DM_bounds dm false) (dkernel_func_on_rhs conds h dm) x.
(** rhs.hpp l.88-118 [set_rhs]: [tmp] starts at 0; each entry of [rhs] takes part in the sums of the ADD_VALUES scatter *)
Definition dset_rhs (conds : dbc_row) (h : list double) (dms : list dmda) (rhs Y : dfield) : Prop :=
  exists tmp ys, fold_left (fun o dm => bind o (dset_rhs_impl conds h dm)) dms (Ok (fun _ _ => dzero)) = Ok tmp /\
  on_all (fun dm => dmass_mult h dm (dglobal_to_local dm tmp) (dfill0 dm)) dms = Ok ys /\
  forall n d, summed (rhs n d :: l2g_entries dms ys n d) (Y n d).
(** rhs.hpp l.48-50 [has_condition] *)
Definition dhas_condition (conds : dbc_row) : bool := negb (forallb (fun c => match c with None => true | Some _ => false end) conds).
(** stokes.hpp l.216-217 [VecSet(rhs, 0.)] and l.310-326 [setup_RHS], velocity part *)
Definition dsetup_RHS (D : nat) (conds : dbc_row) (bc : list (option dbc_row)) (h : list double) (dms : list dmda) (Y : dfield) : Prop :=
  exists R : dfield, (if dhas_condition conds then dset_rhs conds h dms (fun _ _ => dzero) R else R = (fun _ _ => dzero)) /\
  dSetDirichletOnRHS D dms R bc h = Ok Y.
