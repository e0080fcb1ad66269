(** Model of cafes/fem/bc.hpp, cafes/fem/rhs.hpp and of the boundary-condition part of
    cafes/fem/matrixFree.hpp. *)
From Verif Require Import Base M_Geometry M_Particle M_Quadrature M_MatElem M_Mesh M_Operator.

(** bc.hpp l.41 [condition_fn]: called as [f(coord, &u)].  Simplification: the function
    writes exactly one value, computed from the coordinates. A null pointer is [None]. *)
Definition condition_fn := list R -> R.
(** [std::array<condition_fn, Dimensions>] *)
Definition bc_row := list (option condition_fn).
(** l.46-62 [dirichlet_conditions]: an array of 2*D rows; [None] is a row that was never
    written (indeterminate value: any use is undefined). [std::copy] of a list longer than
    the array writes past its end. *)
Definition dirichlet_conditions (D : nat) (il : list bc_row) : outcome (list (option bc_row)) :=
  if Nat.leb (length il) (2 * D) then Ok (map Some il ++ repeat None (2 * D - length il)) else UB.
(** [bc.conditions_[s]] and [bc_conditions[dof]] *)
Definition bc_side (bc : list (option bc_row)) (s : nat) : outcome bc_row :=
  match nth_error bc s with Some (Some r) => Ok r | _ => UB end.
Definition bc_cond (r : bc_row) (d : nat) : outcome (option condition_fn) :=
  match nth_error r d with Some c => Ok c | None => UB end.

(** [u = y.at_g(pos); u[dof] = v] (vec.hpp l.152-166): the array of the owned entries of one process. The
    field stands for the whole distributed vector; a process may only touch what it owns. *)
Definition set_g (dm : dmda) (y : field) (p : list Z) (d : nat) (v : R) : outcome field :=
  if point_inside Z.ltb (g_own dm) p then Ok (fun q c => if same_node p q && Nat.eqb d c then v else y q c) else UB.

(** l.64-104: the loop common to [kernel_vec_on_bc] (val = the entry of x),
    [kernel_const_on_bc] (val = x) and [kernel_func_on_bc] (val = f at the node's
    coordinates [pos[i]*h[i]]) *)
Definition kernel_on_bc (val : list Z -> nat -> condition_fn -> R) (dm : dmda) (row : bc_row) (pos : list Z) (y : field) : outcome field :=
  for_ (g_dof dm) (fun dof y =>
    bind (bc_cond row dof) (fun c =>
    match c with None => Ok y | Some f => set_g dm y pos dof (val pos dof f) end)) y.
Definition val_vec (x : field) : list Z -> nat -> condition_fn -> R := fun pos dof _ => x pos dof.
Definition val_const (x : R) : list Z -> nat -> condition_fn -> R := fun _ _ _ => x.
Definition val_func (h : list R) : list Z -> nat -> condition_fn -> R := fun pos _ f => f (zip_with (fun i s => IZR i * s)%R pos h).

(** l.106-144 [set_dirichlet_impl] on one process *)
Definition set_dirichlet_impl (D : nat) (val : list Z -> nat -> condition_fn -> R) (bc : list (option bc_row)) (dm : dmda) (y : field) : outcome field :=
  let bd_type := get_boundary_type dm in
  let gbounds := get_global_bounds dm in
  let b := get_DM_bounds dm false in
  for_ D (fun d y =>
    if nth d bd_type false then Ok y else
    bind (if Z.eqb (nth d (bottom_left b) 0%Z) 0 then
            bind (bc_side bc (2 * d)) (fun row =>
            iterate_o (mkbox (bottom_left b) (set_nth d 1%Z (upper_right b))) (kernel_on_bc val dm row) y)
          else Ok y) (fun y =>
    if Z.eqb (nth d (upper_right b) 0%Z) (nth d gbounds 0%Z) then
      bind (bc_side bc (2 * d + 1)) (fun row =>
      iterate_o (mkbox (set_nth d (nth d gbounds 0 - 1)%Z (bottom_left b)) (upper_right b)) (kernel_on_bc val dm row) y)
    else Ok y)) y.

(** every process runs it on its own entries of the distributed vector (they are
    disjoint, so the order of the processes in the list does not matter) *)
Definition set_dirichlet (D : nat) (val : list Z -> nat -> condition_fn -> R) (bc : list (option bc_row)) (dms : list dmda) (y : field) : outcome field :=
  fold_left (fun o dm => bind o (set_dirichlet_impl D val bc dm)) dms (Ok y).
(** l.146-192 [SetDirichletOnVec], [SetDirichletOnRHS], [SetNullDirichletOnRHS] *)
Definition SetDirichletOnVec (D : nat) (dms : list dmda) (x y : field) (bc : list (option bc_row)) : outcome field :=
  set_dirichlet D (val_vec x) bc dms y.
Definition SetDirichletOnRHS (D : nat) (dms : list dmda) (y : field) (bc : list (option bc_row)) (h : list R) : outcome field :=
  set_dirichlet D (val_func h) bc dms y.
Definition SetNullDirichletOnRHS (D : nat) (dms : list dmda) (y : field) (bc : list (option bc_row)) : outcome field :=
  set_dirichlet D (val_const 0%R) bc dms y.

(** matrixFree.hpp l.44-82 [diag_block_matrix] with its boundary conditions
    ([set_bc_] = [bc] is [Some]) *)
Definition diag_block_matrix (apply : dmda -> lvec -> lvec -> outcome lvec) (D : nat) (bc : option (list (option bc_row))) (dms : list dmda) (x : field) : outcome field :=
  bind (diag_block_matrix_raw apply dms x) (fun y =>
  match bc with None => Ok y | Some b => SetDirichletOnVec D dms x y b end).
(** l.195-246 [stokes_matrix] *)
Definition stokes_matrix (apply : dmda -> lvec -> lvec -> outcome lvec) (h : list R) (D : nat) (bc : option (list (option bc_row)))
    (dms : list (dmda * dmda)) (xv xp : field) : outcome (field * field) :=
  bind (stokes_matrix_raw apply h dms xv xp) (fun y =>
  match bc with
  | None => Ok y
  | Some b => bind (SetDirichletOnVec D (map fst dms) xv (fst y) b) (fun yv => Ok (yv, snd y))
  end).

(** rhs.hpp l.53-86 [kernel_func_on_rhs], [set_rhs_impl] on one process and on all *)
Definition kernel_func_on_rhs (conds : bc_row) (h : list R) (dm : dmda) (pos : list Z) (x : field) : outcome field :=
  for_ (g_dof dm) (fun dof x =>
    bind (bc_cond conds dof) (fun c =>
    match c with None => Ok x | Some f => set_g dm x pos dof (val_func h pos dof f) end)) x.
Definition set_rhs_impl (conds : bc_row) (h : list R) (dm : dmda) (x : field) : outcome field :=
  iterate_o (get_DM_bounds dm false) (kernel_func_on_rhs conds h dm) x.
(** rhs.hpp l.88-118 [set_rhs]: [tmp] starts at 0, [rhs] is added to *)
Definition set_rhs (conds : bc_row) (h : list R) (dms : list dmda) (rhs : field) : outcome field :=
  bind (fold_left (fun o dm => bind o (set_rhs_impl conds h dm)) dms (Ok zeros)) (fun tmp =>
  bind (on_all (fun dm => mass_mult h dm (global_to_local dm tmp) (fill0 dm)) dms) (fun ys =>
  Ok (local_to_global_add dms ys rhs))).
(** rhs.hpp l.48-50 [has_condition] *)
Definition has_condition (conds : bc_row) : bool := negb (forallb (fun c => match c with None => true | Some _ => false end) conds).
(** stokes.hpp l.310-326 [setup_RHS], velocity part of the right-hand side (the pressure part is not touched) *)
Definition setup_RHS (D : nat) (conds : bc_row) (bc : list (option bc_row)) (h : list R) (dms : list dmda) (rhs : field) : outcome field :=
  bind (if has_condition conds then set_rhs conds h dms rhs else Ok rhs) (fun rhs =>
  SetDirichletOnRHS D dms rhs bc h).
