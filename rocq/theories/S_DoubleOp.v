(** Independent specification for the operators in doubles. *)
From Flocq Require Import BinarySingleNaN.
From Verif Require Import Base M_Geometry S_Geometry M_Particle S_Particle M_Quadrature M_MatElem M_Mesh M_Operator S_Operator.
From Verif Require Import M_Double S_Double.
From Verif Require Import M_DoubleOp.
Open Scope R_scope.
(** The underflow unit 2^-1075: half of the smallest positive double. *)
Definition tiny64 : R := / 2 ^ 1075.
(** The reals that the entries of a vector of doubles stand for, and their absolute values. *)
Definition exact (x : dfield) : field := fun n d => dval (x n d).
Definition absolute (x : dfield) : field := fun n d => Rabs (dval (x n d)).
(** The operator of [stokes_matrix] over the reals for any element matrix M of the divergence (the one of the code is [stokes_matrix_raw]). *)
Definition stokes_matrix_M (apply : dmda -> lvec -> lvec -> outcome lvec) (M : nat -> nat -> nat -> R)
    (dms : list (dmda * dmda)) (xv xp : field) : outcome (field * field) :=
  bind (on_all (fun dm : dmda * dmda =>
    let '(dv, dp) := dm in
    bind (apply dv (global_to_local dv xv) (fill0 dv)) (fun yv =>
    off_diag_block_mult (kernel_off_diag_block M) dp (global_to_local dv xv) (global_to_local dp xp) (yv, fill0 dp))) dms) (fun ys =>
  Ok (local_to_global_add (map fst dms) (map fst ys) zeros, local_to_global_add (map snd dms) (map snd ys) zeros)).
(** the entries of x at the nodes of the grid are finite *)
Definition finite_on (m : list Z) (dof : nat) (x : dfield) : Prop := forall n d, in_grid_box (nodes_box m) n -> (d < dof)%nat -> finite (x n d).
(** minus the absolute values (an argument for which the subtractions of the pressure terms add up) *)
Definition minus_abs (x : dfield) : field := fun n d => - Rabs (dval (x n d)).
(** Size of the entries of the element matrices: the sums of the absolute values of their terms, for real steps. *)
Definition size_laplacian (h : list R) (i j : nat) : R :=
  match h with
  | [h0; h1] => Rabs (h1 / h0 * matElem2d_dxudxu i j) + Rabs (h0 / h1 * matElem2d_dyudyu i j)
  | [h0; h1; h2] => Rabs (h1 * h2 / h0 * matElem3d_dxudxu i j) + Rabs (h0 * h2 / h1 * matElem3d_dyudyu i j) + Rabs (h0 * h1 / h2 * matElem3d_dzudzu i j)
  | _ => 0
  end.
Definition size_mass (h : list R) (i j : nat) : R := Rabs (getMatElemMass h i j).
Definition size_strain (h : list R) (i j a b : nat) : R :=
  match h with
  | [h0; h1] =>
    let xx := Rabs (h1 / h0 * matElem2d_dxudxu i j) in let yy := Rabs (h0 / h1 * matElem2d_dyudyu i j) in
    match a, b with
    | 0%nat, 0%nat => 2 * xx + yy
    | 0%nat, 1%nat | 1%nat, 0%nat => Rabs (getMatElemStrainTensor h i j a b)
    | _, _ => xx + 2 * yy
    end
  | [h0; h1; h2] =>
    let xx := Rabs (h1 * h2 / h0 * matElem3d_dxudxu i j) in let yy := Rabs (h0 * h2 / h1 * matElem3d_dyudyu i j) in let zz := Rabs (h0 * h1 / h2 * matElem3d_dzudzu i j) in
    match a, b with
    | 0%nat, 0%nat => 2 * xx + yy + zz
    | 1%nat, 1%nat => xx + 2 * yy + zz
    | 0%nat, 1%nat | 0%nat, 2%nat | 1%nat, 2%nat | 1%nat, 0%nat | 2%nat, 0%nat | 2%nat, 1%nat => Rabs (getMatElemStrainTensor h i j a b)
    | _, _ => xx + yy + 2 * zz
    end
  | _ => 0
  end.
Definition size_pressure (h : list R) (i j d : nat) : R := Rabs (getMatElemPressure h i j d).
(** Y is close to the real field y, with errors relative to the field a: every entry of Y that is finite is within p u64 a + q 2^-1075 of y,
    and the entries are finite when the data are ([fin]) and a is at most 2^1000. *)
Definition rounded (p q : nat) (fin : Prop) (Y : dfield) (y a : field) : Prop := forall n d,
  (finite (Y n d) -> Rabs (dval (Y n d) - y n d) <= INR p * u64 * a n d + INR q * tiny64) /\ (fin -> a n d <= 2 ^ 1000 -> finite (Y n d)).
(** the steps of a 2D or 3D grid: finite doubles of a moderate size *)
Definition good_steps (h : list double) : Prop := (length h = 2 \/ length h = 3)%nat /\ Forall (fun s => finite s /\ moderate (dval s)) h.
Close Scope R_scope.
