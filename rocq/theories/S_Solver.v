(** Independent specification for the multigrid hierarchy and the XDMF files. *)
From Verif Require Import Base M_Geometry.
Open Scope Z_scope.

(** ** Multigrid *)
(** the cells of an axis of n points *)
Definition axis_cells (per : bool) (n : Z) : Z := if per then n else n - 1.
(** PETSc's DMCoarsen on an axis of a DMDA: the number of cells is halved *)
Definition coarsened (per : bool) (n : Z) : Z := if per then n / 2 else 1 + (n - 1) / 2.
Definition coarsened_by (l : nat) (per : bool) (n : Z) : Z := Nat.iter l (coarsened per) n.
(** the grid can be coarsened l times without remainder *)
Definition coarsens (l : nat) (per : bool) (n : Z) : Prop := 0 < axis_cells per n /\ (2 ^ Z.of_nat l | axis_cells per n).
(** a computation that never returns *)
Definition never_returns {A} (f : nat -> outcome A) : Prop := forall fuel, f fuel = OutOfFuel.
Definition returns {A} (f : nat -> outcome A) (a : A) : Prop := exists fuel0, forall fuel, (fuel0 <= fuel)%nat -> f fuel = Ok a.

(** ** HDF5 and XDMF *)
(** VecView of a 2D DMDA vector writes an array of my x mx (x dof) values, the last index fastest: the value of node (i, j) is
    the entry j*mx + i *)
Definition hdf5_dims (mx my dof : Z) : list Z := if dof =? 1 then [my; mx] else [my; mx; dof].
Definition hdf5_entry (mx : Z) (i j : Z) : Z := j * mx + i.
(** An XDMF reader takes the announced sizes slowest first: on a CoRectMesh announced as [rows; columns] the point of column i and
    row j, at (i dx, j dy), shows the entry j*columns + i *)
Definition shown_entry (dims : list Z) (i j : Z) : Z := j * nth 1 dims 0 + i.

(** ** Options *)
(** the length covered by an axis of n points and step h: the last point of a periodic axis is followed by the first one *)
Definition axis_length (per : bool) (n : Z) (h : R) : R := (IZR (axis_cells per n) * h)%R.
