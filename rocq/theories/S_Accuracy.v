(** Independent specification for the accuracy of the interpolation from the grid. *)
From Coquelicot Require Import Coquelicot.
From Verif Require Import Base M_Geometry S_Geometry M_Particle S_Particle S_Fem M_Mesh M_Operator S_Operator M_ParticleOp S_ParticleOp.
Open Scope R_scope.
(** Position of the offset [x] in the cell [e]. *)
Definition point_at (h : vec) (e : list Z) (x : vec) : vec := zip_with Rplus (grid_point h e) x.
(** The offset is in the closed cell. *)
Definition in_closed_cell (h x : vec) : Prop := Forall2 (fun s y => 0 <= y <= s) h x.
(** [X] with its coordinate [j] moved to [t]. *)
Definition moved (X : vec) (j : nat) (t : R) : vec := firstn j X ++ t :: skipn (S j) X.
(** The function [f] of a point has a second derivative along the axis [j] at [X], at most M in absolute value. *)
Definition bends (f : vec -> R) (X : vec) (j : nat) (M : R) : Prop :=
  let g := fun t => f (moved X j t) in ex_derive g (co j X) /\ ex_derive (Derive g) (co j X) /\ Rabs (Derive (Derive g) (co j X)) <= M.
(** So it is along every axis, at all points of the closed cell [e]; [M]: one bound per axis. *)
Definition bends_in_cell (f : vec -> R) (h : vec) (e : list Z) (M : nat -> R) : Prop :=
  forall x j, in_closed_cell h x -> (j < length h)%nat -> bends f (point_at h e x) j (M j).
(** The nodal values of component [d] at the corners of the cell [e] are those of f. *)
Definition samples_of (f : vec -> R) (m : list Z) (per : list bool) (h : vec) (u : field) (e : list Z) (d : nat) : Prop :=
  forall k, (k < 2 ^ length m)%nat -> gv m per u e k d = f (grid_point h (corner e k)).
(** Component by component, on all the cells of the grid. *)
Definition smooth_samples (f : nat -> vec -> R) (m : list Z) (per : list bool) (h : vec) (u : field) (M : nat -> nat -> R) : Prop :=
  forall e d, in_grid_box (cells_box m per) e -> (d < length m)%nat -> bends_in_cell (f d) h e (M d) /\ samples_of (f d) m per h u e d.
(** The error bound: an eighth of the sum of the squares of the steps times the bounds of the second derivatives. *)
Definition bending (h : vec) (M : nat -> R) : R := Rsum (length h) (fun j => M j * co j h ^ 2 / 8).
Close Scope R_scope.
