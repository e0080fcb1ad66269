(** Independent specification for the transfers between the grid and the surface points in doubles. *)
From Flocq Require Import BinarySingleNaN.
From Verif Require Import Base M_Geometry S_Geometry M_Particle S_Particle S_Fem M_Quadrature M_MatElem M_Mesh M_Operator S_Operator S_ParticleOp.
From Verif Require Import M_Double S_Double.
From Verif Require Import M_DoubleOp S_DoubleOp.
Open Scope R_scope.
(** The offset x of a point in a cell of sides h: finite doubles, at most two sides away. *)
Definition good_offset (h x : list double) : Prop := Forall2 (fun s y => finite y /\ Rabs (dval y) <= 2 * dval s) h x.
(** The same, in the cell up to a fraction eps of its sides. *)
Definition in_cell (eps : R) (h x : list double) : Prop := Forall2 (fun s y => finite y /\ - eps * dval s <= dval y <= (1 + eps) * dval s) h x.
(** Size of the k-th weight: its absolute value and 2^-700 for the underflows. *)
Definition size_shape (h x : vec) (k : nat) : R := Rabs (shape h x k) + / 2 ^ 700.
(** The value of the Q1 field at the offset x of the cell e with all the terms in absolute value. *)
Definition size_at (m : list Z) (per : list bool) (h : vec) (u : field) (e : list Z) (x : vec) (d : nat) : R :=
  Rsum (2 ^ length m) (fun k => size_shape h x k * gv m per u e k d).
(** One surface point: cell, offset, force density; the forces of all the surface points are spread over the corners
    of their cells: value at the node n, component d. *)
Definition spread (m : list Z) (per : list bool) (h : vec) (pts : list (list Z * vec * vec * R)) (n : list Z) (d : nat) : R :=
  Lsum (fun p => let '(e, x, g, gam) := p in Rsum (2 ^ length m) (fun k => if same_node (wrap m per (corner e k)) n then co d g * shape h x k * gam else 0)) pts.
(** The same with all the terms in absolute value, and the number of terms. *)
Definition spread_size (m : list Z) (per : list bool) (h : vec) (pts : list (list Z * vec * vec * R)) (n : list Z) (d : nat) : R :=
  Lsum (fun p => let '(e, x, g, gam) := p in Rsum (2 ^ length m) (fun k => if same_node (wrap m per (corner e k)) n then (Rabs (co d g) * size_shape h x k + / 2 ^ 700) * Rabs gam else 0)) pts.
Definition spread_terms (m : list Z) (per : list bool) (pts : list (list Z * vec * vec * R)) (n : list Z) : R :=
  Lsum (fun p => let '(e, x, g, gam) := p in Rsum (2 ^ length m) (fun k => if same_node (wrap m per (corner e k)) n then 1 else 0)) pts.
(** All the surface points of all the processes and particles, with the reals that the doubles stand for. *)
Definition all_points (dms : list dmda) (gam : nat -> double) (surf : dmda -> list (list (list Z * list double))) (g : dmda -> list (list (list double))) : list (list Z * vec * vec * R) :=
  flat_map (fun dm => flat_map (fun i => map (fun p => (fst (fst p), map dval (snd (fst p)), map dval (snd p), dval (gam i))) (combine (nth i (surf dm) []) (nth i (g dm) []))) (seq 0 (length (g dm)))) dms.
(** The data of the processes fit together: one force of D components per surface point; a process looks after surface points
    in cells it looks after, with moderate offsets. *)
Definition surface_ok (D : nat) (h : list double) (dms : list dmda) (surf : dmda -> list (list (list Z * list double))) (g : dmda -> list (list (list double))) : Prop :=
  forall dm, In dm dms -> same_shape (surf dm) (g dm) /\ Forall (all_len D) (g dm) /\
    forall spts sp, In spts (surf dm) -> In sp spts -> in_grid_box (get_DM_bounds dm true) (fst sp) /\ good_offset h (snd sp).
(** Finite forces, at most 2^900, and finite weights. *)
Definition finite_forces (dms : list dmda) (gam : nat -> double) (g : dmda -> list (list (list double))) : Prop :=
  forall dm i, In dm dms -> (i < length (g dm))%nat -> finite (gam i) /\ Forall (Forall (fun v => finite v /\ Rabs (dval v) <= 2 ^ 900)) (nth i (g dm) []).
Close Scope R_scope.
