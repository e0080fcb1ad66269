(** Independent specification for the consistency of the discretised operators with the continuous ones. *)
From Coquelicot Require Import Coquelicot.
From Verif Require Import Base M_Geometry S_Geometry M_Particle S_Particle S_Fem M_Mesh M_Operator S_Operator M_ParticleOp S_ParticleOp S_Accuracy.
Open Scope R_scope.
(** [n] is a node, and not on a side of a non-periodic axis. *)
Definition interior (m : list Z) (per : list bool) (n : list Z) : Prop :=
  length n = length m /\ forall d : nat, (d < length m)%nat -> if nth d per false then (0 <= nth d n 0 < nth d m 0)%Z else (0 < nth d n 0 < nth d m 0 - 1)%Z.
(** [Y] is at most r steps away from [X], along every axis. *)
Definition within (r : R) (h X Y : vec) : Prop := length Y = length h /\ forall i, (i < length h)%nat -> Rabs (co i Y - co i X) <= r * co i h.
(** First and second partial derivative along the axis j. *)
Definition first (f : vec -> R) (j : nat) (X : vec) : R := Derive (fun t => f (moved X j t)) (co j X).
Definition second (f : vec -> R) (j : nat) (X : vec) : R := Derive (Derive (fun t => f (moved X j t))) (co j X).
Definition twice_derivable (f : vec -> R) (j : nat) (X : vec) : Prop :=
  let g := fun t => f (moved X j t) in ex_derive g (co j X) /\ ex_derive (Derive g) (co j X).
(** At all points at most a step away from [X] along every axis: second derivatives bounded by [M i];
    and their second derivatives too, those of the second derivative along j by [M j i] along i. *)
Definition smooth2 (f : vec -> R) (h X : vec) (M : nat -> R) : Prop :=
  forall Y i, within 1 h X Y -> (i < length h)%nat -> bends f Y i (M i).
Definition smooth4 (f : vec -> R) (h X : vec) (M : nat -> nat -> R) : Prop :=
  forall Y i j, within 1 h X Y -> (i < length h)%nat -> (j < length h)%nat -> twice_derivable f j Y /\ bends (second f j) Y i (M j i).
(** At all points at most two steps away: the first derivative along j exists and has second derivatives, bounded by [N j i] along i. *)
Definition smooth3 (f : vec -> R) (h X : vec) (N : nat -> nat -> R) : Prop :=
  forall Y i j, within 2 h X Y -> (i < length h)%nat -> (j < length h)%nat -> ex_derive (fun t => f (moved Y j t)) (co j Y) /\ bends (first f j) Y i (N j i).
(** The values of component c at the node n and at its neighbours are those of f (through the period along a periodic axis). *)
Definition samples_near (f : vec -> R) (m : list Z) (per : list bool) (h : vec) (x : field) (n : list Z) (c : nat) : Prop :=
  forall o, length o = length m -> Forall (fun a => (-1 <= a <= 1)%Z) o -> x (wrap m per (zip_with Z.add n o)) c = f (grid_point h (zip_with Z.add n o)).
(** Pressure: the nodes of the pressure grid are the even nodes of the velocity grid; its values at those at most two
    nodes of the velocity grid away from [n] are those of p, [h] being the steps of the velocity grid. *)
Definition pressure_near (p : vec -> R) (mp : list Z) (per : list bool) (h : vec) (q : field) (n : list Z) : Prop :=
  forall k, length k = length mp -> Forall2 (fun a b => (-2 <= 2 * a - b <= 2)%Z) k n -> q (wrap mp per k) 0%nat = p (grid_point h (map (Z.mul 2) k)).
(** Velocity: its values at the nodes at most two steps away from the pressure node [n]. *)
Definition velocity_near (u : nat -> vec -> R) (mp : list Z) (per : list bool) (h : vec) (x : field) (n : list Z) : Prop :=
  forall o c, length o = length mp -> Forall (fun a => (-2 <= a <= 2)%Z) o -> (c < length mp)%nat ->
    x (wrap (refined_size mp per) per (zip_with Z.add (map (Z.mul 2) n) o)) c = u c (grid_point h (zip_with Z.add (map (Z.mul 2) n) o)).
(** Volume of a cell. *)
Definition cell_volume (h : vec) : R := fold_right Rmult 1 h.
(** Minus the Laplacian. *)
Definition minus_laplacian (f : vec -> R) (D : nat) (X : vec) : R := - Rsum D (fun j => second f j X).
(** Error bounds, of second order in the steps. *)
Definition mass_error (h : vec) (M : nat -> R) : R := Rsum (length h) (fun i => co i h ^ 2 / 6 * M i).
Definition laplacian_error (h : vec) (M : nat -> nat -> R) : R :=
  Rsum (length h) (fun j => Rsum (length h) (fun i => co i h ^ 2 / (if Nat.eqb i j then 12 else 6) * M j i)).
Definition gradient_error (h : vec) (N : nat -> nat -> R) (c : nat) : R :=
  Rsum (length h) (fun i => (if Nat.eqb i c then 2 / 3 else 1 / 2) * co i h ^ 2 * N c i).
Definition divergence_error (h : vec) (N : nat -> nat -> nat -> R) : R :=
  Rsum (length h) (fun c => Rsum (length h) (fun i => 5 / 12 * co i h ^ 2 * N c c i)).
Close Scope R_scope.
