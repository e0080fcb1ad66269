(** Independent specification for the consistency of the strain-tensor operator. *)
From Coquelicot Require Import Coquelicot.
From Verif Require Import Base M_Geometry S_Geometry M_Particle S_Particle S_Fem M_Mesh M_Operator S_Operator M_ParticleOp S_ParticleOp S_Accuracy S_Consistency.
Open Scope R_scope.
(** At all points at most a step away: the derivative along i exists, it has a derivative along j, and that one has second derivatives, bounded by [N k] along k. *)
Definition smooth_mixed (f : vec -> R) (h X : vec) (i j : nat) (N : nat -> R) : Prop :=
  forall Y, within 1 h X Y -> ex_derive (fun t => f (moved Y i t)) (co i Y) /\ ex_derive (fun t => first f i (moved Y j t)) (co j Y) /\
    forall k, (k < length h)%nat -> bends (first (first f i) j) Y k (N k).
(** Component c of minus the divergence of twice the rate of strain, whose entries are d_j u_c + d_c u_j. *)
Definition minus_div_strain (u : nat -> vec -> R) (D c : nat) (X : vec) : R := - Rsum D (fun j => second (u c) j X + first (first (u j) j) c X).
(** [M]: bounds for the component c (fourth derivatives), [N j]: for the derivative along c of that of u_j along j. *)
Definition strain_error (h : vec) (M : nat -> nat -> R) (N : nat -> nat -> R) (c : nat) : R :=
  laplacian_error h M + Rsum (length h) (fun j => Rsum (length h) (fun i =>
    if Nat.eqb j c then co i h ^ 2 / (if Nat.eqb i c then 12 else 6) * M c i else co i h ^ 2 / (if (Nat.eqb i j || Nat.eqb i c)%bool then 2 else 6) * N j i)).
Close Scope R_scope.
