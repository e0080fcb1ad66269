(** Independent specification for the convergence of the solution of the constrained Laplace system. *)
From Verif Require Import Base M_Geometry S_Geometry M_Particle S_Particle M_Mesh M_Operator S_Operator M_ParticleOp S_ParticleOp M_Bc S_Bc S_Accuracy S_Consistency.
Open Scope R_scope.
(** Component c of u solves minus Laplacian u = f, with the load [conds] and the boundary values of the table [bc], at the
    nodes of the grid: f is the load (0 where there is none); the condition of a wall for this component, where there is one, is
    u on the nodes of that wall; the equation holds at the interior nodes; and along the periodic axes u and f repeat themselves. *)
Definition continuous_problem (h : vec) (m : list Z) (per : list bool) (bc : list bc_row) (conds : bc_row) (u f : nat -> vec -> R) (c : nat) : Prop :=
  (forall d X, match nth d conds None with Some g => g X = f d X | None => f d X = 0 end) /\
  (forall n s g, in_grid_box (nodes_box m) n -> In s (sides (length m)) -> on_side m per n s = true -> nth c (nth (side_index s) bc []) None = Some g -> g (grid_point h n) = u c (grid_point h n)) /\
  (forall n, interior m per n -> minus_laplacian (u c) (length m) (grid_point h n) = f c (grid_point h n)) /\
  (forall n, interior m per n -> samples_near (u c) m per h (fun n c => u c (grid_point h n)) n c /\ samples_near (f c) m per h (fun n c => f c (grid_point h n)) n c).
(** Its derivatives near the interior nodes: those of the second derivatives of u by M, those of f by K. *)
Definition smooth_problem (h : vec) (m : list Z) (per : list bool) (u f : nat -> vec -> R) (c : nat) (M : nat -> nat -> R) (K : nat -> R) : Prop :=
  forall n, interior m per n -> smooth4 (u c) h (grid_point h n) M /\ smooth2 (f c) h (grid_point h n) K.
(** Length of the domain along the axis d. *)
Definition distance (h : vec) (m : list Z) (d : nat) : R := nth d h 0 * IZR (nth d m 0%Z - 1).
(** 12 in two dimensions, 72 in three. *)
Definition stability (D : nat) : R := match D with 2%nat => 12 | _ => 72 end.
Close Scope R_scope.
