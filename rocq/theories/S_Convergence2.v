(** Independent specification for the convergence of the solution of the constrained strain-tensor system in a box. *)
From Verif Require Import Base M_Geometry S_Geometry M_Particle S_Particle M_Mesh M_Operator S_Operator M_ParticleOp S_ParticleOp M_Bc S_Bc S_Accuracy S_Consistency S_Consistency2.
Open Scope R_scope.
(** No axis is periodic. *)
Definition closed_box (m : list Z) : list bool := repeat false (length m).
(** The field u solves minus div (2 e(u)) = f, e being the rate of strain, with the load [conds] and the boundary values of the
    table [bc]: f is the load (0 where there is none), the conditions of the walls are u there, the equation holds at the interior nodes. *)
Definition strain_problem (h : vec) (m : list Z) (bc : list bc_row) (conds : bc_row) (u f : nat -> vec -> R) : Prop :=
  (forall c X, match nth c conds None with Some g => g X = f c X | None => f c X = 0 end) /\
  (forall c n s g, (c < length m)%nat -> in_grid_box (nodes_box m) n -> In s (sides (length m)) -> on_side m (closed_box m) n s = true -> nth c (nth (side_index s) bc []) None = Some g -> g (grid_point h n) = u c (grid_point h n)) /\
  (forall c n, (c < length m)%nat -> interior m (closed_box m) n -> minus_div_strain u (length m) c (grid_point h n) = f c (grid_point h n)).
(** Derivatives near the interior nodes, in the equation of the component c: those of the second derivatives of u c bounded by [M c],
    those of the derivative along c of that of u j along j by [N c j], those of f c by [K c]. *)
Definition smooth_strain_problem (h : vec) (m : list Z) (u f : nat -> vec -> R) (M N : nat -> nat -> nat -> R) (K : nat -> nat -> R) : Prop :=
  forall c n, (c < length m)%nat -> interior m (closed_box m) n -> let X := grid_point h n in
    smooth4 (u c) h X (M c) /\ (forall j, (j < length m)%nat -> j <> c -> smooth_mixed (u j) h X j c (N c j)) /\ smooth2 (f c) h X (K c).
(** The same problem with periodic axes, along which u and f repeat themselves. *)
Definition strain_problem_in (h : vec) (m : list Z) (per : list bool) (bc : list bc_row) (conds : bc_row) (u f : nat -> vec -> R) : Prop :=
  (forall c X, match nth c conds None with Some g => g X = f c X | None => f c X = 0 end) /\
  (forall c n s g, (c < length m)%nat -> in_grid_box (nodes_box m) n -> In s (sides (length m)) -> on_side m per n s = true -> nth c (nth (side_index s) bc []) None = Some g -> g (grid_point h n) = u c (grid_point h n)) /\
  (forall c n, (c < length m)%nat -> interior m per n -> minus_div_strain u (length m) c (grid_point h n) = f c (grid_point h n)) /\
  (forall c n, (c < length m)%nat -> interior m per n -> samples_near (u c) m per h (fun n c => u c (grid_point h n)) n c /\ samples_near (f c) m per h (fun n c => f c (grid_point h n)) n c).
Definition smooth_strain_problem_in (h : vec) (m : list Z) (per : list bool) (u f : nat -> vec -> R) (M N : nat -> nat -> nat -> R) (K : nat -> nat -> R) : Prop :=
  forall c n, (c < length m)%nat -> interior m per n -> let X := grid_point h n in
    smooth4 (u c) h X (M c) /\ (forall j, (j < length m)%nat -> j <> c -> smooth_mixed (u j) h X j c (N c j)) /\ smooth2 (f c) h X (K c).
(** Consistency error in the equation of the component c. *)
Definition strain_residual (h : vec) (M N : nat -> nat -> nat -> R) (K : nat -> nat -> R) (c : nat) : R := strain_error h (M c) (N c) c + mass_error h (K c).
(** 6 in two dimensions, 36 in three. *)
Definition strain_stability (D : nat) : R := match D with 2%nat => 6 | _ => 36 end.
Close Scope R_scope.
