(** Independent specification for the SEM and DtoN drivers. *)
From Verif Require Import Base M_Geometry S_Geometry S_Particle S_Fem M_Mesh M_Operator S_Operator M_Bc M_ParticleOp M_Problem.
Open Scope R_scope.

(** a f1 + b f2 = f3 at every node of the grid *)
Definition field_combination (m : list Z) (D : nat) (a b : R) (f1 f2 f3 : field) : Prop :=
  forall n d, in_grid_box (nodes_box m) n -> (d < D)%nat -> f3 n d = a * f1 n d + b * f2 n d.
(** the Stokes solver is exact: it inverts a linear system *)
Definition linear_solver (m : list Z) (D : nat) (solve : field -> field) : Prop :=
  forall a b f1 f2 f3, field_combination m D a b f1 f2 f3 -> field_combination m D a b (solve f1) (solve f2) (solve f3).
(** a x1 + b x2 = x3, entry by entry on every process *)
Definition control_combination (dms : list dmda) (a b : R) (x1 x2 x3 : control) : Prop :=
  forall dm, In dm dms -> length (x2 dm) = length (x1 dm) /\ length (x3 dm) = length (x1 dm) /\ forall k, nth k (x3 dm) 0 = a * nth k (x1 dm) 0 + b * nth k (x2 dm) 0.
(** vectors created by create_Mat_and_Vec *)
Definition control_vector (D : nat) (h : vec) (parts : list gpart) (dms : list dmda) (k : R) (scale : Z) (x : control) : Prop :=
  forall dm, In dm dms -> length (x dm) = control_size D h parts k scale dm.
Definition zero_control (x : control) : Prop := forall dm v, In v (x dm) -> v = 0.
(** velocities of the particles have one entry per axis, spins 1 (2D) or 3 *)
Definition rigid_data (D : nat) (parts : list gpart) : Prop :=
  Forall (fun p => length (gp_velocity p) = D /\ length (gp_angular p) = spin_size D) parts.
(** a flag switches its term on (1) or off (0) *)
Definition on_off (b : bool) : R := if b then 1 else 0.
(** The doubles a process holds for the values F(particle, node, component): particle after particle, node
    after node in the order of [pts], components last. *)
Definition laid_out (D np : nat) (pts : nat -> list (list Z)) (F : nat -> list Z -> nat -> R) : list R :=
  flat_map (fun i => flat_map (fun q => map (F i q) (seq 0 D)) (pts i)) (seq 0 np).
(** the value the last particle that holds node q gives to it, [other] if none does *)
Definition last_holder (np : nat) (pts : nat -> list (list Z)) (F : nat -> list Z -> nat -> R) (q : list Z) (d : nat) (other : R) : R :=
  fold_left (fun v i => if existsb (same_node q) (pts i) then F i q d else v) (seq 0 np) other.
