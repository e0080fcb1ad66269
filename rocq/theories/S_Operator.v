(** Independent specification for the mesh and the finite-element operators. *)
From Verif Require Import Base M_Geometry S_Geometry S_Particle S_Fem M_Mesh M_Operator.

(** Sum of f over a list. *)
Definition Lsum {A} (f : A -> R) (l : list A) : R := fold_right Rplus 0%R (map f l).

(** [N] lists the integer points of a box, each once (in any order). *)
Definition enumerates (N : list (list Z)) (b : box Z) : Prop := NoDup N /\ forall p, In p N <-> in_grid_box b p.

(** Nodes and cells of a grid of [m] points per axis: a periodic axis of m points has m
    cells, a non-periodic one m-1.  A cell is named by its lowest corner. *)
Definition nodes_box (m : list Z) : box Z := mkbox (map (fun _ => 0%Z) m) m.
Definition cells_box (m : list Z) (per : list bool) : box Z :=
  mkbox (map (fun _ => 0%Z) m) (zip_with (fun n (p : bool) => if p then n else (n - 1)%Z) m per).

(** What PETSc guarantees of the views [dms] that the processes have of a grid: the owned
    boxes are inside the grid and tile it, the ghosted boxes have one more layer. *)
Definition view_ok (m : list Z) (per : list bool) (dof : nat) (dm : dmda) : Prop :=
  g_size dm = m /\ g_per dm = per /\ g_dof dm = dof /\
  Forall2 Z.le (map (fun _ => 0%Z) m) (bottom_left (g_own dm)) /\
  Forall2 Z.le (bottom_left (g_own dm)) (upper_right (g_own dm)) /\
  Forall2 Z.le (upper_right (g_own dm)) m /\
  g_ghost dm = ghost_box m per (g_own dm).
Definition distributes (m : list Z) (per : list bool) (dof : nat) (dms : list dmda) : Prop :=
  Forall (view_ok m per dof) dms /\ tiling (map g_own dms) (nodes_box m).
Definition grid_ok (m : list Z) (per : list bool) : Prop :=
  (length m = 2 \/ length m = 3) /\ length per = length m /\ Forall (fun n => (1 <= n)%Z) m.

(** k-th vertex of cell e, first axis fastest: e + (bits of k). *)
Definition corner (e : list Z) (k : nat) : list Z :=
  zip_with (fun a i => (a + Z.of_nat (k / 2 ^ i mod 2))%Z) e (seq 0 (length e)).
(** k-th velocity node of the pressure cell e: 2e + (base-3 digits of k). *)
Definition corner3 (e : list Z) (k : nat) : list Z :=
  zip_with (fun a i => (2 * a + Z.of_nat (k / 3 ^ i mod 3))%Z) e (seq 0 (length e)).

(** Euclidean product of nodal fields over the nodes N. *)
Definition inner (N : list (list Z)) (dof : nat) (u v : field) : R :=
  Lsum (fun n => Rsum dof (fun d => u n d * v n d)%R) N.

(** Sums over the cells E of element forms: textbook assembly. [gv x e k d] is the value of
    component d of x at the k-th vertex of e. *)
Definition gv (m : list Z) (per : list bool) (x : field) (e : list Z) (k d : nat) : R := x (wrap m per (corner e k)) d.
Definition gv3 (m : list Z) (per : list bool) (x : field) (e : list Z) (k d : nat) : R := x (wrap m per (corner3 e k)) d.
Definition scalar_form (m : list Z) (per : list bool) (E : list (list Z)) (dof : nat) (M : nat -> nat -> R) (v x : field) : R :=
  Lsum (fun e => Rsum dof (fun d => Rsum (2 ^ length m) (fun k1 => Rsum (2 ^ length m) (fun k2 =>
    gv m per v e k1 d * M k1 k2 * gv m per x e k2 d))))%R E.
Definition tensor_form (m : list Z) (per : list bool) (E : list (list Z)) (dof : nat) (M : nat -> nat -> nat -> nat -> R) (v x : field) : R :=
  Lsum (fun e => Rsum (2 ^ length m) (fun k1 => Rsum (2 ^ length m) (fun k2 => Rsum dof (fun d1 => Rsum dof (fun d2 =>
    gv m per v e k1 d1 * M k1 k2 d1 d2 * gv m per x e k2 d2)))))%R E.
(** divergence form b(q,u) on the pressure grid (mp) with velocity grid mv *)
Definition div_form (mv mp : list Z) (per : list bool) (E : list (list Z)) (dof : nat) (M : nat -> nat -> nat -> R) (q u : field) : R :=
  Lsum (fun e => Rsum (2 ^ length mp) (fun kp => Rsum (3 ^ length mp) (fun kv => Rsum dof (fun d =>
    gv mp per q e kp 0 * M kp kv d * gv3 mv per u e kv d))))%R E.

(** mesh steps: one positive step per axis *)
Definition steps_ok (h : list R) (m : list Z) : Prop := length h = length m /\ Forall (fun s => (0 < s)%R) h.
(** every axis has a cell *)
Definition has_cells (m : list Z) (per : list bool) : Prop := Forall2 (fun n (p : bool) => p = true \/ (2 <= n)%Z) m per.

(** The velocity grid is the pressure grid refined once, process by process: [mv] points
    against [mp], and a process that owns the pressure points [a, b) of an axis owns the
    velocity points [2a, 2b), or [2a, 2b-1) when b is the end of a non-periodic axis. *)
Definition refined_size (mp : list Z) (per : list bool) : list Z :=
  zip_with (fun n (p : bool) => if p then (2 * n)%Z else (2 * n - 1)%Z) mp per.
Definition refined_own (mp : list Z) (per : list bool) (own : box Z) : box Z :=
  mkbox (map (fun a => (2 * a)%Z) (bottom_left own))
        (zip_with (fun b np => if (b =? fst np)%Z && negb (snd np) then (2 * b - 1)%Z else (2 * b)%Z)
                  (upper_right own) (combine mp per)).
Definition stokes_layout (mp : list Z) (per : list bool) (dof : nat) (dms : list (dmda * dmda)) : Prop :=
  distributes (refined_size mp per) per dof (map fst dms) /\ distributes mp per 1 (map snd dms) /\
  Forall (fun dm => g_own (fst dm) = refined_own mp per (g_own (snd dm))) dms.

(** Two nodal fields agree at every node of the grid. *)
Definition same_field (m : list Z) (dof : nat) (y y' : field) : Prop :=
  forall n d, in_grid_box (nodes_box m) n -> d < dof -> y n d = y' n d.
(** a x + b x' *)
Definition lin (a b : R) (x x' : field) : field := fun n d => (a * x n d + b * x' n d)%R.
(** Ownership ranges PETSc may choose for a grid of [m] points per axis: one list of
    block lengths per axis, each block non-empty, the lengths summing to the axis. *)
Definition zsum (l : list Z) : Z := fold_right Z.add 0%Z l.
Definition ranges_ok (m : list Z) (ls : list (list Z)) : Prop :=
  Forall2 (fun n l => zsum l = n /\ l <> [] /\ Forall (fun a => (1 <= a)%Z) l) m ls.
(** a periodic axis has at least two cells, so that a cell does not meet itself *)
Definition no_self_contact (m : list Z) (per : list bool) : Prop := Forall2 (fun n (p : bool) => p = true -> (2 <= n)%Z) m per.
