(** Independent specification for the singular terms. *)
From Coquelicot Require Import Coquelicot.
From Verif Require Import Base M_Geometry S_Geometry M_Particle S_Particle S_Fem M_Mesh M_Operator S_Operator S_ParticleOp.
Open Scope R_scope.

(** Partial derivative along axis [b] of component [c] of the Q1 field with nodal values v, at the offset x in the cell e. *)
Definition dfield_at (m : list Z) (per : list bool) (h : vec) (v : field) (e : list Z) (x : vec) (c b : nat) : R :=
  Derive (fun t => field_at m per h v e (set_nth b t x) c) (co b x).
(** sigma(u,p) : grad v = sum of (d_b u_c - p [b = c]) d_b v_c, at one point; g = grad u, [dv c b] = d_b v_c *)
Definition pseudo_stress (D : nat) (g : list vec) (p : R) (dv : nat -> nat -> R) : R :=
  Rsum D (fun c => Rsum D (fun b => (co b (nth c g []) - (if Nat.eqb b c then p else 0)) * dv c b)).
(** each cell is cut in scale^D equal cells, named by [sub]; offset of the lowest corner of such a cell, volume *)
Definition sub_offset (h : vec) (scale : Z) (sub : list Z) : vec := zip_with (fun i s => IZR i * (s / IZR scale)) sub h.
Definition cell_volume (h : vec) : R := fold_right Rmult 1 h.
Definition sub_box (D : nat) (scale : Z) : box Z := mkbox (repeat 0%Z D) (repeat scale D).
(** all the couples of a list, each once, in order *)
Fixpoint couples {A} (l : list A) : list (A * A) := match l with [] => [] | a :: l => map (fun b => (a, b)) l ++ couples l end.
(** position of an offset in a cell *)
Definition position_in (h : vec) (e : list Z) (x : vec) : vec := zip_with Rplus (grid_point h e) x.
Definition when (b : bool) (r : R) : R := if b then r else 0.
(** membership in a box of grid points *)
Fixpoint within (lo up e : list Z) : bool :=
  match lo, up, e with
  | [], [], [] => true
  | a :: lo, c :: up, i :: e => (a <=? i)%Z && (i <? c)%Z && within lo up e
  | _, _, _ => false
  end.
Definition in_box (b : box Z) (e : list Z) : bool := within (bottom_left b) (upper_right b) e.
