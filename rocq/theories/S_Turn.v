(** Independent specification of the similarities of the computational box: exchanges of the
    axes, mirror images, translations along the periodic axes, changes of the unit of length. *)
From Coq Require Import Permutation.
From Verif Require Import Base M_Geometry S_Geometry S_Particle S_Fem M_Mesh M_Operator M_Bc S_Operator S_Bc.

(** axis i of the image is axis [nth i ax] of the original, seen in a mirror when [nth i fl];
    on a periodic axis the image is shifted by [nth i sh] steps; lengths are multiplied by lam *)
Record similarity := mksim { ax : list nat; fl : list bool; sh : list Z; lam : R }.
Definition sim_ok (D : nat) (s : similarity) : Prop :=
  Permutation (ax s) (seq 0 D) /\ length (fl s) = D /\ length (sh s) = D /\ (0 < lam s)%R.
Definition sgn (s : similarity) (c : nat) : R := if nth c (fl s) false then (-1)%R else 1%R.
(** the image of the grid: points per axis, periodicity, steps *)
Definition img {A} (d : A) (s : similarity) (l : list A) : list A := map (fun i => nth i l d) (ax s).
Definition img_steps (s : similarity) (h : list R) : list R := map (Rmult (lam s)) (img 0%R s h).
(** the image of a node of a grid of m points per axis *)
Definition turn1 (p f : bool) (m t n : Z) : Z :=
  if p then (if f then (t - n) mod m else (n + t) mod m)%Z else if f then (m - 1 - n)%Z else n.
Definition turn (s : similarity) (m : list Z) (per : list bool) (n : list Z) : list Z :=
  map (fun i => turn1 (nth (nth i (ax s) 0) per false) (nth i (fl s) false) (nth (nth i (ax s) 0) m 0%Z) (nth i (sh s) 0%Z) (nth (nth i (ax s) 0) n 0%Z))
      (seq 0 (length (ax s))).
(** the same similarity in steps of the velocity grid, which are half as long *)
Definition fine_sim (s : similarity) : similarity := mksim (ax s) (fl s) (map (Z.mul 2) (sh s)) (lam s).
(** x' is the image of the vector field x (times k), p' that of the scalar field p *)
Definition vec_image (s : similarity) (m : list Z) (per : list bool) (k : R) (x x' : field) : Prop :=
  forall n c, in_grid_box (nodes_box m) n -> c < length m -> x' (turn s m per n) c = (k * (sgn s c * x n (nth c (ax s) 0%nat)))%R.
Definition scal_image (s : similarity) (m : list Z) (per : list bool) (k : R) (p p' : field) : Prop :=
  forall n, in_grid_box (nodes_box m) n -> p' (turn s m per n) 0 = (k * p n 0%nat)%R.
