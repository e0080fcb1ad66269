(** Independent specification for the properties of rounded arithmetic. *)
From Flocq Require Import BinarySingleNaN.
From Verif Require Import Base M_Geometry.
From Verif Require Import M_Double.
Open Scope R_scope.
(** The real number a double stands for, and the doubles that stand for one. *)
Definition dval (x : double) : R := B2R x.
Definition finite (x : double) : Prop := is_finite x = true.
(** The unit roundoff 2^-53 and the range of the normal numbers. *)
Definition u64 : R := / 2 ^ 53.
Definition normal (r : R) : Prop := / 2 ^ 1022 <= Rabs r <= 2 ^ 1023.
(** The coordinate of grid line i obtained by adding the step one at a time from the line lo of a box, and the point so obtained for a node of the box. *)
Definition accumulated (h : double) (lo i : Z) : double := Nat.iter (Z.to_nat (i - lo)) (fun x => dplus x h) (dmult (dint lo) h).
Definition tested_point (h : list double) (b : box Z) (p : list Z) : list double := zip_with (fun hl i => accumulated (fst hl) (snd hl) i) (combine h (bottom_left b)) p.
(** Steps that are normal numbers, for grid lines up to n. *)
Definition good_step (n : Z) (h : double) : Prop := finite h /\ / 2 ^ 1022 <= dval h /\ IZR n * dval h <= 2 ^ 1022.
(** A point of doubles close to the node p: along each axis the error is at most (number of steps added + 1) 2^-52 times the coordinate. *)
Definition close_to_node (h : list double) (b : box Z) (p : list Z) (x : list double) : Prop :=
  length x = length h /\ forall a, (a < length h)%nat ->
    let i := nth a p 0%Z in let ha := dval (nth a h dzero) in
    finite (nth a x dzero) /\ Rabs (dval (nth a x dzero) - IZR i * ha) <= IZR (i - nth a (bottom_left b) 0%Z + 1) * (2 * u64) * (IZR i * ha).
(** Mesh steps of a moderate size. *)
Definition moderate (r : R) : Prop := / 2 ^ 100 <= r <= 2 ^ 100.
(** The weights of the four corners of a cell for the point at the fractions (s,t) of its sides. *)
Definition bilinear_weights (s t : R) : list R := [(1 - s) * (1 - t); s * (1 - t); (1 - s) * t; s * t].
(** The same for the eight corners of a 3D cell. *)
Definition trilinear_weights (r s t : R) : list R := map (fun w => w * (1 - t)) (bilinear_weights r s) ++ map (fun w => w * t) (bilinear_weights r s).
(** A coordinate x of a point on a grid of step h: both are finite doubles, h is a normal number, x is not negative and less than 2^30 steps away from the origin. *)
Definition surface_coordinate (h x : double) : Prop := finite h /\ finite x /\ / 2 ^ 1022 <= dval h /\ dval h <= 2 ^ 900 /\ 0 <= dval x /\ dval x <= 2 ^ 30 * dval h.
(** The index of the cell of x: the true one, or the next one when x is just below it (by a relative 2^-53). *)
Definition rounded_cell (h x : double) (i : Z) : Prop :=
  (IZR i * dval h <= dval x < IZR (i + 1) * dval h) \/ 0 < IZR i * dval h - dval x <= u64 * dval x.
(** Centre c and half-width s of a particle along an axis with step h: finite doubles, c and s at most 2^28 steps. *)
Definition bbox_range (h c s : double) : Prop :=
  finite h /\ finite c /\ finite s /\ / 2 ^ 900 <= dval h /\ dval h <= 2 ^ 900 /\ Rabs (dval c) <= 2 ^ 28 * dval h /\ 0 <= dval s <= 2 ^ 28 * dval h.
Close Scope R_scope.
