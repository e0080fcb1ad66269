(** Independent specification for the particle/fluid operators. *)
From Verif Require Import Base M_Geometry S_Geometry M_Particle S_Fem M_Mesh M_Operator S_Operator.
Open Scope R_scope.

(** All the data of particle [i], process after process. *)
Definition gathered {A} (dms : list dmda) (i : nat) (f : dmda -> list (list A)) : list A :=
  flat_map (fun dm => nth i (f dm) []) dms.
(** coordinate [k] of a vector *)
Definition co (k : nat) (v : vec) : R := nth k v 0.
(** Sum of coordinate [k] over a list of vectors. *)
Definition total (k : nat) (l : list vec) : R := Lsum (co k) l.
(** Moment of the force [g] applied at [r], textbook formulas: one number in the plane, the
    component k of r x g in space. *)
Definition moment2 (r g : vec) : R := co 0 r * co 1 g - co 1 r * co 0 g.
Definition moment3 (k : nat) (r g : vec) : R :=
  match k with
  | 0%nat => co 1 r * co 2 g - co 2 r * co 1 g
  | 1%nat => co 2 r * co 0 g - co 0 r * co 2 g
  | _ => co 0 r * co 1 g - co 1 r * co 0 g
  end.
(** Velocity v + w x r of a rigid body at [r]. *)
Definition rigid2 (v : vec) (w : R) (r : vec) : vec := [co 0 v - w * co 1 r; co 1 v + w * co 0 r].
Definition rigid3 (v w r : vec) : vec :=
  [co 0 v + (co 1 w * co 2 r - co 2 w * co 1 r);
   co 1 v + (co 2 w * co 0 r - co 0 w * co 2 r);
   co 2 v + (co 0 w * co 1 r - co 1 w * co 0 r)].
(** one list of values per surface point, with the same shape on every process *)
Definition matching {A B} (dms : list dmda) (i : nat) (r : dmda -> list (list A)) (g : dmda -> list (list B)) : Prop :=
  forall dm, In dm dms -> (i < length (g dm))%nat /\ length (nth i (r dm) []) = length (nth i (g dm) []).
Definition all_len {A} (n : nat) (l : list (list A)) : Prop := Forall (fun v => length v = n) l.
Definition dotp (u v : vec) : R := fold_right Rplus 0 (zip_with Rmult u v).
(** The k-th Q1 shape function of a cell with sides h at the offset x from its lowest corner. *)
Definition shape (h x : vec) (k : nat) : R :=
  fold_right Rmult 1 (zip_with (fun i s => if Nat.odd (k / 2 ^ i) then s else 1 - s) (seq 0 (length x)) (zip_with Rdiv x h)).
(** The Q1 field with nodal values u, component d, at the offset x in the cell e. *)
Definition field_at (m : list Z) (per : list bool) (h : vec) (u : field) (e : list Z) (x : vec) (d : nat) : R :=
  Rsum (2 ^ length m) (fun k => shape h x k * gv m per u e k d).
(** Same number of values for every particle and surface point. *)
Definition same_shape {A B} (l : list (list A)) (l' : list (list B)) : Prop := Forall2 (fun a b => length a = length b) l l'.
(** Radial vectors that balance around the centre: zero sum, and second moments of a circle
    of radius [Rr], resp. isotropic second moments, 1/(2 C) on average along every axis (for a
    sphere of radius Rr: C = 3/(2 Rr^2)). *)
Definition balanced2 (rs : list vec) (Rr : R) : Prop :=
  rs <> [] /\ all_len 2 rs /\ total 0 rs = 0 /\ total 1 rs = 0 /\ Rr <> 0 /\
  Lsum (fun r => co 0 r * co 0 r + co 1 r * co 1 r) rs = INR (length rs) * (Rr * Rr).
Definition balanced3 (rs : list vec) (C : R) : Prop :=
  rs <> [] /\ all_len 3 rs /\ (forall k, (k < 3)%nat -> total k rs = 0) /\ C <> 0 /\
  forall a b, (a < 3)%nat -> (b < 3)%nat -> Lsum (fun r => co a r * co b r) rs = if Nat.eqb a b then INR (length rs) / (2 * C) else 0.
(** The unit field along axis [d]. *)
Definition unit_field (d : nat) : field := fun _ d' => if Nat.eqb d' d then 1 else 0.
(** Nodal values of an affine field on the grid. *)
Definition affine_field (h : vec) (a : nat -> R) (b : nat -> nat -> R) : field :=
  fun n d => a d + fold_right Rplus 0 (zip_with (fun j z => b d j * (IZR z * co j h)) (seq 0 (length n)) n).
(** A particle whose index box, surface samples and centre have D coordinates. *)
Definition well_formed (D : nat) (h : vec) (k : R) (p : part) : Prop :=
  has_dim D (p_bbox p h) /\ all_len D (p_surface p k) /\ length (p_center p) = D.
(** The grid points of a particle that a process looks after, in increasing order. *)
Definition control_points (h : vec) (dm : dmda) (p : part) (l : list (list Z)) : Prop :=
  strictly_increasing colex_lt l /\
  forall q, In q l <-> in_grid_box (get_DM_bounds dm true) q /\ in_grid_box (p_bbox p h) q /\ p_contains p (zip_with (fun z s => IZR z * s) q h) = true.
(** A velocity field that moves as a rigid body around [ctr] with velocity v and spin w. *)
Definition moves_rigidly2 (h : vec) (sol : field) (v : vec) (w : R) (ctr : R * R) : Prop :=
  forall n0 n1 d, (d < 2)%nat -> sol [n0; n1] d = co d (rigid2 v w [IZR n0 * co 0 h - fst ctr; IZR n1 * co 1 h - snd ctr]).
