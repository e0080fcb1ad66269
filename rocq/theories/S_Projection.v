(** Independent specification for the projection of a fluid velocity on the rigid motions of a particle. *)
From Verif Require Import Base M_Geometry S_Geometry M_Particle S_Fem M_Mesh M_Operator S_Operator S_ParticleOp.
Open Scope R_scope.

(** Every cell of the grid is cut in scale^D equal parts.  The lowest corner of part [s] of cell [q], in space and from the lowest corner of the cell. *)
Definition sub_point (h : vec) (scale : Z) (q s : list Z) : vec :=
  map (fun a => (IZR (nth a q 0%Z) + IZR (nth a s 0%Z) / IZR scale) * co a h) (seq 0 (length h)).
Definition sub_offset (h : vec) (scale : Z) (s : list Z) : vec :=
  map (fun a => IZR (nth a s 0%Z) / IZR scale * co a h) (seq 0 (length h)).
(** [L] lists, once each, the parts (q, s) whose corner is inside the particle, of the cells of the grid that are in the particle's index box. *)
Definition sub_sample (m : list Z) (per : list bool) (h : vec) (p : part) (scale : Z) (L : list (list Z * list Z)) : Prop :=
  NoDup L /\ forall q s, In (q, s) L <->
    in_grid_box (cells_box m per) q /\ in_grid_box (p_bbox p h) q /\ in_grid_box (mkbox (repeat 0%Z (length m)) (repeat scale (length m))) s /\
    p_contains p (sub_point h scale q s) = true.
(** Velocity of the fluid at a sample point, and its position from the centre of the particle. *)
Definition sample_velocity (m : list Z) (per : list bool) (h : vec) (scale : Z) (u : field) (qs : list Z * list Z) : vec :=
  map (field_at m per h u (fst qs) (sub_offset h scale (snd qs))) (seq 0 (length m)).
Definition sample_arm (h : vec) (scale : Z) (p : part) (qs : list Z * list Z) : vec :=
  zip_with Rminus (sub_point h scale (fst qs) (snd qs)) (p_center p).
(** Mean over a list. *)
Definition mean_over {A} (f : A -> R) (L : list A) : R := Lsum f L / INR (length L).
(** A velocity field that moves as a rigid body around [ctr] with velocity v and spin w, in space. *)
Definition moves_rigidly3 (h : vec) (sol : field) (v w ctr : vec) : Prop :=
  forall n0 n1 n2 d, (d < 3)%nat -> sol [n0; n1; n2] d = co d (rigid3 v w [IZR n0 * co 0 h - co 0 ctr; IZR n1 * co 1 h - co 1 ctr; IZR n2 * co 2 h - co 2 ctr]).
Close Scope R_scope.
