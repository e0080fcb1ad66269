(** Model of super_ellipsoid.hpp l.216-246 [surface(k, tol)], 3D, in the runs in which the vector has room for the mirrored points
    (capacity at least twice the size when l.243 is reached): the iterators then stay valid and the loop runs over the points present when it
    begins.  When it has not, the behaviour is undefined (M_Shapes.surface3). *)
From Verif Require Import Base M_Geometry M_Shapes.
Open Scope R_scope.
(** l.243: [that.push_back({p[0], p[1], -p[2]})] *)
Definition mirror_z (p : R * R * R) : R * R * R := (p30 p, p31 p, - p32 p).
(** l.244: the centre is added to every point *)
Definition shift3 (c p : R * R * R) : R * R * R := (p30 p + p30 c, p31 p + p31 c, p32 p + p32 c).
Definition surface3_room (fuel fuel2 : nat) (s : se3) (k0 k1 tol : R) : outcome (list (R * R * R)) :=
  bind (walk3 fuel fuel2 s k0 k1 tol 0 0) (fun that => Ok (map (shift3 (c3 s)) (that ++ map mirror_z that))).
Close Scope R_scope.
