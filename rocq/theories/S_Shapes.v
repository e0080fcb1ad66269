(** Independent specification for rotations, super-ellipsoids and samplings. *)
From Verif Require Import Base M_Geometry S_Geometry.
Open Scope R_scope.

(** Plane rotation by angle [a]. *)
Definition planar_rotation (a : R) (p : R * R) : R * R :=
  (cos a * fst p - sin a * snd p, sin a * fst p + cos a * snd p).

(** Rodrigues' formula: rotation by angle [a] about the unit axis [k]. *)
Definition rodrigues (a : R) (k v : R * R * R) : R * R * R :=
  let '(v0, v1, v2) := v in
  let '(k0, k1, k2) := k in
  let '(w0, w1, w2) := cross33 k v in
  let d := dot3 k v in
  (cos a * v0 + sin a * w0 + (1 - cos a) * d * k0,
   cos a * v1 + sin a * w1 + (1 - cos a) * d * k1,
   cos a * v2 + sin a * w2 + (1 - cos a) * d * k2).

(** Level function of the super-ellipse of half-axes a, b and exponent n, turned by
    [angle] about its centre: |x'/a|^n + |y'/b|^n in the body frame. *)
Definition super_ellipse_level (c : R * R) (a b n angle : R) (p : R * R) : R :=
  let p' := planar_rotation (- angle) (fst p - fst c, snd p - snd c) in
  cpow (Rabs (fst p' / a)) n + cpow (Rabs (snd p' / b)) n.

(** Level function of the (unrotated) super-ellipsoid with exponents n, e:
    (|x/a|^e + |y/b|^e)^(n/e) + |z/d|^n. *)
Definition super_ellipsoid_level (c s : R * R * R) (n e : R) (p : R * R * R) : R :=
  let '(cx, cy, cz) := c in let '(a, b, d) := s in let '(x, y, z) := p in
  cpow (cpow (Rabs ((x - cx) / a)) e + cpow (Rabs ((y - cy) / b)) e) (n / e)
  + cpow (Rabs ((z - cz) / d)) n.

(** A finite list of points is invariant under a map. *)
Definition invariant_under {A} (f : A -> A) (l : list A) : Prop := forall p, In p l -> In (f p) l.

Definition sumR (l : list R) : R := fold_right Rplus 0 l.
Close Scope R_scope.
