(** Model of cafes/particle/geometry/{quaternion,super_ellipsoid,circle,sphere,uniform_sampling}.hpp. *)
From Verif Require Import Base M_Geometry.
Open Scope R_scope.

(** ** quaternion.hpp *)
(** l.58 [components_] = (x, y, z, w) *)
Record quat := mkquat { qx : R; qy : R; qz : R; qw : R }.

(** l.60 [quaternion() = default] used as [quaternion q={}]: value-initialised, all zero *)
Definition quat_default : quat := mkquat 0 0 0 0.

(** l.90-94 [normalize]: divides by inner_product(c,c), i.e. by the *squared* norm *)
Definition quat_normalize (q : quat) : quat :=
  let norm := 0 + qx q * qx q + qy q * qy q + qz q * qz q + qw q * qw q in
  mkquat (qx q / norm) (qy q / norm) (qz q / norm) (qw q / norm).

(** l.62-69 [quaternion(angle, axes)] *)
Definition quat_make (angle : R) (axes : R * R * R) : quat :=
  let '(a0, a1, a2) := axes in
  quat_normalize (mkquat (sin (angle / 2) * a0) (sin (angle / 2) * a1)
                         (sin (angle / 2) * a2) (cos (angle / 2))).
(** l.71-74 [quaternion(angle)]: axis e_z *)
Definition quat_angle (angle : R) : quat := quat_make angle (0, 0, 1).

(** l.96-101 [conj] *)
Definition quat_conj (q : quat) : quat := mkquat (- qx q) (- qy q) (- qz q) (qw q).

(** l.113-122 [rotate(position<double,2>)] *)
Definition rotate2 (q : quat) (p : R * R) : R * R :=
  let x := qx q in let y := qy q in let z := qz q in let w := qw q in
  ((1 - 2*y*y - 2*z*z) * fst p + (2*x*y - 2*z*w) * snd p,
   (2*x*y + 2*z*w) * fst p + (1 - 2*x*x - 2*z*z) * snd p).
(** l.124-134 [rotate(position<double,3>)] *)
Definition rotate3 (q : quat) (p : R * R * R) : R * R * R :=
  let x := qx q in let y := qy q in let z := qz q in let w := qw q in
  let '(p0, p1, p2) := p in
  ((1 - 2*y*y - 2*z*z) * p0 + (2*x*y - 2*z*w) * p1 + (2*x*z + 2*y*w) * p2,
   (2*x*y + 2*z*w) * p0 + (1 - 2*x*x - 2*z*z) * p1 + (2*y*z - 2*x*w) * p2,
   (2*x*z - 2*y*w) * p0 + (2*y*z + 2*x*w) * p1 + (1 - 2*x*x - 2*y*y) * p2).
(** l.136-139 [is_rotate] *)
Definition is_rotate (q : quat) : bool :=
  negb (Reqb (qx q) 0) || negb (Reqb (qy q) 0) || negb (Reqb (qz q) 0) || negb (Reqb (qw q) 0).

(** ** super_ellipsoid.hpp *)
(** l.57-64, 2D instance: centre, shape factors, quaternion, n_ *)
Record se2 := mkse2 { c2 : R * R; s2 : R * R; n2_ : R; q2 : quat }.
(** l.68-72 constructor: n_ = 2/n *)
Definition se2_make (c s : R * R) (n : R) (q : quat) : se2 := mkse2 c s (2 / n) q.
(** 3D instance: adds e_; l.74-78: e_ = 2/e *)
Record se3 := mkse3 { c3 : R * R * R; s3 : R * R * R; e3_ : R; n3_ : R; q3 : quat }.
Definition se3_make (c s : R * R * R) (n e : R) (q : quat) : se3 := mkse3 c s (2 / e) (2 / n) q.

(** circle.hpp l.49-52, sphere.hpp l.49-52 *)
Definition circle_make (c : R * R) (radius : R) (q : quat) : se2 := se2_make c (radius, radius) 2 q.
Definition sphere_make (c : R * R * R) (radius : R) (q : quat) : se3 :=
  se3_make c (radius, radius, radius) 2 2 q.

(** circle.hpp l.54-72 *)
Definition circle_surface_area (s : se2) : R := 2 * PI * fst (s2 s).
Definition circle_volume (s : se2) : R := PI * fst (s2 s) * fst (s2 s).
Definition circle_Cd_R (s : se2) : R := 1 / (fst (s2 s) * fst (s2 s)).
Definition circle_Ci_R (s : se2) : R := 2 / (fst (s2 s) * fst (s2 s)).
(** sphere.hpp l.54-72 *)
Definition s30 (s : se3) : R := fst (fst (s3 s)).
Definition sphere_surface_area (s : se3) : R := 4 * PI * s30 s * s30 s.
Definition sphere_volume (s : se3) : R := 4 / 3 * PI * s30 s * s30 s * s30 s.
Definition sphere_Cd_R (s : se3) : R := (3 / 2) / (s30 s * s30 s).
Definition sphere_Ci_R (s : se3) : R := (5 / 2) / (s30 s * s30 s).
(** super_ellipsoid.hpp l.141-143: the generic shape's [surface_area] is the constant 1 *)
Definition se_surface_area : R := 1.

Definition sub2 (p c : R * R) : R * R := (fst p - fst c, snd p - snd c).
Definition add2 (p c : R * R) : R * R := (fst p + fst c, snd p + snd c).
Definition sub3 (p c : R * R * R) : R * R * R :=
  let '(x, y, z) := p in let '(a, b, d) := c in (x - a, y - b, z - d).
Definition add3p (p c : R * R * R) : R * R * R :=
  let '(x, y, z) := p in let '(a, b, d) := c in (x + a, y + b, z + d).

(** l.111-116: running minimum / maximum over one coordinate of p_list,
    [if (bl > p) bl = p; if (ur < p) ur = p] *)
Definition run_min (first : R) (rest : list R) : R :=
  fold_left (fun m x => if Rltb x m then x else m) rest first.
Definition run_max (first : R) (rest : list R) : R :=
  fold_left (fun m x => if Rltb m x then x else m) rest first.

(** l.86-121 [bounding_box()], 2D *)
Definition bounding_box2 (s : se2) : box R :=
  let '(cx, cy) := c2 s in let '(a, b) := s2 s in
  let x0 := cx - a in let y0 := cy - b in let x1 := cx + a in let y1 := cy + b in
  if is_rotate (q2 s) then
    let p_list := map (fun p => add2 (rotate2 (q2 s) (sub2 p (c2 s))) (c2 s))
                      (get_box_points2 x0 y0 x1 y1) in
    match p_list with
    | [] => mkbox [x0; y0] [x1; y1]
    | p0 :: rest =>
        mkbox [run_min (fst p0) (map fst rest); run_min (snd p0) (map snd rest)]
              [run_max (fst p0) (map fst rest); run_max (snd p0) (map snd rest)]
    end
  else mkbox [x0; y0] [x1; y1].

Definition p30 (p : R * R * R) : R := fst (fst p).
Definition p31 (p : R * R * R) : R := snd (fst p).
Definition p32 (p : R * R * R) : R := snd p.

(** l.86-121 [bounding_box()], 3D *)
Definition bounding_box3 (s : se3) : box R :=
  let '(cx, cy, cz) := c3 s in let '(a, b, d) := s3 s in
  let x0 := cx - a in let y0 := cy - b in let z0 := cz - d in
  let x1 := cx + a in let y1 := cy + b in let z1 := cz + d in
  if is_rotate (q3 s) then
    let p_list := map (fun p => add3p (rotate3 (q3 s) (sub3 p (c3 s))) (c3 s))
                      (get_box_points3 x0 y0 z0 x1 y1 z1) in
    match p_list with
    | [] => mkbox [x0; y0; z0] [x1; y1; z1]
    | p0 :: rest =>
        mkbox [run_min (p30 p0) (map p30 rest); run_min (p31 p0) (map p31 rest); run_min (p32 p0) (map p32 rest)]
              [run_max (p30 p0) (map p30 rest); run_max (p31 p0) (map p31 rest); run_max (p32 p0) (map p32 rest)]
    end
  else mkbox [x0; y0; z0] [x1; y1; z1].

(** l.123-127 [bounding_box(h)]: real box / h -/+ 1, converted to int (truncation) *)
Definition int_bounding_box (b : box R) (h : vec) : box Z :=
  mkbox (pos_to_int (pos_minus_scalar (pos_div (bottom_left b) h) 1))
        (pos_to_int (pos_plus_scalar (pos_div (upper_right b) h) 1)).
Definition bounding_box2_h (s : se2) (h : vec) : box Z := int_bounding_box (bounding_box2 s) h.
Definition bounding_box3_h (s : se3) (h : vec) : box Z := int_bounding_box (bounding_box3 s) h.

(** l.316-324 [implicit], 2D *)
Definition implicit2 (s : se2) (p : R * R) : R :=
  let r := 2 / n2_ s in
  let pos := sub2 p (c2 s) in
  let pos := if is_rotate (q2 s) then rotate2 (quat_conj (q2 s)) pos else pos in
  cpow (Rabs (fst pos / fst (s2 s))) r + cpow (Rabs (snd pos / snd (s2 s))) r.

(** l.326-338 [implicit], 3D: the orientation is not used *)
Definition implicit3 (s : se3) (p : R * R * R) : R :=
  let r1 := 2 / n3_ s in
  let r2 := e3_ s / n3_ s in
  let r3 := 2 / e3_ s in
  let '(cx, cy, cz) := c3 s in let '(a, b, d) := s3 s in let '(x, y, z) := p in
  cpow (cpow (Rabs ((x - cx) / a)) r3 + cpow (Rabs ((y - cy) / b)) r3) r2
  + cpow (Rabs ((z - cz) / d)) r1.

(** l.309-312 [contains] *)
Definition contains2 (s : se2) (p : R * R) : bool := Rltb (implicit2 s p) 1.
Definition contains3 (s : se3) (p : R * R * R) : bool := Rltb (implicit3 s p) 1.

(** l.340-350 [c], [s]: copysign(pow(|cos w|, m), cos w) *)
Definition copysign (x y : R) : R := if Rltb y 0 then - Rabs x else Rabs x.
Definition se_c (w m : R) : R := copysign (cpow (Rabs (cos w)) m) (cos w).
Definition se_s (w m : R) : R := copysign (cpow (Rabs (sin w)) m) (sin w).

(** l.268-282 [at(u)], [radial(u)] *)
Definition at2 (s : se2) (u : R) : R * R :=
  (fst (s2 s) * se_c u (n2_ s) + fst (c2 s), snd (s2 s) * se_s u (n2_ s) + snd (c2 s)).
Definition radial2 (s : se2) (u : R) : R * R :=
  (fst (s2 s) * se_c u (n2_ s), snd (s2 s) * se_s u (n2_ s)).
(** l.284-302 [at(u,v)], [radial(u,v)] *)
Definition at3 (s : se3) (u v : R) : R * R * R :=
  let '(a, b, d) := s3 s in let '(cx, cy, cz) := c3 s in
  (a * se_c v (n3_ s) * se_c u (e3_ s) + cx,
   b * se_c v (n3_ s) * se_s u (e3_ s) + cy,
   d * se_s v (n3_ s) + cz).
Definition radial3 (s : se3) (u v : R) : R * R * R :=
  let '(a, b, d) := s3 s in
  (a * se_c v (n3_ s) * se_c u (e3_ s),
   b * se_c v (n3_ s) * se_s u (e3_ s),
   d * se_s v (n3_ s)).
(** l.129-139, 184-194 [surface(u_samples)], [radial_vector(u_samples)] *)
Definition surface2_samples (s : se2) (us : list R) : list (R * R) := map (at2 s) us.
Definition radial2_samples (s : se2) (us : list R) : list (R * R) := map (radial2 s) us.
(** l.196-214, 248-266: two sample lists of equal size, else assert fails *)
Definition surface3_samples (s : se3) (us vs : list R) : outcome (list (R * R * R)) :=
  if Nat.eqb (length us) (length vs) then Ok (zip_with (at3 s) us vs) else Abort.
Definition radial3_samples (s : se3) (us vs : list R) : outcome (list (R * R * R)) :=
  if Nat.eqb (length us) (length vs) then Ok (zip_with (radial3 s) us vs) else Abort.

(** ** uniform_sampling.hpp *)
(** l.44-56 [theta] *)
Definition theta_step (r1 r2 th eps K tol : R) : R :=
  if Rleb tol th then
    let denom := r1*r1*cpow (cos th) (2*eps)*cpow (sin th) 4
               + r2*r2*cpow (sin th) (2*eps)*cpow (cos th) 4 in
    K / eps * cos th * sin th / sqrt denom
  else if Rltb th tol && Rltb 0 th then
    cpow (Rabs (K / r2 + cpow th eps)) (1 / eps) - th
  else cpow (Rabs (K / r2)) (1 / eps).

(** l.68-77: the walk.  [save_eta] is accumulated in order; [upd eta] is the
    next eta.  (The points pushed at each step are a function of eta; they are
    rebuilt from [save_eta] below, l.70-71,76.) *)
Fixpoint walk (fuel : nat) (upd : R -> R) (eta : R) : outcome (list R) :=
  if Rltb eta (PI / 4) then
    match fuel with
    | O => OutOfFuel
    | S k => bind (walk k upd (upd eta)) (fun l => Ok (eta :: l))
    end
  else Ok [].

(** l.87-94: [for i in 1..size-1: that.push_back(g(that[idx i]))] with bounds check *)
Fixpoint push_loop {A} (idx : nat -> nat) (g : A -> A) (is : list nat) (that : list A) : outcome (list A) :=
  match is with
  | [] => Ok that
  | i :: t => match nth_error that (idx i) with
              | Some a => push_loop idx g t (that ++ [g a])
              | None => UB
              end
  end.

(** l.78-97: the reflections and the final erase, given the walked etas and the
    two point maps *)
Definition reflect_points {A} (fa fb : R -> A) (mx mxy my : A -> A) (etas : list R) : outcome (list A) :=
  let that := map fa etas ++ map fb (rev etas) in      (* l.70-85 *)
  let size := length that in                           (* l.86 *)
  bind (push_loop (fun i => size - i - 1)%nat mx (seq 1 (size - 1)) that) (fun that =>    (* l.87-88 *)
  bind (push_loop (fun i => i) mxy (seq 1 (size - 1)) that) (fun that =>                  (* l.90-91 *)
  bind (push_loop (fun i => size - i - 1)%nat my (seq 1 (size - 1)) that) (fun that =>    (* l.93-94 *)
  match that with [] => UB | _ :: t => Ok t end))).                                       (* l.96 *)

(** l.59-98 [uniform_sampling(r, eps, k, tol)], Dimensions = 2 *)
Definition uniform_sampling2 (fuel : nat) (r : R * R) (eps k tol : R) : outcome (list (R * R)) :=
  bind (walk fuel (fun eta => eta + theta_step 1 1 eta eps k tol) 0) (fun etas =>
  reflect_points (fun eta => (fst r * cpow (cos eta) eps, snd r * cpow (sin eta) eps))
                 (fun eta => (fst r * cpow (sin eta) eps, snd r * cpow (cos eta) eps))
                 (fun p => (- fst p, snd p)) (fun p => (- fst p, - snd p)) (fun p => (fst p, - snd p))
                 etas).

(** l.100-148 [uniform_sampling(r, eps, k, z, phi, tol)], Dimensions = 3 *)
Definition uniform_sampling3 (fuel : nat) (r0 r1 eps k z phi tol : R) : outcome (list (R * R * R)) :=
  bind (walk fuel (fun eta => if Reqb phi 0 then PI / 4 else eta + theta_step phi phi eta eps k tol) 0)
  (fun etas =>
  reflect_points (fun eta => (r0 * cpow (cos eta) eps * phi, r1 * cpow (sin eta) eps * phi, z))
                 (fun eta => (r0 * cpow (sin eta) eps * phi, r1 * cpow (cos eta) eps * phi, z))
                 (fun p => (- p30 p, p31 p, p32 p)) (fun p => (- p30 p, - p31 p, p32 p))
                 (fun p => (p30 p, - p31 p, p32 p)) etas).

(** super_ellipsoid.hpp l.173-182 [surface(k, tol)], 2D *)
Definition surface2 (fuel : nat) (s : se2) (k tol : R) : outcome (list (R * R)) :=
  bind (uniform_sampling2 fuel (s2 s) (n2_ s) k tol) (fun that =>
  let that := if is_rotate (q2 s) then map (rotate2 (q2 s)) that else that in
  Ok (map (fun p => add2 p (c2 s)) that)).

(** super_ellipsoid.hpp l.216-246 [surface(k, tol)], 3D.  At l.243 [that.push_back]
    is called inside [std::for_each(that.begin(), that.end(), ...)]: unless the
    capacity happens to be large enough the iterators are invalidated; the
    element read while iterating is then undefined.  The model makes any
    iteration of that loop UB (capacity is an implementation detail). *)
Fixpoint walk3 (fuel fuel2 : nat) (s : se3) (k0 k1 tol omega1 omega2 : R) : outcome (list (R * R * R)) :=
  if Rltb omega1 (PI / 4) then
    match fuel with
    | O => OutOfFuel
    | S f =>
        let eps1 := n3_ s in let eps2 := e3_ s in
        let '(a, b, d) := s3 s in
        let z1 := d * cpow (sin omega1) eps2 in let phi1 := cpow (cos omega1) eps2 in
        let z2 := d * cpow (cos omega2) eps2 in let phi2 := cpow (sin omega2) eps2 in
        let omega1' := omega1 + theta_step 1 1 omega1 eps2 k1 tol in
        let omega2' := omega2 + theta_step 1 1 omega2 eps2 k1 tol in
        bind (uniform_sampling3 fuel2 a b eps1 k0 z1 phi1 tol) (fun t1 =>
        bind (uniform_sampling3 fuel2 a b eps1 k0 z2 phi2 tol) (fun t2 =>
        bind (walk3 f fuel2 s k0 k1 tol omega1' omega2') (fun rest => Ok (t1 ++ t2 ++ rest))))
    end
  else Ok [].
Definition surface3 (fuel fuel2 : nat) (s : se3) (k0 k1 tol : R) : outcome (list (R * R * R)) :=
  bind (walk3 fuel fuel2 s k0 k1 tol 0 0) (fun that =>
  match that with [] => Ok [] | _ :: _ => UB end).
Close Scope R_scope.
