(** Model of cafes/particle/singularity/add_singularity.hpp (the code that is not commented out) and of
    singularity.hpp l.112-200 [get_box].  Doubles are reals; printing is dropped.
    Not modelled: computesingularBC (l.282-455), add_singularity_to_surf (l.945-1045): their calls are commented out. *)
From Verif Require Import Base M_Geometry M_Particle M_Quadrature M_Mesh M_Operator M_Vec M_Truncation M_SingNormal M_SingTang M_SingWrap M_Singularity M_ParticleOp.
Open Scope R_scope.

(** quadrature.hpp l.51-61, 80-102, overloads of [P1_integration_grad] *)
Definition P1_integration_grad (x h : vec) : list vec :=
  match x, h with
  | [x0; x1], [h0; h1] => map (fun g : R * R => [fst g; snd g]) (P1_integration_grad2 (x0, x1) (h0, h1))
  | [x0; x1; x2], [h0; h1; h2] => map (fun g : R * R * R => [fst (fst g); snd (fst g); snd g]) (P1_integration_grad3 (x0, x1, x2) (h0, h1, h2))
  | _, _ => []
  end.

(** What is used of a particle: centre, velocity, first shape factor, contains. *)
Record spart := mkspart { sp_center : vec; sp_velocity : vec; sp_radius : R; sp_contains : vec -> bool }.
(** singularity.hpp l.72-75: singularity(p1, p2, h[0]) with the default alpha = 4; l.59: scale = 10 *)
Definition sing_of (D : nat) (h : vec) (p1 p2 : spart) : sing :=
  make_sing D (sp_center p1) (sp_center p2) (sp_velocity p1) (sp_velocity p2) (sp_radius p1) (sp_radius p2) (nth 0 h 0) 4.
Definition sing_scale : Z := 10.

(** singularity.hpp l.114-140 [get_box], 2D: the corners in the contact frame, then in space.  std::asin is the arcsine (its argument is at most 1 when
    the cutoff is at most the radii; beyond, NaN, not modelled) *)
Definition corners2 (s : sing) : list (R * R) :=
  let theta1 := asin (s_cutoff s * s_H1 s) in let theta2 := asin (s_cutoff s * s_H2 s) in
  [(1 / s_H1 s * (-1 + cos theta1), 1 / s_H1 s * sin theta1); (1 / s_H1 s * (-1 + cos theta1), - 1 / s_H1 s * sin theta1);
   (s_contact s + 1 / s_H2 s * (1 - cos theta2), 1 / s_H2 s * sin theta2); (s_contact s + 1 / s_H2 s * (1 - cos theta2), - 1 / s_H2 s * sin theta2)].
Definition b_ (s : sing) (i j : nat) : R := nth j (nth i (s_base s) []) 0.
Definition corner_pos2 (s : sing) (c : R * R) : vec :=
  [b_ s 0 0 * fst c + b_ s 1 0 * snd c + nth 0 (s_origin s) 0; b_ s 0 1 * fst c + b_ s 1 1 * snd c + nth 1 (s_origin s) 0].
(** l.142-200, 3D *)
Definition corners3 (s : sing) : list (R * R * R) :=
  let theta1 := asin (s_cutoff s * s_H1 s) in let theta2 := asin (s_cutoff s * s_H2 s) in let c := s_cutoff s in
  let z1 := 1 / s_H1 s * (-1 + cos theta1) in let z2 := s_contact s + 1 / s_H2 s * (1 - cos theta2) in
  [(1 / s_H1 s * sin theta1, c, z1); (1 / s_H1 s * sin theta1, - c, z1); (- 1 / s_H1 s * sin theta1, c, z1); (- 1 / s_H1 s * sin theta1, - c, z1);
   (1 / s_H2 s * sin theta2, c, z2); (1 / s_H2 s * sin theta2, - c, z2); (- 1 / s_H2 s * sin theta2, c, z2); (- 1 / s_H2 s * sin theta2, - c, z2)].
Definition corner_pos3 (s : sing) (c : R * R * R) : vec :=
  map (fun j => b_ s 0 j * fst (fst c) + b_ s 1 j * snd (fst c) + b_ s 2 j * snd c + nth j (s_origin s) 0) (seq 0 3).
(** std::min / std::max of an initializer list, std::floor / std::ceil then conversion to int *)
Definition list_min (l : list R) : R := fold_left (fun a x => if Rltb x a then x else a) (tl l) (hd 0 l).
Definition list_max (l : list R) : R := fold_left (fun a x => if Rltb a x then x else a) (tl l) (hd 0 l).
Definition get_box (D : nat) (s : sing) (h : vec) : box Z :=
  let cs := if (D =? 2)%nat then map (corner_pos2 s) (corners2 s) else map (corner_pos3 s) (corners3 s) in
  mkbox (pos_floor (map (fun k => list_min (map (fun c : vec => nth k c 0) cs) / nth k h 0) (seq 0 D)))
        (pos_ceil (map (fun k => list_max (map (fun c : vec => nth k c 0) cs) / nth k h 0) (seq 0 D))).

(** add_singularity.hpp l.85-96 (2D: outside both particles and |pos_ref[1]| <= cutoff_dist_) and l.232 (3D: outside both particles) *)
Definition kept (D : nat) (s : sing) (p1 p2 : spart) (pts : vec) : bool :=
  negb (sp_contains p1 pts) && negb (sp_contains p2 pts) &&
  (if (D =? 2)%nat then Rleb (Rabs (nth 1 (get_pos_in_part_ref s pts) 0)) (s_cutoff s) else true).
(** the loops over the cells of a box and the scale^D sub-points of each; [body] runs at the points kept, and gets the cell, the
    offset in the cell and the point *)
Definition over_subpoints (D : nat) (scale : Z) (keep : vec -> bool) (b : box Z) (h : vec) (body : list Z -> vec -> vec -> lvec -> outcome lvec) (y : lvec) : outcome lvec :=
  let hs := map (fun x => x / IZR scale) h in
  iterate_o b (fun pos y =>
    iterate_o (mkbox (repeat 0%Z D) (repeat scale D)) (fun sub y =>
      let pts_loc := pos_times (pos_of_int sub) hs in
      let pts := pos_plus (pos_times (pos_of_int pos) h) pts_loc in
      if keep pts then body pos pts_loc pts y else Ok y) y) y.
(** l.54-127, 189-279 [computesingularST]; [keep], [grad], [pr]: the test, get_grad_u_sing and get_p_sing *)
Definition computesingularST (D : nat) (scale : Z) (keep : vec -> bool) (grad : vec -> list vec) (pr : vec -> R) (b : box Z) (h : vec) (y : lvec) : outcome lvec :=
  let coef := 1 / IZR (scale ^ Z.of_nat D) in
  over_subpoints D scale keep b h (fun pos pts_loc pts y =>
    let bfunc := P1_integration_grad pts_loc h in
    let ielem := get_element pos in
    for_ (length bfunc) (fun je y =>
    for_ D (fun d1 y =>
      bind (for_ D (fun d2 y => at_add y (nth je ielem []) d1 (- (coef * nth d2 (nth d1 (grad pts) []) 0 * nth d2 (nth je bfunc []) 0))) y) (fun y =>
      at_add y (nth je ielem []) d1 (coef * pr pts * nth d1 (nth je bfunc []) 0))) y) y) y.
(** l.457-519 [addsingularity], 2D only *)
Definition addsingularity (scale : Z) (keep : vec -> bool) (u : vec -> vec) (b : box Z) (h : vec) (y : lvec) : outcome lvec :=
  let coef := 1 / IZR (scale ^ 2) in
  over_subpoints 2 scale keep b h (fun pos pts_loc pts y =>
    let bfunc := P1_integration pts_loc h in
    let ielem := get_element pos in
    for_ (length bfunc) (fun je y =>
    for_ 2 (fun d y => at_add y (nth je ielem []) d (coef * nth d (u pts) 0 * nth je bfunc 0)) y) y) y.

(** the loops over the couples, l.545-583 and l.611-640: [ctx.particles.size() - 1] is unsigned, without particles the loop
    reads particles[0] of an empty vector *)
Definition over_pairs (D : nat) (h : vec) (parts : list spart) (dm : dmda) (body : sing -> spart -> spart -> box Z -> lvec -> outcome lvec) (y : lvec) : outcome lvec :=
  match parts with
  | [] => UB
  | p0 :: _ =>
    for_ (length parts - 1) (fun ipart y =>
    for_ (length parts - (ipart + 1)) (fun k y =>
      let p1 := nth ipart parts p0 in let p2 := nth (ipart + 1 + k) parts p0 in
      let s := sing_of D h p1 p2 in
      if s_is s then
        let b := get_DM_bounds dm true in
        let pbox := get_box D s h in
        if intersect Z.ltb b pbox then body s p1 p2 (box_inside Z.ltb b pbox) y else Ok y
      else Ok y) y) y
  end.
(** l.521-590 [add_singularity_in_fluid] *)
Definition add_singularity_in_fluid (D : nat) (h : vec) (parts : list spart) (dms : list dmda) (rhs : field) : outcome field :=
  bind (on_all (fun dm => over_pairs D h parts dm (fun s p1 p2 b y =>
      computesingularST D sing_scale (kept D s p1 p2) (get_grad_u_sing s) (get_p_sing s) b h y) (fill0 dm)) dms) (fun ys =>
  Ok (local_to_global_add dms ys rhs)).
(** l.592-646 [add_singularity_to_last_sol], 2D *)
Definition add_singularity_to_last_sol (h : vec) (parts : list spart) (dms : list dmda) (sol : field) : outcome field :=
  bind (on_all (fun dm => over_pairs 2 h parts dm (fun s p1 p2 b y =>
      addsingularity sing_scale (kept 2 s p1 p2) (get_u_sing s) b h y) (global_to_local dm sol)) dms) (fun ys =>
  Ok (local_to_global_insert dms ys sol)).

(** ** l.648-760 [compute_singular_forces_on_part1], [compute_singular_forces_on_part2], 2D: [for (std::size_t i = -N; i < N; ++i)], the
    counter is unsigned (64 bits).  [term i]: what one pass adds *)
Fixpoint size_t_loop (fuel : nat) (i N : Z) (term : Z -> vec) (force : vec) : outcome vec :=
  match fuel with
  | O => OutOfFuel
  | S fuel => if (i <? N)%Z then size_t_loop fuel ((i + 1) mod 2 ^ 64)%Z N term (vec_add_assign force (term i)) else Ok force
  end.
Definition singular_force2 (fuel : nat) (N : Z) (term : Z -> vec) : outcome vec := size_t_loop fuel ((- N) mod 2 ^ 64)%Z N term (vzero 2).
(** l.662-690, one pass of the loop, the same in the three functions (the second particle too uses H1_ and the first particle's arc); [i] as a double.
    l.675 gives get_p_sing, which expects a point of space, the point [pos] of the contact frame *)
Definition stress2 (g : list vec) (p : R) : list vec :=
  let e i j := nth j (nth i g []) 0 in let s01 := 1 * (e 0%nat 1%nat + e 1%nat 0%nat) in [[2 * 1 * e 0%nat 0%nat - p; s01]; [s01; 2 * 1 * e 1%nat 1%nat - p]].
Definition singular_term2 (s : sing) (N i : Z) : vec :=
  let theta := asin (s_cutoff s * s_H1 s) in let ct := cos (IZR i * theta / IZR N) in let st := sin (IZR i * theta / IZR N) in
  let pos := [(ct - 1) / s_H1 s; st / s_H1 s] in let normal := [ct; st] in
  let sigma := stress2 (get_grad_u_sing_ref s pos) (get_p_sing s pos) in
  map (fun d1 => fold_left (fun acc d2 => acc + theta / IZR N / s_H1 s * nth d2 (nth d1 sigma []) 0 * nth d2 normal 0) (seq 0 2) 0) (seq 0 2).
(** ** l.762-885, 3D: sigma (l.796-806), then force_ref and force (l.808-814) *)
Definition stress3 (g : list vec) (p : R) : list vec :=
  let e i j := nth j (nth i g []) 0 in
  let s01 := 2 * 1 * e 0%nat 1%nat in let s02 := 1 * (e 0%nat 2%nat + e 2%nat 0%nat) in let s12 := 1 * (e 1%nat 2%nat + e 2%nat 1%nat) in
  [[2 * 1 * e 0%nat 0%nat - p; s01; s02]; [s01; 2 * 1 * e 1%nat 1%nat - p; s12]; [s02; s12; 2 * 1 * e 2%nat 2%nat - p]].
(** points and normals: particle 1 (l.788-794) and particle 2 (l.847-852) *)
Definition surf_point3 (second : bool) (H contact theta : R) (N i j : Z) : vec * vec :=
  let ci := cos (IZR i * theta / IZR N) in let si := sin (IZR i * theta / IZR N) in
  let cj := cos (2 * PI * IZR j / IZR N) in let sj := sin (2 * PI * IZR j / IZR N) in
  if second then ([si * cj / H; si * sj / H; contact + (1 - ci) / H], [si * cj; si * sj; - ci])
  else ([si * cj / H; si * sj / H; (ci - 1) / H], [si * cj; si * sj; ci]).
(** one pass of the inner loop; state: (force, force_ref) *)
Definition force_pass (base : list vec) (sigma : list vec) (n : vec) (coef : R) (st : vec * vec) : vec * vec :=
  let fr := fold_left (fun fr d1 => fold_left (fun fr d2 => set_nth d1 (nth d1 fr 0 + coef * nth d2 (nth d1 sigma []) 0 * nth d2 n 0) fr) (seq 0 3) fr) (seq 0 3) (snd st) in
  (fold_left (fun f d1 => fold_left (fun f d2 => set_nth d1 (nth d1 f 0 + nth d1 (nth d2 base []) 0 * nth d2 fr 0) f) (seq 0 3) f) (seq 0 3) (fst st), fr).
Definition get_p_sing_ref3 (s : sing) (X : vec) : R := p_sing_withT_normalMvt3D X (s_H1 s) (s_H2 s) (s_contact s) (s_UN s) (s_param s) (s_param s).
Definition singular_force3 (second : bool) (s : sing) (N : Z) : vec :=
  let H := if second then s_H2 s else s_H1 s in
  let theta := asin (s_cutoff s * H) in
  let A := 2 * PI * theta / IZR N / IZR N / H / H in
  fst (fold_left (fun st i => fold_left (fun st j =>
      let '(pos, n) := surf_point3 second H (s_contact s) theta N (Z.of_nat i) (Z.of_nat j) in
      force_pass (s_base s) (stress3 (get_grad_u_sing_ref s pos) (get_p_sing_ref3 s pos)) n (A * sin (IZR (Z.of_nat i) * theta / IZR N)) st)
    (seq 1 (Z.to_nat N)) st) (seq 1 (Z.to_nat N)) (vzero 3, vzero 3)).

(** l.880-990 the two overloads of [compute_singular_forces] over the couples: the forces are zeroed, then each couple with a singularity takes away
    its two singular forces.  The vector has one entry per particle; without particles as in [over_pairs] *)
Definition vec_minus (v w : vec) : vec := zip_with Rminus v w.
Definition compute_singular_forces (D : nat) (h : vec) (parts : list spart) (on1 on2 : sing -> outcome vec) : outcome (list vec) :=
  match parts with
  | [] => UB
  | p0 :: _ =>
    for_ (length parts - 1) (fun ipart fs =>
    for_ (length parts - (ipart + 1)) (fun k fs =>
      let jpart := (ipart + 1 + k)%nat in
      let s := sing_of D h (nth ipart parts p0) (nth jpart parts p0) in
      if s_is s then
        bind (on1 s) (fun f1 => let fs := set_nth ipart (vec_minus (nth ipart fs []) f1) fs in
        bind (on2 s) (fun f2 => Ok (set_nth jpart (vec_minus (nth jpart fs []) f2) fs)))
      else Ok fs) fs) (map (fun _ => vzero D) parts)
  end.
Definition compute_singular_forces2 (fuel : nat) (h : vec) (parts : list spart) (N : Z) : outcome (list vec) :=
  compute_singular_forces 2 h parts (fun s => singular_force2 fuel N (singular_term2 s N)) (fun s => singular_force2 fuel N (singular_term2 s N)).
Definition compute_singular_forces3 (h : vec) (parts : list spart) (N : Z) : outcome (list vec) :=
  compute_singular_forces 3 h parts (fun s => Ok (singular_force3 false s N)) (fun s => Ok (singular_force3 true s N)).
