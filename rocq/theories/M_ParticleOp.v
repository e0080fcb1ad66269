(** Model of cafes/problem/particle_operator.hpp, cafes/particle/forces_torques.hpp and of
    create_Mat_and_Vec (sem.hpp l.124-146, dton.hpp l.143-170).
    Every process runs the same code on its own view [dm] of the velocity grid; what it holds
    of a particle's surface is a function of that view (set_materials is deterministic).  The
    distributed vectors are [field]s, the control vectors one list of doubles per process.
    Doubles are reals; D is 2 or 3; [vec]s have D entries, spins 1 (2D) or 3 entries. *)
From Verif Require Import Base M_Geometry M_Shapes M_Particle M_Quadrature M_MatElem M_Mesh M_Operator M_Bc.
Open Scope R_scope.

(** quadrature.hpp l.39-79, overloads of [P1_integration] *)
Definition P1_integration (x h : vec) : list R :=
  match x, h with
  | [x0; x1], [h0; h1] => P1_integration2 (x0, x1) (h0, h1)
  | [x0; x1; x2], [h0; h1; h2] => P1_integration3 (x0, x1, x2) (h0, h1, h2)
  | _, _ => []
  end.
(** cross_product.hpp l.39-49, 80-86: vector x vector (one entry in 2D) *)
Definition cross_vv (x y : vec) : vec :=
  match x, y with
  | [x0; x1], [y0; y1] => [cross22 (x0, x1) (y0, y1)]
  | [x0; x1; x2], [y0; y1; y2] => let '(a, b, c) := cross33 (x0, x1, x2) (y0, y1, y2) in [a; b; c]
  | _, _ => []
  end.
(** cross_product.hpp l.51-56, 80-86: spin x vector *)
Definition cross_sv (w x : vec) : vec :=
  match w, x with
  | [rz], [x0; x1] => let '(a, b) := cross12 rz (x0, x1) in [a; b]
  | [w0; w1; w2], [x0; x1; x2] => let '(a, b, c) := cross33 (w0, w1, w2) (x0, x1, x2) in [a; b; c]
  | _, _ => []
  end.
(** size of a spin, [Dimensions==2?1:3] *)
Definition spin_size (D : nat) : nat := match D with 2%nat => 1%nat | _ => 3%nat end.
Definition vzero (n : nat) : vec := repeat 0 n.

(** What these functions use of a particle (particle.hpp l.62-112). *)
Record gpart := mkgpart {
  gp : part; gp_velocity : vec; gp_angular : vec; gp_rho : R; gp_force : vec;
  gp_surface_area : R; gp_volume : R; gp_Cd_R : R; gp_Ci_R : R }.
Definition gpart0 : gpart := mkgpart (mkpart (fun _ => false) (fun _ => mkbox [] []) (fun _ => []) []) [] [] 0 [] 0 0 0 0.

(** particle<circle<2>>: particle.hpp l.62-112 over circle.hpp l.49-72 and
    super_ellipsoid.hpp l.86-182.  [tol]: the tolerance of [surface], [fuel]: a bound on the
    length of the sampling walk; no sample if it is exceeded (C12: some bound suffices). *)
Definition vec2 (p : R * R) : vec := [fst p; snd p].
Definition circle_gpart (fuel : nat) (tol : R) (c : R * R) (r : R) (q : quat) (velocity : vec) (angular : vec) (rho : R) (force : vec) : gpart :=
  let s := circle_make c r q in
  mkgpart (mkpart (fun p => contains2 s (nth 0 p 0, nth 1 p 0)) (bounding_box2_h s)
             (fun k => match surface2 fuel s k tol with Ok l => map vec2 l | _ => [] end) (vec2 c))
    velocity angular rho force (circle_surface_area s) (circle_volume s) (circle_Cd_R s) (circle_Ci_R s).

(** context.hpp l.82-103 [particle_context], with the problem's DM, step and boundary conditions *)
Record pctx := mkpctx {
  x_D : nat; x_h : vec; x_parts : list gpart; x_dms : list dmda;
  x_surf : dmda -> list (list (list Z * vec));   (* surf_points of the process, by particle *)
  x_radial : dmda -> list (list vec);            (* radial_vec of the process, by particle *)
  x_nb : nat -> Z; x_num : nat -> Z;             (* nb_surf_points, num (after the Allreduce) *)
  x_scale : Z; x_bc : list (option bc_row) }.

(** sem.hpp l.124-146, dton.hpp l.143-170 [create_Mat_and_Vec] *)
Definition local_materials (D : nat) (h : vec) (parts : list gpart) (dpart : R) (scale : Z) (dm : dmda) : nat * list mat :=
  set_materials_local D (map gp parts) (get_DM_bounds dm true) h dpart scale (repeat mat0 (length parts)).
Definition create_Mat_and_Vec (D : nat) (h : vec) (parts : list gpart) (dms : list dmda) (bc : list (option bc_row)) (dpart : R) (scale : Z) : pctx :=
  let run := local_materials D h parts dpart scale in
  mkpctx D h parts dms (fun dm => map m_surf (snd (run dm))) (fun dm => map m_radial (snd (run dm)))
    (allreduce m_nb (map run dms)) (allreduce m_num (map run dms)) scale bc.
(** number of entries of the control vector on one process *)
Definition control_size (D : nat) (h : vec) (parts : list gpart) (dpart : R) (scale : Z) (dm : dmda) : nat :=
  (fst (local_materials D h parts dpart scale dm) * D)%nat.

(** the loop over the grid points inside the particles shared by set_rhs_problem_impl
    (l.80-98, overlap_box), both compute_y (l.425-443, 468-482, box_inside) and
    forces_torques_with_control (l.94-105, overlap_box): the points of particle p *)
Definition fluid_pts (cut : box Z -> box Z -> box Z) (D : nat) (h : vec) (dm : dmda) (p : gpart) : list (list Z) :=
  let b := get_DM_bounds dm true in
  let pbox := p_bbox (gp p) h in
  if intersect Z.ltb b pbox then find_fluid_points D (p_contains (gp p)) (cut b pbox) h else [].

(** [px[num++]] on an array of doubles *)
Definition read_arr (px : list R) (k : nat) : outcome R := match nth_error px k with Some v => Ok v | None => UB end.
Definition write_arr (py : list R) (k : nat) (v : R) : outcome (list R) := if Nat.ltb k (length py) then Ok (set_nth k v py) else UB.

(** l.66-103 [set_rhs_problem_impl] on one process; [px]: its part of x, [f]: the forces vector *)
Definition set_rhs_problem_impl (c : pctx) (px : list R) (apply_forces : bool) (dm : dmda) (f : field) : outcome field :=
  bind (fold_left (fun o p => bind o (fun s =>
    fold_left (fun o ind => bind o (fun s =>
      for_ (x_D c) (fun i (s : nat * field) =>
        let '(num, f) := s in
        bind (read_arr px num) (fun v =>
        bind (set_g dm f ind i (if apply_forces then v + gp_rho p * nth i (gp_force p) 0 else v)) (fun f =>
        Ok (S num, f)))) s))
      (fluid_pts (overlap_box Z.ltb) (x_D c) (x_h c) dm p) (Ok s))) (x_parts c) (Ok (0%nat, f)))
  (fun s => Ok (snd s)).
(** l.105-131 [set_rhs_problem]: the velocity part of rhs += mass * forces; [x]: one list of
    doubles per process.  The pressure part of forces is 0. *)
Definition set_rhs_problem (c : pctx) (x : dmda -> list R) (apply_forces : bool) (rhs : field) : outcome field :=
  bind (fold_left (fun o dm => bind o (set_rhs_problem_impl c (x dm) apply_forces dm)) (x_dms c) (Ok zeros)) (fun forces =>
  bind (diag_block_matrix_raw (mass_mult (x_h c)) (x_dms c) forces) (fun mm =>
  Ok (fun n d => rhs n d + mm n d))).

(** l.133-153 [interp_rigid_motion_]: [g -= velocity - cross_product(angular_velocity, r)] *)
Definition rigid_motion_point (p : gpart) (r g : vec) : vec :=
  vec_sub_assign g (velocity_minus_vec (gp_velocity p) (cross_sv (gp_angular p) r)).
Definition interp_rigid_motion (parts : list gpart) (r g : list (list vec)) : list (list vec) :=
  zip_with (fun pr gs => zip_with (rigid_motion_point (fst pr)) (snd pr) gs) (combine parts r) g.

(** l.170-186: one surface point *)
Definition interp_surf_point (D : nat) (h : vec) (sol : lvec) (sp : list Z * vec) : outcome vec :=
  let bfunc := P1_integration (snd sp) h in
  let ielem := get_element (fst sp) in
  for_ (length bfunc) (fun j g =>
  for_ D (fun d g =>
    bind (at_read sol (nth j ielem []) d) (fun u => Ok (set_nth d (nth d g 0 + u * nth j bfunc 0) g))) g) (vzero D).
(** l.155-204 [interp_fluid_to_surf] on one process; [sol]: the solution field *)
Definition interp_fluid_to_surf (c : pctx) (rigid_motion : bool) (sol : field) (dm : dmda) : outcome (list (list vec)) :=
  bind (on_all (on_all (interp_surf_point (x_D c) (x_h c) (global_to_local dm sol))) (x_surf c dm)) (fun g =>
  Ok (if rigid_motion then interp_rigid_motion (x_parts c) (x_radial c dm) g else g)).

(** MPI_Allreduce(MPI_SUM) of one vector of n doubles per process *)
Definition allsum (n : nat) (l : list vec) : vec := fold_left vec_add_assign l (vzero n).
(** l.209-239 [simple_layer].  [g]: the densities of every process, by particle; result: the
    new densities, mean and cross_prod *)
Definition local_mean (D : nat) (gs : list vec) : vec := fold_left vec_add_assign gs (vzero D).
Definition local_cross (D : nat) (rs gs : list vec) : vec :=
  fold_left (fun acc rg => vec_add_assign acc (cross_vv (fst rg) (snd rg))) (combine rs gs) (vzero (spin_size D)).
Definition sl_mean (c : pctx) (g : dmda -> list (list vec)) (i : nat) : vec :=
  vec_div_assign (allsum (x_D c) (map (fun dm => local_mean (x_D c) (nth i (g dm) [])) (x_dms c))) (IZR (x_nb c i)).
Definition sl_cross (c : pctx) (g : dmda -> list (list vec)) (i : nat) : vec :=
  vec_scale_assign (allsum (spin_size (x_D c)) (map (fun dm => local_cross (x_D c) (nth i (x_radial c dm) []) (nth i (g dm) [])) (x_dms c)))
    (gp_Cd_R (nth i (x_parts c) gpart0) / IZR (x_nb c i)).
Definition simple_layer (c : pctx) (g : dmda -> list (list vec)) : (dmda -> list (list vec)) * (nat -> vec) * (nat -> vec) :=
  (fun dm => map (fun i =>
     zip_with (fun r gi => vec_sub_assign gi (vec_plus (sl_mean c g i) (cross_sv (sl_cross c g i) r)))
       (nth i (x_radial c dm) []) (nth i (g dm) [])) (seq 0 (length (g dm))),
   sl_mean c g, sl_cross c g).

(** what all the processes hold after interp_fluid_to_surf *)
Definition interp_all (c : pctx) (rigid_motion : bool) (sol : field) : outcome (dmda -> list (list vec)) :=
  bind (on_all (interp_fluid_to_surf c rigid_motion sol) (x_dms c)) (fun _ =>
  Ok (fun dm => match interp_fluid_to_surf c rigid_motion sol dm with Ok g => g | _ => [] end)).
(** sem.hpp l.208-235 [get_new_velocities]: the velocities given to the particles *)
Definition get_new_velocities (c : pctx) (sol : field) : outcome (list vec) :=
  bind (interp_all c false sol) (fun g =>
  Ok (map (fun i => snd (fst (simple_layer c g)) i) (seq 0 (length (x_parts c))))).

(** l.241-279 [SL_to_Rhs] before the boundary conditions: every process adds to a ghosted vector *)
Definition SL_point (D : nat) (h : vec) (gammak : R) (sp : list Z * vec) (g : vec) (y : lvec) : outcome lvec :=
  let bfunc := P1_integration (snd sp) h in
  let ielem := get_element (fst sp) in
  for_ (length bfunc) (fun j y =>
  for_ D (fun d y => at_add y (nth j ielem []) d (nth d g 0 * nth j bfunc 0 * gammak)) y) y.
Definition gamma (c : pctx) (i : nat) : R := gp_surface_area (nth i (x_parts c) gpart0) / IZR (x_nb c i).
Definition SL_local (c : pctx) (g : list (list vec)) (dm : dmda) : outcome lvec :=
  for_ (length g) (fun i y =>
    for_ (length (nth i (x_surf c dm) [])) (fun k y =>
      match nth_error (nth i (x_surf c dm) []) k, nth_error (nth i g []) k with
      | Some sp, Some gk => SL_point (x_D c) (x_h c) (gamma c i) sp gk y
      | _, _ => UB
      end) y) (fill0 dm).
Definition SL_to_Rhs_raw (c : pctx) (g : dmda -> list (list vec)) : outcome field :=
  bind (on_all (fun dm => SL_local c (g dm) dm) (x_dms c)) (fun ys =>
  Ok (local_to_global_add (x_dms c) ys zeros)).
Definition SL_to_Rhs (c : pctx) (g : dmda -> list (list vec)) : outcome field :=
  bind (SL_to_Rhs_raw c g) (fun rhs => SetNullDirichletOnRHS (x_D c) (x_dms c) rhs (x_bc c)).

(** l.318-352 [kernel_projection] at a cell and a sub-point of it; state: (mean, cross) *)
Definition kernel_projection (D : nat) (p : gpart) (h hs : vec) (scale : Z) (sol : lvec) (pos : list Z) (s : vec * vec) : outcome (vec * vec) :=
  iterate_o (mkbox (repeat 0%Z D) (repeat scale D)) (fun pos_scale s =>
    let pts := pos_plus (pos_times (pos_of_int pos) h) (pos_times (pos_of_int pos_scale) hs) in
    if p_contains (gp p) pts then
      bind (interp_surf_point D h sol (pos, pos_times (pos_of_int pos_scale) hs)) (fun tmp =>
      let r := zip_with Rminus pts (p_center (gp p)) in
      Ok (vec_add_assign (fst s) tmp, vec_add_assign (snd s) (cross_vv r tmp)))
    else Ok s) s.
(** l.354-389 [projection_impl] for one particle on one process: divided by the global [num] *)
Definition projection_impl (c : pctx) (sol : field) (i : nat) (dm : dmda) : outcome (vec * vec) :=
  let p := nth i (x_parts c) gpart0 in
  let hs := map (fun x => x / IZR (x_scale c)) (x_h c) in
  let b := get_DM_bounds dm true in
  let pbox := p_bbox (gp p) (x_h c) in
  let s0 := (vzero (x_D c), vzero (spin_size (x_D c))) in
  bind (if intersect Z.ltb b pbox then
          iterate_o (box_inside Z.ltb b pbox) (kernel_projection (x_D c) p (x_h c) hs (x_scale c) (global_to_local dm sol)) s0
        else Ok s0) (fun s =>
  Ok (vec_div_assign (fst s) (IZR (x_num c i)), vec_div_assign (snd s) (IZR (x_num c i)))).
(** l.391-416 [projection] *)
Definition projection (c : pctx) (sol : field) (i : nat) : outcome (vec * vec) :=
  bind (on_all (projection_impl c sol i) (x_dms c)) (fun l =>
  Ok (allsum (x_D c) (map fst l), allsum (spin_size (x_D c)) (map snd l))).

(** l.418-450 [compute_y] with the mean and the cross product *)
Definition compute_y_loop (c : pctx) (val : nat -> gpart -> list Z -> nat -> outcome R) (dm : dmda) (py : list R) : outcome (list R) :=
  bind (for_ (length (x_parts c)) (fun ipart s =>
    let p := nth ipart (x_parts c) gpart0 in
    fold_left (fun o ind => bind o (fun s =>
      for_ (x_D c) (fun d (s : nat * list R) =>
        let '(num, py) := s in
        bind (val ipart p ind d) (fun v =>
        bind (write_arr py num v) (fun py => Ok (S num, py)))) s))
      (fluid_pts (box_inside Z.ltb) (x_D c) (x_h c) dm p) (Ok s)) (0%nat, py)) (fun s => Ok (snd s)).
(** [sol.at_g(ind)[d]]: the owned entries *)
Definition get_g (dm : dmda) (y : field) (p : list Z) (d : nat) : outcome R :=
  if point_inside Z.ltb (g_own dm) p then Ok (y p d) else UB.
Definition compute_y_rigid (c : pctx) (sol : field) (mean cross : nat -> vec) (dm : dmda) (py : list R) : outcome (list R) :=
  compute_y_loop c (fun ipart p ind d =>
    let r := zip_with Rminus (pos_times (pos_of_int ind) (x_h c)) (p_center (gp p)) in
    let tmp := vec_plus (mean ipart) (scalar_times_vec (gp_Ci_R p) (cross_sv (cross ipart) r)) in
    bind (get_g dm sol ind d) (fun u => Ok (u - nth d tmp 0))) dm py.
(** l.452-488 [compute_y] *)
Definition compute_y (c : pctx) (sol : field) (dm : dmda) (py : list R) : outcome (list R) :=
  compute_y_loop c (fun _ _ ind d => get_g dm sol ind d) dm py.

(** forces_torques.hpp l.36-62 [set_torques]: r x g *)
Definition set_torques (center : vec) (ind : list Z) (g h : vec) (t : vec) : vec :=
  vec_add_assign t (cross_vv (zip_with Rminus (pos_times (pos_of_int ind) h) center) g).
(** l.82-113: one process; the control is read consecutively; result per particle *)
Definition forces_torques_local (c : pctx) (pcontrol : list R) (dm : dmda) : outcome (list (vec * vec)) :=
  bind (for_ (length (x_parts c)) (fun ipart (s : nat * list (vec * vec)) =>
    let p := nth ipart (x_parts c) gpart0 in
    bind (fold_left (fun o ind => bind o (fun s =>
        let '(k, ft) := s in
        bind (for_ (x_D c) (fun d (s : nat * vec * vec) =>
                let '(k, f, g) := s in
                bind (read_arr pcontrol k) (fun v => Ok (S k, set_nth d (nth d f 0 + v) f, set_nth d v g)))
               (k, fst ft, vzero (x_D c))) (fun s =>
        let '(k, f, g) := s in
        Ok (k, (f, set_torques (p_center (gp p)) ind g (x_h c) (snd ft))))))
      (fluid_pts (overlap_box Z.ltb) (x_D c) (x_h c) dm p) (Ok (fst s, (vzero (x_D c), vzero (spin_size (x_D c))))))
    (fun r =>
      let w := gp_volume p / IZR (x_num c ipart) in
      Ok (fst r, snd s ++ [(vec_scale_assign (fst (snd r)) w, vec_scale_assign (snd (snd r)) w)]))) (0%nat, []))
  (fun s => Ok (snd s)).
(** l.114-117: the Allreduce *)
Definition forces_torques (c : pctx) (control : dmda -> list R) : outcome (list (vec * vec)) :=
  bind (on_all (fun dm => forces_torques_local c (control dm) dm) (x_dms c)) (fun l =>
  Ok (map (fun i => (allsum (x_D c) (map (fun ft => fst (nth i ft (vzero (x_D c), []))) l),
                     allsum (spin_size (x_D c)) (map (fun ft => snd (nth i ft ([], vzero (spin_size (x_D c))))) l)))
          (seq 0 (length (x_parts c))))).
(** l.119-131: the singular forces are added at [forces[ipart*Dimensions]]; [sing]: what
    compute_singular_forces returned, one vector per particle *)
Definition add_singular_forces (D : nat) (sing : list vec) (forces : list vec) : outcome (list vec) :=
  for_ (length sing) (fun ipart forces =>
  for_ D (fun d forces =>
    match nth_error forces (ipart * D) with
    | Some f => Ok (set_nth (ipart * D) (set_nth d (nth d f 0 + nth d (nth ipart sing []) 0) f) forces)
    | None => UB
    end) forces) forces.
