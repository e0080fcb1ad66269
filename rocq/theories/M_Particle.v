(** Model of cafes/particle/particle.hpp l.103-297. *)
From Verif Require Import Base M_Geometry.

(** [int] -> [std::size_t] (64-bit) and back (braced [position<int,D>{ix,iy}]). *)
Definition to_size_t (z : Z) : Z := (z mod 2 ^ 64)%Z.
Definition to_int (z : Z) : Z := ((z + 2 ^ 31) mod 2 ^ 32 - 2 ^ 31)%Z.

(** [for(x=lo*h, i=lo; i<hi; x+=h, ++i) body] with [i] a size_t and [lo],[hi]
    ints (l.110-111, 130-132).  In [i<hi] the int is converted to size_t.  The
    loop ends at the first [i >= hi], so [hi - i] iterations are enough and the
    counter never wraps; [body] returns what it pushes back, in order. *)
Fixpoint for_size_t_loop {A} (fuel : nat) (i hi : Z) (x h : R) (body : Z -> R -> list A) : list A :=
  match fuel with
  | O => []
  | S k => if (i <? hi)%Z then body i x ++ for_size_t_loop k (i + 1)%Z hi (x + h)%R h body else []
  end.
Definition for_size_t {A} (lo hi : Z) (h : R) (body : Z -> R -> list A) : list A :=
  let i := to_size_t lo in
  let e := to_size_t hi in
  for_size_t_loop (Z.to_nat (e - i)) i e (IZR lo * h)%R h body.

(** l.103-119 [find_fluid_points_insides], 2D.  [contains] is the particle's
    membership test. *)
Definition find_fluid_points2 (contains : vec -> bool) (b : box Z) (h : vec) : list (list Z) :=
  let bl d := nth d (bottom_left b) 0%Z in
  let ur d := nth d (upper_right b) 0%Z in
  let hh d := nth d h 0%R in
  for_size_t (bl 1) (ur 1) (hh 1) (fun iy y =>
  for_size_t (bl 0) (ur 0) (hh 0) (fun ix x =>
    if contains [x; y] then [[to_int ix; to_int iy]] else [])).
(** l.121-138, 3D *)
Definition find_fluid_points3 (contains : vec -> bool) (b : box Z) (h : vec) : list (list Z) :=
  let bl d := nth d (bottom_left b) 0%Z in
  let ur d := nth d (upper_right b) 0%Z in
  let hh d := nth d h 0%R in
  for_size_t (bl 2) (ur 2) (hh 2) (fun iz z =>
  for_size_t (bl 1) (ur 1) (hh 1) (fun iy y =>
  for_size_t (bl 0) (ur 0) (hh 0) (fun ix x =>
    if contains [x; y; z] then [[to_int ix; to_int iy; to_int iz]] else []))).

(** l.147 [static_cast<position<int>>(p/h)] *)
Definition cell_of (h p : vec) : list Z := pos_to_int (pos_div p h).

(** l.140-153 [find_surf_points_insides] *)
Fixpoint find_surf_points_insides (surf_p : list vec) (b : box Z) (h : vec) : list (list Z * vec) :=
  match surf_p with
  | [] => []
  | p :: t =>
      let surf_pi := cell_of h p in
      if point_inside Z.ltb b surf_pi
      then (surf_pi, pos_minus p (pos_times (pos_of_int surf_pi) h)) :: find_surf_points_insides t b h
      else find_surf_points_insides t b h
  end.

(** l.155-171 [find_radial_surf_points_insides] *)
Fixpoint find_radial_surf_points_insides (surf_p : list vec) (b : box Z) (h : vec) (center : vec) : list vec :=
  match surf_p with
  | [] => []
  | p :: t =>
      let surf_pi := cell_of h p in
      if point_inside Z.ltb b surf_pi
      then pos_minus p center :: find_radial_surf_points_insides t b h center
      else find_radial_surf_points_insides t b h center
  end.

(** l.173-191 [position_diff], [velocity_diff]: [std::transform] with subtraction *)
Definition position_diff (c1 c2 : vec) : vec := zip_with Rminus c1 c2.
Definition velocity_diff (v1 v2 : vec) : vec := zip_with Rminus v1 v2.
(** l.193-202 [distance] *)
Definition distance (c1 c2 : vec) : R :=
  let d := position_diff c1 c2 in
  sqrt (fold_left (fun acc x => (acc + x * x)%R) d 0%R).

(** What [set_materials] uses of a particle of any shape. *)
Record part := mkpart {
  p_contains : vec -> bool;
  p_bbox : vec -> box Z;          (* bounding_box(h) *)
  p_surface : R -> list vec;      (* surface(dpart) *)
  p_center : vec }.

(** [iterate] never fails (C01), so the callback state can be read off. *)
Definition run_iterate {St} (b : box Z) (f : list Z -> St -> St) (s : St) : St :=
  match iterate b f (repeat 0%Z (length (bottom_left b))) s with Ok s' => s' | _ => s end.

(** l.225-237 [kernel_num_count]: counts the sub-grid points of one cell that are
    inside the particle; [hs] is the sub-grid step, [scale] the number of sub-cells
    per axis, [num] the counter (int) *)
Definition kernel_num_count (D : nat) (contains : vec -> bool) (h hs : vec) (scale : Z)
    (pos : list Z) (num : Z) : Z :=
  run_iterate (mkbox (repeat 0%Z D) (repeat scale D))
    (fun pos_scale num =>
       let pts := pos_plus (pos_times (pos_of_int pos) h) (pos_times (pos_of_int pos_scale) hs) in
       if contains pts then (num + 1)%Z else num) num.

(** One iteration of the loop l.268-291, before the Allreduce.  State: (size,
    surf_points, radial_vec, nb_surf_points, num) of this particle. *)
Record mat := mkmat {
  m_surf : list (list Z * vec);
  m_radial : list vec;
  m_nb : Z;
  m_num : Z }.
Definition find_fluid_points (D : nat) := match D with 2 => find_fluid_points2 | _ => find_fluid_points3 end.
Definition set_material (D : nat) (p : part) (b : box Z) (h : vec) (dpart : R) (scale : Z) (old : mat) : nat * mat :=
  let pbox := p_bbox p h in
  let hs := map (fun x => (x / IZR scale)%R) h in
  if intersect Z.ltb b pbox then
    let new_box := box_inside Z.ltb b pbox in
    let pts := find_fluid_points D (p_contains p) new_box h in
    let spts := p_surface p dpart in
    let sv := find_surf_points_insides spts new_box h in
    let rv := find_radial_surf_points_insides spts new_box h (p_center p) in
    let num := run_iterate new_box (fun pos num => kernel_num_count D (p_contains p) h hs scale pos num) (m_num old) in
    (length pts, mkmat sv rv (Z.of_nat (length sv)) num)
  else (0, old).

(** l.239-297 [set_materials] on one process, before the Allreduce; the arrays are
    resized to the number of particles (new entries value-initialised) and
    returned with the total size *)
Fixpoint set_materials_local (D : nat) (parts : list part) (b : box Z) (h : vec) (dpart : R) (scale : Z)
    (olds : list mat) : nat * list mat :=
  match parts, olds with
  | p :: ps, o :: os =>
      let '(n, m) := set_material D p b h dpart scale o in
      let '(n', ms) := set_materials_local D ps b h dpart scale os in
      (n + n', m :: ms)
  | _, _ => (0, [])
  end.
Definition mat0 : mat := mkmat [] [] 0 0.

(** l.293-294: the two [MPI_Allreduce(MPI_IN_PLACE, ..., MPI_SUM)]: the value every
    process gets for particle [i], from the per-process local results *)
Definition allreduce (field : mat -> Z) (locals : list (nat * list mat)) (i : nat) : Z :=
  fold_left Z.add (map (fun r => field (nth i (snd r) mat0)) locals) 0%Z.
