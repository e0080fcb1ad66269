(** Model of cafes/fem/mesh.hpp and of the PETSc objects it queries. *)
From Verif Require Import Base M_Geometry M_Particle.

(** What one process sees of a distributed grid (PETSc's DMDALocalInfo): global
    numbers of points, periodicity ([bx == DM_BOUNDARY_PERIODIC]), owned points
    [xs, xs+xm) etc., ghosted points [gxs, gxs+gxm) etc., dof per point. *)
Record dmda := mkdmda {
  g_size : list Z;
  g_per : list bool;
  g_own : box Z;
  g_ghost : box Z;
  g_dof : nat }.

(** mesh.hpp l.61-64 and l.81-86: [if (ur[d] == m[d] && b[d] != PERIODIC) --ur[d]],
    one independent test per axis *)
Fixpoint dec_upper (ur m : list Z) (per : list bool) : list Z :=
  match ur, m, per with
  | u :: ur', n :: m', b :: per' => (if Z.eqb u n && negb b then u - 1 else u)%Z :: dec_upper ur' m' per'
  | _, _, _ => ur
  end.
(** mesh.hpp l.49-105 [get_DM_bounds_] (2D and 3D), [get_DM_bounds] *)
Definition get_DM_bounds (dm : dmda) (remove_final_points : bool) : box Z :=
  let b := g_own dm in
  if remove_final_points then mkbox (bottom_left b) (dec_upper (upper_right b) (g_size dm) (g_per dm)) else b.

(** mesh.hpp l.107-125 [get_global_bounds]; l.127-145 [get_boundary_type] *)
Definition get_global_bounds (dm : dmda) : list Z := g_size dm.
Definition get_boundary_type (dm : dmda) : list bool := g_per dm.

(** mesh.hpp l.147-181 [get_DM_sizes] for the list of the DMs of a composite (or one DM);
    [info.xm*info.ym*info.zm] is the product of the owned extents (PETSc sets the unused
    ones to 1) *)
Definition extents (b : box Z) : list Z := zip_with Z.sub (upper_right b) (bottom_left b).
Definition zprod (l : list Z) : Z := fold_left Z.mul l 1%Z.
Definition get_DM_sizes (dms : list dmda) : Z * Z :=
  fold_left (fun s dm => (fst s + Z.of_nat (g_dof dm) * zprod (extents (g_own dm)),
                          snd s + Z.of_nat (g_dof dm) * zprod (g_size dm))%Z) dms (0%Z, 0%Z).

(** mesh.hpp l.183-191 [set_lxu]: [lxu[i] = 2*lx[i]], last one decremented when not
    periodic.  [nx] is the length of [lx]; [lxu[nx-1]--] for nx = 0 would be out of
    bounds, it is the identity here (PETSc always has at least one process per axis). *)
Fixpoint dec_last (l : list Z) : list Z :=
  match l with [] => [] | [a] => [(a - 1)%Z] | a :: t => a :: dec_last t end.
Definition set_lxu (period : bool) (lx : list Z) : list Z :=
  let lxu := map (fun l => (2 * l)%Z) lx in
  if period then lxu else dec_last lxu.

(** mesh.hpp l.326-351 [createMesh]: numbers of points per axis of the pressure and of
    the velocity grid for [npoints] and [period] *)
Definition mesh_pres (npoints : list Z) (period : list bool) : list Z :=
  zip_with (fun n (p : bool) => if p then (n - 1)%Z else n) npoints period.
Definition mesh_vel (npoints : list Z) (period : list bool) : list Z :=
  zip_with (fun n (p : bool) => if p then (2 * n - 1 - 1)%Z else (2 * n - 1)%Z) npoints period.
(** l.353-373 [createLaplacianMesh] *)
Definition mesh_laplacian (npoints : list Z) (period : list bool) : list Z :=
  zip_with (fun n (p : bool) => if p then (n - 1)%Z else n) npoints period.

(** The points a process owns on a PETSc product grid with ownership ranges [ls] (one
    list of lengths per axis) when its coordinates in the process grid are [c]
    (PETSc: xs = lx[0]+...+lx[c-1], xm = lx[c]). *)
Definition own_start (l : list Z) (c : nat) : Z := fold_left Z.add (firstn c l) 0%Z.
Definition own_box (ls : list (list Z)) (c : list nat) : box Z :=
  mkbox (zip_with own_start ls c) (zip_with (fun l k => (own_start l k + nth k l 0)%Z) ls c).
(** Ghosted points for stencil width 1 and DMDA_STENCIL_BOX (PETSc): one more point on
    each side, except across a non-periodic boundary. *)
Fixpoint ghost_low (lo : list Z) (per : list bool) : list Z :=
  match lo, per with
  | a :: lo', p :: per' => (if p then a - 1 else Z.max (a - 1) 0)%Z :: ghost_low lo' per'
  | _, _ => []
  end.
Fixpoint ghost_up (up m : list Z) (per : list bool) : list Z :=
  match up, m, per with
  | a :: up', n :: m', p :: per' => (if p then a + 1 else Z.min (a + 1) n)%Z :: ghost_up up' m' per'
  | _, _, _ => []
  end.
Definition ghost_box (m : list Z) (per : list bool) (own : box Z) : box Z :=
  mkbox (ghost_low (bottom_left own) per) (ghost_up (upper_right own) m per).
Definition mk_dm (m : list Z) (per : list bool) (dof : nat) (own : box Z) : dmda :=
  mkdmda m per own (ghost_box m per own) dof.

(** All process coordinates for numbers of processes per axis [np] (first axis fastest,
    as PETSc ranks them). *)
Fixpoint proc_coords (np : list nat) : list (list nat) :=
  match np with
  | [] => [[]]
  | n :: t => flat_map (fun c => map (fun i => i :: c) (seq 0 n)) (proc_coords t)
  end.
(** mesh.hpp l.193-240, 259-307 [createDMDA] (pressure + velocity): the pressure grid is cut by
    PETSc with ownership ranges [ls]; the velocity grid is created on the same process
    grid with the ranges [set_lxu]. One pair (velocity, pressure) per process; velocity
    dof is the dimension (l.226: 2, l.292: 3). *)
Definition createMesh (npoints : list Z) (period : list bool) (ls : list (list Z)) : list (dmda * dmda) :=
  let mp := mesh_pres npoints period in
  let mv := mesh_vel npoints period in
  let lsu := zip_with set_lxu period ls in
  map (fun c => (mk_dm mv period (length npoints) (own_box lsu c), mk_dm mp period 1 (own_box ls c)))
      (proc_coords (map (@length Z) ls)).
(** mesh.hpp l.241-257, 309-324 [createDMDA] (one unknown) and l.353-373 [createLaplacianMesh]:
    one grid of one dof (field "u"), cut by PETSc with ownership ranges [ls]. One grid per process. *)
Definition createLaplacianMesh (npoints : list Z) (period : list bool) (ls : list (list Z)) : list dmda :=
  let mvel := mesh_laplacian npoints period in
  map (fun c => mk_dm mvel period 1 (own_box ls c)) (proc_coords (map (@length Z) ls)).
