(** Models of the multigrid set-up (cafes/problem/stokes.hpp l.50-150), the option defaults and mesh steps
    (cafes/problem/options.hpp, stokes.hpp l.206-224) and the XDMF description (cafes/io/hdf5.hpp l.43-104). *)
From Verif Require Import Base M_Geometry M_Mesh.
Open Scope Z_scope.

(** ** stokes.hpp l.50-91 [createLevelMatrices] *)
(** fem/mesh.hpp l.149-180 [get_DM_sizes] of one DMDA: dof*mx*my*mz *)
Definition total_size (dof : Z) (m : list Z) : Z := dof * fold_right Z.mul 1 m.
(** l.68: [int nx = sqrt(totalsize/2)].  The double square root of an int is correctly rounded, so its truncation is the
    integer square root. *)
Definition nx_of (D : Z) (m : list Z) : Z := Z.sqrt (total_size D m / 2).
(** l.71-75: [while(nx_0 != nx) { level++; nx_0 = (nx_0+1)/Dim; }] *)
Fixpoint level_loop (fuel : nat) (D nx_0 nx level : Z) : outcome Z :=
  match fuel with
  | O => OutOfFuel
  | S fuel => if nx_0 =? nx then Ok level else level_loop fuel D ((nx_0 + 1) / D) nx (level + 1)
  end.
(** l.77-78: [mg_h *= 1 << level].  [m0]: the finest velocity grid (ctx_->dm), [m]: the grid of this level.  The velocity
    has D components. *)
Definition level_step (fuel : nat) (D : Z) (m0 m : list Z) (h : list R) : outcome (list R) :=
  bind (level_loop fuel D (nx_of D m0) (nx_of D m) 0) (fun level => Ok (map (fun x => (x * IZR (2 ^ level))%R) h)).
(** ** l.133-142 [setPMMSolver]: the number of levels.  mz = 1 in 2D. *)
Fixpoint mg_loop (fuel : nat) (i MGlevels : Z) : outcome Z :=
  match fuel with
  | O => OutOfFuel
  | S fuel => if 8 <? i then mg_loop fuel (Z.shiftr i 1) (MGlevels + 1) else Ok MGlevels
  end.
Definition smallest (mx my mz : Z) : Z :=
  let i := if mx <? my then mx else my in if (mz =? 1) || (i <? mz) then i else mz.
Definition MGlevels (fuel : nat) (mx my mz : Z) : outcome Z := mg_loop fuel (smallest mx my mz) 1.

(** ** options.hpp l.43-56, 58-172 *)
Record options := mkoptions { o_mx : list Z; o_lx : list R; o_period : list bool; o_strain : bool; o_assembling : bool; o_pmm : bool }.
Definition default_options (D : nat) : options := mkoptions (repeat 17 D) (repeat 1%R D) (repeat false D) false false false.
(** what the command line gives for each axis: -mx -my -mz, -Lx -Ly -Lz, -xperiod -yperiod -zperiod; the 2D code
    does not look at the third axis *)
Record command_line := mkcommand { c_m : nat -> option Z; c_L : nat -> option R; c_per : nat -> option bool; c_strain : option bool; c_assembling : option bool; c_pmm : option bool }.
Definition or_else {A} (o : option A) (d : A) : A := match o with Some a => a | None => d end.
Definition process_options (D : nat) (c : command_line) (o : options) : options :=
  mkoptions (map (fun k => or_else (c_m c k) (nth k (o_mx o) 0)) (seq 0 D)) (map (fun k => or_else (c_L c k) (nth k (o_lx o) 0%R)) (seq 0 D))
    (map (fun k => or_else (c_per c k) (nth k (o_period o) false)) (seq 0 D))
    (or_else (c_strain c) (o_strain o)) (or_else (c_assembling c) (o_assembling o)) (or_else (c_pmm c) (o_pmm o)).
(** stokes.hpp l.216-224: hp, hu *)
Definition pressure_steps (o : options) : list R := zip_with (fun L m => (L / IZR (m - 1))%R) (o_lx o) (o_mx o).
Definition velocity_steps (o : options) : list R := map (fun x => (/ 2 * x)%R) (pressure_steps o).

(** ** io/hdf5.hpp l.43-104 [create_xdmf]: the numbers written for the two grids.  [mx], [my]: the velocity grid *)
Record xdmf_grid := mkgrid { x_topology : list Z; x_origin : list R; x_spacing : list R; x_data : list Z }.
Definition xdmf_pressure (mx my : Z) (h : list R) : xdmf_grid :=
  mkgrid [mx / 2 + 1; my / 2 + 1] [0; 0]%R [2 * nth 0 h 0; 2 * nth 1 h 0]%R [mx / 2; my / 2].
Definition xdmf_velocity (mx my : Z) (h : list R) : xdmf_grid :=
  mkgrid [mx; my] [0; 0]%R [nth 0 h 0; nth 1 h 0]%R [mx; my; 2].
