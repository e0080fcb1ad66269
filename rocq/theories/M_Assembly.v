(** Model of cafes/fem/assembling.hpp (2D: the index helpers it calls, [get_indices],
    [get_indices_tensor] and [get_indices_4Q1], exist in 2D only) and of [SetDirichletOnMat]
    (cafes/fem/bc.hpp). *)
From Verif Require Import Base M_Geometry M_Particle M_Quadrature M_MatElem M_Mesh M_Operator M_Bc.

(** A global degree of freedom of the (velocity, pressure) pair: which field ([true] is the
    pressure), node, component. *)
Definition gdof := (bool * list Z * nat)%type.
(** An assembled matrix: the entries (row, column, value) that were added, in any order; the
    entry of the matrix is their sum (ADD_VALUES). *)
Definition mentry := (gdof * gdof * R)%type.
Definition same_dof (a b : gdof) : bool :=
  Bool.eqb (fst (fst a)) (fst (fst b)) && same_node (snd (fst a)) (snd (fst b)) && Nat.eqb (snd a) (snd b).

(** DMDAGetLocalInfo: what the code reads of a 2D grid *)
Definition info_of (dm : dmda) : dmda_info :=
  let lo d := nth d (bottom_left (g_own dm)) 0%Z in let up d := nth d (upper_right (g_own dm)) 0%Z in
  let gl d := nth d (bottom_left (g_ghost dm)) 0%Z in let gu d := nth d (upper_right (g_ghost dm)) 0%Z in
  mkinfo (nth 0 (g_size dm) 0%Z) (nth 1 (g_size dm) 0%Z)
         (lo 0) (lo 1) (Z.sub (up 0) (lo 0)) (Z.sub (up 1) (lo 1))
         (gl 0) (gl 1) (Z.sub (gu 0) (gl 0)) (Z.sub (gu 1) (gl 1)) (Z.of_nat (g_dof dm)).
(** number of entries of the ghosted local vector: [dof*gxm*gym*gzm] with gzm = 1 in 2D *)
Definition local_size (dm : dmda) : Z := (i_dof (info_of dm) * i_gxm (info_of dm) * i_gym (info_of dm))%Z.

(** PETSc's local-to-global mapping of one DMDA (ghosted local numbering: dof fastest, then
    x, then y) ... *)
Definition ltog1 (dm : dmda) (k : Z) : list Z * nat :=
  let i := info_of dm in
  let q := (k / i_dof i)%Z in
  (wrap (g_size dm) (g_per dm) [i_gxs i + q mod i_gxm i; i_gys i + q / i_gxm i]%Z, Z.to_nat (k mod i_dof i)).
(** ... and of the composite (velocity first).  PETSc raises an error on an index outside
    the local vectors; negative indices are dropped by MatSetValuesLocal, none occurs here. *)
Definition ltog (dm : dmda * dmda) (k : Z) : outcome gdof :=
  let nv := local_size (fst dm) in
  if (0 <=? k)%Z && (k <? nv)%Z then Ok (false, fst (ltog1 (fst dm) k), snd (ltog1 (fst dm) k))
  else if (nv <=? k)%Z && (k <? nv + local_size (snd dm))%Z then
    Ok (true, fst (ltog1 (snd dm) (k - nv)), snd (ltog1 (snd dm) (k - nv)))
  else Abort.

(** [MatSetValuesLocal(A, rows, cols, v, ADD_VALUES)]: v is read row by row; reading an entry
    that was never written is undefined *)
Definition MatSetValuesLocal (dm : dmda * dmda) (rows cols : list Z) (v : list (nat * R)) (A : list mentry) : outcome (list mentry) :=
  for_ (length rows) (fun a A =>
  for_ (length cols) (fun b A =>
    bind (ltog dm (nth a rows 0%Z)) (fun r =>
    bind (ltog dm (nth b cols 0%Z)) (fun c =>
    match read_flat v (a * length cols + b) with
    | Some x => Ok (A ++ [(r, c, x)])
    | None => UB
    end))) A) A.

Definition px (pos : list Z) : Z := nth 0 pos 0%Z.
Definition py (pos : list Z) : Z := nth 1 pos 0%Z.
(** assembling.hpp l.462-473 [kernel_diag_block_A] *)
Definition kernel_diag_block_A (dm : dmda * dmda) (info : dmda_info) (matelem : list (nat * R)) (dec : Z) (pos : list Z) (A : list mentry) : outcome (list mentry) :=
  for_ (Z.to_nat (i_dof info)) (fun d A =>
    let ielem := get_indices info (px pos) (py pos) (Z.of_nat d + dec)%Z in
    MatSetValuesLocal dm ielem ielem matelem A) A.
(** l.518-526 [kernel_tensor_block_A] *)
Definition kernel_tensor_block_A (dm : dmda * dmda) (info : dmda_info) (matelem : list (nat * R)) (pos : list Z) (A : list mentry) : outcome (list mentry) :=
  let ielem := get_indices_tensor info (px pos) (py pos) in
  MatSetValuesLocal dm ielem ielem matelem A.
(** l.563-576 [kernel_off_diag_block_A] *)
Definition kernel_off_diag_block_A (dm : dmda * dmda) (dec : Z) (infov infop : dmda_info) (matelemB matelemBT : list (nat * R)) (pos : list Z) (A : list mentry) : outcome (list mentry) :=
  let ielem_p := get_indices infop (px pos) (py pos) dec in
  let ielem_v := get_indices_4Q1 infov (px pos) (py pos) in
  bind (MatSetValuesLocal dm ielem_p ielem_v matelemB A) (fun A =>
  MatSetValuesLocal dm ielem_v ielem_p matelemBT A).

(** l.475-491 [laplacian_assembling] on one process; h = (h0, h1) *)
Definition laplacian_assembling (h0 h1 : R) (dm : dmda * dmda) (A : list mentry) : outcome (list mentry) :=
  iterate_o (get_DM_bounds (fst dm) true) (kernel_diag_block_A dm (info_of (fst dm)) (getMatElemLaplacianA h0 h1) 0) A.
(** l.493-516 [mass_assembling]: on the pressure grid *)
Definition mass_assembling (h0 h1 : R) (dm : dmda * dmda) (A : list mentry) : outcome (list mentry) :=
  let dec := local_size (fst dm) in
  iterate_o (get_DM_bounds (snd dm) true) (kernel_diag_block_A dm (info_of (snd dm)) (getMatElemMassA h0 h1) dec) A.
(** l.528-540 [strain_tensor_assembling] *)
Definition strain_tensor_assembling (h0 h1 : R) (dm : dmda * dmda) (A : list mentry) : outcome (list mentry) :=
  iterate_o (get_DM_bounds (fst dm) true) (kernel_tensor_block_A dm (info_of (fst dm)) (getMatElemStrainTensorA h0 h1)) A.
(** l.542-561 [diagonal_assembling]: [value] is not used; [matelem.fill(0)] *)
Definition diagonal_assembling (value : R) (dm : dmda * dmda) (A : list mentry) : outcome (list mentry) :=
  let matelem := map (fun k => (k, 0%R)) (seq 0 16) in
  let dec := local_size (fst dm) in
  iterate_o (get_DM_bounds (snd dm) true) (kernel_diag_block_A dm (info_of (snd dm)) matelem dec) A.
(** l.578-603 [B_BT_assembling] *)
Definition B_BT_assembling (h0 h1 : R) (dm : dmda * dmda) (A : list mentry) : outcome (list mentry) :=
  let dec := local_size (fst dm) in
  iterate_o (get_DM_bounds (snd dm) true)
    (kernel_off_diag_block_A dm dec (info_of (fst dm)) (info_of (snd dm)) (getMatElemPressureA h0 h1) (getMatElemPressureAT h0 h1)) A.

(** every process adds its entries to the distributed matrix *)
Definition assemble (f : dmda * dmda -> list mentry -> outcome (list mentry)) (dms : list (dmda * dmda)) (A : list mentry) : outcome (list mentry) :=
  fold_left (fun o dm => bind o (f dm)) dms (Ok A).

(** MatMult on an assembled matrix: [x] and the result give the velocity ([false]) and
    pressure ([true]) values *)
Definition MatMult (A : list mentry) (x : bool -> field) : bool -> field :=
  fun b n c => fold_right Rplus 0%R (map (fun e : mentry =>
    if same_dof (fst (fst e)) (b, n, c) then (snd e * x (fst (fst (snd (fst e)))) (snd (fst (snd (fst e)))) (snd (snd (fst e))))%R else 0%R) A).

(** stokes.hpp l.246-272: the assembled Stokes matrix A and preconditioner P, before the
    boundary conditions *)
Definition stokes_A (strain_tensor : bool) (h0 h1 : R) (dms : list (dmda * dmda)) : outcome (list mentry) :=
  bind (assemble (if strain_tensor then strain_tensor_assembling h0 h1 else laplacian_assembling h0 h1) dms []) (fun A =>
  bind (assemble (B_BT_assembling h0 h1) dms A) (fun A =>
  assemble (diagonal_assembling 0) dms A)).
Definition stokes_P (strain_tensor : bool) (h0 h1 hp0 hp1 : R) (dms : list (dmda * dmda)) : outcome (list mentry) :=
  bind (assemble (if strain_tensor then strain_tensor_assembling h0 h1 else laplacian_assembling h0 h1) dms []) (fun A =>
  assemble (mass_assembling hp0 hp1) dms A).

(** ** bc.hpp l.182-289 [set_dirichlet_on_mat_impl] *)
(** [MatZeroRowsLocal(A, rows, 1.0)], collective: the rows named by any process are cleared and get a
    1 on the diagonal *)
Definition zero_rows (rows : list gdof) (A : list mentry) : list mentry :=
  filter (fun e : mentry => negb (existsb (same_dof (fst (fst e))) rows)) A ++
  map (fun r => (r, r, 1%R)) (fold_right (fun r acc => if existsb (same_dof r) acc then acc else r :: acc) [] rows).
(** the four local row lists of one process: left, right, bottom, top; [single] is size == 1.
    The list is empty ([nbcs = 0]) unless the side is a non-periodic border of the process. *)
Definition pairs (ids : list Z) : list Z := flat_map (fun k => [k; k + 1]%Z) ids.
Definition dirichlet_rows (single : bool) (dm : dmda) (side : nat) : list Z :=
  let info := info_of dm in
  let per d := nth d (g_per dm) false in
  let nx := if single then i_mx info else i_gxm info in
  let ny := if single then i_my info else i_gym info in
  let zs n := map Z.of_nat (seq 0 (Z.to_nat n)) in
  let left_id i := pairs (map (fun j => (i_dof info * (i + j * nx))%Z) (zs ny)) in
  let bottom_id j := pairs (map (fun i => (i_dof info * (i + j * nx))%Z) (zs nx)) in
  match side with
  | 0%nat => if negb (per 0%nat) && (i_xs info =? 0)%Z then left_id 0%Z else []
  | 1%nat => if negb (per 0%nat) && (i_xs info + i_xm info =? i_mx info)%Z
             then left_id (if single then i_mx info - 1 else i_gxm info - 1)%Z else []
  | 2%nat => if negb (per 1%nat) && (i_ys info =? 0)%Z then bottom_id 0%Z else []
  | _ => if negb (per 1%nat) && (i_ys info + i_ym info =? i_my info)%Z
         then bottom_id (if single then i_my info - 1 else i_gym info - 1)%Z else []
  end.
(** the buffers [bc_id1] (2*gym) and [bc_id2] (2*gxm) are written in full whether or not the
    rows are used: [2*ny] resp. [2*nx] entries *)
Definition buffers_ok (single : bool) (dm : dmda) : bool :=
  let info := info_of dm in
  let nx := if single then i_mx info else i_gxm info in
  let ny := if single then i_my info else i_gym info in
  (2 * ny <=? 2 * i_gym info)%Z && (2 * nx <=? 2 * i_gxm info)%Z.
Definition zero_rows_side (single : bool) (dms : list (dmda * dmda)) (side : nat) (A : list mentry) : outcome (list mentry) :=
  bind (on_all (fun dm => if buffers_ok single (fst dm) then on_all (ltog dm) (dirichlet_rows single (fst dm) side) else UB) dms) (fun rows =>
  Ok (zero_rows (concat rows) A)).
(** the argument [bc] of [SetDirichletOnMat] is not used *)
Definition SetDirichletOnMat (dms : list (dmda * dmda)) (A : list mentry) : outcome (list mentry) :=
  let single := Nat.eqb (length dms) 1 in
  bind (zero_rows_side single dms 0 A) (fun A =>
  bind (zero_rows_side single dms 1 A) (fun A =>
  bind (zero_rows_side single dms 2 A) (fun A =>
  zero_rows_side single dms 3 A))).
