(** Model of cafes/fem/operator.hpp, matElem.hpp and matrixFree.hpp in the arithmetic of IEEE doubles. *)
From Coq Require Import Permutation QArith.
From Flocq Require Import BinarySingleNaN.
From Verif Require Import Base M_Geometry M_Particle M_Quadrature M_MatElem M_Mesh M_Operator.
From Verif Require Import M_Double.

(** ** Vectors of doubles (vec.hpp), as [lvec] of M_Operator *)
Definition dfield := list Z -> nat -> double.
Record dlvec := mkdlvec { dl_box : box Z; dl_dof : nat; dl_val : dfield }.
(** vec.hpp l.120-150 [at]: reading, and the update [at(p)[d] = f(at(p)[d])] *)
Definition dat_read (x : dlvec) (p : list Z) (d : nat) : outcome double :=
  if point_inside Z.ltb (dl_box x) p then Ok (dl_val x p d) else UB.
Definition upd_val (v : dfield) (p : list Z) (d : nat) (f : double -> double) : dfield :=
  fun q c => if same_node p q && Nat.eqb d c then f (v q c) else v q c.
Definition dat_upd (y : dlvec) (p : list Z) (d : nat) (f : double -> double) : outcome dlvec :=
  if point_inside Z.ltb (dl_box y) p then Ok (mkdlvec (dl_box y) (dl_dof y) (upd_val (dl_val y) p d f)) else UB.

(** ** Kernels (operator.hpp) *)
(** l.48-68 [kernel_diag_block]: [uy[d] += ux[d] * matelem[k1][k2]] is a rounded product
    followed by a rounded sum (no contraction into a fused multiply-add is modelled) *)
Definition dkernel_diag_block (M : nat -> nat -> double) (x : dlvec) (pos : list Z) (y : dlvec) : outcome dlvec :=
  let ielem := get_element pos in
  let nbasis := length ielem in
  for_ nbasis (fun k1 y =>
  for_ nbasis (fun k2 y =>
  for_ (dl_dof x) (fun d y =>
    bind (dat_read x (nth k2 ielem []) d) (fun ux =>
    dat_upd y (nth k1 ielem []) d (fun uy => dplus uy (dmult ux (M k1 k2))))) y) y) y.
(** l.70-93 [kernel_tensor_block] *)
Definition dkernel_tensor_block (M : nat -> nat -> nat -> nat -> double) (x : dlvec) (pos : list Z) (y : dlvec) : outcome dlvec :=
  let ielem := get_element pos in
  let nbasis := length ielem in
  for_ nbasis (fun k1 y =>
  for_ nbasis (fun k2 y =>
  for_ (dl_dof x) (fun d1 y =>
  for_ (dl_dof x) (fun d2 y =>
    bind (dat_read x (nth k2 ielem []) d2) (fun ux =>
    dat_upd y (nth k1 ielem []) d1 (fun uy => dplus uy (dmult ux (M k1 k2 d1 d2))))) y) y) y) y.
(** l.95-110 [kernel_diag_diag_block] *)
Definition dkernel_diag_diag_block (M : nat -> nat -> double) (pos : list Z) (x : dlvec) : outcome dlvec :=
  let ielem := get_element pos in
  let nbasis := length ielem in
  for_ nbasis (fun ie x =>
  for_ (dl_dof x) (fun d x => dat_upd x (nth ie ielem []) d (fun u => dplus u (M ie ie))) x) x.
(** l.112-138 [kernel_off_diag_block]; state (y1, y2) *)
Definition dkernel_off_diag_block (M : nat -> nat -> nat -> double) (x1 x2 : dlvec) (pos : list Z) (y : dlvec * dlvec) : outcome (dlvec * dlvec) :=
  let ielem_p := get_element pos in
  let ielem_v := get_element_4Q1 pos in
  for_ (length ielem_v) (fun ie_v y =>
  for_ (length ielem_p) (fun ie_p y =>
  for_ (dl_dof x1) (fun d y =>
    bind (dat_read x1 (nth ie_v ielem_v []) d) (fun ux =>
    bind (dat_upd (snd y) (nth ie_p ielem_p []) 0 (fun uyp => dplus uyp (dmult ux (M ie_p ie_v d)))) (fun y2 =>
    bind (dat_read x2 (nth ie_p ielem_p []) 0) (fun uxp =>
    bind (dat_upd (fst y) (nth ie_v ielem_v []) d (fun uy => dminus uy (dmult uxp (M ie_p ie_v d)))) (fun y1 =>
    Ok (y1, y2)))))) y) y) y.

(** l.140-193 [diag_block_mult], [diag_diag_block_mult], [off_diag_block_mult] *)
Definition ddiag_block_mult (kernel : dlvec -> list Z -> dlvec -> outcome dlvec) (dm : dmda) (x y : dlvec) : outcome dlvec :=
  iterate_o (get_DM_bounds dm true) (kernel x) y.
Definition ddiag_diag_block_mult (kernel : list Z -> dlvec -> outcome dlvec) (dm : dmda) (x : dlvec) : outcome dlvec :=
  iterate_o (get_DM_bounds dm true) kernel x.
Definition doff_diag_block_mult (kernel : dlvec -> dlvec -> list Z -> dlvec * dlvec -> outcome (dlvec * dlvec))
    (dmp : dmda) (x1 x2 : dlvec) (y : dlvec * dlvec) : outcome (dlvec * dlvec) :=
  iterate_o (get_DM_bounds dmp true) (kernel x1 x2) y.

(** ** Communication (vec.hpp l.168-189) *)
(** [global_to_local(INSERT_VALUES)]: copies, no rounding *)
Definition dglobal_to_local (dm : dmda) (g : dfield) : dlvec :=
  mkdlvec (g_ghost dm) (g_dof dm) (fun p d => g (wrap (g_size dm) (g_per dm) p) d).
(** [fill(0)] *)
Definition dfill0 (dm : dmda) : dlvec := mkdlvec (g_ghost dm) (g_dof dm) (fun _ _ => dzero).
(** [summed l v]: v is a value that the additions of the doubles of l can give, for some
    order and some grouping of the additions.  MPI and PETSc promise no order. *)
Inductive summed : list double -> double -> Prop :=
| summed_one v : summed [v] v
| summed_add l1 l2 v1 v2 : summed l1 v1 -> summed l2 v2 -> summed (l1 ++ l2) (dplus v1 v2)
| summed_perm l l' v : Permutation l l' -> summed l v -> summed l' v.
(** the entries that [local_to_global(ADD_VALUES)] adds to component d of the global node n *)
Definition l2g_entries (dms : list dmda) (ls : list dlvec) (n : list Z) (d : nat) : list double :=
  flat_map (fun dl : dmda * dlvec => flat_map (fun q => if same_node (wrap (g_size (fst dl)) (g_per (fst dl)) q) n then [dl_val (snd dl) q d] else [])
      (box_points_list (dl_box (snd dl)))) (combine dms ls).
(** [VecSet(y, 0)] and [local_to_global(ADD_VALUES)], for one entry of the result *)
Definition dlocal_to_global (dms : list dmda) (ls : list dlvec) (n : list Z) (d : nat) (v : double) : Prop :=
  summed (dzero :: l2g_entries dms ls n d) v.

(** matrixFree.hpp l.44-73 [diag_block_matrix] before the boundary conditions: Y is a result *)
Definition ddiag_block_matrix_raw (apply : dmda -> dlvec -> dlvec -> outcome dlvec) (dms : list dmda) (x Y : dfield) : Prop :=
  exists ys, on_all (fun dm => apply dm (dglobal_to_local dm x) (dfill0 dm)) dms = Ok ys /\
  forall n d, dlocal_to_global dms ys n d (Y n d).
(** l.127-155 [diag_diag_block_matrix] *)
Definition ddiag_diag_block_matrix (apply_diag : dmda -> dlvec -> outcome dlvec) (dms : list dmda) (Y : dfield) : Prop :=
  exists ys, on_all (fun dm => apply_diag dm (dfill0 dm)) dms = Ok ys /\
  forall n d, dlocal_to_global dms ys n d (Y n d).
(** l.195-237 [stokes_matrix] before the boundary conditions; [M] is the element matrix of the pressure *)
Definition dstokes_matrix_raw (apply : dmda -> dlvec -> dlvec -> outcome dlvec) (M : nat -> nat -> nat -> double)
    (dms : list (dmda * dmda)) (xv xp Yv Yp : dfield) : Prop :=
  exists ys, on_all (fun dm : dmda * dmda =>
    let '(dv, dp) := dm in
    bind (apply dv (dglobal_to_local dv xv) (dfill0 dv)) (fun yv =>
    doff_diag_block_mult (dkernel_off_diag_block M) dp (dglobal_to_local dv xv) (dglobal_to_local dp xp) (yv, dfill0 dp))) dms = Ok ys /\
  (forall n d, dlocal_to_global (map fst dms) (map fst ys) n d (Yv n d)) /\
  (forall n d, dlocal_to_global (map snd dms) (map snd ys) n d (Yp n d)).

(** ** Element matrices (matElem.hpp) *)
(** an entry [1. / 3], [-15. / 48] of a table is the rounded quotient of two integers *)
Definition dentry (T : list (list Q)) (i j : nat) : double :=
  let q := nth j (nth i T []) 0%Q in ddiv (dint (Qnum q)) (dint (Zpos (Qden q))).
(** l.334-345 [getMatElemLaplacian], 2D *)
Definition dMatElemLaplacian2 (h0 h1 : double) (i j : nat) : double :=
  let hxy := ddiv h0 h1 in let hyx := ddiv h1 h0 in
  dplus (dmult hyx (dentry matElem2d_dxudxu_q i j)) (dmult hxy (dentry matElem2d_dyudyu_q i j)).
(** l.456-465 [getMatElemMass], 2D *)
Definition dMatElemMass2 (h0 h1 : double) (i j : nat) : double := dmult (dmult h0 h1) (dentry matElemMass2d_q i j).
(** l.360-382 [getMatElemStrainTensor], 2D *)
Definition dMatElemStrainTensor2 (h0 h1 : double) (i j a b : nat) : double :=
  let hxy := ddiv h0 h1 in let hyx := ddiv h1 h0 in
  match a, b with
  | 0%nat, 0%nat => dplus (dmult (dmult (dint 2) hyx) (dentry matElem2d_dxudxu_q i j)) (dmult hxy (dentry matElem2d_dyudyu_q i j))
  | 0%nat, 1%nat => dentry matElem2d_dxudyu_q i j
  | 1%nat, 0%nat => dentry matElem2d_dxudyu_q j i
  | _, _ => dplus (dmult hyx (dentry matElem2d_dxudxu_q i j)) (dmult (dmult (dint 2) hxy) (dentry matElem2d_dyudyu_q i j))
  end.
(** l.405-420 [getMatElemPressure], 2D *)
Definition dMatElemPressure2 (h0 h1 : double) (i j d : nat) : double :=
  match d with
  | 0%nat => dmult (Bopp h1) (dentry matElem2d_pdxu_q i j)
  | _ => dmult (Bopp h0) (dentry matElem2d_pdyu_q i j)
  end.
(** l.478-490 [getMatElemLaplacian], 3D: [hyz / h[0] * t] is a quotient, then a product; the two sums associate to the left *)
Definition dMatElemLaplacian3 (h0 h1 h2 : double) (i j : nat) : double :=
  let hxy := dmult h0 h1 in let hxz := dmult h0 h2 in let hyz := dmult h1 h2 in
  dplus (dplus (dmult (ddiv hyz h0) (dentry matElem3d_dxudxu_q i j)) (dmult (ddiv hxz h1) (dentry matElem3d_dyudyu_q i j)))
    (dmult (ddiv hxy h2) (dentry matElem3d_dzudzu_q i j)).
(** l.492-525 [getMatElemStrainTensor], 3D: [2 * hyz / h[0] * t] is ((2 hyz) / h[0]) t *)
Definition dMatElemStrainTensor3 (h0 h1 h2 : double) (i j a b : nat) : double :=
  let hxy := dmult h0 h1 in let hxz := dmult h0 h2 in let hyz := dmult h1 h2 in
  let once s h t := dmult (ddiv s h) (dentry t i j) in
  let twice s h t := dmult (ddiv (dmult (dint 2) s) h) (dentry t i j) in
  match a, b with
  | 0%nat, 0%nat => dplus (dplus (twice hyz h0 matElem3d_dxudxu_q) (once hxz h1 matElem3d_dyudyu_q)) (once hxy h2 matElem3d_dzudzu_q)
  | 1%nat, 1%nat => dplus (dplus (once hyz h0 matElem3d_dxudxu_q) (twice hxz h1 matElem3d_dyudyu_q)) (once hxy h2 matElem3d_dzudzu_q)
  | 0%nat, 1%nat => dmult h2 (dentry matElem3d_dxudyu_q i j)
  | 0%nat, 2%nat => dmult h1 (dentry matElem3d_dxudzu_q i j)
  | 1%nat, 2%nat => dmult h0 (dentry matElem3d_dyudzu_q i j)
  | 1%nat, 0%nat => dmult h2 (dentry matElem3d_dxudyu_q j i)
  | 2%nat, 0%nat => dmult h1 (dentry matElem3d_dxudzu_q j i)
  | 2%nat, 1%nat => dmult h0 (dentry matElem3d_dyudzu_q j i)
  | _, _ => dplus (dplus (once hyz h0 matElem3d_dxudxu_q) (once hxz h1 matElem3d_dyudyu_q)) (twice hxy h2 matElem3d_dzudzu_q)
  end.
(** l.527-542 [getMatElemPressure], 3D: [-h[1] * h[2] * t] is ((-h[1]) h[2]) t *)
Definition dMatElemPressure3 (h0 h1 h2 : double) (i j d : nat) : double :=
  match d with
  | 0%nat => dmult (dmult (Bopp h1) h2) (dentry matElem3d_pdxu_q i j)
  | 1%nat => dmult (dmult (Bopp h0) h2) (dentry matElem3d_pdyu_q i j)
  | _ => dmult (dmult (Bopp h0) h1) (dentry matElem3d_pdzu_q i j)
  end.
(** l.544-553 [getMatElemMass], 3D *)
Definition dMatElemMass3 (h0 h1 h2 : double) (i j : nat) : double := dmult (dmult (dmult h0 h1) h2) (dentry matElemMass3d_q i j).

(** Overloads on the dimension, as in M_Operator *)
Definition dMatElemLaplacian (h : list double) : nat -> nat -> double :=
  match h with [h0; h1] => dMatElemLaplacian2 h0 h1 | [h0; h1; h2] => dMatElemLaplacian3 h0 h1 h2 | _ => fun _ _ => dzero end.
Definition dMatElemMass (h : list double) : nat -> nat -> double :=
  match h with [h0; h1] => dMatElemMass2 h0 h1 | [h0; h1; h2] => dMatElemMass3 h0 h1 h2 | _ => fun _ _ => dzero end.
Definition dMatElemStrainTensor (h : list double) : nat -> nat -> nat -> nat -> double :=
  match h with [h0; h1] => dMatElemStrainTensor2 h0 h1 | [h0; h1; h2] => dMatElemStrainTensor3 h0 h1 h2 | _ => fun _ _ _ _ => dzero end.
Definition dMatElemPressure (h : list double) : nat -> nat -> nat -> double :=
  match h with [h0; h1] => dMatElemPressure2 h0 h1 | [h0; h1; h2] => dMatElemPressure3 h0 h1 h2 | _ => fun _ _ _ => dzero end.
(** operator.hpp l.195-290: [laplacian_mult], [mass_mult], [strain_tensor_mult], and the diagonals *)
Definition dlaplacian_mult (h : list double) := ddiag_block_mult (dkernel_diag_block (dMatElemLaplacian h)).
Definition dmass_mult (h : list double) := ddiag_block_mult (dkernel_diag_block (dMatElemMass h)).
Definition dstrain_tensor_mult (h : list double) := ddiag_block_mult (dkernel_tensor_block (dMatElemStrainTensor h)).
Definition ddiag_laplacian_mult (h : list double) := ddiag_diag_block_mult (dkernel_diag_diag_block (dMatElemLaplacian h)).
Definition ddiag_mass_mult (h : list double) := ddiag_diag_block_mult (dkernel_diag_diag_block (dMatElemMass h)).
