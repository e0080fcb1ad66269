(** Model of cafes/petsc/vec.hpp, cafes/fem/operator.hpp and cafes/fem/matrixFree.hpp. *)
From Verif Require Import Base M_Geometry M_Particle M_Quadrature M_MatElem M_Mesh.

(** ** Vectors *)
(** Values of a nodal field: node (global indices), component. *)
Definition field := list Z -> nat -> R.
Definition zeros : field := fun _ _ => 0%R.

(** petsc_vec: the ghosted array [pv_] of one process, indexed by global node numbers
    (DMDAVecGetArrayDOF).  An access outside [lv_box] is out of bounds. *)
Record lvec := mklvec { lv_box : box Z; lv_dof : nat; lv_val : field }.

Definition same_node (p q : list Z) : bool := if list_eq_dec Z.eq_dec p q then true else false.
(** vec.hpp l.120-150 [at]: [pv_[j][i][d]]; reading, and [at(p)[d] += r] *)
Definition at_read (x : lvec) (p : list Z) (d : nat) : outcome R :=
  if point_inside Z.ltb (lv_box x) p then Ok (lv_val x p d) else UB.
Definition add_val (v : field) (p : list Z) (d : nat) (r : R) : field :=
  fun q c => if same_node p q && Nat.eqb d c then (v q c + r)%R else v q c.
Definition at_add (y : lvec) (p : list Z) (d : nat) (r : R) : outcome lvec :=
  if point_inside Z.ltb (lv_box y) p then Ok (mklvec (lv_box y) (lv_dof y) (add_val (lv_val y) p d r)) else UB.

(** [for (k=0; k<n; ++k) body] *)
Definition for_ {S} (n : nat) (body : nat -> S -> outcome S) (s : S) : outcome S :=
  fold_left (fun o k => bind o (body k)) (seq 0 n) (Ok s).

(** quadrature.hpp: overloads of [get_element], [get_element_4Q1] *)
Definition get_element (pos : list Z) : list (list Z) :=
  match pos with
  | [i; j] => get_element2 i j
  | [i; j; k] => get_element3 i j k
  | _ => []
  end.
Definition get_element_4Q1 (pos : list Z) : list (list Z) :=
  match pos with
  | [i; j] => get_element_4Q1_2 i j
  | [i; j; k] => get_element_4Q1_3 i j k
  | _ => []
  end.

(** ** Kernels (operator.hpp) *)
(** l.48-68 [kernel_diag_block] *)
Definition kernel_diag_block (M : nat -> nat -> R) (x : lvec) (pos : list Z) (y : lvec) : outcome lvec :=
  let ielem := get_element pos in
  let nbasis := length ielem in
  for_ nbasis (fun k1 y =>
  for_ nbasis (fun k2 y =>
  for_ (lv_dof x) (fun d y =>
    bind (at_read x (nth k2 ielem []) d) (fun ux =>
    at_add y (nth k1 ielem []) d (ux * M k1 k2)%R)) y) y) y.

(** l.70-93 [kernel_tensor_block] *)
Definition kernel_tensor_block (M : nat -> nat -> nat -> nat -> R) (x : lvec) (pos : list Z) (y : lvec) : outcome lvec :=
  let ielem := get_element pos in
  let nbasis := length ielem in
  for_ nbasis (fun k1 y =>
  for_ nbasis (fun k2 y =>
  for_ (lv_dof x) (fun d1 y =>
  for_ (lv_dof x) (fun d2 y =>
    bind (at_read x (nth k2 ielem []) d2) (fun ux =>
    at_add y (nth k1 ielem []) d1 (ux * M k1 k2 d1 d2)%R)) y) y) y) y.

(** l.95-110 [kernel_diag_diag_block] *)
Definition kernel_diag_diag_block (M : nat -> nat -> R) (pos : list Z) (x : lvec) : outcome lvec :=
  let ielem := get_element pos in
  let nbasis := length ielem in
  for_ nbasis (fun ie x =>
  for_ (lv_dof x) (fun d x => at_add x (nth ie ielem []) d (M ie ie)) x) x.

(** l.112-138 [kernel_off_diag_block]; state (y1, y2) *)
Definition kernel_off_diag_block (M : nat -> nat -> nat -> R) (x1 x2 : lvec) (pos : list Z) (y : lvec * lvec) : outcome (lvec * lvec) :=
  let ielem_p := get_element pos in
  let ielem_v := get_element_4Q1 pos in
  for_ (length ielem_v) (fun ie_v y =>
  for_ (length ielem_p) (fun ie_p y =>
  for_ (lv_dof x1) (fun d y =>
    bind (at_read x1 (nth ie_v ielem_v []) d) (fun ux =>
    bind (at_add (snd y) (nth ie_p ielem_p []) 0 (ux * M ie_p ie_v d)%R) (fun y2 =>
    bind (at_read x2 (nth ie_p ielem_p []) 0) (fun uxp =>
    bind (at_add (fst y) (nth ie_v ielem_v []) d (- (uxp * M ie_p ie_v d))%R) (fun y1 =>
    Ok (y1, y2)))))) y) y) y.

(** algorithm::iterate with a callback that may fail *)
Definition iterate_o {S} (b : box Z) (f : list Z -> S -> outcome S) (s : S) : outcome S :=
  run_iterate b (fun p o => bind o (f p)) (Ok s).

(** l.140-193 [diag_block_mult], [diag_diag_block_mult], [off_diag_block_mult] *)
Definition diag_block_mult (kernel : lvec -> list Z -> lvec -> outcome lvec) (dm : dmda) (x y : lvec) : outcome lvec :=
  iterate_o (get_DM_bounds dm true) (kernel x) y.
Definition diag_diag_block_mult (kernel : list Z -> lvec -> outcome lvec) (dm : dmda) (x : lvec) : outcome lvec :=
  iterate_o (get_DM_bounds dm true) kernel x.
Definition off_diag_block_mult (kernel : lvec -> lvec -> list Z -> lvec * lvec -> outcome (lvec * lvec))
    (dmp : dmda) (x1 x2 : lvec) (y : lvec * lvec) : outcome (lvec * lvec) :=
  iterate_o (get_DM_bounds dmp true) (kernel x1 x2) y.

(** Overloads on the dimension: [h] is std::array<double,2> or <double,3>. *)
Definition getMatElemLaplacian (h : list R) : nat -> nat -> R :=
  match h with
  | [h0; h1] => getMatElemLaplacian2 h0 h1
  | [h0; h1; h2] => getMatElemLaplacian3 h0 h1 h2
  | _ => fun _ _ => 0%R
  end.
Definition getMatElemMass (h : list R) : nat -> nat -> R :=
  match h with
  | [h0; h1] => getMatElemMass2 h0 h1
  | [h0; h1; h2] => getMatElemMass3 h0 h1 h2
  | _ => fun _ _ => 0%R
  end.
Definition getMatElemStrainTensor (h : list R) : nat -> nat -> nat -> nat -> R :=
  match h with
  | [h0; h1] => getMatElemStrainTensor2 h0 h1
  | [h0; h1; h2] => getMatElemStrainTensor3 h0 h1 h2
  | _ => fun _ _ _ _ => 0%R
  end.
Definition getMatElemPressure (h : list R) : nat -> nat -> nat -> R :=
  match h with
  | [h0; h1] => getMatElemPressure2 h0 h1
  | [h0; h1; h2] => getMatElemPressure3 h0 h1 h2
  | _ => fun _ _ _ => 0%R
  end.

(** l.195-296 [laplacian_mult], [diag_laplacian_mult], [mass_mult], [diag_mass_mult],
    [strain_tensor_mult], [B_and_BT_mult] *)
Definition laplacian_mult (h : list R) := diag_block_mult (kernel_diag_block (getMatElemLaplacian h)).
Definition mass_mult (h : list R) := diag_block_mult (kernel_diag_block (getMatElemMass h)).
Definition strain_tensor_mult (h : list R) := diag_block_mult (kernel_tensor_block (getMatElemStrainTensor h)).
Definition diag_laplacian_mult (h : list R) := diag_diag_block_mult (kernel_diag_diag_block (getMatElemLaplacian h)).
Definition diag_mass_mult (h : list R) := diag_diag_block_mult (kernel_diag_diag_block (getMatElemMass h)).
Definition B_and_BT_mult (h : list R) := off_diag_block_mult (kernel_off_diag_block (getMatElemPressure h)).

(** ** Communication (PETSc's contract, vec.hpp l.168-189) *)
(** the global node a ghosted node index stands for *)
Fixpoint wrap (m : list Z) (per : list bool) (p : list Z) : list Z :=
  match m, per, p with
  | n :: m', b :: per', a :: p' => (if b then a mod n else a)%Z :: wrap m' per' p'
  | _, _, _ => []
  end.
(** [global_to_local(INSERT_VALUES)] *)
Definition global_to_local (dm : dmda) (g : field) : lvec :=
  mklvec (g_ghost dm) (g_dof dm) (fun p d => g (wrap (g_size dm) (g_per dm) p) d).
(** [fill(0)] on the ghosted vector *)
Definition fill0 (dm : dmda) : lvec := mklvec (g_ghost dm) (g_dof dm) zeros.
(** all the integer points of a box, for sums over stored entries *)
Fixpoint points_of (lo up : list Z) : list (list Z) :=
  match lo, up with
  | a :: lo', b :: up' =>
      flat_map (fun t => map (fun i => (a + Z.of_nat i)%Z :: t) (seq 0 (Z.to_nat (b - a)))) (points_of lo' up')
  | _, _ => [[]]
  end.
Definition box_points_list (b : box Z) : list (list Z) := points_of (bottom_left b) (upper_right b).
(** [local_to_global(ADD_VALUES)]: every ghosted entry of every process is added to the
    global entry of the node it stands for *)
Definition local_to_global_add (dms : list dmda) (ls : list lvec) (g : field) : field :=
  fun n d => (g n d + fold_right Rplus 0 (map (fun dl : dmda * lvec =>
    fold_right Rplus 0 (map (fun q => if same_node (wrap (g_size (fst dl)) (g_per (fst dl)) q) n then lv_val (snd dl) q d else 0)
      (box_points_list (lv_box (snd dl))))) (combine dms ls)))%R.

(** every process runs [f] on its own data; any failure is a failure of the run *)
Fixpoint on_all {A B} (f : A -> outcome B) (l : list A) : outcome (list B) :=
  match l with
  | [] => Ok []
  | a :: t => bind (f a) (fun b => bind (on_all f t) (fun bs => Ok (b :: bs)))
  end.

(** matrixFree.hpp l.44-73 [diag_block_matrix] before the boundary conditions: [apply] is the
    operator given in the context *)
Definition diag_block_matrix_raw (apply : dmda -> lvec -> lvec -> outcome lvec) (dms : list dmda) (x : field) : outcome field :=
  bind (on_all (fun dm => apply dm (global_to_local dm x) (fill0 dm)) dms) (fun ys =>
  Ok (local_to_global_add dms ys zeros)).

(** l.127-155 [diag_diag_block_matrix]: the diagonal *)
Definition diag_diag_block_matrix (apply_diag : dmda -> lvec -> outcome lvec) (dms : list dmda) : outcome field :=
  bind (on_all (fun dm => apply_diag dm (fill0 dm)) dms) (fun ys =>
  Ok (local_to_global_add dms ys zeros)).

(** l.195-237 [stokes_matrix] before the boundary conditions; one pair (velocity,
    pressure) of DMs per process *)
Definition stokes_matrix_raw (apply : dmda -> lvec -> lvec -> outcome lvec) (h : list R)
    (dms : list (dmda * dmda)) (xv xp : field) : outcome (field * field) :=
  bind (on_all (fun dm : dmda * dmda =>
    let '(dv, dp) := dm in
    bind (apply dv (global_to_local dv xv) (fill0 dv)) (fun yv =>
    B_and_BT_mult h dp (global_to_local dv xv) (global_to_local dp xp) (yv, fill0 dp))) dms) (fun ys =>
  Ok (local_to_global_add (map fst dms) (map fst ys) zeros, local_to_global_add (map snd dms) (map snd ys) zeros)).

(** l.84-125 [diag_block_matrix] for a composite of two grids (velocity h[0], pressure
    h[1]) and l.271-294 [apply_mass_matrix]: [hp] is a copy of [h]; the lambda
    [\[\](auto x){ x *= 2; }] takes its argument by value, so [hp] stays equal to [h]. *)
Definition apply_mass_matrix (h : list R) (dms : list (dmda * dmda)) (xv xp : field) : outcome (field * field) :=
  let hp := map (fun x => x) h in
  bind (diag_block_matrix_raw (mass_mult h) (map fst dms) xv) (fun yv =>
  bind (diag_block_matrix_raw (mass_mult hp) (map snd dms) xp) (fun yp => Ok (yv, yp))).
