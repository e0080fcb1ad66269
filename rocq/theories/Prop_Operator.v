(** Properties C24, C25, C27-C31, C45, C47, C49, C55: meshes, matrix-free operators,
    boundary conditions, right-hand side. *)
From Coquelicot Require Import Coquelicot.
From Verif Require Import Base M_Geometry S_Geometry P_Geometry M_Particle S_Particle P_Particle M_Quadrature S_Fem M_MatElem P_MatElem P_Energy M_Mesh M_Operator M_Bc S_Operator S_Bc P_Mesh P_Operator P_Operator2 P_Global P_CreateMesh P_Stokes P_Operator3 P_Bc P_Diag.
Open Scope R_scope.

(** ** C28: createMesh *)
(** For every number of points, periodicity and every way PETSc may cut the pressure grid:
    the velocity grid has 2n-1 points per axis (2(n-1) when periodic), both grids are
    partitioned over the processes, and each process' velocity block is its pressure block
    refined. *)
Theorem C28_createMesh_layout : forall npoints period ls,
  length period = length npoints -> ranges_ok (mesh_pres npoints period) ls ->
  stokes_layout (mesh_pres npoints period) period (length npoints) (createMesh npoints period ls).
Proof. exact createMesh_layout. Qed.
Theorem C28_sizes : forall npoints period i n p,
  nth_error npoints i = Some n -> nth_error period i = Some p ->
  nth_error (mesh_pres npoints period) i = Some (if p then n - 1 else n)%Z /\
  nth_error (mesh_vel npoints period) i = Some (if p then 2 * n - 2 else 2 * n - 1)%Z.
Proof.
  unfold mesh_pres, mesh_vel. induction npoints as [|a l IH]; intros [|b per] [|i] n p H1 H2; simpl in H1, H2; try discriminate.
  - injection H1 as <-. injection H2 as <-. cbn [zip_with nth_error]. destruct b; split; f_equal; lia.
  - cbn [zip_with nth_error]. eapply IH; eauto.
Qed.
(** the ownership ranges given to PETSc for the velocity grid sum to its size *)
Theorem C28_ranges_sum : forall period lx, lx <> [] -> zsum (set_lxu period lx) = (if period then 2 * zsum lx else 2 * zsum lx - 1)%Z.
Proof. exact set_lxu_sum. Qed.
(** [createLaplacianMesh]: n points per axis (n - 1 when periodic), one unknown per point, every
    point on exactly one process *)
Theorem C28_createLaplacianMesh_layout : forall npoints period ls m,
  length period = length npoints ->
  m = zip_with (fun n (p : bool) => if p then n - 1 else n)%Z npoints period -> ranges_ok m ls ->
  distributes m period 1 (createLaplacianMesh npoints period ls).
Proof.
  intros npoints period ls m HL -> HR. unfold createLaplacianMesh.
  replace (mesh_laplacian npoints period) with (zip_with (fun n (p : bool) => if p then n - 1 else n)%Z npoints period) by reflexivity.
  apply own_distributes.
  - clear -HR; induction HR as [|? ? ? ? [? _]]; simpl; congruence.
  - clear -HR. induction HR as [|? ? ? ? (_ & _ & H)]; constructor; auto. eapply Forall_impl; [|exact H]; simpl; lia.
Qed.
Print Assumptions C28_createLaplacianMesh_layout.
Example C28_laplacian_example : (exists a b c d, createLaplacianMesh [5; 4]%Z [true; false] [[2; 2]; [1; 3]]%Z = [a; b; c; d]) /\
  ranges_ok [4; 4]%Z [[2; 2]; [1; 3]]%Z.
Proof. split; [do 4 eexists; reflexivity|]. repeat constructor; try discriminate; try reflexivity; lia. Qed.
(** every velocity node of a pressure element of a process is in its ghosted velocity
    block, and every pressure node in its ghosted pressure block *)
Theorem C28_element_nodes_are_local : forall mp per dof dms dv dp e p,
  grid_ok mp per -> stokes_layout mp per dof dms -> In (dv, dp) dms -> in_grid_box (get_DM_bounds dp true) e ->
  (In p (get_element_4Q1 e) -> in_grid_box (g_ghost dv) p) /\ (In p (get_element e) -> in_grid_box (g_ghost dp) p).
Proof.
  intros mp per dof dms dv dp e p HG HS Hin He. split; intros Hp.
  - eapply (v_in_ghost mp per dof dms HG HS (dv, dp) e); auto. apply get_element_4Q1_near, Hp.
  - eapply (p_in_ghost mp per dof dms HG HS (dv, dp) e); auto. apply get_element_near, Hp.
Qed.

(** ** C29 *)
Theorem C29_elements_partitioned : forall m per dof dms, length per = length m -> distributes m per dof dms ->
  tiling (map (fun dm => get_DM_bounds dm true) dms) (cells_box m per).
Proof. exact element_boxes_tile. Qed.

(** ** C25: same result for every distribution over processes, and it is always defined *)
Theorem C25_laplacian : forall h m per dof dms dms' x, grid_ok m per -> distributes m per dof dms -> distributes m per dof dms' ->
  exists y y', diag_block_matrix_raw (laplacian_mult h) dms x = Ok y /\ diag_block_matrix_raw (laplacian_mult h) dms' x = Ok y' /\ same_field m dof y y'.
Proof. intros. eapply rep_layout; eauto. apply rep_diag; auto. Qed.
Theorem C25_mass : forall h m per dof dms dms' x, grid_ok m per -> distributes m per dof dms -> distributes m per dof dms' ->
  exists y y', diag_block_matrix_raw (mass_mult h) dms x = Ok y /\ diag_block_matrix_raw (mass_mult h) dms' x = Ok y' /\ same_field m dof y y'.
Proof. intros. eapply rep_layout; eauto. apply rep_diag; auto. Qed.
Theorem C25_strain : forall h m per dof dms dms' x, grid_ok m per -> distributes m per dof dms -> distributes m per dof dms' ->
  exists y y', diag_block_matrix_raw (strain_tensor_mult h) dms x = Ok y /\ diag_block_matrix_raw (strain_tensor_mult h) dms' x = Ok y' /\ same_field m dof y y'.
Proof. intros. eapply rep_layout; eauto. apply rep_tens; auto. Qed.
(** what the result is: the sum over the cells, in any order [E], of the element matrices *)
Theorem C25_laplacian_is_assembled : forall h m per dof dms x, grid_ok m per -> distributes m per dof dms ->
  exists y, diag_block_matrix_raw (laplacian_mult h) dms x = Ok y /\
    forall N E, enumerates N (nodes_box m) -> enumerates E (cells_box m per) -> forall v, inner N dof y v = scalar_form m per E dof (getMatElemLaplacian h) v x.
Proof. intros. apply rep_diag; auto. Qed.
Theorem C25_mass_is_assembled : forall h m per dof dms x, grid_ok m per -> distributes m per dof dms ->
  exists y, diag_block_matrix_raw (mass_mult h) dms x = Ok y /\
    forall N E, enumerates N (nodes_box m) -> enumerates E (cells_box m per) -> forall v, inner N dof y v = scalar_form m per E dof (getMatElemMass h) v x.
Proof. intros. apply rep_diag; auto. Qed.
Theorem C25_strain_is_assembled : forall h m per dof dms x, grid_ok m per -> distributes m per dof dms ->
  exists y, diag_block_matrix_raw (strain_tensor_mult h) dms x = Ok y /\
    forall N E, enumerates N (nodes_box m) -> enumerates E (cells_box m per) -> forall v, inner N dof y v = tensor_form m per E dof (getMatElemStrainTensor h) v x.
Proof. intros. apply rep_tens; auto. Qed.

(** Stokes: weak form, with either viscous operator *)
Lemma stokes_rep_lap h mp per dof dms xv xp : grid_ok mp per -> stokes_layout mp per dof dms ->
  exists yv yp, stokes_matrix_raw (laplacian_mult h) h dms xv xp = Ok (yv, yp) /\
    forall Nv Np Ev Ep, enumerates Nv (nodes_box (refined_size mp per)) -> enumerates Np (nodes_box mp) -> enumerates Ev (cells_box (refined_size mp per) per) -> enumerates Ep (cells_box mp per) ->
      (forall v, inner Nv dof yv v = scalar_form (refined_size mp per) per Ev dof (getMatElemLaplacian h) v xv - div_form (refined_size mp per) mp per Ep dof (getMatElemPressure h) xp v) /\
      (forall q, inner Np 1 yp q = div_form (refined_size mp per) mp per Ep dof (getMatElemPressure h) q xv).
Proof.
  intros HG HS. pose proof (refined_grid mp per HG) as HGv.
  destruct (stokes_weak mp per dof dms HG HS xv xp (getMatElemPressure h) (laplacian_mult h) (diag_c (refined_size mp per) per dof xv (getMatElemLaplacian h))) with (h := h) as (yv & yp & E & W); auto.
  - intros dv Hdv y0. apply (diag_runs _ per dof (map fst dms)); auto. apply HS.
  - intros e. apply diag_near; auto.
  - exists yv, yp. split; [exact E|]. intros Nv Np Ev Ep H1 H2 H3 H4. destruct (W Nv Np Ev Ep H1 H2 H3 H4) as [W1 W2]. split; [|exact W2].
    intros v. rewrite W1. f_equal. unfold scalar_form. apply Lsum_ext. intros e He. apply H3 in He.
    exact (diag_elem_sum _ per dof HGv xv (getMatElemLaplacian h) e (fun p d => v (wrap (refined_size mp per) per p) d) He).
Qed.
Lemma stokes_rep_strain h mp per dof dms xv xp : grid_ok mp per -> stokes_layout mp per dof dms ->
  exists yv yp, stokes_matrix_raw (strain_tensor_mult h) h dms xv xp = Ok (yv, yp) /\
    forall Nv Np Ev Ep, enumerates Nv (nodes_box (refined_size mp per)) -> enumerates Np (nodes_box mp) -> enumerates Ev (cells_box (refined_size mp per) per) -> enumerates Ep (cells_box mp per) ->
      (forall v, inner Nv dof yv v = tensor_form (refined_size mp per) per Ev dof (getMatElemStrainTensor h) v xv - div_form (refined_size mp per) mp per Ep dof (getMatElemPressure h) xp v) /\
      (forall q, inner Np 1 yp q = div_form (refined_size mp per) mp per Ep dof (getMatElemPressure h) q xv).
Proof.
  intros HG HS. pose proof (refined_grid mp per HG) as HGv.
  destruct (stokes_weak mp per dof dms HG HS xv xp (getMatElemPressure h) (strain_tensor_mult h) (tens_c (refined_size mp per) per dof xv (getMatElemStrainTensor h))) with (h := h) as (yv & yp & E & W); auto.
  - intros dv Hdv y0. apply (tens_runs _ per dof (map fst dms)); auto. apply HS.
  - intros e. apply tens_near; auto.
  - exists yv, yp. split; [exact E|]. intros Nv Np Ev Ep H1 H2 H3 H4. destruct (W Nv Np Ev Ep H1 H2 H3 H4) as [W1 W2]. split; [|exact W2].
    intros v. rewrite W1. f_equal. unfold tensor_form. apply Lsum_ext. intros e He. apply H3 in He.
    exact (tens_elem_sum _ per dof HGv xv (getMatElemStrainTensor h) e (fun p d => v (wrap (refined_size mp per) per p) d) He).
Qed.
Theorem C25_stokes : forall h mp per dof dms dms' xv xp, grid_ok mp per -> stokes_layout mp per dof dms -> stokes_layout mp per dof dms' ->
  exists yv yp yv' yp', stokes_matrix_raw (strain_tensor_mult h) h dms xv xp = Ok (yv, yp) /\ stokes_matrix_raw (strain_tensor_mult h) h dms' xv xp = Ok (yv', yp') /\
    same_field (refined_size mp per) dof yv yv' /\ same_field mp 1 yp yp'.
Proof.
  intros h mp per dof dms dms' xv xp HG HS HS'. destruct (stokes_rep_strain h mp per dof dms xv xp HG HS) as (yv & yp & E & W). destruct (stokes_rep_strain h mp per dof dms' xv xp HG HS') as (yv' & yp' & E' & W').
  exists yv, yp, yv', yp'. split; [exact E|]. split; [exact E'|]. pose proof (refined_grid mp per HG) as HGv.
  destruct (W _ _ _ _ (N0_enum (refined_size mp per)) (N0_enum mp) (E0_enum _ _ (proj1 (proj2 HGv))) (E0_enum _ _ (proj1 (proj2 HG)))) as [A1 A2].
  destruct (W' _ _ _ _ (N0_enum (refined_size mp per)) (N0_enum mp) (E0_enum _ _ (proj1 (proj2 HGv))) (E0_enum _ _ (proj1 (proj2 HG)))) as [B1 B2].
  split; apply same_field_weak; intros v; [rewrite A1, B1|rewrite A2, B2]; reflexivity.
Qed.

(** ** C24: linear, symmetric, positive *)
Theorem C24_laplacian_linear : forall h m per dof dms a b x x', grid_ok m per -> distributes m per dof dms ->
  exists y y' z, diag_block_matrix_raw (laplacian_mult h) dms x = Ok y /\ diag_block_matrix_raw (laplacian_mult h) dms x' = Ok y' /\
    diag_block_matrix_raw (laplacian_mult h) dms (lin a b x x') = Ok z /\ same_field m dof z (lin a b y y').
Proof. intros. eapply rep_linear; eauto; [apply rep_diag; auto|]. intros. apply scalar_form_lin. Qed.
Theorem C24_mass_linear : forall h m per dof dms a b x x', grid_ok m per -> distributes m per dof dms ->
  exists y y' z, diag_block_matrix_raw (mass_mult h) dms x = Ok y /\ diag_block_matrix_raw (mass_mult h) dms x' = Ok y' /\
    diag_block_matrix_raw (mass_mult h) dms (lin a b x x') = Ok z /\ same_field m dof z (lin a b y y').
Proof. intros. eapply rep_linear; eauto; [apply rep_diag; auto|]. intros. apply scalar_form_lin. Qed.
Theorem C24_strain_linear : forall h m per dof dms a b x x', grid_ok m per -> distributes m per dof dms ->
  exists y y' z, diag_block_matrix_raw (strain_tensor_mult h) dms x = Ok y /\ diag_block_matrix_raw (strain_tensor_mult h) dms x' = Ok y' /\
    diag_block_matrix_raw (strain_tensor_mult h) dms (lin a b x x') = Ok z /\ same_field m dof z (lin a b y y').
Proof. intros. eapply rep_linear; eauto; [apply rep_tens; auto|]. intros. apply tensor_form_lin. Qed.
Theorem C24_laplacian_symmetric : forall h m per dof dms x x' y y' N, grid_ok m per -> steps_ok h m -> distributes m per dof dms ->
  diag_block_matrix_raw (laplacian_mult h) dms x = Ok y -> diag_block_matrix_raw (laplacian_mult h) dms x' = Ok y' -> enumerates N (nodes_box m) ->
  inner N dof y x' = inner N dof x y'.
Proof.
  intros h m per dof dms x x' y y' N HG HS HD. eapply rep_sym; eauto; [apply rep_diag; auto|]. intros. apply scalar_form_sym. intros. apply (lap_sym h m); auto. apply HG.
Qed.
Theorem C24_mass_symmetric : forall h m per dof dms x x' y y' N, grid_ok m per -> steps_ok h m -> distributes m per dof dms ->
  diag_block_matrix_raw (mass_mult h) dms x = Ok y -> diag_block_matrix_raw (mass_mult h) dms x' = Ok y' -> enumerates N (nodes_box m) ->
  inner N dof y x' = inner N dof x y'.
Proof.
  intros h m per dof dms x x' y y' N HG HS HD. eapply rep_sym; eauto; [apply rep_diag; auto|]. intros. apply scalar_form_sym. intros. apply (mass_sym h m); auto. apply HG.
Qed.
Theorem C24_strain_symmetric : forall h m per dms x x' y y' N, grid_ok m per -> steps_ok h m -> distributes m per (length m) dms ->
  diag_block_matrix_raw (strain_tensor_mult h) dms x = Ok y -> diag_block_matrix_raw (strain_tensor_mult h) dms x' = Ok y' -> enumerates N (nodes_box m) ->
  inner N (length m) y x' = inner N (length m) x y'.
Proof.
  intros h m per dms x x' y y' N HG HS HD. eapply rep_sym; eauto; [apply rep_tens; auto|]. intros. apply tensor_form_sym. intros. apply (strain_sym h m); auto. apply HG.
Qed.
(** the Laplacian is positive, and zero only on fields that are constant *)
Theorem C24_laplacian_positive : forall h m per dof dms x y N, grid_ok m per -> steps_ok h m -> distributes m per dof dms ->
  diag_block_matrix_raw (laplacian_mult h) dms x = Ok y -> enumerates N (nodes_box m) ->
  0 <= inner N dof y x /\
  (has_cells m per -> (inner N dof y x = 0 <-> forall n d, in_grid_box (nodes_box m) n -> (d < dof)%nat -> x n d = x (map (fun _ => 0%Z) m) d)).
Proof.
  intros h m per dof dms x y N HG HS HD E HN.
  rewrite (rep_q (laplacian_mult h) m per dof (fun E v x => scalar_form m per E dof (getMatElemLaplacian h) v x) HG (rep_diag m per dof _ HG) dms x y N HD E HN).
  split; [apply lap_form_nonneg; auto|]. intros HC. apply lap_form_zero; auto.
Qed.
(** the mass operator is positive definite *)
Theorem C24_mass_positive_definite : forall h m per dof dms x y N, grid_ok m per -> steps_ok h m -> distributes m per dof dms ->
  diag_block_matrix_raw (mass_mult h) dms x = Ok y -> enumerates N (nodes_box m) ->
  0 <= inner N dof y x /\ (has_cells m per -> inner N dof y x = 0 -> forall n d, in_grid_box (nodes_box m) n -> (d < dof)%nat -> x n d = 0).
Proof.
  intros h m per dof dms x y N HG HS HD E HN.
  rewrite (rep_q (mass_mult h) m per dof (fun E v x => scalar_form m per E dof (getMatElemMass h) v x) HG (rep_diag m per dof _ HG) dms x y N HD E HN).
  split; [apply mass_form_nonneg; auto|]. intros HC HZ. eapply (mass_form_zero h m per); eauto.
Qed.
Theorem C24_strain_positive : forall h m per dms x y N, grid_ok m per -> steps_ok h m -> distributes m per (length m) dms ->
  diag_block_matrix_raw (strain_tensor_mult h) dms x = Ok y -> enumerates N (nodes_box m) -> 0 <= inner N (length m) y x.
Proof.
  intros h m per dms x y N HG HS HD E HN.
  rewrite (rep_q (strain_tensor_mult h) m per (length m) (fun E v x => tensor_form m per E (length m) (getMatElemStrainTensor h) v x) HG (rep_tens m per (length m) _ HG) dms x y N HD E HN).
  apply strain_form_nonneg; auto.
Qed.

(** ** C27: energy of the Stokes operator *)
(** <K(u,p),(u,p)> is the viscous energy of u, for either viscous operator *)
Theorem C27_energy : forall h mp per dms xv xp, grid_ok mp per -> steps_ok h mp -> stokes_layout mp per (length mp) dms ->
  exists yv yp a, stokes_matrix_raw (strain_tensor_mult h) h dms xv xp = Ok (yv, yp) /\
    diag_block_matrix_raw (strain_tensor_mult h) (map fst dms) xv = Ok a /\
    forall Nv Np, enumerates Nv (nodes_box (refined_size mp per)) -> enumerates Np (nodes_box mp) ->
      inner Nv (length mp) yv xv + inner Np 1 yp xp = inner Nv (length mp) a xv /\ 0 <= inner Nv (length mp) a xv.
Proof.
  intros h mp per dms xv xp HG HS HL. pose proof (refined_grid mp per HG) as HGv.
  destruct (stokes_rep_strain h mp per (length mp) dms xv xp HG HL) as (yv & yp & E & W).
  destruct (rep_tens (refined_size mp per) per (length mp) (getMatElemStrainTensor h) HGv (map fst dms) xv (proj1 HL)) as (a & Ea & Wa).
  exists yv, yp, a. split; [exact E|]. split; [exact Ea|]. intros Nv Np HNv HNp.
  pose proof (E0_enum _ _ (proj1 (proj2 HGv))) as HEv. pose proof (E0_enum _ _ (proj1 (proj2 HG))) as HEp.
  destruct (W _ _ _ _ HNv HNp HEv HEp) as [W1 W2]. rewrite W1, W2, (Wa _ _ HNv HEv).
  split; [ring|].
  assert (LE : length (refined_size mp per) = length mp) by (unfold refined_size; rewrite length_zip_with; auto; symmetry; apply HG).
  rewrite <- LE. apply strain_form_nonneg; auto. unfold steps_ok in *. rewrite LE. exact HS.
Qed.
Theorem C27_energy_laplacian : forall h mp per dof dms xv xp, grid_ok mp per -> stokes_layout mp per dof dms ->
  exists yv yp a, stokes_matrix_raw (laplacian_mult h) h dms xv xp = Ok (yv, yp) /\
    diag_block_matrix_raw (laplacian_mult h) (map fst dms) xv = Ok a /\
    forall Nv Np, enumerates Nv (nodes_box (refined_size mp per)) -> enumerates Np (nodes_box mp) ->
      inner Nv dof yv xv + inner Np 1 yp xp = inner Nv dof a xv.
Proof.
  intros h mp per dof dms xv xp HG HL. pose proof (refined_grid mp per HG) as HGv.
  destruct (stokes_rep_lap h mp per dof dms xv xp HG HL) as (yv & yp & E & W).
  destruct (rep_diag (refined_size mp per) per dof (getMatElemLaplacian h) HGv (map fst dms) xv (proj1 HL)) as (a & Ea & Wa).
  exists yv, yp, a. split; [exact E|]. split; [exact Ea|]. intros Nv Np HNv HNp.
  pose proof (E0_enum _ _ (proj1 (proj2 HGv))) as HEv. pose proof (E0_enum _ _ (proj1 (proj2 HG))) as HEp.
  destruct (W _ _ _ _ HNv HNp HEv HEp) as [W1 W2]. rewrite W1, W2, (Wa _ _ HNv HEv). ring.
Qed.
(** the pressure-gradient block is minus the transpose of the divergence block *)
Theorem C27_blocks_are_adjoint : forall h mp per dof dms u p, grid_ok mp per -> stokes_layout mp per dof dms ->
  exists gv0 gp d0 dp, stokes_matrix_raw (strain_tensor_mult h) h dms zeros p = Ok (gv0, gp) /\
    stokes_matrix_raw (strain_tensor_mult h) h dms u zeros = Ok (d0, dp) /\
    forall Nv Np, enumerates Nv (nodes_box (refined_size mp per)) -> enumerates Np (nodes_box mp) ->
      inner Nv dof gv0 u = - inner Np 1 dp p.
Proof.
  intros h mp per dof dms u p HG HL. pose proof (refined_grid mp per HG) as HGv.
  destruct (stokes_rep_strain h mp per dof dms zeros p HG HL) as (gv0 & gp & E & W). destruct (stokes_rep_strain h mp per dof dms u zeros HG HL) as (d0 & dp & E' & W').
  exists gv0, gp, d0, dp. split; [exact E|]. split; [exact E'|]. intros Nv Np HNv HNp.
  pose proof (E0_enum _ _ (proj1 (proj2 HGv))) as HEv. pose proof (E0_enum _ _ (proj1 (proj2 HG))) as HEp.
  destruct (W _ _ _ _ HNv HNp HEv HEp) as [W1 _]. destruct (W' _ _ _ _ HNv HNp HEv HEp) as [_ W2]. rewrite W1, W2.
  assert (Z : tensor_form (refined_size mp per) per (E0 (refined_size mp per) per) dof (getMatElemStrainTensor h) u zeros = 0).
  { pose proof (tensor_form_lin (refined_size mp per) per (E0 (refined_size mp per) per) dof (getMatElemStrainTensor h) u 0 0 zeros zeros) as T.
    rewrite !Rmult_0_l, Rplus_0_r in T. rewrite <- T. unfold tensor_form. apply Lsum_ext. intros. repeat (apply Rsum_ext; intros). unfold gv, lin, zeros. ring. }
  rewrite Z. ring.
Qed.

(** ** C30: Dirichlet conditions *)
Theorem C30_on_vec : forall m per dof bc dms x y, grid_ok m per -> distributes m per dof dms -> nonempty_views dms -> table_ok (length m) dof bc ->
  exists y', SetDirichletOnVec (length m) dms x y (map Some bc) = Ok y' /\
    forall n c, in_grid_box (nodes_box m) n -> (c < dof)%nat ->
      y' n c = match prescribed (length m) m per bc n c with Some _ => x n c | None => y n c end.
Proof.
  intros m per dof bc dms x y HG HD HN HT. assert (HL : length per = length m) by apply HG.
  destruct (dirichlet_ok m per dof (val_vec x) bc HL HT dms y (proj1 HD) HN) as [y' [E V]]. exists y'. split; [exact E|].
  intros n c Hn Hc. rewrite V, (owned_somewhere m per dof HL dms n HD Hn), (proj2 (Nat.ltb_lt c dof) Hc). reflexivity.
Qed.
Theorem C30_on_rhs : forall m per dof bc h dms y, grid_ok m per -> distributes m per dof dms -> nonempty_views dms -> table_ok (length m) dof bc ->
  exists y', SetDirichletOnRHS (length m) dms y (map Some bc) h = Ok y' /\
    forall n c, in_grid_box (nodes_box m) n -> (c < dof)%nat ->
      y' n c = match prescribed (length m) m per bc n c with Some f => f (zip_with (fun i s => IZR i * s) n h) | None => y n c end.
Proof.
  intros m per dof bc h dms y HG HD HN HT. assert (HL : length per = length m) by apply HG.
  destruct (dirichlet_ok m per dof (val_func h) bc HL HT dms y (proj1 HD) HN) as [y' [E V]]. exists y'. split; [exact E|].
  intros n c Hn Hc. rewrite V, (owned_somewhere m per dof HL dms n HD Hn), (proj2 (Nat.ltb_lt c dof) Hc). reflexivity.
Qed.
Theorem C30_null_on_rhs : forall m per dof bc dms y, grid_ok m per -> distributes m per dof dms -> nonempty_views dms -> table_ok (length m) dof bc ->
  exists y', SetNullDirichletOnRHS (length m) dms y (map Some bc) = Ok y' /\
    forall n c, in_grid_box (nodes_box m) n -> (c < dof)%nat ->
      y' n c = match prescribed (length m) m per bc n c with Some _ => 0 | None => y n c end.
Proof.
  intros m per dof bc dms y HG HD HN HT. assert (HL : length per = length m) by apply HG.
  destruct (dirichlet_ok m per dof (val_const 0) bc HL HT dms y (proj1 HD) HN) as [y' [E V]]. exists y'. split; [exact E|].
  intros n c Hn Hc. rewrite V, (owned_somewhere m per dof HL dms n HD Hn), (proj2 (Nat.ltb_lt c dof) Hc). reflexivity.
Qed.
(** a component is constrained exactly when a side of a non-periodic axis the node lies on
    has a non-null condition for it *)
Theorem C30_constrained_iff : forall D m per bc n c,
  prescribed D m per bc n c <> None <->
  exists d (up : bool), (d < D)%nat /\ nth d per false = false /\ nth d n 0%Z = (if up then nth d m 0 - 1 else 0)%Z /\
    nth c (nth (2 * d + if up then 1 else 0) bc []) None <> None.
Proof.
  intros D m per bc n c. unfold prescribed.
  assert (G : forall l acc, fold_left (fun acc s => if on_side m per n s then match nth c (nth (side_index s) bc []) None with Some f => Some f | None => acc end else acc) l acc <> None <->
    acc <> None \/ exists s, In s l /\ on_side m per n s = true /\ nth c (nth (side_index s) bc []) None <> None).
  { induction l as [|s l IH]; intros acc; cbn [fold_left].
    - split; [auto|]. intros [H|[s [[] _]]]; exact H.
    - rewrite IH. destruct (on_side m per n s) eqn:ES.
      + destruct (nth c (nth (side_index s) bc []) None) as [f|] eqn:EF.
        * split; [intros _; right; exists s; split; [left; auto|]; split; [auto|rewrite EF; discriminate]|]. intros _. left. discriminate.
        * split; [intros [H|[s' [H1 H2]]]; [left; auto|right; exists s'; split; [right; auto|auto]]|]. intros [H|[s' [[<-|H1] [H2 H3]]]]; [left; auto|congruence|right; exists s'; auto].
      + split; [intros [H|[s' [H1 H2]]]; [left; auto|right; exists s'; split; [right; auto|auto]]|]. intros [H|[s' [[<-|H1] [H2 H3]]]]; [left; auto|congruence|right; exists s'; auto]. }
  rewrite G. split.
  - intros [H|[[d up] [H1 [H2 H3]]]]; [congruence|]. unfold sides in H1. apply in_flat_map in H1 as [d' [Hd' HI]]. apply in_seq in Hd'.
    unfold on_side in H2. cbn [fst snd] in H2. apply andb_prop in H2 as [H2 H4]. apply Z.eqb_eq in H4. apply negb_true_iff in H2.
    assert (d = d') by (destruct HI as [HI|[HI|[]]]; congruence). subst. exists d', up. repeat split; auto; lia.
  - intros (d & up & Hd & Hp & Hn & Hc). right. exists (d, up). split.
    + unfold sides. apply in_flat_map. exists d. split; [apply in_seq; lia|]. destruct up; simpl; auto.
    + split; [|exact Hc]. unfold on_side. cbn [fst snd]. rewrite Hp, Hn, Z.eqb_refl. reflexivity.
Qed.

(** ** C31: constrained operator *)
Lemma C31_constrained_rows : forall op m per dof F bc dms x, grid_ok m per -> distributes m per dof dms -> nonempty_views dms -> table_ok (length m) dof bc ->
  represents op m per dof F ->
  exists r y, diag_block_matrix_raw op dms x = Ok r /\ diag_block_matrix op (length m) (Some (map Some bc)) dms x = Ok y /\
    forall n c, in_grid_box (nodes_box m) n -> (c < dof)%nat ->
      y n c = match prescribed (length m) m per bc n c with Some _ => x n c | None => r n c end.
Proof.
  intros op m per dof F bc dms x HG HD HN HT HR. destruct (HR dms x HD) as [r [Er _]].
  destruct (C30_on_vec m per dof bc dms x r HG HD HN HT) as [y [Ey Vy]]. exists r, y. split; [exact Er|].
  split; [unfold diag_block_matrix; rewrite Er; exact Ey|exact Vy].
Qed.
Theorem C31_laplacian : forall h m per dof bc dms x, grid_ok m per -> distributes m per dof dms -> nonempty_views dms -> table_ok (length m) dof bc ->
  exists r y, diag_block_matrix_raw (laplacian_mult h) dms x = Ok r /\ diag_block_matrix (laplacian_mult h) (length m) (Some (map Some bc)) dms x = Ok y /\
    forall n c, in_grid_box (nodes_box m) n -> (c < dof)%nat ->
      y n c = match prescribed (length m) m per bc n c with Some _ => x n c | None => r n c end.
Proof. intros. eapply C31_constrained_rows; eauto. apply rep_diag; auto. Qed.
Theorem C31_stokes : forall h mp per dof bc dms xv xp, grid_ok mp per -> stokes_layout mp per dof dms -> nonempty_views (map fst dms) -> table_ok (length mp) dof bc ->
  exists rv rp yv, stokes_matrix_raw (strain_tensor_mult h) h dms xv xp = Ok (rv, rp) /\
    stokes_matrix (strain_tensor_mult h) h (length mp) (Some (map Some bc)) dms xv xp = Ok (yv, rp) /\
    forall n c, in_grid_box (nodes_box (refined_size mp per)) n -> (c < dof)%nat ->
      yv n c = match prescribed (length mp) (refined_size mp per) per bc n c with Some _ => xv n c | None => rv n c end.
Proof.
  intros h mp per dof bc dms xv xp HG HS HN HT. destruct (stokes_rep_strain h mp per dof dms xv xp HG HS) as (rv & rp & E & _).
  assert (LE : length (refined_size mp per) = length mp) by (unfold refined_size; rewrite length_zip_with; auto; symmetry; apply HG).
  pose proof (refined_grid mp per HG) as HGv. rewrite <- LE in HT.
  destruct (C30_on_vec (refined_size mp per) per dof bc (map fst dms) xv rv HGv (proj1 HS) HN HT) as [yv [Ey Vy]].
  exists rv, rp, yv. split; [exact E|]. rewrite <- LE. split; [unfold stokes_matrix; rewrite E; cbn [bind fst snd]; rewrite Ey; reflexivity|exact Vy].
Qed.
(** MATOP_GET_DIAGONAL returns the diagonal of the unconstrained operator *)
Theorem C31_diagonal_laplacian : forall h m per dof dms n c, grid_ok m per -> no_self_contact m per -> distributes m per dof dms -> in_grid_box (nodes_box m) n -> (c < dof)%nat ->
  exists y z, diag_diag_block_matrix (diag_laplacian_mult h) dms = Ok y /\ diag_block_matrix_raw (laplacian_mult h) dms (unit_field n c) = Ok z /\ y n c = z n c.
Proof. intros h m per dof dms n c. apply diag_is_diagonal. Qed.
Theorem C31_diagonal_mass : forall h m per dof dms n c, grid_ok m per -> no_self_contact m per -> distributes m per dof dms -> in_grid_box (nodes_box m) n -> (c < dof)%nat ->
  exists y z, diag_diag_block_matrix (diag_mass_mult h) dms = Ok y /\ diag_block_matrix_raw (mass_mult h) dms (unit_field n c) = Ok z /\ y n c = z n c.
Proof. intros h m per dof dms n c. apply diag_is_diagonal. Qed.

(** ** C55: the constrained Laplacian is injective *)
Theorem C55_constrained_laplacian_injective : forall h m per dof bc dms x y,
  grid_ok m per -> has_cells m per -> steps_ok h m -> distributes m per dof dms -> nonempty_views dms -> table_ok (length m) dof bc ->
  (forall c, (c < dof)%nat -> exists n, in_grid_box (nodes_box m) n /\ prescribed (length m) m per bc n c <> None) ->
  diag_block_matrix (laplacian_mult h) (length m) (Some (map Some bc)) dms x = Ok y ->
  (forall n c, in_grid_box (nodes_box m) n -> (c < dof)%nat -> y n c = 0) ->
  forall n c, in_grid_box (nodes_box m) n -> (c < dof)%nat -> x n c = 0.
Proof.
  intros h m per dof bc dms x y HG HC HS HD HN HT HB Ey HZ.
  destruct (C31_laplacian h m per dof bc dms x HG HD HN HT) as (r & y' & Er & Ey' & V). rewrite Ey in Ey'. injection Ey' as <-.
  assert (E0' : inner (N0 m) dof r x = 0).
  { unfold inner. transitivity (Lsum (fun _ : list Z => 0) (N0 m)); [|induction (N0 m) as [|? l IH]; [reflexivity|rewrite Lsum_cons, IH; ring]].
    apply Lsum_ext. intros n Hn. apply N0_enum in Hn. transitivity (Rsum dof (fun _ => 0)); [|apply Rsum_zero]. apply Rsum_ext. intros d Hd.
    specialize (HZ n d Hn Hd). rewrite (V n d Hn Hd) in HZ. destruct (prescribed (length m) m per bc n d); rewrite HZ; ring. }
  destruct (C24_laplacian_positive h m per dof dms x r (N0 m) HG HS HD Er (N0_enum m)) as [_ K]. pose proof (proj1 (K HC) E0') as E1. clear E0'. rename E1 into E0'.
  intros n c Hn Hc. rewrite (E0' n c Hn Hc). destruct (HB c Hc) as [n' [Hn' Hp]]. rewrite <- (E0' n' c Hn' Hc).
  specialize (HZ n' c Hn' Hc). rewrite (V n' c Hn' Hc) in HZ. destruct (prescribed (length m) m per bc n' c); [exact HZ|congruence].
Qed.

(** hence two solutions of the same constrained system are equal *)
Theorem C55_constrained_laplacian_unique_solution : forall h m per dof bc dms x x' y y',
  grid_ok m per -> has_cells m per -> steps_ok h m -> distributes m per dof dms -> nonempty_views dms -> table_ok (length m) dof bc ->
  (forall c, (c < dof)%nat -> exists n, in_grid_box (nodes_box m) n /\ prescribed (length m) m per bc n c <> None) ->
  diag_block_matrix (laplacian_mult h) (length m) (Some (map Some bc)) dms x = Ok y ->
  diag_block_matrix (laplacian_mult h) (length m) (Some (map Some bc)) dms x' = Ok y' ->
  same_field m dof y y' -> same_field m dof x x'.
Proof.
  intros h m per dof bc dms x x' y y' HG HC HS HD HN HT HB Ey Ey' HE n c Hn Hc.
  destruct (C31_laplacian h m per dof bc dms x HG HD HN HT) as (r & y1 & Er & Ey1 & V). rewrite Ey in Ey1. injection Ey1 as <-.
  destruct (C31_laplacian h m per dof bc dms x' HG HD HN HT) as (r' & y1 & Er' & Ey1 & V'). rewrite Ey' in Ey1. injection Ey1 as <-.
  destruct (C31_laplacian h m per dof bc dms (lin 1 (-1) x x') HG HD HN HT) as (rz & z & Erz & Ez & Vz).
  destruct (C24_laplacian_linear h m per dof dms 1 (-1) x x' HG HD) as (r1 & r2 & r3 & E1 & E2 & E3 & L).
  rewrite Er in E1. injection E1 as <-. rewrite Er' in E2. injection E2 as <-. rewrite Erz in E3. injection E3 as <-.
  assert (K := C55_constrained_laplacian_injective h m per dof bc dms (lin 1 (-1) x x') z HG HC HS HD HN HT HB Ez).
  enough (lin 1 (-1) x x' n c = 0) as Q by (unfold lin in Q; lra). apply K; auto. clear n c Hn Hc K. intros n c Hn Hc.
  rewrite (Vz n c Hn Hc). pose proof (HE n c Hn Hc) as Q. rewrite (V n c Hn Hc), (V' n c Hn Hc) in Q. unfold lin.
  destruct (prescribed (length m) m per bc n c); [lra|]. rewrite (L n c Hn Hc). unfold lin. lra.
Qed.

(** ** C45: right-hand side *)
(** set_rhs adds M f to what is already in the vector *)
Theorem C45_set_rhs_adds : forall m per dof dms conds h rhs, grid_ok m per -> distributes m per dof dms -> length conds = dof ->
  exists y' mf, set_rhs conds h dms rhs = Ok y' /\
    diag_block_matrix_raw (mass_mult h) dms (fun n c => match nth c conds None with Some f => f (zip_with (fun i s => IZR i * s) n h) | None => 0 end) = Ok mf /\
    same_field m dof y' (fun n d => rhs n d + mf n d).
Proof. exact set_rhs_ok. Qed.

(** ** C47: pressure mass *)
Lemma mass_scale h (m : list Z) : (length m = 2%nat \/ length m = 3%nat) -> length h = length m -> forall i j, getMatElemMass (map (fun s => 2 * s) h) i j = 2 ^ length m * getMatElemMass h i j.
Proof.
  intros [Hd|Hd] HL i j; rewrite Hd in *; [destruct h as [|a [|b [|]]]|destruct h as [|a [|b [|c [|]]]]]; simpl in HL; try discriminate; cbn [map getMatElemMass].
  - unfold getMatElemMass2. simpl. ring.
  - unfold getMatElemMass3. simpl. ring.
Qed.
Lemma scalar_form_scale m per E dof M k v x : scalar_form m per E dof (fun i j => k * M i j) v x = k * scalar_form m per E dof M v x.
Proof.
  unfold scalar_form. rewrite <- Lsum_scal. apply Lsum_ext. intros e _. do 3 (rewrite <- Rsum_scal; apply Rsum_ext; intros ? _). ring.
Qed.
Lemma scalar_form_extM m per E dof M M' v x : (forall i j, M i j = M' i j) -> scalar_form m per E dof M v x = scalar_form m per E dof M' v x.
Proof. intros H. unfold scalar_form. apply Lsum_ext. intros e _. do 3 (apply Rsum_ext; intros ? _). rewrite H. reflexivity. Qed.
(** velocity part: the mass operator; pressure part: 2^-D times the mass operator of the
    pressure grid (step 2h), because the step is not doubled *)
Theorem C47_pressure_mass_is_scaled_down : forall h mp per dof dms xv xp, grid_ok mp per -> length h = length mp -> stokes_layout mp per dof dms ->
  exists yv yp mv mpp, apply_mass_matrix h dms xv xp = Ok (yv, yp) /\
    diag_block_matrix_raw (mass_mult h) (map fst dms) xv = Ok mv /\
    diag_block_matrix_raw (mass_mult (map (fun s => 2 * s) h)) (map snd dms) xp = Ok mpp /\
    same_field (refined_size mp per) dof yv mv /\
    same_field mp 1 (fun n d => 2 ^ length mp * yp n d) mpp.
Proof.
  intros h mp per dof dms xv xp HG Hh HS. pose proof (refined_grid mp per HG) as HGv.
  destruct (rep_diag _ per dof (getMatElemMass h) HGv (map fst dms) xv (proj1 HS)) as (mv & Ev & _).
  destruct (rep_diag mp per 1 (getMatElemMass h) HG (map snd dms) xp (proj1 (proj2 HS))) as (yp & Ep & Wp).
  destruct (rep_diag mp per 1 (getMatElemMass (map (fun s => 2 * s) h)) HG (map snd dms) xp (proj1 (proj2 HS))) as (mpp & Em & Wm).
  exists mv, yp, mv, mpp. split.
  { unfold apply_mass_matrix. rewrite map_id. unfold mass_mult at 1. rewrite Ev. cbn [bind]. unfold mass_mult. rewrite Ep. reflexivity. }
  split; [exact Ev|]. split; [exact Em|]. split; [intros n d _ _; reflexivity|].
  apply same_field_weak. intros v. pose proof (E0_enum _ _ (proj1 (proj2 HG))) as HEp.
  rewrite (Wm _ _ (N0_enum mp) HEp). rewrite (scalar_form_extM _ _ _ _ _ _ _ _ (mass_scale h mp (proj1 HG) Hh)), scalar_form_scale, <- (Wp _ _ (N0_enum mp) HEp).
  unfold inner. rewrite <- Lsum_scal. apply Lsum_ext. intros n _. rewrite <- Rsum_scal. apply Rsum_ext. intros; ring.
Qed.

(** ** C49: condition tables *)
Theorem C49_exact_list : forall D il, length il = (2 * D)%nat -> dirichlet_conditions D il = Ok (map Some il).
Proof.
  intros D il H. unfold dirichlet_conditions. rewrite (proj2 (Nat.leb_le _ _)) by lia. replace (2 * D - length il)%nat with 0%nat by lia. simpl. rewrite app_nil_r. reflexivity.
Qed.
Theorem C49_long_list_is_undefined : forall D il, (2 * D < length il)%nat -> dirichlet_conditions D il = UB.
Proof. intros D il H. unfold dirichlet_conditions. rewrite (proj2 (Nat.leb_gt _ _)) by lia. reflexivity. Qed.
(** rows not given are indeterminate, not null: using them is undefined *)
Theorem C49_short_list : forall D il s, (length il <= 2 * D)%nat -> exists bc, dirichlet_conditions D il = Ok bc /\
  bc_side bc s = (if Nat.ltb s (length il) then Ok (nth s il []) else UB).
Proof.
  intros D il s H. unfold dirichlet_conditions. rewrite (proj2 (Nat.leb_le _ _)) by lia. eexists. split; [reflexivity|]. unfold bc_side.
  destruct (Nat.ltb_spec s (length il)) as [Hs|Hs].
  - rewrite nth_error_app1 by (rewrite map_length; auto). rewrite nth_error_map. destruct (nth_error il s) as [r|] eqn:E; [|apply nth_error_None in E; lia]. simpl. rewrite (nth_error_nth il s [] E). reflexivity.
  - rewrite nth_error_app2 by (rewrite map_length; auto). rewrite map_length. destruct (nth_error (repeat None (2 * D - length il)) (s - length il)) as [o|] eqn:E; [|reflexivity].
    apply nth_error_In, repeat_spec in E. subst. reflexivity.
Qed.
Close Scope R_scope.
