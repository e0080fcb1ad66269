(** Witnesses for the hypotheses of Prop_Assembly, and the exceptions named by C26 and C32. *)
From Coquelicot Require Import Coquelicot.
From Verif Require Import Base M_Geometry S_Geometry P_Geometry M_Particle S_Particle P_Particle M_Quadrature S_Fem M_MatElem P_MatElem P_Energy M_Mesh M_Operator M_Bc S_Operator S_Bc P_Mesh P_Operator P_Operator2 P_Global P_CreateMesh P_Stokes P_Operator3 P_Bc P_Diag Prop_Operator Prop_Operator2 M_Assembly P_Assembly P_Assembly2 P_Telescope P_Constant P_AssemblyBc Prop_Assembly.
Open Scope R_scope.

(** ** two processes, periodic in y: the hypotheses of C26, C32, C56 hold *)
Definition ex_walls : list bc_row := [[Some (fun _ => 0); Some (fun p => nth 1 p 0)]; [Some (fun _ => 1); Some (fun _ => 0)]; [None; None]; [None; None]].
Example ex_assembly : length ex_mp = 2%nat /\ grid_ok ex_mp ex_per /\ stokes_layout ex_mp ex_per 2 ex_dms /\ nonempty_views (map fst ex_dms) /\ single_is_safe ex_per ex_dms
  /\ table_ok 2 2 ex_walls /\ all_conditions 2 2 ex_per ex_walls /\ normal_conditions 2 ex_per ex_walls.
Proof.
  split; [reflexivity|]. split; [apply ex_grid|]. split; [apply ex_layout|]. split; [apply ex_nonempty|]. split; [intros E; discriminate E|]. split; [split; [reflexivity|repeat constructor]|]. split.
  - intros s c Hs Hp Hc. cbn in Hs. destruct Hs as [<-|[<-|[<-|[<-|[]]]]]; cbn in *; try discriminate Hp; destruct c as [|[|]]; try lia; cbn; discriminate.
  - intros s Hs Hp. cbn in Hs. destruct Hs as [<-|[<-|[<-|[<-|[]]]]]; cbn in *; try discriminate Hp; discriminate.
Qed.
Example ex_wall_and_interior : on_wall (refined_size ex_mp ex_per) ex_per [6; 1]%Z /\ ~ on_wall (refined_size ex_mp ex_per) ex_per [3; 0]%Z.
Proof.
  split; [exists (0%nat, true); split; [cbn; auto|reflexivity]|]. intros (s & Hs & Ho). cbn in Hs. destruct Hs as [<-|[<-|[<-|[<-|[]]]]]; discriminate Ho.
Qed.
(** a velocity without flux through the walls, not null *)
Example ex_no_flux : exists xv : field, (forall n s, in_grid_box (nodes_box (refined_size ex_mp ex_per)) n -> In s (sides 2) -> on_side (refined_size ex_mp ex_per) ex_per n s = true -> xv n (fst s) = 0) /\ xv [3; 1]%Z 0%nat <> 0.
Proof.
  exists (unit_field [3; 1]%Z 0). split; [|vm_compute; lra]. intros n s Hn Hs Ho. unfold unit_field. destruct (same_node_spec [3; 1]%Z n) as [<-|]; [|reflexivity].
  cbn in Hs. destruct Hs as [<-|[<-|[<-|[<-|[]]]]]; discriminate Ho.
Qed.

(** ** C26: the assembled strain operator differs from the matrix-free one on the wall rows *)
Definition sq_dms := createMesh [2; 2]%Z [false; false] [[2]; [2]]%Z.
Example sq_layout : stokes_layout [2; 2]%Z [false; false] 2 sq_dms.
Proof. apply (C28_createMesh_layout [2; 2]%Z [false; false] [[2]; [2]]%Z eq_refl). repeat constructor; simpl; try lia; try discriminate. Qed.
Example sq_grid : grid_ok [2; 2]%Z [false; false].
Proof. repeat split; simpl; auto; repeat constructor; lia. Qed.
Lemma strain_split m0 m1 q0 q1 h0 h1 E v u :
  tensor_form [m0; m1] [q0; q1] E 2 (strainA h0 h1) v u = tensor_form [m0; m1] [q0; q1] E 2 (getMatElemStrainTensor [h0; h1]) v u
    + Lsum (fun e => Rsum 4 (fun k1 => Rsum 4 (fun k2 => gv [m0; m1] [q0; q1] v e k1 0 * Kd k1 k2 * gv [m0; m1] [q0; q1] u e k2 1))) E.
Proof.
  unfold tensor_form. rewrite <- Lsum_plus. apply Lsum_ext. intros e _. change (2 ^ length [m0; m1])%nat with 4%nat. rewrite <- Rsum_plus. apply Rsum_ext. intros k1 H1. rewrite <- Rsum_plus. apply Rsum_ext. intros k2 H2.
  cbn [Rsum]. rewrite !strainA_split by (auto; lia). cbn [Nat.eqb andb]. ring.
Qed.
Theorem C26_strain_wall_rows_refuted : forall h0 h1, exists x A yv yp,
  grid_ok [2; 2]%Z [false; false] /\ stokes_layout [2; 2]%Z [false; false] 2 sq_dms /\
  stokes_A true h0 h1 sq_dms = Ok A /\ stokes_matrix_raw (strain_tensor_mult [h0; h1]) [h0; h1] sq_dms (x false) (x true) = Ok (yv, yp) /\
  MatMult A x false [0; 0]%Z 0%nat = yv [0; 0]%Z 0%nat + 1 / 2.
Proof.
  intros h0 h1. pose (x := fun b : bool => if b then zero_field else unit_field [1; 0]%Z 1). exists x.
  destruct (stokes_A_strain_rep [2; 2]%Z [false; false] sq_dms eq_refl sq_grid sq_layout _ _ _ _ (nv0 _ _) (np0 _) (ev0 _ _ sq_grid) (ep0 _ _ sq_grid) h0 h1) as (A & EA & W). destruct (W x) as [W1 _].
  destruct (stokes_rep_strain [h0; h1] [2; 2]%Z [false; false] 2 sq_dms (x false) (x true) sq_grid sq_layout) as (yv & yp & Ey & Wy).
  destruct (Wy _ _ _ _ (nv0 _ _) (np0 _) (ev0 _ _ sq_grid) (ep0 _ _ sq_grid)) as [Y1 _].
  exists A, yv, yp. split; [exact sq_grid|]. split; [exact sq_layout|]. split; [exact EA|]. split; [exact Ey|].
  assert (Hn : in_grid_box (nodes_box (refined_size [2; 2]%Z [false; false])) [0; 0]%Z) by (split; repeat constructor; simpl; lia).
  rewrite <- (inner_unit _ 2 (MatMult A x false) [0; 0]%Z 0 Hn ltac:(lia)), <- (inner_unit _ 2 yv [0; 0]%Z 0 Hn ltac:(lia)), W1, Y1.
  change (refined_size [2; 2]%Z [false; false]) with [3; 3]%Z. rewrite strain_split.
  match goal with |- ?a + ?b - ?c = ?a - ?c + _ => enough (K : b = 1 / 2) by (rewrite K; ring) end.
  change (E0 [3; 3]%Z [false; false]) with [[0; 0]; [1; 0]; [0; 1]; [1; 1]]%Z. unfold x.
  unfold Lsum, gv, unit_field, Kd. cbn. unfold matElem2d_dxudyu, entry, matElem2d_dxudyu_q, Q2R. cbn. field.
Qed.

(** ** C32: one process, periodic in x and not in y: the wrong rows are replaced *)
Definition band_dms := createMesh [3; 2]%Z [true; false] [[2]; [2]]%Z.
Example band_layout : stokes_layout [2; 2]%Z [true; false] 2 band_dms.
Proof. apply (C28_createMesh_layout [3; 2]%Z [true; false] [[2]; [2]]%Z eq_refl). repeat constructor; simpl; try lia; try discriminate. Qed.
Theorem C32_single_process_band_refuted : exists A', length band_dms = 1%nat /\ SetDirichletOnMat band_dms [] = Ok A' /\
  let x := fun _ _ _ => 1 in
  on_wall (refined_size [2; 2]%Z [true; false]) [true; false] [0; 2]%Z /\ MatMult A' x false [0; 2]%Z 0%nat <> x false [0; 2]%Z 0%nat /\
  ~ on_wall (refined_size [2; 2]%Z [true; false]) [true; false] [2; 1]%Z /\ MatMult A' x false [2; 1]%Z 0%nat <> MatMult [] x false [2; 1]%Z 0%nat.
Proof.
  eexists. split; [reflexivity|]. split; [cbv -[Rplus Rmult IZR]; reflexivity|].
  cbv zeta. split; [exists (1%nat, true); split; [cbn; auto|reflexivity]|]. split.
  - unfold MatMult. cbn. lra.
  - split; [|unfold MatMult; cbn; lra]. intros (s & Hs & Ho). cbn in Hs. destruct Hs as [<-|[<-|[<-|[<-|[]]]]]; discriminate Ho.
Qed.

(** ** C32: the assembled matrix constrains every wall row, also those the table leaves free *)
Definition free_table : list bc_row := [[None; None]; [None; None]; [None; None]; [None; None]].
Theorem C32_free_sides_refuted : forall h0 h1, 0 < h0 -> 0 < h1 -> exists x A A' yv yp, table_ok 2 2 free_table /\
  stokes_A false h0 h1 sq_dms = Ok A /\ SetDirichletOnMat sq_dms A = Ok A' /\
  stokes_matrix (laplacian_mult [h0; h1]) [h0; h1] 2 (Some (map Some free_table)) sq_dms (x false) (x true) = Ok (yv, yp) /\
  MatMult A' x false [0; 0]%Z 0%nat <> yv [0; 0]%Z 0%nat.
Proof.
  intros h0 h1 P0 P1. pose (x := fun b : bool => if b then zero_field else unit_field [1; 1]%Z 0). exists x.
  destruct (C26_stokes_laplacian h0 h1 [2; 2]%Z [false; false] sq_dms x eq_refl sq_grid sq_layout) as (A & rv & rp & EA & Er & W1 & W2).
  assert (HN : nonempty_views (map fst sq_dms)) by (repeat constructor; simpl; lia).
  destruct (C32_dirichlet_rows [2; 2]%Z [false; false] sq_dms A eq_refl sq_grid sq_layout HN ltac:(intros _ E; discriminate E)) as (A' & EA' & V). destruct (V x) as [V1 _].
  assert (HT : table_ok 2 2 free_table) by (split; [reflexivity|repeat constructor]).
  destruct (C31_stokes_laplacian [h0; h1] [2; 2]%Z [false; false] 2 free_table sq_dms (x false) (x true) sq_grid sq_layout HN HT) as (rv' & rp' & yv & Er' & Ey & Vy).
  destruct (stokes_rep_lap [h0; h1] [2; 2]%Z [false; false] 2 sq_dms (x false) (x true) sq_grid sq_layout) as (yv' & yp' & Ey' & Wy).
  rewrite Ey' in Er'. injection Er' as <- <-.
  destruct (Wy _ _ _ _ (nv0 _ _) (np0 _) (ev0 _ _ sq_grid) (ep0 _ _ sq_grid)) as [Y1 _].
  exists A, A', yv, yp'. split; [exact HT|]. split; [exact EA|]. split; [exact EA'|]. split; [exact Ey|].
  assert (Hn : in_grid_box (nodes_box (refined_size [2; 2]%Z [false; false])) [0; 0]%Z) by (split; repeat constructor; simpl; lia).
  rewrite (proj1 (V1 [0; 0]%Z 0%nat Hn ltac:(lia))) by (exists (0%nat, false); split; [cbn; auto|reflexivity]).
  rewrite (Vy [0; 0]%Z 0%nat Hn ltac:(lia)). cbn [prescribed]. change (prescribed _ _ _ free_table [0; 0]%Z 0) with (@None (list R -> R)). cbv iota.
  rewrite <- (inner_unit _ 2 yv' [0; 0]%Z 0 Hn ltac:(lia)), Y1. change (refined_size [2; 2]%Z [false; false]) with [3; 3]%Z. unfold x.
  replace (div_form _ _ _ _ _ _ zero_field _) with 0.
  2:{ symmetry. unfold div_form. apply Lsum_all_zero. intros e _. unfold gv at 1, zero_field. transitivity (Rsum (2 ^ 2) (fun _ => 0)); [|apply Rsum_zero]. apply Rsum_ext. intros. transitivity (Rsum (3 ^ 2) (fun _ => 0)); [|apply Rsum_zero]. apply Rsum_ext. intros. transitivity (Rsum 2 (fun _ => 0)); [|apply Rsum_zero]. apply Rsum_ext. intros. ring. }
  change (E0 [3; 3]%Z [false; false]) with [[0; 0]; [1; 0]; [0; 1]; [1; 1]]%Z.
  unfold scalar_form, Lsum, gv, unit_field. cbn.
  intros K. assert (K2 : getMatElemLaplacian2 h0 h1 0 3 = 0) by lra. revert K2. clear - P0 P1.
  unfold getMatElemLaplacian2. rewrite (tab_dxudxu2 0 3), (tab_dyudyu2 0 3) by lia. cbn. assert (0 < h1 / h0) by (apply Rdiv_lt_0_compat; auto). assert (0 < h0 / h1) by (apply Rdiv_lt_0_compat; auto). lra.
Qed.
