(** C68: the vector the driver declares as the null space of the assembled matrix. *)
From Coq Require Import Permutation QArith Qreals.
From Coquelicot Require Import Coquelicot.
From Verif Require Import Base M_Geometry S_Geometry P_Geometry M_Particle S_Particle P_Particle M_Quadrature S_Fem M_MatElem P_MatElem P_Energy M_Mesh M_Operator M_Bc M_Assembly S_Operator S_Bc P_Mesh P_Operator P_Operator2 P_Global P_Stokes P_Operator3 P_Bc P_Diag P_Assembly P_Assembly2 P_Telescope P_Constant P_AssemblyBc P_Flux Prop_Operator Prop_Operator2 Prop_Assembly Prop_Assembly2 Prop_StokesUnique Prop_Flux.
From Verif Require Import M_NullSpace.
Open Scope R_scope.

Lemma fold_Lsum {A} (f : A -> R) l : fold_right Rplus 0 (map f l) = Lsum f l. Proof. reflexivity. Qed.
Lemma owned_total m per dof dms f N : grid_ok m per -> distributes m per dof dms -> enumerates N (nodes_box m) ->
  owned_sum f dms = Lsum (fun n => Rsum dof (f n)) N.
Proof.
  intros HG [V T] HN. pose proof HG as (_ & Lp & _). unfold owned_sum. rewrite fold_Lsum.
  assert (HB : has_dim (length m) (nodes_box m)) by (split; cbn; rewrite ?map_length; reflexivity).
  assert (HO : Forall (has_dim (length m)) (map g_own dms)). { rewrite Forall_map. eapply Forall_impl; [|exact V]. intros dm Hv. apply (view_dims m per dof dm Hv Lp). }
  rewrite (Lsum_perm _ N (grid_pts (nodes_box m)) (enum_perm _ _ _ HN (grid_pts_enum _ _ HB))), <- (Lsum_perm _ _ _ (tiling_perm (length m) _ _ T HB HO)), Lsum_flat_map, Lsum_map.
  apply Lsum_ext. intros dm Hdm. rewrite Forall_forall in V. destruct (V dm Hdm) as (_ & _ & Ed & _). rewrite fold_Lsum, Ed.
  rewrite Forall_forall in HO. assert (HD : has_dim (length m) (g_own dm)) by (apply HO, in_map, Hdm).
  rewrite (Lsum_perm _ (box_points_list (g_own dm)) (grid_pts (g_own dm))); [apply Lsum_ext; intros n _; rewrite fold_Lsum; apply Lsum_seq|].
  apply (enum_perm _ _ (g_own dm)); [|apply (grid_pts_enum _ _ HD)]. apply (box_points_list_enum _ _ HD).
Qed.
Lemma null_vec mp per dms D : grid_ok mp per -> stokes_layout mp per D dms ->
  exists s, 0 < s /\ s * s = Lsum (fun _ => 1) (N0 mp) /\ (forall n c, CreatePressureNullSpace dms false n c = 0) /\ (forall n c, CreatePressureNullSpace dms true n c = 1 / s).
Proof.
  intros HG (DV & DP & _). pose proof (refined_grid mp per HG) as HGv.
  assert (Pos : 0 < Lsum (fun _ => 1) (N0 mp)).
  { destruct (N0_enum mp) as [_ HI]. pose proof (origin_node mp (proj2 (proj2 HG))) as O. apply HI in O. destruct (N0 mp) as [|a l]; [destruct O|]. rewrite Lsum_cons. assert (0 <= Lsum (fun _ : list Z => 1) l) by (apply Lsum_nonneg; intros; lra). lra. }
  exists (sqrt (Lsum (fun _ => 1) (N0 mp))).
  assert (S0 : 0 < sqrt (Lsum (fun _ => 1) (N0 mp))) by (apply sqrt_lt_R0, Pos).
  assert (Nz : VecNorm dms (fill_global true 1 (VecSet 0)) = sqrt (Lsum (fun _ => 1) (N0 mp))).
  { unfold VecNorm. rewrite (owned_total _ per D _ _ _ HGv DV (N0_enum _)), (owned_total _ per 1 _ _ _ HG DP (N0_enum _)). f_equal. unfold fill_global, VecSet. cbn [Bool.eqb].
    rewrite Lsum_all_zero; [|intros n _; rewrite (Rsum_ext _ _ (fun _ => 0)); [apply Rsum_zero|intros; ring]]. rewrite Rplus_0_l. apply Lsum_ext. intros n _. cbn [Rsum]. ring. }
  split; [exact S0|]. split; [apply sqrt_sqrt; lra|]. unfold CreatePressureNullSpace, VecNormalize. cbv zeta. rewrite Nz. destruct (Req_EM_T _ 0) as [E|_]; [lra|]. unfold fill_global, VecSet. cbn [Bool.eqb]. split; intros n c; [unfold Rdiv; ring|reflexivity].
Qed.
(** the vector has norm 1 and the kernel of the assembled and constrained matrix is exactly the line it spans *)
Theorem C68_null_space_is_the_kernel : forall (strain : bool) h0 h1 mp per bc dms, let mv := refined_size mp per in let z := CreatePressureNullSpace dms in
  length mp = 2%nat -> grid_ok mp per -> has_cells mp per -> at_most_one_thin mp per -> 0 < h0 -> 0 < h1 -> stokes_layout mp per 2 dms -> nonempty_views (map fst dms) -> single_is_safe per dms ->
  table_ok 2 2 bc -> all_conditions 2 2 per bc -> held strain 2 mv per bc ->
  (forall Nv Np, enumerates Nv (nodes_box mv) -> enumerates Np (nodes_box mp) -> inner Nv 2 (z false) (z false) + inner Np 1 (z true) (z true) = 1) /\
  exists A A', stokes_A strain h0 h1 dms = Ok A /\ SetDirichletOnMat dms A = Ok A' /\ forall x,
    (same_field mv 2 (MatMult A' x false) zero_field /\ same_field mp 1 (MatMult A' x true) zero_field) <->
    exists t, same_field mv 2 (x false) (fun n c => t * z false n c) /\ same_field mp 1 (x true) (fun n c => t * z true n c).
Proof.
  intros strain h0 h1 mp per bc dms mv z H2 HG HC H1 P0 P1 HS HN HQ HT HA HH.
  destruct (null_vec mp per dms 2 HG HS) as (s & S0 & Ss & Zv & Zp). split.
  - intros Nv Np _ HNp. unfold inner. rewrite (Lsum_all_zero _ Nv); [|intros n _; rewrite (Rsum_ext _ _ (fun _ => 0)); [apply Rsum_zero|intros c _; unfold z; rewrite Zv; ring]].
    rewrite (Lsum_ext _ (fun n => 1 / s * (1 / s) * 1)); [|intros n _; cbn [Rsum]; unfold z; rewrite Zp; ring]. rewrite Lsum_scal, (Lsum_perm _ _ _ (enum_perm _ _ _ HNp (N0_enum mp))), <- Ss. field. lra.
  - assert (EA : exists A A', stokes_A strain h0 h1 dms = Ok A /\ SetDirichletOnMat dms A = Ok A' /\ forall x, exists yv yp,
      stokes_matrix (if strain then strain_tensor_mult [h0; h1] else laplacian_mult [h0; h1]) [h0; h1] 2 (Some (map Some bc)) dms (x false) (x true) = Ok (yv, yp) /\
      same_field mv 2 (MatMult A' x false) yv /\ same_field mp 1 (MatMult A' x true) yp).
    { pose proof (fun x => match strain as b return (exists A A' yv yp, stokes_A b h0 h1 dms = Ok A /\ SetDirichletOnMat dms A = Ok A' /\
        stokes_matrix (if b then strain_tensor_mult [h0; h1] else laplacian_mult [h0; h1]) [h0; h1] 2 (Some (map Some bc)) dms (x false) (x true) = Ok (yv, yp) /\
        same_field (refined_size mp per) 2 (MatMult A' x false) yv /\ same_field mp 1 (MatMult A' x true) yp) with
        | true => C32_constrained_strain h0 h1 mp per dms bc x H2 HG HS HN HQ HT HA | false => C32_constrained_laplacian h0 h1 mp per dms bc x H2 HG HS HN HQ HT HA end) as K.
      destruct (K (fun _ => zero_field)) as (A & A' & _ & _ & E1 & E2 & _). exists A, A'. split; [exact E1|]. split; [exact E2|]. intros x. destruct (K x) as (B & B' & yv & yp & F1 & F2 & F). rewrite E1 in F1. injection F1 as <-. rewrite E2 in F2. injection F2 as <-. exists yv, yp. exact F. }
    destruct EA as (A & A' & E1 & E2 & K). exists A, A'. split; [exact E1|]. split; [exact E2|]. intros x. destruct (K x) as (yv & yp & E & V & W).
    assert (HB : normal_conditions 2 per bc). { intros sd Hs Hp. apply (HA sd (fst sd) Hs Hp). unfold sides in Hs. apply in_flat_map in Hs as (d & Hd & Hs). apply in_seq in Hd. destruct Hs as [<-|[<-|[]]]; cbn; lia. }
    pose proof (kernel_iff strain [h0; h1] mp per bc dms) as KI. rewrite H2 in KI. unfold viscous in KI.
    assert (Hh : steps_ok [h0; h1] mp) by (split; [symmetry; exact H2|constructor; [exact P0|constructor; [exact P1|constructor]]]).
    specialize (KI HG HS HN HT HC Hh HH H1 (x false) (x true) yv yp HB E).
    assert (C : forall a b c m d, same_field m d a b -> (same_field m d a c <-> same_field m d b c)) by (intros a b c m d Q; split; intros Q' n k Hn Hk; rewrite <- (Q' n k Hn Hk); rewrite (Q n k Hn Hk); reflexivity).
    rewrite (C _ _ _ _ _ V), (C _ _ _ _ _ W). etransitivity; [exact KI|]. split.
    + intros (X0 & c & Xc). exists (c * s). split; intros n d Hn Hd; unfold z; [rewrite Zv, (X0 n d Hn Hd); unfold zero_field; ring|rewrite Zp, (Xc n d Hn Hd); unfold constant; field; lra].
    + intros (t & X0 & Xc). split; [|exists (t / s)]; intros n d Hn Hd; [rewrite (X0 n d Hn Hd); unfold z, zero_field; rewrite Zv; ring|rewrite (Xc n d Hn Hd); unfold z, constant; rewrite Zp; field; lra].
Qed.
(** the hypotheses hold for a channel on four processes *)
Example ex_null_space : forall strain, length ex_mp = 2%nat /\ grid_ok ex_mp ex_per /\ has_cells ex_mp ex_per /\ at_most_one_thin ex_mp ex_per /\ stokes_layout ex_mp ex_per 2 ex_dms /\ nonempty_views (map fst ex_dms) /\
  single_is_safe ex_per ex_dms /\ table_ok 2 2 ex_walls /\ all_conditions 2 2 ex_per ex_walls /\ held strain 2 (refined_size ex_mp ex_per) ex_per ex_walls.
Proof.
  intros strain. pose proof (ex_well_posed strain) as (A1 & A2 & A3 & _ & A4 & A5 & A6 & A7 & _). pose proof ex_assembly as (B0 & _ & _ & _ & B4 & _ & B6 & _).
  exact (conj B0 (conj A1 (conj A2 (conj A3 (conj A4 (conj A5 (conj B4 (conj A6 (conj B6 A7))))))))).
Qed.

(** ** without walls the declared vector does not span the kernel: uniform flows are in it too *)
Lemma const_lap h0 h1 m0 m1 q0 q1 E v c : 0 < h0 -> 0 < h1 -> scalar_form [m0; m1] [q0; q1] E 2 (getMatElemLaplacian [h0; h1]) v (constant c) = 0.
Proof.
  intros P0 P1. unfold scalar_form. apply Lsum_all_zero. intros e _. unfold gv at 2, constant. change (2 ^ length [m0; m1])%nat with 4%nat. generalize (gv [m0; m1] [q0; q1] v e). intros w.
  cbn [Rsum getMatElemLaplacian]. unfold getMatElemLaplacian2, matElem2d_dxudxu, matElem2d_dyudyu, entry, matElem2d_dxudxu_q, matElem2d_dyudyu_q, Q2R. cbn [nth Qnum Qden]. field. lra.
Qed.
Lemma const_strain h0 h1 m0 m1 q0 q1 E v c : 0 < h0 -> 0 < h1 -> tensor_form [m0; m1] [q0; q1] E 2 (getMatElemStrainTensor [h0; h1]) v (constant c) = 0.
Proof.
  intros P0 P1. unfold tensor_form. apply Lsum_all_zero. intros e _. unfold gv at 2, constant. change (2 ^ length [m0; m1])%nat with 4%nat. generalize (gv [m0; m1] [q0; q1] v e). intros w.
  cbn [Rsum getMatElemStrainTensor]. unfold getMatElemStrainTensor2, matElem2d_dxudxu, matElem2d_dyudyu, matElem2d_dxudyu, entry, matElem2d_dxudxu_q, matElem2d_dyudyu_q, matElem2d_dxudyu_q, Q2R. cbn [nth Qnum Qden]. field. lra.
Qed.
Lemma const_div h0 h1 m0 m1 q0 q1 E q c mv : div_form mv [m0; m1] [q0; q1] E 2 (getMatElemPressure [h0; h1]) q (constant c) = 0.
Proof.
  unfold div_form. apply Lsum_all_zero. intros e _. unfold gv3, constant. change (2 ^ length [m0; m1])%nat with 4%nat. change (3 ^ length [m0; m1])%nat with 9%nat. generalize (gv [m0; m1] [q0; q1] q e). intros w.
  cbn [Rsum getMatElemPressure]. unfold getMatElemPressure2, matElem2d_pdxu, matElem2d_pdyu, entry, matElem2d_pdxu_q, matElem2d_pdyu_q, Q2R. cbn [nth Qnum Qden]. field.
Qed.
Lemma div_zero_p mv mp per E dof M u : div_form mv mp per E dof M zero_field u = 0.
Proof. unfold div_form. apply Lsum_all_zero. intros e _. unfold gv, zero_field. transitivity (Rsum (2 ^ length mp) (fun _ => 0)); [|apply Rsum_zero]. apply Rsum_ext. intros. transitivity (Rsum (3 ^ length mp) (fun _ => 0)); [|apply Rsum_zero]. apply Rsum_ext. intros. transitivity (Rsum dof (fun _ => 0)); [|apply Rsum_zero]. apply Rsum_ext. intros. ring. Qed.
(** stated for every fully periodic grid: the uniform flow along the first axis is in the kernel, and is not a multiple of the declared vector *)
Theorem C68_periodic_refuted : forall (strain : bool) h0 h1 m0 m1 dms, let mp := [m0; m1] in let per := [true; true] in let z := CreatePressureNullSpace dms in
  grid_ok mp per -> 0 < h0 -> 0 < h1 -> stokes_layout mp per 2 dms -> nonempty_views (map fst dms) ->
  exists A A', stokes_A strain h0 h1 dms = Ok A /\ SetDirichletOnMat dms A = Ok A' /\ exists x,
    same_field (refined_size mp per) 2 (MatMult A' x false) zero_field /\ same_field mp 1 (MatMult A' x true) zero_field /\
    ~ exists t, same_field (refined_size mp per) 2 (x false) (fun n c => t * z false n c) /\ same_field mp 1 (x true) (fun n c => t * z true n c).
Proof.
  intros strain h0 h1 m0 m1 dms mp per z HG P0 P1 HS HN.
  set (bc := [[None; None]; [None; None]; [None; None]; [None; None]] : list bc_row). assert (HT : table_ok 2 2 bc) by (split; [reflexivity|repeat constructor]).
  assert (HA : all_conditions 2 2 per bc). { intros s c Hs Hp _. exfalso. cbn in Hs. destruct Hs as [<-|[<-|[<-|[<-|[]]]]]; discriminate Hp. }
  assert (HQ : single_is_safe per dms) by (intros _ _; reflexivity).
  set (x := fun b : bool => if b then zero_field else constant 1).
  assert (K : exists A A' yv yp, stokes_A strain h0 h1 dms = Ok A /\ SetDirichletOnMat dms A = Ok A' /\
     stokes_matrix (if strain then strain_tensor_mult [h0; h1] else laplacian_mult [h0; h1]) [h0; h1] 2 (Some (map Some bc)) dms (x false) (x true) = Ok (yv, yp) /\
     same_field (refined_size mp per) 2 (MatMult A' x false) yv /\ same_field mp 1 (MatMult A' x true) yp).
  { destruct strain; [apply (C32_constrained_strain h0 h1 mp per dms bc x eq_refl HG HS HN HQ HT HA)|apply (C32_constrained_laplacian h0 h1 mp per dms bc x eq_refl HG HS HN HQ HT HA)]. }
  destruct K as (A & A' & yv & yp & E1 & E2 & E & V & W). exists A, A'. split; [exact E1|]. split; [exact E2|]. exists x.
  destruct (facts strain [h0; h1] mp per bc dms HG HS HN HT (x false) (x true)) as (rv & rp & yv' & _ & E' & V' & W' & Q'). unfold viscous in E'. change (length mp) with 2%nat in E', V', W', Q'. rewrite E in E'. injection E' as <- <-.
  assert (RV : same_field (refined_size mp per) 2 rv zero_field).
  { apply same_field_weak. intros v. rewrite inner_zero, W'. unfold aform. change (refined_size mp per) with [2 * m0; 2 * m1]%Z. unfold x. destruct strain; [rewrite (const_strain h0 h1 _ _ true true)|rewrite (const_lap h0 h1 _ _ true true)]; auto; rewrite div_zero_p; ring. }
  split; [|split].
  - intros n c Hn Hc. rewrite (V n c Hn Hc), (V' n c Hn Hc). replace (prescribed 2 (refined_size mp per) per bc n c) with (@None condition_fn); [apply RV; auto|].
    unfold prescribed. cbn [sides seq flat_map app fold_left]. unfold on_side. cbn [fst nth negb andb]. reflexivity.
  - intros n c Hn Hc. rewrite (W n c Hn Hc). revert n c Hn Hc. apply same_field_weak. intros q. rewrite Q', inner_zero. apply (const_div h0 h1 m0 m1 true true).
  - intros (t & T & _). destruct (null_vec mp per dms 2 HG HS) as (s & _ & _ & Zv & _). pose proof (origin_node (refined_size mp per) (proj2 (proj2 (refined_grid mp per HG)))) as O. specialize (T _ 0%nat O ltac:(lia)). unfold z in T. rewrite Zv in T. unfold x, constant in T. lra.
Qed.
Definition torus_dms := createMesh [5; 4]%Z [true; true] [[4]; [3]]%Z.
Example ex_torus : grid_ok [4; 3]%Z [true; true] /\ stokes_layout [4; 3]%Z [true; true] 2 torus_dms /\ nonempty_views (map fst torus_dms).
Proof.
  split; [repeat split; simpl; auto; repeat constructor; lia|]. split; [apply (C28_createMesh_layout [5; 4]%Z [true; true] [[4]; [3]]%Z eq_refl); repeat constructor; simpl; try lia; try discriminate|]. unfold torus_dms. vm_compute. repeat constructor.
Qed.
