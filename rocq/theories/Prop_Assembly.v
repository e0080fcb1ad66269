(** C26, C32, C56: assembled matrices, Dirichlet rows, the constant pressure. *)
From Coquelicot Require Import Coquelicot.
From Verif Require Import Base M_Geometry S_Geometry P_Geometry M_Particle S_Particle P_Particle M_Quadrature S_Fem M_MatElem P_MatElem P_Energy M_Mesh M_Operator M_Bc M_Assembly S_Operator S_Bc P_Mesh P_Operator P_Operator2 P_Global P_Stokes P_Operator3 P_Bc P_Diag P_Assembly P_Assembly2 P_Telescope P_Constant P_AssemblyBc Prop_Operator Prop_Operator2.
Open Scope R_scope.

Definition zero_field : field := fun _ _ => 0.
Lemma inner_zero N dof v : inner N dof zero_field v = 0.
Proof. unfold inner, zero_field. apply Lsum_all_zero. intros n _. transitivity (Rsum dof (fun _ => 0)); [apply Rsum_ext; intros; ring|apply Rsum_zero]. Qed.

Section Enum.
  Variables (mp : list Z) (per : list bool).
  Hypothesis HG : grid_ok mp per.
  Lemma nv0 : enumerates (N0 (refined_size mp per)) (nodes_box (refined_size mp per)). Proof. apply N0_enum. Qed.
  Lemma np0 : enumerates (N0 mp) (nodes_box mp). Proof. apply N0_enum. Qed.
  Lemma ev0 : enumerates (E0 (refined_size mp per) per) (cells_box (refined_size mp per) per). Proof. apply E0_enum, (refined_grid mp per HG). Qed.
  Lemma ep0 : enumerates (E0 mp per) (cells_box mp per). Proof. apply E0_enum, HG. Qed.
End Enum.

(** ** C26 *)
Theorem C26_laplacian : forall h0 h1 mp per dms x, length mp = 2%nat -> grid_ok mp per -> stokes_layout mp per 2 dms ->
  exists A y, assemble (laplacian_assembling h0 h1) dms [] = Ok A /\ diag_block_matrix_raw (laplacian_mult [h0; h1]) (map fst dms) (x false) = Ok y /\
    same_field (refined_size mp per) 2 (MatMult A x false) y /\ same_field mp 1 (MatMult A x true) zero_field.
Proof.
  intros h0 h1 mp per dms x H2 HG HS. pose proof (refined_grid mp per HG) as HGv.
  destruct (lap_rep mp per dms H2 HG HS _ _ _ (nv0 mp per) (np0 mp) (ev0 mp per HG) h0 h1) as (A & EA & W). destruct (W x) as [W1 W2].
  destruct (rep_diag (refined_size mp per) per 2 (getMatElemLaplacian [h0; h1]) HGv (map fst dms) (x false) (proj1 HS)) as (y & Ey & Wy).
  exists A, y. split; [exact EA|]. split; [exact Ey|]. split; apply same_field_weak; intros v.
  - rewrite W1. symmetry. apply Wy; [apply nv0|apply ev0, HG].
  - rewrite W2, inner_zero. reflexivity.
Qed.
Theorem C26_mass : forall h0 h1 mp per dms x, length mp = 2%nat -> grid_ok mp per -> stokes_layout mp per 2 dms ->
  exists A y, assemble (mass_assembling h0 h1) dms [] = Ok A /\ diag_block_matrix_raw (mass_mult [h0; h1]) (map snd dms) (x true) = Ok y /\
    same_field mp 1 (MatMult A x true) y /\ same_field (refined_size mp per) 2 (MatMult A x false) zero_field.
Proof.
  intros h0 h1 mp per dms x H2 HG HS.
  destruct (mass_rep mp per dms H2 HG HS _ _ _ (nv0 mp per) (np0 mp) (ep0 mp per HG) h0 h1) as (A & EA & W). destruct (W x) as [W1 W2].
  destruct (rep_diag mp per 1 (getMatElemMass [h0; h1]) HG (map snd dms) (x true) (proj1 (proj2 HS))) as (y & Ey & Wy).
  exists A, y. split; [exact EA|]. split; [exact Ey|]. split; apply same_field_weak; intros v.
  - rewrite W2. symmetry. apply Wy; [apply np0|apply ep0, HG].
  - rewrite W1, inner_zero. reflexivity.
Qed.
(** the Stokes matrix assembled by problem::stokes, Laplacian formulation *)
Theorem C26_stokes_laplacian : forall h0 h1 mp per dms x, length mp = 2%nat -> grid_ok mp per -> stokes_layout mp per 2 dms ->
  exists A yv yp, stokes_A false h0 h1 dms = Ok A /\ stokes_matrix_raw (laplacian_mult [h0; h1]) [h0; h1] dms (x false) (x true) = Ok (yv, yp) /\
    same_field (refined_size mp per) 2 (MatMult A x false) yv /\ same_field mp 1 (MatMult A x true) yp.
Proof.
  intros h0 h1 mp per dms x H2 HG HS.
  destruct (stokes_A_lap_rep mp per dms H2 HG HS _ _ _ _ (nv0 mp per) (np0 mp) (ev0 mp per HG) (ep0 mp per HG) h0 h1) as (A & EA & W). destruct (W x) as [W1 W2].
  destruct (stokes_rep_lap [h0; h1] mp per 2 dms (x false) (x true) HG HS) as (yv & yp & Ey & Wy).
  destruct (Wy _ _ _ _ (nv0 mp per) (np0 mp) (ev0 mp per HG) (ep0 mp per HG)) as [Y1 Y2].
  exists A, yv, yp. split; [exact EA|]. split; [exact Ey|]. split; apply same_field_weak; intros v; [rewrite W1, Y1|rewrite W2, Y2]; reflexivity.
Qed.
(** node n is on a wall: on a side of a non-periodic axis *)
Definition on_wall (m : list Z) (per : list bool) (n : list Z) : Prop := exists s, In s (sides (length m)) /\ on_side m per n s = true.
Lemma unit_null m per n c c' : length m = 2%nat -> ~ on_wall m per n -> null_on_sides m per 2 (unit_field n c) c'.
Proof.
  intros L H q s Hq Hs Ho. unfold unit_field. destruct (same_node_spec n q) as [<-|]; [|reflexivity]. exfalso. apply H. exists s. split; [|exact Ho].
  rewrite L. destruct s as [[|[|]] []]; cbn in Hs; try lia; cbn; auto.
Qed.
Lemma inner_unit m dof y n c : in_grid_box (nodes_box m) n -> (c < dof)%nat -> inner (N0 m) dof y (unit_field n c) = y n c.
Proof.
  intros Hn Hc. unfold inner, unit_field. destruct (N0_enum m) as [HN HI]. apply HI in Hn.
  rewrite <- (Lsum_pick (list_eq_dec Z.eq_dec) n (fun q => y q c) (N0 m) HN Hn). apply Lsum_ext. intros q _.
  destruct (same_node_spec n q) as [<-|Ne]; destruct (list_eq_dec Z.eq_dec n _) as [E|E]; try congruence; cbn [andb].
  - rewrite <- (Rsum_pick dof c (fun d => y n d) Hc). apply Rsum_ext. intros d _. destruct (Nat.eqb c d); ring.
  - transitivity (Rsum dof (fun _ => 0)); [apply Rsum_ext; intros; ring|apply Rsum_zero].
Qed.
(** strain-tensor formulation: the same away from the walls and in the pressure rows *)
Theorem C26_stokes_strain_off_walls : forall h0 h1 mp per dms x, length mp = 2%nat -> grid_ok mp per -> stokes_layout mp per 2 dms ->
  exists A yv yp, stokes_A true h0 h1 dms = Ok A /\ stokes_matrix_raw (strain_tensor_mult [h0; h1]) [h0; h1] dms (x false) (x true) = Ok (yv, yp) /\
    (forall n c, in_grid_box (nodes_box (refined_size mp per)) n -> (c < 2)%nat -> ~ on_wall (refined_size mp per) per n -> MatMult A x false n c = yv n c) /\
    same_field mp 1 (MatMult A x true) yp.
Proof.
  intros h0 h1 mp per dms x H2 HG HS. pose proof (refined_grid mp per HG) as HGv. pose proof (lmv mp per H2 HG) as L.
  destruct (stokes_A_strain_rep mp per dms H2 HG HS _ _ _ _ (nv0 mp per) (np0 mp) (ev0 mp per HG) (ep0 mp per HG) h0 h1) as (A & EA & W). destruct (W x) as [W1 W2].
  destruct (stokes_rep_strain [h0; h1] mp per 2 dms (x false) (x true) HG HS) as (yv & yp & Ey & Wy).
  destruct (Wy _ _ _ _ (nv0 mp per) (np0 mp) (ev0 mp per HG) (ep0 mp per HG)) as [Y1 Y2].
  exists A, yv, yp. split; [exact EA|]. split; [exact Ey|]. split; [|apply same_field_weak; intros v; rewrite W2, Y2; reflexivity].
  intros n c Hn Hc Hw. rewrite <- (inner_unit (refined_size mp per) 2 (MatMult A x false) n c Hn Hc), <- (inner_unit (refined_size mp per) 2 yv n c Hn Hc), W1, Y1. f_equal.
  pose proof (unit_null (refined_size mp per) per n c 0 L Hw) as NU. pose proof (ev0 mp per HG) as HE. destruct HGv as (_ & HL & HF).
  destruct (refined_size mp per) as [|m0 [|m1 [|]]]; try discriminate L. destruct per as [|q0 [|q1 [|]]]; try discriminate HL.
  inversion HF as [|? ? F0 F']; subst. inversion F' as [|? ? F1 _]; subst. apply strain_same; auto.
Qed.
(** the preconditioner assembled by problem::stokes, Laplacian formulation, is block diagonal *)
Theorem C26_preconditioner : forall h0 h1 hp0 hp1 mp per dms x, length mp = 2%nat -> grid_ok mp per -> stokes_layout mp per 2 dms ->
  exists P yv yp, stokes_P false h0 h1 hp0 hp1 dms = Ok P /\
    diag_block_matrix_raw (laplacian_mult [h0; h1]) (map fst dms) (x false) = Ok yv /\ diag_block_matrix_raw (mass_mult [hp0; hp1]) (map snd dms) (x true) = Ok yp /\
    same_field (refined_size mp per) 2 (MatMult P x false) yv /\ same_field mp 1 (MatMult P x true) yp.
Proof.
  intros h0 h1 hp0 hp1 mp per dms x H2 HG HS.
  destruct (C26_laplacian h0 h1 mp per dms x H2 HG HS) as (A & yv & EA & Ev & A1 & A2). destruct (C26_mass hp0 hp1 mp per dms x H2 HG HS) as (B & yp & EB & Ep & B1 & B2).
  unfold stokes_P. rewrite EA. cbn [bind]. rewrite (run_mass mp per dms H2 HG HS hp0 hp1) in *. injection EB as <-. cbn [app].
  eexists _, yv, yp. split; [reflexivity|]. split; [exact Ev|]. split; [exact Ep|]. split; intros n d Hn Hd; rewrite mm_app.
  - rewrite A1, B2 by auto. unfold zero_field. ring.
  - rewrite A2, B1 by auto. unfold zero_field. ring.
Qed.
(** [diagonal_assembling] leaves the operator as it was, whatever value it is given *)
Theorem C26_diagonal_adds_nothing : forall value mp per dms A, length mp = 2%nat -> grid_ok mp per -> stokes_layout mp per 2 dms ->
  exists A', assemble (diagonal_assembling value) dms A = Ok A' /\ forall x b n c, MatMult A' x b n c = MatMult A x b n c.
Proof.
  intros value mp per dms A H2 HG HS. rewrite (run_diag mp per dms H2 HG HS value). eexists. split; [reflexivity|]. intros x b n c. rewrite mm_app.
  match goal with |- _ + ?r = _ => assert (Z0 : r = 0) end; [|rewrite Z0; ring].
  unfold MatMult. change (fold_right Rplus 0 (map ?f ?l)) with (Lsum f l). apply Lsum_all_zero. intros e He.
  assert (Z1 : snd e = 0).
  { unfold all_p in He. apply in_flat_map in He as [dm [_ He]]. apply in_flat_map in He as [q [_ He]]. unfold dblock in He. apply in_flat_map in He as [d [_ He]].
    unfold block in He. apply in_flat_map in He as [a [_ He]]. apply in_flat_map in He as [k [_ He]]. destruct He as [<-|[]]. reflexivity. }
  rewrite Z1. destruct (same_dof _ _); ring.
Qed.

(** ** C32 *)
Definition single_is_safe (per : list bool) (dms : list (dmda * dmda)) : Prop := length dms = 1%nat -> nth 0 per false = true -> nth 1 per false = true.
Definition wallb (m : list Z) (per : list bool) (n : list Z) : bool := existsb (on_side m per n) (sides 2).
Lemma wallb_spec m per n : length m = 2%nat -> (wallb m per n = true <-> on_wall m per n).
Proof. intros L. unfold wallb, on_wall. rewrite existsb_exists, L. reflexivity. Qed.
(** the rows of both velocity components at the wall nodes become rows of the identity, no
    other row changes *)
Theorem C32_dirichlet_rows : forall mp per dms A, length mp = 2%nat -> grid_ok mp per -> stokes_layout mp per 2 dms -> nonempty_views (map fst dms) -> single_is_safe per dms ->
  exists A', SetDirichletOnMat dms A = Ok A' /\ forall x,
    (forall n c, in_grid_box (nodes_box (refined_size mp per)) n -> (c < 2)%nat ->
      (on_wall (refined_size mp per) per n -> MatMult A' x false n c = x false n c) /\
      (~ on_wall (refined_size mp per) per n -> MatMult A' x false n c = MatMult A x false n c)) /\
    (forall n c, MatMult A' x true n c = MatMult A x true n c).
Proof.
  intros mp per dms A H2 HG HS HN HQ. pose proof (lmv mp per H2 HG) as L.
  assert (HC : Nat.eqb (length dms) 1 = true -> forall dm, In dm dms -> covers_all mp per dm).
  { intros E dm Hin n Hn. apply Nat.eqb_eq in E. destruct dms as [|d0 [|]]; try discriminate E. destruct Hin as [<-|[]].
    destruct HS as [[_ HT] _]. destruct (HT n) as [H _]. destruct (H Hn) as [k [Hk [Hi _]]]. cbn in Hk. assert (k = 0%nat) by lia. subst k. exact Hi. }
  assert (HQ' : Nat.eqb (length dms) 1 = true -> nth 0 per false = true -> nth 1 per false = true) by (intros E; apply Nat.eqb_eq in E; apply HQ, E).
  unfold SetDirichletOnMat. set (single := Nat.eqb (length dms) 1) in *.
  destruct (zero_side mp per dms H2 HG HS single (0%nat, false) A HN HC HQ' ltac:(cbn; auto)) as (A1 & E1 & V1). change (side_index (0%nat, false)) with 0%nat in E1. rewrite E1. cbn [bind].
  destruct (zero_side mp per dms H2 HG HS single (0%nat, true) A1 HN HC HQ' ltac:(cbn; auto)) as (A2 & E2 & V2). change (side_index (0%nat, true)) with 1%nat in E2. rewrite E2. cbn [bind].
  destruct (zero_side mp per dms H2 HG HS single (1%nat, false) A2 HN HC HQ' ltac:(cbn; auto)) as (A3 & E3 & V3). change (side_index (1%nat, false)) with 2%nat in E3. rewrite E3. cbn [bind].
  destruct (zero_side mp per dms H2 HG HS single (1%nat, true) A3 HN HC HQ' ltac:(cbn; auto)) as (A4 & E4 & V4). change (side_index (1%nat, true)) with 3%nat in E4. rewrite E4.
  exists A4. split; [reflexivity|]. intros x. split.
  - intros n c Hn Hc. rewrite <- (wallb_spec _ _ _ L). rewrite (V4 x false n c (conj Hn Hc)), (V3 x false n c (conj Hn Hc)), (V2 x false n c (conj Hn Hc)), (V1 x false n c (conj Hn Hc)).
    unfold wallb. cbn [sides flat_map seq app existsb negb andb]. 
    destruct (on_side _ per n (0%nat, false)), (on_side _ per n (0%nat, true)), (on_side _ per n (1%nat, false)), (on_side _ per n (1%nat, true)); cbn [orb]; split; intros HW; try reflexivity; try discriminate HW; destruct HW; reflexivity.
  - intros n c. rewrite (V4 x true n c I), (V3 x true n c I), (V2 x true n c I), (V1 x true n c I). reflexivity.
Qed.
(** Every side of a non-periodic axis has a condition on both components. *)
Definition all_conditions (D dof : nat) (per : list bool) (bc : list bc_row) : Prop :=
  forall s c, In s (sides D) -> nth (fst s) per false = false -> (c < dof)%nat -> nth c (nth (side_index s) bc []) None <> None.
Lemma prescribed_wall m per bc n c : length m = 2%nat -> table_ok 2 2 bc -> all_conditions 2 2 per bc -> (c < 2)%nat ->
  (prescribed 2 m per bc n c <> None <-> on_wall m per n).
Proof.
  intros L HT HA Hc. rewrite C30_constrained_iff. unfold on_wall. rewrite L. split.
  - intros (d & up & Hd & Hp & Hn & _). exists (d, up). split; [destruct d as [|[|]]; destruct up; cbn; auto; lia|]. unfold on_side. cbn [fst snd]. rewrite Hp. cbn [negb andb]. apply Z.eqb_eq. destruct up; exact Hn.
  - intros ([d up] & Hs & Ho). unfold on_side in Ho. cbn [fst snd] in Ho. apply andb_true_iff in Ho as [O1 O2]. apply negb_true_iff in O1. apply Z.eqb_eq in O2.
    exists d, up. split; [cbn in Hs; destruct Hs as [E|[E|[E|[E|[]]]]]; injection E; intros; subst; lia|]. split; [exact O1|]. split; [destruct up; exact O2|].
    apply (HA (d, up) c Hs O1 Hc).
Qed.
(** With such a table the assembled Stokes matrix with its Dirichlet rows acts as the
    matrix-free Stokes operator with its boundary conditions, for both formulations. *)
Theorem C32_constrained_strain : forall h0 h1 mp per dms bc x, length mp = 2%nat -> grid_ok mp per -> stokes_layout mp per 2 dms -> nonempty_views (map fst dms) -> single_is_safe per dms ->
  table_ok 2 2 bc -> all_conditions 2 2 per bc ->
  exists A A' yv yp, stokes_A true h0 h1 dms = Ok A /\ SetDirichletOnMat dms A = Ok A' /\
    stokes_matrix (strain_tensor_mult [h0; h1]) [h0; h1] 2 (Some (map Some bc)) dms (x false) (x true) = Ok (yv, yp) /\
    same_field (refined_size mp per) 2 (MatMult A' x false) yv /\ same_field mp 1 (MatMult A' x true) yp.
Proof.
  intros h0 h1 mp per dms bc x H2 HG HS HN HQ HT HA. pose proof (lmv mp per H2 HG) as L.
  destruct (C26_stokes_strain_off_walls h0 h1 mp per dms x H2 HG HS) as (A & rv & rp & EA & Er & W1 & W2).
  destruct (C32_dirichlet_rows mp per dms A H2 HG HS HN HQ) as (A' & EA' & V). destruct (V x) as [V1 V2].
  assert (HT' : table_ok (length mp) 2 bc) by (rewrite H2; exact HT). destruct (C31_stokes [h0; h1] mp per 2 bc dms (x false) (x true) HG HS HN HT') as (rv' & rp' & yv & Er' & Ey & Vy). rewrite Er in Er'. injection Er' as <- <-. rewrite H2 in *.
  exists A, A', yv, rp. split; [exact EA|]. split; [exact EA'|]. split; [exact Ey|]. split.
  - intros n c Hn Hc. rewrite (Vy n c Hn Hc). pose proof (prescribed_wall (refined_size mp per) per bc n c L HT HA Hc) as PW. destruct (V1 n c Hn Hc) as [V3 V4].
    destruct (prescribed 2 (refined_size mp per) per bc n c).
    + apply V3, PW. discriminate.
    + assert (NW : ~ on_wall (refined_size mp per) per n) by (intros K; apply (proj2 PW K); reflexivity). rewrite (V4 NW). apply W1; auto.
  - intros n c Hn Hc. rewrite V2. apply W2; auto.
Qed.
Theorem C31_stokes_laplacian : forall h mp per dof bc dms xv xp, grid_ok mp per -> stokes_layout mp per dof dms -> nonempty_views (map fst dms) -> table_ok (length mp) dof bc ->
  exists rv rp yv, stokes_matrix_raw (laplacian_mult h) h dms xv xp = Ok (rv, rp) /\
    stokes_matrix (laplacian_mult h) h (length mp) (Some (map Some bc)) dms xv xp = Ok (yv, rp) /\
    forall n c, in_grid_box (nodes_box (refined_size mp per)) n -> (c < dof)%nat ->
      yv n c = match prescribed (length mp) (refined_size mp per) per bc n c with Some _ => xv n c | None => rv n c end.
Proof.
  intros h mp per dof bc dms xv xp HG HS HN HT. destruct (stokes_rep_lap h mp per dof dms xv xp HG HS) as (rv & rp & E & _).
  assert (LE : length (refined_size mp per) = length mp) by (unfold refined_size; rewrite length_zip_with; auto; symmetry; apply HG).
  pose proof (refined_grid mp per HG) as HGv. rewrite <- LE in HT.
  destruct (C30_on_vec (refined_size mp per) per dof bc (map fst dms) xv rv HGv (proj1 HS) HN HT) as [yv [Ey Vy]].
  exists rv, rp, yv. split; [exact E|]. rewrite <- LE. split; [unfold stokes_matrix; rewrite E; cbn [bind fst snd]; rewrite Ey; reflexivity|exact Vy].
Qed.
Theorem C32_constrained_laplacian : forall h0 h1 mp per dms bc x, length mp = 2%nat -> grid_ok mp per -> stokes_layout mp per 2 dms -> nonempty_views (map fst dms) -> single_is_safe per dms ->
  table_ok 2 2 bc -> all_conditions 2 2 per bc ->
  exists A A' yv yp, stokes_A false h0 h1 dms = Ok A /\ SetDirichletOnMat dms A = Ok A' /\
    stokes_matrix (laplacian_mult [h0; h1]) [h0; h1] 2 (Some (map Some bc)) dms (x false) (x true) = Ok (yv, yp) /\
    same_field (refined_size mp per) 2 (MatMult A' x false) yv /\ same_field mp 1 (MatMult A' x true) yp.
Proof.
  intros h0 h1 mp per dms bc x H2 HG HS HN HQ HT HA. pose proof (lmv mp per H2 HG) as L.
  destruct (C26_stokes_laplacian h0 h1 mp per dms x H2 HG HS) as (A & rv & rp & EA & Er & W1 & W2).
  destruct (C32_dirichlet_rows mp per dms A H2 HG HS HN HQ) as (A' & EA' & V). destruct (V x) as [V1 V2].
  assert (HT' : table_ok (length mp) 2 bc) by (rewrite H2; exact HT). destruct (C31_stokes_laplacian [h0; h1] mp per 2 bc dms (x false) (x true) HG HS HN HT') as (rv' & rp' & yv & Er' & Ey & Vy). rewrite Er in Er'. injection Er' as <- <-. rewrite H2 in *.
  exists A, A', yv, rp. split; [exact EA|]. split; [exact EA'|]. split; [exact Ey|]. split.
  - intros n c Hn Hc. rewrite (Vy n c Hn Hc). pose proof (prescribed_wall (refined_size mp per) per bc n c L HT HA Hc) as PW. destruct (V1 n c Hn Hc) as [V3 V4].
    destruct (prescribed 2 (refined_size mp per) per bc n c).
    + apply V3, PW. discriminate.
    + assert (NW : ~ on_wall (refined_size mp per) per n) by (intros K; apply (proj2 PW K); reflexivity). rewrite (V4 NW). apply W1; auto.
  - intros n c Hn Hc. rewrite V2. apply W2; auto.
Qed.

(** ** C56: the constant pressure *)
(** every side of a non-periodic axis prescribes the component normal to it *)
Definition normal_conditions (D : nat) (per : list bool) (bc : list bc_row) : Prop :=
  forall s, In s (sides D) -> nth (fst s) per false = false -> nth (fst s) (nth (side_index s) bc []) None <> None.
Lemma in_sides D s : (fst s < D)%nat -> In s (sides D).
Proof. intros H. unfold sides. apply in_flat_map. exists (fst s). split; [apply in_seq; lia|]. destruct s as [d []]; cbn; auto. Qed.
Lemma free_unit_no_flux D m per bc n d : length m = D -> normal_conditions D per bc -> prescribed D m per bc n d = None -> no_flux m per (unit_field n d).
Proof.
  intros L HB HP q s Hq Hs Ho. unfold unit_field. destruct (same_node_spec n q) as [<-|]; [|reflexivity]. destruct (Nat.eqb_spec d (fst s)) as [->|]; [|reflexivity]. exfalso.
  assert (K : prescribed D m per bc n (fst s) <> None); [|congruence].
  rewrite L in Hs. apply C30_constrained_iff. unfold on_side in Ho. apply andb_true_iff in Ho as [O1 O2]. apply negb_true_iff in O1. apply Z.eqb_eq in O2.
  exists (fst s), (snd s). split; [exact Hs|]. split; [exact O1|]. split; [exact O2|]. apply (HB s (in_sides D s Hs) O1).
Qed.
Lemma scalar_zero m per E dof M v : scalar_form m per E dof M v zero_field = 0.
Proof. unfold scalar_form. apply Lsum_all_zero. intros e _. unfold gv, zero_field. transitivity (Rsum dof (fun _ => 0)); [|apply Rsum_zero]. apply Rsum_ext. intros. transitivity (Rsum (2 ^ length m) (fun _ => 0)); [|apply Rsum_zero]. apply Rsum_ext. intros. transitivity (Rsum (2 ^ length m) (fun _ => 0)); [|apply Rsum_zero]. apply Rsum_ext. intros. ring. Qed.
Lemma tensor_zero m per E dof M v : tensor_form m per E dof M v zero_field = 0.
Proof. unfold tensor_form. apply Lsum_all_zero. intros e _. unfold gv, zero_field. transitivity (Rsum (2 ^ length m) (fun _ => 0)); [|apply Rsum_zero]. apply Rsum_ext. intros. transitivity (Rsum (2 ^ length m) (fun _ => 0)); [|apply Rsum_zero]. apply Rsum_ext. intros. transitivity (Rsum dof (fun _ => 0)); [|apply Rsum_zero]. apply Rsum_ext. intros. transitivity (Rsum dof (fun _ => 0)); [|apply Rsum_zero]. apply Rsum_ext. intros. ring. Qed.
Lemma div_zero mv mp per E dof M q : div_form mv mp per E dof M q zero_field = 0.
Proof. unfold div_form. apply Lsum_all_zero. intros e _. unfold gv3, zero_field. transitivity (Rsum (2 ^ length mp) (fun _ => 0)); [|apply Rsum_zero]. apply Rsum_ext. intros. transitivity (Rsum (3 ^ length mp) (fun _ => 0)); [|apply Rsum_zero]. apply Rsum_ext. intros. transitivity (Rsum dof (fun _ => 0)); [|apply Rsum_zero]. apply Rsum_ext. intros. ring. Qed.
Definition constant (c : R) : field := fun _ _ => c.
Theorem C56_constant_pressure_in_kernel : forall (strain : bool) h mp per bc dms c, let D := length mp in
  grid_ok mp per -> stokes_layout mp per D dms -> nonempty_views (map fst dms) -> table_ok D D bc -> length h = D -> normal_conditions D per bc ->
  exists yv yp, stokes_matrix (if strain then strain_tensor_mult h else laplacian_mult h) h D (Some (map Some bc)) dms zero_field (constant c) = Ok (yv, yp) /\
    same_field (refined_size mp per) D yv zero_field /\ same_field mp 1 yp zero_field.
Proof.
  intros strain h mp per bc dms c D HG HS HN HT Hh HB.
  assert (LE : length (refined_size mp per) = D) by (unfold refined_size; rewrite length_zip_with; auto; symmetry; apply HG).
  assert (K : exists rv rp yv, stokes_matrix_raw (if strain then strain_tensor_mult h else laplacian_mult h) h dms zero_field (constant c) = Ok (rv, rp) /\
    stokes_matrix (if strain then strain_tensor_mult h else laplacian_mult h) h D (Some (map Some bc)) dms zero_field (constant c) = Ok (yv, rp) /\
    (forall n d, in_grid_box (nodes_box (refined_size mp per)) n -> (d < D)%nat -> yv n d = match prescribed D (refined_size mp per) per bc n d with Some _ => zero_field n d | None => rv n d end) /\
    (forall v, inner (N0 (refined_size mp per)) D rv v = - div_form (refined_size mp per) mp per (E0 mp per) D (getMatElemPressure h) (constant c) v) /\
    (forall q, inner (N0 mp) 1 rp q = 0)).
  { destruct strain.
    - destruct (C31_stokes h mp per D bc dms zero_field (constant c) HG HS HN HT) as (rv & rp & yv & E1 & E2 & V). exists rv, rp, yv. split; [exact E1|]. split; [exact E2|]. split; [exact V|].
      destruct (stokes_rep_strain h mp per D dms zero_field (constant c) HG HS) as (rv' & rp' & E & W). rewrite E in E1. injection E1 as <- <-.
      destruct (W _ _ _ _ (nv0 mp per) (np0 mp) (ev0 mp per HG) (ep0 mp per HG)) as [W1 W2]. split; intros v; [rewrite W1, tensor_zero; ring|rewrite W2; apply div_zero].
    - destruct (C31_stokes_laplacian h mp per D bc dms zero_field (constant c) HG HS HN HT) as (rv & rp & yv & E1 & E2 & V). exists rv, rp, yv. split; [exact E1|]. split; [exact E2|]. split; [exact V|].
      destruct (stokes_rep_lap h mp per D dms zero_field (constant c) HG HS) as (rv' & rp' & E & W). rewrite E in E1. injection E1 as <- <-.
      destruct (W _ _ _ _ (nv0 mp per) (np0 mp) (ev0 mp per HG) (ep0 mp per HG)) as [W1 W2]. split; intros v; [rewrite W1, scalar_zero; ring|rewrite W2; apply div_zero]. }
  destruct K as (rv & rp & yv & _ & E & V & W1 & W2). exists yv, rp. split; [exact E|]. split.
  - intros n d Hn Hd. rewrite (V n d Hn Hd). destruct (prescribed D (refined_size mp per) per bc n d) eqn:P; [reflexivity|].
    rewrite <- (inner_unit _ D rv n d Hn Hd), W1. assert (NF : no_flux (refined_size mp per) per (unit_field n d)) by (apply (free_unit_no_flux D _ per bc); auto).
    pose proof (const_pressure_form h mp per (E0 mp per) c (unit_field n d) HG Hh (ep0 mp per HG) NF) as Z0. unfold zero_field. change (div_form (refined_size mp per) mp per (E0 mp per) D (getMatElemPressure h) (constant c) (unit_field n d) = 0) in Z0. rewrite Z0. ring.
  - apply same_field_weak. intros q. rewrite W2, inner_zero. reflexivity.
Qed.
(** and dually: the divergence of a velocity without flux through the walls has zero sum *)
Theorem C56_divergence_sums_to_zero : forall (strain : bool) h mp per dms xv xp, let D := length mp in
  grid_ok mp per -> stokes_layout mp per D dms -> length h = D ->
  (forall n s, in_grid_box (nodes_box (refined_size mp per)) n -> In s (sides D) -> on_side (refined_size mp per) per n s = true -> xv n (fst s) = 0) ->
  exists yv yp, stokes_matrix_raw (if strain then strain_tensor_mult h else laplacian_mult h) h dms xv xp = Ok (yv, yp) /\
    forall Np, enumerates Np (nodes_box mp) -> Lsum (fun n => yp n 0%nat) Np = 0.
Proof.
  intros strain h mp per dms xv xp D HG HS Hh HF.
  assert (LE : length (refined_size mp per) = D) by (unfold refined_size; rewrite length_zip_with; auto; symmetry; apply HG).
  assert (NF : no_flux (refined_size mp per) per xv) by (intros n s Hn Hs Ho; apply (HF n s Hn); auto; apply in_sides; lia).
  assert (K : forall Np yp, enumerates Np (nodes_box mp) -> (forall q, inner Np 1 yp q = div_form (refined_size mp per) mp per (E0 mp per) D (getMatElemPressure h) q xv) -> Lsum (fun n => yp n 0%nat) Np = 0).
  { intros Np yp _ W. transitivity (inner Np 1 yp (fun _ _ => 1)).
    - unfold inner. apply Lsum_ext. intros n _. simpl. ring.
    - rewrite W. apply const_pressure_form; auto. apply ep0, HG. }
  destruct strain.
  - destruct (stokes_rep_strain h mp per D dms xv xp HG HS) as (yv & yp & E & W). exists yv, yp. split; [exact E|]. intros Np HNp. apply K; auto. apply (W _ _ _ _ (nv0 mp per) HNp (ev0 mp per HG) (ep0 mp per HG)).
  - destruct (stokes_rep_lap h mp per D dms xv xp HG HS) as (yv & yp & E & W). exists yv, yp. split; [exact E|]. intros Np HNp. apply K; auto. apply (W _ _ _ _ (nv0 mp per) HNp (ev0 mp per HG) (ep0 mp per HG)).
Qed.
