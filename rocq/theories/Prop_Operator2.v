(** Witnesses for the hypotheses of Prop_Operator, and the defects of C31, C45. *)
From Coquelicot Require Import Coquelicot.
From Verif Require Import Base M_Geometry S_Geometry P_Geometry M_Particle S_Particle P_Particle M_Quadrature S_Fem M_MatElem P_MatElem P_Energy M_Mesh M_Operator M_Bc S_Operator S_Bc P_Mesh P_Operator P_Operator2 P_Global P_CreateMesh P_Stokes P_Operator3 P_Bc P_Diag Prop_Operator.
Open Scope R_scope.

(** ** a layout on two processes, periodic in y *)
Definition ex_np : list Z := [4; 3]%Z.
Definition ex_per : list bool := [false; true].
Definition ex_ls : list (list Z) := [[2; 2]; [2]]%Z.
Definition ex_mp : list Z := mesh_pres ex_np ex_per.
Definition ex_dms := createMesh ex_np ex_per ex_ls.
Example ex_ranges : ranges_ok ex_mp ex_ls.
Proof. repeat constructor; simpl; try lia; try discriminate. Qed.
Example ex_layout : stokes_layout ex_mp ex_per 2 ex_dms.
Proof. apply (C28_createMesh_layout ex_np ex_per ex_ls eq_refl ex_ranges). Qed.
Example ex_grid : grid_ok ex_mp ex_per /\ grid_ok (refined_size ex_mp ex_per) ex_per.
Proof. assert (G : grid_ok ex_mp ex_per) by (repeat split; simpl; auto; repeat constructor; lia). split; [exact G|apply refined_grid, G]. Qed.
Example ex_dist : distributes (refined_size ex_mp ex_per) ex_per 2 (map fst ex_dms) /\ distributes ex_mp ex_per 1 (map snd ex_dms).
Proof. destruct ex_layout as (A & B & _). split; assumption. Qed.
Example ex_nonempty : nonempty_views (map fst ex_dms) /\ length ex_dms = 2%nat.
Proof. split; [|reflexivity]. repeat constructor; simpl; lia. Qed.
Example ex_cells : has_cells (refined_size ex_mp ex_per) ex_per /\ no_self_contact (refined_size ex_mp ex_per) ex_per /\ steps_ok [1/7; 1/3] (refined_size ex_mp ex_per).
Proof.
  split; [|split; [|split; [reflexivity|]]]; unfold has_cells, no_self_contact.
  - constructor; [right; simpl; lia|]. constructor; [left; reflexivity|constructor].
  - constructor; [discriminate|]. constructor; [simpl; lia|constructor].
  - constructor; [lra|]. constructor; [lra|constructor].
Qed.
(** the same nodes on one process: a second layout of the same grid (C25) *)
Example ex_layout1 : stokes_layout ex_mp ex_per 2 (createMesh ex_np ex_per [[4]; [2]]%Z).
Proof. apply (C28_createMesh_layout ex_np ex_per [[4]; [2]]%Z eq_refl). repeat constructor; simpl; try lia; try discriminate. Qed.
(** a table with both components fixed on the left side and the first one on the right *)
Definition ex_bc : list bc_row := [[Some (fun _ => 0); Some (fun p => nth 1 p 0)]; [Some (fun _ => 1); None]; [None; None]; [None; None]].
Example ex_table : table_ok 2 2 ex_bc /\ dirichlet_conditions 2 ex_bc = Ok (map Some ex_bc).
Proof. split; [split; [reflexivity|repeat constructor]|apply C49_exact_list; reflexivity]. Qed.
Example ex_prescribed : forall c, (c < 2)%nat -> exists n, in_grid_box (nodes_box (refined_size ex_mp ex_per)) n /\ prescribed 2 (refined_size ex_mp ex_per) ex_per ex_bc n c <> None.
Proof.
  intros c Hc. exists [0; 1]%Z. split; [split; repeat constructor; simpl; lia|].
  destruct c as [|[|c]]; [| |lia]; apply C30_constrained_iff; exists 0%nat, false; repeat split; simpl; try lia; discriminate.
Qed.
(** the right side fixes the first component only *)
Example ex_not_prescribed : prescribed 2 (refined_size ex_mp ex_per) ex_per ex_bc [6; 1]%Z 1 = None /\ prescribed 2 (refined_size ex_mp ex_per) ex_per ex_bc [6; 1]%Z 0 <> None.
Proof. split; [reflexivity|]. apply C30_constrained_iff. exists 0%nat, true. repeat split; simpl; try lia; discriminate. Qed.
Example ex_element_of_process : exists dv dp e p, In (dv, dp) ex_dms /\ in_grid_box (get_DM_bounds dp true) e /\ In p (get_element_4Q1 e).
Proof.
  eexists _, _, [2; 1]%Z, [6; 4]%Z. split; [right; left; reflexivity|]. split; [|simpl; tauto].
  match goal with |- in_grid_box ?b _ => let b' := eval vm_compute in b in change (in_grid_box b' [2; 1]%Z) end.
  split; repeat constructor; simpl; lia.
Qed.

(** ** C45: a second call of setup_RHS adds the load once more *)
Theorem C45_first_call : forall m per dof dms conds bc h rhs, grid_ok m per -> distributes m per dof dms -> nonempty_views dms -> table_ok (length m) dof bc ->
  length conds = dof -> loaded conds ->
  exists y mf, setup_RHS (length m) conds (map Some bc) h dms rhs = Ok y /\
    diag_block_matrix_raw (mass_mult h) dms (fun n c => match nth c conds None with Some f => f (zip_with (fun i s => IZR i * s) n h) | None => 0 end) = Ok mf /\
    forall n c, in_grid_box (nodes_box m) n -> (c < dof)%nat ->
      y n c = match prescribed (length m) m per bc n c with Some f => f (zip_with (fun i s => IZR i * s) n h) | None => rhs n c + mf n c end.
Proof.
  intros m per dof dms conds bc h rhs HG HD HN HT Hc HH. apply has_condition_loaded in HH. destruct (C45_set_rhs_adds m per dof dms conds h rhs HG HD Hc) as (y1 & mf & E1 & Em & V1).
  destruct (C30_on_rhs m per dof bc h dms y1 HG HD HN HT) as (y & E2 & V2). exists y, mf.
  split; [unfold setup_RHS; rewrite HH, E1; exact E2|]. split; [exact Em|]. intros n c Hn Hcd. rewrite (V2 n c Hn Hcd). destruct (prescribed _ _ _ _ _ _); [reflexivity|]. apply V1; auto.
Qed.
(** without a load, setup_RHS is idempotent *)
Theorem C45_idempotent_without_load : forall m per dof dms conds bc h rhs, grid_ok m per -> distributes m per dof dms -> nonempty_views dms -> table_ok (length m) dof bc ->
  unloaded conds ->
  exists y z, setup_RHS (length m) conds (map Some bc) h dms rhs = Ok y /\ setup_RHS (length m) conds (map Some bc) h dms y = Ok z /\ same_field m dof z y.
Proof.
  intros m per dof dms conds bc h rhs HG HD HN HT HH. apply has_condition_unloaded in HH.
  destruct (C30_on_rhs m per dof bc h dms rhs HG HD HN HT) as (y & E & V). destruct (C30_on_rhs m per dof bc h dms y HG HD HN HT) as (z & E2 & V2).
  exists y, z. unfold setup_RHS. rewrite HH. cbn [bind]. split; [exact E|]. split; [exact E2|]. intros n c Hn Hc. rewrite (V2 n c Hn Hc), (V n c Hn Hc). destruct (prescribed _ _ _ _ _ _); reflexivity.
Qed.
Theorem C45_second_call_adds_the_load_again : forall m per dof dms conds bc h rhs, grid_ok m per -> distributes m per dof dms -> nonempty_views dms -> table_ok (length m) dof bc ->
  length conds = dof -> loaded conds ->
  exists y z mf, setup_RHS (length m) conds (map Some bc) h dms rhs = Ok y /\ setup_RHS (length m) conds (map Some bc) h dms y = Ok z /\
    diag_block_matrix_raw (mass_mult h) dms (fun n c => match nth c conds None with Some f => f (zip_with (fun i s => IZR i * s) n h) | None => 0 end) = Ok mf /\
    forall n c, in_grid_box (nodes_box m) n -> (c < dof)%nat ->
      z n c = match prescribed (length m) m per bc n c with Some f => y n c | None => y n c + mf n c end.
Proof.
  intros m per dof dms conds bc h rhs HG HD HN HT Hc HH.
  destruct (C45_first_call m per dof dms conds bc h rhs HG HD HN HT Hc HH) as (y & mf & Ey & Em & Vy). destruct (C45_first_call m per dof dms conds bc h y HG HD HN HT Hc HH) as (z & mf' & Ez & Em' & Vz).
  rewrite Em in Em'. injection Em' as <-. exists y, z, mf. split; [exact Ey|]. split; [exact Ez|]. split; [exact Em|]. intros n c Hn Hcd. rewrite (Vz n c Hn Hcd).
  destruct (prescribed (length m) m per bc n c) eqn:EP; [|reflexivity]. rewrite (Vy n c Hn Hcd), EP. reflexivity.
Qed.
(** so it is not idempotent: whenever no component is constrained and the load is not zero at
    some node, the second call changes the right-hand side *)
Theorem C45_idempotent_refuted : forall m per dof dms conds h rhs, grid_ok m per -> has_cells m per -> steps_ok h m -> distributes m per dof dms -> nonempty_views dms -> length conds = dof ->
  (exists n c f, in_grid_box (nodes_box m) n /\ (c < dof)%nat /\ nth c conds None = Some f /\ f (zip_with (fun i s => IZR i * s) n h) <> 0) ->
  let bc := repeat (repeat None dof) (2 * length m) in
  exists y z, setup_RHS (length m) conds (map Some bc) h dms rhs = Ok y /\ setup_RHS (length m) conds (map Some bc) h dms y = Ok z /\ ~ same_field m dof z y.
Proof.
  intros m per dof dms conds h rhs HG HCl HS HD HN Hc (n & c & f & Hn & Hcd & Hf & Hv) bc.
  assert (HT : table_ok (length m) dof bc).
  { split; [unfold bc; apply repeat_length|]. apply Forall_forall. intros r Hr. apply repeat_spec in Hr. subst r. apply repeat_length. }
  assert (NP : forall n c, prescribed (length m) m per bc n c = None).
  { intros n' c'. destruct (prescribed (length m) m per bc n' c') eqn:E; [|reflexivity]. exfalso. assert (X : prescribed (length m) m per bc n' c' <> None) by (rewrite E; discriminate).
    apply C30_constrained_iff in X as (d & up & _ & _ & _ & X). apply X. clear.
    match goal with |- nth c' (nth ?k bc []) None = None => generalize k; intros k0 end.
    assert (I : (@nth bc_row k0 bc [] = repeat None dof \/ @nth bc_row k0 bc [] = [])) by (destruct (@nth_in_or_default bc_row k0 bc []) as [I|I]; [left; exact (repeat_spec _ _ _ I)|right; exact I]).
    match goal with |- nth c' ?r None = None => change r with (@nth bc_row k0 bc []) end. destruct I as [I|I]; rewrite I; [apply nth_repeat|destruct c'; reflexivity]. }
  assert (HH : loaded conds) by (exists c, f; exact Hf).
  destruct (C45_second_call_adds_the_load_again m per dof dms conds bc h rhs HG HD HN HT Hc HH) as (y & z & mf & Ey & Ez & Em & V).
  exists y, z. split; [exact Ey|]. split; [exact Ez|]. intros SAME.
  assert (ZZ : forall n c, in_grid_box (nodes_box m) n -> (c < dof)%nat -> mf n c = 0).
  { intros n' c' Hn' Hc'. pose proof (V n' c' Hn' Hc') as K. rewrite NP, (SAME n' c' Hn' Hc') in K. lra. }
  destruct (C24_mass_positive_definite h m per dof dms _ mf (N0 m) HG HS HD Em (N0_enum m)) as [_ PD].
  apply Hv. specialize (PD HCl). 
  assert (I0 : inner (N0 m) dof mf (fun n c => match nth c conds None with Some f => f (zip_with (fun i s => IZR i * s) n h) | None => 0 end) = 0).
  { unfold inner. transitivity (Lsum (fun _ : list Z => 0) (N0 m)); [|generalize (N0 m) as l0; clear; induction l0 as [|? l IH]; [reflexivity|rewrite Lsum_cons, IH; apply Rplus_0_l]].
    apply Lsum_ext. intros q Hq. apply N0_enum in Hq. transitivity (Rsum dof (fun _ => 0)); [|apply Rsum_zero]. apply Rsum_ext. intros d Hd. rewrite ZZ by auto. ring. }
  specialize (PD I0 n c Hn Hcd). cbv beta in PD. rewrite <- PD. match goal with |- _ = match ?x with _ => _ end => change x with (nth c conds None) end. now rewrite Hf.
Qed.
Example ex_load : exists n c f, in_grid_box (nodes_box (refined_size ex_mp ex_per)) n /\ (c < 2)%nat /\ nth c [Some (fun _ : list R => 1); None] None = Some f /\ f (zip_with (fun i s => IZR i * s) n [1/7; 1/3]) <> 0.
Proof. exists [0; 0]%Z, 0%nat, (fun _ => 1). split; [split; repeat constructor; simpl; lia|]. split; [lia|]. split; [reflexivity|]. apply R1_neq_R0. Qed.

(** ** C31: the diagonal given to the preconditioner ignores the Dirichlet rows *)
Theorem C31_diagonal_with_bc_refuted : exists m per dms bc n,
  grid_ok m per /\ no_self_contact m per /\ distributes m per 1 dms /\ nonempty_views dms /\ table_ok (length m) 1 bc /\ in_grid_box (nodes_box m) n /\
  exists y z, diag_diag_block_matrix (diag_laplacian_mult [1; 1]) dms = Ok y /\
    diag_block_matrix (laplacian_mult [1; 1]) (length m) (Some (map Some bc)) dms (unit_field n 0) = Ok z /\
    z n 0%nat = 1 /\ y n 0%nat = 2 / 3.
Proof.
  set (m := [2; 2]%Z). set (per := [false; false]). set (dms := map snd (createMesh m per [[2]; [2]]%Z)). set (bc := repeat [Some (fun _ : list R => 0)] 4). set (n := [0; 0]%Z).
  exists m, per, dms, bc, n.
  assert (HG : grid_ok m per) by (repeat split; simpl; auto; repeat constructor; lia).
  assert (HC : no_self_contact m per) by (constructor; [discriminate|]; constructor; [discriminate|constructor]).
  assert (HR : ranges_ok (mesh_pres m per) [[2]; [2]]%Z) by (repeat constructor; simpl; try lia; try discriminate).
  assert (HD : distributes m per 1 dms) by (apply (C28_createMesh_layout m per [[2]; [2]]%Z eq_refl HR)).
  assert (HN : nonempty_views dms) by (repeat constructor; simpl; lia).
  assert (HT : table_ok (length m) 1 bc) by (split; [reflexivity|repeat constructor]).
  assert (Hn : in_grid_box (nodes_box m) n) by (split; repeat constructor; simpl; lia).
  do 6 (split; [assumption|]).
  destruct (C31_laplacian [1; 1] m per 1 bc dms (unit_field n 0) HG HD HN HT) as (r & z & Er & Ez & V).
  destruct (C31_diagonal_laplacian [1; 1] m per 1 dms n 0 HG HC HD Hn ltac:(lia)) as (y & z' & Ey & Ez' & EQ).
  rewrite Er in Ez'. injection Ez' as <-. exists y, z. split; [exact Ey|]. split; [exact Ez|]. split.
  - rewrite (V n 0%nat Hn ltac:(lia)). assert (P : prescribed (length m) m per bc n 0 <> None) by (apply C30_constrained_iff; exists 0%nat, false; repeat split; simpl; try lia; discriminate).
    destruct (prescribed (length m) m per bc n 0); [reflexivity|congruence].
  - rewrite EQ. destruct (C25_laplacian_is_assembled [1; 1] m per 1 dms (unit_field n 0) HG HD) as (r' & Er' & W). rewrite Er in Er'. injection Er' as <-.
    specialize (W (N0 m) (E0 m per) (N0_enum m) (E0_enum m per eq_refl) (unit_field n 0)).
    transitivity (inner (N0 m) 1 r (unit_field n 0)).
    + unfold inner, N0, box_points_list, Lsum, unit_field. simpl. change n with [0; 0]%Z. ring.
    + rewrite W. unfold scalar_form, E0, box_points_list, Lsum, unit_field, gv. simpl. unfold getMatElemLaplacian2. simpl. assert (A1 : matElem2d_dxudxu 0 0 = 1 / 3) by (unfold matElem2d_dxudxu, entry, matElem2d_dxudxu_q, Q2R; simpl; lra). assert (A2 : matElem2d_dyudyu 0 0 = 1 / 3) by (unfold matElem2d_dyudyu, entry, matElem2d_dyudyu_q, Q2R; simpl; lra). lra.
Qed.
Close Scope R_scope.
