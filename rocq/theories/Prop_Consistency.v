(** C86: the discretised operators are consistent, to second order, with the continuous ones. *)
From Coq Require Import FunctionalExtensionality.
From Coquelicot Require Import Coquelicot.
From Verif Require Import Base M_Geometry S_Geometry P_Geometry M_Particle S_Particle P_Particle M_Quadrature S_Fem P_Energy P_Precond M_MatElem P_MatElem M_Mesh M_Operator S_Operator P_Mesh P_Operator P_Operator2 P_Operator3 P_Global P_Stokes M_Bc S_Bc P_Flux Prop_Flux P_Gather P_Exact M_ParticleOp S_ParticleOp S_Accuracy P_Accuracy S_Consistency P_Consistency P_Stencil P_Stencil4 P_Stencil5 P_Consistency2 P_Consistency3 P_Consistency4 P_Diag Prop_Operator Prop_Operator2 Prop_Assembly Prop_StokesUnique.
Open Scope R_scope.
Lemma lap_err h m f n M : steps_ok h m -> (length m = 2 \/ length m = 3)%nat -> length n = length m -> smooth4 f h (grid_point h n) M ->
  Rabs (Rsum (2 ^ length m) (fun k1 => Rsum (2 ^ length m) (fun k2 => getMatElemLaplacian h k1 k2 * f (grid_point h (add n (sub (bits (length m) k2) (bits (length m) k1)))))) / cell_volume h
    - minus_laplacian f (length m) (grid_point h n)) <= laplacian_error h M.
Proof.
  intros HS HD LN SM. pose proof (pos_co h m HS) as Hp. destruct HS as [Lh HP]. destruct HD as [E|E]; rewrite E in *.
  - destruct h as [|h0 [|h1 [|]]]; try discriminate Lh. destruct n as [|n0 [|n1 [|]]]; try discriminate LN.
    assert (P0 : 0 < h0) by (apply (Hp 0%nat); cbn; lia). assert (P1 : 0 < h1) by (apply (Hp 1%nat); cbn; lia).
    change (2 ^ 2)%nat with 4%nat. rewrite (lap_row2 f h0 h1 n0 n1 P0 P1). set (h := [h0; h1]) in *. set (X := grid_point h [n0; n1]) in *. cbv zeta. fold h. fold X.
    assert (WX : within 1 h X X) by (apply within_refl; auto).
    assert (T0 := term2 f h X M Hp eq_refl SM X 1 0 WX ltac:(cbn; lia) ltac:(cbn; lia) ltac:(lia) eq_refl eq_refl).
    assert (T1 := term2 f h X M Hp eq_refl SM X 0 1 WX ltac:(cbn; lia) ltac:(cbn; lia) ltac:(lia) eq_refl eq_refl).
    set (A0 := AV _) in T0 |- *. set (A1 := AV _) in T1 |- *.
    assert (EV : - (h0 * h1) * (A0 + A1) / cell_volume h = - (A0 + A1)) by (unfold cell_volume, h; cbn [fold_right]; field; lra). rewrite EV. unfold minus_laplacian, laplacian_error. change (length h) with 2%nat. cbn [Rsum Nat.eqb].
    replace (- (A0 + A1) - - (0 + second f 0 X + second f 1 X)) with (- ((A0 - second f 0 X) + (A1 - second f 1 X))) by ring.
    rewrite Rabs_Ropp. eapply Rle_trans; [apply Rabs_triang|]. lra.
  - destruct h as [|h0 [|h1 [|h2 [|]]]]; try discriminate Lh. destruct n as [|n0 [|n1 [|n2 [|]]]]; try discriminate LN.
    assert (P0 : 0 < h0) by (apply (Hp 0%nat); cbn; lia). assert (P1 : 0 < h1) by (apply (Hp 1%nat); cbn; lia). assert (P2 : 0 < h2) by (apply (Hp 2%nat); cbn; lia).
    change (2 ^ 3)%nat with 8%nat. rewrite (lap_row3 f h0 h1 h2 n0 n1 n2 P0 P1 P2). set (h := [h0; h1; h2]) in *. set (X := grid_point h [n0; n1; n2]) in *. cbv zeta. fold h. fold X.
    assert (WX : within 1 h X X) by (apply within_refl; auto).
    assert (T0 := term3 f h X M Hp eq_refl SM X 1 0 2 WX ltac:(cbn; lia) ltac:(cbn; lia) ltac:(cbn; lia) ltac:(lia) ltac:(lia) ltac:(lia) eq_refl eq_refl eq_refl).
    assert (T1 := term3 f h X M Hp eq_refl SM X 0 1 2 WX ltac:(cbn; lia) ltac:(cbn; lia) ltac:(cbn; lia) ltac:(lia) ltac:(lia) ltac:(lia) eq_refl eq_refl eq_refl).
    assert (T2 := term3 f h X M Hp eq_refl SM X 0 2 1 WX ltac:(cbn; lia) ltac:(cbn; lia) ltac:(cbn; lia) ltac:(lia) ltac:(lia) ltac:(lia) eq_refl eq_refl eq_refl).
    set (A0 := AV _) in T0 |- *. set (A1 := AV _) in T1 |- *. set (A2 := AV _) in T2 |- *.
    assert (EV : - (h0 * h1 * h2) * (A0 + A1 + A2) / cell_volume h = - (A0 + A1 + A2)) by (unfold cell_volume, h; cbn [fold_right]; field; lra). rewrite EV. unfold minus_laplacian, laplacian_error. change (length h) with 3%nat. cbn [Rsum Nat.eqb].
    replace (- (A0 + A1 + A2) - - (0 + second f 0 X + second f 1 X + second f 2 X)) with (- ((A0 - second f 0 X) + ((A1 - second f 1 X) + (A2 - second f 2 X)))) by ring.
    rewrite Rabs_Ropp. eapply Rle_trans; [apply Rabs_triang|]. pose proof (Rabs_triang (A1 - second f 1 X) (A2 - second f 2 X)). lra.
Qed.
Lemma mass_err h m f n M : steps_ok h m -> (length m = 2 \/ length m = 3)%nat -> length n = length m -> smooth2 f h (grid_point h n) M ->
  Rabs (Rsum (2 ^ length m) (fun k1 => Rsum (2 ^ length m) (fun k2 => getMatElemMass h k1 k2 * f (grid_point h (add n (sub (bits (length m) k2) (bits (length m) k1)))))) / cell_volume h
    - f (grid_point h n)) <= mass_error h M.
Proof.
  intros HS HD LN SM. pose proof (pos_co h m HS) as Hp. destruct HS as [Lh HP]. destruct HD as [E|E]; rewrite E in *.
  - destruct h as [|h0 [|h1 [|]]]; try discriminate Lh. destruct n as [|n0 [|n1 [|]]]; try discriminate LN.
    assert (P0 : 0 < h0) by (apply (Hp 0%nat); cbn; lia). assert (P1 : 0 < h1) by (apply (Hp 1%nat); cbn; lia).
    change (2 ^ 2)%nat with 4%nat. rewrite (mass_row2 f h0 h1 n0 n1). set (h := [h0; h1]) in *. set (X := grid_point h [n0; n1]) in *. cbv zeta. fold h. fold X.
    assert (WX : within 1 h X X) by (apply within_refl; auto).
    assert (T0 := mean2 f h X M Hp eq_refl SM X 0 1 WX ltac:(cbn; lia) ltac:(cbn; lia) ltac:(lia) eq_refl eq_refl). set (A0 := AV _) in T0 |- *.
    assert (EV : h0 * h1 * A0 / cell_volume h = A0) by (unfold cell_volume, h; cbn [fold_right]; field; lra). rewrite EV. unfold mass_error. change (length h) with 2%nat. cbn [Rsum]. lra.
  - destruct h as [|h0 [|h1 [|h2 [|]]]]; try discriminate Lh. destruct n as [|n0 [|n1 [|n2 [|]]]]; try discriminate LN.
    assert (P0 : 0 < h0) by (apply (Hp 0%nat); cbn; lia). assert (P1 : 0 < h1) by (apply (Hp 1%nat); cbn; lia). assert (P2 : 0 < h2) by (apply (Hp 2%nat); cbn; lia).
    change (2 ^ 3)%nat with 8%nat. rewrite (mass_row3 f h0 h1 h2 n0 n1 n2). set (h := [h0; h1; h2]) in *. set (X := grid_point h [n0; n1; n2]) in *. cbv zeta. fold h. fold X.
    assert (WX : within 1 h X X) by (apply within_refl; auto).
    assert (T0 := mean3 f h X M Hp eq_refl SM X 0 1 2 WX ltac:(cbn; lia) ltac:(cbn; lia) ltac:(cbn; lia) ltac:(lia) ltac:(lia) ltac:(lia) eq_refl eq_refl eq_refl). set (A0 := AV _) in T0 |- *.
    assert (EV : h0 * h1 * h2 * A0 / cell_volume h = A0) by (unfold cell_volume, h; cbn [fold_right]; field; lra). rewrite EV. unfold mass_error. change (length h) with 3%nat. cbn [Rsum]. lra.
Qed.
(** an interior node of the grid *)
Lemma interior_node m per n : grid_ok m per -> interior m per n -> in_grid_box (nodes_box m) n.
Proof.
  intros (_ & Lp & HF) [L H]. unfold in_grid_box, nodes_box. cbn [bottom_left upper_right].
  assert (B : forall d, (d < length m)%nat -> (0 <= nth d n 0 < nth d m 0)%Z) by (intros d Hd; specialize (H d Hd); destruct (nth d per false); lia). clear H HF Lp. revert n L B.
  induction m as [|z m IH]; intros [|x n] L B; cbn [length] in *; try lia; [split; constructor|]. destruct (IH n ltac:(lia)) as [I1 I2]; [intros d Hd; apply (B (S d)); lia|]. pose proof (B 0%nat ltac:(lia)) as B0. cbn in B0. split; constructor; auto; lia.
Qed.
(** Laplacian: at the interior nodes the result, over the volume of a cell, is minus the Laplacian, up to terms of second order in the steps. *)
Theorem C86_laplacian : forall h m per dof dms x n c f M, grid_ok m per -> steps_ok h m -> distributes m per dof dms -> interior m per n -> (c < dof)%nat ->
  samples_near f m per h x n c -> smooth4 f h (grid_point h n) M ->
  exists y, diag_block_matrix_raw (laplacian_mult h) dms x = Ok y /\
    Rabs (y n c / cell_volume h - minus_laplacian f (length m) (grid_point h n)) <= laplacian_error h M.
Proof.
  intros h m per dof dms x n c f M HG HS HD HI Hc HX HM. destruct (C25_laplacian_is_assembled h m per dof dms x HG HD) as (y & E & W). exists y. split; [exact E|].
  assert (Hn := interior_node m per n HG HI). assert (Lp : length per = length m) by apply HG.
  assert (R1 : y n c = scalar_form m per (E0 m per) dof (getMatElemLaplacian h) (S_Bc.unit_field n c) x) by (rewrite <- (inner_unit m dof y n c Hn Hc); apply W; [apply N0_enum|apply E0_enum, Lp]).
  rewrite R1, (row_samples m per h dof _ n c x f Lp (proj2 (proj2 HG)) HI Hc HX). apply (lap_err h m); auto; [apply HG|apply HI].
Qed.
(** Mass: the value itself. *)
Theorem C86_mass : forall h m per dof dms x n c f M, grid_ok m per -> steps_ok h m -> distributes m per dof dms -> interior m per n -> (c < dof)%nat ->
  samples_near f m per h x n c -> smooth2 f h (grid_point h n) M ->
  exists y, diag_block_matrix_raw (mass_mult h) dms x = Ok y /\ Rabs (y n c / cell_volume h - f (grid_point h n)) <= mass_error h M.
Proof.
  intros h m per dof dms x n c f M HG HS HD HI Hc HX HM. destruct (C25_mass_is_assembled h m per dof dms x HG HD) as (y & E & W). exists y. split; [exact E|].
  assert (Hn := interior_node m per n HG HI). assert (Lp : length per = length m) by apply HG.
  assert (R1 : y n c = scalar_form m per (E0 m per) dof (getMatElemMass h) (S_Bc.unit_field n c) x) by (rewrite <- (inner_unit m dof y n c Hn Hc); apply W; [apply N0_enum|apply E0_enum, Lp]).
  rewrite R1, (row_samples m per h dof _ n c x f Lp (proj2 (proj2 HG)) HI Hc HX). apply (mass_err h m); auto; [apply HG|apply HI].
Qed.
(** halving the steps divides the bounds by four *)
Theorem C86_half_the_steps : forall h M N P Q c,
  laplacian_error (map (fun s => s / 2) h) M = laplacian_error h M / 4 /\ mass_error (map (fun s => s / 2) h) N = mass_error h N / 4 /\
  gradient_error (map (fun s => s / 2) h) P c = gradient_error h P c / 4 /\ divergence_error (map (fun s => s / 2) h) Q = divergence_error h Q / 4.
Proof.
  intros h M N P Q c. assert (C : forall i, (i < length h)%nat -> co i (map (fun s => s / 2) h) = co i h / 2). { intros i Hi. unfold co. rewrite (nth_indep _ 0 (0 / 2)) by (rewrite map_length; exact Hi). apply (map_nth (fun s => s / 2)). }
  unfold laplacian_error, mass_error, gradient_error, divergence_error. rewrite map_length. repeat split; match goal with |- _ = ?a / 4 => replace (a / 4) with (/ 4 * a) by field end; rewrite <- Rsum_scal.
  - apply Rsum_ext. intros j Hj. rewrite <- Rsum_scal. apply Rsum_ext. intros i Hi. rewrite C by auto. destruct (Nat.eqb i j); field.
  - apply Rsum_ext. intros i Hi. rewrite C by auto. field.
  - apply Rsum_ext. intros i Hi. rewrite C by auto. destruct (Nat.eqb i c); field.
  - apply Rsum_ext. intros j Hj. rewrite <- Rsum_scal. apply Rsum_ext. intros i Hi. rewrite C by auto. field.
Qed.
Lemma interior_free D m per bc n c : length m = D -> interior m per n -> prescribed D m per bc n c = None.
Proof.
  intros L [_ H]. destruct (prescribed D m per bc n c) as [g|] eqn:P; [|reflexivity]. exfalso.
  assert (Q : prescribed D m per bc n c <> None) by congruence. apply C30_constrained_iff in Q as (d & up & Hd & Hp & Ho & _). specialize (H d ltac:(lia)). rewrite Hp in H. destruct up; lia.
Qed.
Lemma steps_refined h mp per : grid_ok mp per -> steps_ok h mp -> steps_ok h (refined_size mp per).
Proof. intros (_ & Lp & _) [L F]. split; [unfold refined_size; rewrite length_zip_with; lia|exact F]. Qed.
Lemma refined_len mp per : grid_ok mp per -> length (refined_size mp per) = length mp.
Proof. intros (_ & Lp & _). unfold refined_size. rewrite length_zip_with; lia. Qed.
Lemma volume_pos h m : steps_ok h m -> 0 < cell_volume h.
Proof. intros [_ F]. unfold cell_volume. induction F as [|s h Hs F IH]; cbn; [lra|]. apply Rmult_lt_0_compat; auto. Qed.
Lemma steps_double h m : steps_ok h m -> steps_ok (map (Rmult 2) h) m.
Proof. intros [L F]. split; [rewrite map_length; exact L|]. apply Forall_map. eapply Forall_impl; [|exact F]. intros a; cbv beta; lra. Qed.
(** rows of the Stokes operator *)
Lemma stokes_rows h mp per dms xv xp (u : nat -> vec -> R) (p : vec -> R) rv rp :
  grid_ok mp per -> steps_ok h mp ->
  (forall v, inner (N0 (refined_size mp per)) (length mp) rv v = scalar_form (refined_size mp per) per (E0 (refined_size mp per) per) (length mp) (getMatElemLaplacian h) v xv - div_form (refined_size mp per) mp per (E0 mp per) (length mp) (getMatElemPressure h) xp v) ->
  (forall q, inner (N0 mp) 1 rp q = div_form (refined_size mp per) mp per (E0 mp per) (length mp) (getMatElemPressure h) q xv) ->
  stokes_matrix_raw (laplacian_mult h) h dms xv xp = Ok (rv, rp) ->
  (forall n c M N, interior (refined_size mp per) per n -> (c < length mp)%nat ->
    samples_near (u c) (refined_size mp per) per h xv n c -> pressure_near p mp per h xp n ->
    smooth4 (u c) h (grid_point h n) M -> smooth3 p h (grid_point h n) N ->
    Rabs (rv n c / cell_volume h - (minus_laplacian (u c) (length mp) (grid_point h n) + first p c (grid_point h n))) <= laplacian_error h M + gradient_error h N c) /\
  (forall n N, interior mp per n -> velocity_near u mp per h xv n ->
    (forall c, (c < length mp)%nat -> smooth3 (u c) h (grid_point (map (Rmult 2) h) n) (N c)) ->
    Rabs (rp n 0%nat / cell_volume (map (Rmult 2) h) - Rsum (length mp) (fun c => first (u c) c (grid_point (map (Rmult 2) h) n))) <= divergence_error h N).
Proof.
  intros HG HS Wv Wq _. assert (Lp : length per = length mp) by apply HG. assert (HF : Forall (fun z => (1 <= z)%Z) mp) by apply HG.
  pose proof (refined_grid mp per HG) as HGv. pose proof (steps_refined h mp per HG HS) as HSv. pose proof (refined_len mp per HG) as LE. split.
  - intros n c M N HI Hc HU HP SU SP. assert (Hn := interior_node _ per n HGv HI).
    assert (R1 : rv n c = scalar_form (refined_size mp per) per (E0 (refined_size mp per) per) (length mp) (getMatElemLaplacian h) (S_Bc.unit_field n c) xv - div_form (refined_size mp per) mp per (E0 mp per) (length mp) (getMatElemPressure h) xp (S_Bc.unit_field n c)) by (rewrite <- (inner_unit _ (length mp) rv n c Hn Hc); apply Wv).
    rewrite R1, (row_samples (refined_size mp per) per h (length mp) _ n c xv (u c)), (row_gradient mp h per (length mp) _ n c xp p); auto; [|rewrite LE; exact Lp|apply HGv].
    assert (LN : length n = length mp) by (rewrite <- LE; apply HI).
    pose proof (lap_err h (refined_size mp per) (u c) n M HSv) as EL. rewrite LE in *. specialize (EL (proj1 HG) LN SU).
    pose proof (grad_err h mp p n N c HS (proj1 HG) LN Hc SP) as EG.
    match goal with |- Rabs ((?a - ?b) / ?k - (?x + ?y)) <= _ => set (A := a) in *; set (B := b) in *; set (K := k) in *; replace ((A - B) / K - (x + y)) with ((A / K - x) - (B / K + y)) by (unfold Rdiv; ring) end.
    eapply Rle_trans; [apply Rabs_triang|]. rewrite Rabs_Ropp. apply Rplus_le_compat; assumption.
  - intros n N HI HU SU. assert (Hn := interior_node mp per n HG HI).
    assert (R1 : rp n 0%nat = div_form (refined_size mp per) mp per (E0 mp per) (length mp) (getMatElemPressure h) (S_Bc.unit_field n 0) xv) by (rewrite <- (inner_unit mp 1 rp n 0%nat Hn ltac:(lia)); apply Wq).
    rewrite R1, (row_divergence mp h per _ n xv u) by auto. rewrite <- (grid_double h mp n HS) in *.
    apply (div_err h mp u (map (Z.mul 2) n) N HS); [apply HG|rewrite map_length; apply HI|exact SU].
Qed.
(** Stokes: minus the Laplacian plus the gradient of the pressure, and the divergence. *)
Theorem C86_stokes : forall h mp per dms xv xp (u : nat -> vec -> R) (p : vec -> R), let D := length mp in let mv := refined_size mp per in
  grid_ok mp per -> steps_ok h mp -> stokes_layout mp per D dms ->
  exists yv yp, stokes_matrix_raw (laplacian_mult h) h dms xv xp = Ok (yv, yp) /\
    (forall n c M N, interior mv per n -> (c < D)%nat -> samples_near (u c) mv per h xv n c -> pressure_near p mp per h xp n ->
      smooth4 (u c) h (grid_point h n) M -> smooth3 p h (grid_point h n) N ->
      Rabs (yv n c / cell_volume h - (minus_laplacian (u c) D (grid_point h n) + first p c (grid_point h n))) <= laplacian_error h M + gradient_error h N c) /\
    (forall n N, interior mp per n -> velocity_near u mp per h xv n ->
      (forall c, (c < D)%nat -> smooth3 (u c) h (grid_point (map (Rmult 2) h) n) (N c)) ->
      Rabs (yp n 0%nat / cell_volume (map (Rmult 2) h) - Rsum D (fun c => first (u c) c (grid_point (map (Rmult 2) h) n))) <= divergence_error h N).
Proof.
  intros h mp per dms xv xp u p D mv HG HS HL. destruct (stokes_rep_lap h mp per D dms xv xp HG HL) as (yv & yp & E & W).
  destruct (W _ _ _ _ (nv0 mp per) (np0 mp) (ev0 mp per HG) (ep0 mp per HG)) as [Wv Wq]. exists yv, yp. split; [exact E|]. apply (stokes_rows h mp per dms xv xp u p yv yp HG HS Wv Wq E).
Qed.
(** The system that the driver solves, with boundary conditions and a load: the nodal values of a flow satisfy each of its
    equations at the interior nodes, up to the volume of the cell times terms of second order in the steps. *)
Theorem C86_discrete_equations : forall h mp per dms bc conds xv xp (u : nat -> vec -> R) (p : vec -> R) (f : nat -> vec -> R), let D := length mp in let mv := refined_size mp per in
  grid_ok mp per -> steps_ok h mp -> stokes_layout mp per D dms -> nonempty_views (map fst dms) -> table_ok D D bc -> length conds = D ->
  (forall c X, match nth c conds None with Some g => g X = f c X | None => f c X = 0 end) ->
  exists bv yv yp, setup_RHS D conds (map Some bc) h (map fst dms) zero_field = Ok bv /\
    stokes_matrix (laplacian_mult h) h D (Some (map Some bc)) dms xv xp = Ok (yv, yp) /\
    (forall n c M N K, interior mv per n -> (c < D)%nat -> samples_near (u c) mv per h xv n c -> pressure_near p mp per h xp n ->
      (forall o, length o = length mv -> Forall (fun a => (-1 <= a <= 1)%Z) o -> f c (grid_point h (wrap mv per (zip_with Z.add n o))) = f c (grid_point h (zip_with Z.add n o))) ->
      smooth4 (u c) h (grid_point h n) M -> smooth3 p h (grid_point h n) N -> smooth2 (f c) h (grid_point h n) K ->
      minus_laplacian (u c) D (grid_point h n) + first p c (grid_point h n) = f c (grid_point h n) ->
      Rabs (yv n c - bv n c) <= cell_volume h * (laplacian_error h M + gradient_error h N c + mass_error h K)) /\
    (forall n N, interior mp per n -> velocity_near u mp per h xv n ->
      (forall c, (c < D)%nat -> smooth3 (u c) h (grid_point (map (Rmult 2) h) n) (N c)) ->
      Rsum D (fun c => first (u c) c (grid_point (map (Rmult 2) h) n)) = 0 ->
      Rabs (yp n 0%nat) <= cell_volume (map (Rmult 2) h) * divergence_error h N).
Proof.
  intros h mp per dms bc conds xv xp u p f D mv HG HS HL HN HT HC HF.
  destruct (facts false h mp per bc dms HG HL HN HT xv xp) as (rv & rp & yv & E0' & E & V & Wv & Wq). fold D mv in E, V, Wv, Wq.
  destruct (stokes_rows h mp per dms xv xp u p rv rp HG HS Wv Wq E0') as [Rv Rq]. fold D mv in Rv, Rq.
  pose proof (refined_grid mp per HG) as HGv. fold mv in HGv. assert (LE : length mv = D) by (apply refined_len, HG).
  pose proof (steps_refined h mp per HG HS) as HSv. fold mv in HSv.
  assert (T' : table_ok (length mv) D bc) by (rewrite LE; exact HT).
  set (F := fun n c => match nth c conds None with Some g => g (zip_with (fun i s => IZR i * s) n h) | None => 0 end).
  assert (FE : forall n c, F n c = f c (grid_point h n)).
  { intros n c. unfold F. specialize (HF c (zip_with (fun i s => IZR i * s) n h)). unfold grid_point.
    replace (zip_with (fun x h0 => IZR x * h0) n h) with (zip_with (fun i s => IZR i * s) n h) by reflexivity. destruct (nth c conds None); lra. }
  assert (B : exists bv, setup_RHS D conds (map Some bc) h (map fst dms) zero_field = Ok bv /\
    forall n c K, interior mv per n -> (c < D)%nat -> (forall o, length o = length mv -> Forall (fun a => (-1 <= a <= 1)%Z) o -> f c (grid_point h (wrap mv per (zip_with Z.add n o))) = f c (grid_point h (zip_with Z.add n o))) ->
      smooth2 (f c) h (grid_point h n) K -> Rabs (bv n c / cell_volume h - f c (grid_point h n)) <= mass_error h K).
  { destruct (loaded_dec conds) as [H|H].
    - destruct (C45_first_call mv per D (map fst dms) conds bc h zero_field HGv (proj1 HL) HN T' HC H) as (y & mf & Ey & Em & Vy). rewrite LE in *. exists y. split; [exact Ey|].
      intros n c K HI Hc HP HK. assert (Hn := interior_node mv per n HGv HI). rewrite (Vy n c Hn Hc), (interior_free D mv per bc n c LE HI). unfold zero_field. rewrite Rplus_0_l.
      destruct (C86_mass h mv per D (map fst dms) F n c (f c) K HGv HSv (proj1 HL) HI Hc) as (mf' & Em' & B); [intros o Lo Fo; rewrite FE; apply HP; [rewrite <- LE|]; auto|exact HK|].
      assert (Q : Ok mf = Ok mf') by (transitivity (diag_block_matrix_raw (mass_mult h) (map fst dms) F); [symmetry; exact Em|exact Em']). injection Q as <-. exact B.
    - destruct (C30_on_rhs mv per D bc h (map fst dms) zero_field HGv (proj1 HL) HN T') as (y & Ey & Vy). rewrite LE in *. exists y. unfold setup_RHS. rewrite (has_condition_unloaded _ H). split; [exact Ey|].
      intros n c K HI Hc HP HK. assert (Hn := interior_node mv per n HGv HI). rewrite (Vy n c Hn Hc), (interior_free D mv per bc n c LE HI). unfold zero_field.
      assert (Z : f c (grid_point h n) = 0) by (rewrite <- FE; unfold F; rewrite H; reflexivity). rewrite Z. replace (0 / cell_volume h - 0) with 0 by (unfold Rdiv; ring). rewrite Rabs_R0.
      unfold mass_error. apply P_Energy.Rsum_nonneg. intros i Hi. assert (PI := pos_co h mv HSv). assert (WX : within 1 h (grid_point h n) (grid_point h n)).
      { apply within_refl; [exact PI|]. unfold grid_point. rewrite length_zip_with; rewrite (proj1 HI), (proj1 HSv); reflexivity. }
      destruct (HK (grid_point h n) i WX Hi) as (_ & _ & B). assert (0 <= K i) by (eapply Rle_trans; [apply Rabs_pos|exact B]). pose proof (pow2_ge_0 (co i h)). apply Rmult_le_pos; lra. }
  destruct B as (bv & Eb & Vb). exists bv, yv, rp. split; [exact Eb|]. split; [exact E|]. split.
  - intros n c M N K HI Hc HU HP HPl SU SP SK EQ. assert (Hn := interior_node mv per n HGv HI).
    rewrite (V n c Hn Hc), (interior_free D mv per bc n c LE HI).
    pose proof (Rv n c M N HI Hc HU HP SU SP) as B1. rewrite EQ in B1. pose proof (Vb n c K HI Hc HPl SK) as B2. pose proof (volume_pos h mp HS) as VP.
    replace (rv n c - bv n c) with (cell_volume h * ((rv n c / cell_volume h - f c (grid_point h n)) - (bv n c / cell_volume h - f c (grid_point h n)))) by (field; lra).
    rewrite Rabs_mult, (Rabs_right (cell_volume h)) by lra. apply Rmult_le_compat_l; [lra|]. eapply Rle_trans; [apply Rabs_triang|]. rewrite Rabs_Ropp. apply Rplus_le_compat; assumption.
  - intros n N HI HU SU DIV. pose proof (Rq n N HI HU SU) as B1. rewrite DIV, Rminus_0_r in B1. pose proof (volume_pos _ mp (steps_double h mp HS)) as VP. set (W := cell_volume (map (Rmult 2) h)) in *.
    replace (rp n 0%nat) with (W * (rp n 0%nat / W)) by (field; lra). rewrite Rabs_mult, (Rabs_right W) by lra. apply Rmult_le_compat_l; [lra|exact B1].
Qed.
(** ** the bounds are reached *)
Lemma co0_moved0 X t : co 0 (moved X 0 t) = t. Proof. reflexivity. Qed.
Lemma co0_movedS X j t : (0 < length X)%nat -> co 0 (moved X (S j) t) = co 0 X.
Proof. destruct X; cbn [length]; [lia|reflexivity]. Qed.
Lemma D_pow k t : Derive (fun t => t ^ (S k)) t = INR (S k) * t ^ k.
Proof. rewrite Derive_pow by apply ex_derive_id. rewrite Derive_id. cbn [pred]. ring. Qed.
Lemma second_power k j X : (0 < length X)%nat -> second (fun X => co 0 X ^ (S (S k))) j X = if Nat.eqb j 0 then INR (S (S k)) * INR (S k) * co 0 X ^ k else 0.
Proof.
  intros L. unfold second. destruct j as [|j]; cbn [Nat.eqb].
  - assert (E : Derive (fun t => co 0 (moved X 0 t) ^ S (S k)) = fun t => INR (S (S k)) * t ^ S k) by (apply functional_extensionality; intros t; exact (D_pow (S k) t)). rewrite E. rewrite Derive_scal, D_pow. ring.
  - assert (E : (fun t => co 0 (moved X (S j) t) ^ S (S k)) = fun _ => co 0 X ^ S (S k)) by (apply functional_extensionality; intros t; rewrite co0_movedS by exact L; reflexivity). rewrite E.
    assert (E2 : Derive (fun _ => co 0 X ^ S (S k)) = fun _ => 0) by (apply functional_extensionality; intros t; apply Derive_const). rewrite E2. apply Derive_const.
Qed.
Lemma bends_power k i X : (0 < length X)%nat -> bends (fun X => co 0 X ^ (S (S k))) X i (if Nat.eqb i 0 then INR (S (S k)) * INR (S k) * Rabs (co 0 X) ^ k else 0).
Proof.
  intros L. unfold bends. cbv zeta. destruct i as [|i]; cbn [Nat.eqb].
  - assert (E : Derive (fun t => co 0 (moved X 0 t) ^ S (S k)) = fun t => INR (S (S k)) * t ^ S k) by (apply functional_extensionality; intros t; exact (D_pow (S k) t)).
    split; [assert (EX : ex_derive (fun t : R => t ^ S (S k)) (co 0 X)) by (auto_derive; exact I); exact EX|]. rewrite E. split; [auto_derive; exact I|].
    rewrite Derive_scal, D_pow. replace (INR (S (S k)) * (INR (S k) * co 0 X ^ k)) with (INR (S (S k)) * INR (S k) * co 0 X ^ k) by ring. rewrite Rabs_mult, (Rabs_right (_ * _)) by (apply Rle_ge, Rmult_le_pos; apply pos_INR). rewrite RPow_abs. lra.
  - assert (E : (fun t => co 0 (moved X (S i) t) ^ S (S k)) = fun _ => co 0 X ^ S (S k)) by (apply functional_extensionality; intros t; rewrite co0_movedS by exact L; reflexivity). rewrite E.
    assert (E2 : Derive (fun _ => co 0 X ^ S (S k)) = fun _ => 0) by (apply functional_extensionality; intros t; apply Derive_const). rewrite E2. rewrite Derive_const, Rabs_R0. split; [apply ex_derive_const|]. split; [apply ex_derive_const|lra].
Qed.
Definition square_bound (i : nat) : R := if Nat.eqb i 0 then 2 else 0.
Definition quartic_bound (j i : nat) : R := if Nat.eqb j 0 && Nat.eqb i 0 then 24 else 0.
Lemma square_smooth h X : (0 < length h)%nat -> smooth2 (fun X => co 0 X ^ 2) h X square_bound.
Proof.
  intros L Y i [LY _] Hi. pose proof (bends_power 0 i Y ltac:(lia)) as B. unfold square_bound. replace (if Nat.eqb i 0 then 2 else 0) with (if Nat.eqb i 0 then INR 2 * INR 1 * Rabs (co 0 Y) ^ 0 else 0) by (destruct (Nat.eqb i 0); cbn; ring). exact B.
Qed.
Lemma bends_ext f g (h X : vec) i M : (forall Y, length Y = length h -> f Y = g Y) -> length X = length h -> (i < length h)%nat -> bends g X i M -> bends f X i M.
Proof.
  intros E L Hi. unfold bends. cbv zeta. assert (Q : (fun t => f (moved X i t)) = fun t => g (moved X i t)). { apply functional_extensionality. intros t. apply E. unfold moved. rewrite app_length, firstn_length. cbn [length]. rewrite skipn_length. lia. }
  rewrite Q. auto.
Qed.
Lemma bends_scal k f X i M : bends f X i M -> bends (fun Y => k * f Y) X i (Rabs k * M).
Proof.
  unfold bends. cbv zeta. intros (A & B & C). assert (E : Derive (fun t => k * f (moved X i t)) = fun t => k * Derive (fun t => f (moved X i t)) t) by (apply functional_extensionality; intros t; apply Derive_scal).
  split; [apply (ex_derive_scal (fun t => f (moved X i t))), A|]. rewrite E. split; [apply (ex_derive_scal (Derive (fun t => f (moved X i t)))), B|]. rewrite Derive_scal, Rabs_mult. apply Rmult_le_compat_l; [apply Rabs_pos|exact C].
Qed.
Lemma quartic_smooth h X : (0 < length h)%nat -> smooth4 (fun X => co 0 X ^ 4) h X quartic_bound.
Proof.
  intros L Y i j [LY _] Hi Hj. split.
  - destruct (bends_power 2 j Y ltac:(lia)) as (A & B & _). split; [exact A|exact B].
  - unfold quartic_bound. apply (bends_ext _ (fun Y => if Nat.eqb j 0 then 12 * co 0 Y ^ 2 else 0) h); auto.
    { intros Z LZ. rewrite (second_power 2) by lia. destruct (Nat.eqb j 0); [cbn; ring|reflexivity]. }
    destruct j as [|j]; cbn [Nat.eqb andb].
    + pose proof (bends_scal 12 _ Y i _ (bends_power 0 i Y ltac:(lia))) as B. rewrite (Rabs_right 12) in B by lra. destruct (Nat.eqb i 0); cbn [INR pow] in B |- *; [replace 24 with (12 * ((1 + 1) * 1 * 1)) by ring|replace 0 with (12 * 0) by ring]; exact B.
    + unfold bends. cbv zeta. assert (E2 : Derive (fun _ => 0) = fun _ => 0) by (apply functional_extensionality; intros t; apply Derive_const). rewrite E2, Derive_const, Rabs_R0. split; [apply ex_derive_const|]. split; [apply ex_derive_const|lra].
Qed.
Lemma lap_reached h m n : steps_ok h m -> (length m = 2 \/ length m = 3)%nat -> length n = length m ->
  Rsum (2 ^ length m) (fun k1 => Rsum (2 ^ length m) (fun k2 => getMatElemLaplacian h k1 k2 * co 0 (grid_point h (add n (sub (bits (length m) k2) (bits (length m) k1)))) ^ 4)) / cell_volume h
    - minus_laplacian (fun X => co 0 X ^ 4) (length m) (grid_point h n) = - (2 * co 0 h ^ 2).
Proof.
  intros HS HD LN. pose proof (pos_co h m HS) as Hp. destruct HS as [Lh HP]. destruct HD as [E|E]; rewrite E in *.
  - destruct h as [|h0 [|h1 [|]]]; try discriminate Lh. destruct n as [|n0 [|n1 [|]]]; try discriminate LN.
    assert (P0 : 0 < h0) by (apply (Hp 0%nat); cbn; lia). assert (P1 : 0 < h1) by (apply (Hp 1%nat); cbn; lia).
    change (2 ^ 2)%nat with 4%nat. rewrite (lap_row2 (fun X => co 0 X ^ 4) h0 h1 n0 n1 P0 P1). cbv zeta. unfold minus_laplacian. cbn [Rsum]. rewrite !(second_power 2) by (cbn; lia). cbn [Nat.eqb].
    unfold cell_volume, AV, dif, line, moved, grid_point, co. cbn [fold_right nth zip_with firstn skipn app INR]. field. lra.
  - destruct h as [|h0 [|h1 [|h2 [|]]]]; try discriminate Lh. destruct n as [|n0 [|n1 [|n2 [|]]]]; try discriminate LN.
    assert (P0 : 0 < h0) by (apply (Hp 0%nat); cbn; lia). assert (P1 : 0 < h1) by (apply (Hp 1%nat); cbn; lia). assert (P2 : 0 < h2) by (apply (Hp 2%nat); cbn; lia).
    change (2 ^ 3)%nat with 8%nat. rewrite (lap_row3 (fun X => co 0 X ^ 4) h0 h1 h2 n0 n1 n2 P0 P1 P2). cbv zeta. unfold minus_laplacian. cbn [Rsum]. rewrite !(second_power 2) by (cbn; lia). cbn [Nat.eqb].
    unfold cell_volume, AV, dif, line, moved, grid_point, co. cbn [fold_right nth zip_with firstn skipn app INR]. field. lra.
Qed.
Lemma mass_reached h m n : steps_ok h m -> (length m = 2 \/ length m = 3)%nat -> length n = length m ->
  Rsum (2 ^ length m) (fun k1 => Rsum (2 ^ length m) (fun k2 => getMatElemMass h k1 k2 * co 0 (grid_point h (add n (sub (bits (length m) k2) (bits (length m) k1)))) ^ 2)) / cell_volume h
    - co 0 (grid_point h n) ^ 2 = co 0 h ^ 2 / 3.
Proof.
  intros HS HD LN. pose proof (pos_co h m HS) as Hp. destruct HS as [Lh HP]. destruct HD as [E|E]; rewrite E in *.
  - destruct h as [|h0 [|h1 [|]]]; try discriminate Lh. destruct n as [|n0 [|n1 [|]]]; try discriminate LN.
    assert (P0 : 0 < h0) by (apply (Hp 0%nat); cbn; lia). assert (P1 : 0 < h1) by (apply (Hp 1%nat); cbn; lia).
    change (2 ^ 2)%nat with 4%nat. rewrite (mass_row2 (fun X => co 0 X ^ 2) h0 h1 n0 n1). cbv zeta.
    unfold cell_volume, AV, moved, grid_point, co. cbn [fold_right nth zip_with firstn skipn app]. field. lra.
  - destruct h as [|h0 [|h1 [|h2 [|]]]]; try discriminate Lh. destruct n as [|n0 [|n1 [|n2 [|]]]]; try discriminate LN.
    assert (P0 : 0 < h0) by (apply (Hp 0%nat); cbn; lia). assert (P1 : 0 < h1) by (apply (Hp 1%nat); cbn; lia). assert (P2 : 0 < h2) by (apply (Hp 2%nat); cbn; lia).
    change (2 ^ 3)%nat with 8%nat. rewrite (mass_row3 (fun X => co 0 X ^ 2) h0 h1 h2 n0 n1 n2). cbv zeta.
    unfold cell_volume, AV, moved, grid_point, co. cbn [fold_right nth zip_with firstn skipn app]. field. lra.
Qed.
Theorem C86_bounds_are_reached : forall h m per dof dms x n c, grid_ok m per -> steps_ok h m -> distributes m per dof dms -> interior m per n -> (c < dof)%nat ->
  (samples_near (fun X => co 0 X ^ 4) m per h x n c ->
    exists y M, diag_block_matrix_raw (laplacian_mult h) dms x = Ok y /\ smooth4 (fun X => co 0 X ^ 4) h (grid_point h n) M /\ 0 < laplacian_error h M /\
      Rabs (y n c / cell_volume h - minus_laplacian (fun X => co 0 X ^ 4) (length m) (grid_point h n)) = laplacian_error h M) /\
  (samples_near (fun X => co 0 X ^ 2) m per h x n c ->
    exists y M, diag_block_matrix_raw (mass_mult h) dms x = Ok y /\ smooth2 (fun X => co 0 X ^ 2) h (grid_point h n) M /\ 0 < mass_error h M /\
      Rabs (y n c / cell_volume h - co 0 (grid_point h n) ^ 2) = mass_error h M).
Proof.
  intros h m per dof dms x n c HG HS HD HI Hc. assert (Hn := interior_node m per n HG HI). assert (Lp : length per = length m) by apply HG.
  assert (D23 : (length m = 2 \/ length m = 3)%nat) by apply HG. assert (L0 : (0 < length h)%nat) by (rewrite (proj1 HS); lia). pose proof (pos_co h m HS 0%nat L0) as P0.
  assert (PP : 0 < co 0 h ^ 2) by (apply pow_lt, P0).
  split; intros HX.
  - destruct (C25_laplacian_is_assembled h m per dof dms x HG HD) as (y & E & W). exists y, quartic_bound. split; [exact E|]. split; [apply quartic_smooth, L0|].
    assert (EV : laplacian_error h quartic_bound = 2 * co 0 h ^ 2). { unfold laplacian_error, quartic_bound. rewrite (proj1 HS). destruct D23 as [-> | ->]; cbn [Rsum Nat.eqb andb]; field. }
    rewrite EV. split; [lra|].
    assert (R1 : y n c = scalar_form m per (E0 m per) dof (getMatElemLaplacian h) (S_Bc.unit_field n c) x) by (rewrite <- (inner_unit m dof y n c Hn Hc); apply W; [apply N0_enum|apply E0_enum, Lp]).
    rewrite R1, (row_samples m per h dof _ n c x _ Lp (proj2 (proj2 HG)) HI Hc HX), (lap_reached h m n HS D23 (proj1 HI)), Rabs_Ropp. apply Rabs_right. lra.
  - destruct (C25_mass_is_assembled h m per dof dms x HG HD) as (y & E & W). exists y, square_bound. split; [exact E|]. split; [apply square_smooth, L0|].
    assert (EV : mass_error h square_bound = co 0 h ^ 2 / 3). { unfold mass_error, square_bound. rewrite (proj1 HS). destruct D23 as [-> | ->]; cbn [Rsum Nat.eqb]; field. }
    rewrite EV. split; [lra|].
    assert (R1 : y n c = scalar_form m per (E0 m per) dof (getMatElemMass h) (S_Bc.unit_field n c) x) by (rewrite <- (inner_unit m dof y n c Hn Hc); apply W; [apply N0_enum|apply E0_enum, Lp]).
    rewrite R1, (row_samples m per h dof _ n c x _ Lp (proj2 (proj2 HG)) HI Hc HX), (mass_reached h m n HS D23 (proj1 HI)). apply Rabs_right. lra.
Qed.
(** ** the hypotheses are met *)
Lemma wrap_false m n : length n = length m -> wrap m (repeat false (length m)) n = n.
Proof. revert n. induction m as [|z m IH]; intros [|x n] L; try discriminate; [reflexivity|]. cbn [length repeat]. cbn [wrap]. f_equal. apply IH. cbn in L; lia. Qed.
(** The nodal values of any functions on a grid with walls only. *)
Theorem C86_hypotheses_are_met : forall mp h (u : nat -> vec -> R) (p : vec -> R) n, let per := repeat false (length mp) in let mv := refined_size mp per in
  let xv := fun n c => u c (grid_point h n) in let xp := fun n (_ : nat) => p (grid_point h (map (Z.mul 2) n)) in
  (forall c, interior mv per n -> samples_near (u c) mv per h xv n c) /\ (interior mv per n -> pressure_near p mp per h xp n) /\ (interior mp per n -> velocity_near u mp per h xv n).
Proof.
  intros mp h u p n per mv xv xp. assert (Lv : length mv = length mp) by (unfold mv, refined_size, per; rewrite length_zip_with; rewrite ?repeat_length; lia).
  assert (Pv : per = repeat false (length mv)) by (unfold per; rewrite Lv; reflexivity). split; [|split].
  - intros c [Ln _] o Lo _. unfold xv. rewrite Pv, wrap_false by (rewrite length_zip_with; lia). reflexivity.
  - intros [Ln _] k Lk _. unfold xp, per. rewrite wrap_false by exact Lk. reflexivity.
  - intros [Ln _] o c Lo _ _. unfold xv. fold mv. rewrite Pv, wrap_false by (rewrite length_zip_with; rewrite ?map_length; lia). reflexivity.
Qed.

(** a flow with walls on all sides: pressure grid 3 x 3, velocity grid 5 x 5, the node in the middle *)
Example C86_example : let u := fun X => co 0 X ^ 4 in let xv := fun n (_ : nat) => u (grid_point [1; 1] n) in
  grid_ok [3; 3]%Z [false; false] /\ steps_ok [1; 1] [3; 3]%Z /\ refined_size [3; 3]%Z [false; false] = [5; 5]%Z /\ interior [5; 5]%Z [false; false] [2; 2]%Z /\ interior [3; 3]%Z [false; false] [1; 1]%Z /\
  (forall c : nat, samples_near u [5; 5]%Z [false; false] [1; 1] xv [2; 2]%Z c) /\ (forall c : nat, smooth4 u [1; 1] (grid_point [1; 1] [2; 2]%Z) quartic_bound).
Proof.
  cbv zeta. split; [repeat constructor; cbn; lia|]. split; [repeat constructor; lra|]. split; [reflexivity|].
  assert (I5 : interior [5; 5]%Z [false; false] [2; 2]%Z) by (split; [reflexivity|intros [|[|d]] Hd; cbn in *; lia]).
  split; [exact I5|]. split; [split; [reflexivity|intros [|[|d]] Hd; cbn in *; lia]|]. split.
  - intros c. destruct (C86_hypotheses_are_met [3; 3]%Z [1; 1] (fun _ X => co 0 X ^ 4) (fun _ => 0) [2; 2]%Z) as [A _]. exact (A c I5).
  - intros c. apply quartic_smooth; cbn; lia.
Qed.
