(** C88: the strain-tensor operator is consistent, to second order, with minus the divergence of twice the rate of strain. *)
From Coq Require Import FunctionalExtensionality.
From Coquelicot Require Import Coquelicot.
From Verif Require Import Base M_Geometry S_Geometry P_Geometry M_Particle S_Particle P_Particle M_Quadrature S_Fem P_Energy P_Precond M_MatElem P_MatElem M_Mesh M_Operator S_Operator P_Mesh P_Operator P_Operator2 P_Operator3 P_Global P_Stokes M_Bc S_Bc P_Flux Prop_Flux P_Gather P_Exact M_ParticleOp S_ParticleOp S_Accuracy P_Accuracy S_Consistency S_Consistency2 P_Consistency P_Stencil P_Consistency2 P_Consistency3 P_Consistency4 P_Diag Prop_Operator Prop_Operator2 Prop_Assembly Prop_StokesUnique P_Consistency5 Prop_Consistency P_Consistency6.
Open Scope R_scope.
Lemma Rsum_Rabs n f : Rabs (Rsum n f) <= Rsum n (fun k => Rabs (f k)).
Proof. induction n as [|n IH]; cbn [Rsum]; [rewrite Rabs_R0; lra|]. eapply Rle_trans; [apply Rabs_triang|]. lra. Qed.
Lemma strain_err h m (u : nat -> vec -> R) n M N c : steps_ok h m -> (length m = 2 \/ length m = 3)%nat -> length n = length m -> (c < length m)%nat ->
  smooth4 (u c) h (grid_point h n) M -> (forall j, (j < length m)%nat -> j <> c -> smooth_mixed (u j) h (grid_point h n) j c (N j)) ->
  Rabs (Rsum (length m) (fun d => Rsum (2 ^ length m) (fun k1 => Rsum (2 ^ length m) (fun k2 => getMatElemStrainTensor h k1 k2 c d * u d (grid_point h (add n (sub (bits (length m) k2) (bits (length m) k1))))))) / cell_volume h
    - minus_div_strain u (length m) c (grid_point h n)) <= strain_error h M N c.
Proof.
  intros HS HD LN Hc SM SX. set (X := grid_point h n) in *. set (D := length m) in *.
  set (T := fun d => Rsum (2 ^ D) (fun k1 => Rsum (2 ^ D) (fun k2 => getMatElemStrainTensor h k1 k2 c d * u d (grid_point h (add n (sub (bits D k2) (bits D k1)))))) / cell_volume h).
  set (V := fun d => if Nat.eqb d c then minus_laplacian (u c) D X - second (u c) c X else - first (first (u d) d) c X).
  set (Er := fun j => Rsum (length h) (fun i => if Nat.eqb j c then co i h ^ 2 / (if Nat.eqb i c then 12 else 6) * M c i else co i h ^ 2 / (if (Nat.eqb i j || Nat.eqb i c)%bool then 2 else 6) * N j i)).
  assert (Lh : length h = D) by apply HS. assert (LX : length X = D) by (unfold X, grid_point; rewrite length_zip_with; rewrite ?LN; lia).
  assert (B : forall d, (d < D)%nat -> Rabs (T d - V d) <= (if Nat.eqb d c then laplacian_error h M else 0) + Er d).
  { intros d Hd. unfold T, V, Er. destruct (Nat.eqb_spec d c) as [->|Ne].
    - apply (diag_err h m (u c) n M c HS HD LN Hc SM).
    - rewrite Rplus_0_l. apply (off_err h m (u d) n (N d) c d HS HD LN Hc Hd (not_eq_sym Ne) (SX d Hd Ne)). }
  assert (ET : Rsum D (fun d => Rsum (2 ^ D) (fun k1 => Rsum (2 ^ D) (fun k2 => getMatElemStrainTensor h k1 k2 c d * u d (grid_point h (add n (sub (bits D k2) (bits D k1))))))) / cell_volume h = Rsum D T).
  { unfold Rdiv. rewrite Rmult_comm, <- Rsum_scal. apply Rsum_ext. intros d _. unfold T, Rdiv. apply Rmult_comm. }
  assert (E1 : forall (a : R), Rsum D (fun d => if Nat.eqb d c then a else 0) = a) by (intros a; rewrite (Rsum_single D c); [rewrite Nat.eqb_refl; reflexivity|exact Hc|intros d _ Ne; apply Nat.eqb_neq in Ne; rewrite Ne; reflexivity]).
  assert (EV : minus_div_strain u D c X = Rsum D V).
  { unfold minus_div_strain. transitivity (- (Rsum D (fun j => second (u c) j X) + Rsum D (fun j => first (first (u j) j) c X))); [f_equal; apply Rsum_plus|].
    transitivity (Rsum D (fun d => (if Nat.eqb d c then minus_laplacian (u c) D X else 0) + (-1) * first (first (u d) d) c X)).
    - rewrite Rsum_plus, E1, Rsum_scal. unfold minus_laplacian. ring.
    - apply Rsum_ext. intros d Hd. unfold V. destruct (Nat.eqb_spec d c) as [->|Ne]; [rewrite first_first by lia|]; ring. }
  rewrite ET, EV. unfold strain_error. rewrite Lh. fold D. replace (Rsum D T - Rsum D V) with (Rsum D (fun d => T d + (-1) * V d)) by (rewrite Rsum_plus, Rsum_scal; ring).
  eapply Rle_trans; [apply Rsum_Rabs|]. 
  apply Rle_trans with (Rsum D (fun d => (if Nat.eqb d c then laplacian_error h M else 0) + Er d)).
  - apply Rsum_le. intros d Hd. replace (T d + -1 * V d) with (T d - V d) by ring. apply B, Hd.
  - rewrite Rsum_plus, E1. apply Req_le. unfold Er. rewrite Lh. reflexivity.
Qed.
(** At the interior nodes the result, over the volume of a cell, is minus the divergence of twice the rate of strain up to terms of second order in the steps. *)
Theorem C88_strain : forall h m per dms x n c (u : nat -> vec -> R) M N, let D := length m in grid_ok m per -> steps_ok h m -> distributes m per D dms -> interior m per n -> (c < D)%nat ->
  (forall d, (d < D)%nat -> samples_near (u d) m per h x n d) -> smooth4 (u c) h (grid_point h n) M -> (forall j, (j < D)%nat -> j <> c -> smooth_mixed (u j) h (grid_point h n) j c (N j)) ->
  exists y, diag_block_matrix_raw (strain_tensor_mult h) dms x = Ok y /\
    Rabs (y n c / cell_volume h - minus_div_strain u D c (grid_point h n)) <= strain_error h M N c.
Proof.
  intros h m per dms x n c u M N D HG HS HD HI Hc HX HM HN. destruct (C25_strain_is_assembled h m per D dms x HG HD) as (y & E & W). exists y. split; [exact E|].
  assert (Hn := interior_node m per n HG HI). assert (Lp : length per = length m) by apply HG.
  assert (R1 : y n c = tensor_form m per (E0 m per) D (getMatElemStrainTensor h) (S_Bc.unit_field n c) x) by (rewrite <- (inner_unit m D y n c Hn Hc); apply W; [apply N0_enum|apply E0_enum, Lp]).
  rewrite R1, (row_samples_t m per h D _ n c x u Lp (proj2 (proj2 HG)) HI Hc HX). apply (strain_err h m); auto; [apply HG|apply HI].
Qed.
Theorem C88_half_the_steps : forall h M N c, strain_error (map (fun s => s / 2) h) M N c = strain_error h M N c / 4.
Proof.
  intros h M N c. assert (C : forall i, (i < length h)%nat -> co i (map (fun s => s / 2) h) = co i h / 2). { intros i Hi. unfold co. rewrite (nth_indep _ 0 (0 / 2)) by (rewrite map_length; exact Hi). apply (map_nth (fun s => s / 2)). }
  unfold strain_error. rewrite (proj1 (C86_half_the_steps h M (fun _ => 0) (fun _ _ => 0) (fun _ _ _ => 0) 0%nat)), map_length. match goal with |- ?l / 4 + ?x = (?l + ?y) / 4 => replace ((l + y) / 4) with (l / 4 + / 4 * y) by field end. f_equal. rewrite <- Rsum_scal.
  apply Rsum_ext. intros j Hj. rewrite <- Rsum_scal. apply Rsum_ext. intros i Hi. rewrite C by auto. destruct (Nat.eqb j c), (Nat.eqb i c), (Nat.eqb i j); cbn [orb]; field.
Qed.
(** For an incompressible flow it is the same as minus the Laplacian. *)
Lemma Derive_Rsum D (F : nat -> R -> R) x : (forall j, (j < D)%nat -> ex_derive (F j) x) -> ex_derive (fun t => Rsum D (fun j => F j t)) x /\ Derive (fun t => Rsum D (fun j => F j t)) x = Rsum D (fun j => Derive (F j) x).
Proof.
  induction D as [|D IH]; intros H; cbn [Rsum]; [split; [apply ex_derive_const|apply Derive_const]|]. destruct IH as [I1 I2]; [intros; apply H; lia|]. split; [apply @ex_derive_plus; [exact I1|apply H; lia]|].
  rewrite Derive_plus; [rewrite I2; reflexivity|exact I1|apply H; lia].
Qed.
Theorem C88_divergence_free : forall (u : nat -> vec -> R) D c X, (forall j, (j < D)%nat -> ex_derive (fun t => first (u j) j (moved X c t)) (co c X)) ->
  (forall t, Rsum D (fun j => first (u j) j (moved X c t)) = 0) -> minus_div_strain u D c X = minus_laplacian (u c) D X.
Proof.
  intros u D c X HD H0. unfold minus_div_strain, minus_laplacian. f_equal. transitivity (Rsum D (fun j => second (u c) j X) + Rsum D (fun j => first (first (u j) j) c X)); [apply Rsum_plus|].
  destruct (Derive_Rsum D (fun j t => first (u j) j (moved X c t)) (co c X) HD) as [_ E].
  assert (Z : (fun t => Rsum D (fun j => first (u j) j (moved X c t))) = fun _ => 0) by (apply functional_extensionality; exact H0). 
  assert (Q : Rsum D (fun j => first (first (u j) j) c X) = 0). { transitivity (Rsum D (fun j => Derive (fun t => first (u j) j (moved X c t)) (co c X))); [reflexivity|]. rewrite <- E, Z. apply Derive_const. }
  rewrite Q. ring.
Qed.
(** rows of the Stokes operator *)
Lemma strain_rows h mp per xv xp (u : nat -> vec -> R) (p : vec -> R) rv rp :
  grid_ok mp per -> steps_ok h mp ->
  (forall v, inner (N0 (refined_size mp per)) (length mp) rv v = tensor_form (refined_size mp per) per (E0 (refined_size mp per) per) (length mp) (getMatElemStrainTensor h) v xv - div_form (refined_size mp per) mp per (E0 mp per) (length mp) (getMatElemPressure h) xp v) ->
  (forall q, inner (N0 mp) 1 rp q = div_form (refined_size mp per) mp per (E0 mp per) (length mp) (getMatElemPressure h) q xv) ->
  (forall n c M N K, interior (refined_size mp per) per n -> (c < length mp)%nat ->
    (forall d, (d < length mp)%nat -> samples_near (u d) (refined_size mp per) per h xv n d) -> pressure_near p mp per h xp n ->
    smooth4 (u c) h (grid_point h n) M -> (forall j, (j < length mp)%nat -> j <> c -> smooth_mixed (u j) h (grid_point h n) j c (N j)) -> smooth3 p h (grid_point h n) K ->
    Rabs (rv n c / cell_volume h - (minus_div_strain u (length mp) c (grid_point h n) + first p c (grid_point h n))) <= strain_error h M N c + gradient_error h K c) /\
  (forall n K, interior mp per n -> velocity_near u mp per h xv n ->
    (forall c, (c < length mp)%nat -> smooth3 (u c) h (grid_point (map (Rmult 2) h) n) (K c)) ->
    Rabs (rp n 0%nat / cell_volume (map (Rmult 2) h) - Rsum (length mp) (fun c => first (u c) c (grid_point (map (Rmult 2) h) n))) <= divergence_error h K).
Proof.
  intros HG HS Wv Wq. assert (Lp : length per = length mp) by apply HG. assert (HF : Forall (fun z => (1 <= z)%Z) mp) by apply HG.
  pose proof (refined_grid mp per HG) as HGv. pose proof (steps_refined h mp per HG HS) as HSv. pose proof (refined_len mp per HG) as LE. split.
  - intros n c M N K HI Hc HU HP SU SX SP. assert (Hn := interior_node _ per n HGv HI).
    assert (R1 : rv n c = tensor_form (refined_size mp per) per (E0 (refined_size mp per) per) (length mp) (getMatElemStrainTensor h) (S_Bc.unit_field n c) xv - div_form (refined_size mp per) mp per (E0 mp per) (length mp) (getMatElemPressure h) xp (S_Bc.unit_field n c)) by (rewrite <- (inner_unit _ (length mp) rv n c Hn Hc); apply Wv).
    rewrite R1, (row_samples_t (refined_size mp per) per h (length mp) _ n c xv u), (row_gradient mp h per (length mp) _ n c xp p); auto; [|rewrite LE; exact Lp|apply HGv].
    assert (LN : length n = length mp) by (rewrite <- LE; apply HI).
    pose proof (strain_err h (refined_size mp per) u n M N c HSv) as EL. rewrite LE in *. specialize (EL (proj1 HG) LN Hc SU SX).
    pose proof (grad_err h mp p n K c HS (proj1 HG) LN Hc SP) as EG.
    match goal with |- Rabs ((?a - ?b) / ?k - (?x + ?y)) <= _ => set (A := a) in *; set (B := b) in *; set (V := k) in *; replace ((A - B) / V - (x + y)) with ((A / V - x) - (B / V + y)) by (unfold Rdiv; ring) end.
    eapply Rle_trans; [apply Rabs_triang|]. rewrite Rabs_Ropp. apply Rplus_le_compat; assumption.
  - intros n K HI HU SU. assert (Hn := interior_node mp per n HG HI).
    assert (R1 : rp n 0%nat = div_form (refined_size mp per) mp per (E0 mp per) (length mp) (getMatElemPressure h) (S_Bc.unit_field n 0) xv) by (rewrite <- (inner_unit mp 1 rp n 0%nat Hn ltac:(lia)); apply Wq).
    rewrite R1, (row_divergence mp h per _ n xv u) by auto. rewrite <- (grid_double h mp n HS) in *.
    apply (div_err h mp u (map (Z.mul 2) n) K HS); [apply HG|rewrite map_length; apply HI|exact SU].
Qed.
(** Stokes with the strain tensor: minus the divergence of the stress, and the divergence of the velocity. *)
Theorem C88_stokes : forall h mp per dms xv xp (u : nat -> vec -> R) (p : vec -> R), let D := length mp in let mv := refined_size mp per in
  grid_ok mp per -> steps_ok h mp -> stokes_layout mp per D dms ->
  exists yv yp, stokes_matrix_raw (strain_tensor_mult h) h dms xv xp = Ok (yv, yp) /\
    (forall n c M N K, interior mv per n -> (c < D)%nat -> (forall d, (d < D)%nat -> samples_near (u d) mv per h xv n d) -> pressure_near p mp per h xp n ->
      smooth4 (u c) h (grid_point h n) M -> (forall j, (j < D)%nat -> j <> c -> smooth_mixed (u j) h (grid_point h n) j c (N j)) -> smooth3 p h (grid_point h n) K ->
      Rabs (yv n c / cell_volume h - (minus_div_strain u D c (grid_point h n) + first p c (grid_point h n))) <= strain_error h M N c + gradient_error h K c) /\
    (forall n K, interior mp per n -> velocity_near u mp per h xv n ->
      (forall c, (c < D)%nat -> smooth3 (u c) h (grid_point (map (Rmult 2) h) n) (K c)) ->
      Rabs (yp n 0%nat / cell_volume (map (Rmult 2) h) - Rsum D (fun c => first (u c) c (grid_point (map (Rmult 2) h) n))) <= divergence_error h K).
Proof.
  intros h mp per dms xv xp u p D mv HG HS HL. destruct (stokes_rep_strain h mp per D dms xv xp HG HL) as (yv & yp & E & W).
  destruct (W _ _ _ _ (nv0 mp per) (np0 mp) (ev0 mp per HG) (ep0 mp per HG)) as [Wv Wq]. exists yv, yp. split; [exact E|]. apply (strain_rows h mp per xv xp u p yv yp HG HS Wv Wq).
Qed.
(** the right-hand side *)
Lemma rhs_err h m per dms bc conds (f : nat -> vec -> R) : let D := length m in
  grid_ok m per -> steps_ok h m -> distributes m per D dms -> nonempty_views dms -> table_ok D D bc -> length conds = D ->
  (forall c X, match nth c conds None with Some g => g X = f c X | None => f c X = 0 end) ->
  exists bv, setup_RHS D conds (map Some bc) h dms zero_field = Ok bv /\
    forall n c K, interior m per n -> (c < D)%nat -> (forall o, length o = length m -> Forall (fun a => (-1 <= a <= 1)%Z) o -> f c (grid_point h (wrap m per (zip_with Z.add n o))) = f c (grid_point h (zip_with Z.add n o))) ->
      smooth2 (f c) h (grid_point h n) K -> Rabs (bv n c / cell_volume h - f c (grid_point h n)) <= mass_error h K.
Proof.
  intros D HG HS HD HN HT HC HF.
  set (F := fun n c => match nth c conds None with Some g => g (zip_with (fun i s => IZR i * s) n h) | None => 0 end).
  assert (FE : forall n c, F n c = f c (grid_point h n)).
  { intros n c. unfold F. specialize (HF c (zip_with (fun i s => IZR i * s) n h)). unfold grid_point.
    replace (zip_with (fun x h0 => IZR x * h0) n h) with (zip_with (fun i s => IZR i * s) n h) by reflexivity. destruct (nth c conds None); lra. }
  destruct (loaded_dec conds) as [H|H].
  - destruct (C45_first_call m per D dms conds bc h zero_field HG HD HN HT HC H) as (y & mf & Ey & Em & Vy). fold D in Ey, Vy. exists y. split; [exact Ey|].
    intros n c K HI Hc HP HK. assert (Hn := interior_node m per n HG HI). rewrite (Vy n c Hn Hc), (interior_free D m per bc n c eq_refl HI). unfold zero_field. rewrite Rplus_0_l.
    destruct (C86_mass h m per D dms F n c (f c) K HG HS HD HI Hc) as (mf' & Em' & B); [intros o Lo Fo; rewrite FE; apply HP; auto|exact HK|].
    assert (Q : Ok mf = Ok mf') by (transitivity (diag_block_matrix_raw (mass_mult h) dms F); [symmetry; exact Em|exact Em']). injection Q as <-. exact B.
  - destruct (C30_on_rhs m per D bc h dms zero_field HG HD HN HT) as (y & Ey & Vy). fold D in Ey, Vy. exists y. unfold setup_RHS. rewrite (has_condition_unloaded _ H). split; [exact Ey|].
    intros n c K HI Hc HP HK. assert (Hn := interior_node m per n HG HI). rewrite (Vy n c Hn Hc), (interior_free D m per bc n c eq_refl HI). unfold zero_field.
    assert (Z : f c (grid_point h n) = 0) by (rewrite <- FE; unfold F; rewrite H; reflexivity). rewrite Z. replace (0 / cell_volume h - 0) with 0 by (unfold Rdiv; ring). rewrite Rabs_R0.
    unfold mass_error. apply P_Energy.Rsum_nonneg. intros i Hi. assert (PI := pos_co h m HS). assert (WX : within 1 h (grid_point h n) (grid_point h n)).
    { apply within_refl; [exact PI|]. unfold grid_point. rewrite length_zip_with; rewrite (proj1 HI), (proj1 HS); reflexivity. }
    destruct (HK (grid_point h n) i WX Hi) as (_ & _ & B). assert (0 <= K i) by (eapply Rle_trans; [apply Rabs_pos|exact B]). pose proof (pow2_ge_0 (co i h)). apply Rmult_le_pos; lra.
Qed.
(** The system that the driver solves with this operator, boundary conditions and a load. *)
Theorem C88_discrete_equations : forall h mp per dms bc conds xv xp (u : nat -> vec -> R) (p : vec -> R) (f : nat -> vec -> R), let D := length mp in let mv := refined_size mp per in
  grid_ok mp per -> steps_ok h mp -> stokes_layout mp per D dms -> nonempty_views (map fst dms) -> table_ok D D bc -> length conds = D ->
  (forall c X, match nth c conds None with Some g => g X = f c X | None => f c X = 0 end) ->
  exists bv yv yp, setup_RHS D conds (map Some bc) h (map fst dms) zero_field = Ok bv /\
    stokes_matrix (strain_tensor_mult h) h D (Some (map Some bc)) dms xv xp = Ok (yv, yp) /\
    (forall n c M N P K, interior mv per n -> (c < D)%nat -> (forall d, (d < D)%nat -> samples_near (u d) mv per h xv n d) -> pressure_near p mp per h xp n ->
      (forall o, length o = length mv -> Forall (fun a => (-1 <= a <= 1)%Z) o -> f c (grid_point h (wrap mv per (zip_with Z.add n o))) = f c (grid_point h (zip_with Z.add n o))) ->
      smooth4 (u c) h (grid_point h n) M -> (forall j, (j < D)%nat -> j <> c -> smooth_mixed (u j) h (grid_point h n) j c (N j)) -> smooth3 p h (grid_point h n) P -> smooth2 (f c) h (grid_point h n) K ->
      minus_div_strain u D c (grid_point h n) + first p c (grid_point h n) = f c (grid_point h n) ->
      Rabs (yv n c - bv n c) <= cell_volume h * (strain_error h M N c + gradient_error h P c + mass_error h K)) /\
    (forall n K, interior mp per n -> velocity_near u mp per h xv n ->
      (forall c, (c < D)%nat -> smooth3 (u c) h (grid_point (map (Rmult 2) h) n) (K c)) ->
      Rsum D (fun c => first (u c) c (grid_point (map (Rmult 2) h) n)) = 0 ->
      Rabs (yp n 0%nat) <= cell_volume (map (Rmult 2) h) * divergence_error h K).
Proof.
  intros h mp per dms bc conds xv xp u p f D mv HG HS HL HN HT HC HF.
  destruct (facts true h mp per bc dms HG HL HN HT xv xp) as (rv & rp & yv & _ & E & V & Wv & Wq). fold D mv in E, V, Wv, Wq.
  destruct (strain_rows h mp per xv xp u p rv rp HG HS Wv Wq) as [Rv Rq]. fold D mv in Rv, Rq.
  pose proof (refined_grid mp per HG) as HGv. fold mv in HGv. assert (LE : length mv = D) by (apply refined_len, HG).
  pose proof (steps_refined h mp per HG HS) as HSv. fold mv in HSv.
  pose proof (rhs_err h mv per (map fst dms) bc conds f HGv HSv) as B. rewrite LE in B. destruct (B (proj1 HL) HN HT HC HF) as (bv & Eb & Vb). clear B. exists bv, yv, rp. split; [exact Eb|]. split; [exact E|]. split.
  - intros n c M N P K HI Hc HU HP HPl SU SX SP SK EQ. assert (Hn := interior_node mv per n HGv HI).
    rewrite (V n c Hn Hc), (interior_free D mv per bc n c LE HI). rewrite LE in HPl.
    pose proof (Rv n c M N P HI Hc HU HP SU SX SP) as B1. rewrite EQ in B1. pose proof (Vb n c K HI Hc HPl SK) as B2. pose proof (volume_pos h mp HS) as VP.
    replace (rv n c - bv n c) with (cell_volume h * ((rv n c / cell_volume h - f c (grid_point h n)) - (bv n c / cell_volume h - f c (grid_point h n)))) by (field; lra).
    rewrite Rabs_mult, (Rabs_right (cell_volume h)) by lra. apply Rmult_le_compat_l; [lra|]. eapply Rle_trans; [apply Rabs_triang|]. rewrite Rabs_Ropp. apply Rplus_le_compat; assumption.
  - intros n K HI HU SU DIV. pose proof (Rq n K HI HU SU) as B1. rewrite DIV, Rminus_0_r in B1. pose proof (volume_pos _ mp (steps_double h mp HS)) as VP. set (W := cell_volume (map (Rmult 2) h)) in *.
    replace (rp n 0%nat) with (W * (rp n 0%nat / W)) by (field; lra). rewrite Rabs_mult, (Rabs_right W) by lra. apply Rmult_le_compat_l; [lra|exact B1].
Qed.
(** ** the hypotheses are met: x^4 and x^3 y, not divergence-free, and the incompressible x^2, - 2 x y *)
Definition ex_flow (c : nat) (X : vec) : R := match c with O => co 0 X ^ 4 | _ => co 0 X ^ 3 * co 1 X end.
Definition ex_bound (k : nat) : R := if Nat.eqb k 0 then 6 else 0.
Lemma ex_first a b : first (ex_flow 1) 1 [a; b] = a ^ 3.
Proof. unfold first, ex_flow, co, moved. cbn [nth firstn skipn app]. apply is_derive_unique. auto_derive; [exact I|ring]. Qed.
Lemma ex_second a b : first (first (ex_flow 1) 1) 0 [a; b] = 3 * a ^ 2.
Proof.
  unfold first at 1, co, moved. cbn [nth firstn skipn app]. assert (E : (fun t => first (ex_flow 1) 1 [t; b]) = fun t => t ^ 3) by (apply functional_extensionality; intros t; apply ex_first). rewrite E. apply is_derive_unique. auto_derive; [exact I|ring].
Qed.
Lemma ex_mixed h X : length h = 2%nat -> smooth_mixed (ex_flow 1) h X 1 0 ex_bound.
Proof.
  intros L Y [LY _]. destruct Y as [|a [|b [|]]]; try (cbn in LY; lia). split; [|split].
  - unfold ex_flow, co, moved. cbn [nth firstn skipn app]. auto_derive. exact I.
  - unfold co, moved. cbn [nth firstn skipn app]. apply (ex_derive_ext (fun t => t ^ 3)); [intros t; symmetry; apply ex_first|auto_derive; exact I].
  - intros k Hk. unfold bends. cbv zeta. destruct k as [|[|k]]; [| |lia]; unfold co, moved; cbn [nth firstn skipn app]; unfold ex_bound; cbn [Nat.eqb].
    + assert (E : (fun t => first (first (ex_flow 1) 1) 0 [t; b]) = fun t => 3 * t ^ 2) by (apply functional_extensionality; intros t; apply ex_second). rewrite E.
      assert (E2 : Derive (fun t => 3 * t ^ 2) = fun t => 6 * t) by (apply functional_extensionality; intros t; apply is_derive_unique; auto_derive; [exact I|ring]). rewrite E2.
      split; [auto_derive; exact I|]. split; [auto_derive; exact I|]. assert (E3 : Derive (fun t => 6 * t) a = 6) by (apply is_derive_unique; auto_derive; [exact I|ring]). rewrite E3, Rabs_right; lra.
    + assert (E : (fun t => first (first (ex_flow 1) 1) 0 [a; t]) = fun t => 3 * a ^ 2) by (apply functional_extensionality; intros t; apply ex_second). rewrite E.
      assert (E2 : Derive (fun _ => 3 * a ^ 2) = fun _ => 0) by (apply functional_extensionality; intros t; apply Derive_const). rewrite E2, Derive_const, Rabs_R0. split; [apply ex_derive_const|]. split; [apply ex_derive_const|lra].
Qed.
Example C88_example : let xv := fun n c => ex_flow c (grid_point [1; 1] n) in let X := grid_point [1; 1] [2; 2]%Z in
  grid_ok [3; 3]%Z [false; false] /\ steps_ok [1; 1] [3; 3]%Z /\ refined_size [3; 3]%Z [false; false] = [5; 5]%Z /\ interior [5; 5]%Z [false; false] [2; 2]%Z /\
  (forall c : nat, samples_near (ex_flow c) [5; 5]%Z [false; false] [1; 1] xv [2; 2]%Z c) /\ smooth4 (ex_flow 0) [1; 1] X quartic_bound /\
  (forall j, (j < 2)%nat -> j <> 0%nat -> smooth_mixed (ex_flow j) [1; 1] X j 0 ex_bound) /\ minus_div_strain ex_flow 2 0 X = - 108 /\ 0 < strain_error [1; 1] quartic_bound (fun _ => ex_bound) 0.
Proof.
  cbv zeta. split; [repeat constructor; cbn; lia|]. split; [repeat constructor; lra|]. split; [reflexivity|].
  assert (I5 : interior [5; 5]%Z [false; false] [2; 2]%Z) by (split; [reflexivity|intros [|[|d]] Hd; cbn in *; lia]).
  split; [exact I5|]. split; [|split; [|split; [|split]]].
  - intros c. destruct (C86_hypotheses_are_met [3; 3]%Z [1; 1] ex_flow (fun _ => 0) [2; 2]%Z) as [A _]. exact (A c I5).
  - apply quartic_smooth; cbn; lia.
  - intros j Hj Nj. replace j with 1%nat by lia. apply ex_mixed. reflexivity.
  - change (grid_point [1; 1] [2; 2]%Z) with [2 * 1; 2 * 1]. unfold minus_div_strain. cbn [Rsum]. rewrite first_first by (cbn; lia). rewrite ex_second. change (ex_flow 0) with (fun X => co 0 X ^ 4). rewrite !(second_power 2) by (cbn; lia). unfold co. cbn [Nat.eqb nth INR]. ring.
  - unfold strain_error, laplacian_error, quartic_bound, ex_bound, co. cbn [Rsum length Nat.eqb andb orb nth]. lra.
Qed.
Example C88_divergence_free_example : let u := fun c X => match c with O => co 0 X ^ 2 | _ => - 2 * co 0 X * co 1 X end in
  (forall j, (j < 2)%nat -> ex_derive (fun t => first (u j) j (moved [3; 5] 0 t)) (co 0 [3; 5])) /\ (forall t, Rsum 2 (fun j => first (u j) j (moved [3; 5] 0 t)) = 0) /\ minus_laplacian (u 0%nat) 2 [3; 5] = - 2.
Proof.
  cbv zeta. set (u := fun c X => _).
  assert (U0 : forall a b, first (u 0%nat) 0 [a; b] = 2 * a) by (intros a b; unfold first, u, co, moved; cbn [nth firstn skipn app]; apply is_derive_unique; auto_derive; [exact I|ring]).
  assert (U1 : forall a b, first (u 1%nat) 1 [a; b] = - 2 * a) by (intros a b; unfold first, u, co, moved; cbn [nth firstn skipn app]; apply is_derive_unique; auto_derive; [exact I|ring]).
  split; [|split].
  - intros j Hj. unfold moved, co. cbn [nth firstn skipn app]. destruct j as [|[|j]]; [| |lia].
    + apply (ex_derive_ext (fun t => 2 * t)); [intros t; symmetry; apply U0|auto_derive; exact I].
    + apply (ex_derive_ext (fun t => - 2 * t)); [intros t; symmetry; apply U1|auto_derive; exact I].
  - intros t. unfold moved. cbn [firstn skipn app Rsum]. rewrite U0, U1. ring.
  - unfold minus_laplacian. cbn [Rsum]. change (u 0%nat) with (fun X => co 0 X ^ 2). rewrite !(second_power 0) by (cbn; lia). cbn [Nat.eqb INR pow]. ring.
Qed.
