(** C74-C77: what rounding to doubles does to the results. *)
From Flocq Require Import Core BinarySingleNaN.
From Verif Require Import Base M_Geometry S_Geometry P_Geometry M_Particle S_Particle P_Particle.
From Verif Require Import M_Double S_Double P_Double P_Double2 P_Double3 P_Double4 P_Double5 P_Double6 P_Double7 P_Double8.
Open Scope R_scope.
(** C74: nodes inside a particle. *)
Theorem C74_fluid_points_in_doubles : forall D contains b h,
  (D = 2 \/ D = 3)%nat -> has_dim D b -> length h = D ->
  Forall is_int (bottom_left b) -> Forall is_int (upper_right b) ->
  Forall (fun z => (0 <= z)%Z) (bottom_left b) -> Forall (fun z => (0 <= z)%Z) (upper_right b) ->
  (forall p, In p (dfind_fluid_points D contains b h) <-> in_grid_box b p /\ contains (tested_point h b p) = true) /\
  NoDup (dfind_fluid_points D contains b h) /\ strictly_increasing colex_lt (dfind_fluid_points D contains b h).
Proof. exact (fun D c b h HD Hb Hh I1 I2 N1 N2 => dfind_spec D c b h HD Hb Hh (conj I1 I2) (conj N1 N2)). Qed.
Print Assumptions C74_fluid_points_in_doubles.
Theorem C74_coordinate_error : forall h lo i, (0 <= lo <= i)%Z -> is_int i -> good_step i h ->
  finite (accumulated h lo i) /\ Rabs (dval (accumulated h lo i) - IZR i * dval h) <= IZR (i - lo + 1) * (2 * u64) * (IZR i * dval h).
Proof. exact accumulated_error. Qed.
Print Assumptions C74_coordinate_error.
Lemma good_step_le n m h : (0 <= n <= m)%Z -> good_step m h -> good_step n h.
Proof. intros H (F & H1 & H2). assert (0 < / 2 ^ 1022) by (apply Rinv_0_lt_compat, pow_lt; lra). split; [exact F|]. split; [exact H1|]. eapply Rle_trans; [|exact H2]. apply Rmult_le_compat_r; [lra|apply IZR_le; lia]. Qed.
Theorem C74_right_away_from_the_surface : forall D contains b h p v,
  (D = 2 \/ D = 3)%nat -> has_dim D b -> length h = D ->
  Forall is_int (bottom_left b) -> Forall is_int (upper_right b) ->
  Forall (fun z => (0 <= z)%Z) (bottom_left b) -> Forall (fun z => (0 <= z)%Z) (upper_right b) ->
  (forall a, (a < D)%nat -> good_step (nth a (upper_right b) 0%Z) (nth a h dzero)) -> in_grid_box b p ->
  (forall x, close_to_node h b p x -> contains x = v) ->
  In p (dfind_fluid_points D contains b h) <-> v = true.
Proof.
  intros D contains b h p v HD Hb Hh I1 I2 N1 N2 HG Hp HC. destruct (dfind_spec D contains b h HD Hb Hh (conj I1 I2) (conj N1 N2)) as [S _]. rewrite S. rewrite HC; [tauto|].
  destruct Hb as [Hb1 Hb2]. destruct (in_grid_box_nth b p Hp) as [Lp Np]. split; [apply tested_point_length; lia|]. intros a Ha. cbv zeta. rewrite tested_point_nth by lia.
  assert (NL : (0 <= nth a (bottom_left b) 0)%Z) by (rewrite Forall_forall in N1; apply N1, nth_In; lia). assert (IU : is_int (nth a (upper_right b) 0%Z)) by (rewrite Forall_forall in I2; apply I2, nth_In; lia). specialize (Np a ltac:(lia)).
  apply accumulated_error; [lia|unfold is_int in *; lia|]. eapply good_step_le; [|apply HG; lia]. lia.
Qed.
Print Assumptions C74_right_away_from_the_surface.
(** a step with few significant bits, such as 1/2^k: the coordinates are exact, and so do not depend on the box *)
Theorem C74_exact_steps : forall h lo i m e, (0 <= lo <= i)%Z -> finite h -> dval h = IZR m * bpow radix2 e -> (0 < m)%Z -> (-1074 <= e)%Z ->
  (i * m <= 2 ^ 53)%Z -> IZR i * dval h <= 2 ^ 1023 -> finite (accumulated h lo i) /\ dval (accumulated h lo i) = IZR i * dval h.
Proof. exact (fun h lo i m e => accumulated_exact' h lo m e i). Qed.
Print Assumptions C74_exact_steps.
Theorem C74_exact_steps_any_process : forall D contains b b' h p,
  (D = 2 \/ D = 3)%nat -> length h = D ->
  (forall c, c = b \/ c = b' -> has_dim D c /\ Forall is_int (bottom_left c) /\ Forall is_int (upper_right c) /\
    Forall (fun z => (0 <= z)%Z) (bottom_left c) /\ Forall (fun z => (0 <= z)%Z) (upper_right c) /\ in_grid_box c p) ->
  (forall a, (a < D)%nat -> let ha := nth a h dzero in let i := nth a p 0%Z in
    finite ha /\ IZR i * dval ha <= 2 ^ 1023 /\ exists m e, dval ha = IZR m * bpow radix2 e /\ (0 < m)%Z /\ (-1074 <= e)%Z /\ (i * m <= 2 ^ 53)%Z) ->
  In p (dfind_fluid_points D contains b h) <-> In p (dfind_fluid_points D contains b' h).
Proof.
  intros D contains b b' h p HD Hh HB HE. destruct (HB b (or_introl eq_refl)) as (Hb & I1 & I2 & N1 & N2 & Hp). destruct (HB b' (or_intror eq_refl)) as (Hb' & I1' & I2' & N1' & N2' & Hp').
  destruct (dfind_spec D contains b h HD Hb Hh (conj I1 I2) (conj N1 N2)) as [S _]. destruct (dfind_spec D contains b' h HD Hb' Hh (conj I1' I2') (conj N1' N2')) as [S' _]. rewrite S, S'.
  destruct Hb as [Hb1 Hb2], Hb' as [Hb1' Hb2']. destruct (in_grid_box_nth b p Hp) as [Lp Np]. destruct (in_grid_box_nth b' p Hp') as [Lp' Np'].
  assert (E : tested_point h b p = tested_point h b' p); [|rewrite E; tauto].
  apply nth_ext with dzero dzero; [rewrite !tested_point_length by lia; reflexivity|]. intros a Ha. rewrite tested_point_length in Ha by lia. rewrite !tested_point_nth by lia.
  destruct (HE a ltac:(lia)) as (F & O & m & e & Em & Pm & Pe & Bm). specialize (Np a ltac:(lia)). specialize (Np' a ltac:(lia)).
  assert (NL : (0 <= nth a (bottom_left b) 0)%Z) by (rewrite Forall_forall in N1; apply N1, nth_In; lia). assert (NL' : (0 <= nth a (bottom_left b') 0)%Z) by (rewrite Forall_forall in N1'; apply N1', nth_In; lia).
  eapply accumulated_same; try eassumption; lia.
Qed.
Print Assumptions C74_exact_steps_any_process.
(** the disc of centre (1/2,1/2) and radius 1/2 on the grid of step 1/10: alone, a process lists the node (10,5), which lies on the circle; the process whose nodes
    begin at x = 1 does not *)
Ltac dcomp := apply (B2SF_inj 53 1024); vm_compute; reflexivity.
Definition d01 : double := ddiv (dint 1) (dint 10).
Definition dbelow1 : double := dminus (dint 1) (@binary_normalize 53 1024 prec53 emax1024 mode_NE 1 (-52) false).
Theorem C74_depends_on_the_partition_refuted : forall pow : double -> double -> double,
  pow (dint 1) (dint 2) = dint 1 -> pow (dint 0) (dint 2) = dint 0 -> dltb (dplus (pow dbelow1 (dint 2)) (dint 0)) (dint 1) = true ->
  exists bb, dbounding_box2 (dhalf, dhalf) (dhalf, dhalf) (d01, d01) = Ok bb /\
    In [10; 5]%Z (dfind_fluid_points 2 (dcircle_contains pow (dhalf, dhalf) dhalf) (box_inside Z.ltb (mkbox [0; 0]%Z [20; 20]%Z) bb) [d01; d01]) /\
    ~ In [10; 5]%Z (dfind_fluid_points 2 (dcircle_contains pow (dhalf, dhalf) dhalf) (box_inside Z.ltb (mkbox [10; 0]%Z [20; 20]%Z) bb) [d01; d01]) /\
    in_grid_box (box_inside Z.ltb (mkbox [10; 0]%Z [20; 20]%Z) bb) [10; 5]%Z.
Proof.
  intros pow P1 P0 PB. eexists. split; [vm_compute; reflexivity|].
  assert (GB : forall lo, (lo = 0 \/ lo = 10)%Z -> let b := box_inside Z.ltb (mkbox [lo; 0]%Z [20; 20]%Z) (mkbox [-1; -1]%Z [11; 11]%Z) in
    has_dim 2 b /\ box_ints b /\ box_nonneg b /\ in_grid_box b [10; 5]%Z /\ b = mkbox [lo; 0]%Z [11; 11]%Z).
  { intros lo [-> | ->]; cbn [box_inside bottom_left upper_right zip_with Z.ltb Z.compare Pos.compare Pos.compare_cont]; (split; [split; reflexivity|]); (split; [split; cbn; repeat (apply Forall_cons; [unfold is_int; lia|]); apply Forall_nil|]); (split; [split; cbn; repeat (apply Forall_cons; [lia|]); apply Forall_nil|]); (split; [split; cbn; repeat (apply Forall2_cons; [lia|]); apply Forall2_nil|]); reflexivity. }
  destruct (GB 0%Z (or_introl eq_refl)) as (D0 & I0 & N0 & G0 & E0). destruct (GB 10%Z (or_intror eq_refl)) as (D1 & I1 & N1 & G1 & E1). cbv zeta in *.
  destruct (dfind_spec 2 (dcircle_contains pow (dhalf, dhalf) dhalf) _ [d01; d01] (or_introl eq_refl) D0 eq_refl I0 N0) as [S0 _]. destruct (dfind_spec 2 (dcircle_contains pow (dhalf, dhalf) dhalf) _ [d01; d01] (or_introl eq_refl) D1 eq_refl I1 N1) as [S1 _].
  split; [apply S0; split; [exact G0|]|split; [rewrite S1; intros [_ C]; revert C|exact G1]]; rewrite ?E0, ?E1.
  - unfold dcircle_contains, dcontains2, dimplicit2. cbn [fst snd].
    replace (ddiv (dint 2) (ddiv (dint 2) (dint 2))) with (dint 2) by dcomp.
    replace (dabs (ddiv (dminus (nth 0 (tested_point [d01; d01] {| bottom_left := [0%Z; 0%Z]; upper_right := [11%Z; 11%Z] |} [10%Z; 5%Z]) dzero) dhalf) dhalf)) with dbelow1 by dcomp.
    replace (dabs (ddiv (dminus (nth 1 (tested_point [d01; d01] {| bottom_left := [0%Z; 0%Z]; upper_right := [11%Z; 11%Z] |} [10%Z; 5%Z]) dzero) dhalf) dhalf)) with (dint 0) by dcomp.
    rewrite P0. exact PB.
  - unfold dcircle_contains, dcontains2, dimplicit2. cbn [fst snd].
    replace (ddiv (dint 2) (ddiv (dint 2) (dint 2))) with (dint 2) by dcomp.
    replace (dabs (ddiv (dminus (nth 0 (tested_point [d01; d01] {| bottom_left := [10%Z; 0%Z]; upper_right := [11%Z; 11%Z] |} [10%Z; 5%Z]) dzero) dhalf) dhalf)) with (dint 1) by dcomp.
    replace (dabs (ddiv (dminus (nth 1 (tested_point [d01; d01] {| bottom_left := [10%Z; 0%Z]; upper_right := [11%Z; 11%Z] |} [10%Z; 5%Z]) dzero) dhalf) dhalf)) with (dint 0) by dcomp.
    rewrite P0, P1. vm_compute. discriminate.
Qed.
Print Assumptions C74_depends_on_the_partition_refuted.
(** the box searched for a particle: it contains every node between the ends of the particle, up to the rounding of the upper end *)
Theorem C74_bounding_box : forall c s h, bbox_range (fst h) (fst c) (fst s) -> bbox_range (snd h) (snd c) (snd s) ->
  exists bb, dbounding_box2 c s h = Ok bb /\ has_dim 2 bb /\
  forall i j, dval (fst c) - dval (fst s) <= IZR i * dval (fst h) <= dval (fst c) + dval (fst s) - u64 * Rabs (dval (fst c) + dval (fst s)) ->
    dval (snd c) - dval (snd s) <= IZR j * dval (snd h) <= dval (snd c) + dval (snd s) - u64 * Rabs (dval (snd c) + dval (snd s)) ->
    in_grid_box bb [i; j].
Proof.
  intros c s h H0 H1. destruct (bbox_axis _ _ _ H0) as (a0 & b0 & Ea0 & Eb0 & K0). destruct (bbox_axis _ _ _ H1) as (a1 & b1 & Ea1 & Eb1 & K1). exists (mkbox [a0; a1] [b0; b1]). unfold dbounding_box2. rewrite Ea0, Ea1, Eb0, Eb1. split; [reflexivity|]. split; [split; reflexivity|].
  intros i j Hi Hj. specialize (K0 i Hi). specialize (K1 j Hj). split; cbn; (apply Forall2_cons; [lia|apply Forall2_cons; [lia|apply Forall2_nil]]).
Qed.
Print Assumptions C74_bounding_box.
(** C75: the cell of a surface point. *)
Theorem C75_cell_of_a_point : forall h x, surface_coordinate h x ->
  exists i, dcell x h = Ok i /\ rounded_cell h x i /\ finite (doffset x h i) /\
    Rabs (dval (doffset x h i) - (dval x - IZR i * dval h)) <= 2 * u64 * (IZR (i + 1) * dval h) /\
    - (3 * u64 * (IZR (i + 1) * dval h)) <= dval (doffset x h i) <= dval h + 3 * u64 * (IZR (i + 1) * dval h).
Proof.
  intros h x (Fh & Fx & H1 & H2 & H3 & H4). assert (P0 : 0 < / 2 ^ 1022) by (apply Rinv_0_lt_compat, pow_lt; lra). destruct (dcell_ok x h Fx Fh ltac:(lra) H3 H4) as (i & E & I0 & C). exists i. split; [exact E|]. split; [|apply doffset_ok; assumption].
  destruct C as [->|[_ C]]; [left|right; exact C]. pose proof (Zfloor_lb (dval x / dval h)). pose proof (Zfloor_ub (dval x / dval h)). assert (HX : dval x = dval x / dval h * dval h) by (field; lra). rewrite plus_IZR. rewrite HX at 2 3. split; [apply Rmult_le_compat_r; lra|apply Rmult_lt_compat_r; lra].
Qed.
Print Assumptions C75_cell_of_a_point.
Theorem C75_surface_points_in_doubles : forall D surf h, length h = D ->
  Forall (fun p => length p = D /\ forall a, (a < D)%nat -> surface_coordinate (nth a h dzero) (nth a p dzero)) surf ->
  exists cell : list double -> list Z,
    (forall p, In p surf -> length (cell p) = D /\ forall a, (a < D)%nat -> dcell (nth a p dzero) (nth a h dzero) = Ok (nth a (cell p) 0%Z) /\ rounded_cell (nth a h dzero) (nth a p dzero) (nth a (cell p) 0%Z)) /\
    (forall b, has_dim D b -> exists kept, (exists t, kept = filter t surf) /\ (forall p, In p kept <-> In p surf /\ in_grid_box b (cell p)) /\
      dfind_surf_points_insides surf b h = Ok (map (fun p => (cell p, zip_with (fun xh i => doffset (fst xh) (snd xh) i) (combine p h) (cell p))) kept)) /\
    (forall bs B p, tiling bs B -> In p surf -> in_grid_box B (cell p) ->
      exists k, (k < length bs)%nat /\ in_grid_box (nth k bs B) (cell p) /\ forall j, (j < length bs)%nat -> in_grid_box (nth j bs B) (cell p) -> j = k).
Proof.
  intros D surf h Hh HF. exists (cells_of h). split; [|split].
  - intros p Hp. rewrite Forall_forall in HF. destruct (HF p Hp) as [L C]. split; [rewrite cells_of_length; lia|]. intros a Ha. rewrite cells_of_nth by lia. destruct (C75_cell_of_a_point _ _ (C a Ha)) as (i & E & R & _). rewrite E. split; [reflexivity|exact R].
  - intros b Hb. exists (filter (fun p => point_inside Z.ltb b (cells_of h p)) surf). split; [eexists; reflexivity|]. split; [|apply dfind_surf_ok with D; assumption].
    intros p. rewrite filter_In. split; intros [H1 H2]; (split; [exact H1|]); rewrite Forall_forall in HF; destruct (HF p H1) as [L C]; apply (point_inside_grid D b (cells_of h p)); try assumption; rewrite cells_of_length; lia.
  - intros bs B p HT _ HB. apply (HT (cells_of h p)), HB.
Qed.
Print Assumptions C75_surface_points_in_doubles.
(** 1.7 on the grid of step 0.1: cell 17, offset -2^-52 *)
Theorem C75_negative_offset_refuted : let x := ddiv (dint 17) (dint 10) in
  surface_coordinate d01 x /\ dcell x d01 = Ok 17%Z /\ dval x < IZR 17 * dval d01 /\ dval (doffset x d01 17) = - / 2 ^ 52.
Proof.
  cbv zeta. assert (E1 : dval (ddiv (dint 17) (dint 10)) = IZR 7656119366529843 * / 2 ^ 52). { unfold dval. replace (B2R (ddiv (dint 17) (dint 10))) with (F2R (Float radix2 7656119366529843 (-52))) by (vm_compute; reflexivity). unfold F2R; cbn [Fnum Fexp]. rewrite <- pow2n. reflexivity. }
  assert (E2 : dval d01 = IZR 7205759403792794 * / 2 ^ 56). { unfold dval. replace (B2R d01) with (F2R (Float radix2 7205759403792794 (-56))) by (vm_compute; reflexivity). unfold F2R; cbn [Fnum Fexp]. rewrite <- pow2n. reflexivity. }
  assert (E3 : dval (doffset (ddiv (dint 17) (dint 10)) d01 17) = - / 2 ^ 52). { unfold dval. replace (B2R (doffset (ddiv (dint 17) (dint 10)) d01 17)) with (F2R (Float radix2 (- (2 ^ 52)) (-104))) by (vm_compute; reflexivity). unfold F2R; cbn [Fnum Fexp]. rewrite opp_IZR. change (2 ^ 52)%Z with (Zpower radix2 52). rewrite IZR_Zpower by lia. rewrite Ropp_mult_distr_l_reverse, <- bpow_plus. change (52 + -104)%Z with (- Z.of_nat 52)%Z. rewrite pow2n. reflexivity. }
  assert (L1 : / 2 ^ 1022 <= / 16). { apply Rinv_le_contravar; [lra|]. apply Rle_trans with (2 ^ 4); [lra|apply pow_le_1; lia]. } assert (L2 : 1 <= 2 ^ 900) by (apply pow_R1_Rle; lra).
  split; [|split; [vm_compute; reflexivity|split; [|exact E3]]].
  - unfold surface_coordinate. rewrite E1, E2. split; [reflexivity|]. split; [reflexivity|]. lra.
  - rewrite E1, E2. lra.
Qed.
Print Assumptions C75_negative_offset_refuted.
(** C76: weights of the corners. *)
Theorem C76_weights_in_doubles : forall x y hx hy, finite x -> finite y -> finite hx -> finite hy -> moderate (dval hx) -> moderate (dval hy) ->
  Rabs (dval x) <= 2 * dval hx -> Rabs (dval y) <= 2 * dval hy ->
  Forall2 (fun w e => finite w /\ Rabs (dval w - e) <= 8 * u64 * Rabs e + / 2 ^ 800) (dP1_integration2 (x, y) (hx, hy)) (bilinear_weights (dval x / dval hx) (dval y / dval hy)).
Proof. intros x y hx hy Fx Fy Fhx Fhy Mx My. apply weights_err; try assumption; apply moderate_mid; assumption. Qed.
Print Assumptions C76_weights_in_doubles.
Theorem C76_weights_sum : forall x y hx hy eps, finite x -> finite y -> finite hx -> finite hy -> moderate (dval hx) -> moderate (dval hy) -> 0 <= eps <= / 1000 ->
  - eps * dval hx <= dval x <= (1 + eps) * dval hx -> - eps * dval hy <= dval y <= (1 + eps) * dval hy ->
  Rabs (fold_right Rplus 0 (map dval (dP1_integration2 (x, y) (hx, hy))) - 1) <= 9 * u64.
Proof. intros x y hx hy eps Fx Fy Fhx Fhy Mx My. apply weights_sum; try assumption; apply moderate_mid; assumption. Qed.
Print Assumptions C76_weights_sum.
Lemma offset_range : forall h z k, surface_coordinate h z -> rounded_cell h z k -> 3 * u64 * (IZR (k + 1) * dval h) <= / 1000 * dval h.
Proof.
  assert (U : u64 * (2 ^ 30 + 2) <= / 10000). { unfold u64. apply Rmult_le_reg_l with (2 ^ 53); [apply pow_lt; lra|]. rewrite <- Rmult_assoc, Rinv_r by (apply pow_nonzero; lra). lra. } pose proof u64_pos as U0. pose proof u64_small as US.
intros h z k (Fh & Fz & H1 & H2 & H3 & H4) R. assert (P0 : 0 < / 2 ^ 1022) by (apply Rinv_0_lt_compat, pow_lt; lra). assert (KB : IZR k * dval h <= (2 ^ 30 + 1) * dval h). { assert (u64 * dval z <= / 10000 * dval h). { apply Rle_trans with (u64 * (2 ^ 30 * dval h)); [apply Rmult_le_compat_l; lra|]. rewrite <- Rmult_assoc. apply Rmult_le_compat_r; lra. } destruct R as [[R _]|[_ R]]; lra. }
    assert (IZR k <= 2 ^ 30 + 1) by (apply Rmult_le_reg_r with (dval h); lra). rewrite plus_IZR. assert (3 * u64 * ((IZR k + 1) * dval h) = 3 * (u64 * (IZR k + 1)) * dval h) by ring. assert (u64 * (IZR k + 1) <= u64 * (2 ^ 30 + 2)) by (apply Rmult_le_compat_l; lra). rewrite H0. apply Rmult_le_compat_r; lra.
Qed.
(** every point of a surface spreads its force with weights of sum 1 within 9 roundings, rounding of its cell included *)
Theorem C76_surface_point_weights_sum : forall x y hx hy, surface_coordinate hx x -> surface_coordinate hy y -> moderate (dval hx) -> moderate (dval hy) ->
  exists i j, dcell x hx = Ok i /\ dcell y hy = Ok j /\
  Rabs (fold_right Rplus 0 (map dval (dP1_integration2 (doffset x hx i, doffset y hy j) (hx, hy))) - 1) <= 9 * u64.
Proof.
  intros x y hx hy Cx Cy Mx My. destruct (C75_cell_of_a_point hx x Cx) as (i & Ei & Ri & Fi & _ & Bi). destruct (C75_cell_of_a_point hy y Cy) as (j & Ej & Rj & Fj & _ & Bj). exists i, j. split; [exact Ei|]. split; [exact Ej|].
  pose proof (offset_range _ _ _ Cx Ri) as Kx. pose proof (offset_range _ _ _ Cy Rj) as Ky. destruct Cx as (Fhx & _), Cy as (Fhy & _). apply weights_sum with (/ 1000); try assumption; try lra; apply moderate_mid; assumption.
Qed.
Print Assumptions C76_surface_point_weights_sum.
Theorem C76_weights_in_doubles_3d : forall x y z hx hy hz, finite x -> finite y -> finite z -> finite hx -> finite hy -> finite hz -> moderate (dval hx) -> moderate (dval hy) -> moderate (dval hz) ->
  Rabs (dval x) <= 2 * dval hx -> Rabs (dval y) <= 2 * dval hy -> Rabs (dval z) <= 2 * dval hz ->
  Forall2 (fun w e => finite w /\ Rabs (dval w - e) <= 11 * u64 * Rabs e + / 2 ^ 800) (dP1_integration3 (x, y, z) (hx, hy, hz)) (trilinear_weights (dval x / dval hx) (dval y / dval hy) (dval z / dval hz)).
Proof. exact weights_err3. Qed.
Print Assumptions C76_weights_in_doubles_3d.
Theorem C76_surface_point_weights_sum_3d : forall x y z hx hy hz, surface_coordinate hx x -> surface_coordinate hy y -> surface_coordinate hz z -> moderate (dval hx) -> moderate (dval hy) -> moderate (dval hz) ->
  exists i j k, dcell x hx = Ok i /\ dcell y hy = Ok j /\ dcell z hz = Ok k /\
  Rabs (fold_right Rplus 0 (map dval (dP1_integration3 (doffset x hx i, doffset y hy j, doffset z hz k) (hx, hy, hz))) - 1) <= 12 * u64.
Proof.
  intros x y z hx hy hz Cx Cy Cz Mx My Mz. destruct (C75_cell_of_a_point hx x Cx) as (i & Ei & Ri & Fi & _ & Bi). destruct (C75_cell_of_a_point hy y Cy) as (j & Ej & Rj & Fj & _ & Bj). destruct (C75_cell_of_a_point hz z Cz) as (k & Ek & Rk & Fk & _ & Bk). exists i, j, k. split; [exact Ei|]. split; [exact Ej|]. split; [exact Ek|].
  pose proof (offset_range _ _ _ Cx Ri) as Kx. pose proof (offset_range _ _ _ Cy Rj) as Ky. pose proof (offset_range _ _ _ Cz Rk) as Kz. destruct Cx as (Fhx & _), Cy as (Fhy & _), Cz as (Fhz & _). apply weights_sum3 with (/ 1000); try assumption; lra.
Qed.
Print Assumptions C76_surface_point_weights_sum_3d.
(** C77: samples and steps. *)
Theorem C77_linspace_in_doubles : forall beg end_ num (include_end : bool), finite beg -> finite end_ -> Rabs (dval beg) <= 2 ^ 900 -> Rabs (dval end_) <= 2 ^ 900 -> dval beg <= dval end_ ->
  (0 < num < 2 ^ 31)%Z -> let ns := if include_end then (num - 1)%Z else num in (0 < ns)%Z ->
  exists l, dlinspace beg end_ num include_end = Ok l /\ length l = Z.to_nat num /\ nth 0 l dzero = dplus beg (dmult (dint 0) (ddiv (dminus end_ beg) (dint ns))) /\
  forall k, (k < Z.to_nat num)%nat -> finite (nth k l dzero) /\
    Rabs (dval (nth k l dzero) - (dval beg + INR k * ((dval end_ - dval beg) / IZR ns))) <= 8 * u64 * (Rabs (dval beg) + Rabs (dval end_)) + / 2 ^ 1000.
Proof.
  intros beg end_ num ie Fb Fe Bb Be Hle Hn ns Hs. unfold dlinspace. assert (E : Bleb beg end_ = true). { unfold Bleb, SpecFloat.SFleb. pose proof (Bcompare_correct 53 1024 beg end_ Fb Fe) as C. unfold Bcompare in C. rewrite C. unfold dval in Hle. destruct (Rcompare_spec (B2R beg) (B2R end_)); try reflexivity. lra. }
  rewrite E. cbn [negb]. rewrite (proj2 (Z.ltb_ge num 0)) by lia. fold ns. eexists. split; [reflexivity|]. rewrite map_length, seq_length. split; [reflexivity|].
  assert (N : forall k, (k < Z.to_nat num)%nat -> nth k (map (fun k0 => dplus beg (dmult (dint (Z.of_nat k0)) (ddiv (dminus end_ beg) (dint ns)))) (seq 0 (Z.to_nat num))) dzero = dplus beg (dmult (dint (Z.of_nat k)) (ddiv (dminus end_ beg) (dint ns)))).
  { intros k Hk. rewrite nth_indep with (d' := dplus beg (dmult (dint (Z.of_nat 0)) (ddiv (dminus end_ beg) (dint ns)))) by (rewrite map_length, seq_length; exact Hk). rewrite map_nth with (f := fun k0 => dplus beg (dmult (dint (Z.of_nat k0)) (ddiv (dminus end_ beg) (dint ns)))). rewrite seq_nth by exact Hk. reflexivity. }
  split; [apply N; lia|]. intros k Hk. rewrite N by exact Hk. rewrite INR_IZR_INZ. apply linspace_value; try assumption; unfold ns in *; destruct ie; lia.
Qed.
Print Assumptions C77_linspace_in_doubles.
(** the last of 50 samples of [0,1] is not 1 *)
Theorem C77_last_sample_refuted : exists l, dlinspace (dint 0) (dint 1) 50 true = Ok l /\ length l = 50%nat /\ dltb (nth 49 l dzero) (dint 1) = true.
Proof. eexists. split; [unfold dlinspace; replace (negb (Bleb (dint 0) (dint 1))) with false by (vm_compute; reflexivity); reflexivity|]. split; [reflexivity|vm_compute; reflexivity]. Qed.
Print Assumptions C77_last_sample_refuted.
Theorem C77_mesh_steps : forall lx mx, finite lx -> (2 <= mx < 2 ^ 31)%Z -> / 2 ^ 900 <= Rabs (dval lx) <= 2 ^ 900 ->
  finite (dpressure_step lx mx) /\ Rabs (dval (dpressure_step lx mx) - dval lx / IZR (mx - 1)) <= u64 * Rabs (dval lx / IZR (mx - 1)) /\
  finite (dvelocity_step lx mx) /\ dval (dvelocity_step lx mx) = dval (dpressure_step lx mx) / 2.
Proof. intros lx mx F Hm HB. destruct (pressure_step_err lx mx F Hm HB) as (F1 & E & L). split; [exact F1|]. split; [exact E|]. apply velocity_step_half; assumption. Qed.
Print Assumptions C77_mesh_steps.
(** so the velocity node 2k has exactly the coordinate of the pressure node k *)
Theorem C77_even_nodes_coincide : forall lx mx k, finite lx -> (2 <= mx < 2 ^ 31)%Z -> / 2 ^ 900 <= Rabs (dval lx) <= 2 ^ 900 -> is_int (2 * k) ->
  finite (dmult (dint k) (dpressure_step lx mx)) /\ dval (dmult (dint (2 * k)) (dvelocity_step lx mx)) = dval (dmult (dint k) (dpressure_step lx mx)).
Proof.
  intros lx mx k Fl Hm HB HI. destruct (pressure_step_err lx mx Fl Hm HB) as (F & E0 & L). destruct (velocity_step_half lx mx F L) as [Fv Vv].
  assert (HO : IZR (Z.abs k) * Rabs (dval (dpressure_step lx mx)) <= 2 ^ 1023).
  { assert (N1 : 1 <= IZR (mx - 1)) by (apply IZR_le; lia). assert (I1 : 0 < / IZR (mx - 1) <= 1). { split; [apply Rinv_0_lt_compat; lra|]. rewrite <- Rinv_1. apply Rinv_le_contravar; lra. }
    assert (Q : Rabs (dval lx / IZR (mx - 1)) <= 2 ^ 900). { unfold Rdiv. rewrite Rabs_mult, (Rabs_pos_eq (/ _)) by lra. apply Rle_trans with (2 ^ 900 * 1); [apply Rmult_le_compat; try lra; apply Rabs_pos|lra]. }
    assert (R : Rabs (dval (dpressure_step lx mx)) <= 2 * 2 ^ 900). { pose proof (Rabs_triang_inv (dval (dpressure_step lx mx)) (dval lx / IZR (mx - 1))) as T. pose proof u64_small. pose proof u64_pos. assert (u64 * Rabs (dval lx / IZR (mx - 1)) <= 1 * 2 ^ 900) by (apply Rmult_le_compat; try lra; apply Rabs_pos). lra. }
    assert (K : IZR (Z.abs k) <= 2 ^ 31). { rewrite <- pow2, <- IZR_Zpower by lia. apply IZR_le. change (Zpower radix2 (Z.of_nat 31)) with (2 ^ 31)%Z. unfold is_int in HI. lia. }
    apply Rle_trans with (2 ^ 31 * (2 * 2 ^ 900)); [apply Rmult_le_compat; try assumption; [apply IZR_le; lia|apply Rabs_pos]|]. change (2 * 2 ^ 900) with (2 ^ 901). rewrite <- pow_add. apply pow_le_1; lia. } unfold is_int in HI. destruct (dint_ok (2 * k)) as [F1 V1]; [lia|]. destruct (dint_ok k) as [F2 V2]; [lia|].
  assert (E : IZR (2 * k) * (dval (dpressure_step lx mx) / 2) = IZR k * dval (dpressure_step lx mx)) by (rewrite mult_IZR; lra). assert (B : Rabs (IZR k * dval (dpressure_step lx mx)) <= 2 ^ 1023) by (rewrite Rabs_mult, <- abs_IZR; exact HO).
  destruct (dmult_ok _ _ F1 Fv) as [_ W1]; [rewrite V1, Vv, E; exact B|]. destruct (dmult_ok _ _ F2 F) as [FW W2]; [rewrite V2; exact B|]. split; [exact FW|]. rewrite W1, W2, V1, V2, Vv, E. reflexivity.
Qed.
Print Assumptions C77_even_nodes_coincide.
(** the hypotheses are met: the step 1/10, squaring as pow, a node away from the line x = 3/4 *)
Example C74_pow_exists : let pow := fun x _ : double => dmult x x in
  pow (dint 1) (dint 2) = dint 1 /\ pow (dint 0) (dint 2) = dint 0 /\ dltb (dplus (pow dbelow1 (dint 2)) (dint 0)) (dint 1) = true.
Proof. cbv zeta. split; [dcomp|]. split; [dcomp|vm_compute; reflexivity]. Qed.
Lemma d01_val : dval d01 = IZR 7205759403792794 * / 2 ^ 56.
Proof. unfold dval. replace (B2R d01) with (F2R (Float radix2 7205759403792794 (-56))) by (vm_compute; reflexivity). unfold F2R; cbn [Fnum Fexp]. rewrite <- pow2n. reflexivity. Qed.
Example C74_good_step : good_step 11 d01 /\ moderate (dval d01).
Proof.
  pose proof d01_val as E. assert (L1 : / 2 ^ 1022 <= / 16). { apply Rinv_le_contravar; [lra|]. apply Rle_trans with (2 ^ 4); [lra|apply pow_le_1; lia]. } assert (L3 : / 2 ^ 100 <= / 16). { apply Rinv_le_contravar; [lra|]. apply Rle_trans with (2 ^ 4); [lra|apply pow_le_1; lia]. }
  assert (L2 : 2 ^ 4 <= 2 ^ 1022) by (apply pow_le_1; lia). assert (L4 : 2 ^ 4 <= 2 ^ 100) by (apply pow_le_1; lia).
  unfold good_step, moderate. rewrite E. split; [split; [reflexivity|]|]; lra.
Qed.
Example C74_away_from_a_line : In [3; 3]%Z (dfind_fluid_points 2 (fun x => dltb (nth 0 x dzero) (ddiv (dint 3) (dint 4))) (mkbox [0; 0]%Z [11; 11]%Z) [d01; d01]).
Proof.
  apply (C74_right_away_from_the_surface 2 _ (mkbox [0; 0]%Z [11; 11]%Z) [d01; d01] [3; 3]%Z true); cbn [bottom_left upper_right]; try reflexivity.
  - left; reflexivity.
  - split; reflexivity.
  - repeat (apply Forall_cons; [unfold is_int; lia|]); apply Forall_nil.
  - repeat (apply Forall_cons; [unfold is_int; lia|]); apply Forall_nil.
  - repeat (apply Forall_cons; [lia|]); apply Forall_nil.
  - repeat (apply Forall_cons; [lia|]); apply Forall_nil.
  - intros a Ha. destruct a as [|[|a]]; [apply C74_good_step|apply C74_good_step|lia].
  - split; cbn; repeat (apply Forall2_cons; [lia|]); apply Forall2_nil.
  - intros x [L C]. destruct (C 0%nat ltac:(cbn; lia)) as [F E]. cbn [nth bottom_left] in E, F. unfold dltb. rewrite Bltb_correct; [|exact F|vm_compute; reflexivity]. apply Rlt_bool_true.
    assert (E3 : B2R (ddiv (dint 3) (dint 4)) = 3 / 4). { replace (B2R (ddiv (dint 3) (dint 4))) with (F2R (Float radix2 (3 * 2 ^ 51) (-53))) by (vm_compute; reflexivity). unfold F2R; cbn. lra. }
    rewrite E3. fold (dval (nth 0 x dzero)). apply Rabs_le_inv in E. change (3 - 0 + 1)%Z with 4%Z in E. rewrite d01_val in E. pose proof u64_small. pose proof u64_pos. nra.
Qed.
Example C74_bbox_range : bbox_range d01 dhalf dhalf.
Proof.
  pose proof d01_val as E. destruct dhalf_ok as [Fh Vh]. assert (L1 : / 2 ^ 900 <= / 16). { apply Rinv_le_contravar; [lra|]. apply Rle_trans with (2 ^ 4); [lra|apply pow_le_1; lia]. } assert (L2 : 2 ^ 4 <= 2 ^ 900) by (apply pow_le_1; lia).
  unfold bbox_range. rewrite E, Vh, Rabs_pos_eq by lra. repeat (split; [assumption || reflexivity || lra|]). lra.
Qed.
Close Scope R_scope.
