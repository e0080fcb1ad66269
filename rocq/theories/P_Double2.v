From Flocq Require Import Core BinarySingleNaN Plus_error Relative.
From Verif Require Import Base M_Geometry S_Geometry P_Geometry M_Particle S_Particle P_Particle.
From Verif Require Import M_Double S_Double P_Double.
Open Scope R_scope.
(** ** the loops *)
Lemma accumulated_first h lo : accumulated h lo lo = dmult (dint lo) h.
Proof. unfold accumulated. replace (Z.to_nat (lo - lo)) with 0%nat by lia. reflexivity. Qed.
Lemma accumulated_next h lo i : (lo <= i)%Z -> accumulated h lo (i + 1) = dplus (accumulated h lo i) h.
Proof. intros H. unfold accumulated. replace (Z.to_nat (i + 1 - lo)) with (S (Z.to_nat (i - lo))) by lia. reflexivity. Qed.
Lemma dfor_loop_spec {A} (body : Z -> double -> list A) h lo : forall fuel i hi, (lo <= i)%Z -> Z.to_nat (hi - i) = fuel ->
  dfor_loop fuel i hi (accumulated h lo i) h body = flat_map (fun j => body j (accumulated h lo j)) (zrange i hi).
Proof.
  induction fuel as [|k IH]; intros i hi Hl Hf; simpl.
  - rewrite zrange_empty by lia. reflexivity.
  - destruct (Z.ltb_spec i hi) as [Hlt|Hge]; [|lia]. rewrite zrange_cons by lia. simpl. f_equal. rewrite <- accumulated_next by exact Hl. apply IH; lia.
Qed.
Lemma dfor_spec {A} lo hi h (body : Z -> double -> list A) : is_int lo -> is_int hi -> (0 <= lo)%Z -> (0 <= hi)%Z ->
  dfor lo hi h body = flat_map (fun j => body j (accumulated h lo j)) (zrange lo hi).
Proof.
  intros H1 H2 H3 H4. unfold dfor. rewrite !to_size_t_nonneg by assumption. rewrite <- accumulated_first. apply dfor_loop_spec; [lia|reflexivity].
Qed.
Lemma dfind2_filter contains b h : has_dim 2 b -> length h = 2%nat -> box_ints b -> box_nonneg b ->
  dfind_fluid_points2 contains b h = filter (fun p => contains (tested_point h b p)) (grid_pts b).
Proof.
  intros Hb Hh HI HN. apply box2_inv in Hb as [a0 [a1 [c0 [c1 ->]]]].
  destruct h as [|h0 [|h1 [|? ?]]]; simpl in Hh; try discriminate.
  destruct HI as [I1 I2], HN as [N1 N2]; simpl in *.
  inversion I1 as [|? ? Ia0 I1']; subst; inversion I1' as [|? ? Ia1 _]; subst.
  inversion I2 as [|? ? Ic0 I2']; subst; inversion I2' as [|? ? Ic1 _]; subst.
  inversion N1 as [|? ? Na0 N1']; subst; inversion N1' as [|? ? Na1 _]; subst.
  inversion N2 as [|? ? Nc0 N2']; subst; inversion N2' as [|? ? Nc1 _]; subst.
  unfold dfind_fluid_points2, grid_pts; cbn [bottom_left upper_right nth]. rewrite dfor_spec by assumption. simpl.
  rewrite <- filter_flat_map. apply flat_map_ext_in. intros iy Hy.
  rewrite dfor_spec by assumption. rewrite flat_map_singleton.
  rewrite <- flat_map_filter. apply flat_map_ext_in. intros ix Hx.
  rewrite (in_range_int _ _ _ Ia0 Ic0 Hx), (in_range_int _ _ _ Ia1 Ic1 Hy). reflexivity.
Qed.
Lemma dfind3_filter contains b h : has_dim 3 b -> length h = 3%nat -> box_ints b -> box_nonneg b ->
  dfind_fluid_points3 contains b h = filter (fun p => contains (tested_point h b p)) (grid_pts b).
Proof.
  intros Hb Hh HI HN. apply box3_inv in Hb as [a0 [a1 [a2 [c0 [c1 [c2 ->]]]]]].
  destruct h as [|h0 [|h1 [|h2 [|? ?]]]]; simpl in Hh; try discriminate.
  destruct HI as [I1 I2], HN as [N1 N2]; simpl in *.
  inversion I1 as [|? ? Ia0 I1']; subst; inversion I1' as [|? ? Ia1 I1'']; subst; inversion I1'' as [|? ? Ia2 _]; subst.
  inversion I2 as [|? ? Ic0 I2']; subst; inversion I2' as [|? ? Ic1 I2'']; subst; inversion I2'' as [|? ? Ic2 _]; subst.
  inversion N1 as [|? ? Na0 N1']; subst; inversion N1' as [|? ? Na1 N1'']; subst; inversion N1'' as [|? ? Na2 _]; subst.
  inversion N2 as [|? ? Nc0 N2']; subst; inversion N2' as [|? ? Nc1 N2'']; subst; inversion N2'' as [|? ? Nc2 _]; subst.
  unfold dfind_fluid_points3, grid_pts; cbn [bottom_left upper_right nth]. rewrite dfor_spec by assumption. simpl.
  rewrite <- filter_flat_map. apply flat_map_ext_in. intros iz Hz.
  rewrite dfor_spec by assumption. rewrite <- filter_flat_map. apply flat_map_ext_in. intros iy Hy.
  rewrite dfor_spec by assumption. rewrite flat_map_singleton.
  rewrite <- flat_map_filter. apply flat_map_ext_in. intros ix Hx.
  rewrite (in_range_int _ _ _ Ia0 Ic0 Hx), (in_range_int _ _ _ Ia1 Ic1 Hy), (in_range_int _ _ _ Ia2 Ic2 Hz). reflexivity.
Qed.
Lemma dfind_spec D contains b h : (D = 2 \/ D = 3)%nat -> has_dim D b -> length h = D -> box_ints b -> box_nonneg b ->
  (forall p, In p (dfind_fluid_points D contains b h) <-> in_grid_box b p /\ contains (tested_point h b p) = true) /\
  NoDup (dfind_fluid_points D contains b h) /\ strictly_increasing colex_lt (dfind_fluid_points D contains b h).
Proof.
  intros HD Hb Hh HI HN.
  assert (E : dfind_fluid_points D contains b h = filter (fun p => contains (tested_point h b p)) (grid_pts b)).
  { destruct HD; subst D; cbn [dfind_fluid_points]; [apply dfind2_filter|apply dfind3_filter]; assumption. }
  rewrite E. destruct (grid_pts_spec D b Hb) as [H1 [H2 [H3 _]]]. split; [|split].
  - intros p. rewrite filter_In, H1. tauto.
  - apply NoDup_filter, H2.
  - apply strictly_increasing_filter, H3.
Qed.

(** ** the error of the coordinates *)
Lemma pow_u64 n : INR n * u64 <= / 2 -> (1 + u64) ^ n <= 1 + 2 * (INR n * u64).
Proof.
  intros H. pose proof u64_pos as U. assert (B : 1 - INR n * u64 <= (1 - u64) ^ n).
  { clear H. assert (U1 : u64 <= 1). { unfold u64. rewrite <- Rinv_1. apply Rinv_le_contravar; [lra|]. apply pow_R1_Rle; lra. }
    induction n as [|n IH]; [simpl; lra|]. rewrite S_INR. cbn [pow]. pose proof (pos_INR n). nra. }
  assert (U1 : u64 <= 1). { unfold u64. rewrite <- Rinv_1. apply Rinv_le_contravar; [lra|]. apply pow_R1_Rle; lra. }
  assert (P : (1 + u64) ^ n * (1 - u64) ^ n <= 1). { rewrite <- Rpow_mult_distr. apply Rle_trans with (1 ^ n); [apply pow_incr; nra|rewrite pow1; lra]. }
  assert (Q : 0 < (1 + u64) ^ n) by (apply pow_lt; lra). set (x := (1 + u64) ^ n) in *. set (y := INR n * u64) in *. assert (0 <= y) by (apply Rmult_le_pos; [apply pos_INR|lra]).
  assert (x * (1 - y) <= 1) by (eapply Rle_trans; [apply Rmult_le_compat_l; [lra|exact B]|exact P]). nra.
Qed.
Lemma accumulated_error_pow h lo : forall k, (0 <= lo)%Z -> (lo + Z.of_nat k <= 2 ^ 31)%Z -> good_step (lo + Z.of_nat k) h ->
  let x := accumulated h lo (lo + Z.of_nat k) in finite x /\ Rabs (dval x - IZR (lo + Z.of_nat k) * dval h) <= ((1 + u64) ^ (S k) - 1) * (IZR (lo + Z.of_nat k) * dval h).
Proof.
  pose proof u64_pos as U.
  assert (U2 : forall k, (Z.of_nat k <= 2 ^ 31)%Z -> (1 + u64) ^ S k <= 2).
  { intros k Hk. assert (HK : INR (S k) * u64 <= / 2).
    { unfold u64. apply Rmult_le_reg_r with (2 ^ 53); [apply pow_lt; lra|]. rewrite Rmult_assoc, Rinv_l by (apply pow_nonzero; lra). rewrite INR_IZR_INZ, Rmult_1_r. apply Rle_trans with (IZR (2 ^ 31 + 1)); [apply IZR_le; lia|]. rewrite <- pow2. rewrite <- IZR_Zpower by lia. change (Zpower radix2 (Z.of_nat 53)) with (2 ^ 53)%Z. pose proof (IZR_le (2 * (2 ^ 31 + 1)) (2 ^ 53) ltac:(cbn; lia)) as K. rewrite mult_IZR in K. lra. }
    eapply Rle_trans; [apply pow_u64, HK|lra]. }
  induction k as [|k IH]; intros Hlo Hb (Fh & Hh & HO) x; subst x.
  - cbn [Z.of_nat] in *. rewrite Z.add_0_r in *. rewrite accumulated_first. destruct (dint_ok lo) as [Fi Vi]; [lia|].
    destruct (Z.eq_dec lo 0) as [->|Hz].
    + destruct (dmult_ok (dint 0) h) as [F V]; auto; [rewrite Vi, Rmult_0_l, Rabs_R0; apply pow_le; lra|]. split; [exact F|]. rewrite V, Vi, !Rmult_0_l, round_0 by typeclasses eauto. rewrite Rminus_0_r, Rabs_R0. lra.
    + assert (HL : 1 <= IZR lo) by (apply IZR_le; lia). assert (HP : 0 < / 2 ^ 1022) by (apply Rinv_0_lt_compat, pow_lt; lra).
      assert (EA : Rabs (IZR lo * dval h) = IZR lo * dval h) by (apply Rabs_pos_eq; nra).
      destruct (dmult_ok (dint lo) h) as [F V]; auto. { rewrite Vi, EA. eapply Rle_trans; [exact HO|]. apply Rle_pow; [lra|lia]. }
      split; [exact F|]. rewrite V, Vi. eapply Rle_trans; [apply rnd_rel; rewrite EA; nra|]. rewrite EA. simpl. lra.
  - assert (HM : IZR (lo + Z.of_nat k) <= IZR (lo + Z.of_nat (S k))) by (apply IZR_le; lia).
    assert (HP : 0 < / 2 ^ 1022) by (apply Rinv_0_lt_compat, pow_lt; lra).
    assert (HN : 0 <= IZR (lo + Z.of_nat k)) by (apply IZR_le; lia).
    destruct IH as [F E]; [exact Hlo|lia|split; [exact Fh|split; [exact Hh|nra]]|].
    replace (lo + Z.of_nat (S k))%Z with (lo + Z.of_nat k + 1)%Z in * by lia. rewrite accumulated_next by lia.
    set (xk := accumulated h lo (lo + Z.of_nat k)) in *. rewrite (plus_IZR (lo + Z.of_nat k) 1) in *. set (n := IZR (lo + Z.of_nat k)) in *.
    pose proof (U2 k ltac:(lia)) as P2. pose proof (U2 (S k) ltac:(lia)) as P3. set (e := (1 + u64) ^ S k) in *. assert (Ee : (1 + u64) ^ S (S k) = (1 + u64) * e) by reflexivity. rewrite Ee in *.
    assert (e1 : 1 <= e) by (apply pow_R1_Rle; lra).
    assert (R3 : (e - 1) * (n * dval h) <= (e - 1) * ((n + 1) * dval h)) by (apply Rmult_le_compat_l; [lra|nra]).
    assert (X : Rabs (dval xk + dval h) <= e * ((n + 1) * dval h)).
    { replace (dval xk + dval h) with ((dval xk - n * dval h) + (n + 1) * dval h) by ring. eapply Rle_trans; [apply Rabs_triang|]. rewrite (Rabs_pos_eq ((n + 1) * dval h)) by (apply Rmult_le_pos; lra). replace (e * ((n + 1) * dval h)) with ((e - 1) * ((n + 1) * dval h) + (n + 1) * dval h) by ring. lra. }
    destruct (dplus_ok xk h) as [F' V']; auto.
    { eapply Rle_trans; [exact X|]. replace (2 ^ 1023) with (2 * 2 ^ 1022) by (change 1023%nat with (S 1022); cbn [pow]; reflexivity). apply Rmult_le_compat; [lra|nra|exact P2|exact HO]. }
    split; [exact F'|]. rewrite V'.
    replace (rnd (dval xk + dval h) - (n + 1) * dval h) with ((rnd (dval xk + dval h) - (dval xk + dval h)) + (dval xk - n * dval h)) by ring.
    eapply Rle_trans; [apply Rabs_triang|]. pose proof (rnd_plus_rel (dval xk) (dval h) (dval_format xk) (dval_format h)) as R1.
    assert (R2 : u64 * Rabs (dval xk + dval h) <= u64 * (e * ((n + 1) * dval h))) by (apply Rmult_le_compat_l; [lra|exact X]).
    replace (((1 + u64) * e - 1) * ((n + 1) * dval h)) with (u64 * (e * ((n + 1) * dval h)) + (e - 1) * ((n + 1) * dval h)) by ring. lra.
Qed.
Lemma accumulated_error h lo i : (0 <= lo <= i)%Z -> is_int i -> good_step i h ->
  finite (accumulated h lo i) /\ Rabs (dval (accumulated h lo i) - IZR i * dval h) <= IZR (i - lo + 1) * (2 * u64) * (IZR i * dval h).
Proof.
  intros H1 H2 HG. unfold is_int in H2. assert (Ei : (lo + Z.of_nat (Z.to_nat (i - lo)) = i)%Z) by lia.
  pose proof (accumulated_error_pow h lo (Z.to_nat (i - lo))) as A. cbv zeta in A. rewrite Ei in A. destruct A as [F E]; [lia|lia|exact HG|]. split; [exact F|]. eapply Rle_trans; [exact E|].
  destruct HG as (_ & Hh & _). assert (HP : 0 < / 2 ^ 1022) by (apply Rinv_0_lt_compat, pow_lt; lra). assert (HI : 0 <= IZR i) by (apply IZR_le; lia).
  apply Rmult_le_compat_r; [nra|]. assert (EN : INR (S (Z.to_nat (i - lo))) = IZR (i - lo + 1)) by (rewrite INR_IZR_INZ; f_equal; lia).
  assert (HK : INR (S (Z.to_nat (i - lo))) * u64 <= / 2).
  { rewrite EN. unfold u64. apply Rmult_le_reg_r with (2 ^ 53); [apply pow_lt; lra|]. rewrite Rmult_assoc, Rinv_l by (apply pow_nonzero; lra). rewrite Rmult_1_r. apply Rle_trans with (IZR (2 ^ 31 + 1)); [apply IZR_le; lia|]. rewrite <- pow2. rewrite <- IZR_Zpower by lia. change (Zpower radix2 (Z.of_nat 53)) with (2 ^ 53)%Z. pose proof (IZR_le (2 * (2 ^ 31 + 1)) (2 ^ 53) ltac:(cbn; lia)) as K. rewrite mult_IZR in K. lra. }
  pose proof (pow_u64 _ HK) as P. rewrite EN in P. lra.
Qed.
Close Scope R_scope.
