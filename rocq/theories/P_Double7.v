From Flocq Require Import Core BinarySingleNaN Plus_error Relative.
From Verif Require Import Base M_Geometry S_Geometry P_Geometry M_Particle S_Particle P_Particle M_Double S_Double P_Double P_Double2 P_Double3 P_Double4 P_Double5.
Open Scope R_scope.
Lemma d_to_int_ok x : finite x -> Rabs (dval x) <= 2 ^ 30 -> d_to_int x = Ok (Ztrunc (dval x)).
Proof.
  intros F B. unfold d_to_int. unfold finite in F. rewrite F, Btrunc_val by exact F.
  assert (E : 2 ^ 30 = IZR (2 ^ 30)) by (rewrite <- pow2; rewrite <- IZR_Zpower by lia; reflexivity).
  assert (T : (Z.abs (Ztrunc (dval x)) <= 2 ^ 30)%Z). { rewrite <- Ztrunc_abs, Ztrunc_floor by apply Rabs_pos. apply le_IZR. rewrite <- E. eapply Rle_trans; [apply Zfloor_lb|exact B]. }
  rewrite (proj2 (Z.leb_le _ _)) by lia. rewrite (proj2 (Z.ltb_lt _ _)) by lia. reflexivity.
Qed.
Lemma trunc_le x i : x <= IZR i -> (Ztrunc x <= i)%Z.
Proof. intros H. destruct (Rle_lt_dec 0 x) as [P|N]; [rewrite Ztrunc_floor by exact P; apply le_IZR; eapply Rle_trans; [apply Zfloor_lb|exact H]|]. rewrite Ztrunc_ceil by lra. apply Zceil_glb. exact H. Qed.
Lemma trunc_ge x i : IZR i <= x -> (i <= Ztrunc x)%Z.
Proof. intros H. destruct (Rle_lt_dec 0 x) as [P|N]; [rewrite Ztrunc_floor by exact P; apply Zfloor_lub, H|]. rewrite Ztrunc_ceil by lra. apply le_IZR. eapply Rle_trans; [exact H|]. apply Zceil_ub. Qed.
Lemma P30 : 2 ^ 30 = 1073741824. Proof. lra. Qed.
Lemma rnd_scaled_le x h k : 0 < h -> (Z.abs k <= 2 ^ 53)%Z -> x <= IZR k * h -> rnd (x / h) <= IZR k.
Proof. intros Hh Hk H. rewrite <- (rnd_int k) by exact Hk. apply rnd_mono. apply Rmult_le_reg_r with h; [exact Hh|]. unfold Rdiv. rewrite Rmult_assoc, Rinv_l by lra. lra. Qed.
Lemma rnd_scaled_ge x h k : 0 < h -> (Z.abs k <= 2 ^ 53)%Z -> IZR k * h <= x -> IZR k <= rnd (x / h).
Proof. intros Hh Hk H. rewrite <- (rnd_int k) at 1 by exact Hk. apply rnd_mono. apply Rmult_le_reg_r with h; [exact Hh|]. unfold Rdiv. rewrite Rmult_assoc, Rinv_l by lra. lra. Qed.
(** one axis of the box *)
Lemma bbox_axis c s h : bbox_range h c s ->
  exists a b, d_to_int (dminus (ddiv (dminus c s) h) (dint 1)) = Ok a /\ d_to_int (dplus (ddiv (dplus c s) h) (dint 1)) = Ok b /\
  forall i, dval c - dval s <= IZR i * dval h <= dval c + dval s - u64 * Rabs (dval c + dval s) -> (a <= i < b)%Z.
Proof.
  intros (Fh & Fc & Fs & H1 & H2 & Hc & Hs). assert (P0 : 0 < / 2 ^ 900) by (apply Rinv_0_lt_compat, pow_lt; lra). pose proof u64_small as US. pose proof u64_pos as U. pose proof P30 as P3.
  set (C := dval c) in *. set (S := dval s) in *. set (H := dval h) in *. assert (HH : 0 < H) by lra.
  assert (BIG : 2 ^ 900 * 2 ^ 30 <= 2 ^ 1023) by (rewrite <- pow_add; apply pow_le_1; lia). assert (H30 : H * 2 ^ 30 <= 2 ^ 1023) by (eapply Rle_trans; [|exact BIG]; apply Rmult_le_compat_r; lra).
  assert (E28 : 2 ^ 28 = 268435456) by lra. rewrite E28 in *. rewrite P3 in *. apply Rabs_le_inv in Hc. 
  assert (BM : Rabs (C - S) <= 536870912 * H) by (apply Rabs_le; lra). assert (BP : Rabs (C + S) <= 536870912 * H) by (apply Rabs_le; lra).
  destruct (dminus_ok c s Fc Fs) as [Fm Vm]; [fold C S; eapply Rle_trans; [exact BM|lra]|]. destruct (dplus_ok c s Fc Fs) as [Fp Vp]; [fold C S; eapply Rle_trans; [exact BP|lra]|]. fold C S in Vm, Vp.
  pose proof (rnd_minus_rel C S (dval_format c) (dval_format s)) as Em. pose proof (rnd_plus_rel C S (dval_format c) (dval_format s)) as Ep. rewrite <- Vm in Em. rewrite <- Vp in Ep. set (M := dval (dminus c s)) in *. set (P := dval (dplus c s)) in *.
  assert (uM : u64 * Rabs (C - S) <= H). { apply Rle_trans with (/ 1000000000 * (536870912 * H)); [|lra]. apply Rmult_le_compat; [lra|apply Rabs_pos| |exact BM]. unfold u64. apply Rinv_le_contravar; [lra|]. apply Rle_trans with (2 ^ 30); [lra|apply pow_le_1; lia]. }
  assert (uP : u64 * Rabs (C + S) <= H). { apply Rle_trans with (/ 1000000000 * (536870912 * H)); [|lra]. apply Rmult_le_compat; [lra|apply Rabs_pos| |exact BP]. unfold u64. apply Rinv_le_contravar; [lra|]. apply Rle_trans with (2 ^ 30); [lra|apply pow_le_1; lia]. }
  apply Rabs_le_inv in Em, Ep, BM, BP.
  assert (BM2 : - (IZR 536870913 * H) <= M <= IZR 536870913 * H) by (cbn; lra). assert (BP2 : - (IZR 536870913 * H) <= P <= IZR 536870913 * H) by (cbn; lra).
  assert (Q : forall x d, finite d -> dval d = x -> - (IZR 536870913 * H) <= x <= IZR 536870913 * H -> finite (ddiv d h) /\ dval (ddiv d h) = rnd (x / H) /\ IZR (-536870913) <= rnd (x / H) <= IZR 536870913).
  { intros x d Fd Vd Bx. assert (R1 : IZR (-536870913) <= rnd (x / H) <= IZR 536870913) by (split; [apply rnd_scaled_ge; [lra|lia|lra]|apply rnd_scaled_le; [lra|lia|lra]]).
    destruct (ddiv_ok d h Fd) as [F V]; [fold H; lra| |].
    - rewrite Vd. fold H. apply Rle_trans with (2 ^ 30); [|apply pow_le_1; lia]. rewrite P3. apply Rabs_le. split; apply Rmult_le_reg_r with H; try lra; unfold Rdiv; rewrite Rmult_assoc, Rinv_l by lra; lra.
    - rewrite Vd in V. fold H in V. split; [exact F|]. split; [exact V|exact R1]. }
  destruct (Q M _ Fm eq_refl BM2) as (Fm2 & Vm2 & Bm3). destruct (Q P _ Fp eq_refl BP2) as (Fp2 & Vp2 & Bp3). destruct (dint_ok 1) as [F1 V1]; [lia|].
  set (qm := rnd (M / H)) in *. set (qp := rnd (P / H)) in *.
  assert (R2 : 1073741824 <= 2 ^ 1023) by (rewrite <- P3; apply pow_le_1; lia).
  destruct (dminus_ok (ddiv (dminus c s) h) (dint 1) Fm2 F1) as [Fa Va]; [rewrite Vm2, V1; eapply Rle_trans; [apply Rabs_le with (b := 1073741824); lra|exact R2]|]. destruct (dplus_ok (ddiv (dplus c s) h) (dint 1) Fp2 F1) as [Fb Vb]; [rewrite Vp2, V1; eapply Rle_trans; [apply Rabs_le with (b := 1073741824); lra|exact R2]|].
  rewrite Vm2, V1 in Va. rewrite Vp2, V1 in Vb.
  assert (FP : generic_format radix2 fexp64 1073741824) by (apply (format_int 1073741824); lia).
  exists (Ztrunc (rnd (qm - 1))), (Ztrunc (rnd (qp + 1))). split; [|split].
  - rewrite d_to_int_ok; [rewrite Va; reflexivity|exact Fa|]. rewrite Va, P3. apply rnd_bound; [exact FP|apply Rabs_le; lra].
  - rewrite d_to_int_ok; [rewrite Vb; reflexivity|exact Fb|]. rewrite Vb, P3. apply rnd_bound; [exact FP|apply Rabs_le; lra].
  - intros i [I1 I2]. 
    pose proof (Rabs_pos (C + S)) as AP. assert (uA : 0 <= u64 * Rabs (C + S)) by (apply Rmult_le_pos; lra).
    assert (L : (-536870912 <= i)%Z). { apply le_IZR. apply Rmult_le_reg_r with H; [lra|]. lra. }
    assert (G : (i <= 536870912)%Z). { apply le_IZR. apply Rmult_le_reg_r with H; [lra|]. lra. }
    split.
    + apply trunc_le. rewrite <- (rnd_int i) by lia. apply rnd_mono. assert (qm <= IZR (i + 1)) by (apply rnd_scaled_le; [lra|lia|rewrite plus_IZR; lra]). rewrite plus_IZR in H0. lra.
    + apply Z.lt_le_trans with (i + 1)%Z; [lia|]. apply trunc_ge. rewrite <- (rnd_int (i + 1)) by lia. apply rnd_mono. assert (IZR i <= qp) by (apply rnd_scaled_ge; [lra|lia|lra]). rewrite plus_IZR. lra.
Qed.
Lemma pressure_step_err lx mx : finite lx -> (2 <= mx < 2 ^ 31)%Z -> / 2 ^ 900 <= Rabs (dval lx) <= 2 ^ 900 ->
  finite (dpressure_step lx mx) /\ Rabs (dval (dpressure_step lx mx) - dval lx / IZR (mx - 1)) <= u64 * Rabs (dval lx / IZR (mx - 1)) /\ / 2 ^ 1021 <= Rabs (dval (dpressure_step lx mx)).
Proof.
  intros F Hm [B1 B2]. unfold dpressure_step. destruct (dint_ok (mx - 1)) as [Fn Vn]; [lia|]. assert (N1 : 1 <= IZR (mx - 1)) by (apply IZR_le; lia).
  assert (NB : IZR (mx - 1) <= 2 ^ 31). { rewrite <- pow2, <- IZR_Zpower by lia. apply IZR_le. change (Zpower radix2 (Z.of_nat 31)) with (2 ^ 31)%Z. lia. }
  assert (I1 : 0 < / IZR (mx - 1) <= 1). { split; [apply Rinv_0_lt_compat; lra|]. rewrite <- Rinv_1. apply Rinv_le_contravar; lra. }
  assert (I2 : / 2 ^ 31 <= / IZR (mx - 1)) by (apply Rinv_le_contravar; lra). pose proof u64_pos as U. pose proof u64_small as US.
  set (q := dval lx / IZR (mx - 1)). assert (Q : Rabs q = Rabs (dval lx) * / IZR (mx - 1)) by (unfold q, Rdiv; rewrite Rabs_mult, (Rabs_pos_eq (/ _)) by lra; reflexivity).
  assert (P9 : 0 < / 2 ^ 900) by (apply Rinv_0_lt_compat, pow_lt; lra). assert (P31 : 0 < / 2 ^ 31) by (apply Rinv_0_lt_compat, pow_lt; lra).
  assert (QU : Rabs q <= 2 ^ 900). { rewrite Q. apply Rle_trans with (2 ^ 900 * 1); [apply Rmult_le_compat; lra|lra]. }
  assert (QL : / 2 ^ 931 <= Rabs q). { rewrite Q. replace (2 ^ 931) with (2 ^ 900 * 2 ^ 31) by (rewrite <- pow_add; reflexivity). rewrite Rinv_mult. apply Rmult_le_compat; lra. }
  destruct (ddiv_ok lx (dint (mx - 1)) F) as [Fd Vd]; [rewrite Vn; lra|rewrite Vn; fold q; eapply Rle_trans; [exact QU|apply pow_le_1; lia]|]. rewrite Vn in Vd. fold q in Vd.
  assert (NQ : / 2 ^ 1022 <= Rabs q) by (eapply Rle_trans; [|exact QL]; apply Rinv_le_contravar; [apply pow_lt; lra|apply pow_le_1; lia]).
  pose proof (rnd_rel q NQ) as E. rewrite <- Vd in E. split; [exact Fd|]. split; [exact E|].
  assert (T : Rabs q - Rabs (dval (ddiv lx (dint (mx - 1)))) <= u64 * Rabs q). { eapply Rle_trans; [|exact E]. rewrite Rabs_minus_sym. apply Rabs_triang_inv. }
  assert (u64 * Rabs q <= / 2 * Rabs q) by (apply Rmult_le_compat_r; lra).
  apply Rle_trans with (/ 2 * / 2 ^ 931); [|lra]. rewrite <- Rinv_mult. apply Rinv_le_contravar; [apply Rmult_lt_0_compat; [lra|apply pow_lt; lra]|]. change (2 * 2 ^ 931) with (2 ^ 932). apply pow_le_1; lia.
Qed.
Close Scope R_scope.
