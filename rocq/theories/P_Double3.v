From Flocq Require Import Core BinarySingleNaN Plus_error Relative.
From Verif Require Import Base M_Geometry S_Geometry P_Geometry M_Particle S_Particle P_Particle.
From Verif Require Import M_Double S_Double P_Double P_Double2.
Open Scope R_scope.
(** ** steps with few bits: everything is exact *)
Lemma format_scaled z e : (Z.abs z <= 2 ^ 53)%Z -> (-1074 <= e)%Z -> generic_format radix2 fexp64 (IZR z * bpow radix2 e).
Proof.
  intros H He. rewrite fexp64_FLT. destruct (Z_lt_dec (Z.abs z) (2 ^ 53)) as [L|L].
  - apply generic_format_FLT. exists (Float radix2 z e); [reflexivity|exact L|exact He].
  - assert (K : Rabs (IZR z * bpow radix2 e) = bpow radix2 (53 + e)). { rewrite Rabs_mult, <- abs_IZR, (Rabs_pos_eq (bpow radix2 e)) by apply bpow_ge_0. assert (E : (Z.abs z = 2 ^ 53)%Z) by lia. rewrite E, bpow_plus. reflexivity. }
    apply generic_format_abs_inv. rewrite K. apply generic_format_bpow. unfold FLT_exp. lia.
Qed.
Lemma accumulated_exact h lo m e : (0 <= lo)%Z -> finite h -> dval h = IZR m * bpow radix2 e -> (0 < m)%Z -> (-1074 <= e)%Z ->
  forall k, ((lo + Z.of_nat k) * m <= 2 ^ 53)%Z -> IZR (lo + Z.of_nat k) * dval h <= 2 ^ 1023 ->
  finite (accumulated h lo (lo + Z.of_nat k)) /\ dval (accumulated h lo (lo + Z.of_nat k)) = IZR (lo + Z.of_nat k) * dval h.
Proof.
  intros Hlo Fh Eh Hm He. assert (Ph : 0 < dval h). { rewrite Eh. apply Rmult_lt_0_compat; [apply IZR_lt; lia|apply bpow_gt_0]. }
  induction k as [|k IH]; intros HB HO.
  - replace (lo + Z.of_nat 0)%Z with lo in * by lia. rewrite accumulated_first. destruct (dint_ok lo) as [F V]; [nia|].
    assert (HP : 0 <= IZR lo * dval h) by (apply Rmult_le_pos; [apply IZR_le; lia|lra]).
    destruct (dmult_ok (dint lo) h F Fh) as [F2 V2]; [rewrite V, Rabs_pos_eq; assumption|]. split; [exact F2|]. rewrite V2, V, Eh, <- Rmult_assoc, <- mult_IZR. apply round_generic; [apply valid_rnd_N|]. apply format_scaled; [nia|exact He].
  - replace (lo + Z.of_nat (S k))%Z with ((lo + Z.of_nat k) + 1)%Z in * by lia. destruct IH as [F V]; [nia| |].
    { eapply Rle_trans; [|exact HO]. apply Rmult_le_compat_r; [lra|apply IZR_le; lia]. }
    rewrite accumulated_next by lia. assert (S1 : IZR (lo + Z.of_nat k) * dval h + dval h = IZR (lo + Z.of_nat k + 1) * dval h) by (rewrite (plus_IZR (lo + Z.of_nat k) 1); ring).
    assert (HP : 0 <= IZR (lo + Z.of_nat k + 1) * dval h) by (apply Rmult_le_pos; [apply IZR_le; lia|lra]).
    destruct (dplus_ok _ h F Fh) as [F2 V2]; [rewrite V, S1, Rabs_pos_eq; assumption|]. split; [exact F2|]. rewrite V2, V, S1, Eh, <- Rmult_assoc, <- mult_IZR. apply round_generic; [apply valid_rnd_N|]. apply format_scaled; [nia|exact He].
Qed.
Lemma accumulated_exact' h lo m e i : (0 <= lo <= i)%Z -> finite h -> dval h = IZR m * bpow radix2 e -> (0 < m)%Z -> (-1074 <= e)%Z ->
  (i * m <= 2 ^ 53)%Z -> IZR i * dval h <= 2 ^ 1023 -> finite (accumulated h lo i) /\ dval (accumulated h lo i) = IZR i * dval h.
Proof.
  intros Hlo Fh Eh Hm He HB HO. pose proof (accumulated_exact h lo m e ltac:(lia) Fh Eh Hm He (Z.to_nat (i - lo))) as A. rewrite Z2Nat.id in A by lia. replace (lo + (i - lo))%Z with i in A by lia. apply A; assumption.
Qed.
Lemma dval_inj x y : finite x -> finite y -> dval x <> 0 -> dval x = dval y -> x = y.
Proof.
  intros Fx Fy N E. unfold dval in *. apply B2R_inj; [| |exact E].
  - destruct x; try discriminate; [cbn in N; lra|reflexivity].
  - destruct y; try discriminate; [cbn in E; lra|reflexivity].
Qed.
Lemma accumulated_same h lo lo' m e i : (0 <= lo <= i)%Z -> (0 <= lo' <= i)%Z -> finite h -> dval h = IZR m * bpow radix2 e -> (0 < m)%Z -> (-1074 <= e)%Z ->
  (i * m <= 2 ^ 53)%Z -> IZR i * dval h <= 2 ^ 1023 -> accumulated h lo i = accumulated h lo' i.
Proof.
  intros H1 H2 Fh Eh Hm He HB HO. destruct (Z.eq_dec i 0) as [->|NZ]. { replace lo with 0%Z by lia. replace lo' with 0%Z by lia. reflexivity. }
  destruct (accumulated_exact' h lo m e i H1 Fh Eh Hm He HB HO) as [F V]. destruct (accumulated_exact' h lo' m e i H2 Fh Eh Hm He HB HO) as [F' V'].
  assert (Ph : 0 < dval h). { rewrite Eh. apply Rmult_lt_0_compat; [apply IZR_lt; lia|apply bpow_gt_0]. }
  apply dval_inj; [assumption|assumption| |rewrite V, V'; reflexivity]. rewrite V. apply Rgt_not_eq, Rmult_lt_0_compat; [apply IZR_lt; lia|exact Ph].
Qed.
(** ** the tested point *)
Lemma tested_point_length h b p : length (bottom_left b) = length h -> length p = length h -> length (tested_point h b p) = length h.
Proof. intros E1 E2. unfold tested_point. revert E1 E2. generalize (bottom_left b) as l. clear. revert p. induction h as [|a h IH]; intros p l E1 E2; destruct l, p; simpl in *; try discriminate; [reflexivity|]. f_equal. apply IH; lia. Qed.
Lemma tested_point_nth h b p : length (bottom_left b) = length h -> length p = length h -> forall a, (a < length h)%nat ->
  nth a (tested_point h b p) dzero = accumulated (nth a h dzero) (nth a (bottom_left b) 0%Z) (nth a p 0%Z).
Proof. intros E1 E2. unfold tested_point. revert E1 E2. generalize (bottom_left b) as l. clear. revert p. induction h as [|x h IH]; intros p l E1 E2 a Ha; destruct l, p; simpl in *; try discriminate; [lia|]. destruct a as [|a]; [reflexivity|]. apply IH; lia. Qed.
Lemma in_grid_box_nth b p : in_grid_box b p -> length p = length (bottom_left b) /\ forall a, (a < length p)%nat -> (nth a (bottom_left b) 0 <= nth a p 0 < nth a (upper_right b) 0)%Z.
Proof.
  intros [H1 H2]. split; [symmetry; clear H2; induction H1; simpl; congruence|]. destruct b as [l u]; simpl in *. revert u H2. induction H1 as [|x y l p Hx _ IH]; intros u H2 a Ha; inversion H2 as [|? z ? u' Hz Hr]; subst; simpl in *; [lia|]. destruct a as [|a]; [lia|]. apply IH; [assumption|lia].
Qed.
(** ** cells *)
Lemma rnd_mono x y : x <= y -> rnd x <= rnd y.
Proof. apply round_le; [exact valid64|apply valid_rnd_N]. Qed.
Lemma rnd_int z : (Z.abs z <= 2 ^ 53)%Z -> rnd (IZR z) = IZR z.
Proof. intros H. apply round_generic; [apply valid_rnd_N|apply format_int, H]. Qed.
Lemma rnd_near_int q : 1 / 2 <= q -> Rabs (rnd q - q) <= u64 * q.
Proof.
  intros H. assert (/ 2 ^ 1022 <= Rabs q). { rewrite Rabs_pos_eq by lra. apply Rle_trans with (/ 2); [|lra]. apply Rinv_le_contravar; [lra|]. rewrite <- (pow_1 2) at 1; apply Rle_pow; [lra|lia]. }
  pose proof (rnd_rel q H0) as E. rewrite (Rabs_pos_eq q) in E by lra. exact E.
Qed.
Lemma Btrunc_val x : finite x -> Btrunc x = Ztrunc (dval x).
Proof.
  intros F. pose proof (Btrunc_correct 53 1024 emax1024 x) as E. unfold dval. apply eq_IZR. rewrite E. unfold round, F2R, scaled_mantissa, cexp, FIX_exp. simpl. rewrite !Rmult_1_r. reflexivity.
Qed.
Lemma dcell_ok x h : finite x -> finite h -> 0 < dval h -> 0 <= dval x -> dval x <= 2 ^ 30 * dval h ->
  exists i, dcell x h = Ok i /\ (0 <= i)%Z /\ (i = Zfloor (dval x / dval h) \/ (i = (Zfloor (dval x / dval h) + 1)%Z /\ 0 < IZR i * dval h - dval x <= u64 * dval x)).
Proof.
  intros Fx Fh Hh Hx HB. set (q := dval x / dval h). assert (Q0 : 0 <= q) by (apply Rmult_le_pos; [lra|left; apply Rinv_0_lt_compat; lra]).
  assert (QB : q <= 2 ^ 30). { apply Rmult_le_reg_r with (dval h); [lra|]. unfold q, Rdiv. rewrite Rmult_assoc, Rinv_l by lra. lra. }
  destruct (ddiv_ok x h Fx) as [F V]; [lra|fold q; rewrite Rabs_pos_eq by lra; eapply Rle_trans; [exact QB|apply Rle_pow; [lra|lia]]|]. fold q in V.
  assert (E30 : 2 ^ 30 = IZR (2 ^ 30)) by (rewrite <- pow2; rewrite <- IZR_Zpower by lia; reflexivity).
  assert (FQ : (0 <= Zfloor q)%Z) by (apply Zfloor_lub; exact Q0). assert (FQ2 : (Zfloor q <= 2 ^ 30)%Z). { apply le_IZR. rewrite <- E30. eapply Rle_trans; [apply Zfloor_lb|exact QB]. }
  assert (L : IZR (Zfloor q) <= rnd q). { rewrite <- (rnd_int (Zfloor q)) by lia. apply rnd_mono, Zfloor_lb. }
  assert (U : rnd q <= IZR (Zfloor q + 1)). { rewrite <- (rnd_int (Zfloor q + 1)) by lia. apply rnd_mono. rewrite plus_IZR. left. apply Zfloor_ub. }
  assert (R0 : 0 <= rnd q) by (eapply Rle_trans; [|exact L]; apply IZR_le; exact FQ).
  assert (T : Btrunc (ddiv x h) = Zfloor (rnd q)). { rewrite Btrunc_val by exact F. rewrite V. apply Ztrunc_floor. exact R0. }
  assert (T1 : (Zfloor q <= Zfloor (rnd q))%Z) by (apply Zfloor_lub; exact L).
  assert (T2 : (Zfloor (rnd q) <= Zfloor q + 1)%Z) by (apply le_IZR; eapply Rle_trans; [apply Zfloor_lb|exact U]).
  exists (Zfloor (rnd q)). split; [|split; [lia|]].
  - unfold dcell, d_to_int. unfold finite in F. rewrite F, T. rewrite (proj2 (Z.leb_le _ _)) by lia. rewrite (proj2 (Z.ltb_lt _ _)) by lia. reflexivity.
  - destruct (Z.eq_dec (Zfloor (rnd q)) (Zfloor q)) as [E|N]; [left; exact E|right]. assert (E : Zfloor (rnd q) = (Zfloor q + 1)%Z) by lia. split; [exact E|].
    assert (EQ : rnd q = IZR (Zfloor (rnd q))). { apply Rle_antisym; [rewrite E; exact U|apply Zfloor_lb]. }
    set (i := Zfloor (rnd q)) in *. assert (I1 : 1 <= IZR i) by (apply IZR_le; lia). pose proof (Zfloor_ub q) as UB. assert (UB2 : q < IZR i) by (rewrite E, plus_IZR; lra).
    assert (HX : dval x = q * dval h) by (unfold q, Rdiv; rewrite Rmult_assoc, Rinv_l by lra; ring).
    assert (Qh : 1 / 2 <= q). { destruct (Rle_lt_dec (1 / 2) q) as [|C]; [assumption|exfalso]. assert (rnd q <= rnd (1 / 2)) by (apply rnd_mono; lra). rewrite (round_generic radix2 fexp64 ZnearestE (1 / 2)) in H; [lra|]. replace (1 / 2) with (IZR 1 * bpow radix2 (-1)) by (cbn; lra). apply format_scaled; [cbn; lia|lia]. }
    pose proof (rnd_near_int q Qh) as EE. rewrite EQ, Rabs_pos_eq in EE by lra. rewrite HX. split; [nra|]. replace (IZR i * dval h - q * dval h) with ((IZR i - q) * dval h) by ring. replace (u64 * (q * dval h)) with ((u64 * q) * dval h) by ring. apply Rmult_le_compat_r; lra.
Qed.
Lemma doffset_ok x h i : finite x -> finite h -> / 2 ^ 1022 <= dval h -> dval h <= 2 ^ 900 -> 0 <= dval x -> dval x <= 2 ^ 30 * dval h -> dcell x h = Ok i ->
  finite (doffset x h i) /\ Rabs (dval (doffset x h i) - (dval x - IZR i * dval h)) <= 2 * u64 * (IZR (i + 1) * dval h) /\
  - (3 * u64 * (IZR (i + 1) * dval h)) <= dval (doffset x h i) <= dval h + 3 * u64 * (IZR (i + 1) * dval h).
Proof.
  intros Fx Fh Hh HM Hx HB HC. assert (P0 : 0 < / 2 ^ 1022) by (apply Rinv_0_lt_compat, pow_lt; lra). pose proof u64_pos as U.
  destruct (dcell_ok x h Fx Fh ltac:(lra) Hx HB) as (i' & HC' & I0 & D). rewrite HC in HC'. injection HC' as <-.
  set (H := dval h) in *. set (X := dval x) in *. set (q := X / H) in *.
  assert (HX : X = q * H) by (unfold q, Rdiv; rewrite Rmult_assoc, Rinv_l by lra; ring).
  assert (U23 : u64 * 2 ^ 30 <= / 2 ^ 20). { unfold u64. apply Rmult_le_reg_l with (2 ^ 53); [apply pow_lt; lra|]. rewrite <- Rmult_assoc, Rinv_r by (apply pow_nonzero; lra). apply Rmult_le_reg_r with (2 ^ 20); [apply pow_lt; lra|]. rewrite (Rmult_assoc _ (/ _)), Rinv_l by (apply pow_nonzero; lra). rewrite Rmult_1_l, Rmult_1_r, <- pow_add. apply Rle_pow; [lra|lia]. }
  assert (S20 : / 2 ^ 20 <= / 2). { apply Rinv_le_contravar; [lra|]. rewrite <- (pow_1 2) at 1; apply Rle_pow; [lra|lia]. }
  assert (UX : u64 * X <= / 2 * H). { apply Rle_trans with (u64 * (2 ^ 30 * H)); [apply Rmult_le_compat_l; lra|]. rewrite <- Rmult_assoc. apply Rmult_le_compat_r; lra. }
  assert (O : - (u64 * X) <= X - IZR i * H < H). { destruct D as [->|(-> & D1 & D2)]; [|lra]. pose proof (Zfloor_lb q). pose proof (Zfloor_ub q). rewrite HX at 2 3. split; [|nra]. assert (0 <= u64 * X) by nra. nra. }
  assert (IX : 0 <= IZR i) by (apply IZR_le; lia). assert (IP : IZR (i + 1) = IZR i + 1) by (rewrite plus_IZR; reflexivity).
  assert (XI : X <= IZR (i + 1) * H) by (rewrite IP; lra).
  assert (UI : u64 * X <= u64 * (IZR (i + 1) * H)) by (apply Rmult_le_compat_l; lra).
  assert (IB : (i <= 2 ^ 31)%Z). { apply le_IZR. assert (IZR i * H <= (2 ^ 30 + 1) * H) by lra. apply Rle_trans with (2 ^ 30 + 1); [apply Rmult_le_reg_r with H; lra|]. change (2 ^ 31)%Z with (2 ^ 30 + 2 ^ 30)%Z. rewrite plus_IZR. change (2 ^ 30)%Z with (Zpower radix2 30). rewrite IZR_Zpower by lia. change 30%Z with (Z.of_nat 30). rewrite pow2. pose proof (pow_R1_Rle 2 30 ltac:(lra)). lra. }
  assert (IB2 : IZR i <= 2 ^ 31). { rewrite <- pow2, <- IZR_Zpower by lia. apply IZR_le. exact IB. }
  destruct (dint_ok i) as [Fi Vi]; [lia|].
  assert (IHb : IZR i * H <= 2 ^ 1000). { apply Rle_trans with (2 ^ 31 * 2 ^ 900); [apply Rmult_le_compat; lra|rewrite <- pow_add; apply Rle_pow; [lra|lia]]. }
  assert (B1 : 2 ^ 1000 <= 2 ^ 1023) by (apply Rle_pow; [lra|lia]).
  assert (IH0 : 0 <= IZR i * H) by (apply Rmult_le_pos; lra).
  destruct (dmult_ok (dint i) h Fi Fh) as [Fm Vm]; [rewrite Vi; fold H; rewrite Rabs_pos_eq; lra|]. rewrite Vi in Vm. fold H in Vm.
  assert (E1 : Rabs (rnd (IZR i * H) - IZR i * H) <= u64 * (IZR i * H)).
  { destruct (Z.eq_dec i 0) as [->|N]; [rewrite Rmult_0_l, round_0 by apply valid_rnd_N; rewrite Rminus_0_r, Rabs_R0; lra|]. pose proof (rnd_rel (IZR i * H)) as E. rewrite (Rabs_pos_eq (IZR i * H)) in E by lra. apply E. apply Rle_trans with (1 * H); [lra|]. apply Rmult_le_compat_r; [lra|apply IZR_le; lia]. }
  apply Rabs_le_inv in E1. assert (u64 <= / 2) as U2. { unfold u64. apply Rinv_le_contravar; [lra|]. rewrite <- (pow_1 2) at 1; apply Rle_pow; [lra|lia]. }
  set (M := rnd (IZR i * H)) in *. assert (M2 : M <= 2 * (IZR i * H)) by nra. assert (M0 : 0 <= M). { unfold M. rewrite <- (round_0 radix2 fexp64 ZnearestE). apply rnd_mono. lra. }
  assert (XB : X <= 2 ^ 1000). { apply Rle_trans with (2 ^ 30 * 2 ^ 900); [eapply Rle_trans; [exact HB|apply Rmult_le_compat_l; [apply pow_le; lra|lra]]|rewrite <- pow_add; apply Rle_pow; [lra|lia]]. }
  assert (BB : 4 * 2 ^ 1000 <= 2 ^ 1023). { replace (4 * 2 ^ 1000) with (2 ^ 2 * 2 ^ 1000) by (generalize (2 ^ 1000); intros; lra). rewrite <- pow_add. apply Rle_pow; [lra|lia]. }
  destruct (dminus_ok x (dmult (dint i) h) Fx Fm) as [Fo Vo]; [rewrite Vm; fold X; apply Rabs_le; lra|]. rewrite Vm in Vo. fold X in Vo. unfold doffset. split; [exact Fo|]. rewrite Vo.
  pose proof (rnd_minus_rel X M (dval_format x)) as E2. specialize (E2 ltac:(rewrite <- Vm; apply dval_format)).
  assert (A1 : Rabs (X - M) <= H + u64 * (IZR i * H)) by (apply Rabs_le; nra).
  assert (E3 : Rabs (rnd (X - M) - (X - M)) <= u64 * H + u64 * (/ 2 * (IZR i * H))). { eapply Rle_trans; [exact E2|]. apply Rle_trans with (u64 * (H + u64 * (IZR i * H))); [apply Rmult_le_compat_l; lra|]. rewrite Rmult_plus_distr_l. apply Rplus_le_compat_l. apply Rmult_le_compat_l; [lra|]. apply Rmult_le_compat_r; lra. }
  apply Rabs_le_inv in E3. rewrite IP in *.
  assert (UH : 0 <= u64 * H) by nra. assert (UIH : 0 <= u64 * (IZR i * H)) by nra.
  split; [apply Rabs_le; split; nra|]. split; nra.
Qed.
Close Scope R_scope.
