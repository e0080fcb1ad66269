From Flocq Require Import Core BinarySingleNaN Plus_error Relative.
From Verif Require Import Base M_Geometry M_Particle.
From Verif Require Import M_Double S_Double.
Open Scope R_scope.
Notation fexp64 := (SpecFloat.fexp 53 1024).
Notation rnd := (round radix2 fexp64 ZnearestE).
Lemma fexp64_FLT : fexp64 = FLT_exp (-1074) 53.
Proof. reflexivity. Qed.
#[export] Instance p53 : Prec_gt_0 53 := eq_refl.
#[export] Instance valid64 : Valid_exp fexp64 := FLT_exp_valid (-1074) 53.
Lemma pow2 n : bpow radix2 (Z.of_nat n) = 2 ^ n.
Proof. rewrite <- IZR_Zpower by lia. rewrite <- pow_IZR. reflexivity. Qed.
Lemma pow2n n : bpow radix2 (- Z.of_nat n) = / 2 ^ n.
Proof. rewrite bpow_opp, pow2. reflexivity. Qed.
Lemma u64_pos : 0 < u64.
Proof. unfold u64. apply Rinv_0_lt_compat, pow_lt. lra. Qed.
Lemma u64_bpow : / 2 * bpow radix2 (- 53 + 1) = u64.
Proof. unfold u64. rewrite <- pow2n. change (- Z.of_nat 53)%Z with (- 53)%Z. rewrite bpow_plus. change (bpow radix2 1) with 2. field. Qed.
Lemma rnd_rel x : / 2 ^ 1022 <= Rabs x -> Rabs (rnd x - x) <= u64 * Rabs x.
Proof.
  intros H. rewrite fexp64_FLT. rewrite <- u64_bpow.
  pose proof (relative_error_N_FLT radix2 (-1074) 53 eq_refl (fun x => negb (Z.even x)) x) as E. eapply Rle_trans; [apply E|].
  - change (-1074 + 53 - 1)%Z with (- Z.of_nat 1022)%Z. rewrite pow2n. exact H.
  - apply Rle_refl.
Qed.
Lemma rnd_bound x M : generic_format radix2 fexp64 M -> Rabs x <= M -> Rabs (rnd x) <= M.
Proof. intros HM H. apply abs_round_le_generic; auto; typeclasses eauto. Qed.
Lemma format_pow n : (n <= 1023)%nat -> generic_format radix2 fexp64 (2 ^ n).
Proof. intros H. rewrite <- pow2. apply generic_format_bpow. unfold SpecFloat.fexp, SpecFloat.emin. lia. Qed.
Lemma no_overflow x : Rabs x <= 2 ^ 1023 -> Rlt_bool (Rabs (rnd x)) (bpow radix2 1024) = true.
Proof.
  intros H. apply Rlt_bool_true. apply Rle_lt_trans with (2 ^ 1023).
  - apply rnd_bound; [apply format_pow; lia|exact H].
  - rewrite <- pow2. apply bpow_lt. reflexivity.
Qed.
Lemma dplus_ok x y : finite x -> finite y -> Rabs (dval x + dval y) <= 2 ^ 1023 -> finite (dplus x y) /\ dval (dplus x y) = rnd (dval x + dval y).
Proof.
  intros Fx Fy H. pose proof (Bplus_correct 53 1024 prec53 emax1024 mode_NE x y Fx Fy) as E. unfold dval in *. cbn [round_mode] in E. rewrite no_overflow in E by exact H. destruct E as (E1 & E2 & _). split; assumption.
Qed.
Lemma dminus_ok x y : finite x -> finite y -> Rabs (dval x - dval y) <= 2 ^ 1023 -> finite (dminus x y) /\ dval (dminus x y) = rnd (dval x - dval y).
Proof.
  intros Fx Fy H. pose proof (Bminus_correct 53 1024 prec53 emax1024 mode_NE x y Fx Fy) as E. unfold dval in *. cbn [round_mode] in E. rewrite no_overflow in E by exact H. destruct E as (E1 & E2 & _). split; assumption.
Qed.
Lemma dmult_ok x y : finite x -> finite y -> Rabs (dval x * dval y) <= 2 ^ 1023 -> finite (dmult x y) /\ dval (dmult x y) = rnd (dval x * dval y).
Proof.
  intros Fx Fy H. pose proof (Bmult_correct 53 1024 prec53 emax1024 mode_NE x y) as E. unfold dval in *. cbn [round_mode] in E. rewrite no_overflow in E by exact H. destruct E as (E1 & E2 & _). unfold finite in *. split; [|exact E1]. unfold dmult. rewrite E2, Fx, Fy. reflexivity.
Qed.
Lemma ddiv_ok x y : finite x -> dval y <> 0 -> Rabs (dval x / dval y) <= 2 ^ 1023 -> finite (ddiv x y) /\ dval (ddiv x y) = rnd (dval x / dval y).
Proof.
  intros Fx Hy H. pose proof (Bdiv_correct 53 1024 prec53 emax1024 mode_NE x y Hy) as E. unfold dval in *. cbn [round_mode] in E. rewrite no_overflow in E by exact H. destruct E as (E1 & E2 & _). unfold finite in *. split; [|exact E1]. unfold ddiv. rewrite E2. exact Fx.
Qed.
Lemma format_int z : (Z.abs z <= 2 ^ 53)%Z -> generic_format radix2 fexp64 (IZR z).
Proof.
  intros H. rewrite fexp64_FLT. destruct (Z_lt_dec (Z.abs z) (2 ^ 53)) as [L|L].
  - apply generic_format_FLT. exists (Float radix2 z 0); [unfold F2R; cbn; ring|exact L|cbn; lia].
  - assert (K : Rabs (IZR z) = 2 ^ 53). { rewrite <- abs_IZR. assert (E : (Z.abs z = 2 ^ 53)%Z) by lia. rewrite E. change 2%Z with (Z.of_nat 2) at 1. rewrite pow_IZR. reflexivity. }
    apply generic_format_abs_inv. rewrite K. apply (format_pow 53). lia.
Qed.
Lemma dint_ok z : (Z.abs z <= 2 ^ 53)%Z -> finite (dint z) /\ dval (dint z) = IZR z.
Proof.
  intros H. pose proof (binary_normalize_correct 53 1024 prec53 emax1024 mode_NE z 0 false) as E. cbv zeta in E. cbn [round_mode] in E.
  assert (EZ : F2R (Float radix2 z 0) = IZR z) by (unfold F2R; cbn; ring). rewrite EZ in E.
  rewrite no_overflow in E.
  - destruct E as (E1 & E2 & _). split; [exact E2|]. unfold dval, dint. rewrite E1. apply round_generic; [apply valid_rnd_N|apply format_int, H].
  - rewrite <- abs_IZR. apply Rle_trans with (2 ^ 53); [|apply Rle_pow; [lra|lia]]. rewrite <- pow2. rewrite <- IZR_Zpower by lia. apply IZR_le. exact H.
Qed.
Lemma dval_format x : generic_format radix2 fexp64 (dval x).
Proof. apply (generic_format_B2R 53 1024). Qed.
(** the error of an addition is relative even when it underflows *)
Lemma rnd_plus_rel a b : generic_format radix2 fexp64 a -> generic_format radix2 fexp64 b -> Rabs (rnd (a + b) - (a + b)) <= u64 * Rabs (a + b).
Proof.
  intros Ha Hb. destruct (FLT_plus_error_N_ex radix2 (-1074) 53 (fun x => negb (Z.even x)) a b) as (eps & E1 & E2); [exact Ha|exact Hb|].
  rewrite fexp64_FLT. rewrite E2. replace ((a + b) * (1 + eps) - (a + b)) with (eps * (a + b)) by ring. rewrite Rabs_mult. apply Rmult_le_compat_r; [apply Rabs_pos|].
  eapply Rle_trans; [exact E1|]. assert (U : u_ro radix2 53 = u64). { rewrite <- u64_bpow. reflexivity. }
  rewrite U. pose proof u64_pos. apply Rmult_le_reg_r with (1 + u64); [lra|]. unfold Rdiv. rewrite Rmult_assoc, Rinv_l by lra. nra.
Qed.
Lemma rnd_minus_rel a b : generic_format radix2 fexp64 a -> generic_format radix2 fexp64 b -> Rabs (rnd (a - b) - (a - b)) <= u64 * Rabs (a - b).
Proof. intros Ha Hb. unfold Rminus. apply rnd_plus_rel; [exact Ha|apply generic_format_opp, Hb]. Qed.
Close Scope R_scope.
