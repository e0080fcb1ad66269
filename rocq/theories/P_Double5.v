From Flocq Require Import Core BinarySingleNaN Plus_error Relative.
From Verif Require Import Base M_Geometry S_Geometry P_Geometry M_Particle S_Particle P_Particle.
From Verif Require Import M_Double S_Double P_Double P_Double2 P_Double3 P_Double4.
Open Scope R_scope.
Lemma linspace_value beg end_ ns k : finite beg -> finite end_ -> Rabs (dval beg) <= 2 ^ 900 -> Rabs (dval end_) <= 2 ^ 900 -> (1 <= ns <= 2 ^ 31)%Z -> (0 <= k <= ns)%Z ->
  let v := dplus beg (dmult (dint k) (ddiv (dminus end_ beg) (dint ns))) in
  finite v /\ Rabs (dval v - (dval beg + IZR k * ((dval end_ - dval beg) / IZR ns))) <= 8 * u64 * (Rabs (dval beg) + Rabs (dval end_)) + / 2 ^ 1000.
Proof.
  intros Fb Fe Bb Be Hns Hk v. pose proof u64_small as US. pose proof u64_pos as U. pose proof eta_pos as EP.
  set (b := dval beg) in *. set (e := dval end_) in *. set (M := Rabs b + Rabs e). assert (M0 : 0 <= M) by (unfold M; pose proof (Rabs_pos b); pose proof (Rabs_pos e); lra).
  assert (MB : M <= 2 ^ 901) by (change (2 ^ 901) with (2 * 2 ^ 900); unfold M; lra).
  assert (DM : Rabs (e - b) <= M). { unfold M. replace (e - b) with (- b + e) by ring. eapply Rle_trans; [apply Rabs_triang|]. rewrite Rabs_Ropp. lra. }
  destruct (dminus_ok end_ beg Fe Fb) as [F1 V1]; [fold e b; eapply Rle_trans; [exact DM|eapply Rle_trans; [exact MB|apply pow_le_1; lia]]|]. fold e b in V1.
  pose proof (rnd_minus_rel e b (dval_format end_) (dval_format beg)) as E1. apply rel_ex in E1 as (e1 & H1 & E1); [|lra]. rewrite <- V1 in E1.
  destruct (dint_ok ns) as [Fn Vn]; [lia|]. destruct (dint_ok k) as [Fk Vk]; [lia|].
  assert (N1 : 1 <= IZR ns) by (apply IZR_le; lia). assert (K0 : 0 <= IZR k) by (apply IZR_le; lia). assert (KN : IZR k <= IZR ns) by (apply IZR_le; lia).
  assert (NB : IZR ns <= 2 ^ 31). { rewrite <- pow2, <- IZR_Zpower by lia. apply IZR_le. apply Hns. }
  assert (I1 : 0 < / IZR ns <= 1). { split; [apply Rinv_0_lt_compat; lra|]. rewrite <- Rinv_1. apply Rinv_le_contravar; lra. }
  set (d := dval (dminus end_ beg)) in *.
  assert (S : forall x, Rabs x <= u64 -> Rabs (1 + x) <= 2). { intros x Hx. apply Rabs_le_inv in Hx. apply Rabs_le. lra. }
  assert (DB : Rabs d <= 2 * M). { rewrite E1, Rabs_mult, Rmult_comm. apply Rmult_le_compat; try apply Rabs_pos; [apply S, H1|exact DM]. }
  assert (QB : Rabs (d / IZR ns) <= 2 * M). { unfold Rdiv. rewrite Rabs_mult, (Rabs_pos_eq (/ IZR ns)) by lra. pose proof (Rabs_pos d). nra. }
  assert (M2 : 2 * M <= 2 ^ 902) by (change (2 ^ 902) with (2 * 2 ^ 901); lra).
  destruct (ddiv_ok (dminus end_ beg) (dint ns) F1) as [F2 V2]; [rewrite Vn; lra|rewrite Vn; fold d; eapply Rle_trans; [exact QB|eapply Rle_trans; [exact M2|apply pow_le_1; lia]]|]. rewrite Vn in V2. fold d in V2.
  destruct (rnd_err (d / IZR ns)) as (e2 & t2 & H2 & T2 & E2). rewrite <- V2 in E2. set (st := ddiv (dminus end_ beg) (dint ns)) in *.
  assert (SB : Rabs (dval st) <= 2 ^ 902). { rewrite V2. apply rnd_bound; [apply format_pow; lia|lra]. }
  assert (PB : Rabs (IZR k * dval st) <= 2 ^ 933). { rewrite Rabs_mult, (Rabs_pos_eq (IZR k)) by lra. apply Rle_trans with (2 ^ 31 * 2 ^ 902); [apply Rmult_le_compat; try lra; apply Rabs_pos|rewrite <- pow_add; apply Rle_refl]. }
  destruct (dmult_ok (dint k) st Fk F2) as [F3 V3]; [rewrite Vk; eapply Rle_trans; [exact PB|apply pow_le_1; lia]|]. rewrite Vk in V3.
  destruct (rnd_err (IZR k * dval st)) as (e3 & t3 & H3 & T3 & E3). rewrite <- V3 in E3. set (p := dmult (dint k) st) in *.
  assert (Pb : Rabs (dval p) <= 2 ^ 933). { rewrite V3. apply rnd_bound; [apply format_pow; lia|exact PB]. }
  destruct (dplus_ok beg p Fb F3) as [F4 V4]. { fold b. eapply Rle_trans; [apply Rabs_triang|]. apply Rle_trans with (2 ^ 933 + 2 ^ 933); [apply Rplus_le_compat; [eapply Rle_trans; [exact Bb|apply pow_le_1; lia]|exact Pb]|]. replace (2 ^ 933 + 2 ^ 933) with (2 ^ 934) by (change (2 ^ 934) with (2 * 2 ^ 933); generalize (2 ^ 933); intros; lra). apply pow_le_1; lia. }
  fold v in F4, V4. split; [exact F4|]. fold b in V4.
  pose proof (rnd_plus_rel b (dval p) (dval_format beg) (dval_format p)) as E4. rewrite <- V4 in E4.
  set (x := IZR k * ((e - b) / IZR ns)). set (r := IZR k / IZR ns).
  assert (R01 : 0 <= r <= 1). { unfold r, Rdiv. split; [apply Rmult_le_pos; lra|]. apply Rmult_le_reg_r with (IZR ns); [lra|]. rewrite Rmult_assoc, Rinv_l by lra. lra. }
  assert (XR : x = r * (e - b)) by (unfold x, r; field; lra). assert (XM : Rabs x <= M). { rewrite XR, Rabs_mult, (Rabs_pos_eq r) by lra. pose proof (Rabs_pos (e - b)). nra. }
  assert (BX : Rabs (b + x) <= M). { rewrite XR. replace (b + r * (e - b)) with ((1 - r) * b + r * e) by ring. eapply Rle_trans; [apply Rabs_triang|]. rewrite !Rabs_mult, (Rabs_pos_eq r), (Rabs_pos_eq (1 - r)) by lra. unfold M. pose proof (Rabs_pos b). pose proof (Rabs_pos e). nra. }
  assert (PE : Rabs (dval p - x) <= 4 * u64 * M + / 4 * / 2 ^ 1000).
  { replace (dval p - x) with (x * ((1 + ((1 + e1) * (1 + e2) - 1)) * (1 + e3) - 1) + (IZR k * t2 * (1 + e3) + t3)) by (rewrite E3, E2, E1, XR; unfold r; field; lra).
    eapply Rle_trans; [apply Rabs_triang|]. apply Rplus_le_compat.
    - rewrite Rabs_mult, Rmult_comm. apply Rmult_le_compat; try apply Rabs_pos; [|exact XM]. pose proof (chain e1 e2 1 ltac:(lra) ltac:(lra) H2) as C1. pose proof (chain _ e3 (1 + 1 + / 100) ltac:(lra) C1 H3) as C2. lra.
    - eapply Rle_trans; [apply Rabs_triang|]. rewrite !Rabs_mult, (Rabs_pos_eq (IZR k)) by lra.
      assert (X1 : IZR k * Rabs t2 * Rabs (1 + e3) <= 2 ^ 31 * eta64 * 2) by (repeat apply Rmult_le_compat; try apply Rabs_pos; try assumption; try lra; [apply Rmult_le_pos; [lra|apply Rabs_pos]|apply S; lra]).
      assert (X2 : 2 ^ 31 * eta64 * 2 = / 2 ^ 1043). { unfold eta64. replace (2 ^ 1075) with (2 ^ 1043 * 2 ^ 32) by (rewrite <- pow_add; reflexivity). replace (2 ^ 32) with (2 ^ 31 * 2) by (rewrite Rmult_comm; reflexivity). pose proof (pow_lt 2 1043 ltac:(lra)). pose proof (pow_lt 2 31 ltac:(lra)). field; repeat split; lra. }
      assert (X3 : / 2 ^ 1043 <= / 8 * / 2 ^ 1000). { rewrite <- Rinv_mult. apply Rinv_le_contravar; [apply Rmult_lt_0_compat; [lra|apply pow_lt; lra]|]. replace (8 * 2 ^ 1000) with (2 ^ 1003) by (change (2 ^ 1003) with (2 * (2 * (2 * 2 ^ 1000))); generalize (2 ^ 1000); intros; lra). apply pow_le_1; lia. }
      assert (X4 : eta64 <= / 8 * / 2 ^ 1000). { unfold eta64. rewrite <- Rinv_mult. apply Rinv_le_contravar; [apply Rmult_lt_0_compat; [lra|apply pow_lt; lra]|]. replace (8 * 2 ^ 1000) with (2 ^ 1003) by (change (2 ^ 1003) with (2 * (2 * (2 * 2 ^ 1000))); generalize (2 ^ 1000); intros; lra). apply pow_le_1; lia. }
      lra. }
  assert (T0 : 0 < / 2 ^ 1000) by (apply Rinv_0_lt_compat, pow_lt; lra).
  assert (SP : Rabs (b + dval p) <= M + (4 * u64 * M + / 4 * / 2 ^ 1000)). { replace (b + dval p) with ((b + x) + (dval p - x)) by ring. eapply Rle_trans; [apply Rabs_triang|]. lra. }
  replace (dval v - (b + x)) with ((dval v - (b + dval p)) + (dval p - x)) by ring. eapply Rle_trans; [apply Rabs_triang|].
  assert (L4 : Rabs (dval v - (b + dval p)) <= u64 * (M + (4 * u64 * M + / 4 * / 2 ^ 1000))) by (eapply Rle_trans; [exact E4|apply Rmult_le_compat_l; lra]). fold M.
  assert (Q1 : u64 * (4 * u64 * M) <= u64 * M). { apply Rmult_le_compat_l; [lra|]. assert (4 * u64 * M <= 1 * M) by (apply Rmult_le_compat_r; lra). lra. }
  assert (Q2 : u64 * (/ 4 * / 2 ^ 1000) <= / 4 * / 2 ^ 1000). { assert (u64 * (/ 4 * / 2 ^ 1000) <= 1 * (/ 4 * / 2 ^ 1000)) by (apply Rmult_le_compat_r; lra). lra. }
  rewrite !Rmult_plus_distr_l in L4. assert (0 <= u64 * M) by (apply Rmult_le_pos; lra). generalize dependent (/ 2 ^ 1000). intros. lra.
Qed.
(** ** halving is exact *)
Lemma format_half r : generic_format radix2 fexp64 r -> / 2 ^ 1021 <= Rabs r -> generic_format radix2 fexp64 (/ 2 * r).
Proof.
  intros G L. rewrite fexp64_FLT in *. apply FLT_format_generic in G; [|reflexivity]. destruct G as [[m e] Hr Hm He]. cbn [Fnum Fexp] in *. apply generic_format_FLT. exists (Float radix2 m (e - 1)); cbn [Fnum Fexp]; [|exact Hm|].
  - rewrite Hr. unfold F2R; cbn [Fnum Fexp]. unfold Z.sub. rewrite bpow_plus. change (bpow radix2 (- (1))) with (/ 2). ring.
  - destruct (Z.eq_dec e (-1074)) as [->|]; [exfalso|lia]. assert (Rabs r < / 2 ^ 1021); [|lra]. rewrite Hr. unfold F2R; cbn [Fnum Fexp]. rewrite Rabs_mult, (Rabs_pos_eq (bpow radix2 (-1074))) by apply bpow_ge_0. rewrite <- pow2n. change (- Z.of_nat 1021)%Z with (53 + -1074)%Z. rewrite bpow_plus. apply Rmult_lt_compat_r; [apply bpow_gt_0|]. rewrite <- abs_IZR. change (bpow radix2 53) with (IZR (2 ^ 53)). apply IZR_lt. exact Hm.
Qed.
Lemma dhalf_ok : finite dhalf /\ dval dhalf = / 2.
Proof. split; [reflexivity|]. unfold dval. replace (B2R dhalf) with (F2R (Float radix2 (2 ^ 52) (-53))) by reflexivity. unfold F2R; cbn. lra. Qed.
Lemma velocity_step_half lx mx : finite (dpressure_step lx mx) -> / 2 ^ 1021 <= Rabs (dval (dpressure_step lx mx)) ->
  finite (dvelocity_step lx mx) /\ dval (dvelocity_step lx mx) = dval (dpressure_step lx mx) / 2.
Proof.
  intros F L. unfold dvelocity_step. set (p := dpressure_step lx mx) in *. destruct dhalf_ok as [Fh Vh]. 
  assert (B : Rabs (/ 2 * dval p) <= 2 ^ 1023). { rewrite Rabs_mult, (Rabs_pos_eq (/ 2)) by lra. pose proof (abs_B2R_lt_emax 53 1024 p) as K. fold (dval p) in K. change 1024%Z with (Z.of_nat 1024) in K. rewrite pow2 in K. change (2 ^ 1024) with (2 * 2 ^ 1023) in K. lra. }
  destruct (dmult_ok dhalf p Fh F) as [F2 V2]; [rewrite Vh; exact B|]. split; [exact F2|]. rewrite V2, Vh. rewrite round_generic; [lra|apply valid_rnd_N|]. apply format_half; [apply dval_format|exact L].
Qed.
Close Scope R_scope.
