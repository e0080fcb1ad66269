From Flocq Require Import Core BinarySingleNaN Plus_error Relative.
From Verif Require Import Base M_Geometry S_Geometry P_Geometry M_Particle S_Particle P_Particle M_Double S_Double P_Double P_Double2 P_Double3 P_Double4.
Open Scope R_scope.
(** ** weights in three dimensions *)
Lemma coeff_err3 hx hy hz : finite hx -> finite hy -> finite hz -> moderate (dval hx) -> moderate (dval hy) -> moderate (dval hz) ->
  let c := ddiv (dint 1) (dmult (dmult hx hy) hz) in let G := / (dval hx * dval hy * dval hz) in
  finite c /\ 0 < G <= 2 ^ 300 /\ Rabs (dval c - G) <= 4 * u64 * Rabs G.
Proof.
  intros Fx Fy Fz [X1 X2] [Y1 Y2] [Z1 Z2] c G. pose proof u64_small as US. pose proof u64_pos as U.
  assert (P0 : 0 < / 2 ^ 100) by (apply Rinv_0_lt_compat, pow_lt; lra). set (P := dval hx * dval hy) in *. set (Q := P * dval hz) in *.
  assert (PL : / 2 ^ 200 <= P). { replace (2 ^ 200) with (2 ^ 100 * 2 ^ 100) by (rewrite <- pow_add; reflexivity). rewrite Rinv_mult. apply Rmult_le_compat; lra. }
  assert (PU : P <= 2 ^ 200). { replace (2 ^ 200) with (2 ^ 100 * 2 ^ 100) by (rewrite <- pow_add; reflexivity). apply Rmult_le_compat; lra. }
  assert (P2 : 0 < / 2 ^ 200) by (apply Rinv_0_lt_compat, pow_lt; lra).
  assert (QL : / 2 ^ 300 <= Q). { replace (2 ^ 300) with (2 ^ 200 * 2 ^ 100) by (rewrite <- pow_add; reflexivity). rewrite Rinv_mult. apply Rmult_le_compat; lra. }
  assert (QU : Q <= 2 ^ 300). { replace (2 ^ 300) with (2 ^ 200 * 2 ^ 100) by (rewrite <- pow_add; reflexivity). apply Rmult_le_compat; lra. }
  assert (Q0 : 0 < / 2 ^ 300) by (apply Rinv_0_lt_compat, pow_lt; lra). assert (PP : 0 < P) by lra. assert (QP : 0 < Q) by lra.
  assert (GU : G <= 2 ^ 300). { unfold G. rewrite <- (Rinv_inv (2 ^ 300)). apply Rinv_le_contravar; lra. }
  assert (GL : / 2 ^ 300 <= G) by (apply Rinv_le_contravar; lra).
  assert (LL : / 2 ^ 1022 <= / 2 ^ 303) by (apply Rinv_le_contravar; [apply pow_lt; lra|apply pow_le_1; lia]).
  assert (L3 : / 2 ^ 303 = / 8 * / 2 ^ 300). { rewrite <- Rinv_mult. f_equal. change (2 ^ 303) with (2 * (2 * (2 * 2 ^ 300))). generalize (2 ^ 300); intros; lra. }
  assert (L2 : / 2 ^ 300 <= / 2 ^ 200) by (apply Rinv_le_contravar; [apply pow_lt; lra|apply pow_le_1; lia]).
  destruct (dmult_ok hx hy Fx Fy) as [F1 V1]; [fold P; rewrite Rabs_pos_eq by lra; eapply Rle_trans; [exact PU|apply pow_le_1; lia]|]. fold P in V1.
  pose proof (rnd_rel P ltac:(rewrite Rabs_pos_eq by lra; lra)) as E1. apply rel_ex in E1 as (e1 & H1 & E1); [|lra]. apply Rabs_le_inv in H1.
  assert (V1' : dval (dmult hx hy) = P * (1 + e1)) by (rewrite V1; exact E1).
  assert (B2 : / 2 * Q <= dval (dmult hx hy) * dval hz <= 2 * Q). { rewrite V1'. unfold Q. assert (0 <= P * dval hz) by (apply Rmult_le_pos; lra). replace (P * (1 + e1) * dval hz) with ((1 + e1) * (P * dval hz)) by ring. split; apply Rmult_le_compat_r; lra. }
  assert (BB : 2 * 2 ^ 300 <= 2 ^ 1023) by (change (2 * 2 ^ 300) with (2 ^ 301); apply pow_le_1; lia).
  destruct (dmult_ok (dmult hx hy) hz F1 Fz) as [F3 V3]; [rewrite Rabs_pos_eq by lra; lra|].
  pose proof (rnd_rel (dval (dmult hx hy) * dval hz) ltac:(rewrite Rabs_pos_eq by lra; lra)) as E3. apply rel_ex in E3 as (e3 & H3 & E3); [|lra]. apply Rabs_le_inv in H3.
  set (d := (1 + e1) * (1 + e3)). assert (V3' : dval (dmult (dmult hx hy) hz) = Q * d) by (rewrite V3, E3, V1'; unfold Q, d; ring).
  assert (D1 : Rabs (d - 1) <= (1 + 1 + / 100) * u64) by (apply (chain e1 e3 1); [lra|apply Rabs_le; lra|apply Rabs_le; lra]). apply Rabs_le_inv in D1.
  destruct (dint_ok 1) as [F0 V0]; [lia|]. assert (NQ : 0 < Q * d) by (apply Rmult_lt_0_compat; lra).
  assert (QE : 1 / (Q * d) = G * / d). { unfold G. fold P Q. field. split; lra. }
  assert (I1 : / d <= 2). { rewrite <- (Rinv_inv 2). apply Rinv_le_contravar; lra. } assert (I2 : / 2 <= / d) by (apply Rinv_le_contravar; lra).
  assert (I3 : / d <= 1.01). { rewrite <- (Rinv_inv 1.01). apply Rinv_le_contravar; lra. }
  assert (G0 : 0 < G) by lra.
  destruct (ddiv_ok (dint 1) (dmult (dmult hx hy) hz) F0) as [F2 V2]; [rewrite V3'; lra| |].
  { rewrite V0, V3', QE, Rabs_pos_eq by nra. apply Rle_trans with (2 ^ 300 * 2); [apply Rmult_le_compat; lra|lra]. }
  rewrite V0, V3', QE in V2. fold c in F2, V2. split; [exact F2|]. split; [split; [exact G0|exact GU]|]. rewrite V2.
  assert (NN : / 2 ^ 1022 <= Rabs (G * / d)). { rewrite Rabs_pos_eq by nra. apply Rle_trans with (/ 2 ^ 300 * / 2); [lra|apply Rmult_le_compat; lra]. }
  pose proof (rnd_rel _ NN) as E2. apply rel_ex in E2 as (e2 & H2 & E2); [|lra]. apply Rabs_le_inv in H2. rewrite E2.
  replace (G * / d * (1 + e2) - G) with (G * (/ d * (e2 - (d - 1)))) by (field; lra).
  rewrite Rabs_mult, Rmult_comm. apply Rmult_le_compat_r; [apply Rabs_pos|].
  rewrite Rabs_mult, (Rabs_pos_eq (/ d)) by lra. apply Rle_trans with (1.01 * (3.01 * u64)); [|lra]. apply Rmult_le_compat; [lra|apply Rabs_pos|exact I3|apply Rabs_le; lra].
Qed.
Lemma weight_err3 c a b d G A B E : finite c -> finite a -> finite b -> finite d -> 0 < G -> G <= 2 ^ 300 -> Rabs A <= 2 ^ 102 -> Rabs B <= 2 ^ 102 -> Rabs E <= 2 ^ 102 ->
  Rabs (dval c - G) <= 4 * u64 * Rabs G -> Rabs (dval a - A) <= u64 * Rabs A -> Rabs (dval b - B) <= u64 * Rabs B -> Rabs (dval d - E) <= u64 * Rabs E ->
  finite (dmult (dmult (dmult c a) b) d) /\ Rabs (dval (dmult (dmult (dmult c a) b) d) - G * A * B * E) <= 11 * u64 * Rabs (G * A * B * E) + / 2 ^ 800.
Proof.
  intros Fc Fa Fb Fd G0 GB AB BB EB Ec Ea Eb Ed. pose proof u64_small as US. pose proof u64_pos as U. pose proof eta_pos as EP.
  apply rel_ex in Ec as (e1 & H1 & Ec); [|lra]. apply rel_ex in Ea as (e2 & H2 & Ea); [|lra]. apply rel_ex in Eb as (e3 & H3 & Eb); [|lra]. apply rel_ex in Ed as (e4 & H4 & Ed); [|lra].
  assert (S : forall e, Rabs e <= 4 * u64 -> Rabs (1 + e) <= 2). { intros e He. apply Rabs_le_inv in He. apply Rabs_le. lra. }
  assert (Cb : Rabs (dval c) <= 2 ^ 301). { change (2 ^ 301) with (2 * 2 ^ 300). rewrite Ec, Rabs_mult, (Rabs_pos_eq G), Rmult_comm by lra. apply Rmult_le_compat; try apply Rabs_pos; [lra|apply S; lra|exact GB]. }
  assert (KB : forall r x e, r = x * (1 + e) -> Rabs x <= 2 ^ 102 -> Rabs e <= u64 -> Rabs r <= 2 ^ 103). { intros r x e -> Hx He. change (2 ^ 103) with (2 * 2 ^ 102). rewrite Rabs_mult, Rmult_comm. apply Rmult_le_compat; try apply Rabs_pos; [apply S; lra|exact Hx]. }
  pose proof (KB _ _ _ Ea AB H2) as Ab. pose proof (KB _ _ _ Eb BB H3) as Bb. pose proof (KB _ _ _ Ed EB H4) as Db.
  assert (MB : forall x y n, Rabs x <= 2 ^ n -> Rabs y <= 2 ^ 103 -> Rabs (x * y) <= 2 ^ (n + 103)). { intros x y n Hx Hy. rewrite Rabs_mult, pow_add. apply Rmult_le_compat; try apply Rabs_pos; assumption. }
  pose proof (MB _ _ _ Cb Ab) as B1. destruct (dmult_ok c a Fc Fa) as [F1 V1]; [eapply Rle_trans; [exact B1|apply pow_le_1; lia]|].
  assert (T1 : Rabs (dval (dmult c a)) <= 2 ^ (301 + 103)) by (rewrite V1; apply rnd_bound; [apply format_pow; lia|exact B1]).
  pose proof (MB _ _ _ T1 Bb) as B2. destruct (dmult_ok (dmult c a) b F1 Fb) as [F2 V2]; [eapply Rle_trans; [exact B2|apply pow_le_1; lia]|].
  assert (T2 : Rabs (dval (dmult (dmult c a) b)) <= 2 ^ (301 + 103 + 103)) by (rewrite V2; apply rnd_bound; [apply format_pow; lia|exact B2]).
  pose proof (MB _ _ _ T2 Db) as B3. destruct (dmult_ok (dmult (dmult c a) b) d F2 Fd) as [F3 V3]; [eapply Rle_trans; [exact B3|apply pow_le_1; lia]|].
  split; [exact F3|]. rewrite V3. destruct (rnd_err (dval (dmult (dmult c a) b) * dval d)) as (e7 & t7 & H7 & K7 & E7). rewrite E7, V2. destruct (rnd_err (dval (dmult c a) * dval b)) as (e6 & t6 & H6 & K6 & E6). rewrite E6, V1. destruct (rnd_err (dval c * dval a)) as (e5 & t5 & H5 & K5 & E5). rewrite E5.
  rewrite Ec, Ea.
  replace ((((G * (1 + e1) * (A * (1 + e2)) * (1 + e5) + t5) * dval b * (1 + e6) + t6) * dval d * (1 + e7) + t7) - G * A * B * E) with
    (G * A * B * E * ((1 + ((1 + ((1 + ((1 + ((1 + ((1 + e1) * (1 + e2) - 1)) * (1 + e3) - 1)) * (1 + e4) - 1)) * (1 + e5) - 1)) * (1 + e6) - 1)) * (1 + e7) - 1) + (t5 * dval b * (1 + e6) * dval d * (1 + e7) + t6 * dval d * (1 + e7) + t7)) by (rewrite Eb, Ed; ring).
  eapply Rle_trans; [apply Rabs_triang|]. apply Rplus_le_compat.
  - rewrite Rabs_mult, Rmult_comm. apply Rmult_le_compat_r; [apply Rabs_pos|].
    pose proof (chain e1 e2 4 ltac:(lra) H1 H2) as C1. pose proof (chain _ e3 (4 + 1 + / 100) ltac:(lra) C1 H3) as C2. pose proof (chain _ e4 (4 + 1 + / 100 + 1 + / 100) ltac:(lra) C2 H4) as C3.
    pose proof (chain _ e5 (4 + 1 + / 100 + 1 + / 100 + 1 + / 100) ltac:(lra) C3 H5) as C4. pose proof (chain _ e6 (4 + 1 + / 100 + 1 + / 100 + 1 + / 100 + 1 + / 100) ltac:(lra) C4 H6) as C5. pose proof (chain _ e7 (4 + 1 + / 100 + 1 + / 100 + 1 + / 100 + 1 + / 100 + 1 + / 100) ltac:(lra) C5 H7) as C6. lra.
  - eapply Rle_trans; [apply Rabs_triang|]. eapply Rle_trans; [apply Rplus_le_compat_r, Rabs_triang|]. rewrite !Rabs_mult.
    assert (S6 : Rabs (1 + e6) <= 2) by (apply S; lra). assert (S7 : Rabs (1 + e7) <= 2) by (apply S; lra).
    assert (X1 : Rabs t5 * Rabs (dval b) * Rabs (1 + e6) * Rabs (dval d) * Rabs (1 + e7) <= eta64 * 2 ^ 103 * 2 * 2 ^ 103 * 2) by (repeat apply Rmult_le_compat; try apply Rabs_pos; try assumption; repeat apply Rmult_le_pos; apply Rabs_pos).
    assert (X2 : Rabs t6 * Rabs (dval d) * Rabs (1 + e7) <= eta64 * 2 ^ 103 * 2) by (repeat apply Rmult_le_compat; try apply Rabs_pos; try assumption; repeat apply Rmult_le_pos; apply Rabs_pos).
    assert (Y1 : eta64 * 2 ^ 103 * 2 * 2 ^ 103 * 2 = eta64 * 2 ^ 208). { replace (2 ^ 208) with (2 ^ 103 * 2 * 2 ^ 103 * 2); [ring|]. replace (2 ^ 103 * 2) with (2 ^ 104) by (rewrite Rmult_comm; reflexivity). rewrite Rmult_assoc. replace (2 ^ 103 * 2) with (2 ^ 104) by (rewrite Rmult_comm; reflexivity). rewrite <- pow_add. reflexivity. }
    assert (Y2 : eta64 * 2 ^ 103 * 2 <= eta64 * 2 ^ 208). { rewrite Rmult_assoc. apply Rmult_le_compat_l; [lra|]. rewrite Rmult_comm. change (2 * 2 ^ 103) with (2 ^ 104). apply pow_le_1; lia. }
    assert (Y3 : eta64 <= eta64 * 2 ^ 208). { rewrite <- (Rmult_1_r eta64) at 1. apply Rmult_le_compat_l; [lra|]. apply pow_R1_Rle. lra. }
    assert (Z1 : eta64 * 2 ^ 208 = / 2 ^ 867). { unfold eta64. replace (2 ^ 1075) with (2 ^ 867 * 2 ^ 208) by (rewrite <- pow_add; reflexivity). rewrite Rinv_mult, Rmult_assoc, Rinv_l by (apply pow_nonzero; lra). ring. }
    assert (Z2 : / 2 ^ 867 <= / 4 * / 2 ^ 800). { rewrite <- Rinv_mult. apply Rinv_le_contravar; [apply Rmult_lt_0_compat; [lra|apply pow_lt; lra]|]. replace (4 * 2 ^ 800) with (2 ^ 802) by (change (2 ^ 802) with (2 * (2 * 2 ^ 800)); generalize (2 ^ 800); intros; lra). apply pow_le_1; lia. }
    assert (0 < / 2 ^ 800) by (apply Rinv_0_lt_compat, pow_lt; lra). lra.
Qed.
Lemma diff_err3 x h : finite x -> finite h -> moderate (dval h) -> Rabs (dval x) <= 2 * dval h ->
  finite (dminus h x) /\ Rabs (dval (dminus h x) - (dval h - dval x)) <= u64 * Rabs (dval h - dval x) /\ Rabs (dval h - dval x) <= 2 ^ 102 /\ Rabs (dval x) <= 2 ^ 102.
Proof.
  intros Fx Fh [H1 H2] Hx. apply Rabs_le_inv in Hx. assert (E : 4 * 2 ^ 100 = 2 ^ 102) by (change (2 ^ 102) with (2 * (2 * 2 ^ 100)); generalize (2 ^ 100); intros; lra).
  assert (B2 : Rabs (dval h - dval x) <= 2 ^ 102) by (apply Rabs_le; lra). assert (B3 : Rabs (dval x) <= 2 ^ 102) by (apply Rabs_le; lra).
  destruct (dminus_ok h x Fh Fx) as [F2 V2]; [eapply Rle_trans; [exact B2|apply pow_le_1; lia]|].
  rewrite V2. split; [exact F2|]. split; [apply rnd_minus_rel; apply dval_format|]. split; assumption.
Qed.
Lemma weights_err3 x y z hx hy hz : finite x -> finite y -> finite z -> finite hx -> finite hy -> finite hz -> moderate (dval hx) -> moderate (dval hy) -> moderate (dval hz) ->
  Rabs (dval x) <= 2 * dval hx -> Rabs (dval y) <= 2 * dval hy -> Rabs (dval z) <= 2 * dval hz ->
  Forall2 (fun w e => finite w /\ Rabs (dval w - e) <= 11 * u64 * Rabs e + / 2 ^ 800) (dP1_integration3 (x, y, z) (hx, hy, hz)) (trilinear_weights (dval x / dval hx) (dval y / dval hy) (dval z / dval hz)).
Proof.
  intros Fx Fy Fz Fhx Fhy Fhz Mx My Mz Bx By Bz. destruct (coeff_err3 hx hy hz Fhx Fhy Fhz Mx My Mz) as (Fc & [G0 GB] & Ec).
  destruct (diff_err3 x hx Fx Fhx Mx Bx) as (F1 & E1 & B1 & B1'). destruct (diff_err3 y hy Fy Fhy My By) as (F2 & E2 & B2 & B2'). destruct (diff_err3 z hz Fz Fhz Mz Bz) as (F3 & E3 & B3 & B3').
  assert (P0 : 0 < / 2 ^ 100) by (apply Rinv_0_lt_compat, pow_lt; lra). destruct Mx as [Mx1 Mx2], My as [My1 My2], Mz as [Mz1 Mz2].
  assert (S : forall z, Rabs (dval z - dval z) <= u64 * Rabs (dval z)). { intros w. rewrite Rminus_diag_eq, Rabs_R0 by reflexivity. apply Rmult_le_pos; [left; apply u64_pos|apply Rabs_pos]. }
  unfold dP1_integration3, trilinear_weights, bilinear_weights. cbn [map app]. set (c := ddiv (dint 1) (dmult (dmult hx hy) hz)) in *. set (G := / (dval hx * dval hy * dval hz)) in *.
  assert (R1 : 1 - dval x / dval hx = (dval hx - dval x) / dval hx) by (field; lra). assert (R2 : 1 - dval y / dval hy = (dval hy - dval y) / dval hy) by (field; lra). assert (R3 : 1 - dval z / dval hz = (dval hz - dval z) / dval hz) by (field; lra). rewrite R1, R2, R3.
  assert (K : forall A B E, A / dval hx * (B / dval hy) * (E / dval hz) = G * A * B * E) by (intros; unfold G; field; lra).
  rewrite !K. repeat (constructor; [apply weight_err3; first [assumption|apply S]|]). constructor.
Qed.
Lemma weights_sum3 x y z hx hy hz eps : finite x -> finite y -> finite z -> finite hx -> finite hy -> finite hz -> moderate (dval hx) -> moderate (dval hy) -> moderate (dval hz) -> 0 <= eps <= / 1000 ->
  - eps * dval hx <= dval x <= (1 + eps) * dval hx -> - eps * dval hy <= dval y <= (1 + eps) * dval hy -> - eps * dval hz <= dval z <= (1 + eps) * dval hz ->
  Rabs (fold_right Rplus 0 (map dval (dP1_integration3 (x, y, z) (hx, hy, hz))) - 1) <= 12 * u64.
Proof.
  intros Fx Fy Fz Fhx Fhy Fhz Mx My Mz He Bx By Bz. assert (P0 : 0 < / 2 ^ 100) by (apply Rinv_0_lt_compat, pow_lt; lra). pose proof Mx as [Mx1 Mx2]; pose proof My as [My1 My2]; pose proof Mz as [Mz1 Mz2].
  pose proof (weights_err3 x y z hx hy hz Fx Fy Fz Fhx Fhy Fhz Mx My Mz ltac:(apply Rabs_le; nra) ltac:(apply Rabs_le; nra) ltac:(apply Rabs_le; nra)) as W. pose proof u64_pos as U. pose proof tiny800 as T8.
  assert (RB : forall z h, 0 < h -> - eps * h <= z <= (1 + eps) * h -> - eps <= z / h <= 1 + eps). { intros w h Hh [Z1 Z2]. split; apply Rmult_le_reg_r with h; try exact Hh; unfold Rdiv; rewrite Rmult_assoc, Rinv_l by lra; lra. }
  pose proof (RB _ (dval hx) ltac:(lra) Bx) as S1. pose proof (RB _ (dval hy) ltac:(lra) By) as S2. pose proof (RB _ (dval hz) ltac:(lra) Bz) as S3.
  set (r := dval x / dval hx) in *. set (s := dval y / dval hy) in *. set (t := dval z / dval hz) in *.
  assert (BS : fold_right Rplus 0 (trilinear_weights r s t) = 1) by (unfold trilinear_weights, bilinear_weights; simpl; ring).
  assert (AS : fold_right Rplus 0 (map Rabs (trilinear_weights r s t)) <= 1 + / 100).
  { clear W BS. unfold trilinear_weights, bilinear_weights. cbn [map app fold_right]. rewrite !Rabs_mult.
    assert (Ar : Rabs (1 - r) + Rabs r <= 1 + 2 * eps) by (unfold Rabs; repeat destruct Rcase_abs; lra). assert (As : Rabs (1 - s) + Rabs s <= 1 + 2 * eps) by (unfold Rabs; repeat destruct Rcase_abs; lra). assert (At : Rabs (1 - t) + Rabs t <= 1 + 2 * eps) by (unfold Rabs; repeat destruct Rcase_abs; lra).
    match goal with |- ?L <= _ => replace L with ((Rabs (1 - r) + Rabs r) * (Rabs (1 - s) + Rabs s) * (Rabs (1 - t) + Rabs t)) by ring end.
    pose proof (Rabs_pos (1 - r)). pose proof (Rabs_pos r). pose proof (Rabs_pos (1 - s)). pose proof (Rabs_pos s). pose proof (Rabs_pos (1 - t)). pose proof (Rabs_pos t).
    apply Rle_trans with ((1 + 2 * eps) * (1 + 2 * eps) * (1 + 2 * eps)); [apply Rmult_le_compat; [apply Rmult_le_pos; lra|lra|apply Rmult_le_compat; lra|lra]|].
    apply Rle_trans with (1.002 * 1.002 * 1.002); [|lra]. apply Rmult_le_compat; [apply Rmult_le_pos; lra|lra|apply Rmult_le_compat; lra|lra]. }
  rewrite <- BS. remember (dP1_integration3 (x, y, z) (hx, hy, hz)) as ws. remember (trilinear_weights r s t) as es.
  assert (L : length es = 8%nat) by (subst es; reflexivity).
  assert (Rabs (fold_right Rplus 0 (map dval ws) - fold_right Rplus 0 es) <= 11 * u64 * fold_right Rplus 0 (map Rabs es) + INR (length es) * / 2 ^ 800).
  { clear -W. induction W as [|w e ws es [_ Hw] _ IH].
    - simpl. rewrite Rminus_0_r, Rabs_R0. lra.
    - cbn [map fold_right length]. rewrite S_INR. replace (dval w + fold_right Rplus 0 (map dval ws) - (e + fold_right Rplus 0 es)) with ((dval w - e) + (fold_right Rplus 0 (map dval ws) - fold_right Rplus 0 es)) by ring. eapply Rle_trans; [apply Rabs_triang|]. lra. }
  rewrite L in H. eapply Rle_trans; [exact H|]. simpl INR. assert (11 * u64 * fold_right Rplus 0 (map Rabs es) <= 11 * u64 * (1 + / 100)) by (apply Rmult_le_compat_l; lra). lra.
Qed.
Close Scope R_scope.
