From Flocq Require Import Core BinarySingleNaN Plus_error Relative.
From Verif Require Import Base M_Geometry S_Geometry P_Geometry M_Particle S_Particle P_Particle.
From Verif Require Import M_Double S_Double P_Double P_Double2 P_Double3.
Open Scope R_scope.
(** ** one rounding: a relative error and the one of underflow *)
Definition eta64 : R := / 2 ^ 1075.
Lemma rnd_err x : exists e t, Rabs e <= u64 /\ Rabs t <= eta64 /\ rnd x = x * (1 + e) + t.
Proof.
  destruct (error_N_FLT radix2 (-1074) 53 eq_refl (fun x => negb (Z.even x)) x) as (e & t & He & Ht & _ & E). exists e, t. rewrite fexp64_FLT. split; [rewrite <- u64_bpow; exact He|]. split; [|exact E].
  eapply Rle_trans; [exact Ht|]. unfold eta64. change (-1074)%Z with (- Z.of_nat 1074)%Z. rewrite pow2n. change (2 ^ 1075) with (2 * 2 ^ 1074). rewrite Rinv_mult. lra.
Qed.
Lemma eta_pos : 0 < eta64.
Proof. apply Rinv_0_lt_compat, pow_lt; lra. Qed.
Lemma u64_small : u64 <= / 1000000.
Proof. unfold u64. apply Rinv_le_contravar; [lra|]. apply Rle_trans with (2 ^ 20); [lra|apply Rle_pow; [lra|lia]]. Qed.
Lemma rel_ex r x k : 0 <= k -> Rabs (r - x) <= k * Rabs x -> exists e, Rabs e <= k /\ r = x * (1 + e).
Proof.
  intros Hk H. destruct (Req_dec x 0) as [->|N].
  - rewrite Rabs_R0, Rmult_0_r in H. exists 0. rewrite Rabs_R0. split; [exact Hk|]. pose proof (Rabs_pos (r - 0)). assert (Rabs (r - 0) <= 0) by lra. apply Rabs_le_inv in H1. lra.
  - exists ((r - x) / x). split; [|field; exact N]. unfold Rdiv. rewrite Rabs_mult, Rabs_inv. apply Rmult_le_reg_r with (Rabs x); [apply Rabs_pos_lt, N|]. rewrite Rmult_assoc, Rinv_l by (apply Rabs_no_R0, N). lra.
Qed.
Lemma chain p e k : 0 <= k <= 10 -> Rabs p <= k * u64 -> Rabs e <= u64 -> Rabs ((1 + p) * (1 + e) - 1) <= (k + 1 + / 100) * u64.
Proof.
  intros Hk Hp He. pose proof u64_small as US. pose proof u64_pos as U. replace ((1 + p) * (1 + e) - 1) with (p + e + p * e) by ring. eapply Rle_trans; [apply Rabs_triang|]. eapply Rle_trans; [apply Rplus_le_compat_r, Rabs_triang|]. rewrite Rabs_mult. assert (Rabs p * Rabs e <= (k * u64) * u64) by (apply Rmult_le_compat; try apply Rabs_pos; assumption). nra.
Qed.
Lemma pow_le_1 n m : (n <= m)%nat -> 2 ^ n <= 2 ^ m.
Proof. intros. apply Rle_pow; [lra|assumption]. Qed.
Lemma weight_err c a b G A B : finite c -> finite a -> finite b -> 0 < G -> G <= 2 ^ 401 -> Rabs A <= 2 ^ 202 -> Rabs B <= 2 ^ 202 ->
  Rabs (dval c - G) <= 3 * u64 * Rabs G -> Rabs (dval a - A) <= u64 * Rabs A -> Rabs (dval b - B) <= u64 * Rabs B ->
  finite (dmult (dmult c a) b) /\ Rabs (dval (dmult (dmult c a) b) - G * A * B) <= 8 * u64 * Rabs (G * A * B) + / 2 ^ 800.
Proof.
  intros Fc Fa Fb G0 GB AB BB Ec Ea Eb. pose proof u64_small as US. pose proof u64_pos as U. pose proof eta_pos as EP.
  apply rel_ex in Ec as (e1 & H1 & Ec); [|lra]. apply rel_ex in Ea as (e2 & H2 & Ea); [|lra]. apply rel_ex in Eb as (e3 & H3 & Eb); [|lra].
  assert (S : forall e, Rabs e <= 3 * u64 -> Rabs (1 + e) <= 2). { intros e He. apply Rabs_le_inv in He. apply Rabs_le. lra. }
  assert (Cb : Rabs (dval c) <= 2 * 2 ^ 401). { rewrite Ec, Rabs_mult, (Rabs_pos_eq G), Rmult_comm by lra. apply Rmult_le_compat; try apply Rabs_pos; [lra|apply S; lra|exact GB]. }
  assert (Ab : Rabs (dval a) <= 2 * 2 ^ 202). { rewrite Ea, Rabs_mult, Rmult_comm. apply Rmult_le_compat; try apply Rabs_pos; [apply S; lra|exact AB]. }
  assert (Bb : Rabs (dval b) <= 2 * 2 ^ 202). { rewrite Eb, Rabs_mult, Rmult_comm. apply Rmult_le_compat; try apply Rabs_pos; [apply S; lra|exact BB]. }
  change (2 * 2 ^ 401) with (2 ^ 402) in Cb. change (2 * 2 ^ 202) with (2 ^ 203) in Ab, Bb.
  assert (CA : Rabs (dval c * dval a) <= 2 ^ 605). { rewrite Rabs_mult. apply Rle_trans with (2 ^ 402 * 2 ^ 203); [apply Rmult_le_compat; try apply Rabs_pos; assumption|rewrite <- pow_add; apply Rle_refl]. }
  destruct (dmult_ok c a Fc Fa) as [F1 V1]; [eapply Rle_trans; [exact CA|apply pow_le_1; lia]|].
  assert (T1 : Rabs (dval (dmult c a)) <= 2 ^ 605). { rewrite V1. apply rnd_bound; [apply format_pow; lia|exact CA]. }
  destruct (dmult_ok (dmult c a) b F1 Fb) as [F2 V2]. { rewrite Rabs_mult. apply Rle_trans with (2 ^ 605 * 2 ^ 203); [apply Rmult_le_compat; try apply Rabs_pos; assumption|rewrite <- pow_add; apply pow_le_1; lia]. }
  split; [exact F2|]. rewrite V2. destruct (rnd_err (dval (dmult c a) * dval b)) as (e5 & t5 & H5 & K5 & E5). rewrite E5, V1. destruct (rnd_err (dval c * dval a)) as (e4 & t4 & H4 & K4 & E4). rewrite E4.
  rewrite Ec, Ea.
  replace ((G * (1 + e1) * (A * (1 + e2)) * (1 + e4) + t4) * dval b * (1 + e5) + t5 - G * A * B) with (G * A * B * ((1 + ((1 + ((1 + ((1 + e1) * (1 + e2) - 1)) * (1 + e3) - 1)) * (1 + e4) - 1)) * (1 + e5) - 1) + (t4 * dval b * (1 + e5) + t5)) by (rewrite Eb; ring).
  eapply Rle_trans; [apply Rabs_triang|]. apply Rplus_le_compat.
  - rewrite Rabs_mult, Rmult_comm. apply Rmult_le_compat_r; [apply Rabs_pos|].
    pose proof (chain e1 e2 3 ltac:(lra) H1 H2) as C1. pose proof (chain _ e3 (3 + 1 + / 100) ltac:(lra) C1 H3) as C2. pose proof (chain _ e4 (3 + 1 + / 100 + 1 + / 100) ltac:(lra) C2 H4) as C3. pose proof (chain _ e5 (3 + 1 + / 100 + 1 + / 100 + 1 + / 100) ltac:(lra) C3 H5) as C4. lra.
  - eapply Rle_trans; [apply Rabs_triang|]. rewrite !Rabs_mult.
    assert (X : Rabs t4 * Rabs (dval b) * Rabs (1 + e5) <= eta64 * 2 ^ 203 * 2) by (repeat apply Rmult_le_compat; try apply Rabs_pos; try assumption; [apply Rmult_le_pos; apply Rabs_pos|apply S; lra]).
    assert (Y : eta64 * 2 ^ 203 * 2 = / 2 ^ 871). { unfold eta64. replace (2 ^ 1075) with (2 ^ 871 * 2 ^ 204) by (rewrite <- pow_add; reflexivity). replace (2 ^ 204) with (2 ^ 203 * 2) by (rewrite Rmult_comm; reflexivity). pose proof (pow_lt 2 871 ltac:(lra)). pose proof (pow_lt 2 203 ltac:(lra)). field; repeat split; lra. }
    assert (Z : / 2 ^ 871 <= / 2 * / 2 ^ 800). { rewrite <- Rinv_mult. apply Rinv_le_contravar; [apply Rmult_lt_0_compat; [lra|apply pow_lt; lra]|]. change (2 * 2 ^ 800) with (2 ^ 801). apply pow_le_1; lia. }
    assert (W : eta64 <= / 2 * / 2 ^ 800). { rewrite <- Rinv_mult. apply Rinv_le_contravar; [apply Rmult_lt_0_compat; [lra|apply pow_lt; lra]|]. change (2 * 2 ^ 800) with (2 ^ 801). apply pow_le_1; lia. }
    lra.
Qed.
(** the coefficient 1/(hx hy) *)
Definition mid200 (r : R) : Prop := / 2 ^ 200 <= r <= 2 ^ 200.
Lemma moderate_mid r : moderate r -> mid200 r.
Proof. intros [A B]. split; [eapply Rle_trans; [|exact A]; apply Rinv_le_contravar; [apply pow_lt; lra|apply pow_le_1; lia]|eapply Rle_trans; [exact B|apply pow_le_1; lia]]. Qed.
Lemma coeff_err hx hy : finite hx -> finite hy -> mid200 (dval hx) -> mid200 (dval hy) ->
  let c := ddiv (dint 1) (dmult hx hy) in let G := / (dval hx * dval hy) in
  finite c /\ 0 < G <= 2 ^ 401 /\ Rabs (dval c - G) <= 3 * u64 * Rabs G.
Proof.
  intros Fx Fy [X1 X2] [Y1 Y2] c G. pose proof u64_small as US. pose proof u64_pos as U.
  assert (P0 : 0 < / 2 ^ 200) by (apply Rinv_0_lt_compat, pow_lt; lra). set (P := dval hx * dval hy) in *.
  assert (PL : / 2 ^ 400 <= P). { replace (2 ^ 400) with (2 ^ 200 * 2 ^ 200) by (rewrite <- pow_add; reflexivity). rewrite Rinv_mult. apply Rmult_le_compat; lra. }
  assert (PU : P <= 2 ^ 400). { replace (2 ^ 400) with (2 ^ 200 * 2 ^ 200) by (rewrite <- pow_add; reflexivity). apply Rmult_le_compat; lra. }
  assert (Q0 : 0 < / 2 ^ 400) by (apply Rinv_0_lt_compat, pow_lt; lra). assert (PP : 0 < P) by lra.
  assert (GU : G <= 2 ^ 400). { unfold G. rewrite <- (Rinv_inv (2 ^ 400)). apply Rinv_le_contravar; lra. }
  assert (GL : / 2 ^ 400 <= G) by (apply Rinv_le_contravar; lra).
  destruct (dmult_ok hx hy Fx Fy) as [F1 V1]; [fold P; rewrite Rabs_pos_eq by lra; eapply Rle_trans; [exact PU|apply pow_le_1; lia]|]. fold P in V1.
  assert (LL : / 2 ^ 1022 <= / 2 ^ 400) by (apply Rinv_le_contravar; [apply pow_lt; lra|apply pow_le_1; lia]).
  pose proof (rnd_rel P ltac:(rewrite Rabs_pos_eq by lra; lra)) as E1. apply rel_ex in E1 as (e1 & H1 & E1); [|lra]. apply Rabs_le_inv in H1.
  assert (V1' : dval (dmult hx hy) = P * (1 + e1)) by (rewrite V1; exact E1). destruct (dint_ok 1) as [F0 V0]; [lia|].
  assert (NP : 0 < P * (1 + e1)) by (apply Rmult_lt_0_compat; lra).
  assert (QE : 1 / (P * (1 + e1)) = G * / (1 + e1)). { unfold G. field. split; lra. }
  assert (I1 : / (1 + e1) <= 2). { rewrite <- (Rinv_inv 2). apply Rinv_le_contravar; lra. } assert (I2 : / 2 <= / (1 + e1)) by (apply Rinv_le_contravar; lra).
  assert (G0 : 0 < G) by lra.
  destruct (ddiv_ok (dint 1) (dmult hx hy) F0) as [F2 V2]; [rewrite V1'; lra| |].
  { rewrite V0, V1', QE, Rabs_pos_eq by nra. apply Rle_trans with (2 ^ 400 * 2); [apply Rmult_le_compat; lra|]. rewrite Rmult_comm. change (2 * 2 ^ 400) with (2 ^ 401). apply pow_le_1; lia. }
  rewrite V0, V1', QE in V2. fold c in F2, V2. split; [exact F2|]. split; [split; [exact G0|eapply Rle_trans; [exact GU|apply pow_le_1; lia]]|]. rewrite V2.
  assert (NN : / 2 ^ 1022 <= Rabs (G * / (1 + e1))). { rewrite Rabs_pos_eq by nra. apply Rle_trans with (/ 2 ^ 400 * / 2); [|apply Rmult_le_compat; lra]. rewrite <- Rinv_mult. apply Rinv_le_contravar; [apply Rmult_lt_0_compat; [apply pow_lt; lra|lra]|]. rewrite Rmult_comm. change (2 * 2 ^ 400) with (2 ^ 401). apply pow_le_1; lia. }
  pose proof (rnd_rel _ NN) as E2. apply rel_ex in E2 as (e2 & H2 & E2); [|lra]. apply Rabs_le_inv in H2. rewrite E2.
  assert (ID : / (1 + e1) = 1 - e1 * / (1 + e1)) by (field; lra).
  replace (G * / (1 + e1) * (1 + e2) - G) with (G * (/ (1 + e1) * (e2 - e1))) by (field; lra).
  rewrite Rabs_mult, Rmult_comm. apply Rmult_le_compat_r; [apply Rabs_pos|].
  assert (I3 : / (1 + e1) <= 1.5). { rewrite <- (Rinv_inv 1.5). apply Rinv_le_contravar; lra. }
  rewrite Rabs_mult, (Rabs_pos_eq (/ (1 + e1))) by lra. apply Rle_trans with (1.5 * (2 * u64)); [|lra]. apply Rmult_le_compat; [lra|apply Rabs_pos|exact I3|apply Rabs_le; lra].
Qed.
Lemma diff_err x h : finite x -> finite h -> mid200 (dval h) -> Rabs (dval x) <= 2 * dval h ->
  finite (dminus x h) /\ Rabs (dval (dminus x h) - (dval x - dval h)) <= u64 * Rabs (dval x - dval h) /\
  finite (dminus h x) /\ Rabs (dval (dminus h x) - (dval h - dval x)) <= u64 * Rabs (dval h - dval x) /\ Rabs (dval x - dval h) <= 2 ^ 202 /\ Rabs (dval h - dval x) <= 2 ^ 202 /\ Rabs (dval x) <= 2 ^ 202.
Proof.
  intros Fx Fh [H1 H2] Hx. apply Rabs_le_inv in Hx. assert (E : 4 * 2 ^ 200 = 2 ^ 202) by (change (2 ^ 202) with (2 * (2 * 2 ^ 200)); generalize (2 ^ 200); intros; lra).
  assert (B1 : Rabs (dval x - dval h) <= 2 ^ 202) by (apply Rabs_le; lra). assert (B2 : Rabs (dval h - dval x) <= 2 ^ 202) by (apply Rabs_le; lra). assert (B3 : Rabs (dval x) <= 2 ^ 202) by (apply Rabs_le; lra).
  destruct (dminus_ok x h Fx Fh) as [F1 V1]; [eapply Rle_trans; [exact B1|apply pow_le_1; lia]|]. destruct (dminus_ok h x Fh Fx) as [F2 V2]; [eapply Rle_trans; [exact B2|apply pow_le_1; lia]|].
  rewrite V1, V2. split; [exact F1|]. split; [apply rnd_minus_rel; apply dval_format|]. split; [exact F2|]. split; [apply rnd_minus_rel; apply dval_format|]. split; [assumption|]. split; assumption.
Qed.

Lemma weights_err x y hx hy : finite x -> finite y -> finite hx -> finite hy -> mid200 (dval hx) -> mid200 (dval hy) -> Rabs (dval x) <= 2 * dval hx -> Rabs (dval y) <= 2 * dval hy ->
  Forall2 (fun w e => finite w /\ Rabs (dval w - e) <= 8 * u64 * Rabs e + / 2 ^ 800) (dP1_integration2 (x, y) (hx, hy)) (bilinear_weights (dval x / dval hx) (dval y / dval hy)).
Proof.
  intros Fx Fy Fhx Fhy Mx My Bx By. destruct (coeff_err hx hy Fhx Fhy Mx My) as (Fc & [G0 GB] & Ec).
  destruct (diff_err x hx Fx Fhx Mx Bx) as (F1 & E1 & F2 & E2 & B1 & B2 & B3). destruct (diff_err y hy Fy Fhy My By) as (F1' & E1' & F2' & E2' & B1' & B2' & B3').
  assert (P0 : 0 < / 2 ^ 200) by (apply Rinv_0_lt_compat, pow_lt; lra). destruct Mx as [Mx1 Mx2], My as [My1 My2].
  assert (S : forall z, Rabs (dval z - dval z) <= u64 * Rabs (dval z)). { intros z. rewrite Rminus_diag_eq, Rabs_R0 by reflexivity. apply Rmult_le_pos; [left; apply u64_pos|apply Rabs_pos]. }
  unfold dP1_integration2, bilinear_weights. cbn [fst snd]. set (c := ddiv (dint 1) (dmult hx hy)) in *.
  constructor; [|constructor; [|constructor; [|constructor; [|constructor]]]].
  - replace ((1 - dval x / dval hx) * (1 - dval y / dval hy)) with (/ (dval hx * dval hy) * (dval x - dval hx) * (dval y - dval hy)) by (field; lra). apply weight_err; assumption.
  - replace (dval x / dval hx * (1 - dval y / dval hy)) with (/ (dval hx * dval hy) * dval x * (dval hy - dval y)) by (field; lra). apply weight_err; try assumption; apply S.
  - replace ((1 - dval x / dval hx) * (dval y / dval hy)) with (/ (dval hx * dval hy) * (dval hx - dval x) * dval y) by (field; lra). apply weight_err; try assumption; apply S.
  - replace (dval x / dval hx * (dval y / dval hy)) with (/ (dval hx * dval hy) * dval x * dval y) by (field; lra). apply weight_err; try assumption; apply S.
Qed.
Lemma bilinear_sum s t : fold_right Rplus 0 (bilinear_weights s t) = 1.
Proof. unfold bilinear_weights; simpl; ring. Qed.
Lemma tiny800 : / 2 ^ 800 <= u64 / 100.
Proof. unfold u64, Rdiv. rewrite <- Rinv_mult. apply Rinv_le_contravar; [apply Rmult_lt_0_compat; [apply pow_lt; lra|lra]|]. apply Rle_trans with (2 ^ 53 * 2 ^ 7); [apply Rmult_le_compat_l; [apply pow_le; lra|lra]|]. rewrite <- pow_add. apply pow_le_1. lia. Qed.
Lemma weights_sum x y hx hy eps : finite x -> finite y -> finite hx -> finite hy -> mid200 (dval hx) -> mid200 (dval hy) -> 0 <= eps <= / 1000 ->
  - eps * dval hx <= dval x <= (1 + eps) * dval hx -> - eps * dval hy <= dval y <= (1 + eps) * dval hy ->
  Rabs (fold_right Rplus 0 (map dval (dP1_integration2 (x, y) (hx, hy))) - 1) <= 9 * u64.
Proof.
  intros Fx Fy Fhx Fhy Mx My He Bx By. assert (P0 : 0 < / 2 ^ 200) by (apply Rinv_0_lt_compat, pow_lt; lra). pose proof Mx as [Mx1 Mx2]; pose proof My as [My1 My2].
  pose proof (weights_err x y hx hy Fx Fy Fhx Fhy Mx My ltac:(apply Rabs_le; nra) ltac:(apply Rabs_le; nra)) as W. pose proof (bilinear_sum (dval x / dval hx) (dval y / dval hy)) as BS. pose proof u64_pos as U. pose proof tiny800 as T8.
  assert (RB : forall z h, 0 < h -> - eps * h <= z <= (1 + eps) * h -> - eps <= z / h <= 1 + eps). { intros z h Hh [Z1 Z2]. split; apply Rmult_le_reg_r with h; try exact Hh; unfold Rdiv; rewrite Rmult_assoc, Rinv_l by lra; lra. }
  pose proof (RB _ (dval hx) ltac:(lra) Bx) as S1. pose proof (RB _ (dval hy) ltac:(lra) By) as S2.
  assert (AS : fold_right Rplus 0 (map Rabs (bilinear_weights (dval x / dval hx) (dval y / dval hy))) <= 1 + / 100).
  { clear W BS. unfold bilinear_weights. cbn [map fold_right]. rewrite !Rabs_mult. set (s := dval x / dval hx) in *. set (t := dval y / dval hy) in *.
    assert (As : Rabs (1 - s) + Rabs s <= 1 + 2 * eps) by (unfold Rabs; repeat destruct Rcase_abs; lra). assert (At : Rabs (1 - t) + Rabs t <= 1 + 2 * eps) by (unfold Rabs; repeat destruct Rcase_abs; lra).
    replace (Rabs (1 - s) * Rabs (1 - t) + (Rabs s * Rabs (1 - t) + (Rabs (1 - s) * Rabs t + (Rabs s * Rabs t + 0)))) with ((Rabs (1 - s) + Rabs s) * (Rabs (1 - t) + Rabs t)) by ring.
    apply Rle_trans with ((1 + 2 * eps) * (1 + 2 * eps)); [|nra]. pose proof (Rabs_pos (1 - s)). pose proof (Rabs_pos s). pose proof (Rabs_pos (1 - t)). pose proof (Rabs_pos t). apply Rmult_le_compat; lra. }
  rewrite <- BS. remember (dP1_integration2 (x, y) (hx, hy)) as ws. remember (bilinear_weights (dval x / dval hx) (dval y / dval hy)) as es.
  assert (L : length es = 4%nat) by (subst es; reflexivity).
  assert (Rabs (fold_right Rplus 0 (map dval ws) - fold_right Rplus 0 es) <= 8 * u64 * fold_right Rplus 0 (map Rabs es) + INR (length es) * / 2 ^ 800).
  { clear -W. induction W as [|w e ws es [_ Hw] _ IH].
    - simpl. rewrite Rminus_0_r, Rabs_R0. lra.
    - cbn [map fold_right length]. rewrite S_INR. replace (dval w + fold_right Rplus 0 (map dval ws) - (e + fold_right Rplus 0 es)) with ((dval w - e) + (fold_right Rplus 0 (map dval ws) - fold_right Rplus 0 es)) by ring. eapply Rle_trans; [apply Rabs_triang|]. lra. }
  rewrite L in H. eapply Rle_trans; [exact H|]. simpl INR. assert (8 * u64 * fold_right Rplus 0 (map Rabs es) <= 8 * u64 * (1 + / 100)) by (apply Rmult_le_compat_l; lra). lra.
Qed.
Close Scope R_scope.
