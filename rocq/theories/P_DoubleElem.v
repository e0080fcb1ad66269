(** Rounding errors of the element matrices. *)
From Coq Require Import QArith Qreals.
From Flocq Require Import Core BinarySingleNaN.
From Verif Require Import Base M_Geometry S_Geometry P_Geometry M_Particle S_Particle M_Quadrature M_MatElem M_Mesh M_Operator.
From Verif Require Import M_Double S_Double P_Double P_Double2 P_Double3 P_Double4.
From Verif Require Import M_DoubleOp S_DoubleOp P_DoubleOp.
Open Scope R_scope.
(** f is finite and stands for r up to c relative errors; r is zero or of a moderate size *)
Definition relr (c L : nat) (f : double) (r : R) : Prop :=
  finite f /\ Rabs (dval f - r) <= ((1 + u64) ^ c - 1) * Rabs r /\ (r = 0 \/ / 2 ^ L <= Rabs r <= 2 ^ L).
Lemma u_small_pow c : (c <= 20)%nat -> (1 + u64) ^ c <= 5 / 4.
Proof.
  intros H. assert (K : INR c <= 20) by (apply Rle_trans with (INR 20); [apply le_INR, H|rewrite INR_IZR_INZ; simpl; lra]).
  pose proof u64_pos. assert (U : u64 * 1024 <= 1). { unfold u64. apply Rmult_le_reg_r with (2 ^ 53); [apply pow_lt; lra|]. replace (/ 2 ^ 53 * 1024 * 2 ^ 53) with 1024 by (field; apply pow_nonzero; lra). rewrite Rmult_1_l. apply Rle_trans with (2 ^ 10); [simpl; lra|apply pow_le_1; lia]. }
  pose proof (pos_INR c). eapply Rle_trans; [apply pow_u64; nra|]. nra.
Qed.
Lemma relr_bounds c L f r : (c <= 20)%nat -> relr c L f r -> r <> 0 -> Rabs r / 2 <= Rabs (dval f) <= 2 * Rabs r.
Proof.
  intros Hc (_ & E & _) Hr. pose proof (u_small_pow c Hc) as W. pose proof (Rabs_pos r).
  assert (E2 : Rabs (dval f - r) <= Rabs r / 2) by nra. pose proof (Rabs_triang_inv r (r - dval f)) as T1. replace (r - (r - dval f)) with (dval f) in T1 by ring. rewrite (Rabs_minus_sym r (dval f)) in T1. split; [lra|].
  replace (dval f) with (dval f - r + r) by ring. eapply Rle_trans; [apply Rabs_triang|]. lra.
Qed.
Lemma relr_zero c L f : relr c L f 0 -> dval f = 0.
Proof. intros (_ & E & _). rewrite Rabs_R0, Rmult_0_r, Rminus_0_r in E. apply abs0, E. Qed.
Lemma inv_pow_le a b : (a <= b)%nat -> / 2 ^ b <= / 2 ^ a.
Proof. intros. apply Rinv_le_contravar; [apply pow_lt; lra|apply pow_le_1; lia]. Qed.
Lemma err_comb x y e w1 w2 : Rabs (x) <= w1 - 1 -> Rabs y <= w2 - 1 -> Rabs e <= u64 -> Rabs ((1 + x) * (1 + y) * (1 + e) - 1) <= w1 * w2 * (1 + u64) - 1.
Proof.
  intros H1 H2 H3. pose proof (Rabs_pos x). pose proof (Rabs_pos y). pose proof (Rabs_pos e).
  replace ((1 + x) * (1 + y) * (1 + e) - 1) with (x + y * (1 + x) + e * ((1 + x) * (1 + y))) by ring.
  assert (A1 : Rabs (1 + x) <= w1) by (eapply Rle_trans; [apply Rabs_triang|rewrite Rabs_R1; lra]).
  assert (A2 : Rabs (1 + y) <= w2) by (eapply Rle_trans; [apply Rabs_triang|rewrite Rabs_R1; lra]).
  eapply Rle_trans; [apply Rabs_triang|]. eapply Rle_trans; [apply Rplus_le_compat_r, Rabs_triang|]. rewrite !Rabs_mult. pose proof (Rabs_pos (1 + x)). pose proof (Rabs_pos (1 + y)).
  apply Rle_trans with ((w1 - 1) + (w2 - 1) * w1 + u64 * (w1 * w2)); [|right; ring].
  apply Rplus_le_compat; [apply Rplus_le_compat; [exact H1|apply Rmult_le_compat; assumption]|]. apply Rmult_le_compat; try assumption; [apply Rmult_le_pos; assumption|]. apply Rmult_le_compat; assumption.
Qed.
Lemma relr_mult c1 c2 L1 L2 f1 f2 r1 r2 : (c1 <= 20)%nat -> (c2 <= 20)%nat -> (L1 + L2 <= 1000)%nat -> relr c1 L1 f1 r1 -> relr c2 L2 f2 r2 -> relr (c1 + c2 + 1) (L1 + L2) (dmult f1 f2) (r1 * r2).
Proof.
  intros Hc1 Hc2 HL H1 H2. pose proof (proj1 H1) as F1. pose proof (proj1 H2) as F2.
  assert (Z0 : r1 * r2 = 0 -> relr (c1 + c2 + 1) (L1 + L2) (dmult f1 f2) (r1 * r2)).
  { intros E. rewrite E. assert (P : dval f1 * dval f2 = 0). { apply Rmult_integral in E as [->| ->]; [rewrite (relr_zero _ _ _ H1)|rewrite (relr_zero _ _ _ H2)]; ring. }
    destruct (dmult_ok f1 f2 F1 F2) as [F V]; [rewrite P, Rabs_R0; apply pow_le; lra|]. split; [exact F|]. split; [|left; reflexivity]. rewrite V, P. rewrite round_0 by typeclasses eauto; rewrite Rminus_0_r, Rabs_R0. lra. }
  destruct (Req_dec r1 0) as [E|N1]; [apply Z0; rewrite E; ring|]. destruct (Req_dec r2 0) as [E|N2]; [apply Z0; rewrite E; ring|]. clear Z0.
  pose proof (relr_bounds _ _ _ _ Hc1 H1 N1) as B1. pose proof (relr_bounds _ _ _ _ Hc2 H2 N2) as B2.
  destruct H1 as (_ & E1 & [K|S1]); [contradiction|]. destruct H2 as (_ & E2 & [K|S2]); [contradiction|].
  assert (SZ : / 2 ^ (L1 + L2) <= Rabs (r1 * r2) <= 2 ^ (L1 + L2)).
  { rewrite Rabs_mult, pow_add, Rinv_mult. assert (0 < / 2 ^ L1) by (apply Rinv_0_lt_compat, pow_lt; lra). assert (0 < / 2 ^ L2) by (apply Rinv_0_lt_compat, pow_lt; lra). split; apply Rmult_le_compat; lra. }
  assert (AB : Rabs (r1 * r2) / 4 <= Rabs (dval f1 * dval f2) <= 4 * Rabs (r1 * r2)).
  { rewrite !Rabs_mult. pose proof (Rabs_pos r1). pose proof (Rabs_pos r2). split; [|replace (4 * (Rabs r1 * Rabs r2)) with ((2 * Rabs r1) * (2 * Rabs r2)) by ring; apply Rmult_le_compat; try apply Rabs_pos; lra].
    replace (Rabs r1 * Rabs r2 / 4) with (Rabs r1 / 2 * (Rabs r2 / 2)) by field. apply Rmult_le_compat; lra. }
  destruct (dmult_ok f1 f2 F1 F2) as [F V].
  { eapply Rle_trans; [apply AB|]. apply Rle_trans with (4 * 2 ^ (L1 + L2)); [lra|]. replace (4 * 2 ^ (L1 + L2)) with (2 ^ (L1 + L2 + 2)) by (rewrite pow_add; simpl; ring). apply pow_le_1; lia. }
  split; [exact F|]. split; [|right; exact SZ]. rewrite V.
  pose proof (rnd_rel (dval f1 * dval f2)) as RR. apply rel_ex in RR; [|pose proof u64_pos; lra|].
  2:{ apply Rle_trans with (/ 2 ^ (L1 + L2) / 4); [|lra]. replace (/ 2 ^ (L1 + L2) / 4) with (/ 2 ^ (L1 + L2 + 2)) by (rewrite pow_add; simpl; field; apply pow_nonzero; lra). apply inv_pow_le; lia. }
  destruct RR as (e & He & ->).
  apply rel_ex in E1 as (e1 & He1 & ->); [|pose proof (pow_1u c1); lra]. apply rel_ex in E2 as (e2 & He2 & ->); [|pose proof (pow_1u c2); lra].
  replace (r1 * (1 + e1) * (r2 * (1 + e2)) * (1 + e) - r1 * r2) with (((1 + e1) * (1 + e2) * (1 + e) - 1) * (r1 * r2)) by ring. rewrite Rabs_mult. apply Rmult_le_compat_r; [apply Rabs_pos|].
  rewrite !pow_add, pow_1. apply err_comb; assumption.
Qed.
Lemma relr_div c L L2 f g r : (c <= 20)%nat -> (L + L2 <= 1000)%nat -> relr c L f r -> finite g -> / 2 ^ L2 <= Rabs (dval g) <= 2 ^ L2 -> relr (c + 1) (L + L2) (ddiv f g) (r / dval g).
Proof.
  intros Hc HL H Fg Sg. pose proof (proj1 H) as Ff. assert (PL2 : 0 < / 2 ^ L2) by (apply Rinv_0_lt_compat, pow_lt; lra). assert (PL : 0 < / 2 ^ L) by (apply Rinv_0_lt_compat, pow_lt; lra).
  assert (Ng : dval g <> 0) by (intros E; rewrite E, Rabs_R0 in Sg; lra).
  assert (Ig : / 2 ^ L2 <= Rabs (/ dval g) <= 2 ^ L2).
  { rewrite Rabs_inv. split; [apply Rinv_le_contravar; lra|]. rewrite <- (Rinv_inv (2 ^ L2)). apply Rinv_le_contravar; lra. }
  destruct (Req_dec r 0) as [->|N].
  { pose proof (relr_zero _ _ _ H) as Z. destruct (ddiv_ok f g Ff Ng) as [F V]; [rewrite Z; unfold Rdiv; rewrite Rmult_0_l, Rabs_R0; apply pow_le; lra|]. unfold Rdiv in *. rewrite Rmult_0_l. split; [exact F|]. split; [|left; reflexivity]. rewrite V, Z, Rmult_0_l. rewrite round_0 by typeclasses eauto; rewrite Rminus_0_r, Rabs_R0. lra. }
  pose proof (relr_bounds _ _ _ _ Hc H N) as B. destruct H as (_ & E & [K|SS]); [contradiction|].
  assert (SZ : / 2 ^ (L + L2) <= Rabs (r / dval g) <= 2 ^ (L + L2)). { unfold Rdiv. rewrite Rabs_mult, pow_add, Rinv_mult. split; apply Rmult_le_compat; lra. }
  assert (AB : Rabs (r / dval g) / 2 <= Rabs (dval f / dval g) <= 2 * Rabs (r / dval g)).
  { assert (RA : forall a, Rabs (a / dval g) = Rabs a * Rabs (/ dval g)) by (intros a; unfold Rdiv; apply Rabs_mult). rewrite !RA. assert (0 <= Rabs (/ dval g)) by apply Rabs_pos. set (q := Rabs (/ dval g)) in *. split.
    - replace (Rabs r * q / 2) with (Rabs r / 2 * q) by field. apply Rmult_le_compat_r; lra.
    - rewrite <- Rmult_assoc. apply Rmult_le_compat_r; lra. }
  destruct (ddiv_ok f g Ff Ng) as [F V].
  { eapply Rle_trans; [apply AB|]. apply Rle_trans with (2 * 2 ^ (L + L2)); [lra|]. change (2 * 2 ^ (L + L2)) with (2 ^ (1 + (L + L2))). apply pow_le_1; lia. }
  split; [exact F|]. split; [|right; exact SZ]. rewrite V.
  pose proof (rnd_rel (dval f / dval g)) as RR. apply rel_ex in RR; [|pose proof u64_pos; lra|].
  2:{ apply Rle_trans with (/ 2 ^ (L + L2) / 2); [|lra]. replace (/ 2 ^ (L + L2) / 2) with (/ 2 ^ (L + L2 + 1)) by (rewrite pow_add; simpl; field; apply pow_nonzero; lra). apply inv_pow_le; lia. }
  destruct RR as (e & He & ->). apply rel_ex in E as (e1 & He1 & ->); [|pose proof (pow_1u c); lra].
  replace (r * (1 + e1) / dval g * (1 + e) - r / dval g) with (((1 + e1) * (1 + 0) * (1 + e) - 1) * (r / dval g)) by (field; exact Ng). rewrite Rabs_mult. apply Rmult_le_compat_r; [apply Rabs_pos|].
  rewrite pow_add, pow_1. rewrite <- (Rmult_1_r ((1 + u64) ^ c)). apply err_comb; try assumption. rewrite Rabs_R0; lra.
Qed.
Lemma relr_opp c L f r : relr c L f r -> relr c L (Bopp f) (- r).
Proof.
  unfold relr, finite, dval. rewrite is_finite_Bopp, B2R_Bopp, Rabs_Ropp. intros (F & E & S). split; [exact F|]. split; [|destruct S; [left; lra|right; assumption]]. replace (- B2R f - - r) with (- (B2R f - r)) by ring. rewrite Rabs_Ropp. exact E.
Qed.
Lemma relr_exact L f : finite f -> / 2 ^ L <= Rabs (dval f) <= 2 ^ L -> relr 0 L f (dval f).
Proof. intros F S. split; [exact F|]. split; [|right; exact S]. rewrite Rminus_eq_0, Rabs_R0. simpl. lra. Qed.
Lemma relr_two : relr 0 2 (dint 2) 2.
Proof. destruct (dint_ok 2 ltac:(simpl; lia)) as [F V]. change (relr 0 2 (dint 2) (IZR 2)). rewrite <- V. apply relr_exact; [exact F|]. rewrite V, Rabs_pos_eq by lra. simpl. lra. Qed.
Lemma relr_weak c c' L L' f r : (c <= c')%nat -> (L <= L')%nat -> relr c L f r -> relr c' L' f r.
Proof.
  intros Hc HL (F & E & S). split; [exact F|]. split; [eapply Rle_trans; [exact E|]; apply Rmult_le_compat_r; [apply Rabs_pos|]; pose proof (pow_1u_le _ _ Hc); lra|]. destruct S as [S|S]; [left; exact S|right]. pose proof (inv_pow_le _ _ HL). assert (2 ^ L <= 2 ^ L') by (apply pow_le_1; lia). lra.
Qed.
(** ** the tables *)
Definition small_q (q : Q) : bool := (Z.abs (Qnum q) <=? 1024)%Z && (Zpos (Qden q) <=? 1024)%Z.
Lemma dentry_ok T i j : forallb (forallb small_q) T = true -> relr 1 20 (dentry T i j) (entry T i j).
Proof.
  intros HT. assert (HQ : small_q (nth j (nth i T []) 0%Q) = true).
  { rewrite forallb_forall in HT. destruct (Nat.lt_ge_cases i (length T)) as [Hi|Hi]; [|rewrite (nth_overflow T) by exact Hi; destruct j; reflexivity]. specialize (HT _ (nth_In T [] Hi)). rewrite forallb_forall in HT. destruct (Nat.lt_ge_cases j (length (nth i T []))) as [Hj|Hj]; [apply HT, nth_In, Hj|rewrite nth_overflow by exact Hj; reflexivity]. }
  unfold dentry, entry. set (q := nth j (nth i T []) 0%Q) in *. clearbody q. unfold small_q in HQ. apply andb_prop in HQ as [Hn Hd]. apply Z.leb_le in Hn, Hd.
  destruct (dint_ok (Qnum q)) as [Fn Vn]; [simpl; lia|]. destruct (dint_ok (Zpos (Qden q))) as [Fd Vd]; [simpl; lia|].
  unfold Q2R. rewrite <- Vn, <- Vd. change (dval (dint (Qnum q)) * / dval (dint (Z.pos (Qden q)))) with (dval (dint (Qnum q)) / dval (dint (Z.pos (Qden q)))).
  assert (SD : / 2 ^ 10 <= Rabs (dval (dint (Z.pos (Qden q)))) <= 2 ^ 10).
  { rewrite Vd, Rabs_pos_eq by (apply IZR_le; lia). assert (1 <= IZR (Z.pos (Qden q)) <= 1024) by (split; apply IZR_le; lia). simpl. lra. }
  apply (relr_div 0 10 10); try lia; try assumption.
  destruct (Z.eq_dec (Qnum q) 0) as [E|N].
  - split; [exact Fn|]. split; [rewrite Rminus_eq_0, Rabs_R0; simpl; lra|left; rewrite Vn, E; reflexivity].
  - apply relr_exact; [exact Fn|]. rewrite Vn, <- abs_IZR. assert (1 <= IZR (Z.abs (Qnum q)) <= 1024) by (split; apply IZR_le; lia). simpl. lra.
Qed.
Ltac tab T := exact (dentry_ok T _ _ ltac:(vm_compute; reflexivity)).
(** ** entries that are sums *)
Definition summ (c B : nat) (f : double) (r a : R) : Prop := finite f /\ factor c f r a /\ a <= 2 ^ B.
Lemma summ_relr c L f r : relr c L f r -> summ c L f r (Rabs r).
Proof. intros (F & E & S). split; [exact F|]. split; [split; [apply Rle_refl|exact E]|]. destruct S as [->|S]; [rewrite Rabs_R0; apply pow_le; lra|apply S]. Qed.
Lemma summ_weak c c' B B' f r a : (c <= c')%nat -> (B <= B')%nat -> summ c B f r a -> summ c' B' f r a.
Proof.
  intros Hc HB (F & (H1 & H2) & H3). split; [exact F|]. assert (0 <= a) by (eapply Rle_trans; [apply Rabs_pos|exact H1]). split; [split; [exact H1|]|].
  - eapply Rle_trans; [exact H2|]. apply Rmult_le_compat_r; [assumption|]. pose proof (pow_1u_le _ _ Hc). lra.
  - eapply Rle_trans; [exact H3|]. apply pow_le_1; lia.
Qed.
Lemma summ_plus c B f1 f2 r1 r2 a1 a2 : (c <= 20)%nat -> (B <= 1000)%nat -> summ c B f1 r1 a1 -> summ c B f2 r2 a2 -> summ (S c) (S B) (dplus f1 f2) (r1 + r2) (a1 + a2).
Proof.
  intros Hc HB (F1 & (A1 & E1) & B1) (F2 & (A2 & E2) & B2). pose proof (u_small_pow c Hc) as W. pose proof (pow_1u c) as W1. assert (P1 : 0 <= a1) by (eapply Rle_trans; [apply Rabs_pos|exact A1]). assert (P2 : 0 <= a2) by (eapply Rle_trans; [apply Rabs_pos|exact A2]).
  assert (TB : a1 + a2 <= 2 ^ S B) by (cbn [pow]; lra).
  assert (SZ : Rabs (dval f1 + dval f2) <= (1 + u64) ^ c * (a1 + a2)).
  { replace (dval f1 + dval f2) with ((dval f1 - r1) + r1 + ((dval f2 - r2) + r2)) by ring. eapply Rle_trans; [apply Rabs_triang|]. eapply Rle_trans; [apply Rplus_le_compat; apply Rabs_triang|]. nra. }
  destruct (dplus_ok f1 f2 F1 F2) as [F V].
  { eapply Rle_trans; [exact SZ|]. apply Rle_trans with (2 * 2 ^ S B); [apply Rmult_le_compat; lra|]. change (2 * 2 ^ S B) with (2 ^ S (S B)). apply pow_le_1; lia. }
  split; [exact F|]. split; [split|exact TB].
  - eapply Rle_trans; [apply Rabs_triang|lra].
  - rewrite V. pose proof (rnd_plus_rel _ _ (dval_format f1) (dval_format f2)) as RR.
    replace (rnd (dval f1 + dval f2) - (r1 + r2)) with ((rnd (dval f1 + dval f2) - (dval f1 + dval f2)) + ((dval f1 - r1) + (dval f2 - r2))) by ring.
    eapply Rle_trans; [apply Rabs_triang|]. eapply Rle_trans; [apply Rplus_le_compat_l, Rabs_triang|]. cbn [pow]. pose proof u64_pos. set (w := (1 + u64) ^ c) in *.
    apply Rle_trans with (u64 * (w * (a1 + a2)) + ((w - 1) * a1 + (w - 1) * a2)); [|right; ring]. apply Rplus_le_compat; [|apply Rplus_le_compat; assumption]. eapply Rle_trans; [exact RR|]. apply Rmult_le_compat_l; lra.
Qed.
Lemma summ_factor c B f r a : summ c B f r a -> factor c f r a /\ finite f.
Proof. intros (F & H & _). split; assumption. Qed.
Lemma good_relr s : finite s /\ moderate (dval s) -> relr 0 100 s (dval s) /\ finite s /\ / 2 ^ 100 <= Rabs (dval s) <= 2 ^ 100.
Proof. intros [F M]. unfold moderate in M. assert (0 < / 2 ^ 100) by (apply Rinv_0_lt_compat, pow_lt; lra). assert (A : / 2 ^ 100 <= Rabs (dval s) <= 2 ^ 100) by (rewrite Rabs_pos_eq by lra; lra). split; [apply relr_exact; assumption|]. split; assumption. Qed.
Lemma quot_ok h0 h1 : finite h0 /\ moderate (dval h0) -> finite h1 /\ moderate (dval h1) -> relr 1 200 (ddiv h0 h1) (dval h0 / dval h1).
Proof. intros H0 H1. apply good_relr in H0 as (R0 & _), H1 as (_ & F1 & S1). apply (relr_div 0 100 100); auto; lia. Qed.
Lemma area_ok h0 h1 : finite h0 /\ moderate (dval h0) -> finite h1 /\ moderate (dval h1) -> relr 1 200 (dmult h0 h1) (dval h0 * dval h1).
Proof. intros H0 H1. apply good_relr in H0 as (R0 & _), H1 as (R1 & _). apply (relr_mult 0 0 100 100); auto; lia. Qed.
Lemma ratio_ok h0 h1 h2 : finite h0 /\ moderate (dval h0) -> finite h1 /\ moderate (dval h1) -> finite h2 /\ moderate (dval h2) -> relr 2 300 (ddiv (dmult h1 h2) h0) (dval h1 * dval h2 / dval h0).
Proof. intros H0 H1 H2. pose proof (area_ok h1 h2 H1 H2) as A. apply good_relr in H0 as (_ & F0 & S0). apply (relr_div 1 200 100); auto; lia. Qed.
Lemma ratio2_ok h0 h1 h2 : finite h0 /\ moderate (dval h0) -> finite h1 /\ moderate (dval h1) -> finite h2 /\ moderate (dval h2) -> relr 3 302 (ddiv (dmult (dint 2) (dmult h1 h2)) h0) (2 * (dval h1 * dval h2) / dval h0).
Proof. intros H0 H1 H2. pose proof (area_ok h1 h2 H1 H2) as A. apply good_relr in H0 as (_ & F0 & S0). apply (relr_div 2 202 100); auto; try lia. apply (relr_mult 0 1 2 200); auto; try lia. apply relr_two. Qed.
Lemma twice_ok c L f r : (c <= 10)%nat -> (L <= 500)%nat -> relr c L f r -> relr (c + 1) (L + 2) (dmult (dint 2) f) (2 * r).
Proof. intros Hc HL H. apply (relr_weak (0 + c + 1) _ (2 + L) _); try lia. apply relr_mult; try lia; [apply relr_two|exact H]. Qed.
Lemma times_tab c L f r T i j : (c <= 10)%nat -> (L <= 500)%nat -> forallb (forallb small_q) T = true -> relr c L f r -> relr (c + 2) (L + 20) (dmult f (dentry T i j)) (r * entry T i j).
Proof. intros Hc HL HT H. apply (relr_weak (c + 1 + 1) _ (L + 20) _); try lia. apply relr_mult; try lia; [exact H|apply dentry_ok, HT]. Qed.
Lemma summ_eq c B f r a r' a' : summ c B f r a -> r = r' -> a = a' -> summ c B f r' a'.
Proof. intros H <- <-. exact H. Qed.
Ltac st c L := apply (summ_weak c _ L _); [lia|lia|]; apply summ_relr.
Ltac tt c L := st (c + 2)%nat (L + 20)%nat; apply (times_tab c L); [lia|lia|vm_compute; reflexivity|].
Section H2.
  Variables h0 h1 : double.
  Hypothesis G0 : finite h0 /\ moderate (dval h0).
  Hypothesis G1 : finite h1 /\ moderate (dval h1).
  Lemma laplacian2_ok i j : summ 4 400 (dMatElemLaplacian2 h0 h1 i j) (getMatElemLaplacian2 (dval h0) (dval h1) i j) (size_laplacian [dval h0; dval h1] i j).
  Proof.
    unfold dMatElemLaplacian2, getMatElemLaplacian2, size_laplacian. apply (summ_weak 4 _ 301 _); [lia|lia|]. apply (summ_plus 3 300); [lia|lia| |]; tt 1%nat 200%nat; apply quot_ok; assumption.
  Qed.
  Lemma mass2_ok i j : summ 3 400 (dMatElemMass2 h0 h1 i j) (getMatElemMass2 (dval h0) (dval h1) i j) (size_mass [dval h0; dval h1] i j).
  Proof. unfold dMatElemMass2, getMatElemMass2, size_mass, getMatElemMass. tt 1%nat 200%nat. apply area_ok; assumption. Qed.
  Lemma term2 c L f r T i j : (c <= 8)%nat -> (L <= 302)%nat -> forallb (forallb small_q) T = true -> relr c L f r -> summ (c + 3) 330 (dmult (dmult (dint 2) f) (dentry T i j)) (2 * r * entry T i j) (2 * Rabs (r * entry T i j)).
  Proof.
    intros Hc HL HT H. eapply summ_eq; [st (c + 1 + 2)%nat (L + 2 + 20)%nat; apply times_tab; [lia|lia|exact HT|]; apply twice_ok; [lia|lia|exact H]|reflexivity|]. rewrite Rmult_assoc, (Rabs_mult 2), (Rabs_pos_eq 2) by lra. reflexivity.
  Qed.
  Lemma term1 c L f r T i j : (c <= 8)%nat -> (L <= 302)%nat -> forallb (forallb small_q) T = true -> relr c L f r -> summ (c + 2) 330 (dmult f (dentry T i j)) (r * entry T i j) (Rabs (r * entry T i j)).
  Proof. intros Hc HL HT H. st (c + 2)%nat (L + 20)%nat. apply times_tab; [lia|lia|exact HT|exact H]. Qed.
  Lemma strain2_ok i j a b : summ 5 400 (dMatElemStrainTensor2 h0 h1 i j a b) (getMatElemStrainTensor2 (dval h0) (dval h1) i j a b) (size_strain [dval h0; dval h1] i j a b).
  Proof.
    assert (A00 : summ 5 400 (dplus (dmult (dmult (dint 2) (ddiv h1 h0)) (dentry matElem2d_dxudxu_q i j)) (dmult (ddiv h0 h1) (dentry matElem2d_dyudyu_q i j)))
        (2 * (dval h1 / dval h0) * matElem2d_dxudxu i j + dval h0 / dval h1 * matElem2d_dyudyu i j) (2 * Rabs (dval h1 / dval h0 * matElem2d_dxudxu i j) + Rabs (dval h0 / dval h1 * matElem2d_dyudyu i j))).
    { apply (summ_weak 5 _ 331 _); [lia|lia|]. apply (summ_plus 4 330); [lia|lia| |].
      - apply (term2 1 200); [lia|lia|vm_compute; reflexivity|apply quot_ok; assumption].
      - apply (summ_weak 3 _ 330 _); [lia|lia|]. apply (term1 1 200); [lia|lia|vm_compute; reflexivity|apply quot_ok; assumption]. }
    assert (A11 : summ 5 400 (dplus (dmult (ddiv h1 h0) (dentry matElem2d_dxudxu_q i j)) (dmult (dmult (dint 2) (ddiv h0 h1)) (dentry matElem2d_dyudyu_q i j)))
        (dval h1 / dval h0 * matElem2d_dxudxu i j + 2 * (dval h0 / dval h1) * matElem2d_dyudyu i j) (Rabs (dval h1 / dval h0 * matElem2d_dxudxu i j) + 2 * Rabs (dval h0 / dval h1 * matElem2d_dyudyu i j))).
    { apply (summ_weak 5 _ 331 _); [lia|lia|]. apply (summ_plus 4 330); [lia|lia| |].
      - apply (summ_weak 3 _ 330 _); [lia|lia|]. apply (term1 1 200); [lia|lia|vm_compute; reflexivity|apply quot_ok; assumption].
      - apply (term2 1 200); [lia|lia|vm_compute; reflexivity|apply quot_ok; assumption]. }
    assert (AT : forall i j, summ 5 400 (dentry matElem2d_dxudyu_q i j) (matElem2d_dxudyu i j) (Rabs (matElem2d_dxudyu i j))).
    { intros k l. st 1%nat 20%nat. apply dentry_ok. vm_compute; reflexivity. }
    unfold dMatElemStrainTensor2, getMatElemStrainTensor2, size_strain. destruct a as [|[|a]], b as [|[|b]]; cbn -[dval dentry dmult dplus ddiv dint summ matElem2d_dxudyu]; try exact A00; try exact A11; apply AT.
  Qed.
  Lemma pressure2_ok i j d : summ 3 400 (dMatElemPressure2 h0 h1 i j d) (getMatElemPressure2 (dval h0) (dval h1) i j d) (size_pressure [dval h0; dval h1] i j d).
  Proof.
    unfold dMatElemPressure2, getMatElemPressure2, size_pressure, getMatElemPressure, getMatElemPressure2. destruct d.
    - apply (summ_weak 2 _ 330 _); [lia|lia|]. apply (term1 0 100); [lia|lia|vm_compute; reflexivity|apply relr_opp, good_relr; assumption].
    - apply (summ_weak 2 _ 330 _); [lia|lia|]. apply (term1 0 100); [lia|lia|vm_compute; reflexivity|apply relr_opp, good_relr; assumption].
  Qed.
End H2.
Section H3.
  Variables h0 h1 h2 : double.
  Hypothesis G0 : finite h0 /\ moderate (dval h0).
  Hypothesis G1 : finite h1 /\ moderate (dval h1).
  Hypothesis G2 : finite h2 /\ moderate (dval h2).
  Lemma once3 s0 s1 s2 T i j : finite s0 /\ moderate (dval s0) -> finite s1 /\ moderate (dval s1) -> finite s2 /\ moderate (dval s2) -> forallb (forallb small_q) T = true ->
    summ 4 330 (dmult (ddiv (dmult s1 s2) s0) (dentry T i j)) (dval s1 * dval s2 / dval s0 * entry T i j) (Rabs (dval s1 * dval s2 / dval s0 * entry T i j)).
  Proof. intros. apply (term1 2 300); [lia|lia|assumption|apply ratio_ok; assumption]. Qed.
  Lemma twice3 s0 s1 s2 T i j : finite s0 /\ moderate (dval s0) -> finite s1 /\ moderate (dval s1) -> finite s2 /\ moderate (dval s2) -> forallb (forallb small_q) T = true ->
    summ 5 330 (dmult (ddiv (dmult (dint 2) (dmult s1 s2)) s0) (dentry T i j)) (2 * (dval s1 * dval s2) / dval s0 * entry T i j) (2 * Rabs (dval s1 * dval s2 / dval s0 * entry T i j)).
  Proof.
    intros. eapply summ_eq; [apply (term1 3 302); [lia|lia|assumption|apply ratio2_ok; assumption]|reflexivity|]. unfold Rdiv. rewrite (Rmult_assoc 2), (Rmult_assoc 2), (Rabs_mult 2), (Rabs_pos_eq 2) by lra. reflexivity.
  Qed.
  Ltac o3 := apply (summ_weak 4 _ 330 _); [lia|lia|]; apply once3; [assumption|assumption|assumption|vm_compute; reflexivity].
  Ltac t3 := apply (summ_weak 5 _ 330 _); [lia|lia|]; apply twice3; [assumption|assumption|assumption|vm_compute; reflexivity].
  Lemma laplacian3_ok i j : summ 6 400 (dMatElemLaplacian3 h0 h1 h2 i j) (getMatElemLaplacian3 (dval h0) (dval h1) (dval h2) i j) (size_laplacian [dval h0; dval h1; dval h2] i j).
  Proof.
    unfold dMatElemLaplacian3, getMatElemLaplacian3, size_laplacian. apply (summ_weak 6 _ 332 _); [lia|lia|]. apply (summ_plus 5 331); [lia|lia| |]; [apply (summ_plus 4 330); [lia|lia| |]|]; o3.
  Qed.
  Lemma mass3_ok i j : summ 4 400 (dMatElemMass3 h0 h1 h2 i j) (getMatElemMass3 (dval h0) (dval h1) (dval h2) i j) (size_mass [dval h0; dval h1; dval h2] i j).
  Proof.
    unfold dMatElemMass3, getMatElemMass3, size_mass, getMatElemMass, getMatElemMass3. apply (summ_weak 4 _ 330 _); [lia|lia|]. apply (term1 2 300); [lia|lia|vm_compute; reflexivity|]. apply (relr_mult 1 0 200 100); [lia|lia|lia|apply area_ok; assumption|apply good_relr; assumption].
  Qed.
  Lemma strain3_ok i j a b : summ 7 400 (dMatElemStrainTensor3 h0 h1 h2 i j a b) (getMatElemStrainTensor3 (dval h0) (dval h1) (dval h2) i j a b) (size_strain [dval h0; dval h1; dval h2] i j a b).
  Proof.
    assert (AT : forall s T i j, finite s /\ moderate (dval s) -> forallb (forallb small_q) T = true -> summ 7 400 (dmult s (dentry T i j)) (dval s * entry T i j) (Rabs (dval s * entry T i j))).
    { intros s T k l G HT. apply (summ_weak 2 _ 330 _); [lia|lia|]. apply (term1 0 100); [lia|lia|exact HT|apply good_relr; exact G]. }
    assert (S00 : summ 7 400 (dMatElemStrainTensor3 h0 h1 h2 i j 0 0) (getMatElemStrainTensor3 (dval h0) (dval h1) (dval h2) i j 0 0) (size_strain [dval h0; dval h1; dval h2] i j 0 0)).
    { unfold dMatElemStrainTensor3, getMatElemStrainTensor3, size_strain. apply (summ_weak 7 _ 332 _); [lia|lia|]. apply (summ_plus 6 331); [lia|lia| |]; [apply (summ_plus 5 330); [lia|lia|t3|o3]|o3]. }
    assert (S11 : summ 7 400 (dMatElemStrainTensor3 h0 h1 h2 i j 1 1) (getMatElemStrainTensor3 (dval h0) (dval h1) (dval h2) i j 1 1) (size_strain [dval h0; dval h1; dval h2] i j 1 1)).
    { unfold dMatElemStrainTensor3, getMatElemStrainTensor3, size_strain. apply (summ_weak 7 _ 332 _); [lia|lia|]. apply (summ_plus 6 331); [lia|lia| |]; [apply (summ_plus 5 330); [lia|lia|o3|t3]|o3]. }
    assert (S22 : summ 7 400 (dMatElemStrainTensor3 h0 h1 h2 i j 2 2) (getMatElemStrainTensor3 (dval h0) (dval h1) (dval h2) i j 2 2) (size_strain [dval h0; dval h1; dval h2] i j 2 2)).
    { unfold dMatElemStrainTensor3, getMatElemStrainTensor3, size_strain. apply (summ_weak 7 _ 332 _); [lia|lia|]. apply (summ_plus 6 331); [lia|lia| |]; [apply (summ_plus 5 330); [lia|lia|o3|o3]|t3]. }
    destruct a as [|[|[|a]]], b as [|[|[|b]]]; try exact S00; try exact S11; try exact S22;
      unfold dMatElemStrainTensor3, getMatElemStrainTensor3, size_strain, getMatElemStrainTensor, getMatElemStrainTensor3; apply AT; solve [assumption|vm_compute; reflexivity].
  Qed.
  Lemma pressure3_ok i j d : summ 3 400 (dMatElemPressure3 h0 h1 h2 i j d) (getMatElemPressure3 (dval h0) (dval h1) (dval h2) i j d) (size_pressure [dval h0; dval h1; dval h2] i j d).
  Proof.
    unfold dMatElemPressure3, getMatElemPressure3, size_pressure, getMatElemPressure, getMatElemPressure3.
    destruct d as [|[|d]]; (apply (summ_weak 3 _ 330 _); [lia|lia|]); (apply (term1 1 200); [lia|lia|vm_compute; reflexivity|]); (apply (relr_mult 0 0 100 100); [lia|lia|lia|apply relr_opp|]); apply good_relr; assumption.
  Qed.
End H3.
Lemma steps_cases h : good_steps h -> (exists h0 h1, h = [h0; h1] /\ (finite h0 /\ moderate (dval h0)) /\ (finite h1 /\ moderate (dval h1))) \/
  (exists h0 h1 h2, h = [h0; h1; h2] /\ (finite h0 /\ moderate (dval h0)) /\ (finite h1 /\ moderate (dval h1)) /\ (finite h2 /\ moderate (dval h2))).
Proof.
  intros [HL HF]. destruct h as [|h0 [|h1 [|h2 [|h3 h]]]]; cbn in HL; try lia.
  - left. inversion HF as [|? ? A1 B1]; subst. inversion B1 as [|? ? A2 B2]; subst. eauto 8.
  - right. inversion HF as [|? ? A1 B1]; subst. inversion B1 as [|? ? A2 B2]; subst. inversion B2 as [|? ? A3 B3]; subst. eauto 10.
Qed.
Lemma laplacian_ok h i j : good_steps h -> factor 6 (dMatElemLaplacian h i j) (getMatElemLaplacian (map dval h) i j) (size_laplacian (map dval h) i j) /\ finite (dMatElemLaplacian h i j).
Proof.
  intros H. apply (summ_factor 6 400). destruct (steps_cases h H) as [(h0 & h1 & -> & A & B)|(h0 & h1 & h2 & -> & A & B & C)]; [apply (summ_weak 4 _ 400 _); try lia; apply laplacian2_ok; assumption|apply laplacian3_ok; assumption].
Qed.
Lemma mass_ok h i j : good_steps h -> factor 4 (dMatElemMass h i j) (getMatElemMass (map dval h) i j) (size_mass (map dval h) i j) /\ finite (dMatElemMass h i j).
Proof.
  intros H. apply (summ_factor 4 400). destruct (steps_cases h H) as [(h0 & h1 & -> & A & B)|(h0 & h1 & h2 & -> & A & B & C)]; [apply (summ_weak 3 _ 400 _); try lia; apply mass2_ok; assumption|apply mass3_ok; assumption].
Qed.
Lemma strain_ok h i j a b : good_steps h -> factor 7 (dMatElemStrainTensor h i j a b) (getMatElemStrainTensor (map dval h) i j a b) (size_strain (map dval h) i j a b) /\ finite (dMatElemStrainTensor h i j a b).
Proof.
  intros H. apply (summ_factor 7 400). destruct (steps_cases h H) as [(h0 & h1 & -> & A & B)|(h0 & h1 & h2 & -> & A & B & C)]; [apply (summ_weak 5 _ 400 _); try lia; apply strain2_ok; assumption|apply strain3_ok; assumption].
Qed.
Lemma pressure_ok h i j d : good_steps h -> factor 3 (dMatElemPressure h i j d) (getMatElemPressure (map dval h) i j d) (size_pressure (map dval h) i j d) /\ finite (dMatElemPressure h i j d).
Proof.
  intros H. apply (summ_factor 3 400). destruct (steps_cases h H) as [(h0 & h1 & -> & A & B)|(h0 & h1 & h2 & -> & A & B & C)]; [apply pressure2_ok; assumption|apply pressure3_ok; assumption].
Qed.
Lemma factor_weak c c' M m am : (c <= c')%nat -> factor c M m am -> factor c' M m am.
Proof. intros Hc [H1 H2]. split; [exact H1|]. eapply Rle_trans; [exact H2|]. apply Rmult_le_compat_r; [eapply Rle_trans; [apply Rabs_pos|exact H1]|]. pose proof (pow_1u_le _ _ Hc). lra. Qed.
Close Scope R_scope.
