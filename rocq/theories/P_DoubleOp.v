(** Rounding errors of sums of products, in any order. *)
From Coq Require Import Permutation.
From Flocq Require Import Core BinarySingleNaN Plus_error Relative.
From Verif Require Import Base M_Geometry S_Geometry P_Geometry M_Particle S_Particle P_Particle.
From Verif Require Import M_Double S_Double P_Double P_Double2 P_Double3 P_Double4.
Open Scope R_scope.

(** ** a finite result has finite operands *)
Lemma dplus_fin x y : finite (dplus x y) -> finite x /\ finite y /\ dval (dplus x y) = rnd (dval x + dval y).
Proof.
  intros H. assert (F : finite x /\ finite y).
  { revert H. unfold finite, dplus. destruct x as [sx|sx| |sx mx ex Hx], y as [sy|sy| |sy my ey Hy]; cbn; try (intros; split; reflexivity); try discriminate; destruct (Bool.eqb sx sy); discriminate. }
  destruct F as [Fx Fy]. split; [exact Fx|]. split; [exact Fy|].
  pose proof (Bplus_correct 53 1024 prec53 emax1024 mode_NE x y Fx Fy) as C. unfold dplus, dval in *. cbn [round_mode] in C.
  destruct (Rlt_bool _ _); [exact (proj1 C)|]. destruct C as [C _]. exfalso. unfold finite in H. rewrite <- is_finite_SF_B2SF in H. rewrite C in H. discriminate.
Qed.
Lemma dminus_fin x y : finite (dminus x y) -> finite x /\ finite y /\ dval (dminus x y) = rnd (dval x - dval y).
Proof.
  intros H. assert (F : finite x /\ finite y).
  { revert H. unfold finite, dminus. destruct x as [sx|sx| |sx mx ex Hx], y as [sy|sy| |sy my ey Hy]; cbn; try (intros; split; reflexivity); try discriminate; destruct (Bool.eqb sx (negb sy)); discriminate. }
  destruct F as [Fx Fy]. split; [exact Fx|]. split; [exact Fy|].
  pose proof (Bminus_correct 53 1024 prec53 emax1024 mode_NE x y Fx Fy) as C. unfold dminus, dval in *. cbn [round_mode] in C.
  destruct (Rlt_bool _ _); [exact (proj1 C)|]. destruct C as [C _]. exfalso. unfold finite in H. rewrite <- is_finite_SF_B2SF in H. rewrite C in H. discriminate.
Qed.
Lemma dmult_fin x y : finite (dmult x y) -> finite x /\ finite y /\ dval (dmult x y) = rnd (dval x * dval y).
Proof.
  intros H. assert (F : finite x /\ finite y).
  { revert H. unfold finite, dmult. destruct x as [sx|sx| |sx mx ex Hx], y as [sy|sy| |sy my ey Hy]; cbn; try (intros; split; reflexivity); try discriminate. }
  destruct F as [Fx Fy]. split; [exact Fx|]. split; [exact Fy|].
  pose proof (Bmult_correct 53 1024 prec53 emax1024 mode_NE x y) as C. unfold dmult, dval in *. cbn [round_mode] in C.
  destruct (Rlt_bool _ _); [exact (proj1 C)|]. exfalso. unfold finite in H. rewrite <- is_finite_SF_B2SF in H. rewrite C in H. discriminate.
Qed.

(** ** the invariant: f is a rounded sum of n rounded products, of exact value r, of sum of
    absolute values at most a; the factors have relative errors (1+u)^c - 1.  [fin] says that all the factors are finite. *)
Definition approx (c : nat) (fin : Prop) (f : double) (r a k : R) : Prop :=
  exists n, k = INR n /\ Rabs r <= a /\ (n = 0%nat -> a = 0) /\
    (finite f \/ (fin /\ a <= 2 ^ 1000 /\ k <= 2 ^ 20) -> finite f /\ Rabs (dval f - r) <= ((1 + u64) ^ (n + c) - 1) * a + (1 + u64) ^ n * INR n * eta64).
Lemma pow_1u n : 1 <= (1 + u64) ^ n.
Proof. apply pow_R1_Rle. pose proof u64_pos; lra. Qed.
Lemma pow_1u_le n m : (n <= m)%nat -> (1 + u64) ^ n <= (1 + u64) ^ m.
Proof. intros. apply Rle_pow; [pose proof u64_pos; lra|assumption]. Qed.
Lemma u2n n : INR n <= 2 ^ 20 -> (1 + u64) ^ n <= 2.
Proof.
  intros H. eapply Rle_trans; [apply pow_u64|].
  - eapply Rle_trans; [apply Rmult_le_compat_r; [apply Rlt_le, u64_pos|exact H]|]. unfold u64. apply Rmult_le_reg_r with (2 ^ 53); [apply pow_lt; lra|]. rewrite Rmult_assoc, Rinv_l by (apply pow_nonzero; lra). rewrite Rmult_1_r. replace (2 ^ 53) with (2 ^ 20 * 2 ^ 33) by (rewrite <- pow_add; reflexivity). assert (2 <= 2 ^ 33) by (apply Rle_trans with (2 ^ 1); [lra|apply pow_le_1; lia]). assert (0 < 2 ^ 20) by (apply pow_lt; lra). nra.
  - assert (INR n * u64 <= / 2); [|lra]. eapply Rle_trans; [apply Rmult_le_compat_r; [apply Rlt_le, u64_pos|exact H]|]. unfold u64. apply Rmult_le_reg_r with (2 ^ 53); [apply pow_lt; lra|]. rewrite Rmult_assoc, Rinv_l by (apply pow_nonzero; lra). rewrite Rmult_1_r. replace (2 ^ 53) with (2 ^ 20 * 2 ^ 33) by (rewrite <- pow_add; reflexivity). assert (2 <= 2 ^ 33) by (apply Rle_trans with (2 ^ 1); [lra|apply pow_le_1; lia]). assert (0 < 2 ^ 20) by (apply pow_lt; lra). nra.
Qed.
Lemma rnd_format x : generic_format radix2 fexp64 x -> rnd x = x.
Proof. intros H. apply round_generic; [apply valid_rnd_N|exact H]. Qed.
Lemma approx_pos c fin f r a k : approx c fin f r a k -> 0 <= a /\ 0 <= k.
Proof. intros (n & -> & H & _). split; [eapply Rle_trans; [apply Rabs_pos|exact H]|apply pos_INR]. Qed.
(** value of a bounded approximation *)
Lemma approx_size c fin f r a k : (c <= 20)%nat -> approx c fin f r a k -> (fin /\ a <= 2 ^ 1000 /\ k <= 2 ^ 20) -> Rabs (dval f) <= 2 ^ 1003.
Proof.
  intros Hc (n & -> & Hr & Hz & H) B. destruct (H (or_intror B)) as [_ E]. destruct B as (_ & Ba & Bn).
  assert (P1 : (1 + u64) ^ (n + c) <= 4). { rewrite pow_add. pose proof (u2n n Bn). pose proof (pow_1u n). pose proof (pow_1u c). assert ((1 + u64) ^ c <= 2); [|nra]. apply u2n. apply Rle_trans with (INR 20); [apply le_INR, Hc|]. change 20 with (2 ^ 2 * 5) in *. rewrite INR_IZR_INZ. apply Rle_trans with (2 ^ 5); [simpl; lra|apply pow_le_1; lia]. }
  pose proof (u2n n Bn) as P2. pose proof (pow_1u n) as Q2. pose proof (pow_1u (n + c)) as Q1. pose proof (pos_INR n) as Pn. pose proof eta_pos as Pe.
  assert (E2 : (1 + u64) ^ n * INR n * eta64 <= 2 * 2 ^ 20 * 1).
  { apply Rmult_le_compat; [nra|lra| |]. apply Rmult_le_compat; lra. unfold eta64. rewrite <- Rinv_1. apply Rinv_le_contravar; [lra|]. apply pow_R1_Rle; lra. }
  assert (A0 : 0 <= a) by (eapply Rle_trans; [apply Rabs_pos|exact Hr]).
  assert (E1 : ((1 + u64) ^ (n + c) - 1) * a <= 3 * 2 ^ 1000) by (apply Rmult_le_compat; lra).
  replace (dval f) with ((dval f - r) + r) by ring. eapply Rle_trans; [apply Rabs_triang|].
  assert (2 * 2 ^ 20 <= 2 ^ 1000) by (apply Rle_trans with (2 ^ 21); [simpl; lra|apply pow_le_1; lia]).
  replace (2 ^ 1003) with (8 * 2 ^ 1000) by (change 1003%nat with (3 + 1000)%nat; rewrite pow_add; f_equal; simpl; lra). assert (0 < 2 ^ 1000) by (apply pow_lt; lra). set (T := 2 ^ 1000) in *. lra.
Qed.
Lemma abs0 x : Rabs x <= 0 -> x = 0.
Proof. intros H. apply Rabs_le_inv in H. lra. Qed.
Lemma err_step n1 n2 c e1 e2 a1 a2 s d : (0 < n1)%nat -> (0 < n2)%nat -> 0 <= a1 -> 0 <= a2 ->
  Rabs d <= u64 * Rabs s -> Rabs s <= a1 + a2 + e1 + e2 -> 0 <= e1 -> 0 <= e2 ->
  e1 <= ((1 + u64) ^ (n1 + c) - 1) * a1 + (1 + u64) ^ n1 * INR n1 * eta64 -> e2 <= ((1 + u64) ^ (n2 + c) - 1) * a2 + (1 + u64) ^ n2 * INR n2 * eta64 ->
  Rabs d + e1 + e2 <= ((1 + u64) ^ (n1 + n2 + c) - 1) * (a1 + a2) + (1 + u64) ^ (n1 + n2) * INR (n1 + n2) * eta64.
Proof.
  intros H1 H2 A1 A2 Hd Hs P1 P2 E1 E2. pose proof u64_pos as U. pose proof eta_pos as Pe.
  assert (G1 : (1 + u64) ^ (n1 + n2 + c) = (1 + u64) * (1 + u64) ^ (n1 + n2 + c - 1)) by (change ((1 + u64) * (1 + u64) ^ (n1 + n2 + c - 1)) with ((1 + u64) ^ S (n1 + n2 + c - 1)); f_equal; lia).
  assert (G2 : (1 + u64) ^ (n1 + n2) = (1 + u64) * (1 + u64) ^ (n1 + n2 - 1)) by (change ((1 + u64) * (1 + u64) ^ (n1 + n2 - 1)) with ((1 + u64) ^ S (n1 + n2 - 1)); f_equal; lia).
  rewrite G1, G2, plus_INR.
  assert (L1 : (1 + u64) ^ (n1 + c) <= (1 + u64) ^ (n1 + n2 + c - 1)) by (apply pow_1u_le; lia).
  assert (L2 : (1 + u64) ^ (n2 + c) <= (1 + u64) ^ (n1 + n2 + c - 1)) by (apply pow_1u_le; lia).
  assert (L3 : (1 + u64) ^ n1 <= (1 + u64) ^ (n1 + n2 - 1)) by (apply pow_1u_le; lia).
  assert (L4 : (1 + u64) ^ n2 <= (1 + u64) ^ (n1 + n2 - 1)) by (apply pow_1u_le; lia).
  set (w := (1 + u64) ^ (n1 + n2 + c - 1)) in *. set (w1 := (1 + u64) ^ (n1 + c)) in *. set (w2 := (1 + u64) ^ (n2 + c)) in *.
  set (z := (1 + u64) ^ (n1 + n2 - 1)) in *. set (z1 := (1 + u64) ^ n1) in *. set (z2 := (1 + u64) ^ n2) in *.
  pose proof (pos_INR n1). pose proof (pos_INR n2). set (k1 := INR n1) in *. set (k2 := INR n2) in *.
  assert (F1 : e1 <= (w - 1) * a1 + z * k1 * eta64).
  { eapply Rle_trans; [exact E1|]. apply Rplus_le_compat; [apply Rmult_le_compat_r; lra|]. apply Rmult_le_compat_r; [lra|]. apply Rmult_le_compat_r; lra. }
  assert (F2 : e2 <= (w - 1) * a2 + z * k2 * eta64).
  { eapply Rle_trans; [exact E2|]. apply Rplus_le_compat; [apply Rmult_le_compat_r; lra|]. apply Rmult_le_compat_r; [lra|]. apply Rmult_le_compat_r; lra. }
  apply Rle_trans with (u64 * (a1 + a2) + (1 + u64) * (e1 + e2)); [nra|].
  apply Rle_trans with (u64 * (a1 + a2) + (1 + u64) * ((w - 1) * a1 + z * k1 * eta64 + ((w - 1) * a2 + z * k2 * eta64))); [nra|]. right. ring.
Qed.
Lemma approx_plus c fin f1 f2 r1 r2 a1 a2 k1 k2 : (c <= 20)%nat -> approx c fin f1 r1 a1 k1 -> approx c fin f2 r2 a2 k2 -> approx c fin (dplus f1 f2) (r1 + r2) (a1 + a2) (k1 + k2).
Proof.
  intros Hc H1 H2. pose proof (approx_pos _ _ _ _ _ _ H1) as [PA1 PK1]. pose proof (approx_pos _ _ _ _ _ _ H2) as [PA2 PK2].
  pose proof (approx_size c fin f1 r1 a1 k1 Hc H1) as SZ1. pose proof (approx_size c fin f2 r2 a2 k2 Hc H2) as SZ2.
  destruct H1 as (n1 & -> & R1 & Z1 & H1), H2 as (n2 & -> & R2 & Z2 & H2). exists (n1 + n2)%nat.
  split; [rewrite plus_INR; reflexivity|]. split; [eapply Rle_trans; [apply Rabs_triang|lra]|]. split; [intros E; rewrite Z1, Z2 by lia; lra|]. intros P.
  assert (F : finite f1 /\ finite f2 /\ finite (dplus f1 f2) /\ dval (dplus f1 f2) = rnd (dval f1 + dval f2) /\
    Rabs (dval f1 - r1) <= ((1 + u64) ^ (n1 + c) - 1) * a1 + (1 + u64) ^ n1 * INR n1 * eta64 /\ Rabs (dval f2 - r2) <= ((1 + u64) ^ (n2 + c) - 1) * a2 + (1 + u64) ^ n2 * INR n2 * eta64).
  { destruct P as [P|(P1 & P2 & P3)].
    - destruct (dplus_fin _ _ P) as (F1 & F2 & V). repeat (split; [assumption|]). split; [apply H1; left; exact F1|apply H2; left; exact F2].
    - assert (B1 : fin /\ a1 <= 2 ^ 1000 /\ INR n1 <= 2 ^ 20) by (split; [exact P1|split; lra]). assert (B2 : fin /\ a2 <= 2 ^ 1000 /\ INR n2 <= 2 ^ 20) by (split; [exact P1|split; lra]).
      destruct (H1 (or_intror B1)) as [F1 E1]. destruct (H2 (or_intror B2)) as [F2 E2]. specialize (SZ1 B1). specialize (SZ2 B2).
      destruct (dplus_ok f1 f2 F1 F2) as [F3 V]; [|tauto]. eapply Rle_trans; [apply Rabs_triang|]. assert (2 * 2 ^ 1003 <= 2 ^ 1023) by (change (2 * 2 ^ 1003) with (2 ^ 1004); apply pow_le_1; lia). lra. }
  clear P. destruct F as (F1 & F2 & F3 & V & E1 & E2). split; [exact F3|]. rewrite V.
  destruct n1 as [|n1].
  { assert (D1 : dval f1 = 0 /\ r1 = 0 /\ a1 = 0).
    { specialize (Z1 eq_refl). subst a1. assert (r1 = 0) by (apply abs0; lra). subst r1. cbn [pow Nat.add INR] in E1. assert (K : Rabs (dval f1 - 0) <= 0) by lra. apply abs0 in K. repeat split; lra. }
    destruct D1 as (D1 & -> & ->). rewrite D1, !Rplus_0_l, rnd_format by apply dval_format. exact E2. }
  destruct n2 as [|n2].
  { assert (D2 : dval f2 = 0 /\ r2 = 0 /\ a2 = 0).
    { specialize (Z2 eq_refl). subst a2. assert (r2 = 0) by (apply abs0; lra). subst r2. cbn [pow Nat.add INR] in E2. assert (K : Rabs (dval f2 - 0) <= 0) by lra. apply abs0 in K. repeat split; lra. }
    destruct D2 as (D2 & -> & ->). rewrite D2, !Rplus_0_r, rnd_format by apply dval_format. rewrite Nat.add_0_r. exact E1. }
  set (s := dval f1 + dval f2) in *. set (d := rnd s - s).
  replace (rnd s - (r1 + r2)) with (d + (dval f1 - r1) + (dval f2 - r2)) by (unfold d, s; ring).
  eapply Rle_trans; [apply Rabs_triang|]. eapply Rle_trans; [apply Rplus_le_compat_r, Rabs_triang|].
  apply (err_step (S n1) (S n2) c (Rabs (dval f1 - r1)) (Rabs (dval f2 - r2)) a1 a2 s d); try assumption; try apply Rabs_pos; try lia.
  - apply rnd_plus_rel; apply dval_format.
  - replace s with (r1 + r2 + (dval f1 - r1) + (dval f2 - r2)) by (unfold s; ring). repeat (eapply Rle_trans; [apply Rabs_triang|]; apply Rplus_le_compat); try assumption; apply Rle_refl.
Qed.
Lemma dminus_opp x y : dminus x y = dplus x (Bopp y).
Proof. destruct x as [sx|sx| |sx mx ex Hx], y as [sy|sy| |sy my ey Hy]; reflexivity. Qed.
Lemma approx_opp c fin f r a k : approx c fin f r a k -> approx c fin (Bopp f) (- r) a k.
Proof.
  intros (n & E & R & Z & H). exists n. split; [exact E|]. split; [rewrite Rabs_Ropp; exact R|]. split; [exact Z|]. unfold finite, dval in *. rewrite is_finite_Bopp, B2R_Bopp. intros P. destruct (H P) as [F B]. split; [exact F|].
  replace (- B2R f - - r) with (- (B2R f - r)) by ring. rewrite Rabs_Ropp. exact B.
Qed.
Lemma approx_minus c fin f1 f2 r1 r2 a1 a2 k1 k2 : (c <= 20)%nat -> approx c fin f1 r1 a1 k1 -> approx c fin f2 r2 a2 k2 -> approx c fin (dminus f1 f2) (r1 + - r2) (a1 + a2) (k1 + k2).
Proof. intros Hc H1 H2. rewrite dminus_opp. apply approx_plus; auto. apply approx_opp, H2. Qed.
Lemma approx_zero c fin : approx c fin dzero 0 0 0.
Proof.
  exists 0%nat. split; [reflexivity|]. split; [rewrite Rabs_R0; lra|]. split; [reflexivity|]. intros _. unfold dzero. destruct (dint_ok 0 ltac:(simpl; lia)) as [F V]. split; [exact F|]. rewrite V, Rminus_0_r, Rabs_R0. simpl. lra.
Qed.
(** one factor of relative error (1+u)^c - 1 *)
Definition factor (c : nat) (M : double) (m am : R) : Prop := Rabs m <= am /\ Rabs (dval M - m) <= ((1 + u64) ^ c - 1) * am.
Lemma factor_exact M : factor 0 M (dval M) (Rabs (dval M)).
Proof. split; [apply Rle_refl|]. rewrite Rminus_eq_0, Rabs_R0. simpl. lra. Qed.
Lemma approx_mult c (fin : Prop) x M m am : (c <= 20)%nat -> factor c M m am -> (fin -> finite x /\ finite M) -> approx c fin (dmult x M) (dval x * m) (Rabs (dval x) * am) 1.
Proof.
  intros Hc [Hm HM] HF. exists 1%nat. split; [reflexivity|]. pose proof (Rabs_pos (dval x)) as Px. assert (Pa : 0 <= am) by (eapply Rle_trans; [apply Rabs_pos|exact Hm]).
  split; [rewrite Rabs_mult; apply Rmult_le_compat_l; assumption|]. split; [discriminate|]. intros P.
  assert (W4 : (1 + u64) ^ c <= 2). { apply u2n. apply Rle_trans with (INR 20); [apply le_INR, Hc|]. rewrite INR_IZR_INZ. apply Rle_trans with (2 ^ 5); [simpl; lra|apply pow_le_1; lia]. }
  pose proof (pow_1u c) as W1.
  assert (AM : Rabs (dval M) <= 2 * am). { replace (dval M) with (dval M - m + m) by ring. eapply Rle_trans; [apply Rabs_triang|]. nra. }
  assert (V : finite (dmult x M) /\ dval (dmult x M) = rnd (dval x * dval M)).
  { destruct P as [P|(P1 & P2 & P3)]; [split; [exact P|apply (dmult_fin _ _ P)]|]. destruct (HF P1) as [F1 F2]. apply dmult_ok; auto. rewrite Rabs_mult.
    apply Rle_trans with (Rabs (dval x) * (2 * am)); [apply Rmult_le_compat_l; assumption|]. apply Rle_trans with (2 * 2 ^ 1000); [lra|]. change (2 * 2 ^ 1000) with (2 ^ 1001). apply pow_le_1; lia. }
  destruct V as [F V]. split; [exact F|]. rewrite V. destruct (rnd_err (dval x * dval M)) as (e & t & He & Ht & ->).
  replace (dval x * dval M * (1 + e) + t - dval x * m) with (dval x * (dval M - m) * (1 + e) + dval x * m * e + t) by ring.
  pose proof u64_pos as U. pose proof eta_pos as Pe. assert (E1 : Rabs (1 + e) <= 1 + u64) by (apply Rabs_le_inv in He; apply Rabs_le; lra).
  eapply Rle_trans; [apply Rabs_triang|]. eapply Rle_trans; [apply Rplus_le_compat_r, Rabs_triang|]. rewrite !Rabs_mult. set (X := Rabs (dval x)) in *.
  apply Rle_trans with (X * (((1 + u64) ^ c - 1) * am) * (1 + u64) + X * am * u64 + eta64).
  - repeat apply Rplus_le_compat; try assumption.
    + apply Rmult_le_compat; try assumption; [apply Rmult_le_pos; [exact Px|apply Rabs_pos]|apply Rabs_pos|apply Rmult_le_compat_l; assumption].
    + apply Rmult_le_compat; try assumption; [apply Rmult_le_pos; [exact Px|apply Rabs_pos]|apply Rabs_pos|apply Rmult_le_compat_l; assumption].
  - replace (1 + c)%nat with (S c) by lia. cbn [pow INR]. set (w := (1 + u64) ^ c) in *. rewrite !Rmult_1_r.
    apply Rle_trans with (((1 + u64) * w - 1) * (X * am) + 1 * eta64); [right; ring|]. apply Rplus_le_compat_l. apply Rmult_le_compat_r; lra.
Qed.
(** one entry added without a product (diagonal) *)
Lemma approx_term c (fin : Prop) M m am : (c <= 20)%nat -> factor c M m am -> (fin -> finite M) -> approx c fin M m am 1.
Proof.
  intros Hc [Hm HM] HF. exists 1%nat. split; [reflexivity|]. split; [exact Hm|]. split; [discriminate|]. intros P. split; [tauto|]. eapply Rle_trans; [exact HM|]. assert (Pa : 0 <= am) by (eapply Rle_trans; [apply Rabs_pos|exact Hm]).
  pose proof (pow_1u_le c (1 + c) ltac:(lia)). pose proof (pow_1u 1). pose proof eta_pos. cbn [INR]. nra.
Qed.
(** the final bound *)
Lemma pow_sharp n : INR n * INR n * u64 <= 1 -> (1 + u64) ^ n <= 1 + INR n * u64 + INR n * INR n * u64 * u64.
Proof.
  induction n as [|n IH]; [simpl; lra|]. rewrite S_INR. intros H. pose proof (pos_INR n). pose proof u64_pos as U. set (k := INR n) in *. assert (K : k * k * u64 <= 1) by nra. specialize (IH K). cbn [pow]. apply Rle_trans with ((1 + u64) * (1 + k * u64 + k * k * u64 * u64)); [apply Rmult_le_compat_l; lra|].
  assert (k * k * u64 * u64 * u64 <= u64 * u64) by nra. nra.
Qed.
Lemma approx_bound c fin f r a k K : (INR K <= 2 ^ 20) -> (c <= 20)%nat -> approx c fin f r a k -> k <= INR K -> finite f -> Rabs (dval f - r) <= (INR (K + c) + 1) * u64 * a + (INR K + 1) * eta64.
Proof.
  intros HK Hc (n & -> & Hr & _ & H) Hn F. apply INR_le in Hn. destruct (H (or_introl F)) as [_ B]. eapply Rle_trans; [exact B|]. assert (Pa : 0 <= a) by (eapply Rle_trans; [apply Rabs_pos|exact Hr]).
  pose proof u64_pos as U. pose proof eta_pos as Pe. pose proof (pos_INR n).
  assert (Q1 : forall j, INR j <= 2 ^ 21 -> INR j * INR j * u64 <= / 1000).
  { intros j Hj. pose proof (pos_INR j). apply Rle_trans with (2 ^ 21 * 2 ^ 21 * u64); [apply Rmult_le_compat_r; [lra|]; apply Rmult_le_compat; lra|]. unfold u64. apply Rmult_le_reg_r with (2 ^ 53); [apply pow_lt; lra|]. rewrite Rmult_assoc, Rinv_l by (apply pow_nonzero; lra). rewrite Rmult_1_r, <- pow_add. replace (2 ^ 53) with (2 ^ 11 * 2 ^ 42) by (rewrite <- pow_add; reflexivity). assert (0 < 2 ^ 42) by (apply pow_lt; lra). change (2 ^ (21 + 21)) with (2 ^ 42). set (T := 2 ^ 42) in *. simpl. lra. }
  assert (Q : forall j, INR j <= 2 ^ 21 -> INR j * INR j * u64 <= 1) by (intros j Hj; specialize (Q1 j Hj); lra).
  assert (HKc : INR (K + c) <= 2 ^ 21). { rewrite plus_INR. assert (INR c <= 2 ^ 20). { apply Rle_trans with (INR 20); [apply le_INR, Hc|]. rewrite INR_IZR_INZ. apply Rle_trans with (2 ^ 5); [simpl; lra|apply pow_le_1; lia]. } change (2 ^ 21) with (2 * 2 ^ 20). lra. }
  assert (HKn : INR n <= 2 ^ 21). { apply Rle_trans with (INR K); [apply le_INR, Hn|]. apply Rle_trans with (2 ^ 20); [exact HK|apply pow_le_1; lia]. }
  apply Rplus_le_compat.
  - apply Rmult_le_compat_r; [exact Pa|]. pose proof (pow_sharp (K + c) (Q _ HKc)) as S. pose proof (Q _ HKc). pose proof (pow_1u_le (n + c) (K + c) ltac:(lia)). set (q := INR (K + c)) in *. nra.
  - apply Rmult_le_compat_r; [lra|]. pose proof (pow_sharp n (Q _ HKn)) as S. pose proof (Q1 _ HKn) as Qn. pose proof (le_INR _ _ Hn) as Ln. set (q := INR n) in *.
    apply Rle_trans with ((1 + q * u64 + q * q * u64 * u64) * q); [apply Rmult_le_compat_r; lra|].
    assert (HU : q * u64 <= / 1000). { destruct (Rle_dec 1 q); [nra|]. pose proof u64_small. nra. } assert (q * q * u64 * (q * u64) <= / 1000 * / 1000) by (apply Rmult_le_compat; nra). nra.
Qed.
Close Scope R_scope.
