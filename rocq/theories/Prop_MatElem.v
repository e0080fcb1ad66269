(** Properties C20-C22: element matrices are exact integrals. *)
From Coquelicot Require Import Coquelicot.
From Coq Require Import QArith Qreals.
From Verif Require Import Base M_MatElem S_Fem P_MatElem.
Open Scope R_scope.

(** C20: cell [0,h0]x[0,h1], shape functions phi2, i,j < 4, components a,b < 2 *)
Theorem C20_laplacian_2d : forall h0 h1 i j, 0 < h0 -> 0 < h1 -> (i < 4)%nat -> (j < 4)%nat ->
  is_int2 (fun x y => D2 0 (phi2 h0 h1 i) x y * D2 0 (phi2 h0 h1 j) x y + D2 1 (phi2 h0 h1 i) x y * D2 1 (phi2 h0 h1 j) x y)
    0 h0 0 h1 (getMatElemLaplacian2 h0 h1 i j).
Proof.
  intros h0 h1 i j H0 H1 Hi Hj. unfold getMatElemLaplacian2.
  exact (is_int2_plus _ _ _ _ _ _ _ _ (int2_00 h0 h1 H0 H1 i j Hi Hj) (int2_11 h0 h1 H0 H1 i j Hi Hj)).
Qed.
Print Assumptions C20_laplacian_2d.
Theorem C20_mass_2d : forall h0 h1 i j, 0 < h0 -> 0 < h1 -> (i < 4)%nat -> (j < 4)%nat ->
  is_int2 (fun x y => phi2 h0 h1 i x y * phi2 h0 h1 j x y) 0 h0 0 h1 (getMatElemMass2 h0 h1 i j).
Proof. intros. apply int2_mass; auto. Qed.
Print Assumptions C20_mass_2d.
Theorem C20_strain_2d : forall h0 h1 i j a b, 0 < h0 -> 0 < h1 -> (i < 4)%nat -> (j < 4)%nat -> (a < 2)%nat -> (b < 2)%nat ->
  is_int2 (viscous2 (along2 (phi2 h0 h1 i) a) (along2 (phi2 h0 h1 j) b)) 0 h0 0 h1 (getMatElemStrainTensor2 h0 h1 i j a b).
Proof.
  intros h0 h1 i j a b H0 H1 Hi Hj Ha Hb.
  pose proof (int2_00 h0 h1 H0 H1 i j Hi Hj) as A00. pose proof (int2_11 h0 h1 H0 H1 i j Hi Hj) as A11.
  pose proof (int2_10 h0 h1 H0 H1 i j Hi Hj) as A10. pose proof (int2_01 h0 h1 i j H0 H1 Hi Hj) as A01.
  destruct a as [|[|a]]; [| |lia]; (destruct b as [|[|b]]; [| |lia]); unfold getMatElemStrainTensor2.
  - replace (2 * (h1 / h0) * matElem2d_dxudxu i j + h0 / h1 * matElem2d_dyudyu i j)
      with (2 * (h1 / h0 * matElem2d_dxudxu i j) + h0 / h1 * matElem2d_dyudyu i j) by ring.
    eapply is_int2_ext; [exact H0| |exact (is_int2_plus _ _ _ _ _ _ _ _ (is_int2_cmul _ 2 _ _ _ _ _ A00) A11)].
    intros x y _ _. unfold viscous2, strain2. rewrite !D2_along. cbn [Nat.eqb]. field.
  - eapply is_int2_ext; [exact H0| |exact A10].
    intros x y _ _. unfold viscous2, strain2. rewrite !D2_along. cbn [Nat.eqb]. field.
  - eapply is_int2_ext; [exact H0| |exact A01].
    intros x y _ _. unfold viscous2, strain2. rewrite !D2_along. cbn [Nat.eqb]. field.
  - replace (h1 / h0 * matElem2d_dxudxu i j + 2 * (h0 / h1) * matElem2d_dyudyu i j)
      with (h1 / h0 * matElem2d_dxudxu i j + 2 * (h0 / h1 * matElem2d_dyudyu i j)) by ring.
    eapply is_int2_ext; [exact H0| |exact (is_int2_plus _ _ _ _ _ _ _ _ A00 (is_int2_cmul _ 2 _ _ _ _ _ A11))].
    intros x y _ _. unfold viscous2, strain2. rewrite !D2_along. cbn [Nat.eqb]. field.
Qed.
Print Assumptions C20_strain_2d.
Example C20_example : getMatElemLaplacian2 1 2 0 1 = - (7/12) /\ getMatElemStrainTensor2 1 2 0 3 0 1 = -1/4.
Proof. unfold getMatElemLaplacian2, getMatElemStrainTensor2, matElem2d_dxudxu, matElem2d_dyudyu, matElem2d_dxudyu, entry; simpl nth; q2r. split; lra. Qed.

(** C21 *)
Theorem C21_laplacian_3d : forall h0 h1 h2 i j, 0 < h0 -> 0 < h1 -> 0 < h2 -> (i < 8)%nat -> (j < 8)%nat ->
  is_int3 (fun x y z => D3 0 (phi3 h0 h1 h2 i) x y z * D3 0 (phi3 h0 h1 h2 j) x y z
                      + D3 1 (phi3 h0 h1 h2 i) x y z * D3 1 (phi3 h0 h1 h2 j) x y z
                      + D3 2 (phi3 h0 h1 h2 i) x y z * D3 2 (phi3 h0 h1 h2 j) x y z)
    0 h0 0 h1 0 h2 (getMatElemLaplacian3 h0 h1 h2 i j).
Proof.
  intros h0 h1 h2 i j H0 H1 H2 Hi Hj. unfold getMatElemLaplacian3.
  exact (is_int3_plus _ _ _ _ _ _ _ _ _ _ (is_int3_plus _ _ _ _ _ _ _ _ _ _ (int3_00 h0 h1 h2 H0 H1 H2 i j Hi Hj) (int3_11 h0 h1 h2 H0 H1 H2 i j Hi Hj))
         (int3_22 h0 h1 h2 H0 H1 H2 i j Hi Hj)).
Qed.
Print Assumptions C21_laplacian_3d.
Theorem C21_mass_3d : forall h0 h1 h2 i j, 0 < h0 -> 0 < h1 -> 0 < h2 -> (i < 8)%nat -> (j < 8)%nat ->
  is_int3 (fun x y z => phi3 h0 h1 h2 i x y z * phi3 h0 h1 h2 j x y z) 0 h0 0 h1 0 h2 (getMatElemMass3 h0 h1 h2 i j).
Proof. intros. apply int3_mass; auto. Qed.
Print Assumptions C21_mass_3d.
Theorem C21_strain_3d : forall h0 h1 h2 i j a b, 0 < h0 -> 0 < h1 -> 0 < h2 -> (i < 8)%nat -> (j < 8)%nat -> (a < 3)%nat -> (b < 3)%nat ->
  is_int3 (viscous3 (along3 (phi3 h0 h1 h2 i) a) (along3 (phi3 h0 h1 h2 j) b)) 0 h0 0 h1 0 h2 (getMatElemStrainTensor3 h0 h1 h2 i j a b).
Proof.
  intros h0 h1 h2 i j a b H0 H1 H2 Hi Hj Ha Hb.
  pose proof (int3_00 h0 h1 h2 H0 H1 H2 i j Hi Hj) as A00. pose proof (int3_11 h0 h1 h2 H0 H1 H2 i j Hi Hj) as A11.
  pose proof (int3_22 h0 h1 h2 H0 H1 H2 i j Hi Hj) as A22.
  pose proof (int3_10 h0 h1 h2 H0 H1 H2 i j Hi Hj) as A10. pose proof (int3_comm _ _ _ _ _ _ H0 (int3_10 h0 h1 h2 H0 H1 H2 j i Hj Hi)) as A01.
  pose proof (int3_20 h0 h1 h2 H0 H1 H2 i j Hi Hj) as A20. pose proof (int3_comm _ _ _ _ _ _ H0 (int3_20 h0 h1 h2 H0 H1 H2 j i Hj Hi)) as A02.
  pose proof (int3_21 h0 h1 h2 H0 H1 H2 i j Hi Hj) as A21. pose proof (int3_comm _ _ _ _ _ _ H0 (int3_21 h0 h1 h2 H0 H1 H2 j i Hj Hi)) as A12.
  pose proof (fun f g => is_int3_plus f g 0 h0 0 h1 0 h2) as P.
  assert (DBL : forall I J K F G H, is_int3 F 0 h0 0 h1 0 h2 I -> is_int3 G 0 h0 0 h1 0 h2 J -> is_int3 H 0 h0 0 h1 0 h2 K ->
     is_int3 (fun x y z => 2 * F x y z + G x y z + H x y z) 0 h0 0 h1 0 h2 (2 * I + J + K)).
  { intros I J K F G H HI HJ HK. exact (P _ _ _ _ (P _ _ _ _ (is_int3_cmul _ 2 _ _ _ _ _ _ _ HI) HJ) HK). }
  destruct a as [|[|[|a]]]; [| | |lia]; (destruct b as [|[|[|b]]]; [| | |lia]); unfold getMatElemStrainTensor3.
  - replace (2 * (h1 * h2) / h0 * matElem3d_dxudxu i j + h0 * h2 / h1 * matElem3d_dyudyu i j + h0 * h1 / h2 * matElem3d_dzudzu i j)
      with (2 * (h1 * h2 / h0 * matElem3d_dxudxu i j) + h0 * h2 / h1 * matElem3d_dyudyu i j + h0 * h1 / h2 * matElem3d_dzudzu i j) by (field; lra).
    eapply is_int3_ext; [exact H0| |exact (DBL _ _ _ _ _ _ A00 A11 A22)].
    intros x y z _ _ _. unfold viscous3, strain3. rewrite !D3_along. cbn [Nat.eqb]. field.
  - eapply is_int3_ext; [exact H0| |exact A10]. intros x y z _ _ _. unfold viscous3, strain3. rewrite !D3_along. cbn [Nat.eqb]. field.
  - eapply is_int3_ext; [exact H0| |exact A20]. intros x y z _ _ _. unfold viscous3, strain3. rewrite !D3_along. cbn [Nat.eqb]. field.
  - eapply is_int3_ext; [exact H0| |exact A01]. intros x y z _ _ _. unfold viscous3, strain3. rewrite !D3_along. cbn [Nat.eqb]. field.
  - replace (h1 * h2 / h0 * matElem3d_dxudxu i j + 2 * (h0 * h2) / h1 * matElem3d_dyudyu i j + h0 * h1 / h2 * matElem3d_dzudzu i j)
      with (2 * (h0 * h2 / h1 * matElem3d_dyudyu i j) + h1 * h2 / h0 * matElem3d_dxudxu i j + h0 * h1 / h2 * matElem3d_dzudzu i j) by (field; lra).
    eapply is_int3_ext; [exact H0| |exact (DBL _ _ _ _ _ _ A11 A00 A22)].
    intros x y z _ _ _. unfold viscous3, strain3. rewrite !D3_along. cbn [Nat.eqb]. field.
  - eapply is_int3_ext; [exact H0| |exact A21]. intros x y z _ _ _. unfold viscous3, strain3. rewrite !D3_along. cbn [Nat.eqb]. field.
  - eapply is_int3_ext; [exact H0| |exact A02]. intros x y z _ _ _. unfold viscous3, strain3. rewrite !D3_along. cbn [Nat.eqb]. field.
  - eapply is_int3_ext; [exact H0| |exact A12]. intros x y z _ _ _. unfold viscous3, strain3. rewrite !D3_along. cbn [Nat.eqb]. field.
  - replace (h1 * h2 / h0 * matElem3d_dxudxu i j + h0 * h2 / h1 * matElem3d_dyudyu i j + 2 * (h0 * h1) / h2 * matElem3d_dzudzu i j)
      with (2 * (h0 * h1 / h2 * matElem3d_dzudzu i j) + h1 * h2 / h0 * matElem3d_dxudxu i j + h0 * h2 / h1 * matElem3d_dyudyu i j) by (field; lra).
    eapply is_int3_ext; [exact H0| |exact (DBL _ _ _ _ _ _ A22 A00 A11)].
    intros x y z _ _ _. unfold viscous3, strain3. rewrite !D3_along. cbn [Nat.eqb]. field.
Qed.
Print Assumptions C21_strain_3d.

(** C22: pressure shape functions on the doubled cell, velocity shape functions on its
    sub-cells (piecewise linear); getMatElemPressure is the integral of p times d_k(u_k). *)
Theorem C22_pressure_2d : forall h0 h1 i j, 0 < h0 -> 0 < h1 -> (i < 4)%nat -> (j < 9)%nat ->
  is_int2 (fun x y => phi2 (2 * h0) (2 * h1) i x y * D2 0 (psi2 h0 h1 j) x y) 0 (2 * h0) 0 (2 * h1) (getMatElemPressure2 h0 h1 i j 0) /\
  is_int2 (fun x y => phi2 (2 * h0) (2 * h1) i x y * D2 1 (psi2 h0 h1 j) x y) 0 (2 * h0) 0 (2 * h1) (getMatElemPressure2 h0 h1 i j 1).
Proof.
  intros h0 h1 i j H0 H1 Hi Hj. unfold getMatElemPressure2.
  assert (Ha : (j mod 3 < 3)%nat) by (apply Nat.mod_upper_bound; lia).
  assert (Hb : (j / 3 < 3)%nat) by (apply Nat.div_lt_upper_bound; lia).
  split.
  - rewrite tab_pdxu2 by auto.
    replace (- h1 * - (Q2R (pd1 (vx2 i) (j mod 3)) * Q2R (pm1 (vy2 i) (j / 3))))
      with (Q2R (pd1 (vx2 i) (j mod 3)) * (h1 * Q2R (pm1 (vy2 i) (j / 3)))) by ring.
    eapply is_int2_ext; [lra| |exact (is_int2_sep _ _ _ _ _ _ _ _ (pd1_int h0 (vx2 i) (j mod 3) H0 Ha) (pm1_int h1 (vy2 i) (j / 3) H1 Hb))].
    intros x y _ _. unfold psi2. rewrite (D2_sep0 (fun t => tent (j mod 3) (t / h0)) (fun t => tent (j / 3) (t / h1))).
    unfold phi2, Q1_2. fold (vx2 i) (vy2 i). ring.
  - rewrite tab_pdyu2 by auto.
    replace (- h0 * - (Q2R (pm1 (vx2 i) (j mod 3)) * Q2R (pd1 (vy2 i) (j / 3))))
      with ((h0 * Q2R (pm1 (vx2 i) (j mod 3))) * Q2R (pd1 (vy2 i) (j / 3))) by ring.
    eapply is_int2_ext; [lra| |exact (is_int2_sep _ _ _ _ _ _ _ _ (pm1_int h0 (vx2 i) (j mod 3) H0 Ha) (pd1_int h1 (vy2 i) (j / 3) H1 Hb))].
    intros x y _ _. unfold psi2. rewrite (D2_sep1 (fun t => tent (j mod 3) (t / h0)) (fun t => tent (j / 3) (t / h1))).
    unfold phi2, Q1_2. fold (vx2 i) (vy2 i). ring.
Qed.
Print Assumptions C22_pressure_2d.
Theorem C22_pressure_3d : forall h0 h1 h2 i j, 0 < h0 -> 0 < h1 -> 0 < h2 -> (i < 8)%nat -> (j < 27)%nat ->
  let P k := is_int3 (fun x y z => phi3 (2 * h0) (2 * h1) (2 * h2) i x y z * D3 k (psi3 h0 h1 h2 j) x y z)
    0 (2 * h0) 0 (2 * h1) 0 (2 * h2) (getMatElemPressure3 h0 h1 h2 i j k) in
  P 0%nat /\ P 1%nat /\ P 2%nat.
Proof.
  intros h0 h1 h2 i j H0 H1 H2 Hi Hj P. unfold P, getMatElemPressure3.
  assert (Ha : (j mod 3 < 3)%nat) by (apply Nat.mod_upper_bound; lia).
  assert (Hb : ((j / 3) mod 3 < 3)%nat) by (apply Nat.mod_upper_bound; lia).
  assert (Hc : (j / 9 < 3)%nat) by (apply Nat.div_lt_upper_bound; lia).
  split; [|split].
  - rewrite tab_pdxu3 by auto.
    eapply int3_sep_ext; [lra|exact (pd1_int h0 (vx3 i) (j mod 3) H0 Ha)|exact (pm1_int h1 (vy3 i) ((j / 3) mod 3) H1 Hb)|exact (pm1_int h2 (vz3 i) (j / 9) H2 Hc)| |ring].
    intros x y z. unfold psi3. rewrite (D3_sep0 (fun t => tent (j mod 3) (t / h0)) (fun t => tent ((j / 3) mod 3) (t / h1)) (fun t => tent (j / 9) (t / h2))).
    unfold phi3, Q1_3. fold (vx3 i) (vy3 i) (vz3 i). ring.
  - rewrite tab_pdyu3 by auto.
    eapply int3_sep_ext; [lra|exact (pm1_int h0 (vx3 i) (j mod 3) H0 Ha)|exact (pd1_int h1 (vy3 i) ((j / 3) mod 3) H1 Hb)|exact (pm1_int h2 (vz3 i) (j / 9) H2 Hc)| |ring].
    intros x y z. unfold psi3. rewrite (D3_sep1 (fun t => tent (j mod 3) (t / h0)) (fun t => tent ((j / 3) mod 3) (t / h1)) (fun t => tent (j / 9) (t / h2))).
    unfold phi3, Q1_3. fold (vx3 i) (vy3 i) (vz3 i). ring.
  - rewrite tab_pdzu3 by auto.
    eapply int3_sep_ext; [lra|exact (pm1_int h0 (vx3 i) (j mod 3) H0 Ha)|exact (pm1_int h1 (vy3 i) ((j / 3) mod 3) H1 Hb)|exact (pd1_int h2 (vz3 i) (j / 9) H2 Hc)| |ring].
    intros x y z. unfold psi3. rewrite (D3_sep2 (fun t => tent (j mod 3) (t / h0)) (fun t => tent ((j / 3) mod 3) (t / h1)) (fun t => tent (j / 9) (t / h2))).
    unfold phi3, Q1_3. fold (vx3 i) (vy3 i) (vz3 i). ring.
Qed.
Print Assumptions C22_pressure_3d.
(** the integral of a given function is unique, so the theorems above determine the matrices *)
Theorem C22_integral_is_unique : forall f a0 b0 a1 b1 I J, a1 < b1 -> is_int2 f a0 b0 a1 b1 I -> is_int2 f a0 b0 a1 b1 J -> I = J.
Proof. exact is_int2_unique. Qed.
Print Assumptions C22_integral_is_unique.
Example C22_example : getMatElemPressure2 1 1 0 0 0 = -15/48.
Proof. unfold getMatElemPressure2, matElem2d_pdxu, entry; simpl nth; q2r. lra. Qed.
Close Scope R_scope.
