(** Property C23: symmetry, positivity and kernels of the element matrices. *)
From Coquelicot Require Import Coquelicot.
From Coq Require Import QArith Qreals.
From Verif Require Import Base M_MatElem S_Fem P_MatElem P_Energy.
Open Scope R_scope.

Theorem C23_laplacian_psd_kernel_constants : forall h0 h1 h2 U, 0 < h0 -> 0 < h1 -> 0 < h2 ->
  (0 <= qform 4 (getMatElemLaplacian2 h0 h1) U /\
   (qform 4 (getMatElemLaplacian2 h0 h1) U = 0 <-> (forall i, (i < 4)%nat -> U i = U 0%nat))) /\
  (0 <= qform 8 (getMatElemLaplacian3 h0 h1 h2) U /\
   (qform 8 (getMatElemLaplacian3 h0 h1 h2) U = 0 <-> (forall i, (i < 8)%nat -> U i = U 0%nat))).
Proof. intros. split; [apply lap2_psd|apply lap3_psd]; auto. Qed.
Print Assumptions C23_laplacian_psd_kernel_constants.

Theorem C23_strain_psd_kernel_rigid : forall h0 h1 h2 U, 0 < h0 -> 0 < h1 -> 0 < h2 ->
  (0 <= vform 4 2 (getMatElemStrainTensor2 h0 h1) U /\
   (vform 4 2 (getMatElemStrainTensor2 h0 h1) U = 0 <-> rigid2 h0 h1 U)) /\
  (0 <= vform 8 3 (getMatElemStrainTensor3 h0 h1 h2) U /\
   (vform 8 3 (getMatElemStrainTensor3 h0 h1 h2) U = 0 <-> rigid3 h0 h1 h2 U)).
Proof. intros. split; [apply strain2_psd|apply strain3_psd]; auto. Qed.
Print Assumptions C23_strain_psd_kernel_rigid.

Theorem C23_symmetric : forall h0 h1 h2 i j a b,
  ((i < 4)%nat -> (j < 4)%nat -> getMatElemLaplacian2 h0 h1 i j = getMatElemLaplacian2 h0 h1 j i /\
     getMatElemMass2 h0 h1 i j = getMatElemMass2 h0 h1 j i /\
     ((a < 2)%nat -> (b < 2)%nat -> getMatElemStrainTensor2 h0 h1 i j a b = getMatElemStrainTensor2 h0 h1 j i b a)) /\
  ((i < 8)%nat -> (j < 8)%nat -> getMatElemLaplacian3 h0 h1 h2 i j = getMatElemLaplacian3 h0 h1 h2 j i /\
     getMatElemMass3 h0 h1 h2 i j = getMatElemMass3 h0 h1 h2 j i /\
     ((a < 3)%nat -> (b < 3)%nat -> getMatElemStrainTensor3 h0 h1 h2 i j a b = getMatElemStrainTensor3 h0 h1 h2 j i b a)).
Proof.
  intros h0 h1 h2 i j a b. split; intros Hi Hj.
  - assert (S0 : matElem2d_dxudxu i j = matElem2d_dxudxu j i) by (rewrite !tab_dxudxu2 by auto; destruct (vx2 i), (vx2 j), (vy2 i), (vy2 j); reflexivity).
    assert (S1 : matElem2d_dyudyu i j = matElem2d_dyudyu j i) by (rewrite !tab_dyudyu2 by auto; destruct (vx2 i), (vx2 j), (vy2 i), (vy2 j); reflexivity).
    assert (S2 : matElemMass2d i j = matElemMass2d j i) by (rewrite !tab_mass2 by auto; destruct (vx2 i), (vx2 j), (vy2 i), (vy2 j); reflexivity).
    unfold getMatElemLaplacian2, getMatElemMass2. rewrite S0, S1, S2. split; [reflexivity|split; [reflexivity|]].
    intros Ha Hb. destruct a as [|[|a]]; [| |lia]; (destruct b as [|[|b]]; [| |lia]); unfold getMatElemStrainTensor2; rewrite ?S0, ?S1; reflexivity.
  - assert (S0 : matElem3d_dxudxu i j = matElem3d_dxudxu j i) by (rewrite !tab_dxudxu3 by auto; destruct (vx3 i), (vx3 j), (vy3 i), (vy3 j), (vz3 i), (vz3 j); reflexivity).
    assert (S1 : matElem3d_dyudyu i j = matElem3d_dyudyu j i) by (rewrite !tab_dyudyu3 by auto; destruct (vx3 i), (vx3 j), (vy3 i), (vy3 j), (vz3 i), (vz3 j); reflexivity).
    assert (S2 : matElem3d_dzudzu i j = matElem3d_dzudzu j i) by (rewrite !tab_dzudzu3 by auto; destruct (vx3 i), (vx3 j), (vy3 i), (vy3 j), (vz3 i), (vz3 j); reflexivity).
    assert (S3 : matElemMass3d i j = matElemMass3d j i) by (rewrite !tab_mass3 by auto; destruct (vx3 i), (vx3 j), (vy3 i), (vy3 j), (vz3 i), (vz3 j); reflexivity).
    unfold getMatElemLaplacian3, getMatElemMass3. rewrite S0, S1, S2, S3. split; [reflexivity|split; [reflexivity|]].
    intros Ha Hb. destruct a as [|[|[|a]]]; [| | |lia]; (destruct b as [|[|[|b]]]; [| | |lia]); unfold getMatElemStrainTensor3; rewrite ?S0, ?S1, ?S2; reflexivity.
Qed.
Print Assumptions C23_symmetric.

(** Kernel vectors are annihilated (not only of zero energy). *)
Theorem C23_kernel_is_annihilated : forall h0 h1 h2, 0 < h0 -> 0 < h1 -> 0 < h2 ->
  (forall c i, (i < 4)%nat -> Rsum 4 (fun j => getMatElemLaplacian2 h0 h1 i j * c) = 0) /\
  (forall c i, (i < 8)%nat -> Rsum 8 (fun j => getMatElemLaplacian3 h0 h1 h2 i j * c) = 0) /\
  (forall U i a, rigid2 h0 h1 U -> (i < 4)%nat -> (a < 2)%nat ->
     Rsum 4 (fun j => Rsum 2 (fun b => getMatElemStrainTensor2 h0 h1 i j a b * U j b)) = 0) /\
  (forall U i a, rigid3 h0 h1 h2 U -> (i < 8)%nat -> (a < 3)%nat ->
     Rsum 8 (fun j => Rsum 3 (fun b => getMatElemStrainTensor3 h0 h1 h2 i j a b * U j b)) = 0).
Proof. exact kernel_annihilated. Qed.
Print Assumptions C23_kernel_is_annihilated.
Example C23_example : rigid2 1 1 (fun i a => match a with 0%nat => 3 - 2 * node2 1 1 i | _ => 5 + 2 * node2 1 0 i end) /\
  rigid3 1 2 3 (fun i a => match a with 0%nat => 1 | _ => 0 end).
Proof.
  split; [exists 3, 5, 2; intros; split; reflexivity|]. exists 1, 0, 0, 0, 0, 0. intros i _. repeat split; ring.
Qed.
(** a non-rigid motion has positive energy *)
Example C23_example_shear : vform 4 2 (getMatElemStrainTensor2 1 1) (fun i a => match a with 0%nat => node2 1 1 i | _ => 0 end) = 1.
Proof. rewrite strain2_sos by lra. unfold g2. cbn [Rsum]. unfold wr2, w2q, node2, b2r. numeric. field. Qed.
Close Scope R_scope.
