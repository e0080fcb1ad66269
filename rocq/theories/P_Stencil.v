(** The stencils of the operators on polynomials of degree two. *)
From Coq Require Import QArith Qreals.
From Coquelicot Require Import Coquelicot.
From Verif Require Import Base M_Geometry M_Particle M_Quadrature S_Fem P_Energy M_MatElem P_MatElem M_Mesh M_Operator S_Operator.
From Verif Require Import P_Gather.
Local Open Scope R_scope.

(** A + sum B_i o_i + sum C_ij o_i o_j *)
Definition tay (D : nat) (A : R) (B : nat -> R) (C : nat -> nat -> R) (o : list Z) : R :=
  A + Rsum D (fun i => B i * IZR (nth i o 0%Z)) + Rsum D (fun i => Rsum D (fun j => C i j * IZR (nth i o 0%Z) * IZR (nth j o 0%Z))).
Ltac stencil :=
  cbv [tay bits digits sub zip_with map seq Rsum nth Nat.pow Nat.mul Nat.add Nat.div Nat.modulo Nat.divmod fst snd Nat.sub Z.of_nat Pos.of_succ_nat Pos.succ
       Z.sub Z.add Z.opp Z.pos_sub Pos.pred_double Pos.add Z.double Z.mul Pos.mul];
  unfold getMatElemLaplacian, getMatElemLaplacian2, getMatElemLaplacian3, getMatElemMass, getMatElemMass2, getMatElemMass3, getMatElemStrainTensor, getMatElemStrainTensor2, getMatElemStrainTensor3, getMatElemPressure, getMatElemPressure2, getMatElemPressure3;
  unfold matElem2d_dxudxu, matElem2d_dyudyu, matElem2d_dxudyu, matElemMass2d, matElem2d_pdxu, matElem2d_pdyu, matElem3d_dxudxu, matElem3d_dyudyu, matElem3d_dzudzu, matElem3d_dxudyu, matElem3d_dxudzu, matElem3d_dyudzu, matElemMass3d, matElem3d_pdxu, matElem3d_pdyu, matElem3d_pdzu, entry;
  cbv [nth matElem2d_dxudxu_q matElem2d_dyudyu_q matElem2d_dxudyu_q matElemMass2d_q matElem2d_pdxu_q matElem2d_pdyu_q matElem3d_dxudxu_q matElem3d_dyudyu_q matElem3d_dzudzu_q matElem3d_dxudyu_q matElem3d_dxudzu_q matElem3d_dyudzu_q matElemMass3d_q matElem3d_pdxu_q matElem3d_pdyu_q matElem3d_pdzu_q Q2R Qnum Qden].
Lemma lap2 h0 h1 A B C : h0 <> 0 -> h1 <> 0 ->
  Rsum 4 (fun k1 => Rsum 4 (fun k2 => getMatElemLaplacian [h0; h1] k1 k2 * tay 2 A B C (sub (bits 2 k2) (bits 2 k1)))) = - (h0 * h1) * (2 * C 0%nat 0%nat / h0 ^ 2 + 2 * C 1%nat 1%nat / h1 ^ 2).
Proof. intros H0 H1. stencil. field. auto. Qed.
Lemma mass2 h0 h1 f : Rsum 4 (fun k1 => Rsum 4 (fun k2 => getMatElemMass [h0; h1] k1 k2 * f)) = h0 * h1 * f.
Proof. stencil. field. Qed.
Lemma strain2 h0 h1 A B C c : (c < 2)%nat -> h0 <> 0 -> h1 <> 0 ->
  Rsum 4 (fun k1 => Rsum 4 (fun k2 => Rsum 2 (fun d => getMatElemStrainTensor [h0; h1] k1 k2 c d * tay 2 (A d) (B d) (C d) (sub (bits 2 k2) (bits 2 k1)))))
  = - (h0 * h1) * (2 * C c 0%nat 0%nat / h0 ^ 2 + 2 * C c 1%nat 1%nat / h1 ^ 2) - (h0 * h1) * Rsum 2 (fun d => (C d c d + C d d c) / (nth c [h0; h1] 0 * nth d [h0; h1] 0)).
Proof. intros Hc H0 H1. destruct c as [|[|c]]; [| |lia]; stencil; field; auto. Qed.
(** one row of the divergence: zero for a divergence-free field with component d affine along axis d *)
Lemma div2 h0 h1 A B C kp : (kp < 4)%nat -> h0 <> 0 -> h1 <> 0 ->
  (forall d, (d < 2)%nat -> C d d d = 0) ->
  B 0%nat 0%nat / h0 + B 1%nat 1%nat / h1 = 0 -> (forall i, (i < 2)%nat -> (C 0%nat 0%nat i + C 0%nat i 0%nat) / h0 + (C 1%nat 1%nat i + C 1%nat i 1%nat) / h1 = 0) ->
  Rsum 9 (fun kv => Rsum 2 (fun d => getMatElemPressure [h0; h1] kp kv d * tay 2 (A d) (B d) (C d) (digits 2 kv))) = 0.
Proof.
  intros Hk H0 H1 HC HB HD. pose proof (HC 0%nat ltac:(lia)) as C0. pose proof (HC 1%nat ltac:(lia)) as C1. pose proof (HD 0%nat ltac:(lia)) as D0. pose proof (HD 1%nat ltac:(lia)) as D1. clear HC HD.
  assert (E : B 1%nat 1%nat = - h1 * (B 0%nat 0%nat / h0)) by (replace (B 0%nat 0%nat / h0) with (- (B 1%nat 1%nat / h1)) by lra; field; auto).
  assert (E0 : C 1%nat 1%nat 0%nat = - C 1%nat 0%nat 1%nat - h1 * ((C 0%nat 0%nat 0%nat + C 0%nat 0%nat 0%nat) / h0)) by (replace ((C 0%nat 0%nat 0%nat + C 0%nat 0%nat 0%nat) / h0) with (- ((C 1%nat 1%nat 0%nat + C 1%nat 0%nat 1%nat) / h1)) by lra; field; auto).
  assert (E1 : C 0%nat 0%nat 1%nat = - C 0%nat 1%nat 0%nat - h0 * ((C 1%nat 1%nat 1%nat + C 1%nat 1%nat 1%nat) / h1)) by (replace ((C 1%nat 1%nat 1%nat + C 1%nat 1%nat 1%nat) / h1) with (- ((C 0%nat 0%nat 1%nat + C 0%nat 1%nat 0%nat) / h0)) by lra; field; auto).
  destruct kp as [|[|[|[|kp]]]]; try lia; stencil; rewrite E, E0, E1, C0, C1; field; auto.
Qed.
Lemma even_sub_lit n o : Z.even (n - o) = Bool.eqb (Z.even n) (Z.even o).
Proof. apply Z.even_sub. Qed.
Lemma grad2 h0 h1 c P0 P (n : list Z) : length n = 2%nat -> (c < 2)%nat -> h0 <> 0 -> h1 <> 0 ->
  Rsum 9 (fun kv => if par_ok n (digits 2 kv) then Rsum 4 (fun kp => getMatElemPressure [h0; h1] kp kv c * tay 2 P0 P (fun _ _ => 0) (sub (map (Z.mul 2) (bits 2 kp)) (digits 2 kv))) else 0)
  = - (h0 * h1) * (P c / nth c [h0; h1] 0).
Proof.
  intros L Hc H0 H1. destruct n as [|n0 [|n1 [|]]]; try discriminate L. unfold par_ok.
  cbv [sub zip_with digits map seq forallb Rsum Nat.pow Nat.mul Nat.add Nat.div Nat.modulo Nat.divmod fst snd Nat.sub Z.of_nat Pos.of_succ_nat Pos.succ]. rewrite !even_sub_lit. cbn [Z.even].
  destruct (Z.even n0), (Z.even n1); cbn [Bool.eqb andb]; destruct c as [|[|c]]; try lia; stencil; field; auto.
Qed.
