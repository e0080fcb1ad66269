(** The stencils of the operators on polynomials of degree two, 3D. *)
From Coq Require Import QArith Qreals.
From Coquelicot Require Import Coquelicot.
From Verif Require Import Base M_Geometry M_Particle M_Quadrature S_Fem P_Energy M_MatElem P_MatElem M_Mesh M_Operator S_Operator.
From Verif Require Import P_Gather P_Stencil.
Local Open Scope R_scope.
Lemma mass3 h0 h1 h2 f : Rsum 8 (fun k1 => Rsum 8 (fun k2 => getMatElemMass [h0; h1; h2] k1 k2 * f)) = h0 * h1 * h2 * f.
Proof. stencil. field. Qed.
Lemma lap3 h0 h1 h2 A B C : h0 <> 0 -> h1 <> 0 -> h2 <> 0 ->
  Rsum 8 (fun k1 => Rsum 8 (fun k2 => getMatElemLaplacian [h0; h1; h2] k1 k2 * tay 3 A B C (sub (bits 3 k2) (bits 3 k1)))) = - (h0 * h1 * h2) * (2 * C 0%nat 0%nat / h0 ^ 2 + 2 * C 1%nat 1%nat / h1 ^ 2 + 2 * C 2%nat 2%nat / h2 ^ 2).
Proof. intros H0 H1 H2. stencil. field. auto. Qed.
Lemma div3 h0 h1 h2 A B C kp : (kp < 8)%nat -> h0 <> 0 -> h1 <> 0 -> h2 <> 0 ->
  (forall d, (d < 3)%nat -> C d d d = 0) ->
  B 0%nat 0%nat / h0 + B 1%nat 1%nat / h1 + B 2%nat 2%nat / h2 = 0 -> (forall i, (i < 3)%nat -> (C 0%nat 0%nat i + C 0%nat i 0%nat) / h0 + (C 1%nat 1%nat i + C 1%nat i 1%nat) / h1 + (C 2%nat 2%nat i + C 2%nat i 2%nat) / h2 = 0) ->
  Rsum 27 (fun kv => Rsum 3 (fun d => getMatElemPressure [h0; h1; h2] kp kv d * tay 3 (A d) (B d) (C d) (digits 3 kv))) = 0.
Proof.
  intros Hk H0 H1 H2 HC HB HD. pose proof (HC 0%nat ltac:(lia)) as C0. pose proof (HC 1%nat ltac:(lia)) as C1. pose proof (HC 2%nat ltac:(lia)) as C2. pose proof (HD 0%nat ltac:(lia)) as D0. pose proof (HD 1%nat ltac:(lia)) as D1. pose proof (HD 2%nat ltac:(lia)) as D2. clear HC HD.
  assert (K : forall x y z a b c, a <> 0 -> b <> 0 -> c <> 0 -> x / a + y / b + z / c = 0 -> z = - c * (x / a + y / b)) by (intros x y z a b c Ha Hb Hc HE; replace (x / a + y / b) with (- (z / c)) by lra; field; auto).
  apply K in HB; auto. rewrite C0 in D0. rewrite C1 in D1. rewrite C2 in D2.
  assert (E0 : C 2%nat 2%nat 0%nat = - C 2%nat 0%nat 2%nat - h2 * ((C 1%nat 1%nat 0%nat + C 1%nat 0%nat 1%nat) / h1)). { apply K in D0; auto. replace (C 2%nat 2%nat 0%nat) with (C 2%nat 2%nat 0%nat + C 2%nat 0%nat 2%nat - C 2%nat 0%nat 2%nat) by ring. rewrite D0. field; auto. }
  assert (E1 : C 2%nat 2%nat 1%nat = - C 2%nat 1%nat 2%nat - h2 * ((C 0%nat 0%nat 1%nat + C 0%nat 1%nat 0%nat) / h0)). { apply K in D1; auto. replace (C 2%nat 2%nat 1%nat) with (C 2%nat 2%nat 1%nat + C 2%nat 1%nat 2%nat - C 2%nat 1%nat 2%nat) by ring. rewrite D1. field; auto. }
  assert (E2 : C 1%nat 1%nat 2%nat = - C 1%nat 2%nat 1%nat - h1 * ((C 0%nat 0%nat 2%nat + C 0%nat 2%nat 0%nat) / h0)). { assert (D2' : (C 0%nat 0%nat 2%nat + C 0%nat 2%nat 0%nat) / h0 + (0 + 0) / h2 + (C 1%nat 1%nat 2%nat + C 1%nat 2%nat 1%nat) / h1 = 0) by lra. apply K in D2'; auto. replace (C 1%nat 1%nat 2%nat) with (C 1%nat 1%nat 2%nat + C 1%nat 2%nat 1%nat - C 1%nat 2%nat 1%nat) by ring. rewrite D2'. field; auto. }
  clear D0 D1 D2 K. destruct kp as [|[|[|[|[|[|[|[|kp]]]]]]]]; try lia. all: stencil; rewrite HB, E0, E1, E2, C0, C1, C2; field; auto.
Qed.
Lemma strain3 h0 h1 h2 A B C c : (c < 3)%nat -> h0 <> 0 -> h1 <> 0 -> h2 <> 0 ->
  Rsum 8 (fun k1 => Rsum 8 (fun k2 => Rsum 3 (fun d => getMatElemStrainTensor [h0; h1; h2] k1 k2 c d * tay 3 (A d) (B d) (C d) (sub (bits 3 k2) (bits 3 k1)))))
  = - (h0 * h1 * h2) * (2 * C c 0%nat 0%nat / h0 ^ 2 + 2 * C c 1%nat 1%nat / h1 ^ 2 + 2 * C c 2%nat 2%nat / h2 ^ 2) - (h0 * h1 * h2) * Rsum 3 (fun d => (C d c d + C d d c) / (nth c [h0; h1; h2] 0 * nth d [h0; h1; h2] 0)).
Proof. intros Hc H0 H1 H2. destruct c as [|[|[|c]]]; [| | |lia]; stencil; field; auto. Qed.
Lemma grad3 h0 h1 h2 c P0 P (n : list Z) : length n = 3%nat -> (c < 3)%nat -> h0 <> 0 -> h1 <> 0 -> h2 <> 0 ->
  Rsum 27 (fun kv => if par_ok n (digits 3 kv) then Rsum 8 (fun kp => getMatElemPressure [h0; h1; h2] kp kv c * tay 3 P0 P (fun _ _ => 0) (sub (map (Z.mul 2) (bits 3 kp)) (digits 3 kv))) else 0)
  = - (h0 * h1 * h2) * (P c / nth c [h0; h1; h2] 0).
Proof.
  intros L Hc H0 H1 H2. destruct n as [|n0 [|n1 [|n2 [|]]]]; try discriminate L. unfold par_ok.
  cbv [sub zip_with digits map seq forallb Rsum Nat.pow Nat.mul Nat.add Nat.div Nat.modulo Nat.divmod fst snd Nat.sub Z.of_nat Pos.of_succ_nat Pos.succ]. rewrite !even_sub_lit. cbn [Z.even].
  destruct (Z.even n0), (Z.even n1), (Z.even n2); cbn [Bool.eqb andb]; destruct c as [|[|[|c]]]; try lia; stencil; field; auto.
Qed.
