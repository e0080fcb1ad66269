From Coq Require Import QArith Qreals.
From Coquelicot Require Import Coquelicot.
From Verif Require Import Base M_Geometry M_Particle M_Quadrature S_Fem P_Energy M_MatElem P_MatElem M_Mesh M_Operator S_Operator P_Gather P_Stencil.
Local Open Scope R_scope.
(** The strain-tensor rows: on the diagonal, the Laplacian and once more the second difference along the axis of the component; off it, crossed differences. *)
Definition X2 (G : Z -> Z -> R) : R := (G 1%Z 1%Z - G 1%Z (-1)%Z - G (-1)%Z 1%Z + G (-1)%Z (-1)%Z) / 4.
Definition AV6 (g : Z -> R) : R := (g (-1)%Z + 4 * g 0%Z + g 1%Z) / 6.
Lemma strain2_diag h0 h1 c G : (c < 2)%nat -> h0 <> 0 -> h1 <> 0 ->
  Rsum 4 (fun k1 => Rsum 4 (fun k2 => getMatElemStrainTensor [h0; h1] k1 k2 c c * G (sub (bits 2 k2) (bits 2 k1)))) =
  Rsum 4 (fun k1 => Rsum 4 (fun k2 => getMatElemLaplacian [h0; h1] k1 k2 * G (sub (bits 2 k2) (bits 2 k1)))) - h0 * h1 *
  match c with O => AV6 (fun b => G [1%Z; b] - 2 * G [0%Z; b] + G [(-1)%Z; b]) / h0 ^ 2 | _ => AV6 (fun a => G [a; 1%Z] - 2 * G [a; 0%Z] + G [a; (-1)%Z]) / h1 ^ 2 end.
Proof. intros Hc H0 H1. unfold AV6. destruct c as [|[|c]]; [| |lia]; stencil; field; auto. Qed.
Lemma strain2_off h0 h1 c d G : (c < 2)%nat -> (d < 2)%nat -> c <> d -> h0 <> 0 -> h1 <> 0 ->
  Rsum 4 (fun k1 => Rsum 4 (fun k2 => getMatElemStrainTensor [h0; h1] k1 k2 c d * G (sub (bits 2 k2) (bits 2 k1)))) = - (h0 * h1) * (X2 (fun a b => G [a; b]) / (h0 * h1)).
Proof. intros Hc Hd N H0 H1. unfold X2. destruct c as [|[|c]], d as [|[|d]]; try lia; stencil; field; auto. Qed.
Lemma strain3_diag h0 h1 h2 c G : (c < 3)%nat -> h0 <> 0 -> h1 <> 0 -> h2 <> 0 ->
  Rsum 8 (fun k1 => Rsum 8 (fun k2 => getMatElemStrainTensor [h0; h1; h2] k1 k2 c c * G (sub (bits 3 k2) (bits 3 k1)))) =
  Rsum 8 (fun k1 => Rsum 8 (fun k2 => getMatElemLaplacian [h0; h1; h2] k1 k2 * G (sub (bits 3 k2) (bits 3 k1)))) - h0 * h1 * h2 *
  match c with
  | O => AV6 (fun c => AV6 (fun b => G [1%Z; b; c] - 2 * G [0%Z; b; c] + G [(-1)%Z; b; c])) / h0 ^ 2
  | S O => AV6 (fun c => AV6 (fun a => G [a; 1%Z; c] - 2 * G [a; 0%Z; c] + G [a; (-1)%Z; c])) / h1 ^ 2
  | _ => AV6 (fun b => AV6 (fun a => G [a; b; 1%Z] - 2 * G [a; b; 0%Z] + G [a; b; (-1)%Z])) / h2 ^ 2
  end.
Proof. intros Hc H0 H1 H2. unfold AV6. destruct c as [|[|[|c]]]; [| | |lia]; stencil; field; auto. Qed.
Lemma strain3_off h0 h1 h2 c d G : (c < 3)%nat -> (d < 3)%nat -> c <> d -> h0 <> 0 -> h1 <> 0 -> h2 <> 0 ->
  Rsum 8 (fun k1 => Rsum 8 (fun k2 => getMatElemStrainTensor [h0; h1; h2] k1 k2 c d * G (sub (bits 3 k2) (bits 3 k1)))) = - (h0 * h1 * h2) *
  match (c + d)%nat with
  | 1%nat => AV6 (fun k => X2 (fun a b => G [a; b; k])) / (h0 * h1)
  | 2%nat => AV6 (fun k => X2 (fun a b => G [a; k; b])) / (h0 * h2)
  | _ => AV6 (fun k => X2 (fun a b => G [k; a; b])) / (h1 * h2)
  end.
Proof. intros Hc Hd N H0 H1 H2. unfold AV6, X2. destruct c as [|[|[|c]]], d as [|[|[|d]]]; try lia; cbn [Nat.add]; stencil; field; auto. Qed.
