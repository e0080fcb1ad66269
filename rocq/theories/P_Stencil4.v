From Coq Require Import QArith Qreals.
From Coquelicot Require Import Coquelicot.
From Verif Require Import Base M_Geometry M_Particle M_Quadrature S_Fem P_Energy M_MatElem P_MatElem M_Mesh M_Operator S_Operator P_Gather P_Stencil.
Local Open Scope R_scope.
Lemma lap2_all h0 h1 G : h0 <> 0 -> h1 <> 0 ->
  Rsum 4 (fun k1 => Rsum 4 (fun k2 => getMatElemLaplacian [h0; h1] k1 k2 * G (sub (bits 2 k2) (bits 2 k1)))) =
  let d0 b := G [1%Z; b] - 2 * G [0%Z; b] + G [(-1)%Z; b] in let d1 a := G [a; 1%Z] - 2 * G [a; 0%Z] + G [a; (-1)%Z] in
  - (h0 * h1) * ((d0 (-1)%Z + 4 * d0 0%Z + d0 1%Z) / 6 / h0 ^ 2 + (d1 (-1)%Z + 4 * d1 0%Z + d1 1%Z) / 6 / h1 ^ 2).
Proof. intros H0 H1. cbv zeta. stencil. field. auto. Qed.
Lemma mass2_all h0 h1 G : 
  Rsum 4 (fun k1 => Rsum 4 (fun k2 => getMatElemMass [h0; h1] k1 k2 * G (sub (bits 2 k2) (bits 2 k1)))) =
  let w b := (G [1%Z; b] + 4 * G [0%Z; b] + G [(-1)%Z; b]) / 6 in h0 * h1 * ((w (-1)%Z + 4 * w 0%Z + w 1%Z) / 6).
Proof. cbv zeta. stencil. field. Qed.
Lemma mass3_all h0 h1 h2 G : 
  Rsum 8 (fun k1 => Rsum 8 (fun k2 => getMatElemMass [h0; h1; h2] k1 k2 * G (sub (bits 3 k2) (bits 3 k1)))) =
  let w b c := (G [1%Z; b; c] + 4 * G [0%Z; b; c] + G [(-1)%Z; b; c]) / 6 in let v c := (w (-1)%Z c + 4 * w 0%Z c + w 1%Z c) / 6 in h0 * h1 * h2 * ((v (-1)%Z + 4 * v 0%Z + v 1%Z) / 6).
Proof. cbv zeta. stencil. field. Qed.
Lemma lap3_all h0 h1 h2 G : h0 <> 0 -> h1 <> 0 -> h2 <> 0 ->
  Rsum 8 (fun k1 => Rsum 8 (fun k2 => getMatElemLaplacian [h0; h1; h2] k1 k2 * G (sub (bits 3 k2) (bits 3 k1)))) =
  let av (g : Z -> R) := (g (-1)%Z + 4 * g 0%Z + g 1%Z) / 6 in
  let d0 b c := G [1%Z; b; c] - 2 * G [0%Z; b; c] + G [(-1)%Z; b; c] in let d1 a c := G [a; 1%Z; c] - 2 * G [a; 0%Z; c] + G [a; (-1)%Z; c] in let d2 a b := G [a; b; 1%Z] - 2 * G [a; b; 0%Z] + G [a; b; (-1)%Z] in
  - (h0 * h1 * h2) * (av (fun c => av (fun b => d0 b c)) / h0 ^ 2 + av (fun c => av (fun a => d1 a c)) / h1 ^ 2 + av (fun b => av (fun a => d2 a b)) / h2 ^ 2).
Proof. intros H0 H1 H2. cbv zeta. stencil. field. auto. Qed.
