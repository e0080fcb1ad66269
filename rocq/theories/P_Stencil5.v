From Coq Require Import QArith Qreals.
From Coquelicot Require Import Coquelicot.
From Verif Require Import Base M_Geometry M_Particle M_Quadrature S_Fem P_Energy M_MatElem P_MatElem M_Mesh M_Operator S_Operator P_Gather P_Stencil.
Local Open Scope R_scope.
(** averages and differences over the coarse nodes around a node of the fine grid, even or odd *)
Definition CV (e : bool) (g : Z -> R) : R := if e then (g (-2)%Z + 10 * g 0%Z + g 2%Z) / 12 else (g (-1)%Z + g 1%Z) / 2.
Definition DV (e : bool) (g : Z -> R) : R := if e then (g 2%Z - g (-2)%Z) / 4 else (g 1%Z - g (-1)%Z) / 2.
Ltac parity := cbv [sub zip_with digits map seq forallb Rsum Nat.pow Nat.mul Nat.add Nat.div Nat.modulo Nat.divmod fst snd Nat.sub Z.of_nat Pos.of_succ_nat Pos.succ]; rewrite !even_sub_lit; cbn [Z.even].
Lemma grad2_all h0 h1 c G (n0 n1 : Z) : (c < 2)%nat -> h0 <> 0 -> h1 <> 0 ->
  Rsum 9 (fun kv => if par_ok [n0; n1] (digits 2 kv) then Rsum 4 (fun kp => getMatElemPressure [h0; h1] kp kv c * G (sub (map (Z.mul 2) (bits 2 kp)) (digits 2 kv))) else 0)
  = - (h0 * h1) * match c with O => CV (Z.even n1) (fun b => DV (Z.even n0) (fun a => G [a; b])) / h0 | _ => CV (Z.even n0) (fun a => DV (Z.even n1) (fun b => G [a; b])) / h1 end.
Proof.
  intros Hc H0 H1. unfold par_ok. parity. unfold CV, DV.
  destruct (Z.even n0), (Z.even n1); cbn [Bool.eqb andb]; destruct c as [|[|c]]; try lia; stencil; field; auto.
Qed.
Lemma grad3_all h0 h1 h2 c G (n0 n1 n2 : Z) : (c < 3)%nat -> h0 <> 0 -> h1 <> 0 -> h2 <> 0 ->
  Rsum 27 (fun kv => if par_ok [n0; n1; n2] (digits 3 kv) then Rsum 8 (fun kp => getMatElemPressure [h0; h1; h2] kp kv c * G (sub (map (Z.mul 2) (bits 3 kp)) (digits 3 kv))) else 0)
  = - (h0 * h1 * h2) * match c with
    | O => CV (Z.even n2) (fun d => CV (Z.even n1) (fun b => DV (Z.even n0) (fun a => G [a; b; d]))) / h0
    | S O => CV (Z.even n2) (fun d => CV (Z.even n0) (fun a => DV (Z.even n1) (fun b => G [a; b; d]))) / h1
    | _ => CV (Z.even n1) (fun b => CV (Z.even n0) (fun a => DV (Z.even n2) (fun d => G [a; b; d]))) / h2 end.
Proof.
  intros Hc H0 H1 H2. unfold par_ok. parity. unfold CV, DV.
  destruct (Z.even n0), (Z.even n1), (Z.even n2); cbn [Bool.eqb andb]; destruct c as [|[|[|c]]]; try lia; stencil; field; auto.
Qed.
(** averages and differences over the fine nodes around a coarse node *)
Definition FV (g : Z -> R) : R := (g (-2)%Z + 6 * g (-1)%Z + 10 * g 0%Z + 6 * g 1%Z + g 2%Z) / 24.
Definition EV (g : Z -> R) : R := (g 2%Z + 2 * g 1%Z - 2 * g (-1)%Z - g (-2)%Z) / 8.
Lemma div2_all h0 h1 G : h0 <> 0 -> h1 <> 0 ->
  Rsum 4 (fun kp => Rsum 9 (fun kv => Rsum 2 (fun d => getMatElemPressure [h0; h1] kp kv d * G d (sub (digits 2 kv) (map (Z.mul 2) (bits 2 kp))))))
  = 4 * (h0 * h1) * (FV (fun b => EV (fun a => G 0%nat [a; b])) / h0 + FV (fun a => EV (fun b => G 1%nat [a; b])) / h1).
Proof. intros H0 H1. unfold FV, EV. stencil. field. auto. Qed.
Lemma div3_all h0 h1 h2 G : h0 <> 0 -> h1 <> 0 -> h2 <> 0 ->
  Rsum 8 (fun kp => Rsum 27 (fun kv => Rsum 3 (fun d => getMatElemPressure [h0; h1; h2] kp kv d * G d (sub (digits 3 kv) (map (Z.mul 2) (bits 3 kp))))))
  = 8 * (h0 * h1 * h2) * (FV (fun c => FV (fun b => EV (fun a => G 0%nat [a; b; c]))) / h0 + FV (fun c => FV (fun a => EV (fun b => G 1%nat [a; b; c]))) / h1 + FV (fun b => FV (fun a => EV (fun c => G 2%nat [a; b; c]))) / h2).
Proof. intros H0 H1 H2. unfold FV, EV. stencil. field. auto. Qed.
