(** Two dimensions: the energy of the strain tensor is at least that of the Laplacian, for fields that vanish on the walls. *)
From Coq Require Import QArith Qreals Permutation FunctionalExtensionality.
From Coquelicot Require Import Coquelicot.
From Verif Require Import Base M_Geometry S_Geometry P_Geometry M_Particle S_Particle P_Particle M_Quadrature S_Fem P_Energy P_Precond M_MatElem P_MatElem M_Mesh M_Bc M_Assembly M_Operator S_Operator S_Bc P_Mesh P_Operator P_Operator2 P_Operator3 P_Global P_Stokes P_Assembly P_Assembly2 P_Telescope P_Gather P_Stencil P_Conv P_Conv2.
Open Scope R_scope.
Definition Ksum (u0 u1 : nat -> R) : R := Rsum 4 (fun k1 => Rsum 4 (fun k2 => u0 k1 * Kd k1 k2 * u1 k2)).
Lemma Ksum_g u0 u1 : Ksum u0 u1 = Rsum 4 (fun m => P_Energy.wr2 m * (g2 1 u1 m * g2 0 u0 m)) - Rsum 4 (fun m => P_Energy.wr2 m * (g2 1 u0 m * g2 0 u1 m)).
Proof.
  rewrite <- !bil2_10. unfold Ksum, Kd, bil. cbn [Rsum]. ring.
Qed.
Lemma cell_korn h0 h1 U : 0 < h0 -> 0 < h1 ->
  Rsum 2 (fun d => qform 4 (getMatElemLaplacian [h0; h1]) (fun k => U k d)) + (-2) * Ksum (fun k => U k 0%nat) (fun k => U k 1%nat) <= vform 4 2 (getMatElemStrainTensor [h0; h1]) U.
Proof.
  intros H0 H1. change (getMatElemStrainTensor [h0; h1]) with (getMatElemStrainTensor2 h0 h1). change (getMatElemLaplacian [h0; h1]) with (getMatElemLaplacian2 h0 h1). rewrite strain2_sos by lra. change (Rsum 2 (fun d => qform 4 (getMatElemLaplacian2 h0 h1) (fun k => U k d))) with (0 + qform 4 (getMatElemLaplacian2 h0 h1) (fun k => U k 0%nat) + qform 4 (getMatElemLaplacian2 h0 h1) (fun k => U k 1%nat)). rewrite !lap2_sos by lra. rewrite Ksum_g.
  set (u0 := fun k => U k 0%nat). set (u1 := fun k => U k 1%nat).
  apply Rle_trans with (Rsum 4 (fun m => P_Energy.wr2 m * (h1 / h0 * (g2 0 u0 m * g2 0 u0 m) + h0 / h1 * (g2 1 u0 m * g2 1 u0 m)) + P_Energy.wr2 m * (h1 / h0 * (g2 0 u1 m * g2 0 u1 m) + h0 / h1 * (g2 1 u1 m * g2 1 u1 m))
    + (-2) * (P_Energy.wr2 m * (g2 1 u1 m * g2 0 u0 m) + (-1) * (P_Energy.wr2 m * (g2 1 u0 m * g2 0 u1 m))))).
  - apply Req_le. rewrite !Rsum_plus, Rsum_scal, Rsum_plus, Rsum_scal. unfold u0, u1. ring.
  - apply Rsum_le. intros k Hk. pose proof (wr2_pos k Hk) as W. set (a := g2 0 u0 k). set (b := g2 1 u0 k). set (c := g2 0 u1 k). set (d := g2 1 u1 k). fold u0 u1. fold a b c d.
    assert (HP : 0 < h0 * h1) by (apply Rmult_lt_0_compat; auto). assert (Q : 0 <= P_Energy.wr2 k * (h0 * h1) * (a / h0 + d / h1) ^ 2) by (apply Rmult_le_pos; [apply Rmult_le_pos; lra|apply pow2_ge_0]).
    match goal with |- ?l <= ?r => replace r with (l + P_Energy.wr2 k * (h0 * h1) * (a / h0 + d / h1) ^ 2) by (field; lra) end. lra.
Qed.
Lemma Ksum_null m0 m1 q0 q1 x E : let m := [m0; m1] in let per := [q0; q1] in (1 <= m0 /\ 1 <= m1)%Z -> null_on_sides m per 2 x 0 -> enumerates E (cells_box m per) ->
  Lsum (fun e => Ksum (fun k => gv m per x e k 0) (fun k => gv m per x e k 1)) E = 0.
Proof.
  intros m per HM HV HE. pose proof (strain_same m0 m1 q0 q1 HM x x HV 1 1 E HE) as S.
  assert (K : tensor_form m per E 2 (strainA 1 1) x x = tensor_form m per E 2 (getMatElemStrainTensor [1; 1]) x x + Lsum (fun e => Rsum 4 (fun k1 => Rsum 4 (fun k2 => gv m per x e k1 0 * Kd k1 k2 * gv m per x e k2 1))) E).
  { unfold tensor_form. rewrite <- Lsum_plus. apply Lsum_ext. intros e _. change (2 ^ length m)%nat with 4%nat. rewrite <- Rsum_plus. apply Rsum_ext. intros k1 H1. rewrite <- Rsum_plus. apply Rsum_ext. intros k2 H2.
    cbn [Rsum]. rewrite !strainA_split by (auto; lia). cbn [Nat.eqb andb]. ring. }
  fold m per in S. unfold Ksum. lra.
Qed.
Lemma korn2 h m per x : length m = 2%nat -> grid_ok m per -> steps_ok h m -> null_on_sides m per 2 x 0 ->
  Rsum 2 (fun d => Lsum (fun e => qform 4 (getMatElemLaplacian h) (fun k => gv m per x e k d)) (E0 m per)) <= tensor_form m per (E0 m per) 2 (getMatElemStrainTensor h) x x.
Proof.
  intros L2 HG HS HV. pose proof (E0_enum m per (proj1 (proj2 HG))) as HE. destruct HG as (_ & LP & F1). destruct HS as [Lh HP].
  destruct m as [|m0 [|m1 [|]]]; try discriminate L2. destruct per as [|q0 [|q1 [|]]]; try discriminate LP. destruct h as [|h0 [|h1 [|]]]; try discriminate Lh.
  inversion HP as [|? ? P0 HP1]; subst. inversion HP1 as [|? ? P1 _]; subst. inversion F1 as [|? ? M0 F2]; subst. inversion F2 as [|? ? M1 _]; subst.
  set (m := [m0; m1]) in *. set (per := [q0; q1]) in *.
  pose proof (Ksum_null m0 m1 q0 q1 x (E0 m per) (conj M0 M1) HV HE) as KN. fold m per in KN.
  rewrite tensor_form_v. change (2 ^ length m)%nat with 4%nat.
  apply Rle_trans with (Lsum (fun e => Rsum 2 (fun d => qform 4 (getMatElemLaplacian [h0; h1]) (fun k => gv m per x e k d)) + (-2) * Ksum (fun k => gv m per x e k 0) (fun k => gv m per x e k 1)) (E0 m per)).
  - apply Req_le. rewrite Lsum_plus, Lsum_scal, KN, Lsum_Rsum. ring.
  - apply Lsum_le. intros e _. apply (cell_korn h0 h1 (fun k d => gv m per x e k d) P0 P1).
Qed.
(** the energy of the strain tensor controls the field, one axis with walls being enough *)
Lemma strain_poincare2 h m per x d : length m = 2%nat -> grid_ok m per -> has_cells m per -> steps_ok h m -> (d < length m)%nat -> nth d per false = false ->
  (forall c, (c < 2)%nat -> null_on_sides m per 2 x c) ->
  volume h * Rsum 2 (fun c => Lsum (fun n => x n c ^ 2) (N0 m)) <= 2 * thick 2 * (nth d h 0 * INR (Z.to_nat (nth d m 0 - 1)%Z)) ^ 2 * tensor_form m per (E0 m per) 2 (getMatElemStrainTensor h) x x.
Proof.
  intros L2 HG HC HS Hd Hp HV. pose proof (korn2 h m per x L2 HG HS (HV 0%nat ltac:(lia))) as KO. pose proof (thick_pos 2) as TP. set (l := nth d h 0 * INR (Z.to_nat (nth d m 0 - 1)%Z)). pose proof (pow2_ge_0 l) as PL.
  eapply Rle_trans; [|apply Rmult_le_compat_l; [apply Rmult_le_pos; [lra|exact PL]|exact KO]]. rewrite <- !Rsum_scal. apply Rsum_le. intros c Hc.
  assert (H0 : forall n, in_grid_box (nodes_box m) n -> nth d n 0%Z = 0%Z -> x n c = 0).
  { intros n Hn Z0. apply (HV c Hc n (d, false) Hn); [cbn; lia|]. unfold on_side. cbn [fst snd]. rewrite Hp. cbn [negb andb]. apply Z.eqb_eq, Z0. }
  pose proof (poincare h m per x c d HG HC HS Hd Hp H0) as PO. rewrite L2 in PO. fold l in PO. change (2 ^ 2)%nat with 4%nat in PO. rewrite Rmult_comm. exact PO.
Qed.
Close Scope R_scope.
