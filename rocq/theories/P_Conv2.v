(** Energy of the strain tensor: along the axis c, that of the component c. *)
From Coq Require Import QArith Qreals Permutation FunctionalExtensionality.
From Coquelicot Require Import Coquelicot.
From Verif Require Import Base M_Geometry S_Geometry P_Geometry M_Particle S_Particle P_Particle M_Quadrature S_Fem P_Energy P_Precond M_MatElem P_MatElem M_Mesh M_Operator S_Operator P_Mesh P_Operator P_Operator2 P_Operator3 P_Global P_Gather P_Stencil P_Conv.
Open Scope R_scope.
Lemma dir2 U : Rsum 4 (fun m => wr2 m * (g2 0 U m * g2 0 U m)) = E2 (U 1%nat - U 0%nat) (U 3%nat - U 2%nat) /\
  Rsum 4 (fun m => wr2 m * (g2 1 U m * g2 1 U m)) = E2 (U 2%nat - U 0%nat) (U 3%nat - U 1%nat).
Proof. rewrite <- bil2_00, <- bil2_11. unfold bil, E2. split; stencil; field. Qed.
Lemma dir3 U : Rsum 8 (fun m => wr3 m * (g3 0 U m * g3 0 U m)) = E4 (U 1%nat - U 0%nat) (U 3%nat - U 2%nat) (U 5%nat - U 4%nat) (U 7%nat - U 6%nat) /\
  Rsum 8 (fun m => wr3 m * (g3 1 U m * g3 1 U m)) = E4 (U 2%nat - U 0%nat) (U 3%nat - U 1%nat) (U 6%nat - U 4%nat) (U 7%nat - U 5%nat) /\
  Rsum 8 (fun m => wr3 m * (g3 2 U m * g3 2 U m)) = E4 (U 4%nat - U 0%nat) (U 5%nat - U 1%nat) (U 6%nat - U 2%nat) (U 7%nat - U 3%nat).
Proof. rewrite <- bil3_00, <- bil3_11, <- bil3_22. unfold bil, E4. repeat split; stencil; field. Qed.
(** the part of the energy of a cell due to the derivatives of the components along their own axes *)
Definition own (D : nat) (h : list R) (U : nat -> nat -> R) : R := Rsum D (fun c => 2 * (volume h / (nth c h 0) ^ 2 * (edge D c (fun k => U k c) / thick D))).
Lemma cell_strain h m U : steps_ok h m -> (length m = 2 \/ length m = 3)%nat -> own (length m) h U <= vform (2 ^ length m) (length m) (getMatElemStrainTensor h) U.
Proof.
  intros [Lh HP] HD. unfold own. destruct HD as [E|E]; rewrite E in *.
  - destruct h as [|h0 [|h1 [|]]]; try discriminate Lh. inversion HP as [|? ? P0 HP1]; subst. inversion HP1 as [|? ? P1 _]; subst. change (2 ^ 2)%nat with 4%nat.
    change (getMatElemStrainTensor [h0; h1]) with (getMatElemStrainTensor2 h0 h1). rewrite strain2_sos by lra.
    assert (V : 0 < h0 * h1) by (apply Rmult_lt_0_compat; auto). assert (S0 : 0 < h0 ^ 2) by (apply pow_lt, P0). assert (S1 : 0 < h1 ^ 2) by (apply pow_lt, P1).
    set (u0 := fun i => U i 0%nat). set (u1 := fun i => U i 1%nat).
    apply Rle_trans with (2 * (h0 * h1 / h0 ^ 2 * Rsum 4 (fun m => wr2 m * (g2 0 u0 m * g2 0 u0 m))) + 2 * (h0 * h1 / h1 ^ 2 * Rsum 4 (fun m => wr2 m * (g2 1 u1 m * g2 1 u1 m)))).
    + rewrite (proj1 (dir2 u0)), (proj2 (dir2 u1)). unfold volume. cbn [Rsum nth fold_right]. rewrite Rplus_0_l, Rmult_1_r.
      assert (L0 : edge 2 0 u0 / thick 2 <= E2 (u0 1%nat - u0 0%nat) (u0 3%nat - u0 2%nat)) by (eapply Rle_trans; [|apply E2_low]; apply Req_le; unfold edge, thick; cbn [Rsum Nat.pow Nat.div Nat.divmod Nat.even Nat.mul Nat.add fst snd Nat.sub]; field).
      assert (L1 : edge 2 1 u1 / thick 2 <= E2 (u1 2%nat - u1 0%nat) (u1 3%nat - u1 1%nat)) by (eapply Rle_trans; [|apply E2_low]; apply Req_le; unfold edge, thick; cbn [Rsum Nat.pow Nat.div Nat.divmod Nat.even Nat.mul Nat.add fst snd Nat.sub]; field).
      pose proof (frac_le _ _ _ _ V S0 L0). pose proof (frac_le _ _ _ _ V S1 L1). fold u0 u1. unfold Rdiv in *. lra.
    + rewrite <- !Rsum_scal, <- Rsum_plus. apply Rsum_le. intros k Hk. pose proof (wr2_pos k Hk) as W.
      apply Rle_trans with (wr2 k * (h0 * h1) * (2 * (g2 0 u0 k / h0) ^ 2 + 2 * (g2 1 u1 k / h1) ^ 2)); [apply Req_le; field; lra|]. apply Rmult_le_compat_l; [apply Rmult_le_pos; lra|]. pose proof (pow2_ge_0 (g2 1 u0 k / h1 + g2 0 u1 k / h0)). lra.
  - destruct h as [|h0 [|h1 [|h2 [|]]]]; try discriminate Lh. inversion HP as [|? ? P0 HP1]; subst. inversion HP1 as [|? ? P1 HP2]; subst. inversion HP2 as [|? ? P2 _]; subst. change (2 ^ 3)%nat with 8%nat.
    change (getMatElemStrainTensor [h0; h1; h2]) with (getMatElemStrainTensor3 h0 h1 h2). rewrite strain3_sos by lra.
    assert (V : 0 < h0 * h1 * h2) by (repeat apply Rmult_lt_0_compat; auto). assert (S0 : 0 < h0 ^ 2) by (apply pow_lt, P0). assert (S1 : 0 < h1 ^ 2) by (apply pow_lt, P1). assert (S2 : 0 < h2 ^ 2) by (apply pow_lt, P2).
    set (u0 := fun i => U i 0%nat). set (u1 := fun i => U i 1%nat). set (u2 := fun i => U i 2%nat).
    apply Rle_trans with (2 * (h0 * h1 * h2 / h0 ^ 2 * Rsum 8 (fun m => wr3 m * (g3 0 u0 m * g3 0 u0 m))) + 2 * (h0 * h1 * h2 / h1 ^ 2 * Rsum 8 (fun m => wr3 m * (g3 1 u1 m * g3 1 u1 m))) + 2 * (h0 * h1 * h2 / h2 ^ 2 * Rsum 8 (fun m => wr3 m * (g3 2 u2 m * g3 2 u2 m)))).
    + rewrite (proj1 (dir3 u0)), (proj1 (proj2 (dir3 u1))), (proj2 (proj2 (dir3 u2))). unfold volume. cbn [Rsum nth fold_right]. rewrite Rplus_0_l, Rmult_1_r, <- Rmult_assoc.
      match goal with |- _ <= 2 * (_ * ?a) + 2 * (_ * ?b) + 2 * (_ * ?c) => set (A := a); set (B := b); set (C := c) end.
      assert (L0 : edge 3 0 u0 / thick 3 <= A) by (eapply Rle_trans; [|apply E4_low]; apply Req_le; unfold edge, thick; cbn [Rsum Nat.pow Nat.div Nat.divmod Nat.even Nat.mul Nat.add fst snd Nat.sub]; field).
      assert (L1 : edge 3 1 u1 / thick 3 <= B) by (eapply Rle_trans; [|apply E4_low]; apply Req_le; unfold edge, thick; cbn [Rsum Nat.pow Nat.div Nat.divmod Nat.even Nat.mul Nat.add fst snd Nat.sub]; field).
      assert (L2 : edge 3 2 u2 / thick 3 <= C) by (eapply Rle_trans; [|apply E4_low]; apply Req_le; unfold edge, thick; cbn [Rsum Nat.pow Nat.div Nat.divmod Nat.even Nat.mul Nat.add fst snd Nat.sub]; field).
      pose proof (frac_le _ _ _ _ V S0 L0). pose proof (frac_le _ _ _ _ V S1 L1). pose proof (frac_le _ _ _ _ V S2 L2). fold u0 u1 u2. unfold Rdiv in *. lra.
    + rewrite <- !Rsum_scal, <- !Rsum_plus. apply Rsum_le. intros k Hk. pose proof (wr3_pos k Hk) as W.
      apply Rle_trans with (wr3 k * (h0 * h1 * h2) * (2 * (g3 0 u0 k / h0) ^ 2 + 2 * (g3 1 u1 k / h1) ^ 2 + 2 * (g3 2 u2 k / h2) ^ 2)); [apply Req_le; field; lra|]. apply Rmult_le_compat_l; [apply Rmult_le_pos; lra|].
      pose proof (pow2_ge_0 (g3 1 u0 k / h1 + g3 0 u1 k / h0)). pose proof (pow2_ge_0 (g3 2 u0 k / h2 + g3 0 u2 k / h0)). pose proof (pow2_ge_0 (g3 2 u1 k / h2 + g3 1 u2 k / h1)). fold u0 u1 u2. lra.
Qed.
Lemma edge_nonneg D d U : 0 <= edge D d U.
Proof. unfold edge. apply P_Energy.Rsum_nonneg. intros k _. destruct (Nat.even (k / 2 ^ d)); [apply pow2_ge_0|lra]. Qed.
(** Poincaré, in terms of the differences along the edges *)
Lemma poincare_edges h m per x c d : grid_ok m per -> has_cells m per -> steps_ok h m -> (d < length m)%nat -> nth d per false = false -> (forall n, in_grid_box (nodes_box m) n -> nth d n 0%Z = 0%Z -> x n c = 0) ->
  Lsum (fun n => x n c ^ 2) (N0 m) <= 2 * INR (Z.to_nat (nth d m 0 - 1)%Z) ^ 2 * Lsum (fun e => edge (length m) d (fun k => gv m per x e k c)) (E0 m per).
Proof.
  intros HG HC HS Hd Hp H0. pose proof (E0_enum m per (proj1 (proj2 HG))) as [NE IE].
  eapply Rle_trans; [apply (nodes_verts m per x c HG HC)|]. 
  eapply Rle_trans; [apply Lsum_le; intros e He; apply (verts_le m per x c d HG Hd Hp H0 e), IE, He|]. rewrite P_Operator.Lsum_scal. rewrite (lines m per d HG Hd Hp). unfold edges. apply Req_le. ring.
Qed.
(** the energy of the strain tensor controls the field *)
Lemma strain_poincare h m per x L : grid_ok m per -> has_cells m per -> steps_ok h m -> (forall d, (d < length m)%nat -> nth d per false = false /\ nth d h 0 * INR (Z.to_nat (nth d m 0 - 1)%Z) <= L) ->
  (forall n d, in_grid_box (nodes_box m) n -> (d < length m)%nat -> nth d n 0%Z = 0%Z -> x n d = 0) ->
  volume h * Rsum (length m) (fun c => Lsum (fun n => x n c ^ 2) (N0 m)) <= thick (length m) * L ^ 2 * tensor_form m per (E0 m per) (length m) (getMatElemStrainTensor h) x x.
Proof.
  intros HG HC HS HL H0. assert (D23 : (length m = 2 \/ length m = 3)%nat) by apply HG. pose proof (vol_pos h m HS) as Vp. pose proof (thick_pos (length m)) as TP. set (t := thick (length m)) in *. set (v := volume h) in *.
  assert (LO : Lsum (fun e => own (length m) h (fun k d => gv m per x e k d)) (E0 m per) <= tensor_form m per (E0 m per) (length m) (getMatElemStrainTensor h) x x).
  { rewrite tensor_form_v. apply Lsum_le. intros e _. apply (cell_strain h m); auto. }
  set (T := tensor_form m per (E0 m per) (length m) (getMatElemStrainTensor h) x x) in *. unfold own in LO. rewrite P_Operator.Lsum_Rsum in LO.
  apply Rle_trans with (t * L ^ 2 * Rsum (length m) (fun c => Lsum (fun e => 2 * (v / nth c h 0 ^ 2 * (edge (length m) c (fun k => gv m per x e k c) / t))) (E0 m per))).
  2:{ apply Rmult_le_compat_l; [apply Rmult_le_pos; [lra|apply pow2_ge_0]|exact LO]. }
  rewrite <- !Rsum_scal. apply Rsum_le. intros c Hc. destruct (HL c Hc) as [Hp HB]. pose proof (poincare_edges h m per x c c HG HC HS Hc Hp (fun n Hn Z => H0 n c Hn Hc Z)) as PE.
  assert (hp : 0 < nth c h 0). { destruct HS as [Lh F]. pose proof (proj1 (Forall_nth _ _) F c 0) as K. apply K. rewrite Lh. exact Hc. }
  set (s := nth c h 0) in *. set (i := INR (Z.to_nat (nth c m 0 - 1)%Z)) in *. assert (ip : 0 <= i) by apply pos_INR.
  rewrite (P_Operator.Lsum_ext (fun e => 2 * (v / s ^ 2 * (edge (length m) c (fun k => gv m per x e k c) / t))) (fun e => (2 * v / s ^ 2 / t) * edge (length m) c (fun k => gv m per x e k c)) (E0 m per)) by (intros e _; field; lra). rewrite P_Operator.Lsum_scal.
  set (Ed := Lsum (fun e => edge (length m) c (fun k => gv m per x e k c)) (E0 m per)) in *. assert (EP : 0 <= Ed) by (apply P_Operator.Lsum_nonneg; intros e _; apply edge_nonneg).
  apply Rle_trans with (v * (2 * i ^ 2 * Ed)); [apply Rmult_le_compat_l; lra|].
  replace (v * (2 * i ^ 2 * Ed)) with ((s * i) ^ 2 * (2 * v / s ^ 2 * Ed)) by (field; lra). replace (t * L ^ 2 * (2 * v / s ^ 2 / t * Ed)) with (L ^ 2 * (2 * v / s ^ 2 * Ed)) by (field; lra).
  apply Rmult_le_compat_r; [apply Rmult_le_pos; [apply Rlt_le, Rdiv_lt_0_compat; [lra|apply pow_lt, hp]|exact EP]|]. apply pow_incr. split; [apply Rmult_le_pos; lra|exact HB].
Qed.
Close Scope R_scope.
