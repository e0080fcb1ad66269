(** C37: the derivative, along the gap, of the velocity along the line of centres (2D). *)
From Coquelicot Require Import Coquelicot.
From Verif Require Import Base M_Truncation M_SingNormal M_SingTang M_SingWrap P_Sing P_SingCart Prop_Truncation Prop_SingNormal P_SingAxis P_Still.
Open Scope R_scope.
(** right on the line of centres and beyond the cut-off *)
Theorem C37_gradient_axis_dz_2d : forall H M a U l x z, 0 < H -> 0 < M -> 0 < a -> 0 < l -> z = 0 \/ 2 * l <= z * z ->
  is_derive (fun t => ux_sing_normalMvt2D [x; t] H M a U l l) z (dzux_sing_normalMvt2D [x; z] H M a U l l).
Proof.
  intros H M a U l x z HH HM Ha Hl Hz. unfold ux_sing_normalMvt2D, dzux_sing_normalMvt2D. cbn [nth]. cbv zeta.
  destruct (chi_d l Hl) as (D0 & D1 & D2). assert (Hs : H + M <> 0) by lra. pose proof (gap_nz H M a _ HH HM Ha (sq_nn z)) as Hq. assert (Hq' : 2 * a + M * (z * z) + H * (z * z) <> 0) by lra.
  destruct Hz as [->|Hz].
  - rewrite dzux2_axis. apply even_derive.
    + intros t. destruct (chi_even l t) as (-> & -> & ->). apply ux2_even.
    + apply ux2_ex; auto; [exists (2 * 0 * dchiTrunc 0 l l); apply D0|exists (2 * 0 * d2chiTrunc 0 l l); apply D1|exists (2 * 0 * d3chiTrunc 0 l l); apply D2].
  - destruct (C35_cutoff l Hl) as (_ & _ & _ & E3 & _). destruct (E3 z Hz) as (Z0 & Z1 & Z2 & Z3).
    specialize (D0 z). specialize (D1 z). specialize (D2 z). rewrite Z1, Rmult_0_r in D0. rewrite Z2, Rmult_0_r in D1. rewrite Z3, Rmult_0_r in D2. rewrite Z0, Z1, Z2, dzux2_zero.
    eapply is_derive_ext; [intros t; symmetry; apply ux2_lin|].
    assert (E : forall k0 k1 k2, ex_derive (fun t => ux_sing_normalMvt2D_body t x H M a U k0 k1 k2) z) by (intros; apply (ux2_ex (fun _ => k0) (fun _ => k1) (fun _ => k2)); auto; apply edc).
    replace 0 with (0 + 0 + 0) by ring. apply (is_derive_plus (fun t => _ + _)); [apply (is_derive_plus (fun t => _ * _))|]; apply flat_mult; auto.
Qed.
Print Assumptions C37_gradient_axis_dz_2d.
Example ex_axis_dz : 0 < 1 /\ (0 = 0 \/ 2 * 1 <= 0 * 0) /\ (2 = 0 \/ 2 * 1 <= 2 * 2).
Proof. repeat split; [lra|left; reflexivity|right; lra]. Qed.
(** in between the gradient functions are right in what they do with the value of the cut-off: with the cut-off held at c
    (its derivatives zero) both are the derivatives of the velocity; X = [x; z] *)
Theorem C37_gradient_still_cutoff_2d : forall H M a U c x z, 0 < H -> 0 < M -> 0 < a ->
  is_derive (fun t => ux_sing_normalMvt2D_body z t H M a U c 0 0) x (dxux_sing_normalMvt2D_body z x H M a U c 0) /\
  is_derive (fun t => ux_sing_normalMvt2D_body t x H M a U c 0 0) z (dzux_sing_normalMvt2D_body z x H M a U c 0 0).
Proof. intros H M a U c x z HH HM Ha. split; [apply still_gradient_x|apply still_gradient]; assumption. Qed.
(** but not in what they do with its derivatives *)
Theorem C37_gradient_dz_2d_refuted : exists H M a U l x z, 0 < H /\ 0 < M /\ 0 < a /\ 0 < l /\ z * z < 2 * l /\
  ~ is_derive (fun t => ux_sing_normalMvt2D [x; t] H M a U l l) z (dzux_sing_normalMvt2D [x; z] H M a U l l).
Proof.
  exists 1, 1, 1, 1, 1, 0, 1. repeat (split; [lra|]). intros D. apply is_derive_unique in D. revert D.
  destruct (chi_inside 1 1 ltac:(lra)) as (E0 & E1 & E2 & E3 & _). unfold ux_sing_normalMvt2D, dzux_sing_normalMvt2D. cbn [nth]. cbv zeta.
  assert (F0 : chiTrunc 1 1 1 = 1 / 2) by apply C35_example.
  assert (I1 : forall P, inside 1 P 1 = P 1) by (intros P; unfold inside; destruct (Rltb_spec (1 * 1) (2 * 1)); [reflexivity|lra]).
  assert (F1 : dchiTrunc 1 1 1 = - 315 / 256) by (rewrite E1, I1; unfold chiP1, dalphaTrunc; cbv zeta; field).
  assert (F2 : d2chiTrunc 1 1 1 = 0) by (rewrite E2, I1; unfold chiP2, d2alphaTrunc; cbv zeta; field).
  assert (F3 : d3chiTrunc 1 1 1 = 2520 / 256) by (rewrite E3, I1; unfold chiP3, d3alphaTrunc; cbv zeta; field).
  destruct (chi_d 1 ltac:(lra)) as (D0 & D1 & D2). specialize (D0 1). specialize (D1 1). specialize (D2 1). rewrite F1 in D0. rewrite F2 in D1. rewrite F3 in D2.
  assert (P : exists p1 p2, is_derive (fun t => ux_sing_normalMvt2D_body t 0 1 1 1 1 0 1 0) 1 p1 /\ is_derive (fun t => ux_sing_normalMvt2D_body t 0 1 1 1 1 0 0 1) 1 p2 /\ 
    - 315 / 256 * dzux_sing_normalMvt2D_body 1 0 1 1 1 1 0 1 0 <> - 315 / 256 * p1 + 2 * (- 315 / 256) * ux_sing_normalMvt2D_body 1 0 1 1 1 1 1 0 0 + 2 * (2520 / 256) * ux_sing_normalMvt2D_body 1 0 1 1 1 1 0 0 1).
  { eexists. eexists. split; [unfold ux_sing_normalMvt2D_body; cbv zeta; auto_derive; [repeat split; lra|reflexivity]|].
    split; [unfold ux_sing_normalMvt2D_body; cbv zeta; auto_derive; [repeat split; lra|reflexivity]|]. unfold ux_sing_normalMvt2D_body, dzux_sing_normalMvt2D_body. cbv zeta. intros E. field_simplify in E. lra. }
  destruct P as (p1 & p2 & P1 & P2 & NE). intros D. apply NE.
  rewrite (Derive_ext _ (fun t => chiTrunc t 1 1 * ux_sing_normalMvt2D_body t 0 1 1 1 1 1 0 0 + dchiTrunc t 1 1 * ux_sing_normalMvt2D_body t 0 1 1 1 1 0 1 0 + d2chiTrunc t 1 1 * ux_sing_normalMvt2D_body t 0 1 1 1 1 0 0 1)) in D by (intros; apply ux2_lin).
  pose proof (still_gradient 1 1 1 1 1 0 1 ltac:(lra) ltac:(lra) ltac:(lra)) as P0.
  assert (T : is_derive (fun t => chiTrunc t 1 1 * ux_sing_normalMvt2D_body t 0 1 1 1 1 1 0 0 + dchiTrunc t 1 1 * ux_sing_normalMvt2D_body t 0 1 1 1 1 0 1 0 + d2chiTrunc t 1 1 * ux_sing_normalMvt2D_body t 0 1 1 1 1 0 0 1) 1
    (2 * 1 * (- 315 / 256) * ux_sing_normalMvt2D_body 1 0 1 1 1 1 1 0 0 + chiTrunc 1 1 1 * dzux_sing_normalMvt2D_body 1 0 1 1 1 1 1 0 0 + (2 * 1 * 0 * ux_sing_normalMvt2D_body 1 0 1 1 1 1 0 1 0 + dchiTrunc 1 1 1 * p1) + (2 * 1 * (2520 / 256) * ux_sing_normalMvt2D_body 1 0 1 1 1 1 0 0 1 + d2chiTrunc 1 1 1 * p2))).
  { assert (PM : forall f g x df dg, is_derive f x df -> is_derive g x dg -> is_derive (fun t : R => f t * g t) x (df * g x + f x * dg)) by (intros; apply (is_derive_mult f g); [assumption|assumption|intros; apply Rmult_comm]).
    refine (is_derive_plus _ _ _ _ _ (is_derive_plus _ _ _ _ _ _ _) _).
    - exact (PM (fun t => chiTrunc t 1 1) (fun t => ux_sing_normalMvt2D_body t 0 1 1 1 1 1 0 0) 1 _ _ D0 P0).
    - exact (PM (fun t => dchiTrunc t 1 1) (fun t => ux_sing_normalMvt2D_body t 0 1 1 1 1 0 1 0) 1 _ _ D1 P1).
    - exact (PM (fun t => d2chiTrunc t 1 1) (fun t => ux_sing_normalMvt2D_body t 0 1 1 1 1 0 0 1) 1 _ _ D2 P2). }
  apply is_derive_unique in T. assert (D' := eq_trans (eq_sym T) D). clear T D. rename D' into D. rewrite F0, F1, F2 in D.
  assert (L : forall c0 c1, dzux_sing_normalMvt2D_body 1 0 1 1 1 1 c0 c1 0 = c0 * dzux_sing_normalMvt2D_body 1 0 1 1 1 1 1 0 0 + c1 * dzux_sing_normalMvt2D_body 1 0 1 1 1 1 0 1 0) by (intros; unfold dzux_sing_normalMvt2D_body; cbv zeta; unfold Rdiv; ring).
  rewrite (L (1/2)) in D. clear - D. set (p := p1 : R) in *. set (q := p2 : R) in *. set (u0 := ux_sing_normalMvt2D_body _ _ _ _ _ _ 1 0 0) in *. set (u1 := ux_sing_normalMvt2D_body _ _ _ _ _ _ 0 1 0) in *. set (u2 := ux_sing_normalMvt2D_body _ _ _ _ _ _ 0 0 1) in *.
  set (d0 := dzux_sing_normalMvt2D_body 1 0 1 1 1 1 1 0 0) in *. set (d1 := dzux_sing_normalMvt2D_body 1 0 1 1 1 1 0 1 0) in *. clearbody p q u0 u1 u2 d0 d1. nra.
Qed.
