(** Derivatives of the closed forms, for any cut-off c0 whose successive derivatives with
    respect to the square of its argument are c1, c2, c3. *)
From Coquelicot Require Import Coquelicot.
From Verif Require Import Base M_Truncation M_SingNormal M_SingTang.
Open Scope R_scope.
Ltac nz Hq := repeat first [exact I | apply conj | match goal with |- ex_derive _ _ => eexists; solve [eauto] end | apply Rmult_integral_contrapositive_currified | apply pow_nonzero | solve [auto] | (intros EE; apply Hq; lra)].
Section Bodies.
Variables c0 c1 c2 c3 : R -> R.
Hypothesis D0 : forall r, is_derive c0 r (2 * r * c1 r).
Hypothesis D1 : forall r, is_derive c1 r (2 * r * c2 r).
Hypothesis D2 : forall r, is_derive c2 r (2 * r * c3 r).
Variables H M a U : R.
Hypothesis HM : H + M <> 0.
Ltac chis r := change (Derive (fun x => c0 x) r) with (Derive c0 r);  change (Derive (fun x => c1 x) r) with (Derive c1 r);  change (Derive (fun x => c2 x) r) with (Derive c2 r); rewrite ?(is_derive_unique _ _ _ (D0 r)), ?(is_derive_unique _ _ _ (D1 r)), ?(is_derive_unique _ _ _ (D2 r)).
Ltac der r Hq := cbv zeta; auto_derive; [nz Hq|chis r; field; nz Hq].
Variables r z : R.
Hypothesis Hq : H * (r * r) + M * (r * r) + 2 * a <> 0.

(** ** 2D *)
Lemma n2_dxuz : is_derive (fun z => uz_sing_normalMvt2D_body r z H M a U (c0 r)) z (dxuz_sing_normalMvt2D_body r z H M a U (c0 r)).
Proof. unfold uz_sing_normalMvt2D_body, dxuz_sing_normalMvt2D_body. der r Hq. Qed.
Lemma n2_dzuz : is_derive (fun r => uz_sing_normalMvt2D_body r z H M a U (c0 r)) r (dzuz_sing_normalMvt2D_body r z H M a U (c0 r) (c1 r)).
Proof. unfold uz_sing_normalMvt2D_body, dzuz_sing_normalMvt2D_body. der r Hq. Qed.
Lemma t2_dxux : is_derive (fun z => ux_sing_tangMvt2D_body r z H M a U (c0 r) (c1 r) (c2 r)) z (dxux_sing_tangMvt2D_body r z H M a U (c0 r) (c1 r) (c2 r)).
Proof. unfold ux_sing_tangMvt2D_body, dxux_sing_tangMvt2D_body. der r Hq. Qed.
Lemma t2_dzux : is_derive (fun r => ux_sing_tangMvt2D_body r z H M a U (c0 r) (c1 r) (c2 r)) r (dzux_sing_tangMvt2D_body r z H M a U (c0 r) (c1 r) (c2 r) (c3 r)).
Proof. unfold ux_sing_tangMvt2D_body, dzux_sing_tangMvt2D_body. der r Hq. Qed.
Lemma t2_dxuz : is_derive (fun z => uz_sing_tangMvt2D_body r z H M a U (c0 r) (c1 r)) z (dxuz_sing_tangMvt2D_body r z H M a U (c0 r) (c1 r)).
Proof. unfold uz_sing_tangMvt2D_body, dxuz_sing_tangMvt2D_body. der r Hq. Qed.
Lemma t2_dzuz : is_derive (fun r => uz_sing_tangMvt2D_body r z H M a U (c0 r) (c1 r)) r (dzuz_sing_tangMvt2D_body r z H M a U (c0 r) (c1 r) (c2 r)).
Proof. unfold uz_sing_tangMvt2D_body, dzuz_sing_tangMvt2D_body. der r Hq. Qed.
(** ** 3D, as functions of the radius *)
Lemma n3_drur : is_derive (fun r => ur_sing_normalMvt3D_body (r * r) r z H M a U (c0 r) (c1 r)) r (drur_sing_normalMvt3D_body (r * r) r z H M a U (c0 r) (c1 r) (c2 r)).
Proof. unfold ur_sing_normalMvt3D_body, drur_sing_normalMvt3D_body. der r Hq. Qed.
Lemma n3_dzur : is_derive (fun z => ur_sing_normalMvt3D_body (r * r) r z H M a U (c0 r) (c1 r)) z (dzur_sing_normalMvt3D_body (r * r) r z H M a U (c0 r) (c1 r)).
Proof. unfold ur_sing_normalMvt3D_body, dzur_sing_normalMvt3D_body. der r Hq. Qed.
Lemma n3_druz : is_derive (fun r => uz_sing_normalMvt3D_body (r * r) r z H M a U (c0 r) (c1 r) (c2 r)) r (druz_sing_normalMvt3D_body (r * r) r z H M a U (c0 r) (c1 r) (c2 r) (c3 r)).
Proof. unfold uz_sing_normalMvt3D_body, druz_sing_normalMvt3D_body. der r Hq. Qed.
Lemma n3_dzuz : is_derive (fun z => uz_sing_normalMvt3D_body (r * r) r z H M a U (c0 r) (c1 r) (c2 r)) z (dzuz_sing_normalMvt3D_body (r * r) r z H M a U (c0 r) (c1 r) (c2 r)).
Proof. unfold uz_sing_normalMvt3D_body, dzuz_sing_normalMvt3D_body. der r Hq. Qed.
Lemma t3_drU : is_derive (fun r => U0_tang3D_body (r * r) r z H M a U (c0 r) (c1 r)) r (drU0_tang3D_body (r * r) r z H M a U (c0 r) (c1 r) (c2 r)).
Proof. unfold U0_tang3D_body, drU0_tang3D_body. der r Hq. Qed.
Lemma t3_dzU : is_derive (fun z => U0_tang3D_body (r * r) r z H M a U (c0 r) (c1 r)) z (dzU0_tang3D_body (r * r) r z H M a U (c0 r) (c1 r)).
Proof. unfold U0_tang3D_body, dzU0_tang3D_body. der r Hq. Qed.
Lemma t3_drV : is_derive (fun r => V0_tang3D_body (r * r) r z H M a U (c0 r)) r (drV0_tang3D_body (r * r) r z H M a U (c0 r) (c1 r)).
Proof. unfold V0_tang3D_body, drV0_tang3D_body. der r Hq. Qed.
Lemma t3_dzV : is_derive (fun z => V0_tang3D_body (r * r) r z H M a U (c0 r)) z (dzV0_tang3D_body (r * r) r z H M a U (c0 r)).
Proof. unfold V0_tang3D_body, dzV0_tang3D_body. der r Hq. Qed.
Lemma t3_drW : is_derive (fun r => W0_tang3D_body (r * r) r z H M a U (c0 r) (c1 r) (c2 r)) r (drW0_tang3D_body (r * r) r z H M a U (c0 r) (c1 r) (c2 r) (c3 r)).
Proof. unfold W0_tang3D_body, drW0_tang3D_body. der r Hq. Qed.
Lemma t3_dzW : is_derive (fun z => W0_tang3D_body (r * r) r z H M a U (c0 r) (c1 r) (c2 r)) z (dzW0_tang3D_body (r * r) r z H M a U (c0 r) (c1 r) (c2 r)).
Proof. unfold W0_tang3D_body, dzW0_tang3D_body. der r Hq. Qed.
(** ** divergences *)
Lemma n2_div : dxux_sing_normalMvt2D_body r z H M a U (c0 r) (c1 r) + dzuz_sing_normalMvt2D_body r z H M a U (c0 r) (c1 r) = 0.
Proof. unfold dxux_sing_normalMvt2D_body, dzuz_sing_normalMvt2D_body. cbv zeta. field. nz Hq. Qed.
Lemma t2_div : dxux_sing_tangMvt2D_body r z H M a U (c0 r) (c1 r) (c2 r) + dzuz_sing_tangMvt2D_body r z H M a U (c0 r) (c1 r) (c2 r) = 0.
Proof. unfold dxux_sing_tangMvt2D_body, dzuz_sing_tangMvt2D_body. cbv zeta. field. nz Hq. Qed.
Lemma n3_div : r <> 0 -> drur_sing_normalMvt3D_body (r * r) r z H M a U (c0 r) (c1 r) (c2 r) + ur_sing_normalMvt3D_body (r * r) r z H M a U (c0 r) (c1 r) / r + dzuz_sing_normalMvt3D_body (r * r) r z H M a U (c0 r) (c1 r) (c2 r) = 0.
Proof. intros Hr. unfold drur_sing_normalMvt3D_body, ur_sing_normalMvt3D_body, dzuz_sing_normalMvt3D_body. cbv zeta. field. nz Hq. Qed.
Lemma t3_div : r <> 0 -> drU0_tang3D_body (r * r) r z H M a U (c0 r) (c1 r) (c2 r) + U0_tang3D_body (r * r) r z H M a U (c0 r) (c1 r) / r + V0_tang3D_body (r * r) r z H M a U (c0 r) / r + dzW0_tang3D_body (r * r) r z H M a U (c0 r) (c1 r) (c2 r) = 0.
Proof. intros Hr. unfold drU0_tang3D_body, U0_tang3D_body, V0_tang3D_body, dzW0_tang3D_body. cbv zeta. field. nz Hq. Qed.
(** ** the pressure gradient along the gap and the second derivative of the velocity across it *)
Lemma n3_lub : exists w,
  is_derive (fun r => p_sing_withT_normalMvt3D_body (r * r) r z H M a U (c0 r)) r w /\
  is_derive (fun z => dzur_sing_normalMvt3D_body (r * r) r z H M a U (c0 r) (c1 r)) z w.
Proof. eexists. split; [unfold p_sing_withT_normalMvt3D_body; cbv zeta; auto_derive; [nz Hq|chis r; reflexivity]|]. unfold dzur_sing_normalMvt3D_body. der r Hq. Qed.
Lemma t2_lub : exists w,
  is_derive (fun r => p_sing_withT_tangMvt2D_body r z H M a U (c0 r)) r w /\
  is_derive (fun z => dxuz_sing_tangMvt2D_body r z H M a U (c0 r) (c1 r)) z w.
Proof. eexists. split; [unfold p_sing_withT_tangMvt2D_body; cbv zeta; auto_derive; [nz Hq|chis r; reflexivity]|]. unfold dxuz_sing_tangMvt2D_body. der r Hq. Qed.
(** in 3D the tangential pressure is U/2 cos(theta) times this function of r *)
Definition pt3 (c0 : R -> R) (H M d : R) (r : R) := 48 / 5 * r * (H - M) * c0 r / (H * (r * r) + M * (r * r) + 2 * d) ^ 2 / (H + M).
Lemma t3_lub_r : exists w, is_derive (pt3 c0 H M a) r w /\ is_derive (fun z => dzU0_tang3D_body (r * r) r z H M a U (c0 r) (c1 r)) z w.
Proof. eexists. split; [unfold pt3; cbv zeta; auto_derive; [nz Hq|chis r; reflexivity]|]. unfold dzU0_tang3D_body. der r Hq. Qed.
Lemma t3_lub_t : r <> 0 -> is_derive (fun z => dzV0_tang3D_body (r * r) r z H M a U (c0 r)) z (- pt3 c0 H M a r / r).
Proof. intros Hr. unfold dzV0_tang3D_body, pt3. der r Hq. Qed.
End Bodies.
