(** C38, C57: the singular field of two particles sliding past each other. *)
From Coquelicot Require Import Coquelicot.
From Verif Require Import Base M_Truncation M_SingNormal M_SingTang M_SingWrap P_Sing P_SingCart Prop_Truncation Prop_SingNormal.
Open Scope R_scope.

(** ** 2D: X = [x; z], x along the line of centres, z along the gap *)
Section TwoD.
Variables (H M a U l x z : R).
Hypothesis (HH : 0 < H) (HM : 0 < M) (Ha : 0 < a) (Hl : 0 < l).
Theorem C38_gradient_2d :
  is_derive (fun t => ux_sing_tangMvt2D [t; z] H M a U l l) x (dxux_sing_tangMvt2D [x; z] H M a U l l) /\
  is_derive (fun t => ux_sing_tangMvt2D [x; t] H M a U l l) z (dzux_sing_tangMvt2D [x; z] H M a U l l) /\
  is_derive (fun t => uz_sing_tangMvt2D [t; z] H M a U l l) x (dxuz_sing_tangMvt2D [x; z] H M a U l l) /\
  is_derive (fun t => uz_sing_tangMvt2D [x; t] H M a U l l) z (dzuz_sing_tangMvt2D [x; z] H M a U l l).
Proof.
  destruct (chi_d l Hl) as (D0 & D1 & D2). assert (Hs : H + M <> 0) by lra. pose proof (gap_nz H M a _ HH HM Ha (sq_nn z)) as Hq.
  split; [|split; [|split]].
  - apply (t2_dxux (fun r => chiTrunc r l l) (fun r => dchiTrunc r l l) (fun r => d2chiTrunc r l l)); assumption.
  - apply (t2_dzux (fun r => chiTrunc r l l) (fun r => dchiTrunc r l l) (fun r => d2chiTrunc r l l) (fun r => d3chiTrunc r l l)); assumption.
  - apply (t2_dxuz (fun r => chiTrunc r l l) (fun r => dchiTrunc r l l)); assumption.
  - apply (t2_dzuz (fun r => chiTrunc r l l) (fun r => dchiTrunc r l l) (fun r => d2chiTrunc r l l)); assumption.
Qed.
Theorem C38_divergence_2d : DIVCART_tangMvt2D [x; z] H M a U l l = 0.
Proof. assert (Hs : H + M <> 0) by lra. pose proof (gap_nz H M a _ HH HM Ha (sq_nn z)) as Hq. apply (t2_div (fun r => chiTrunc r l l) (fun r => dchiTrunc r l l) (fun r => d2chiTrunc r l l)); assumption. Qed.
(** the surfaces slide at minus and plus half the relative velocity; nothing crosses the first one *)
Theorem C38_no_slip_2d :
  uz_sing_tangMvt2D [- H * (z * z) / 2; z] H M a U l l = - U / 2 * chiTrunc z l l /\
  uz_sing_tangMvt2D [a + M * (z * z) / 2; z] H M a U l l = U / 2 * chiTrunc z l l /\
  ux_sing_tangMvt2D [- H * (z * z) / 2; z] H M a U l l = 0.
Proof.
  assert (Hs : H + M <> 0) by lra. pose proof (gap_nz H M a _ HH HM Ha (sq_nn z)) as Hq.
  unfold uz_sing_tangMvt2D, ux_sing_tangMvt2D. cbn [nth]. unfold uz_sing_tangMvt2D_body, ux_sing_tangMvt2D_body. cbv zeta.
  split; [|split]; field; nz Hq.
Qed.
Theorem C57_lubrication_tang_2d : exists pz,
  is_derive (fun t => p_sing_withT_tangMvt2D [x; t] H M a U l l) z pz /\ is_derive (fun t => dxuz_sing_tangMvt2D [t; z] H M a U l l) x pz.
Proof.
  destruct (chi_d l Hl) as (D0 & D1 & D2). assert (Hs : H + M <> 0) by lra. pose proof (gap_nz H M a _ HH HM Ha (sq_nn z)) as Hq.
  apply (t2_lub (fun r => chiTrunc r l l) (fun r => dchiTrunc r l l)); assumption.
Qed.
End TwoD.
(** something crosses the second one *)
Theorem C38_penetration_2d_refuted : exists H M a U l z, 0 < H /\ 0 < M /\ 0 < a /\ 0 < l /\ z * z < 2 * l /\ ux_sing_tangMvt2D [a + M * (z * z) / 2; z] H M a U l l <> 0.
Proof.
  exists 1, 2, 1, 1, 1, 1. repeat (split; [lra|]). destruct (chi_inside 1 1 ltac:(lra)) as (E0 & E1 & E2 & _). unfold ux_sing_tangMvt2D. cbn [nth].
  assert (I1 : forall P, inside 1 P 1 = P 1) by (intros P; unfold inside; destruct (Rltb_spec (1 * 1) (2 * 1)); [reflexivity|lra]).
  assert (F1 : dchiTrunc 1 1 1 = - 315 / 256) by (rewrite E1, I1; unfold chiP1, dalphaTrunc; cbv zeta; field).
  assert (F2 : d2chiTrunc 1 1 1 = 0) by (rewrite E2, I1; unfold chiP2, d2alphaTrunc; cbv zeta; field).
  rewrite (proj1 C35_example), F1, F2. unfold ux_sing_tangMvt2D_body. cbv zeta. intros D. field_simplify in D. lra.
Qed.

(** ** 3D: X = [x; y; z], z along the line of centres, x along the relative velocity *)
Section ThreeD.
Variables (H M a U l x y z : R).
Hypothesis (HH : 0 < H) (HM : 0 < M) (Ha : 0 < a) (Hl : 0 < l).
Notation r := (sqrt (x * x + y * y)).
Let P t := U0_tang3D_body (t * t) t z H M a U (chiTrunc t l l) (dchiTrunc t l l).
Let Q t := V0_tang3D_body (t * t) t z H M a U (chiTrunc t l l).
Let W t := W0_tang3D_body (t * t) t z H M a U (chiTrunc t l l) (dchiTrunc t l l) (d2chiTrunc t l l).
Let dP t := drU0_tang3D_body (t * t) t z H M a U (chiTrunc t l l) (dchiTrunc t l l) (d2chiTrunc t l l).
Let dQ t := drV0_tang3D_body (t * t) t z H M a U (chiTrunc t l l) (dchiTrunc t l l).
Let dW t := drW0_tang3D_body (t * t) t z H M a U (chiTrunc t l l) (dchiTrunc t l l) (d2chiTrunc t l l) (d3chiTrunc t l l).
Lemma U_P u v : U0_tang3D [u; v; z] H M a U l l = P (sqrt (u * u + v * v)). Proof. unfold P. rewrite sq_r. reflexivity. Qed.
Lemma V_Q u v : V0_tang3D [u; v; z] H M a U l l = Q (sqrt (u * u + v * v)). Proof. unfold Q. rewrite sq_r. reflexivity. Qed.
Lemma W_W u v : W0_tang3D [u; v; z] H M a U l l = W (sqrt (u * u + v * v)). Proof. unfold W. rewrite sq_r. reflexivity. Qed.
Lemma dU_P u v : drU0_tang3D [u; v; z] H M a U l l = dP (sqrt (u * u + v * v)). Proof. unfold dP. rewrite sq_r. reflexivity. Qed.
Lemma dV_Q u v : drV0_tang3D [u; v; z] H M a U l l = dQ (sqrt (u * u + v * v)). Proof. unfold dQ. rewrite sq_r. reflexivity. Qed.
Lemma dW_W u v : drW0_tang3D [u; v; z] H M a U l l = dW (sqrt (u * u + v * v)). Proof. unfold dW. rewrite sq_r. reflexivity. Qed.
Lemma P_d t : is_derive P t (dP t).
Proof. destruct (chi_d l Hl) as (D0 & D1 & D2). apply (t3_drU (fun r => chiTrunc r l l) (fun r => dchiTrunc r l l) (fun r => d2chiTrunc r l l)); auto; [lra|]. apply gap_nz; auto. apply sq_nn. Qed.
Lemma Q_d t : is_derive Q t (dQ t).
Proof. destruct (chi_d l Hl) as (D0 & D1 & D2). apply (t3_drV (fun r => chiTrunc r l l) (fun r => dchiTrunc r l l)); auto; [lra|]. apply gap_nz; auto. apply sq_nn. Qed.
Lemma W_d t : is_derive W t (dW t).
Proof. destruct (chi_d l Hl) as (D0 & D1 & D2). apply (t3_drW (fun r => chiTrunc r l l) (fun r => dchiTrunc r l l) (fun r => d2chiTrunc r l l) (fun r => d3chiTrunc r l l)); auto; [lra|]. apply gap_nz; auto. apply sq_nn. Qed.
Hypothesis Hr : x * x + y * y <> 0.
Lemma lin_d (f g : R -> R) (c : R) (t df : R) : is_derive f t df -> (forall s, g s = f s * c) -> is_derive g t (df * c).
Proof.
  intros D E. apply (is_derive_ext (fun s => f s * c)); [intros s; symmetry; apply E|]. replace (df * c) with (df * c + f t * 0) by ring.
  apply (d_prod f (fun _ => c) t); [exact D|apply (is_derive_const (V:=R_NormedModule))].
Qed.
Theorem C38_gradient_3d :
  is_derive (fun t => ux_sing_tangMvt3D [t; y; z] H M a U l l) x (dxux_sing_tangMvt3D [x; y; z] H M a U l l) /\
  is_derive (fun t => ux_sing_tangMvt3D [x; t; z] H M a U l l) y (dyux_sing_tangMvt3D [x; y; z] H M a U l l) /\
  is_derive (fun t => ux_sing_tangMvt3D [x; y; t] H M a U l l) z (dzux_sing_tangMvt3D [x; y; z] H M a U l l) /\
  is_derive (fun t => uy_sing_tangMvt3D [t; y; z] H M a U l l) x (dxuy_sing_tangMvt3D [x; y; z] H M a U l l) /\
  is_derive (fun t => uy_sing_tangMvt3D [x; t; z] H M a U l l) y (dyuy_sing_tangMvt3D [x; y; z] H M a U l l) /\
  is_derive (fun t => uy_sing_tangMvt3D [x; y; t] H M a U l l) z (dzuy_sing_tangMvt3D [x; y; z] H M a U l l) /\
  is_derive (fun t => uz_sing_tangMvt3D [t; y; z] H M a U l l) x (dxuz_sing_tangMvt3D [x; y; z] H M a U l l) /\
  is_derive (fun t => uz_sing_tangMvt3D [x; t; z] H M a U l l) y (dyuz_sing_tangMvt3D [x; y; z] H M a U l l) /\
  is_derive (fun t => uz_sing_tangMvt3D [x; y; t] H M a U l l) z (dzuz_sing_tangMvt3D [x; y; z] H M a U l l).
Proof.
  assert (Hs : H + M <> 0) by lra. pose proof (gap_nz H M a _ HH HM Ha (sq_nn r)) as Hq. pose proof (r_pos x y Hr) as R1.
  assert (EX : forall (f g : R -> R) df, is_derive f x df -> (forall t, t * t + y * y <> 0 -> g t = f t) -> is_derive g x df) by (intros f g df D E; apply (is_derive_ext_loc f); [|exact D]; apply (filter_imp (fun t => t * t + y * y <> 0)); [intros t Ht; symmetry; apply E, Ht|apply near_x, Hr]).
  assert (EY : forall (f g : R -> R) df, is_derive f y df -> (forall t, x * x + t * t <> 0 -> g t = f t) -> is_derive g y df) by (intros f g df D E; apply (is_derive_ext_loc f); [|exact D]; apply (filter_imp (fun t => x * x + t * t <> 0)); [intros t Ht; symmetry; apply E, Ht|apply near_y, Hr]).
  assert (CT : forall u v w, u * u + v * v <> 0 -> cosTheta [u; v; w] = u / sqrt (u * u + v * v) /\ sinTheta [u; v; w] = v / sqrt (u * u + v * v)).
  { intros u v w E. unfold cosTheta, sinTheta, rr2, x_, y_. cbn [nth]. destruct (Reqb_spec (u * u + v * v) 0); [contradiction|split; reflexivity]. }
  assert (RX : forall u v w, u * u + v * v <> 0 -> ux_sing_tangMvt3D [u; v; w] H M a U l l =
    U * U0_tang3D [u; v; w] H M a U l l * (u / sqrt (u * u + v * v)) / 2 * u / sqrt (u * u + v * v) - U * V0_tang3D [u; v; w] H M a U l l * (v / sqrt (u * u + v * v)) / 2 * v / sqrt (u * u + v * v)).
  { intros u v w E. destruct (CT u v w E) as [C S]. unfold ux_sing_tangMvt3D, ur_sing_tangMvt3D, ut_sing_tangMvt3D, rr. rewrite C, S. unfold rr2, x_, y_. cbn [nth]. destruct (Reqb_spec (u * u + v * v) 0); [contradiction|reflexivity]. }
  assert (RY : forall u v w, u * u + v * v <> 0 -> uy_sing_tangMvt3D [u; v; w] H M a U l l =
    U * U0_tang3D [u; v; w] H M a U l l * (u / sqrt (u * u + v * v)) / 2 * v / sqrt (u * u + v * v) + U * V0_tang3D [u; v; w] H M a U l l * (v / sqrt (u * u + v * v)) / 2 * u / sqrt (u * u + v * v)).
  { intros u v w E. destruct (CT u v w E) as [C S]. unfold uy_sing_tangMvt3D, ur_sing_tangMvt3D, ut_sing_tangMvt3D, rr. rewrite C, S. unfold rr2, x_, y_. cbn [nth]. destruct (Reqb_spec (u * u + v * v) 0); [contradiction|reflexivity]. }
  assert (RZ : forall u v w, u * u + v * v <> 0 -> uz_sing_tangMvt3D [u; v; w] H M a U l l = U * W0_tang3D [u; v; w] H M a U l l * (u / sqrt (u * u + v * v)) / 2).
  { intros u v w E. destruct (CT u v w E) as [C S]. unfold uz_sing_tangMvt3D. rewrite C. reflexivity. }
  assert (DU : is_derive (fun t : R => U0_tang3D [x; y; t] H M a U l l) z (dzU0_tang3D [x; y; z] H M a U l l)).
  { pose proof (t3_dzU (fun r => chiTrunc r l l) (fun r => dchiTrunc r l l) H M a U Hs r z Hq) as D. rewrite sq_r in D. exact D. }
  assert (DV : is_derive (fun t : R => V0_tang3D [x; y; t] H M a U l l) z (dzV0_tang3D [x; y; z] H M a U l l)).
  { pose proof (t3_dzV (fun r => chiTrunc r l l) H M a U Hs r z Hq) as D. rewrite sq_r in D. exact D. }
  assert (DW : is_derive (fun t : R => W0_tang3D [x; y; t] H M a U l l) z (dzW0_tang3D [x; y; z] H M a U l l)).
  { pose proof (t3_dzW (fun r => chiTrunc r l l) (fun r => dchiTrunc r l l) (fun r => d2chiTrunc r l l) H M a U Hs r z Hq) as D. rewrite sq_r in D. exact D. }
  unfold dxux_sing_tangMvt3D, dyux_sing_tangMvt3D, dzux_sing_tangMvt3D, dxuy_sing_tangMvt3D, dyuy_sing_tangMvt3D, dzuy_sing_tangMvt3D, dxuz_sing_tangMvt3D, dyuz_sing_tangMvt3D, dzuz_sing_tangMvt3D, rr,
    drur_sing_tangMvt3D, drut_sing_tangMvt3D, dtur_sing_tangMvt3D, dtut_sing_tangMvt3D, druz_sing_tangMvt3D, dtuz_sing_tangMvt3D, dzur_sing_tangMvt3D, dzut_sing_tangMvt3D, ur_sing_tangMvt3D, ut_sing_tangMvt3D.
  destruct (CT x y z Hr) as [-> ->]. unfold rr2, x_, y_. cbn [nth]. cbv zeta. destruct (Reqb_spec (x * x + y * y) 0); [contradiction|]. cbn [negb]. rewrite dU_P, dV_Q, dW_W, U_P, V_Q, W_W.
  split; [|split; [|split; [|split; [|split; [|split; [|split; [|split]]]]]]].
  - eapply EX; [apply (t_xx P Q (dP r) (dQ r)); auto using P_d, Q_d, W_d|intros t E; eapply eq_trans; [apply (RX t y z E)|rewrite U_P, V_Q; reflexivity]].
  - eapply EY; [apply (t_xy P Q (dP r) (dQ r)); auto using P_d, Q_d, W_d|intros t E; eapply eq_trans; [apply (RX x t z E)|rewrite U_P, V_Q; reflexivity]].
  - pose proof (d_plus _ _ z _ _ (lin_d _ (fun t : R => U0_tang3D [x; y; t] H M a U l l * (U / 2 * (x / r) * (x / r))) _ z _ DU (fun t => eq_refl)) (lin_d _ (fun t : R => V0_tang3D [x; y; t] H M a U l l * (- (U / 2 * (y / r) * (y / r)))) _ z _ DV (fun t => eq_refl))) as D.
    eapply is_derive_ext; [|replace (U * dzU0_tang3D [x; y; z] H M a U l l * (x / r) / 2 * x / r - U * dzV0_tang3D [x; y; z] H M a U l l * (y / r) / 2 * y / r) with (dzU0_tang3D [x; y; z] H M a U l l * (U / 2 * (x / r) * (x / r)) + dzV0_tang3D [x; y; z] H M a U l l * - (U / 2 * (y / r) * (y / r))) by (field; lra); exact D].
    assert (E : forall t : R, U0_tang3D [x; y; t] H M a U l l * (U / 2 * (x / r) * (x / r)) + V0_tang3D [x; y; t] H M a U l l * (- (U / 2 * (y / r) * (y / r))) = ux_sing_tangMvt3D [x; y; t] H M a U l l) by (intros t; rewrite (RX x y t Hr); field; lra). exact E.
  - eapply EX; [apply (t_yx P Q (dP r) (dQ r)); auto using P_d, Q_d, W_d|intros t E; eapply eq_trans; [apply (RY t y z E)|rewrite U_P, V_Q; reflexivity]].
  - eapply EY; [apply (t_yy P Q (dP r) (dQ r)); auto using P_d, Q_d, W_d|intros t E; eapply eq_trans; [apply (RY x t z E)|rewrite U_P, V_Q; reflexivity]].
  - pose proof (d_plus _ _ z _ _ (lin_d _ (fun t : R => U0_tang3D [x; y; t] H M a U l l * (U / 2 * (x / r) * (y / r))) _ z _ DU (fun t => eq_refl)) (lin_d _ (fun t : R => V0_tang3D [x; y; t] H M a U l l * (U / 2 * (y / r) * (x / r))) _ z _ DV (fun t => eq_refl))) as D.
    eapply is_derive_ext; [|replace (U * dzU0_tang3D [x; y; z] H M a U l l * (x / r) / 2 * y / r + U * dzV0_tang3D [x; y; z] H M a U l l * (y / r) / 2 * x / r) with (dzU0_tang3D [x; y; z] H M a U l l * (U / 2 * (x / r) * (y / r)) + dzV0_tang3D [x; y; z] H M a U l l * (U / 2 * (y / r) * (x / r))) by (field; lra); exact D].
    assert (E : forall t : R, U0_tang3D [x; y; t] H M a U l l * (U / 2 * (x / r) * (y / r)) + V0_tang3D [x; y; t] H M a U l l * (U / 2 * (y / r) * (x / r)) = uy_sing_tangMvt3D [x; y; t] H M a U l l) by (intros t; rewrite (RY x y t Hr); field; lra). exact E.
  - eapply EX; [apply (t_zx W (dW r)); auto using P_d, Q_d, W_d|intros t E; eapply eq_trans; [apply (RZ t y z E)|rewrite W_W; reflexivity]].
  - eapply EY; [apply (t_zy W (dW r)); auto using P_d, Q_d, W_d|intros t E; eapply eq_trans; [apply (RZ x t z E)|rewrite W_W; reflexivity]].
  - replace (U * dzW0_tang3D [x; y; z] H M a U l l * (x / r) / 2) with (dzW0_tang3D [x; y; z] H M a U l l * (U / 2 * (x / r))) by (field; lra).
    apply (lin_d _ _ _ z _ DW). intros t. eapply eq_trans; [apply (RZ x y t Hr)|field; lra].
Qed.
Theorem C38_divergence_3d : DIVCART_tangMvt3D [x; y; z] H M a U l l = 0 /\ DIVCYLIND_tangMvt3D [x; y; z] H M a U l l = 0.
Proof.
  assert (Hs : H + M <> 0) by lra. pose proof (gap_nz H M a _ HH HM Ha (sq_nn r)) as Hq. pose proof (r_pos x y Hr) as R1. pose proof (sq_r x y) as S2.
  pose proof (t3_div (fun r => chiTrunc r l l) (fun r => dchiTrunc r l l) (fun r => d2chiTrunc r l l) H M a U Hs r z Hq ltac:(lra)) as D. rewrite sq_r in D.
  change (DIVCYLIND_tangMvt3D [x; y; z] H M a U l l = 0) in D. split; [|exact D].
  unfold DIVCYLIND_tangMvt3D in D. assert (E : dzW0_tang3D [x; y; z] H M a U l l = - (drU0_tang3D [x; y; z] H M a U l l + U0_tang3D [x; y; z] H M a U l l / r + V0_tang3D [x; y; z] H M a U l l / r)) by (change (rr [x; y; z]) with r in D; lra).
  unfold DIVCART_tangMvt3D, dxux_sing_tangMvt3D, dyuy_sing_tangMvt3D, dzuz_sing_tangMvt3D, drur_sing_tangMvt3D, drut_sing_tangMvt3D, dtur_sing_tangMvt3D, dtut_sing_tangMvt3D, ur_sing_tangMvt3D, ut_sing_tangMvt3D, cosTheta, sinTheta, rr, rr2, x_, y_. rewrite E. cbn [nth]. destruct (Reqb_spec (x * x + y * y) 0); [contradiction|]. cbn [negb]. cbv zeta.
  generalize (drU0_tang3D [x; y; z] H M a U l l) (U0_tang3D [x; y; z] H M a U l l) (V0_tang3D [x; y; z] H M a U l l) (drV0_tang3D [x; y; z] H M a U l l). intros A B C G. clear D E Hq. set (s := sqrt (x * x + y * y)) in *. clearbody s. rewrite <- S2.
  assert (E : s ^ 2 = x ^ 2 + y ^ 2) by (simpl; lra). clear P Q W dP dQ dW. field [E]. lra.
Qed.
Theorem C57_lubrication_tang_3d : exists px py,
  is_derive (fun t => p_sing_withT_tangMvt3D [t; y; z] H M a U l l) x px /\ is_derive (fun t => dzux_sing_tangMvt3D [x; y; t] H M a U l l) z px /\
  is_derive (fun t => p_sing_withT_tangMvt3D [x; t; z] H M a U l l) y py /\ is_derive (fun t => dzuy_sing_tangMvt3D [x; y; t] H M a U l l) z py.
Proof.
  assert (Hs : H + M <> 0) by lra. pose proof (gap_nz H M a _ HH HM Ha (sq_nn r)) as Hq. destruct (chi_d l Hl) as (D0 & D1 & D2). pose proof (r_pos x y Hr) as R1.
  destruct (t3_lub_r (fun r => chiTrunc r l l) (fun r => dchiTrunc r l l) D0 H M a U Hs r z Hq) as (w & P1 & P2). rewrite sq_r in P2.
  pose proof (t3_lub_t (fun r => chiTrunc r l l) H M a U Hs r z Hq ltac:(lra)) as P3. rewrite sq_r in P3.
  set (p := pt3 (fun r => chiTrunc r l l) H M a) in *.
  change (is_derive (fun t => dzU0_tang3D [x; y; t] H M a U l l) z w) in P2. change (is_derive (fun t => dzV0_tang3D [x; y; t] H M a U l l) z (- p r / r)) in P3.
  assert (PE : forall u v, u * u + v * v <> 0 -> p_sing_withT_tangMvt3D [u; v; z] H M a U l l = U * p (sqrt (u * u + v * v)) * (u / sqrt (u * u + v * v)) / 2).
  { intros u v E. unfold p_sing_withT_tangMvt3D, p, pt3, rr2, x_, y_. cbv zeta. cbn [nth]. pose proof (r_pos u v E). destruct (Reqb_spec (sqrt (u * u + v * v)) 0); [lra|]. cbn [negb]. rewrite sq_r. unfold Rdiv. ring. }
  assert (EX : forall (f g : R -> R) df, is_derive f x df -> (forall t, t * t + y * y <> 0 -> g t = f t) -> is_derive g x df) by (intros f g df D E; apply (is_derive_ext_loc f); [|exact D]; apply (filter_imp (fun t => t * t + y * y <> 0)); [intros t Ht; symmetry; apply E, Ht|apply near_x, Hr]).
  assert (EY : forall (f g : R -> R) df, is_derive f y df -> (forall t, x * x + t * t <> 0 -> g t = f t) -> is_derive g y df) by (intros f g df D E; apply (is_derive_ext_loc f); [|exact D]; apply (filter_imp (fun t => x * x + t * t <> 0)); [intros t Ht; symmetry; apply E, Ht|apply near_y, Hr]).
  pose proof (t_zx p w x y Hr P1 U) as TX. pose proof (t_zy p w x y Hr P1 U) as TY. pose proof (sq_r x y) as S2.
  eexists. eexists. split; [|split; [|split]].
  - eapply EX; [exact TX|intros t E; apply (PE t y E)].
  - pose proof (d_plus _ _ z _ _ (lin_d _ (fun t : R => dzU0_tang3D [x; y; t] H M a U l l * (U / 2 * (x / r) * (x / r))) _ z _ P2 (fun t => eq_refl)) (lin_d _ (fun t : R => dzV0_tang3D [x; y; t] H M a U l l * (- (U / 2 * (y / r) * (y / r)))) _ z _ P3 (fun t => eq_refl))) as D.
    eapply is_derive_ext; [|match type of D with is_derive _ _ ?v => match goal with |- is_derive _ _ ?g => replace g with v; [exact D|] end end].
    + assert (E : forall t : R, dzU0_tang3D [x; y; t] H M a U l l * (U / 2 * (x / r) * (x / r)) + dzV0_tang3D [x; y; t] H M a U l l * (- (U / 2 * (y / r) * (y / r))) = dzux_sing_tangMvt3D [x; y; t] H M a U l l); [|exact E].
      intros t. unfold dzux_sing_tangMvt3D, dzur_sing_tangMvt3D, dzut_sing_tangMvt3D, cosTheta, sinTheta, rr, rr2, x_, y_. cbn [nth]. destruct (Reqb_spec (x * x + y * y) 0); [contradiction|]. cbn [negb]. field. lra.
    + clear D TX TY P1 P2 P3 PE. set (s := sqrt (x * x + y * y)) in *. clearbody s. generalize (p s). intros ps. rewrite <- ?S2. field. lra.
  - eapply EY; [exact TY|intros t E; apply (PE x t E)].
  - pose proof (d_plus _ _ z _ _ (lin_d _ (fun t : R => dzU0_tang3D [x; y; t] H M a U l l * (U / 2 * (x / r) * (y / r))) _ z _ P2 (fun t => eq_refl)) (lin_d _ (fun t : R => dzV0_tang3D [x; y; t] H M a U l l * (U / 2 * (y / r) * (x / r))) _ z _ P3 (fun t => eq_refl))) as D.
    eapply is_derive_ext; [|match type of D with is_derive _ _ ?v => match goal with |- is_derive _ _ ?g => replace g with v; [exact D|] end end].
    + assert (E : forall t : R, dzU0_tang3D [x; y; t] H M a U l l * (U / 2 * (x / r) * (y / r)) + dzV0_tang3D [x; y; t] H M a U l l * (U / 2 * (y / r) * (x / r)) = dzuy_sing_tangMvt3D [x; y; t] H M a U l l); [|exact E].
      intros t. unfold dzuy_sing_tangMvt3D, dzur_sing_tangMvt3D, dzut_sing_tangMvt3D, cosTheta, sinTheta, rr, rr2, x_, y_. cbn [nth]. destruct (Reqb_spec (x * x + y * y) 0); [contradiction|]. cbn [negb]. field. lra.
    + clear D TX TY P1 P2 P3 PE. set (s := sqrt (x * x + y * y)) in *. clearbody s. generalize (p s). intros ps. rewrite <- ?S2. field. lra.
Qed.
End ThreeD.
(** the surfaces slide at minus and plus half the relative velocity and nothing crosses the first one; but the surface
    of curvature M is the lower one here, while every other singular field puts the one of curvature H below *)
Theorem C38_no_slip_3d : forall H M a U l x y, 0 < H -> 0 < M -> 0 < a -> 0 < l -> x * x + y * y <> 0 ->
  let s := x * x + y * y in let low := - M * s / 2 in let up := a + H * s / 2 in
  ux_sing_tangMvt3D [x; y; low] H M a U l l = - U / 2 * chiTrunc (sqrt s) l l /\ uy_sing_tangMvt3D [x; y; low] H M a U l l = 0 /\ uz_sing_tangMvt3D [x; y; low] H M a U l l = 0 /\
  ux_sing_tangMvt3D [x; y; up] H M a U l l = U / 2 * chiTrunc (sqrt s) l l /\ uy_sing_tangMvt3D [x; y; up] H M a U l l = 0.
Proof.
  intros H M a U l x y HH HM Ha Hl Hr s low up. assert (Hs : H + M <> 0) by lra. pose proof (gap_nz H M a _ HH HM Ha (sq_nn (sqrt s))) as Hq. unfold s in Hq. rewrite sq_r in Hq. fold s in Hq.
  pose proof (r_pos x y Hr) as R1. pose proof (sq_r x y) as S2. fold s in R1, S2.
  assert (UL : U0_tang3D [x; y; low] H M a U l l = - chiTrunc (sqrt s) l l).
  { unfold U0_tang3D, low. cbn [nth]. fold s. unfold U0_tang3D_body. cbv zeta. field. nz Hq. }
  assert (VL : V0_tang3D [x; y; low] H M a U l l = chiTrunc (sqrt s) l l).
  { unfold V0_tang3D, low. cbn [nth]. fold s. unfold V0_tang3D_body. cbv zeta. field. nz Hq. }
  assert (WL : W0_tang3D [x; y; low] H M a U l l = 0).
  { unfold W0_tang3D, low. cbn [nth]. fold s. unfold W0_tang3D_body. cbv zeta. field. nz Hq. }
  assert (UU : U0_tang3D [x; y; up] H M a U l l = chiTrunc (sqrt s) l l).
  { unfold U0_tang3D, up. cbn [nth]. fold s. unfold U0_tang3D_body. cbv zeta. field. nz Hq. }
  assert (VU : V0_tang3D [x; y; up] H M a U l l = - chiTrunc (sqrt s) l l).
  { unfold V0_tang3D, up. cbn [nth]. fold s. unfold V0_tang3D_body. cbv zeta. field. nz Hq. }
  unfold ux_sing_tangMvt3D, uy_sing_tangMvt3D, uz_sing_tangMvt3D, ur_sing_tangMvt3D, ut_sing_tangMvt3D, cosTheta, sinTheta, rr. rewrite UL, VL, WL, UU, VU. unfold rr2, x_, y_. cbn [nth]. fold s.
  destruct (Reqb_spec s 0); [contradiction|]. cbn [negb]. generalize (chiTrunc (sqrt s) l l). intros c. clear UL VL WL UU VU Hq.
  set (q := sqrt s) in *. clearbody q. assert (E : q ^ 2 = x ^ 2 + y ^ 2) by (simpl; unfold s in S2; lra).
  split; [|split; [|split; [|split]]]; field [E]; lra.
Qed.
Theorem C38_curvatures_3d_refuted : exists H M a U l x y, 0 < H /\ 0 < M /\ 0 < a /\ 0 < l /\ 0 < x * x + y * y /\
  ux_sing_tangMvt3D [x; y; - H * (x * x + y * y) / 2] H M a U l l <> - U / 2 * chiTrunc (sqrt (x * x + y * y)) l l.
Proof.
  exists 1, 2, 1, 1, 1, 1, 0. repeat (split; [lra|]). destruct (chi_inside 1 1 ltac:(lra)) as (E0 & E1 & E2 & _).
  assert (I1 : forall P, inside 1 P 1 = P 1) by (intros P; unfold inside; destruct (Rltb_spec (1 * 1) (2 * 1)); [reflexivity|lra]).
  assert (F1 : dchiTrunc 1 1 1 = - 315 / 256) by (rewrite E1, I1; unfold chiP1, dalphaTrunc; cbv zeta; field).
  unfold ux_sing_tangMvt3D, ur_sing_tangMvt3D, ut_sing_tangMvt3D, cosTheta, sinTheta, rr, rr2, x_, y_, U0_tang3D, V0_tang3D. cbn [nth].
  replace (1 * 1 + 0 * 0) with 1 by ring. rewrite sqrt_1. destruct (Reqb_spec 1 0); [lra|]. cbn [negb]. rewrite (proj1 C35_example), F1. unfold U0_tang3D_body, V0_tang3D_body. cbv zeta.
  intros D. field_simplify in D. lra.
Qed.
(** on the line of centres the cartesian gradient of the normal component is returned as zero and is not *)
Theorem C38_axis_3d_refuted : exists H M a U l z, 0 < H /\ 0 < M /\ 0 < a /\ 0 < l /\
  ~ is_derive (fun t => uz_sing_tangMvt3D [t; 0; z] H M a U l l) 0 (dxuz_sing_tangMvt3D [0; 0; z] H M a U l l).
Proof.
  exists 1, 1, 1, 1, 1, (1 / 2). repeat (split; [lra|]). destruct (C35_cutoff 1 ltac:(lra)) as (E0 & E1 & E2 & _). destruct (chi_d 1 ltac:(lra)) as (D0 & D1 & D2).
  assert (Q : rr2 [0; 0; 1 / 2] = 0) by (unfold rr2, x_, y_; cbn [nth]; ring).
  unfold dxuz_sing_tangMvt3D. rewrite Q. destruct (Reqb_spec 0 0); [|contradiction]. cbn [negb]. intros D.
  set (f := fun t => W0_tang3D_body (t * t) t (1 / 2) 1 1 1 1 (chiTrunc t 1 1) (dchiTrunc t 1 1) (d2chiTrunc t 1 1)).
  assert (Ev : forall t, d2chiTrunc (sqrt (t * t)) 1 1 = d2chiTrunc t 1 1 /\ dchiTrunc (sqrt (t * t)) 1 1 = dchiTrunc t 1 1 /\ chiTrunc (sqrt (t * t)) 1 1 = chiTrunc t 1 1).
  { intros t. destruct (chi_inside 1 t ltac:(lra)) as (A0 & A1 & A2 & _), (chi_inside 1 (sqrt (t * t)) ltac:(lra)) as (B0 & B1 & B2 & _).
    rewrite A0, A1, A2, B0, B1, B2. unfold inside, chiP, chiP1, chiP2. rewrite sqrt_sqrt by apply sq_nn. auto. }
  assert (FE : forall t, uz_sing_tangMvt3D [t; 0; 1 / 2] 1 1 1 1 1 1 = f t * (1 / 2)).
  { intros t. unfold uz_sing_tangMvt3D, cosTheta, rr2, x_, y_, W0_tang3D. cbn [nth]. replace (t * t + 0 * 0) with (t * t) by ring. destruct (Ev t) as (-> & -> & ->). destruct (Reqb_spec (t * t) 0) as [T|T]; cbn [negb].
    - assert (T0 : t = 0) by (apply Rmult_integral in T; tauto). subst t. replace (0 * 0) with 0 by ring. rewrite sqrt_0. unfold f. replace (0 * 0) with 0 by ring. field.
    - assert (S : 0 < sqrt (t * t)) by (apply sqrt_lt_R0; pose proof (sq_nn t); lra). unfold f, W0_tang3D_body. cbv zeta. set (s := sqrt (t * t)) in *. field. repeat split; try lra. pose proof (sq_nn t). lra. }
  pose proof (t3_drW (fun r => chiTrunc r 1 1) (fun r => dchiTrunc r 1 1) (fun r => d2chiTrunc r 1 1) (fun r => d3chiTrunc r 1 1) D0 D1 D2 1 1 1 1 ltac:(lra) 0 (1 / 2) ltac:(lra)) as D'.
  pose proof (lin_d f (fun t => uz_sing_tangMvt3D [t; 0; 1 / 2] 1 1 1 1 1 1) (1 / 2) 0 _ D' FE) as D3.
  pose proof (eq_trans (eq_sym (is_derive_unique _ _ _ D)) (is_derive_unique _ _ _ D3)) as E. cbv beta in E. rewrite E0, E1, E2 in E. unfold drW0_tang3D_body in E. cbv zeta in E. lra.
Qed.
