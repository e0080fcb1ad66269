(** C37, C57: the singular field of two approaching particles. *)
From Coquelicot Require Import Coquelicot.
From Verif Require Import Base M_Truncation M_SingNormal M_SingTang M_SingWrap P_Sing P_SingCart Prop_Truncation.
Open Scope R_scope.

Lemma chi_d l : 0 < l -> (forall r, is_derive (fun x => chiTrunc x l l) r (2 * r * dchiTrunc r l l)) /\
  (forall r, is_derive (fun x => dchiTrunc x l l) r (2 * r * d2chiTrunc r l l)) /\ (forall r, is_derive (fun x => d2chiTrunc x l l) r (2 * r * d3chiTrunc r l l)).
Proof. intros Hl. split; [|split]; intros r; apply (C35_derivatives l Hl r). Qed.
Lemma sq_nn r : 0 <= r * r.
Proof. apply Rle_0_sqr. Qed.

(** ** 2D: X = [x; z], x along the line of centres, z along the gap *)
Section TwoD.
Variables (H M a U l x z : R).
Hypothesis (HH : 0 < H) (HM : 0 < M) (Ha : 0 < a) (Hl : 0 < l).
Theorem C37_gradient_gap_2d :
  is_derive (fun t => uz_sing_normalMvt2D [t; z] H M a U l l) x (dxuz_sing_normalMvt2D [x; z] H M a U l l) /\
  is_derive (fun t => uz_sing_normalMvt2D [x; t] H M a U l l) z (dzuz_sing_normalMvt2D [x; z] H M a U l l).
Proof.
  destruct (chi_d l Hl) as (D0 & D1 & D2). assert (Hs : H + M <> 0) by lra. pose proof (gap_nz H M a _ HH HM Ha (sq_nn z)) as Hq. split.
  - apply (n2_dxuz (fun r => chiTrunc r l l) H M a U z x Hq).
  - apply (n2_dzuz (fun r => chiTrunc r l l) (fun r => dchiTrunc r l l) D0 H M a U z x Hq).
Qed.
Theorem C37_divergence_2d : DIVCART_normalMvt2D [x; z] H M a U l l = 0.
Proof. assert (Hs : H + M <> 0) by lra. pose proof (gap_nz H M a _ HH HM Ha (sq_nn z)) as Hq. apply (n2_div (fun r => chiTrunc r l l) (fun r => dchiTrunc r l l)); assumption. Qed.
(** no slip along both surfaces, and half the closing velocity each at the surface of the first one *)
Theorem C37_no_slip_2d :
  uz_sing_normalMvt2D [- H * (z * z) / 2; z] H M a U l l = 0 /\
  uz_sing_normalMvt2D [a + M * (z * z) / 2; z] H M a U l l = 0 /\
  ux_sing_normalMvt2D [- H * (z * z) / 2; z] H M a U l l = - U / 2 * chiTrunc z l l.
Proof.
  assert (Hs : H + M <> 0) by lra. pose proof (gap_nz H M a _ HH HM Ha (sq_nn z)) as Hq.
  unfold uz_sing_normalMvt2D, ux_sing_normalMvt2D. cbn [nth]. unfold uz_sing_normalMvt2D_body, ux_sing_normalMvt2D_body. cbv zeta.
  split; [|split]; field; nz Hq.
Qed.
Theorem C37_contact_2d :
  ux_sing_normalMvt2D [0; 0] H M a U l l = - U / 2 /\ ux_sing_normalMvt2D [a; 0] H M a U l l = U / 2.
Proof.
  destruct (C35_cutoff l Hl) as (E0 & E1 & E2 & _). assert (Hs : H + M <> 0) by lra.
  unfold ux_sing_normalMvt2D. cbn [nth]. rewrite E0, E1, E2. unfold ux_sing_normalMvt2D_body. cbv zeta. split; field; nz Hs; lra.
Qed.
End TwoD.
(** on the line of centres and beyond the cut-off the two other gradient functions are derivatives too *)
Theorem C37_gradient_axis_2d : forall H M a U l x z, 0 < H -> 0 < M -> 0 < a -> 0 < l -> z = 0 \/ 2 * l <= z * z ->
  is_derive (fun t => ux_sing_normalMvt2D [t; z] H M a U l l) x (dxux_sing_normalMvt2D [x; z] H M a U l l).
Proof.
  intros H M a U l x z HH HM Ha Hl Hz. destruct (C35_cutoff l Hl) as (E0 & E1 & E2 & E3 & _). assert (Hs : H + M <> 0) by lra. pose proof (gap_nz H M a _ HH HM Ha (sq_nn z)) as Hq.
  assert (E1' : dchiTrunc z l l = 0) by (destruct Hz as [->|Hz]; [auto|apply E3, Hz]). assert (E2' : d2chiTrunc z l l = 0) by (destruct Hz as [->|Hz]; [auto|apply E3, Hz]).
  unfold ux_sing_normalMvt2D, dxux_sing_normalMvt2D. cbn [nth]. rewrite E1', E2'. generalize (chiTrunc z l l) as c. intros c. unfold ux_sing_normalMvt2D_body, dxux_sing_normalMvt2D_body. cbv zeta.
  auto_derive; [nz Hq|]. field. nz Hq.
Qed.
(** elsewhere they are not: the velocity function carries terms in the derivatives of the cut-off which the gradient function lacks *)
Theorem C37_gradient_2d_refuted : exists H M a U l x z, 0 < H /\ 0 < M /\ 0 < a /\ 0 < l /\ z * z < 2 * l /\
  ~ is_derive (fun t => ux_sing_normalMvt2D [t; z] H M a U l l) x (dxux_sing_normalMvt2D [x; z] H M a U l l).
Proof.
  exists 1, 1, 1, 1, 1, 0, 1. repeat (split; [lra|]). intros D. apply is_derive_unique in D. symmetry in D. revert D.
  destruct (chi_inside 1 1 ltac:(lra)) as (E0 & E1 & E2 & _). unfold ux_sing_normalMvt2D, dxux_sing_normalMvt2D. cbn [nth].
  assert (F0 : chiTrunc 1 1 1 = 1 / 2) by apply C35_example.
  assert (I1 : forall P, inside 1 P 1 = P 1) by (intros P; unfold inside; destruct (Rltb_spec (1 * 1) (2 * 1)); [reflexivity|lra]).
  assert (F1 : dchiTrunc 1 1 1 = - 315 / 256) by (rewrite E1, I1; unfold chiP1, dalphaTrunc; cbv zeta; field).
  assert (F2 : d2chiTrunc 1 1 1 = 0) by (rewrite E2, I1; unfold chiP2, d2alphaTrunc; cbv zeta; field).
  rewrite F0, F1, F2. unfold ux_sing_normalMvt2D_body, dxux_sing_normalMvt2D_body. cbv zeta.
  match goal with |- _ = Derive ?f 0 -> _ => let v := fresh "v" in evar (v : R); let E := fresh in assert (E : is_derive f 0 v); subst v; [auto_derive; [repeat split; lra|reflexivity]|rewrite (is_derive_unique _ _ _ E); clear E] end.
  intros D. field_simplify in D. lra.
Qed.

(** ** 3D: X = [x; y; z], z along the line of centres *)
Section ThreeD.
Variables (H M a U l x y z : R).
Hypothesis (HH : 0 < H) (HM : 0 < M) (Ha : 0 < a) (Hl : 0 < l).
Notation r := (sqrt (x * x + y * y)).
Let F t := ur_sing_normalMvt3D_body (t * t) t z H M a U (chiTrunc t l l) (dchiTrunc t l l).
Let G t := uz_sing_normalMvt3D_body (t * t) t z H M a U (chiTrunc t l l) (dchiTrunc t l l) (d2chiTrunc t l l).
Let dF t := drur_sing_normalMvt3D_body (t * t) t z H M a U (chiTrunc t l l) (dchiTrunc t l l) (d2chiTrunc t l l).
Let dG t := druz_sing_normalMvt3D_body (t * t) t z H M a U (chiTrunc t l l) (dchiTrunc t l l) (d2chiTrunc t l l) (d3chiTrunc t l l).
Lemma ur_F u v : ur_sing_normalMvt3D [u; v; z] H M a U l l = F (sqrt (u * u + v * v)).
Proof. unfold F. rewrite sq_r. reflexivity. Qed.
Lemma uz_G u v : uz_sing_normalMvt3D [u; v; z] H M a U l l = G (sqrt (u * u + v * v)).
Proof. unfold G. rewrite sq_r. reflexivity. Qed.
Lemma drur_F u v : drur_sing_normalMvt3D [u; v; z] H M a U l l = dF (sqrt (u * u + v * v)).
Proof. unfold dF. rewrite sq_r. reflexivity. Qed.
Lemma druz_G u v : druz_sing_normalMvt3D [u; v; z] H M a U l l = dG (sqrt (u * u + v * v)).
Proof. unfold dG. rewrite sq_r. reflexivity. Qed.
Lemma F_d t : is_derive F t (dF t).
Proof. destruct (chi_d l Hl) as (D0 & D1 & D2). apply (n3_drur (fun r => chiTrunc r l l) (fun r => dchiTrunc r l l) (fun r => d2chiTrunc r l l)); auto; [lra|]. apply gap_nz; auto. apply sq_nn. Qed.
Lemma G_d t : is_derive G t (dG t).
Proof. destruct (chi_d l Hl) as (D0 & D1 & D2). apply (n3_druz (fun r => chiTrunc r l l) (fun r => dchiTrunc r l l) (fun r => d2chiTrunc r l l) (fun r => d3chiTrunc r l l)); auto; [lra|]. apply gap_nz; auto. apply sq_nn. Qed.
Hypothesis Hr : x * x + y * y <> 0.
Theorem C37_gradient_3d :
  is_derive (fun t => ux_sing_normalMvt3D [t; y; z] H M a U l l) x (dxux_sing_normalMvt3D [x; y; z] H M a U l l) /\
  is_derive (fun t => ux_sing_normalMvt3D [x; t; z] H M a U l l) y (dyux_sing_normalMvt3D [x; y; z] H M a U l l) /\
  is_derive (fun t => ux_sing_normalMvt3D [x; y; t] H M a U l l) z (dzux_sing_normalMvt3D [x; y; z] H M a U l l) /\
  is_derive (fun t => uy_sing_normalMvt3D [t; y; z] H M a U l l) x (dxuy_sing_normalMvt3D [x; y; z] H M a U l l) /\
  is_derive (fun t => uy_sing_normalMvt3D [x; t; z] H M a U l l) y (dyuy_sing_normalMvt3D [x; y; z] H M a U l l) /\
  is_derive (fun t => uy_sing_normalMvt3D [x; y; t] H M a U l l) z (dzuy_sing_normalMvt3D [x; y; z] H M a U l l) /\
  is_derive (fun t => uz_sing_normalMvt3D [t; y; z] H M a U l l) x (dxuz_sing_normalMvt3D [x; y; z] H M a U l l) /\
  is_derive (fun t => uz_sing_normalMvt3D [x; t; z] H M a U l l) y (dyuz_sing_normalMvt3D [x; y; z] H M a U l l) /\
  is_derive (fun t => uz_sing_normalMvt3D [x; y; t] H M a U l l) z (dzuz_sing_normalMvt3D [x; y; z] H M a U l l).
Proof.
  assert (Hs : H + M <> 0) by lra. pose proof (gap_nz H M a _ HH HM Ha (sq_nn r)) as Hq.
  unfold dxux_sing_normalMvt3D, dyux_sing_normalMvt3D, dzux_sing_normalMvt3D, dxuy_sing_normalMvt3D, dyuy_sing_normalMvt3D, dzuy_sing_normalMvt3D, dxuz_sing_normalMvt3D, dyuz_sing_normalMvt3D, rr, rr2, x_, y_. cbn [nth].
  destruct (Reqb_spec (x * x + y * y) 0); [contradiction|]. cbn [negb]. rewrite drur_F, druz_G, ur_F.
  assert (LX : forall f g : R -> R, (forall t, t * t + y * y <> 0 -> f t = g t) -> locally x (fun t => f t = g t)) by (intros f g E; apply (filter_imp _ _ E), near_x, Hr).
  assert (LY : forall f g : R -> R, (forall t, x * x + t * t <> 0 -> f t = g t) -> locally y (fun t => f t = g t)) by (intros f g E; apply (filter_imp _ _ E), near_y, Hr).
  assert (RX : forall u v w, u * u + v * v <> 0 -> ux_sing_normalMvt3D [u; v; w] H M a U l l = ur_sing_normalMvt3D [u; v; w] H M a U l l * u / sqrt (u * u + v * v)).
  { intros u v w E. unfold ux_sing_normalMvt3D, rr, rr2, x_, y_. cbn [nth]. destruct (Reqb_spec (u * u + v * v) 0); [contradiction|reflexivity]. }
  assert (RY : forall u v w, u * u + v * v <> 0 -> uy_sing_normalMvt3D [u; v; w] H M a U l l = ur_sing_normalMvt3D [u; v; w] H M a U l l * v / sqrt (u * u + v * v)).
  { intros u v w E. unfold uy_sing_normalMvt3D, rr, rr2, x_, y_. cbn [nth]. destruct (Reqb_spec (u * u + v * v) 0); [contradiction|reflexivity]. }
  assert (RXZ : forall t : R, ux_sing_normalMvt3D [x; y; t] H M a U l l = ur_sing_normalMvt3D [x; y; t] H M a U l l * (x / r)) by (intros t; rewrite (RX x y t Hr); unfold Rdiv; ring).
  assert (RYZ : forall t : R, uy_sing_normalMvt3D [x; y; t] H M a U l l = ur_sing_normalMvt3D [x; y; t] H M a U l l * (y / r)) by (intros t; rewrite (RY x y t Hr); unfold Rdiv; ring).
  assert (DZ : is_derive (fun t => ur_sing_normalMvt3D [x; y; t] H M a U l l) z (dzur_sing_normalMvt3D [x; y; z] H M a U l l)).
  { pose proof (n3_dzur (fun r => chiTrunc r l l) (fun r => dchiTrunc r l l) H M a U Hs r z Hq) as D. rewrite sq_r in D. exact D. }
  split; [|split; [|split; [|split; [|split; [|split; [|split; [|split]]]]]]].
  - apply (is_derive_ext_loc (fun t => F (sqrt (t * t + y * y)) * t / sqrt (t * t + y * y))); [apply LX; intros t E; rewrite RX, ur_F by exact E; reflexivity|]. apply (d_xx F (dF r)); auto using F_d.
  - apply (is_derive_ext_loc (fun t => F (sqrt (x * x + t * t)) * x / sqrt (x * x + t * t))); [apply LY; intros t E; rewrite RX, ur_F by exact E; reflexivity|]. apply (d_xy F (dF r)); auto using F_d.
  - apply (is_derive_ext (fun t => ur_sing_normalMvt3D [x; y; t] H M a U l l * (x / r))); [intros t; symmetry; apply RXZ|].
    replace (dzur_sing_normalMvt3D [x; y; z] H M a U l l * x / r) with (dzur_sing_normalMvt3D [x; y; z] H M a U l l * (x / r) + ur_sing_normalMvt3D [x; y; z] H M a U l l * 0) by (unfold Rdiv; ring).
    apply (d_prod (fun t => ur_sing_normalMvt3D [x; y; t] H M a U l l) (fun _ => x / r) z); [exact DZ|apply (is_derive_const (V:=R_NormedModule))].
  - apply (is_derive_ext_loc (fun t => F (sqrt (t * t + y * y)) * y / sqrt (t * t + y * y))); [apply LX; intros t E; rewrite RY, ur_F by exact E; reflexivity|]. apply (d_yx F (dF r)); auto using F_d.
  - apply (is_derive_ext_loc (fun t => F (sqrt (x * x + t * t)) * t / sqrt (x * x + t * t))); [apply LY; intros t E; rewrite RY, ur_F by exact E; reflexivity|]. apply (d_yy F (dF r)); auto using F_d.
  - apply (is_derive_ext (fun t => ur_sing_normalMvt3D [x; y; t] H M a U l l * (y / r))); [intros t; symmetry; apply RYZ|].
    replace (dzur_sing_normalMvt3D [x; y; z] H M a U l l * y / r) with (dzur_sing_normalMvt3D [x; y; z] H M a U l l * (y / r) + ur_sing_normalMvt3D [x; y; z] H M a U l l * 0) by (unfold Rdiv; ring).
    apply (d_prod (fun t => ur_sing_normalMvt3D [x; y; t] H M a U l l) (fun _ => y / r) z); [exact DZ|apply (is_derive_const (V:=R_NormedModule))].
  - apply (is_derive_ext (fun t => G (sqrt (t * t + y * y)))); [intros t; rewrite uz_G; reflexivity|]. replace (dG r * x / r) with (dG r * (x / r)) by (unfold Rdiv; ring). apply (d_Fx x y Hr G), G_d.
  - apply (is_derive_ext (fun t => G (sqrt (x * x + t * t)))); [intros t; rewrite uz_G; reflexivity|]. replace (dG r * y / r) with (dG r * (y / r)) by (unfold Rdiv; ring). apply (d_Fy x y Hr G), G_d.
  - pose proof (n3_dzuz (fun r => chiTrunc r l l) (fun r => dchiTrunc r l l) (fun r => d2chiTrunc r l l) H M a U Hs r z Hq) as D. rewrite sq_r in D. exact D.
Qed.
Theorem C37_divergence_3d : DIVCART_normalMvt3D [x; y; z] H M a U l l = 0 /\ DIVCYLIND_normalMvt3D [x; y; z] H M a U l l = 0.
Proof.
  assert (Hs : H + M <> 0) by lra. pose proof (gap_nz H M a _ HH HM Ha (sq_nn r)) as Hq. pose proof (r_pos x y Hr) as R1.
  pose proof (n3_div (fun r => chiTrunc r l l) (fun r => dchiTrunc r l l) (fun r => d2chiTrunc r l l) H M a U Hs r z Hq ltac:(lra)) as D. rewrite sq_r in D.
  change (DIVCYLIND_normalMvt3D [x; y; z] H M a U l l = 0) in D. split; [|exact D]. rewrite <- D.
  unfold DIVCART_normalMvt3D, DIVCYLIND_normalMvt3D, dxux_sing_normalMvt3D, dyuy_sing_normalMvt3D, rr, rr2, x_, y_. cbn [nth]. destruct (Reqb_spec (x * x + y * y) 0); [contradiction|]. cbn [negb].
  field. split; [lra|exact Hr].
Qed.
(** the pressure balances the viscous stress across the gap *)
Theorem C57_lubrication_normal_3d : exists px py,
  is_derive (fun t => p_sing_withT_normalMvt3D [t; y; z] H M a U l l) x px /\ is_derive (fun t => dzux_sing_normalMvt3D [x; y; t] H M a U l l) z px /\
  is_derive (fun t => p_sing_withT_normalMvt3D [x; t; z] H M a U l l) y py /\ is_derive (fun t => dzuy_sing_normalMvt3D [x; y; t] H M a U l l) z py.
Proof.
  assert (Hs : H + M <> 0) by lra. pose proof (gap_nz H M a _ HH HM Ha (sq_nn r)) as Hq. destruct (chi_d l Hl) as (D0 & D1 & D2).
  destruct (n3_lub (fun r => chiTrunc r l l) (fun r => dchiTrunc r l l) D0 H M a U Hs r z Hq) as (w & P1 & P2). rewrite sq_r in P2.
  set (P := fun r => p_sing_withT_normalMvt3D_body (r * r) r z H M a U (chiTrunc r l l)) in P1. pose proof (d_Fx x y Hr P w P1) as PX. pose proof (d_Fy x y Hr P w P1) as PY.
  change (is_derive (fun t => dzur_sing_normalMvt3D [x; y; t] H M a U l l) z w) in P2.
  exists (w * (x / r)), (w * (y / r)). split; [|split; [|split]].
  - apply (is_derive_ext (fun t => P (sqrt (t * t + y * y)))); [|exact PX]. intros t. unfold P. rewrite sq_r. reflexivity.
  - apply (is_derive_ext (fun t => dzur_sing_normalMvt3D [x; y; t] H M a U l l * (x / r))).
    + assert (E : forall t : R, dzur_sing_normalMvt3D [x; y; t] H M a U l l * (x / r) = dzux_sing_normalMvt3D [x; y; t] H M a U l l); [|exact E].
      intros t. unfold dzux_sing_normalMvt3D, rr, rr2, x_, y_. cbn [nth]. destruct (Reqb_spec (x * x + y * y) 0); [contradiction|]. cbn [negb]. unfold Rdiv. ring.
    + replace (w * (x / r)) with (w * (x / r) + dzur_sing_normalMvt3D [x; y; z] H M a U l l * 0) by ring. apply (d_prod (fun t => dzur_sing_normalMvt3D [x; y; t] H M a U l l) (fun _ => x / r) z); [exact P2|apply (is_derive_const (V:=R_NormedModule))].
  - apply (is_derive_ext (fun t => P (sqrt (x * x + t * t)))); [|exact PY]. intros t. unfold P. rewrite sq_r. reflexivity.
  - apply (is_derive_ext (fun t => dzur_sing_normalMvt3D [x; y; t] H M a U l l * (y / r))).
    + assert (E : forall t : R, dzur_sing_normalMvt3D [x; y; t] H M a U l l * (y / r) = dzuy_sing_normalMvt3D [x; y; t] H M a U l l); [|exact E].
      intros t. unfold dzuy_sing_normalMvt3D, rr, rr2, x_, y_. cbn [nth]. destruct (Reqb_spec (x * x + y * y) 0); [contradiction|]. cbn [negb]. unfold Rdiv. ring.
    + replace (w * (y / r)) with (w * (y / r) + dzur_sing_normalMvt3D [x; y; z] H M a U l l * 0) by ring. apply (d_prod (fun t => dzur_sing_normalMvt3D [x; y; t] H M a U l l) (fun _ => y / r) z); [exact P2|apply (is_derive_const (V:=R_NormedModule))].
Qed.
End ThreeD.
Theorem C37_no_slip_3d : forall H M a U l x y, 0 < H -> 0 < M -> 0 < a -> 0 < l ->
  let s := x * x + y * y in
  ux_sing_normalMvt3D [x; y; - H * s / 2] H M a U l l = 0 /\ uy_sing_normalMvt3D [x; y; - H * s / 2] H M a U l l = 0 /\
  ux_sing_normalMvt3D [x; y; a + M * s / 2] H M a U l l = 0 /\ uy_sing_normalMvt3D [x; y; a + M * s / 2] H M a U l l = 0 /\
  uz_sing_normalMvt3D [x; y; - H * s / 2] H M a U l l = - U / 2 * chiTrunc (sqrt s) l l.
Proof.
  intros H M a U l x y HH HM Ha Hl s. assert (Hs : H + M <> 0) by lra. pose proof (gap_nz H M a _ HH HM Ha (sq_nn (sqrt s))) as Hq. unfold s in Hq. rewrite sq_r in Hq. fold s in Hq.
  assert (Z : forall w, w = - H * s / 2 \/ w = a + M * s / 2 -> ur_sing_normalMvt3D [x; y; w] H M a U l l = 0).
  { intros w Hw. unfold ur_sing_normalMvt3D. cbn [nth]. fold s. unfold ur_sing_normalMvt3D_body. cbv zeta. destruct Hw as [->| ->]; field; nz Hq. }
  assert (N : forall w, w = - H * s / 2 \/ w = a + M * s / 2 -> ux_sing_normalMvt3D [x; y; w] H M a U l l = 0 /\ uy_sing_normalMvt3D [x; y; w] H M a U l l = 0).
  { intros w Hw. unfold ux_sing_normalMvt3D, uy_sing_normalMvt3D. rewrite (Z w Hw). destruct (negb _); split; unfold Rdiv; ring. }
  destruct (N _ (or_introl eq_refl)) as [N1 N2]. destruct (N _ (or_intror eq_refl)) as [N3 N4]. repeat (split; [assumption|]).
  unfold uz_sing_normalMvt3D. cbn [nth]. fold s. generalize (chiTrunc (sqrt s) l l) (dchiTrunc (sqrt s) l l) (d2chiTrunc (sqrt s) l l). intros c0 c1 c2. unfold uz_sing_normalMvt3D_body. cbv zeta. clear Z N N1 N2 N3 N4. clearbody s. field. nz Hq.
Qed.
(** on the line of centres the cartesian gradient returns zero instead of the slope of the velocity, so that its trace does not vanish *)
Theorem C37_axis_3d_refuted : exists H M a U l z, 0 < H /\ 0 < M /\ 0 < a /\ 0 < l /\ DIVCART_normalMvt3D [0; 0; z] H M a U l l <> 0 /\
  ~ is_derive (fun t => ux_sing_normalMvt3D [t; 0; z] H M a U l l) 0 (dxux_sing_normalMvt3D [0; 0; z] H M a U l l).
Proof.
  exists 1, 1, 1, 1, 1, (1 / 2). repeat (split; [lra|]). destruct (C35_cutoff 1 ltac:(lra)) as (E0 & E1 & E2 & _).
  assert (Q : rr2 [0; 0; 1 / 2] = 0) by (unfold rr2, x_, y_; cbn [nth]; ring). split.
  - unfold DIVCART_normalMvt3D, dxux_sing_normalMvt3D, dyuy_sing_normalMvt3D. rewrite Q. destruct (Reqb_spec 0 0); [|contradiction]. cbn [negb].
    unfold dzuz_sing_normalMvt3D. cbn [nth]. replace (0 * 0 + 0 * 0) with 0 by ring. rewrite sqrt_0, E0, E1, E2. unfold dzuz_sing_normalMvt3D_body. cbv zeta. lra.
  - unfold dxux_sing_normalMvt3D. rewrite Q. destruct (Reqb_spec 0 0); [|contradiction]. cbn [negb]. intros D.
    set (f := fun t => ur_sing_normalMvt3D_body (t * t) t (1 / 2) 1 1 1 1 (chiTrunc t 1 1) (dchiTrunc t 1 1)).
    assert (Ev : forall t, dchiTrunc (sqrt (t * t)) 1 1 = dchiTrunc t 1 1 /\ chiTrunc (sqrt (t * t)) 1 1 = chiTrunc t 1 1).
    { intros t. unfold dchiTrunc, chiTrunc. cbv zeta. rewrite sqrt_sqrt by apply sq_nn. auto. }
    assert (FE : forall t, ux_sing_normalMvt3D [t; 0; 1 / 2] 1 1 1 1 1 1 = f t).
    { intros t. unfold ux_sing_normalMvt3D, rr, rr2, x_, y_, ur_sing_normalMvt3D. cbn [nth]. replace (t * t + 0 * 0) with (t * t) by ring. destruct (Ev t) as [-> ->]. destruct (Reqb_spec (t * t) 0) as [T|T]; cbn [negb].
      - assert (T0 : t = 0) by (apply Rmult_integral in T; tauto). subst t. replace (0 * 0) with 0 by ring. rewrite sqrt_0. unfold f. replace (0 * 0) with 0 by ring. reflexivity.
      - assert (S : 0 < sqrt (t * t)) by (apply sqrt_lt_R0; pose proof (sq_nn t); lra). unfold f, ur_sing_normalMvt3D_body. cbv zeta. set (s := sqrt (t * t)) in *. field. repeat split; try lra. pose proof (sq_nn t). lra. }
    apply (is_derive_ext _ f) in D; [|exact FE]. destruct (chi_d 1 ltac:(lra)) as (D0 & D1 & D2).
    pose proof (n3_drur (fun r => chiTrunc r 1 1) (fun r => dchiTrunc r 1 1) (fun r => d2chiTrunc r 1 1) D0 D1 1 1 1 1 ltac:(lra) 0 (1 / 2) ltac:(lra)) as D'. fold f in D'.
    apply is_derive_unique in D. apply is_derive_unique in D'. pose proof (eq_trans (eq_sym D) D') as D1'. clear D'. rename D1' into D'. cbv beta in D'. rewrite E0, E1, E2 in D'. unfold drur_sing_normalMvt3D_body in D'. cbv zeta in D'. lra.
Qed.
(** in 2D the pressure does not balance it inside the cut-off *)
Theorem C57_normal_2d_refuted : exists H M a U l x z px, 0 < H /\ 0 < M /\ 0 < a /\ 0 < l /\
  is_derive (fun t => p_sing_withT_normalMvt2D [x; t] H M a U l l) z px /\ ~ is_derive (fun t => dxuz_sing_normalMvt2D [t; z] H M a U l l) x px.
Proof.
  exists 1, 1, 1, 1, 1, 0, 1. destruct (chi_d 1 ltac:(lra)) as (D0 & D1 & D2).
  assert (P : is_derive (fun t => p_sing_withT_normalMvt2D [0; t] 1 1 1 1 1 1) 1 (3 / 4 + 3 / 2 * (315 / 256))).
  { assert (A : forall (c : R -> R) c', is_derive c 1 c' -> is_derive (fun t => p_sing_withT_normalMvt2D_body t 0 1 1 1 1 (c t)) 1 (3 / 2 * c 1 - 3 / 4 * c')).
    { intros c c' D. unfold p_sing_withT_normalMvt2D_body. cbv zeta. auto_derive; [nz D; lra|]. change (Derive (fun x : R => c x) 1) with (Derive c 1). rewrite (is_derive_unique _ _ _ D). field. }
    pose proof (A _ _ (D0 1)) as B. replace (3 / 4 + 3 / 2 * (315 / 256)) with (3 / 2 * chiTrunc 1 1 1 - 3 / 4 * (2 * 1 * dchiTrunc 1 1 1)); [exact B|].
    destruct (chi_inside 1 1 ltac:(lra)) as (_ & E1 & _). assert (I1 : forall P, inside 1 P 1 = P 1) by (intros P; unfold inside; destruct (Rltb_spec (1 * 1) (2 * 1)); [reflexivity|lra]).
    rewrite (proj1 C35_example), E1, I1. unfold chiP1, dalphaTrunc. cbv zeta. field. }
  exists (3 / 4 + 3 / 2 * (315 / 256)). repeat (split; [lra|]). split; [exact P|]. intros D. apply is_derive_unique in D.
  unfold dxuz_sing_normalMvt2D in D. cbn [nth] in D. rewrite (proj1 C35_example) in D. unfold dxuz_sing_normalMvt2D_body in D. cbv zeta in D. revert D.
  match goal with |- Derive ?f 0 = _ -> _ => let v := fresh "v" in evar (v : R); let E := fresh in assert (E : is_derive f 0 v); subst v; [auto_derive; [repeat split; lra|reflexivity]|rewrite (is_derive_unique _ _ _ E); clear E] end.
  intros D. field_simplify in D. lra.
Qed.
