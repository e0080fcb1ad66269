(** C36, 3D: the gradient in physical coordinates and the contact frame. *)
From Coquelicot Require Import Coquelicot.
From Verif Require Import Base S_Fem M_Geometry M_Particle M_Truncation M_SingNormal M_SingTang M_SingWrap M_Singularity P_Sing P_SingCart P_SingDir Prop_Truncation Prop_SingNormal Prop_SingTang Prop_Singularity.
Open Scope R_scope.

(** ** derivative along a straight line in the particle frame *)
Section Line.
Variables (H M a U l x y z p q c : R).
Hypothesis (HH : 0 < H) (HM : 0 < M) (Ha : 0 < a) (Hl : 0 < l) (Hr : x * x + y * y <> 0).
Notation r := (sqrt (x * x + y * y)).
Notation X t := [x + t * p; y + t * q; z + t * c].
Let rho t := sqrt ((x + t * p) * (x + t * p) + (y + t * q) * (y + t * q)).
Let zeta t := z + t * c.
Let R0 : rho 0 = r.
Proof. unfold rho. f_equal. ring. Qed.
Let Z0 : zeta 0 = z.
Proof. unfold zeta. ring. Qed.
Lemma rho_d : is_derive rho 0 ((x * p + y * q) / r).
Proof.
  pose proof (r2_pos _ _ Hr) as P. pose proof (r_pos _ _ Hr) as P1. unfold rho. auto_derive.
  - replace (_ + _) with (x * x + y * y) by ring. exact P.
  - replace ((x + 0 * p) * (x + 0 * p) + (y + 0 * q) * (y + 0 * q)) with (x * x + y * y) by ring. field. lra.
Qed.
Lemma zeta_d : is_derive zeta 0 c.
Proof. unfold zeta. auto_derive; [auto|ring]. Qed.
Lemma nq u : H * (u * u) + M * (u * u) + 2 * a <> 0.
Proof. apply gap_nz; auto. apply sq_nn. Qed.
Lemma ur_line : is_derive (fun t => ur_sing_normalMvt3D (X t) H M a U l l) 0 (drur_sing_normalMvt3D [x; y; z] H M a U l l * ((x * p + y * q) / r) + dzur_sing_normalMvt3D [x; y; z] H M a U l l * c).
Proof.
  assert (Hs : H + M <> 0) by lra.
  set (F := fun u v => ur_sing_normalMvt3D_body (u * u) u v H M a U (chiTrunc u l l) (dchiTrunc u l l)).
  set (dr := fun u v => drur_sing_normalMvt3D_body (u * u) u v H M a U (chiTrunc u l l) (dchiTrunc u l l) (d2chiTrunc u l l)).
  set (dz := fun u v => dzur_sing_normalMvt3D_body (u * u) u v H M a U (chiTrunc u l l) (dchiTrunc u l l)).
  pose proof (cubic_curve F dr dz rho zeta 0 ((x * p + y * q) / r) c) as D. rewrite R0, Z0 in D.
  rewrite drur_F. fold (dr r z). replace (dzur_sing_normalMvt3D [x; y; z] H M a U l l) with (dz r z) by (unfold dz; rewrite sq_r; reflexivity).
  apply (is_derive_ext (fun t => F (rho t) (zeta t))). { intros t. unfold F, rho. rewrite sq_r. reflexivity. }
  apply D; [| | |apply rho_d|apply zeta_d].
  - intros u v. apply ur_cubic; auto using nq.
  - intros v. apply F_d; auto.
  - apply (n3_dzur (fun r => chiTrunc r l l) (fun r => dchiTrunc r l l) H M a U Hs r z (nq r)).
Qed.
Lemma uz_line : is_derive (fun t => uz_sing_normalMvt3D (X t) H M a U l l) 0 (druz_sing_normalMvt3D [x; y; z] H M a U l l * ((x * p + y * q) / r) + dzuz_sing_normalMvt3D [x; y; z] H M a U l l * c).
Proof.
  assert (Hs : H + M <> 0) by lra.
  set (F := fun u v => uz_sing_normalMvt3D_body (u * u) u v H M a U (chiTrunc u l l) (dchiTrunc u l l) (d2chiTrunc u l l)).
  set (dr := fun u v => druz_sing_normalMvt3D_body (u * u) u v H M a U (chiTrunc u l l) (dchiTrunc u l l) (d2chiTrunc u l l) (d3chiTrunc u l l)).
  set (dz := fun u v => dzuz_sing_normalMvt3D_body (u * u) u v H M a U (chiTrunc u l l) (dchiTrunc u l l) (d2chiTrunc u l l)).
  pose proof (cubic_curve F dr dz rho zeta 0 ((x * p + y * q) / r) c) as D. rewrite R0, Z0 in D.
  rewrite druz_G. fold (dr r z). replace (dzuz_sing_normalMvt3D [x; y; z] H M a U l l) with (dz r z) by (unfold dz; rewrite sq_r; reflexivity).
  apply (is_derive_ext (fun t => F (rho t) (zeta t))). { intros t. unfold F, rho. rewrite sq_r. reflexivity. }
  apply D; [| | |apply rho_d|apply zeta_d].
  - intros u v. apply uz_cubic; auto using nq.
  - intros v. apply G_d; auto.
  - apply (n3_dzuz (fun r => chiTrunc r l l) (fun r => dchiTrunc r l l) (fun r => d2chiTrunc r l l) H M a U Hs r z (nq r)).
Qed.
Lemma near_line : locally 0 (fun t => (x + t * p) * (x + t * p) + (y + t * q) * (y + t * q) <> 0).
Proof.
  assert (O : open (fun t : R => (x + t * p) * (x + t * p) + (y + t * q) * (y + t * q) <> 0)).
  { apply (open_comp (fun t : R => (x + t * p) * (x + t * p) + (y + t * q) * (y + t * q)) (fun u => u <> 0)); [|apply open_neq]. intros t _. apply (ex_derive_continuous (fun t : R => (x + t * p) * (x + t * p) + (y + t * q) * (y + t * q)) t). auto_derive. auto. }
  apply O. replace (_ + _) with (x * x + y * y) by ring. exact Hr.
Qed.
(** the quotient of a linear function by the distance to the axis *)
Lemma dir_d (u v : R) : is_derive (fun t => (u + t * v) / rho t) 0 (v / r - u * (x * p + y * q) / (r * r * r)).
Proof.
  pose proof (r_pos _ _ Hr) as P1. pose proof rho_d as D. assert (E : is_derive (fun t => rho t) 0 ((x * p + y * q) / r)) by exact D.
  auto_derive.
  - split; [eexists; exact E|]. rewrite R0. split; [lra|auto].
  - change (Derive (fun x => rho x) 0) with (Derive rho 0). assert (E1 : Derive rho 0 = (x * p + y * q) / r) by exact (is_derive_unique _ _ _ E). rewrite E1, R0. field. lra.
Qed.
Lemma grad_line :
  is_derive (fun t => ux_sing_normalMvt3D (X t) H M a U l l) 0 (dxux_sing_normalMvt3D [x; y; z] H M a U l l * p + dyux_sing_normalMvt3D [x; y; z] H M a U l l * q + dzux_sing_normalMvt3D [x; y; z] H M a U l l * c) /\
  is_derive (fun t => uy_sing_normalMvt3D (X t) H M a U l l) 0 (dxuy_sing_normalMvt3D [x; y; z] H M a U l l * p + dyuy_sing_normalMvt3D [x; y; z] H M a U l l * q + dzuy_sing_normalMvt3D [x; y; z] H M a U l l * c) /\
  is_derive (fun t => uz_sing_normalMvt3D (X t) H M a U l l) 0 (dxuz_sing_normalMvt3D [x; y; z] H M a U l l * p + dyuz_sing_normalMvt3D [x; y; z] H M a U l l * q + dzuz_sing_normalMvt3D [x; y; z] H M a U l l * c).
Proof.
  pose proof (r_pos _ _ Hr) as P1. pose proof (sq_r x y) as S2. pose proof ur_line as DU. pose proof uz_line as DW. pose proof near_line as NL.
  unfold dxux_sing_normalMvt3D, dyux_sing_normalMvt3D, dzux_sing_normalMvt3D, dxuy_sing_normalMvt3D, dyuy_sing_normalMvt3D, dzuy_sing_normalMvt3D, dxuz_sing_normalMvt3D, dyuz_sing_normalMvt3D, rr, rr2, x_, y_. cbn [nth].
  destruct (Reqb_spec (x * x + y * y) 0); [contradiction|]. cbn [negb].
  assert (V0 : ur_sing_normalMvt3D (X 0) H M a U l l = ur_sing_normalMvt3D [x; y; z] H M a U l l) by (f_equal; f_equal; [ring|f_equal; [ring|f_equal; ring]]).
  split; [|split].
  - apply (is_derive_ext_loc (fun t => ur_sing_normalMvt3D (X t) H M a U l l * ((x + t * p) / rho t))).
    + apply (filter_imp _ _ ) with (2 := NL). intros t Ht. unfold ux_sing_normalMvt3D, rr, rr2, x_, y_. cbn [nth]. destruct (Reqb_spec ((x + t * p) * (x + t * p) + (y + t * q) * (y + t * q)) 0); [contradiction|]. cbn [negb]. unfold rho, Rdiv. symmetry. apply Rmult_assoc.
    + pose proof (d_prod _ _ 0 _ _ DU (dir_d x p)) as D. cbv beta in D. rewrite R0, V0 in D.
      match goal with |- is_derive _ _ ?g => match type of D with is_derive _ _ ?g' => replace g with g'; [exact D|] end end.
      set (s := sqrt (x * x + y * y)) in *. clearbody s. rewrite <- S2. clear V0 D DU DW. generalize (ur_sing_normalMvt3D [x; y; z] H M a U l l) (drur_sing_normalMvt3D [x; y; z] H M a U l l) (dzur_sing_normalMvt3D [x; y; z] H M a U l l). intros w1 w2 w3. assert (E : s ^ 2 = x ^ 2 + y ^ 2) by (simpl; lra). field_simplify_eq; [|lra]. rewrite E. ring.
  - apply (is_derive_ext_loc (fun t => ur_sing_normalMvt3D (X t) H M a U l l * ((y + t * q) / rho t))).
    + apply (filter_imp _ _ ) with (2 := NL). intros t Ht. unfold uy_sing_normalMvt3D, rr, rr2, x_, y_. cbn [nth]. destruct (Reqb_spec ((x + t * p) * (x + t * p) + (y + t * q) * (y + t * q)) 0); [contradiction|]. cbn [negb]. unfold rho, Rdiv. symmetry. apply Rmult_assoc.
    + pose proof (d_prod _ _ 0 _ _ DU (dir_d y q)) as D. cbv beta in D. rewrite R0, V0 in D.
      match goal with |- is_derive _ _ ?g => match type of D with is_derive _ _ ?g' => replace g with g'; [exact D|] end end.
      set (s := sqrt (x * x + y * y)) in *. clearbody s. rewrite <- S2. clear V0 D DU DW. generalize (ur_sing_normalMvt3D [x; y; z] H M a U l l) (drur_sing_normalMvt3D [x; y; z] H M a U l l) (dzur_sing_normalMvt3D [x; y; z] H M a U l l). intros w1 w2 w3. assert (E : s ^ 2 = x ^ 2 + y ^ 2) by (simpl; lra). field_simplify_eq; [|lra]. rewrite E. ring.
  - match goal with |- is_derive _ _ ?g => match type of DW with is_derive _ _ ?g' => replace g with g'; [exact DW|] end end. field. lra.
Qed.
End Line.

(** the returned gradient is the derivative of the returned velocity in every direction, away from the line of centres, whatever the frame *)
Theorem C36_gradient_3d : forall (b0 b1 b2 o pos d : list R) H1 H2 K a cut l UN UT i,
  length b0 = 3%nat -> length b1 = 3%nat -> length b2 = 3%nat -> length o = 3%nat -> length pos = 3%nat -> length d = 3%nat ->
  0 < H1 -> 0 < H2 -> 0 < a -> 0 < l ->
  let s := mksing H1 H2 K a cut l UN UT i [b0; b1; b2] o in
  let X := get_pos_in_part_ref s pos in nth 0 X 0 * nth 0 X 0 + nth 1 X 0 * nth 1 X 0 <> 0 ->
  forall k, (k < 3)%nat ->
  is_derive (fun t => nth k (get_u_sing s (map (fun j => nth j pos 0 + t * nth j d 0) (seq 0 3))) 0) 0
    (Rsum 3 (fun j => nth j (nth k (get_grad_u_sing s pos) []) 0 * nth j d 0)).
Proof.
  intros b0 b1 b2 o pos d H1 H2 K a cut l UN UT i L0 L1 L2 Lo Lp Ld P1 P2 Pa Pl s X HX k Hk.
  destruct b0 as [|b00 [|b01 [|b02 [|? ?]]]]; try discriminate L0. destruct b1 as [|b10 [|b11 [|b12 [|? ?]]]]; try discriminate L1. destruct b2 as [|b20 [|b21 [|b22 [|? ?]]]]; try discriminate L2.
  destruct o as [|o0 [|o1 [|o2 [|? ?]]]]; try discriminate Lo. destruct pos as [|p0 [|p1 [|p2 [|? ?]]]]; try discriminate Lp. destruct d as [|d0 [|d1 [|d2 [|? ?]]]]; try discriminate Ld.
  set (x := nth 0 X 0) in *. set (y := nth 1 X 0) in *. set (z := nth 2 X 0).
  set (p := b00 * d0 + b01 * d1 + b02 * d2). set (q := b10 * d0 + b11 * d1 + b12 * d2). set (c := b20 * d0 + b21 * d1 + b22 * d2).
  assert (EX : X = [x; y; z]) by reflexivity.
  assert (EL : forall t, get_pos_in_part_ref s (map (fun j => nth j [p0; p1; p2] 0 + t * nth j [d0; d1; d2] 0) (seq 0 3)) = [x + t * p; y + t * q; z + t * c]).
  { intros t. unfold x, y, z, X, p, q, c, get_pos_in_part_ref, s, inner_product. cbn. f_equal; [ring|f_equal; [ring|f_equal; ring]]. }
  destruct (grad_line H1 H2 a UN l x y z p q c P1 P2 Pa Pl HX) as (DX & DY & DZ).
  set (fx := fun t => ux_sing_normalMvt3D [x + t * p; y + t * q; z + t * c] H1 H2 a UN l l) in DX. set (fy := fun t => uy_sing_normalMvt3D [x + t * p; y + t * q; z + t * c] H1 H2 a UN l l) in DY. set (fz := fun t => uz_sing_normalMvt3D [x + t * p; y + t * q; z + t * c] H1 H2 a UN l l) in DZ.
  assert (EU : forall t, nth k (get_u_sing s (map (fun j => nth j [p0; p1; p2] 0 + t * nth j [d0; d1; d2] 0) (seq 0 3))) 0 = nth k [b00; b01; b02] 0 * fx t + nth k [b10; b11; b12] 0 * fy t + nth k [b20; b21; b22] 0 * fz t).
  { intros t. unfold get_u_sing. rewrite EL. unfold s. destruct k as [|[|[|k]]]; [| | |lia]; cbn [length Nat.eqb seq map fold_left nth s_base]; unfold get_u_sing_ref; cbn [s_base length Nat.eqb nth s_H1 s_H2 s_contact s_UN s_param]; unfold fx, fy, fz; ring. }
  apply (is_derive_ext (fun t => nth k [b00; b01; b02] 0 * fx t + nth k [b10; b11; b12] 0 * fy t + nth k [b20; b21; b22] 0 * fz t)); [intros t; symmetry; apply EU|].
  assert (CD : forall (f : R -> R) w df, is_derive f 0 df -> is_derive (fun t => w * f t) 0 (w * df)).
  { intros f w df Df. replace (w * df) with (0 * f 0 + w * df) by ring. apply (d_prod (fun _ => w) f 0 0 df); [apply cst_d|exact Df]. }
  pose proof (d_plus _ _ 0 _ _ (d_plus _ _ 0 _ _ (CD fx (nth k [b00; b01; b02] 0) _ DX) (CD fy (nth k [b10; b11; b12] 0) _ DY)) (CD fz (nth k [b20; b21; b22] 0) _ DZ)) as D.
  match goal with |- is_derive _ _ ?g => match type of D with is_derive _ _ ?g' => replace g with g'; [exact D|] end end.
  clear D CD EU DX DY DZ. unfold get_grad_u_sing. fold X. rewrite EX. unfold get_grad_u_sing_ref, s. cbn [s_base s_H1 s_H2 s_contact s_UN s_param length Nat.eqb].
  generalize (dxux_sing_normalMvt3D [x; y; z] H1 H2 a UN l l), (dyux_sing_normalMvt3D [x; y; z] H1 H2 a UN l l), (dzux_sing_normalMvt3D [x; y; z] H1 H2 a UN l l), (dxuy_sing_normalMvt3D [x; y; z] H1 H2 a UN l l), (dyuy_sing_normalMvt3D [x; y; z] H1 H2 a UN l l), (dzuy_sing_normalMvt3D [x; y; z] H1 H2 a UN l l), (dxuz_sing_normalMvt3D [x; y; z] H1 H2 a UN l l), (dyuz_sing_normalMvt3D [x; y; z] H1 H2 a UN l l), (dzuz_sing_normalMvt3D [x; y; z] H1 H2 a UN l l).
  intros g1 g2 g3 g4 g5 g6 g7 g8 g9. unfold p, q, c. destruct k as [|[|[|k]]]; [| | |lia]; cbn; ring.
Qed.

(** ** the 3D contact frame *)
Section ThreeD.
Variables (x1 y1 z1 x2 y2 z2 : R) (v1 v2 : list R) (r1 r2 h alpha : R).
Notation c1 := [x1; y1; z1]. Notation c2 := [x2; y2; z2].
Hypothesis (Hc : c1 <> c2) (Hv1 : length v1 = 3%nat) (Hv2 : length v2 = 3%nat) (H1 : 0 < r1) (H2 : 0 < r2).
Notation s := (make_sing 3 c1 c2 v1 v2 r1 r2 h alpha).
Let D := distance c1 c2.
Lemma D3_pos : 0 < D /\ D * D = (x1 - x2) * (x1 - x2) + (y1 - y2) * (y1 - y2) + (z1 - z2) * (z1 - z2).
Proof.
  pose proof (sq_nn (x1 - x2)) as A. pose proof (sq_nn (y1 - y2)) as B. pose proof (sq_nn (z1 - z2)) as C.
  assert (P : 0 < (x1 - x2) * (x1 - x2) + (y1 - y2) * (y1 - y2) + (z1 - z2) * (z1 - z2)).
  { destruct (Req_dec ((x1 - x2) * (x1 - x2) + (y1 - y2) * (y1 - y2) + (z1 - z2) * (z1 - z2)) 0) as [E|E]; [|lra]. exfalso. apply Hc.
    assert (A' : (x1 - x2) * (x1 - x2) = 0) by lra. assert (B' : (y1 - y2) * (y1 - y2) = 0) by lra. assert (C' : (z1 - z2) * (z1 - z2) = 0) by lra.
    apply Rmult_integral in A'. apply Rmult_integral in B'. apply Rmult_integral in C'. replace x2 with x1 by (destruct A'; lra). replace y2 with y1 by (destruct B'; lra). replace z2 with z1 by (destruct C'; lra). reflexivity. }
  unfold D, distance, position_diff. cbn [zip_with fold_left]. split; [apply sqrt_lt_R0|rewrite sqrt_sqrt]; lra.
Qed.
Lemma unit3 : (x2 - x1) / D * ((x2 - x1) / D) + (y2 - y1) / D * ((y2 - y1) / D) + (z2 - z1) / D * ((z2 - z1) / D) = 1.
Proof. destruct D3_pos as [P E]. assert (E' : D ^ 2 = (x1 - x2) ^ 2 + (y1 - y2) ^ 2 + (z1 - z2) ^ 2) by (simpl; lra). field_simplify_eq; [|lra]. rewrite E'. ring. Qed.
(** shape of the frame: a first vector which is normalised, their cross product, the direction of the centres *)
Lemma base3 : exists t0 t1 t2 : R, let N := sqrt (t0 * t0 + t1 * t1 + t2 * t2) in
  s_base s = [[t0 / N; t1 / N; t2 / N];
              [(y2 - y1) / D * (t2 / N) - (z2 - z1) / D * (t1 / N); (z2 - z1) / D * (t0 / N) - (x2 - x1) / D * (t2 / N); (x2 - x1) / D * (t1 / N) - (y2 - y1) / D * (t0 / N)];
              [(x2 - x1) / D; (y2 - y1) / D; (z2 - z1) / D]] /\
  s_origin s = [x1 + r1 * ((x2 - x1) / D); y1 + r1 * ((y2 - y1) / D); z1 + r1 * ((z2 - z1) / D)] /\
  s_UN s = (nth 0 v1 0 - nth 0 v2 0) * ((x2 - x1) / D) + (nth 1 v1 0 - nth 1 v2 0) * ((y2 - y1) / D) + (nth 2 v1 0 - nth 2 v2 0) * ((z2 - z1) / D) /\
  (s_UN s * s_UN s = (nth 0 v1 0 - nth 0 v2 0) * (nth 0 v1 0 - nth 0 v2 0) + (nth 1 v1 0 - nth 1 v2 0) * (nth 1 v1 0 - nth 1 v2 0) + (nth 2 v1 0 - nth 2 v2 0) * (nth 2 v1 0 - nth 2 v2 0) \/
   (t0 = (nth 0 v1 0 - nth 0 v2 0) * (1 - (x2 - x1) / D) /\ t1 = (nth 1 v1 0 - nth 1 v2 0) * (1 - (y2 - y1) / D) /\ t2 = (nth 2 v1 0 - nth 2 v2 0) * (1 - (z2 - z1) / D))).
Proof.
  destruct v1 as [|a0 [|a1 [|a2 [|? ?]]]]; try discriminate. destruct v2 as [|b0 [|b1 [|b2 [|? ?]]]]; try discriminate.
  unfold make_sing, construct_base3. cbn [Nat.eqb]. fold D. unfold position_diff, velocity_diff, inner_product. cbn [zip_with map nth combine fold_left fst snd]. cbv zeta.
  match goal with |- context [Reqb ?a ?b] => destruct (Reqb_spec a b) as [E|E] end.
  - do 3 eexists. cbn [s_base s_origin s_UN nth map combine fold_left fst snd cross33]. split; [|split; [|split]].
    + rewrite Rplus_0_l. reflexivity.
    + reflexivity.
    + ring.
    + left. lra.
  - do 3 eexists. cbn [s_base s_origin s_UN nth map combine fold_left fst snd cross33]. split; [|split; [|split]].
    + rewrite Rplus_0_l. reflexivity.
    + reflexivity.
    + ring.
    + right. repeat split; reflexivity.
Qed.
(** its last vector is the unit vector from the first centre to the second, its middle one is orthogonal to both others, the origin is at distance r1 from the first centre *)
Theorem C36_frame_3d :
  (forall i, (i < 3)%nat -> nth i c2 0 - nth i c1 0 = distance c1 c2 * nth i (nth 2 (s_base s) []) 0) /\ 0 < distance c1 c2 /\
  dot (nth 2 (s_base s) []) (nth 2 (s_base s) []) = 1 /\ dot (nth 1 (s_base s) []) (nth 0 (s_base s) []) = 0 /\ dot (nth 1 (s_base s) []) (nth 2 (s_base s) []) = 0 /\
  distance c1 (s_origin s) = r1.
Proof.
  destruct base3 as (t0 & t1 & t2 & B & O & _). cbv zeta in B. rewrite B, O. destruct D3_pos as [P E]. pose proof unit3 as Un. fold D. split; [|split; [exact P|]].
  - intros i Hi. destruct i as [|[|[|i]]]; [| | |lia]; cbn [nth]; field; lra.
  - unfold dot. cbn [nth length Rsum]. split; [lra|]. split; [ring|]. split; [ring|].
    unfold distance, position_diff. cbn [zip_with fold_left]. match goal with |- sqrt ?e = _ => replace e with (r1 * r1); [apply sqrt_square; lra|] end.
    set (a := (x2 - x1) / D) in *. set (b := (y2 - y1) / D) in *. set (c := (z2 - z1) / D) in *. clearbody a b c. assert (E' : a ^ 2 = 1 - b ^ 2 - c ^ 2) by (simpl; lra). ring [E'].
Qed.
(** it is orthonormal exactly when its first vector is a unit vector orthogonal to the line of centres *)
Theorem C36_orthonormal_3d : orthonormal (s_base s) <-> dot (nth 0 (s_base s) []) (nth 0 (s_base s) []) = 1 /\ dot (nth 0 (s_base s) []) (nth 2 (s_base s) []) = 0.
Proof.
  split.
  - intros O. assert (L : length (s_base s) = 3%nat) by (destruct base3 as (? & ? & ? & B & _); cbv zeta in B; rewrite B; reflexivity).
    split; [apply (O 0%nat 0%nat)|apply (O 0%nat 2%nat)]; lia.
  - destruct base3 as (t0 & t1 & t2 & B & _). cbv zeta in B. rewrite B. pose proof unit3 as Un. set (a := (x2 - x1) / D) in *. set (b := (y2 - y1) / D) in *. set (c := (z2 - z1) / D) in *. clearbody a b c.
    set (N := sqrt _). generalize (t0 / N) (t1 / N) (t2 / N). intros e0 e1 e2. unfold dot. cbn [nth length Rsum]. intros [E0 E2].
    assert (E1 : (b * e2 - c * e1) * (b * e2 - c * e1) + (c * e0 - a * e2) * (c * e0 - a * e2) + (a * e1 - b * e0) * (a * e1 - b * e0) = 1).
    { replace (_ + _) with ((a * a + b * b + c * c) * (e0 * e0 + e1 * e1 + e2 * e2) - (e0 * a + e1 * b + e2 * c) * (e0 * a + e1 * b + e2 * c)) by ring. replace (a * a + b * b + c * c) with 1 by lra. replace (e0 * e0 + e1 * e1 + e2 * e2) with 1 by lra. replace (e0 * a + e1 * b + e2 * c) with 0 by lra. ring. }
    intros i j Hi Hj. cbn [length] in Hi, Hj. destruct i as [|[|[|i]]]; [| | |lia]; (destruct j as [|[|[|j]]]; [| | |lia]); cbn [nth length Rsum Nat.eqb]; unfold dot; cbn [nth length Rsum]; first [lra | ring].
Qed.
(** with an orthonormal frame the singular velocity separates the two contact points with the opposite of the relative normal velocity of the particles *)
Theorem C36_contact_velocity_3d : 0 < h -> r1 + r2 < distance c1 c2 -> dot (nth 0 (s_base s) []) (nth 2 (s_base s) []) = 0 ->
  let p1 := get_pos_from_part_ref s [0; 0; 0] in let p2 := get_pos_from_part_ref s [0; 0; s_contact s] in
  distance c1 p1 = r1 /\ distance c2 p2 = r2 /\
  forall i, (i < 3)%nat -> nth i (get_u_sing s p2) 0 - nth i (get_u_sing s p1) 0 =
    - dot (map (fun j => nth j v2 0 - nth j v1 0) (seq 0 3)) (nth 2 (s_base s) []) * nth i (nth 2 (s_base s) []) 0.
Proof.
  intros Hh Hg HO p1 p2.
  destruct (C36_cutoff 3 c1 c2 v1 v2 r1 r2 h alpha Hh H1 H2) as (_ & _ & Pp & _). cbv zeta in Pp.
  destruct C36_frame_3d as (_ & _ & _ & _ & _ & Or).
  assert (C : s_contact s = D - r1 - r2) by (unfold make_sing; destruct (if (3 =? 2)%nat then _ else _) as [[? ?] ?]; reflexivity).
  assert (K : 0 < s_H1 s /\ 0 < s_H2 s) by (unfold make_sing; destruct (if (3 =? 2)%nat then _ else _) as [[? ?] ?]; split; apply Rdiv_lt_0_compat; lra).
  destruct base3 as (t0 & t1 & t2 & B & O & UNE & _). cbv zeta in B. revert p1 p2 Or HO B O UNE C K Pp. generalize s. intros s0 p1 p2 Or HO B O UNE C K Pp. destruct K as [K1 K2].
  destruct D3_pos as [P E]. pose proof unit3 as Un. fold D in Hg.
  rewrite B in HO. unfold dot in HO. cbn [nth length Rsum] in HO.
  assert (G : 0 < s_contact s0) by (rewrite C; lra).
  assert (X : x2 = x1 + D * ((x2 - x1) / D)) by (field; lra). assert (Y : y2 = y1 + D * ((y2 - y1) / D)) by (field; lra). assert (Zc : z2 = z1 + D * ((z2 - z1) / D)) by (field; lra).
  set (N := sqrt _) in *. set (e0 := t0 / N) in *. set (e1 := t1 / N) in *. set (e2 := t2 / N) in *. clearbody e0 e1 e2. set (a := (x2 - x1) / D) in *. set (b := (y2 - y1) / D) in *. set (c := (z2 - z1) / D) in *. clearbody a b c. clear N.
  assert (E' : a ^ 2 = 1 - b ^ 2 - c ^ 2) by (simpl; lra).
  assert (EP : forall t, get_pos_from_part_ref s0 [0; 0; t] = [x1 + (r1 + t) * a; y1 + (r1 + t) * b; z1 + (r1 + t) * c]).
  { intros t. unfold get_pos_from_part_ref. rewrite B, O. cbn. f_equal; [ring|f_equal; [ring|f_equal; ring]]. }
  assert (EI : forall t, get_pos_in_part_ref s0 (get_pos_from_part_ref s0 [0; 0; t]) = [0; 0; t]).
  { intros t. rewrite EP. unfold get_pos_in_part_ref, inner_product. rewrite B, O. cbn. f_equal; [|f_equal; [ring|f_equal]].
    - replace (_ + _) with (t * (0 + e0 * a + e1 * b + e2 * c)) by ring. rewrite HO. ring.
    - ring [E']. }
  assert (P1 : p1 = s_origin s0) by (unfold p1; rewrite EP, O; f_equal; [ring|f_equal; [ring|f_equal; ring]]).
  split; [rewrite P1; exact Or|]. split.
  - unfold p2. rewrite EP, C. unfold distance, position_diff. cbn [zip_with fold_left]. match goal with |- sqrt ?e = _ => replace e with (r2 * r2); [apply sqrt_square; lra|] end. rewrite X, Y, Zc. ring [E'].
  - assert (V : forall t, t = 0 \/ t = s_contact s0 -> ux_sing_normalMvt3D [0; 0; t] (s_H1 s0) (s_H2 s0) (s_contact s0) (s_UN s0) (s_param s0) (s_param s0) = 0 /\ uy_sing_normalMvt3D [0; 0; t] (s_H1 s0) (s_H2 s0) (s_contact s0) (s_UN s0) (s_param s0) (s_param s0) = 0).
    { intros t Ht. destruct (C37_no_slip_3d (s_H1 s0) (s_H2 s0) (s_contact s0) (s_UN s0) (s_param s0) 0 0 K1 K2 G Pp) as (A1 & A2 & A3 & A4 & _).
      replace (- s_H1 s0 * (0 * 0 + 0 * 0) / 2) with 0 in A1, A2 by field. replace (s_contact s0 + s_H2 s0 * (0 * 0 + 0 * 0) / 2) with (s_contact s0) in A3, A4 by field. destruct Ht as [->| ->]; auto. }
    destruct (C35_cutoff (s_param s0) Pp) as (F0 & F1 & F2 & _).
    assert (W : uz_sing_normalMvt3D [0; 0; 0] (s_H1 s0) (s_H2 s0) (s_contact s0) (s_UN s0) (s_param s0) (s_param s0) = - s_UN s0 / 2 /\ uz_sing_normalMvt3D [0; 0; s_contact s0] (s_H1 s0) (s_H2 s0) (s_contact s0) (s_UN s0) (s_param s0) (s_param s0) = s_UN s0 / 2).
    { assert (Hs : s_H1 s0 + s_H2 s0 <> 0) by lra. unfold uz_sing_normalMvt3D. cbn [nth]. replace (0 * 0 + 0 * 0) with 0 by ring. rewrite sqrt_0, F0, F1, F2. unfold uz_sing_normalMvt3D_body. cbv zeta. split; field; nz Hs; lra. }
    destruct (V 0 (or_introl eq_refl)) as [V1 V2]. destruct (V _ (or_intror eq_refl)) as [V3 V4]. destruct W as [W1 W2].
    intros i Hi. unfold get_u_sing, p1, p2. rewrite !EI. unfold get_u_sing_ref. rewrite B. cbn [length Nat.eqb seq map fold_left nth]. rewrite V1, V2, V3, V4, W1, W2, UNE. unfold dot. cbn [length Rsum nth].
    destruct i as [|[|[|i]]]; [| | |lia]; cbn [nth]; field.
Qed.
End ThreeD.
(** centres along a coordinate axis, in increasing direction, and a relative velocity that is not along it: the frame is orthonormal *)
Theorem C36_frame_axis_3d : forall (i j : nat) (L x1 y1 z1 : R) v1 v2 r1 r2 h alpha, (i < 3)%nat -> (j < 3)%nat -> i <> j -> 0 < L ->
  length v1 = 3%nat -> length v2 = 3%nat -> nth j v1 0 <> nth j v2 0 ->
  let c1 := [x1; y1; z1] in let c2 := map (fun k => nth k c1 0 + if (k =? i)%nat then L else 0) (seq 0 3) in
  orthonormal (s_base (make_sing 3 c1 c2 v1 v2 r1 r2 h alpha)).
Proof.
  intros i j L x1 y1 z1 v1 v2 r1 r2 h alpha Hi Hj Hij HL L1 L2 Hv c1 c2. unfold c2, c1. cbn [map seq nth]. clear c1 c2.
  set (ex := if (0 =? i)%nat then L else 0). set (ey := if (1 =? i)%nat then L else 0). set (ez := if (2 =? i)%nat then L else 0).
  assert (Ei : (ex = L /\ ey = 0 /\ ez = 0 /\ i = 0%nat) \/ (ex = 0 /\ ey = L /\ ez = 0 /\ i = 1%nat) \/ (ex = 0 /\ ey = 0 /\ ez = L /\ i = 2%nat)).
  { unfold ex, ey, ez. destruct i as [|[|[|i]]]; [| | |lia]; cbn [Nat.eqb]; [left|right; left|right; right]; repeat split. }
  clearbody ex ey ez.
  assert (ED : distance [x1; y1; z1] [x1 + ex; y1 + ey; z1 + ez] = L).
  { unfold distance, position_diff. cbn [zip_with fold_left]. match goal with |- sqrt ?e = _ => replace e with (L * L); [apply sqrt_square; lra|] end. destruct Ei as [(-> & -> & -> & _)|[(-> & -> & -> & _)|(-> & -> & -> & _)]]; ring. }
  assert (Hc : [x1; y1; z1] <> [x1 + ex; y1 + ey; z1 + ez]) by (intros E; injection E as A B C; destruct Ei as [(? & ? & ? & _)|[(? & ? & ? & _)|(? & ? & ? & _)]]; lra).
  apply (C36_orthonormal_3d _ _ _ _ _ _ v1 v2 r1 r2 h alpha Hc L1 L2).
  destruct (base3 x1 y1 z1 (x1 + ex) (y1 + ey) (z1 + ez) v1 v2 r1 r2 h alpha L1 L2) as (t0 & t1 & t2 & B & _ & UNE & K). cbv zeta in B. rewrite B. rewrite UNE in K. clear UNE B.
  destruct v1 as [|a0 [|a1 [|a2 [|? ?]]]]; try discriminate. destruct v2 as [|b0 [|b1 [|b2 [|? ?]]]]; try discriminate. cbn [nth] in K. rewrite ED in *.
  replace ((x1 + ex - x1) / L) with (ex / L) in * by (field; lra). replace ((y1 + ey - y1) / L) with (ey / L) in * by (field; lra). replace ((z1 + ez - z1) / L) with (ez / L) in * by (field; lra).
  assert (LL : L / L = 1) by (field; lra). assert (OO : 0 / L = 0) by (field; lra).
  pose proof (sq_nn (a0 - b0)) as S0. pose proof (sq_nn (a1 - b1)) as S1. pose proof (sq_nn (a2 - b2)) as S2.
  assert (NJ : 0 < match j with 0%nat => (a0 - b0) * (a0 - b0) | 1%nat => (a1 - b1) * (a1 - b1) | _ => (a2 - b2) * (a2 - b2) end).
  { assert (Q : forall a b : R, a <> b -> 0 < (a - b) * (a - b)) by (intros a b N; apply Rsqr_pos_lt; lra). destruct j as [|[|[|j]]]; [| | |lia]; cbn [nth] in Hv; apply Q, Hv. }
  assert (T : 0 < t0 * t0 + t1 * t1 + t2 * t2 /\ t0 * (ex / L) + t1 * (ey / L) + t2 * (ez / L) = 0).
  { destruct Ei as [(-> & -> & -> & ->)|[(-> & -> & -> & ->)|(-> & -> & -> & ->)]]; rewrite ?LL, ?OO in *; destruct K as [K|(-> & -> & ->)]; try (destruct j as [|[|[|j]]]; try lia; nra); split; try (destruct j as [|[|[|j]]]; try lia; nra); ring. }
  destruct T as [T0 T1]. unfold dot. cbn [nth length Rsum]. set (N := sqrt (t0 * t0 + t1 * t1 + t2 * t2)). assert (HN : 0 < N) by (apply sqrt_lt_R0, T0). assert (EN : N * N = t0 * t0 + t1 * t1 + t2 * t2) by (apply sqrt_sqrt; lra). clearbody N. split.
  - replace (_ + _) with ((t0 * t0 + t1 * t1 + t2 * t2) / (N * N)) by (field; lra). rewrite <- EN. field. lra.
  - replace (_ + _) with ((t0 * (ex / L) + t1 * (ey / L) + t2 * (ez / L)) / N) by (field; lra). rewrite T1. field. lra.
Qed.
(** otherwise it need not be: two spheres approaching head-on along the third axis, and a point the two changes of coordinates do not send back *)
Theorem C36_frame_3d_refuted : exists c1 c2 v1 v2 p, let s := make_sing 3 c1 c2 v1 v2 1 1 1 1 in
  s_is s = true /\ ~ orthonormal (s_base s) /\ length p = 3%nat /\ get_pos_from_part_ref s (get_pos_in_part_ref s p) <> p.
Proof.
  exists [0; 0; 0], [0; 0; 5 / 2], [0; 0; 0], [0; 0; - 1], [0; 0; 3]. cbv zeta.
  set (s := make_sing _ _ _ _ _ _ _ _ _).
  assert (ED : distance [0; 0; 0] [0; 0; 5 / 2] = 5 / 2) by (unfold distance, position_diff; cbn [zip_with fold_left]; match goal with |- sqrt ?e = _ => replace e with (5 / 2 * (5 / 2)) by ring; apply sqrt_square; lra end).
  assert (S : s_is s = true /\ s_base s = [[- 1 / sqrt 2; 0 / sqrt 2; - 1 / sqrt 2]; [0; - 1 / sqrt 2; 0]; [0; 0; 1]] /\ s_origin s = [0; 0; 1]).
  { unfold s, make_sing, construct_base3. cbn [Nat.eqb]. rewrite ED. unfold position_diff, velocity_diff, inner_product. cbn [zip_with map nth combine fold_left fst snd]. cbv zeta.
    match goal with |- context [Reqb ?a ?b] => destruct (Reqb_spec a b) as [E|E] end; [|exfalso; apply E; field].
    replace ((5 / 2 - 0) / (5 / 2)) with 1 by field. replace ((0 - 0) / (5 / 2)) with 0 by field.
    assert (Sg1 : sign 1 = 1) by (unfold sign; destruct (Rleb_spec 0 1), (Rltb_spec 1 0); lra). assert (Sg0 : sign 0 = 1) by (unfold sign; destruct (Rleb_spec 0 0), (Rltb_spec 0 0); lra). rewrite Sg1, Sg0.
    replace (- (1) * 1 - 1 * 0) with (- 1) by ring. replace (1 * 0) with 0 by ring. replace (1 * - (1)) with (- 1) by ring.
    cbn [s_is s_base s_origin nth map combine fold_left fst snd cross33 zip_with Nat.mul Nat.sub Nat.add]. replace (0 + -1 * -1 + 0 * 0 + 1 * -1 * (1 * -1)) with 2 by ring. replace (1 * -1) with (-1) by ring.
    assert (Q : 0 < sqrt 2) by (apply sqrt_lt_R0; lra).
    split; [destruct (Rltb_spec (5 / 2 - 1 - 1) 1); [reflexivity|lra]|]. split.
    - f_equal. f_equal. f_equal; [field; lra|f_equal; [field; lra|f_equal; field; lra]].
    - f_equal; [ring|f_equal; [ring|f_equal; ring]]. }
  destruct S as (S1 & S2 & S3). split; [exact S1|]. assert (Q : 0 < sqrt 2) by (apply sqrt_lt_R0; lra). assert (Q2 : sqrt 2 * sqrt 2 = 2) by (apply sqrt_sqrt; lra). split; [|split; [reflexivity|]].
  - intros O. rewrite S2 in O. specialize (O 0%nat 2%nat ltac:(cbn; lia) ltac:(cbn; lia)). unfold dot in O. cbn [nth length Rsum Nat.eqb] in O. assert (I : 0 < / sqrt 2) by (apply Rinv_0_lt_compat, Q). unfold Rdiv in O. lra.
  - unfold get_pos_from_part_ref, get_pos_in_part_ref, inner_product. rewrite S2, S3. cbn. intros E. injection E as A _ _. revert A. set (q := sqrt 2) in *. clearbody q. intros A. assert (q <> 0) by lra. field_simplify in A; [|lra]. replace (q ^ 2) with 2 in A by (simpl; lra). lra.
Qed.
(** oblique motion: the projection on the plane orthogonal to the line of centres is computed componentwise *)
Theorem C36_projection_3d_refuted : exists c1 c2 v1 v2, let s := make_sing 3 c1 c2 v1 v2 1 1 1 1 in
  s_is s = true /\ s_UN s * s_UN s < dot (map (fun i => nth i v1 0 - nth i v2 0) (seq 0 3)) (map (fun i => nth i v1 0 - nth i v2 0) (seq 0 3)) /\ ~ orthonormal (s_base s).
Proof.
  exists [0; 0; 0], [3 / 2; 2; 0], [1; 0; 0], [0; 0; 0]. cbv zeta. set (s := make_sing _ _ _ _ _ _ _ _ _).
  assert (ED : distance [0; 0; 0] [3 / 2; 2; 0] = 5 / 2) by (unfold distance, position_diff; cbn [zip_with fold_left]; match goal with |- sqrt ?e = _ => replace e with (5 / 2 * (5 / 2)) by field; apply sqrt_square; lra end).
  assert (Hc : [0; 0; 0] <> [3 / 2; 2; 0]) by (intros E; injection E; lra).
  assert (EI : s_is s = true). { unfold s, make_sing. rewrite ED. destruct (if (3 =? 2)%nat then _ else _) as [[? ?] ?]. cbn [s_is]. destruct (Rltb_spec (5 / 2 - 1 - 1) 1); [reflexivity|lra]. }
  destruct (base3 0 0 0 (3 / 2) 2 0 [1; 0; 0] [0; 0; 0] 1 1 1 1 eq_refl eq_refl) as (t0 & t1 & t2 & B & _ & UNE & K). cbv zeta in B. fold s in B, UNE, K. rewrite ED in *. cbn [nth] in *.
  split; [exact EI|]. split; [rewrite UNE; unfold dot; cbn [nth length Rsum map seq]; lra|].
  destruct K as [K|(T0 & T1 & T2)]; [rewrite UNE in K; lra|]. intros O. rewrite B in O. pose proof (O 0%nat 0%nat ltac:(cbn; lia) ltac:(cbn; lia)) as O0. pose proof (O 0%nat 2%nat ltac:(cbn; lia) ltac:(cbn; lia)) as O2. unfold dot in O0, O2. cbn [nth length Rsum Nat.eqb] in O0, O2.
  replace t1 with 0 in * by lra. replace t2 with 0 in * by lra. replace t0 with (2 / 5) in * by lra. set (N := sqrt _) in *. clearbody N. nra.
Qed.
(** the closing speed has the wrong sign in 3D: two spheres approaching along the first axis, the singular velocity moves the two contact points apart; in 2D it brings them together *)
Theorem C36_sense_3d_refuted : exists c1 c2 v1 v2, let s := make_sing 3 c1 c2 v1 v2 1 1 1 1 in
  let p1 := get_pos_from_part_ref s [0; 0; 0] in let p2 := get_pos_from_part_ref s [0; 0; s_contact s] in
  let n := nth 2 (s_base s) [] in
  s_is s = true /\ orthonormal (s_base s) /\ dot (map (fun i => nth i v2 0 - nth i v1 0) (seq 0 3)) n < 0 /\
  0 < dot (map (fun i => nth i (get_u_sing s p2) 0 - nth i (get_u_sing s p1) 0) (seq 0 3)) n.
Proof.
  exists [0; 0; 0], [5 / 2; 0; 0], [0; 0; 0], [- 1; 1; 0]. cbv zeta.
  assert (O : orthonormal (s_base (make_sing 3 [0; 0; 0] [5 / 2; 0; 0] [0; 0; 0] [-1; 1; 0] 1 1 1 1))).
  { pose proof (C36_frame_axis_3d 0 1 (5 / 2) 0 0 0 [0; 0; 0] [-1; 1; 0] 1 1 1 1 ltac:(lia) ltac:(lia) ltac:(lia) ltac:(lra) eq_refl eq_refl ltac:(cbn; lra)) as O. cbn [map seq nth Nat.eqb] in O. rewrite !Rplus_0_l in O. exact O. }
  assert (ED : distance [0; 0; 0] [5 / 2; 0; 0] = 5 / 2) by (unfold distance, position_diff; cbn [zip_with fold_left]; match goal with |- sqrt ?e = _ => replace e with (5 / 2 * (5 / 2)) by field; apply sqrt_square; lra end).
  assert (Hc : [0; 0; 0] <> [5 / 2; 0; 0]) by (intros E; injection E; lra).
  assert (EI : s_is (make_sing 3 [0; 0; 0] [5 / 2; 0; 0] [0; 0; 0] [-1; 1; 0] 1 1 1 1) = true). { unfold make_sing. rewrite ED. destruct (if (3 =? 2)%nat then _ else _) as [[? ?] ?]. cbn [s_is]. destruct (Rltb_spec (5 / 2 - 1 - 1) 1); [reflexivity|lra]. }
  pose proof (C36_contact_velocity_3d 0 0 0 (5 / 2) 0 0 [0; 0; 0] [-1; 1; 0] 1 1 1 1 Hc eq_refl eq_refl ltac:(lra) ltac:(lra) ltac:(lra) ltac:(rewrite ED; lra)) as C.
  destruct (base3 0 0 0 (5 / 2) 0 0 [0; 0; 0] [-1; 1; 0] 1 1 1 1 eq_refl eq_refl) as (t0 & t1 & t2 & B & _). cbv zeta in B.
  set (s := make_sing _ _ _ _ _ _ _ _ _) in *. clearbody s. split; [exact EI|]. split; [exact O|]. specialize (C (O 0%nat 2%nat ltac:(rewrite B; cbn; lia) ltac:(rewrite B; cbn; lia))). cbv zeta in C. destruct C as (_ & _ & C).
  set (w := get_u_sing s (get_pos_from_part_ref s [0; 0; s_contact s])) in *. set (w' := get_u_sing s (get_pos_from_part_ref s [0; 0; 0])) in *. clearbody w w'.
  pose proof (C 0%nat ltac:(lia)) as C0. pose proof (C 1%nat ltac:(lia)) as C1. pose proof (C 2%nat ltac:(lia)) as C2. rewrite B in *. cbn [nth] in *. rewrite ED in *.
  unfold dot in *. cbn [map seq nth length Rsum] in *. rewrite C0, C1, C2. split; lra.
Qed.
