(** C36: the gradient returned in 2D. *)
From Coquelicot Require Import Coquelicot.
From Verif Require Import Base S_Fem M_Geometry M_Truncation M_SingNormal M_SingTang M_SingWrap M_Singularity P_Sing P_SingCart P_SingDir Prop_Truncation Prop_SingNormal Prop_Singularity.
Open Scope R_scope.
Section Line2.
Variables (H M a U l x z p q : R).
Hypothesis (HH : 0 < H) (HM : 0 < M) (Ha : 0 < a) (Hl : 0 < l).
Lemma uz2_line : is_derive (fun t => uz_sing_normalMvt2D [x + t * p; z + t * q] H M a U l l) 0
  (dxuz_sing_normalMvt2D [x; z] H M a U l l * p + dzuz_sing_normalMvt2D [x; z] H M a U l l * q).
Proof.
  destruct (chi_d l Hl) as (D0 & _). assert (Hs : H + M <> 0) by lra.
  pose (F := fun r v => uz_sing_normalMvt2D_body r v H M a U (chiTrunc r l l)).
  pose (dr := fun r v => dzuz_sing_normalMvt2D_body r v H M a U (chiTrunc r l l) (dchiTrunc r l l)).
  pose (dz := fun r v => dxuz_sing_normalMvt2D_body r v H M a U (chiTrunc r l l)).
  assert (L : forall u w, is_derive (fun t => u + t * w) 0 w) by (intros u w; auto_derive; [auto|ring]).
  pose proof (cubic_curve F dr dz (fun t => z + t * q) (fun t => x + t * p) 0 q p) as C. cbv beta in C.
  assert (E : forall u w : R, u + 0 * w = u) by (intros; ring). rewrite !E in C.
  replace (_ + _) with (dr z x * q + dz z x * p) by (unfold dr, dz, dxuz_sing_normalMvt2D, dzuz_sing_normalMvt2D; cbn [nth]; ring).
  apply C; [| | |apply L|apply L].
  - intros r v. pose proof (gap_nz H M a _ HH HM Ha (sq_nn r)) as Hq. unfold F, cub, uz_sing_normalMvt2D_body. cbv zeta. field. nz Hq.
  - intros v. unfold F, dr. pose proof (gap_nz H M a _ HH HM Ha (sq_nn z)) as Hq. apply (n2_dzuz (fun r => chiTrunc r l l) (fun r => dchiTrunc r l l) D0 H M a U z v Hq).
  - unfold F, dz. pose proof (gap_nz H M a _ HH HM Ha (sq_nn z)) as Hq. apply (n2_dxuz (fun r => chiTrunc r l l) H M a U z x Hq).
Qed.
End Line2.
(** In 2D the rows of the returned gradient, contracted with the direction of the gap, give the derivative of the component of the returned velocity along the gap, in every direction of space. *)
Theorem C36_gradient_2d : forall (b0 b1 o pos d : list R) H1 H2 K a cut l UN UT i,
  orthonormal [b0; b1] -> length b0 = 2%nat -> length b1 = 2%nat -> length o = 2%nat -> length pos = 2%nat -> length d = 2%nat ->
  0 < H1 -> 0 < H2 -> 0 < a -> 0 < l ->
  let s := mksing H1 H2 K a cut l UN UT i [b0; b1] o in
  is_derive (fun t => Rsum 2 (fun k => nth k b1 0 * nth k (get_u_sing s (map (fun j => nth j pos 0 + t * nth j d 0) (seq 0 2))) 0)) 0
    (Rsum 2 (fun k => Rsum 2 (fun j => nth k b1 0 * nth j (nth k (get_grad_u_sing s pos) []) 0 * nth j d 0))).
Proof.
  intros b0 b1 o pos d H1 H2 K a cut l UN UT i O L0 L1 Lo Lp Ld P1 P2 Pa Pl s.
  destruct b0 as [|b00 [|b01 [|? ?]]]; try discriminate L0. destruct b1 as [|b10 [|b11 [|? ?]]]; try discriminate L1.
  destruct o as [|o0 [|o1 [|? ?]]]; try discriminate Lo. destruct pos as [|p0 [|p1 [|? ?]]]; try discriminate Lp. destruct d as [|d0 [|d1 [|? ?]]]; try discriminate Ld.
  assert (O1 : b10 * b10 + b11 * b11 = 1) by (pose proof (O 1%nat 1%nat ltac:(cbn; lia) ltac:(cbn; lia)) as E; unfold dot in E; cbn in E; lra).
  assert (O2 : b10 * b00 + b11 * b01 = 0) by (pose proof (O 1%nat 0%nat ltac:(cbn; lia) ltac:(cbn; lia)) as E; unfold dot in E; cbn in E; lra).
  set (X := get_pos_in_part_ref s [p0; p1]). set (x := nth 0 X 0). set (z := nth 1 X 0).
  set (p := b00 * d0 + b01 * d1). set (q := b10 * d0 + b11 * d1).
  assert (EX : X = [x; z]) by reflexivity.
  assert (EL : forall t, get_pos_in_part_ref s (map (fun j => nth j [p0; p1] 0 + t * nth j [d0; d1] 0) (seq 0 2)) = [x + t * p; z + t * q]).
  { intros t. unfold x, z, X, p, q, get_pos_in_part_ref, s, inner_product. cbn. f_equal; [ring|f_equal; ring]. }
  apply (is_derive_ext (fun t => uz_sing_normalMvt2D [x + t * p; z + t * q] H1 H2 a UN l l)).
  { intros t. unfold get_u_sing. rewrite EL. unfold s. cbn [length Nat.eqb seq map fold_left nth s_base]. unfold get_u_sing_ref. cbn [s_base length Nat.eqb nth s_H1 s_H2 s_contact s_UN s_param Rsum].
    generalize (ux_sing_normalMvt2D [x + t * p; z + t * q] H1 H2 a UN l l) (uz_sing_normalMvt2D [x + t * p; z + t * q] H1 H2 a UN l l). intros u w.
    change (w = 0 + b10 * (0 + b00 * u + b10 * w) + b11 * (0 + b01 * u + b11 * w)).
    replace (_ + _) with (u * (b10 * b00 + b11 * b01) + w * (b10 * b10 + b11 * b11)) by ring. rewrite O1, O2. ring. }
  pose proof (uz2_line H1 H2 a UN l x z p q P1 P2 Pa Pl) as D.
  match goal with |- is_derive _ _ ?g => match type of D with is_derive _ _ ?g' => replace g with g'; [exact D|] end end.
  unfold get_grad_u_sing. fold X. rewrite EX. unfold get_grad_u_sing_ref, s. cbn [s_base s_H1 s_H2 s_contact s_UN s_param length Nat.eqb].
  generalize (dxux_sing_normalMvt2D [x; z] H1 H2 a UN l l), (dzux_sing_normalMvt2D [x; z] H1 H2 a UN l l), (dxuz_sing_normalMvt2D [x; z] H1 H2 a UN l l), (dzuz_sing_normalMvt2D [x; z] H1 H2 a UN l l).
  intros g1 g2 g3 g4. unfold p, q. cbn.
  match goal with |- _ = ?r => replace r with ((b10 * b00 + b11 * b01) * (b00 * d0 + b01 * d1) * g1 + (b10 * b00 + b11 * b01) * (b10 * d0 + b11 * d1) * g2 + (b10 * b10 + b11 * b11) * (b00 * d0 + b01 * d1) * g3 + (b10 * b10 + b11 * b11) * (b10 * d0 + b11 * d1) * g4) by ring end.
  rewrite O1, O2. ring.
Qed.
