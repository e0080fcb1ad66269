From Coquelicot Require Import Coquelicot.
From Verif Require Import Base M_Truncation M_SingNormal P_Sing Prop_SingNormal.
Open Scope R_scope.
Definition ux2_num (r z H M a : R) : R :=
  let t1 := r * r in
  let t2 := H * t1 in
  let t3 := M * a in
  let t4 := z * z in
  let t5 := t3 * t4 in
  let t8 := a * a in
  let t9 := t8 * M in
  let t10 := t9 * z in
  let t13 := t1 * t1 in
  let t14 := H * t13 in
  let t15 := M * M in
  let t16 := t15 * a in
  let t17 := t16 * z in
  let t20 := H * H in
  let t21 := t20 * t13 in
  let t22 := t3 * z in
  let t31 := t15 * t1 in
  let t32 := a * t4 in
  let t35 := t13 * t1 in
  let t36 := H * t35 in
  let t37 := t15 * M in
  let t41 := t20 * t1 in
  let t45 := t20 * H in
  let t46 := t45 * t13 in
  let t51 := t45 * t35 in
  let t55 := t20 * t35 in
  let t59 := t15 * t15 in
  let t61 := t13 * t13 in
  let t64 := t8 * t45 in
  let t67 := t20 * t20 in
  let t68 := a * t67 in
  let t71 := t8 * a in
  let t74 := t15 * t61 in
  let t89 := -24 * t51 * M * z - 48 * t55 * t15 * z - 5 * H * t59 * t61 + 96 * t64 * t13 + 8 * t68 * t35 - 32 * t41 * t71 + 4 * t74 * t45 - 4 * t37 * t61 * t20 + 5 * M * t61 * t67 - 32 * t71 * t15 * t1 - 24 * t8 * t37 * t13 in
  let t94 := t4 * z in
  let t99 := H * a in
  let t100 := t99 * t94 in
  let t102 := t3 * t94 in
  let t109 := H * t8 in
  let t110 := t109 * t4 in
  let t112 := t9 * t4 in
  let t114 := t8 * t8 in
  let t118 := t67 * H in
  let t126 := a * t20 in
  let t133 := M * t1 in
  let t136 := t15 * t13 in
  let t139 := t37 * t35 in
  let t147 := t118 * t61 - 16 * M * t114 - t59 * M * t61 + 56 * t3 * t51 + 24 * t126 * t35 * t15 + 48 * t21 * t9 - 64 * H * t71 * t133 - 72 * t109 * t136 - 32 * t99 * t139 + 320 * t2 * M * t94 - 384 * t41 * t32 in
  (-480 * t2 * t5 + 288 * t2 * t10 + 96 * t14 * t17 - 48 * t21 * t22 + 72 * t21 * M * t4 - 72 * t14 * t15 * t4 - 96 * t31 * t32 - 24 * t36 * t37 * z + 288 * t41 * t8 * z - 144 * t46 * a * z + t89 - 8 * a * t59 * t35 + 160 * t41 * t94 + 160 * t31 * t94 - 64 * t100 - 64 * t102 + 72 * t46 * t4 - 72 * t37 * t13 * t4 + 96 * t110 + 96 * t112 - 16 * H * t114 + t147).
Definition dzux2_num (r z H M a : R) : R :=
  let t2 := r * r in
  let t4 := z * z in
  let t5 := t4 * z in
  let t9 := H * t2 in
  let t12 := t2 * t2 in
  let t13 := H * t12 in
  let t14 := M * t5 in
  let t17 := a * a in
  let t21 := H * H in
  let t26 := t12 * t2 in
  let t33 := M * M in
  let t34 := a * t33 in
  let t41 := t17 * a in
  let t47 := t33 * M in
  let t53 := t33 * z in
  let t56 := t21 * H in
  let t58 := M * z in
  let t61 := t56 * t26 in
  let t62 := a * z in
  let t65 := t21 * t12 in
  let t66 := t17 * z in
  let t74 := a * M in
  let t81 := t41 * H in
  let t85 := t17 * M in
  let t86 := t26 * t21 in
  let t89 := a * H in
  let t140 := t33 * t12 in
  let t178 := t21 * t2 in
  let t194 := t56 * t12 in
  let t208 := -960 * t9 * t14 - 24 * t74 * t61 + 1440 * t178 * a * t4 - 144 * t65 * M * t4 + 144 * t13 * t33 * t4 - 24 * t86 * t34 + 192 * t85 * t65 - 1440 * t178 * t66 + 288 * t194 * t62 + 48 * t86 * t53 + 24 * t61 * t58 + 24 * H * t47 * t26 * z + 1440 * t9 * t74 * t4 in
  let t209 := H * M in
  let t217 := t74 * z in
  let t220 := t89 * t5 in
  let t227 := t74 * t5 in
  let t237 := H * t17 * t4 in
  let t239 := t85 * t4 in
  let t245 := -480 * t209 * t2 * t17 * z - 336 * t89 * t140 * z - 48 * t65 * t217 + 576 * t220 - 480 * t178 * t5 - 480 * t33 * t2 * t5 + 576 * t227 - 144 * t194 * t17 - 144 * t194 * t4 + 144 * t47 * t12 * t4 - 1152 * t237 - 576 * t239 + 480 * t178 * t41 + 576 * t81 * z in
  t208 + t245.


Lemma ux2_still r z H M a U c : H + M <> 0 -> 2 * a + M * (r * r) + H * (r * r) <> 0 -> ux_sing_normalMvt2D_body r z H M a U c 0 0 = U * c / 2 * / (H + M) * (ux2_num r z H M a * / (2 * a + M * (r * r) + H * (r * r)) ^ 4).
Proof.
  intros Hs Hq. unfold ux_sing_normalMvt2D_body, ux2_num. cbv zeta.
  set (q := 2 * a + M * (r * r) + H * (r * r)) in *. 
  set (i := 1 / (H + M) / (q ^ 2 * q ^ 2)). assert (Ei : i = / (H + M) * / q ^ 4) by (unfold i; field; auto).
  replace (U * c / 2 * / (H + M)) with (U * c / 2 * (q ^ 4 * i)) by (rewrite Ei; field; auto). clearbody i. 
  replace (q ^ 4 * i) with (i * q ^ 4) by ring.
  transitivity (U * c / 2 * i * (ux2_num r z H M a)). { unfold ux2_num; cbv zeta. unfold Rdiv. ring. } unfold ux2_num; cbv zeta. clear Ei. clearbody q.
  match goal with |- _ = _ * (?N * / _) => set (n := N) end. field. exact Hq.
Qed.
Lemma dz2_still r z H M a U c : 2 * a + M * (r * r) + H * (r * r) <> 0 -> dzux_sing_normalMvt2D_body r z H M a U c 0 0 = r * U * c * (dzux2_num r z H M a * / (2 * a + M * (r * r) + H * (r * r)) ^ 5).
Proof.
  intros Hq. unfold dzux_sing_normalMvt2D_body, dzux2_num. cbv zeta.
  set (q := 2 * a + M * (r * r) + H * (r * r)) in *. replace (2 * a + r * r * M + H * (r * r)) with q by (unfold q; ring).
  set (i := 1 / (q * q * (q * q)) / q). assert (Ei : i = / q ^ 5) by (unfold i; field; auto). rewrite <- Ei. clearbody i. clear Ei. clearbody q. ring.
Qed.
Lemma num2_derive r z H M a : exists N' : R, is_derive (fun t => ux2_num t z H M a) r N' /\ N' * (2 * a + M * (r * r) + H * (r * r)) - 8 * (M + H) * r * ux2_num r z H M a = 2 * (H + M) * r * dzux2_num r z H M a.
Proof.
  eexists. split; [unfold ux2_num; cbv zeta; auto_derive; [trivial|reflexivity]|]. unfold ux2_num, dzux2_num. cbv zeta. ring.
Qed.
Lemma still_gradient H M a U c z r : 0 < H -> 0 < M -> 0 < a -> is_derive (fun t => ux_sing_normalMvt2D_body t z H M a U c 0 0) r (dzux_sing_normalMvt2D_body r z H M a U c 0 0).
Proof.
  intros HH HM Ha. assert (Q : forall t, 2 * a + M * (t * t) + H * (t * t) <> 0). { intros t. pose proof (Rle_0_sqr t) as S. unfold Rsqr in S. assert (0 <= M * (t * t)) by (apply Rmult_le_pos; lra). assert (0 <= H * (t * t)) by (apply Rmult_le_pos; lra). lra. }
  rewrite dz2_still by apply Q. eapply is_derive_ext; [intros t; symmetry; apply ux2_still; [lra|apply Q]|].
  destruct (num2_derive r z H M a) as (N' & D & E). set (n := ux2_num r z H M a) in *. set (dn := dzux2_num r z H M a) in *. pose proof (Q r) as Qr.
  assert (V : @eq R N' ((2 * (H + M) * r * dn + 8 * (M + H) * r * n) / (2 * a + M * (r * r) + H * (r * r)))) by (rewrite <- E; field; exact Qr).
  auto_derive; [repeat split; [eexists; exact D|]; repeat (apply Rmult_integral_contrapositive_currified; [exact Qr|]); lra|].
  match goal with |- context [Derive ?F r] => replace (Derive F r) with N' by (symmetry; apply (is_derive_unique _ _ _ D)) end. rewrite V. fold n. field. split; [exact Qr|lra].
Qed.
Lemma still_gradient_x H M a U c z r : 0 < H -> 0 < M -> 0 < a -> is_derive (fun t => ux_sing_normalMvt2D_body r t H M a U c 0 0) z (dxux_sing_normalMvt2D_body r z H M a U c 0).
Proof.
  intros HH HM Ha. assert (Q : 2 * a + M * (r * r) + H * (r * r) <> 0). { pose proof (Rle_0_sqr r) as S. unfold Rsqr in S. assert (0 <= M * (r * r)) by (apply Rmult_le_pos; lra). assert (0 <= H * (r * r)) by (apply Rmult_le_pos; lra). lra. }
  eapply is_derive_ext; [intros t; symmetry; apply ux2_still; [lra|exact Q]|]. unfold ux2_num, dxux_sing_normalMvt2D_body. cbv zeta.
  set (q := 2 * a + M * (r * r) + H * (r * r)) in *. auto_derive; [trivial|]. field. split; [exact Q|lra].
Qed.
