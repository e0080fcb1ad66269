(** Generated by tools/gen_sing.py from cafes/particle/singularity/UandPNormal.hpp: the closed-form
    singular fields, term by term (each C++ local is a [let]).  The values of chiTrunc,
    dchiTrunc, d2chiTrunc, d3chiTrunc at r are the arguments c0, c1, c2, c3 of the bodies.
    Real arithmetic stands for double; [pow(x,2)] is [x^2]; unused [param] is dropped. *)
From Verif Require Import Base M_Truncation.
Open Scope R_scope.

(** UandPNormal.hpp l.52-60 *)
Definition p_sing_withT_normalMvt2D_body (r z H M a U c0 : R) : R :=
  let mu := 1 in
  let t4 := r * r in
  let t8 := (2 * a + M * t4 + H * t4)^2 in
  let t12 := c0 in
  -24 / (H + M) / t8 * U * mu * t12.
Definition p_sing_withT_normalMvt2D (X : list R) (H M a U l eps : R) : R :=
  let r := nth 1 X 0 in let z := nth 0 X 0 in
  p_sing_withT_normalMvt2D_body r z H M a U (chiTrunc r l eps).

(** UandPNormal.hpp l.63-79 *)
Definition uz_sing_normalMvt2D_body (r z H M a U c0 : R) : R :=
  let t1 := r * r in
  let t2 := H * t1 in
  let t3 := 2 * z in
  let t5 := M * t1 in
  let t6 := 2 * a in
  let t10 := t6 + t5 + t2 in
  let t11 := t10 * t10 in
  let t15 := c0 in
  -12 * (t2 + t3) * (-t3 + t5 + t6) * U * r / t11 / t10 * t15.
Definition uz_sing_normalMvt2D (X : list R) (H M a U l eps : R) : R :=
  let r := nth 1 X 0 in let z := nth 0 X 0 in
  uz_sing_normalMvt2D_body r z H M a U (chiTrunc r l eps).

(** UandPNormal.hpp l.83-179 *)
Definition ux_sing_normalMvt2D_body (r z H M a U c0 c1 c2 : R) : R :=
  let t1 := r * r in
  let t2 := H * t1 in
  let t3 := M * a in
  let t4 := z * z in
  let t5 := t3 * t4 in
  let t8 := a * a in
  let t9 := t8 * M in
  let t10 := t9 * z in
  let t13 := t1 * t1 in
  let t14 := H * t13 in
  let t15 := M * M in
  let t16 := t15 * a in
  let t17 := t16 * z in
  let t20 := H * H in
  let t21 := t20 * t13 in
  let t22 := t3 * z in
  let t31 := t15 * t1 in
  let t32 := a * t4 in
  let t35 := t13 * t1 in
  let t36 := H * t35 in
  let t37 := t15 * M in
  let t41 := t20 * t1 in
  let t45 := t20 * H in
  let t46 := t45 * t13 in
  let t51 := t45 * t35 in
  let t55 := t20 * t35 in
  let t59 := t15 * t15 in
  let t61 := t13 * t13 in
  let t64 := t8 * t45 in
  let t67 := t20 * t20 in
  let t68 := a * t67 in
  let t71 := t8 * a in
  let t74 := t15 * t61 in
  let t89 := -24 * t51 * M * z - 48 * t55 * t15 * z - 5 * H * t59 * t61 + 96 * t64 * t13 + 8 * t68 * t35 - 32 * t41 * t71 + 4 * t74 * t45 - 4 * t37 * t61 * t20 + 5 * M * t61 * t67 - 32 * t71 * t15 * t1 - 24 * t8 * t37 * t13 in
  let t94 := t4 * z in
  let t99 := H * a in
  let t100 := t99 * t94 in
  let t102 := t3 * t94 in
  let t109 := H * t8 in
  let t110 := t109 * t4 in
  let t112 := t9 * t4 in
  let t114 := t8 * t8 in
  let t118 := t67 * H in
  let t126 := a * t20 in
  let t133 := M * t1 in
  let t136 := t15 * t13 in
  let t139 := t37 * t35 in
  let t147 := t118 * t61 - 16 * M * t114 - t59 * M * t61 + 56 * t3 * t51 + 24 * t126 * t35 * t15 + 48 * t21 * t9 - 64 * H * t71 * t133 - 72 * t109 * t136 - 32 * t99 * t139 + 320 * t2 * M * t94 - 384 * t41 * t32 in
  let t155 := ((2 * a + t133 + t2))^2 in
  let t156 := t155 * t155 in
  let t158 := 1 / (H + M) / t156 in
  let t159 := c0 in
  let t162 := c2 in
  let t163 := t162 * t13 in
  let t166 := t61 * t1 in
  let t167 := t162 * t166 in
  let t168 := t3 * t45 in
  let t173 := t162 * t35 in
  let t174 := H * M in
  let t175 := t174 * t94 in
  let t186 := t162 * t61 in
  let t212 := t45 * t61 in
  let t226 := 128 * t163 * t102 - 56 * t167 * t168 + 128 * t163 * t100 + 64 * t173 * t175 - 144 * t173 * t16 * t4 - 36 * t167 * t16 * t20 - 288 * t163 * t112 - 72 * t186 * t9 * t20 + 48 * t173 * t126 * t4 - 96 * t163 * t110 + 24 * t186 * t20 * M * t4 - 24 * t186 * H * t15 * t4 - 192 * t14 * t162 * t71 * z - 24 * H * t166 * t162 * t37 * z - 48 * t212 * t162 * a * z - 192 * t55 * t162 * t8 * z - 24 * t45 * t166 * t162 * M * z in
  let t232 := c1 in
  let t233 := t232 * t1 in
  let t236 := t232 * t13 in
  let t241 := t232 * t61 in
  let t244 := t232 * t8 in
  let t245 := t244 * t4 in
  let t250 := t232 * t166 in
  let t251 := t67 * M in
  let t256 := t20 * t94 in
  let t259 := t15 * t94 in
  let t262 := t15 * t45 in
  let t265 := t232 * t4 in
  let t274 := t232 * t71 in
  let t280 := t162 * t61 * t13 in
  let t283 := -48 * t20 * t166 * t162 * t15 * z - 192 * t233 * t100 - 224 * t236 * t175 - 192 * t233 * t102 - 12 * t241 * t168 + 432 * t2 * t245 + 6 * t241 * t68 + 5 * t250 * t251 - 52 * t244 * t51 - 112 * t236 * t256 - 112 * t236 * t259 + 7 * t250 * t262 - 60 * t51 * t265 + 60 * t139 * t265 + 3 * t37 * t166 * t232 * t20 - 120 * t274 * t21 - 20 * t167 * t68 - 10 * t280 * t251 in
  let t285 := t162 * t1 in
  let t323 := H * t61 in
  let t330 := 128 * t285 * t8 * t94 - 56 * t186 * t64 + 32 * t173 * t259 - 14 * t280 * t262 + 32 * t173 * t256 - 192 * t285 * t71 * t4 - 48 * t173 * t71 * t20 - 24 * t186 * t37 * t4 - 6 * t280 * t37 * t20 + 24 * t186 * t45 * t4 + 64 * t244 * t94 - 96 * t274 * t4 + t250 * t118 - 2 * t280 * t118 - 96 * t173 * a * t174 * t4 - 144 * t323 * t162 * t17 - 288 * t36 * t162 * t10 in
  let t331 := t20 * t61 in
  let t339 := t244 * z in
  let t343 := t232 * a in
  let t344 := t343 * z in
  let t350 := t343 * t4 in
  let t353 := t232 * t15 in
  let t357 := t232 * M in
  let t389 := -192 * t331 * t162 * t22 + 336 * t14 * t232 * t5 - 144 * t14 * M * t339 + 72 * t36 * t15 * t344 + 192 * t55 * t232 * t22 + 120 * t21 * t350 + 60 * t36 * t353 * t4 - 60 * t55 * t357 * t4 + 144 * t133 * t245 - 108 * M * t35 * t244 * t20 + 216 * t136 * t350 - 18 * t74 * t343 * t20 + 36 * t323 * t37 * t232 * z + 96 * t21 * t339 + 120 * t51 * t344 + 72 * t331 * t353 * z + 36 * t212 * t357 * z - 288 * t2 * t274 * z in
  U * (-480 * t2 * t5 + 288 * t2 * t10 + 96 * t14 * t17 - 48 * t21 * t22 + 72 * t21 * M * t4 - 72 * t14 * t15 * t4 - 96 * t31 * t32 - 24 * t36 * t37 * z + 288 * t41 * t8 * z - 144 * t46 * a * z + t89 - 8 * a * t59 * t35 + 160 * t41 * t94 + 160 * t31 * t94 - 64 * t100 - 64 * t102 + 72 * t46 * t4 - 72 * t37 * t13 * t4 + 96 * t110 + 96 * t112 - 16 * H * t114 + t147) * t158 * t159 / 2 + U * (t226 + t283 + t330 + t389) * t158 / 2.
Definition ux_sing_normalMvt2D (X : list R) (H M a U l eps : R) : R :=
  let r := nth 1 X 0 in let z := nth 0 X 0 in
  ux_sing_normalMvt2D_body r z H M a U (chiTrunc r l eps) (dchiTrunc r l eps) (d2chiTrunc r l eps).

(** UandPNormal.hpp l.181-209 *)
Definition dzuz_sing_normalMvt2D_body (r z H M a U c0 c1 : R) : R :=
  let t1 := r * r in
  let t2 := t1 * t1 in
  let t3 := z * z in
  let t4 := t2 * t3 in
  let t14 := t2 * t1 in
  let t15 := t14 * H in
  let t16 := a * M in
  let t22 := H * H in
  let t25 := M * M in
  let t29 := a * a in
  let t33 := H * t2 in
  let t39 := t2 * t2 in
  let t46 := 8 * M * t4 + 16 * t1 * a * t3 - 16 * t2 * a * M * z - 8 * t15 * t16 + 8 * H * t4 + 4 * t14 * z * t22 - 4 * t14 * t25 * z - 16 * t1 * t29 * z - 8 * t33 * t29 - 4 * t14 * a * t22 - 2 * t39 * H * t25 - 2 * t39 * M * t22 in
  let t50 := H * t1 in
  let t52 := (2 * a + M * t1 + t50)^2 in
  let t53 := t52 * t52 in
  let t54 := 1 / t53 in
  let t55 := c1 in
  let t90 := -20 * t1 * t3 * M + 8 * t16 * t1 * z + 8 * a * t3 - 8 * t29 * z + 32 * t50 * a * z - 4 * t33 * t16 - 6 * z * t22 * t2 + t15 * t25 + M * t14 * t22 - 12 * t50 * t29 + 6 * a * t22 * t2 + 6 * t25 * t2 * z - 20 * t3 * H * t1 in
  let t92 := c0 in
  12 * U * t46 * t54 * t55 + 12 * U * t90 * t54 * t92.
Definition dzuz_sing_normalMvt2D (X : list R) (H M a U l eps : R) : R :=
  let r := nth 1 X 0 in let z := nth 0 X 0 in
  dzuz_sing_normalMvt2D_body r z H M a U (chiTrunc r l eps) (dchiTrunc r l eps).

(** UandPNormal.hpp l.212-243 *)
Definition dxux_sing_normalMvt2D_body (r z H M a U c0 c1 : R) : R :=
  let t1 := r * r in
  let t2 := t1 * t1 in
  let t3 := t2 * t1 in
  let t4 := t3 * a in
  let t8 := t2 * M in
  let t9 := a * z in
  let t13 := H * H in
  let t16 := t2 * t2 in
  let t17 := M * M in
  let t25 := a * a in
  let t30 := z * z in
  let t31 := t2 * t30 in
  let t34 := t3 * t17 in
  let t45 := 8 * t4 * H * M + 16 * t8 * t9 - 4 * t3 * z * t13 + 2 * t16 * t17 * H + 2 * t16 * M * t13 + 8 * t2 * H * t25 + 4 * t4 * t13 - 8 * t31 * H + 4 * t34 * z + 16 * t1 * t25 * z - 16 * t1 * a * t30 - 8 * t31 * M in
  let t48 := M * t1 in
  let t49 := H * t1 in
  let t51 := (2 * a + t48 + t49)^2 in
  let t52 := t51 * t51 in
  let t53 := 1 / t52 in
  let t54 := c1 in
  let t88 := -32 * t49 * t9 + 4 * a * H * t8 + 6 * z * t13 * t2 - t34 * H - M * t3 * t13 + 12 * t49 * t25 - 6 * a * t13 * t2 - 6 * t17 * t2 * z + 20 * t30 * H * t1 + 8 * t25 * z - 8 * a * t30 + 20 * t30 * M * t1 - 8 * t48 * t9 in
  let t90 := c0 in
  12 * U * t45 * t53 * t54 + 12 * U * t88 * t53 * t90.
Definition dxux_sing_normalMvt2D (X : list R) (H M a U l eps : R) : R :=
  let r := nth 1 X 0 in let z := nth 0 X 0 in
  dxux_sing_normalMvt2D_body r z H M a U (chiTrunc r l eps) (dchiTrunc r l eps).

(** UandPNormal.hpp l.245-259 *)
Definition dxuz_sing_normalMvt2D_body (r z H M a U c0 : R) : R :=
  let t2 := r * r in
  let t3 := c0 in
  let t5 := M * t2 in
  let t6 := 2 * a in
  let t7 := H * t2 in
  let t10 := t6 + t5 + t7 in
  let t11 := t10 * t10 in
  24 * U * r * t3 * (4 * z - t5 - t6 + t7) / t11 / t10.
Definition dxuz_sing_normalMvt2D (X : list R) (H M a U l eps : R) : R :=
  let r := nth 1 X 0 in let z := nth 0 X 0 in
  dxuz_sing_normalMvt2D_body r z H M a U (chiTrunc r l eps).

(** UandPNormal.hpp l.261-349 *)
Definition dzux_sing_normalMvt2D_body (r z H M a U c0 c1 c2 : R) : R :=
  let t1 := r * U in
  let t2 := r * r in
  let t3 := t2 * M in
  let t4 := z * z in
  let t5 := t4 * z in
  let t6 := a * t5 in
  let t9 := H * t2 in
  let t12 := t2 * t2 in
  let t13 := H * t12 in
  let t14 := M * t5 in
  let t17 := a * a in
  let t18 := t17 * t4 in
  let t21 := H * H in
  let t22 := a * t21 in
  let t23 := t12 * t4 in
  let t26 := t12 * t2 in
  let t33 := M * M in
  let t34 := a * t33 in
  let t41 := t17 * a in
  let t45 := t12 * t12 in
  let t46 := H * t45 in
  let t47 := t33 * M in
  let t51 := 384 * t3 * t6 + 384 * t9 * t6 + 576 * t13 * t14 - 1248 * t9 * t18 - 528 * t22 * t23 + 120 * M * t26 * t21 * t4 + 96 * t3 * t18 - 336 * t34 * t23 - 120 * t33 * t26 * H * t4 + 1344 * t9 * t41 * z - 24 * t46 * t47 * z in
  let t52 := t21 * t45 in
  let t53 := t33 * z in
  let t56 := t21 * H in
  let t57 := t56 * t45 in
  let t58 := M * z in
  let t61 := t56 * t26 in
  let t62 := a * z in
  let t65 := t21 * t12 in
  let t66 := t17 * z in
  let t74 := a * M in
  let t78 := t26 * H in
  let t81 := t41 * H in
  let t82 := t12 * M in
  let t85 := t17 * M in
  let t86 := t26 * t21 in
  let t89 := a * H in
  let t93 := -48 * t52 * t53 - 24 * t57 * t58 - 240 * t61 * t62 + 192 * t65 * t66 - 40 * a * t47 * t46 + 144 * t34 * t52 + 224 * t74 * t57 - 120 * t17 * t33 * t78 - 160 * t81 * t82 + 480 * t85 * t86 - 864 * t89 * t82 * t4 in
  let t95 := t85 * z in
  let t98 := t34 * z in
  let t101 := t17 * t17 in
  let t109 := t41 * t21 in
  let t115 := t17 * t56 in
  let t118 := t33 * t33 in
  let t122 := t21 * t21 in
  let t123 := a * t122 in
  let t126 := t45 * t2 in
  let t130 := 1248 * t13 * t95 + 240 * t78 * t98 - 80 * t3 * t101 - 80 * t9 * t101 - 80 * t41 * t33 * t12 + 448 * t109 * t12 - 40 * t17 * t47 * t26 + 320 * t115 * t26 - 10 * a * t118 * t45 + 50 * t123 * t45 - 5 * t118 * t126 * H in
  let t140 := t33 * t12 in
  let t152 := t122 * H in
  let t155 := t17 * t5 in
  let t157 := t41 * t4 in
  let t161 := 8 * t47 * t126 * t21 + 32 * t33 * t126 * t56 + 25 * M * t126 * t122 + 288 * t140 * t5 + 288 * t65 * t5 + 120 * t61 * t4 - 120 * t47 * t26 * t4 - t118 * M * t126 + 5 * t152 * t126 - 384 * t155 + 576 * t157 - 32 * t101 * a in
  let t165 := 2 * a + t3 + t9 in
  let t166 := t165 * t165 in
  let t167 := t166 * t166 in
  let t169 := 1 / t167 / t165 in
  let t171 := c1 in
  let t178 := t21 * t2 in
  let t194 := t56 * t12 in
  let t208 := -960 * t9 * t14 - 24 * t74 * t61 + 1440 * t178 * a * t4 - 144 * t65 * M * t4 + 144 * t13 * t33 * t4 - 24 * t86 * t34 + 192 * t85 * t65 - 1440 * t178 * t66 + 288 * t194 * t62 + 48 * t86 * t53 + 24 * t61 * t58 + 24 * H * t47 * t26 * z + 1440 * t9 * t74 * t4 in
  let t209 := H * M in
  let t217 := t74 * z in
  let t220 := t89 * t5 in
  let t227 := t74 * t5 in
  let t237 := H * t17 * t4 in
  let t239 := t85 * t4 in
  let t245 := -480 * t209 * t2 * t17 * z - 336 * t89 * t140 * z - 48 * t65 * t217 + 576 * t220 - 480 * t178 * t5 - 480 * t33 * t2 * t5 + 576 * t227 - 144 * t194 * t17 - 144 * t194 * t4 + 144 * t47 * t12 * t4 - 1152 * t237 - 576 * t239 + 480 * t178 * t41 + 576 * t81 * z in
  let t248 := c0 in
  let t251 := c2 in
  let t252 := t2 * t251 in
  let t255 := t45 * t251 in
  let t258 := t26 * t251 in
  let t263 := t45 * t12 * t251 in
  let t270 := t126 * t251 in
  let t302 := t12 * t251 in
  let t305 := -256 * t252 * t155 + 112 * t255 * t115 - 64 * t258 * t33 * t5 + 28 * t263 * t33 * t56 - 64 * t258 * t21 * t5 + 40 * t270 * t123 + 20 * t263 * t122 * M - 48 * t255 * t56 * t4 + 48 * t255 * t47 * t4 + 12 * t263 * t47 * t21 + 384 * t252 * t157 + 96 * t258 * t109 + 192 * t258 * a * t209 * t4 + 576 * t78 * t251 * t95 + 288 * t46 * t251 * t98 + 384 * t52 * t251 * t217 - 256 * t302 * t227 in
  let t367 := 112 * t270 * t74 * t56 - 256 * t302 * t220 - 128 * t258 * t209 * t5 + 192 * t302 * t237 - 96 * t258 * t22 * t4 + 48 * t255 * t33 * H * t4 - 48 * t255 * M * t21 * t4 + 576 * t302 * t239 + 144 * t255 * t85 * t21 + 288 * t258 * t34 * t4 + 72 * t270 * t34 * t21 + 384 * t13 * t251 * t41 * z + 384 * t86 * t251 * t17 * z + 96 * t57 * t251 * a * z + 48 * H * t126 * t251 * t47 * z + 96 * t21 * t126 * t251 * t33 * z + 48 * t56 * t126 * t251 * M * z + 4 * t263 * t152 in
  t1 * (t51 + t93 + t130 + t161) * t169 * t171 + t1 * (t208 + t245) * t169 * t248 + t1 * (t305 + t367) * t169.
Definition dzux_sing_normalMvt2D (X : list R) (H M a U l eps : R) : R :=
  let r := nth 1 X 0 in let z := nth 0 X 0 in
  dzux_sing_normalMvt2D_body r z H M a U (chiTrunc r l eps) (dchiTrunc r l eps) (d2chiTrunc r l eps).

(** UandPNormal.hpp l.368-378 *)
Definition p_sing_withT_normalMvt3D_body (r2 r z H M a U c0 : R) : R :=
  let mu := 1 in
  let t2 := r2 in
  let t3 := c0 in
  let t11 := (t2 * H + t2 * M + 2 * a)^2 in
  -12 / t11 / (H + M) * t3 * U * mu.
Definition p_sing_withT_normalMvt3D (X : list R) (H M a U l eps : R) : R :=
  let r2 := nth 0 X 0 * nth 0 X 0 + nth 1 X 0 * nth 1 X 0 in let r := sqrt r2 in let z := nth 2 X 0 in
  p_sing_withT_normalMvt3D_body r2 r z H M a U (chiTrunc r l eps).

(** UandPNormal.hpp l.381-405 *)
Definition ur_sing_normalMvt3D_body (r2 r z H M a U c0 c1 : R) : R :=
  let t2 := r2 in
  let t1 := U * r in
  let t3 := H * t2 in
  let t4 := M * t2 in
  let t5 := 2 * a in
  let t6 := -t3 - t4 - t5 in
  let t7 := 2 * z in
  let t8 := t4 + t5 - t7 in
  let t11 := t3 + t7 in
  let t12 := c1 in
  let t14 := H + M in
  let t15 := 1 / t14 in
  let t16 := -t6 in
  let t17 := t16 * t16 in
  let t19 := 1 / t17 / t16 in
  let t27 := c0 in
  -3 * t1 * t11 * t12 * t15 * t19 * t6 * t8 - 6 * t1 * t11 * t14 * t15 * t19 * t27 * t8.
Definition ur_sing_normalMvt3D (X : list R) (H M a U l eps : R) : R :=
  let r2 := nth 0 X 0 * nth 0 X 0 + nth 1 X 0 * nth 1 X 0 in let r := sqrt r2 in let z := nth 2 X 0 in
  ur_sing_normalMvt3D_body r2 r z H M a U (chiTrunc r l eps) (dchiTrunc r l eps).

(** UandPNormal.hpp l.407-488 *)
Definition uz_sing_normalMvt3D_body (r2 r z H M a U c0 c1 c2 : R) : R :=
  let t4 := r2 in
  let t1 := H * H in
  let t2 := t1 * t1 in
  let t3 := t2 * H in
  let t5 := t4 * t4 in
  let t6 := t5 * t5 in
  let t7 := t6 * t5 in
  let t9 := t2 * M in
  let t12 := t1 * H in
  let t13 := M * M in
  let t14 := t12 * t13 in
  let t17 := t13 * M in
  let t18 := t1 * t17 in
  let t21 := t2 * a in
  let t22 := t6 * t4 in
  let t25 := t12 * M in
  let t26 := a * t22 in
  let t29 := t22 * z in
  let t32 := t1 * t13 in
  let t37 := H * t17 in
  let t40 := a * a in
  let t41 := t12 * t40 in
  let t44 := t12 * a in
  let t45 := t6 * z in
  let t49 := z * z in
  let t52 := t1 * M in
  let t56 := a * t6 in
  let t57 := t56 * z in
  let t60 := t6 * t49 in
  let t63 := H * t13 in
  let t66 := 12 * t12 * t6 * t49 - 36 * t52 * t40 * t6 - 7 * t14 * t7 - 3 * t18 * t7 - 10 * t21 * t22 - 28 * t25 * t26 - 12 * t25 * t29 - 18 * t32 * t26 - 24 * t32 * t29 - 12 * t37 * t29 - t3 * t7 - 28 * t41 * t6 - 24 * t44 * t45 - 96 * t52 * t57 + 12 * t52 * t60 - 72 * t63 * t57 - 5 * t9 * t7 in
  let t72 := t40 * a in
  let t73 := t1 * t72 in
  let t74 := t5 * t4 in
  let t77 := t1 * t40 in
  let t78 := t74 * z in
  let t81 := t1 * a in
  let t82 := t74 * t49 in
  let t86 := t49 * z in
  let t89 := H * M in
  let t90 := t40 * t74 in
  let t94 := a * t74 in
  let t101 := t13 * a in
  let t107 := H * t72 in
  let t108 := t5 * z in
  let t111 := H * t40 in
  let t112 := t5 * t49 in
  let t115 := H * a in
  let t116 := t5 * t86 in
  let t119 := M * t40 in
  let t122 := M * a in
  let t125 := t72 * t4 in
  let t128 := t40 * t4 in
  let t131 := 16 * t1 * t74 * t86 + 16 * t13 * t74 * t86 - 12 * t17 * t49 * t6 - 48 * t49 * t89 * t94 + 32 * t74 * t86 * t89 - 144 * t89 * t90 * z - 72 * t101 * t82 - 96 * t107 * t108 - 48 * t111 * t112 - 144 * t112 * t119 + 64 * t115 * t116 + 64 * t116 * t122 - 96 * t125 * t49 + 64 * t128 * t86 - 12 * t60 * t63 - 24 * t73 * t74 - 96 * t77 * t78 + 24 * t81 * t82 in
  let t134 := c2 in
  let t136 := 1 / (H + M) in
  let t142 := (H * t4 + M * t4 + 2 * a)^2 in
  let t143 := t142 * t142 in
  let t144 := 1 / t143 in
  let t178 := -24 * t12 * t49 * t74 + 24 * t17 * t49 * t74 + 48 * t52 * t94 * z - 2 * t21 * t6 + 12 * t25 * t45 - 20 * t25 * t56 + 24 * t32 * t45 - 18 * t32 * t56 + 12 * t37 * t45 - 40 * t41 * t74 + 48 * t44 * t78 - 24 * t52 * t82 - 72 * t52 * t90 + 24 * t63 * t82 in
  let t186 := t40 * t5 in
  let t190 := a * t5 in
  let t201 := t4 * z in
  let t204 := t4 * t49 in
  let t207 := t4 * t86 in
  let t216 := -48 * t1 * t5 * t86 - 48 * t13 * t5 * t86 - 144 * t186 * t89 * z + 144 * t190 * t49 * t89 + 72 * t101 * t112 - 192 * t107 * t201 + 192 * t111 * t204 + 72 * t112 * t81 - 64 * t115 * t207 - 96 * t116 * t89 - 64 * t122 * t207 + 64 * t40 * t86 - 96 * t49 * t72 - 72 * t5 * t73 in
  let t219 := c1 in
  let t230 := t13 * t13 in
  let t252 := t190 * z in
  let t263 := -5 * H * t230 * t6 - M * t230 * t6 - 8 * a * t230 * t74 + 24 * t12 * t49 * t5 - 48 * t108 * t44 + 24 * t112 * t52 - 24 * t112 * t63 + 4 * t14 * t6 - 4 * t18 * t6 - 72 * t186 * t63 + 8 * t21 * t74 + 32 * t25 * t94 + 48 * t252 * t52 + 96 * t252 * t63 + t3 * t6 - 32 * t37 * t94 + 48 * t41 * t5 + 5 * t6 * t9 in
  let t296 := t40 * t40 in
  let t309 := -192 * a * t4 * t49 * t89 + 64 * t1 * t4 * t86 + 192 * t128 * t89 * z - 32 * t13 * t4 * t72 + 64 * t13 * t4 * t86 - 24 * t17 * t40 * t5 - 24 * t17 * t49 * t5 - 16 * H * t296 - 16 * M * t296 + 96 * t111 * t49 - 64 * t115 * t86 + 96 * t119 * t49 - 64 * t122 * t86 - 64 * t125 * t89 + 192 * t201 * t77 - 192 * t204 * t81 + 128 * t207 * t89 - 32 * t4 * t73 in
  let t313 := c0 in
  U * (t131 + t66) * t134 * t136 * t144 / 2 + U * (t216 + t178) * t219 * t136 * t144 / 2 + U * (t309 + t263) * t136 * t144 * t313 / 2.
Definition uz_sing_normalMvt3D (X : list R) (H M a U l eps : R) : R :=
  let r2 := nth 0 X 0 * nth 0 X 0 + nth 1 X 0 * nth 1 X 0 in let r := sqrt r2 in let z := nth 2 X 0 in
  uz_sing_normalMvt3D_body r2 r z H M a U (chiTrunc r l eps) (dchiTrunc r l eps) (d2chiTrunc r l eps).

(** UandPNormal.hpp l.490-547 *)
Definition drur_sing_normalMvt3D_body (r2 r z H M a U c0 c1 c2 : R) : R :=
  let t4 := r2 in
  let t1 := H * H in
  let t2 := t1 * H in
  let t3 := t2 * M in
  let t5 := t4 * t4 in
  let t6 := t5 * t5 in
  let t7 := t6 * t4 in
  let t10 := M * M in
  let t11 := t1 * t10 in
  let t14 := t10 * M in
  let t15 := H * t14 in
  let t18 := t2 * a in
  let t24 := t1 * M in
  let t25 := a * t6 in
  let t28 := t6 * z in
  let t31 := H * t10 in
  let t39 := a * a in
  let t40 := t1 * t39 in
  let t41 := t5 * t4 in
  let t44 := t1 * a in
  let t45 := t41 * z in
  let t48 := 4 * t14 * t6 * z - 4 * t2 * t6 * z + 4 * t11 * t7 + 2 * t15 * t7 + 4 * t18 * t6 + 16 * t24 * t25 - 4 * t24 * t28 + 12 * t31 * t25 + 4 * t31 * t28 + 2 * t3 * t7 + 16 * t40 * t41 - 8 * t44 * t45 in
  let t50 := z * z in
  let t53 := H * M in
  let t57 := a * t41 in
  let t64 := t10 * a in
  let t70 := t39 * a in
  let t71 := H * t70 in
  let t74 := H * t39 in
  let t75 := t5 * z in
  let t78 := H * a in
  let t79 := t5 * t50 in
  let t82 := M * t39 in
  let t85 := M * a in
  let t91 := t39 * t4 in
  let t94 := -8 * t1 * t41 * t50 - 8 * t10 * t41 * t50 + 24 * t53 * t39 * t41 + 32 * t70 * t4 * z - 16 * t53 * t41 * t50 + 16 * t53 * t57 * z + 24 * t64 * t45 + 16 * t71 * t5 - 32 * t91 * t50 + 16 * t74 * t75 + 48 * t82 * t75 - 32 * t78 * t79 - 32 * t85 * t79 in
  let t97 := c2 in
  let t99 := 1 / (H + M) in
  let t105 := (H * t4 + M * t4 + 2 * a)^2 in
  let t106 := t105 * t105 in
  let t107 := 1 / t106 in
  let t136 := -10 * t14 * t41 * z + 10 * t2 * t41 * z - 6 * t11 * t6 - 3 * t15 * t6 - 10 * t18 * t41 + 10 * t24 * t45 - 16 * t24 * t57 - 3 * t3 * t6 - 10 * t31 * t45 - 6 * t31 * t57 - 8 * t40 * t5 - 20 * t44 * t75 in
  let t143 := a * t5 in
  let t156 := t4 * z in
  let t159 := t4 * t50 in
  let t170 := 28 * t1 * t5 * t50 + 28 * t10 * t5 * t50 - 56 * t53 * t143 * z + 12 * t53 * t39 * t5 - 72 * t74 * t156 - 24 * t82 * t156 + 48 * t78 * t159 + 48 * t85 * t159 - 16 * t39 * t50 + 24 * t71 * t4 + 56 * t53 * t79 - 36 * t64 * t75 + 16 * t70 * z in
  let t173 := c1 in
  let t201 := 12 * t14 * t5 * z - 12 * t2 * t5 * z + 4 * t11 * t41 + 4 * t24 * t143 - 8 * t31 * t143 + 2 * t15 * t41 + 12 * t18 * t5 - 12 * t24 * t75 + 2 * t3 * t41 + 12 * t31 * t75 - 24 * t40 * t4 in
  let t228 := 80 * t53 * a * t4 * z - 40 * t1 * t4 * t50 - 40 * t10 * t4 * t50 + 64 * t44 * t156 + 16 * t64 * t156 - 80 * t53 * t159 + 16 * t78 * t50 + 16 * t85 * t50 - 24 * t53 * t91 - 16 * t74 * z - 16 * t82 * z in
  let t232 := c0 in
  3 * U * (t94 + t48) * t97 * t99 * t107 + 3 * U * (t170 + t136) * t173 * t99 * t107 + 3 * U * (t228 + t201) * t99 * t107 * t232.
Definition drur_sing_normalMvt3D (X : list R) (H M a U l eps : R) : R :=
  let r2 := nth 0 X 0 * nth 0 X 0 + nth 1 X 0 * nth 1 X 0 in let r := sqrt r2 in let z := nth 2 X 0 in
  drur_sing_normalMvt3D_body r2 r z H M a U (chiTrunc r l eps) (dchiTrunc r l eps) (d2chiTrunc r l eps).

(** UandPNormal.hpp l.549-565 *)
Definition dzur_sing_normalMvt3D_body (r2 r z H M a U c0 c1 : R) : R :=
  let t2 := r2 in
  let t3 := H * t2 in
  let t4 := M * t2 in
  let t5 := 2 * a in
  let t9 := H + M in
  let t11 := t3 + t4 + t5 in
  let t12 := t11 * t11 in
  let t17 := c0 in
  let t20 := c1 in
  6 * r * U * (t3 - t4 - t5 + 4 * z) / t9 / t12 / t11 * (-t11 * t20 + 2 * t17 * t9).
Definition dzur_sing_normalMvt3D (X : list R) (H M a U l eps : R) : R :=
  let r2 := nth 0 X 0 * nth 0 X 0 + nth 1 X 0 * nth 1 X 0 in let r := sqrt r2 in let z := nth 2 X 0 in
  dzur_sing_normalMvt3D_body r2 r z H M a U (chiTrunc r l eps) (dchiTrunc r l eps).

(** UandPNormal.hpp l.567-693 *)
Definition druz_sing_normalMvt3D_body (r2 r z H M a U c0 c1 c2 c3 : R) : R :=
  let t5 := r2 in
  let t1 := r * U in
  let t2 := H * H in
  let t3 := t2 * t2 in
  let t4 := t3 * t2 in
  let t6 := t5 * t5 in
  let t7 := t6 * t5 in
  let t8 := t6 * t6 in
  let t9 := t8 * t7 in
  let t11 := t3 * H in
  let t12 := t11 * M in
  let t15 := M * M in
  let t16 := t3 * t15 in
  let t19 := t2 * H in
  let t20 := t15 * M in
  let t21 := t19 * t20 in
  let t24 := t15 * t15 in
  let t25 := t2 * t24 in
  let t28 := t11 * a in
  let t29 := t8 * t6 in
  let t32 := t3 * M in
  let t33 := a * t29 in
  let t36 := t29 * z in
  let t39 := t19 * t15 in
  let t44 := t2 * t20 in
  let t49 := 6 * t12 * t9 + 12 * t16 * t9 + 10 * t21 * t9 + 3 * t25 * t9 + 12 * t28 * t29 + 48 * t32 * t33 + 12 * t32 * t36 + 60 * t39 * t33 + 24 * t44 * t33 + 36 * t39 * t36 + 36 * t44 * t36 + t4 * t9 in
  let t50 := H * t24 in
  let t53 := a * a in
  let t54 := t3 * t53 in
  let t55 := t8 * t5 in
  let t58 := t3 * a in
  let t63 := z * z in
  let t66 := t19 * M in
  let t67 := t53 * t55 in
  let t70 := a * t55 in
  let t71 := t70 * z in
  let t74 := t55 * t63 in
  let t77 := t2 * t15 in
  let t82 := H * t20 in
  let t90 := t53 * a in
  let t91 := t19 * t90 in
  let t94 := 12 * t24 * t55 * t63 - 12 * t3 * t55 * t63 + 24 * t58 * t55 * z + 12 * t50 * t36 + 48 * t54 * t55 + 120 * t66 * t67 + 144 * t66 * t71 - 24 * t66 * t74 + 72 * t77 * t67 + 216 * t77 * t71 + 96 * t82 * t71 + 24 * t82 * t74 + 80 * t91 * t8 in
  let t96 := t19 * t53 in
  let t97 := t8 * z in
  let t100 := t19 * a in
  let t101 := t8 * t63 in
  let t105 := t63 * z in
  let t108 := t2 * M in
  let t112 := t53 * t8 in
  let t113 := t112 * z in
  let t116 := t8 * t105 in
  let t119 := H * t15 in
  let t122 := a * t8 in
  let t128 := t20 * a in
  let t134 := t53 * t53 in
  let t135 := t2 * t134 in
  let t138 := t2 * t90 in
  let t139 := t7 * z in
  let t142 := -16 * t19 * t8 * t105 - 16 * t20 * t8 * t105 + 96 * t108 * t90 * t8 + 144 * t119 * t122 * t63 - 48 * t100 * t101 + 96 * t128 * t101 + 432 * t108 * t113 - 48 * t108 * t116 + 288 * t119 * t113 - 48 * t119 * t116 + 48 * t135 * t7 + 288 * t138 * t139 + 144 * t96 * t97 in
  let t143 := t2 * a in
  let t144 := t7 * t105 in
  let t147 := H * M in
  let t148 := t90 * t7 in
  let t152 := t53 * t7 in
  let t156 := a * t7 in
  let t160 := t15 * t53 in
  let t161 := t7 * t63 in
  let t164 := t15 * a in
  let t167 := H * t134 in
  let t168 := t6 * z in
  let t171 := H * t90 in
  let t172 := t6 * t63 in
  let t175 := H * t53 in
  let t176 := t6 * t105 in
  let t179 := M * t90 in
  let t182 := M * t53 in
  let t185 := t134 * t5 in
  let t188 := t90 * t5 in
  let t191 := -192 * t147 * t156 * t105 + 384 * t147 * t148 * z + 288 * t147 * t152 * t63 - 128 * t188 * t105 - 96 * t143 * t144 - 96 * t164 * t144 + 288 * t160 * t161 + 192 * t167 * t168 + 192 * t171 * t172 + 384 * t179 * t172 - 192 * t175 * t176 - 192 * t182 * t176 + 192 * t185 * t63 in
  let t195 := c3 in
  let t197 := 1 / (H + M) in
  let t202 := H * t5 + M * t5 + 2 * a in
  let t203 := t202 * t202 in
  let t204 := t203 * t203 in
  let t206 := 1 / t204 / t202 in
  let t231 := 12 * t12 * t29 + 24 * t16 * t29 + 20 * t21 * t29 + 6 * t25 * t29 + 24 * t28 * t55 + 2 * t4 * t29 + 120 * t32 * t70 + 168 * t39 * t70 + 72 * t44 * t70 + 144 * t54 * t8 - 48 * t58 * t97 in
  let t241 := t122 * z in
  let t258 := 64 * t19 * t7 * t105 - 24 * t24 * t8 * t63 + 24 * t3 * t8 * t63 - 96 * t100 * t161 + 48 * t66 * t101 - 48 * t82 * t101 + 432 * t66 * t112 + 288 * t77 * t112 + 144 * t77 * t241 + 96 * t82 * t241 + 352 * t91 * t7 in
  let t262 := t152 * z in
  let t265 := t156 * t63 in
  let t285 := 64 * t20 * t7 * t105 + 192 * t108 * t144 + 480 * t108 * t148 + 576 * t108 * t262 - 288 * t108 * t265 + 192 * t119 * t144 + 576 * t119 * t262 - 288 * t119 * t265 - 96 * t128 * t161 + 288 * t135 * t6 + 576 * t138 * t168 in
  let t286 := t2 * t53 in
  let t291 := t90 * t6 in
  let t295 := t53 * t6 in
  let t299 := a * t6 in
  let t305 := t5 * z in
  let t308 := t5 * t63 in
  let t317 := 384 * t147 * t299 * t105 + 1152 * t147 * t291 * z - 576 * t147 * t295 * t63 - 256 * t90 * t105 + 384 * t134 * t63 + 192 * t143 * t176 + 192 * t164 * t176 + 768 * t167 * t305 - 384 * t171 * t308 - 576 * t286 * t172 + 384 * t179 * t308 in
  let t321 := c2 in
  let t332 := t24 * M in
  let t355 := 6 * H * t332 * t55 + 10 * t332 * a * t8 + t24 * t15 * t55 - 6 * t12 * t55 - 50 * t32 * t122 - 40 * t39 * t122 + 40 * t44 * t122 + 50 * t50 * t122 + 96 * t58 * t139 - 9 * t16 * t55 + 9 * t25 * t55 - 10 * t28 * t8 - t4 * t55 - 88 * t54 * t7 in
  let t365 := t156 * z in
  let t389 := -160 * t19 * t6 * t105 + 40 * t24 * t53 * t7 + 48 * t24 * t7 * t63 - 48 * t3 * t7 * t63 + 432 * t100 * t172 - 64 * t66 * t152 + 144 * t77 * t152 + 160 * t82 * t152 - 96 * t66 * t161 + 96 * t82 * t161 - 384 * t96 * t168 - 288 * t77 * t365 - 192 * t82 * t365 + 32 * t91 * t6 in
  let t393 := t295 * z in
  let t396 := t299 * t63 in
  let t423 := -160 * t20 * t6 * t105 + 80 * t20 * t90 * t6 - 480 * t108 * t176 + 384 * t108 * t291 - 1056 * t108 * t393 + 912 * t108 * t396 - 480 * t119 * t176 + 240 * t119 * t291 - 672 * t119 * t393 + 528 * t119 * t396 + 48 * t128 * t172 + 368 * t135 * t5 - 960 * t138 * t305 + 576 * t286 * t308 in
  let t424 := t5 * t105 in
  let t432 := t53 * t5 in
  let t436 := a * t5 in
  let t447 := t134 * a in
  let t462 := -128 * t147 * t436 * t105 + 80 * t15 * t134 * t5 - 384 * t147 * t188 * z + 192 * t147 * t432 * t63 + 32 * H * t447 + 32 * M * t447 + 512 * t175 * t105 + 512 * t182 * t105 - 64 * t143 * t424 + 160 * t147 * t185 - 384 * t160 * t308 - 64 * t164 * t424 + 384 * t167 * z - 960 * t171 * t63 - 576 * t179 * t63 in
  let t466 := c1 in
  let t483 := t299 * z in
  let t504 := 192 * t19 * t5 * t105 - 48 * t24 * t6 * t63 + 48 * t3 * t6 * t63 - 672 * t100 * t308 - 288 * t108 * t188 - 96 * t58 * t168 + 96 * t66 * t172 - 96 * t82 * t172 - 96 * t66 * t295 - 144 * t77 * t295 + 768 * t96 * t305 + 288 * t77 * t483 + 192 * t82 * t483 - 288 * t91 * t5 + 48 * t54 * t6 in
  let t505 := t432 * z in
  let t508 := t436 * t63 in
  let t543 := -768 * t147 * a * t105 + 192 * t20 * t5 * t105 + 1152 * t147 * t53 * t63 - 384 * t147 * t90 * z - 384 * t143 * t105 - 384 * t164 * t105 + 576 * t108 * t424 + 960 * t108 * t505 - 1248 * t108 * t508 + 576 * t119 * t424 + 192 * t119 * t505 - 480 * t119 * t508 + 96 * t128 * t308 - 384 * t138 * z + 384 * t160 * t63 + 768 * t286 * t63 in
  let t547 := c0 in
  -t1 * (t191 + t142 + t94 + t49) * t195 * t197 * t206 - t1 * (t317 + t285 + t258 + t231) * t321 * t197 * t206 - t1 * (t462 + t423 + t389 + t355) * t466 * t197 * t206 - t1 * (t543 + t504) * t197 * t206 * t547.
Definition druz_sing_normalMvt3D (X : list R) (H M a U l eps : R) : R :=
  let r2 := nth 0 X 0 * nth 0 X 0 + nth 1 X 0 * nth 1 X 0 in let r := sqrt r2 in let z := nth 2 X 0 in
  druz_sing_normalMvt3D_body r2 r z H M a U (chiTrunc r l eps) (dchiTrunc r l eps) (d2chiTrunc r l eps) (d3chiTrunc r l eps).

(** UandPNormal.hpp l.826-882 *)
Definition dzuz_sing_normalMvt3D_body (r2 r z H M a U c0 c1 c2 : R) : R :=
  let t4 := r2 in
  let t1 := H * H in
  let t2 := t1 * H in
  let t3 := t2 * M in
  let t5 := t4 * t4 in
  let t6 := t5 * t5 in
  let t7 := t6 * t4 in
  let t9 := M * M in
  let t10 := t1 * t9 in
  let t13 := t9 * M in
  let t14 := H * t13 in
  let t16 := t2 * a in
  let t22 := t1 * M in
  let t23 := a * t6 in
  let t26 := t6 * z in
  let t29 := H * t9 in
  let t37 := a * a in
  let t38 := t1 * t37 in
  let t39 := t5 * t4 in
  let t42 := t1 * a in
  let t43 := t39 * z in
  let t46 := 2 * t13 * t6 * z - 2 * t2 * t6 * z + 2 * t10 * t7 + t14 * t7 + 2 * t16 * t6 + 8 * t22 * t23 - 2 * t22 * t26 + 6 * t29 * t23 + 2 * t29 * t26 + t3 * t7 + 8 * t38 * t39 - 4 * t42 * t43 in
  let t48 := z * z in
  let t51 := H * M in
  let t55 := a * t39 in
  let t62 := t9 * a in
  let t68 := t37 * a in
  let t69 := H * t68 in
  let t72 := H * t37 in
  let t73 := t5 * z in
  let t76 := H * a in
  let t77 := t5 * t48 in
  let t80 := M * t37 in
  let t83 := M * a in
  let t89 := t37 * t4 in
  let t92 := -4 * t1 * t39 * t48 + 12 * t51 * t37 * t39 - 8 * t51 * t39 * t48 - 4 * t9 * t39 * t48 + 16 * t68 * t4 * z + 8 * t51 * t55 * z + 12 * t62 * t43 - 16 * t89 * t48 + 8 * t69 * t5 + 8 * t72 * t73 + 24 * t80 * t73 - 16 * t76 * t77 - 16 * t83 * t77 in
  let t95 := c2 in
  let t97 := 1 / (H + M) in
  let t103 := (H * t4 + M * t4 + 2 * a)^2 in
  let t104 := t103 * t103 in
  let t105 := 1 / t104 in
  let t131 := 12 * t1 * t5 * t48 - 4 * t13 * t39 * z + 4 * t2 * t39 * z - 2 * t10 * t6 - t14 * t6 - 4 * t16 * t39 + 4 * t22 * t43 - 4 * t22 * t55 - 4 * t29 * t43 - t3 * t6 - 12 * t42 * t73 in
  let t135 := a * t5 in
  let t148 := t4 * z in
  let t151 := t4 * t48 in
  let t160 := -24 * t51 * t135 * z + 12 * t51 * t37 * t5 + 12 * t9 * t5 * t48 - 32 * t72 * t148 + 16 * t76 * t151 + 16 * t83 * t151 - 16 * t37 * t48 + 16 * t69 * t4 + 24 * t51 * t77 - 12 * t62 * t73 + 16 * t68 * z in
  let t163 := c1 in
  let t209 := 32 * t51 * a * t4 * z - 16 * t1 * t4 * t48 + 4 * t13 * t5 * z - 4 * t2 * t5 * z - 16 * t9 * t4 * t48 - 4 * t22 * t135 - 8 * t29 * t135 + 32 * t42 * t148 - 32 * t51 * t151 + 4 * t16 * t5 - 4 * t22 * t73 + 4 * t29 * t73 - 16 * t38 * t4 + 16 * t76 * t48 + 16 * t83 * t48 - 16 * t51 * t89 - 16 * t72 * z - 16 * t80 * z in
  let t212 := c0 in
  -6 * U * (t92 + t46) * t95 * t97 * t105 - 6 * U * (t160 + t131) * t163 * t97 * t105 - 6 * U * t209 * t97 * t105 * t212.
Definition dzuz_sing_normalMvt3D (X : list R) (H M a U l eps : R) : R :=
  let r2 := nth 0 X 0 * nth 0 X 0 + nth 1 X 0 * nth 1 X 0 in let r := sqrt r2 in let z := nth 2 X 0 in
  dzuz_sing_normalMvt3D_body r2 r z H M a U (chiTrunc r l eps) (dchiTrunc r l eps) (d2chiTrunc r l eps).
