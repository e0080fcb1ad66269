(** Generated by tools/gen_sing.py from cafes/particle/singularity/UandPTang.hpp: the closed-form
    singular fields, term by term (each C++ local is a [let]).  The values of chiTrunc,
    dchiTrunc, d2chiTrunc, d3chiTrunc at r are the arguments c0, c1, c2, c3 of the bodies.
    Real arithmetic stands for double; [pow(x,2)] is [x^2]; unused [param] is dropped. *)
From Verif Require Import Base M_Truncation.
Open Scope R_scope.

(** UandPTang.hpp l.53-61 *)
Definition p_sing_withT_tangMvt2D_body (r z H M d U c0 : R) : R :=
  let mu := 1 in
  let t4 := r * r in
  let t9 := (H * t4 + M * t4 + 2 * d)^2 in
  -8 * mu * U * (H - M) * r / t9 / (H + M) * c0.
Definition p_sing_withT_tangMvt2D (X : list R) (H M d U l eps : R) : R :=
  let r := nth 1 X 0 in let z := nth 0 X 0 in
  p_sing_withT_tangMvt2D_body r z H M d U (chiTrunc r l eps).

(** UandPTang.hpp l.63-139 *)
Definition ux_sing_tangMvt2D_body (r z H M d U c0 c1 c2 : R) : R :=
  let t1 := r * r in
  let t2 := t1 * H in
  let t6 := (t2 + 2 * z) * U * r in
  let t7 := H * H in
  let t8 := t7 * H in
  let t9 := M * M in
  let t10 := t8 * t9 in
  let t11 := t1 * t1 in
  let t12 := t11 * t1 in
  let t15 := t9 * M in
  let t16 := t7 * t15 in
  let t19 := t9 * t9 in
  let t20 := H * t19 in
  let t23 := t7 * t9 in
  let t24 := d * t11 in
  let t27 := t11 * z in
  let t30 := H * t15 in
  let t38 := d * d in
  let t39 := t8 * t38 in
  let t42 := t8 * d in
  let t43 := t1 * z in
  let t47 := z * z in
  let t50 := -48 * t8 * t1 * t47 - 24 * t19 * t11 * z - 48 * t39 * t1 + 12 * t10 * t12 + 24 * t16 * t12 + 12 * t20 * t12 + 96 * t23 * t24 - 24 * t23 * t27 + 96 * t30 * t24 - 48 * t30 * t27 + 96 * t42 * t43 in
  let t51 := t7 * M in
  let t52 := t38 * t1 in
  let t56 := d * t1 * z in
  let t59 := t1 * t47 in
  let t62 := H * t9 in
  let t72 := t38 * d in
  let t73 := t72 * t7 in
  let t75 := t7 * t38 in
  let t78 := t7 * d in
  let t81 := t9 * t38 in
  let t84 := t9 * d in
  let t87 := 48 * t15 * t1 * t47 + 96 * t78 * t47 - 96 * t84 * t47 + 144 * t51 * t52 - 96 * t51 * t56 - 48 * t51 * t59 + 144 * t62 * t52 - 192 * t62 * t56 + 48 * t62 * t59 - 192 * t75 * z + 96 * t81 * z + 96 * t73 in
  let t89 := c0 in
  let t94 := (M * t1 + 2 * d + t2)^2 in
  let t95 := t94 * t94 in
  let t99 := 1 / t95 / (H + M) in
  let t102 := t7 * t7 in
  let t103 := t102 * H in
  let t104 := t11 * t11 in
  let t106 := t102 * M in
  let t117 := t102 * d in
  let t123 := t8 * M in
  let t124 := d * t12 in
  let t127 := t12 * z in
  let t151 := t38 * t11 in
  let t154 := -3 * t19 * M * t104 - 24 * t19 * d * t12 + 4 * t102 * t12 * z + 40 * t8 * t11 * t47 + 24 * t19 * t12 * z - 10 * t10 * t104 + t103 * t104 + t106 * t104 - 22 * t16 * t104 - 15 * t20 * t104 + 72 * t39 * t11 + 8 * t117 * t12 + 12 * t123 * t124 + 4 * t123 * t127 - 104 * t23 * t124 - 132 * t30 * t124 + 20 * t23 * t127 + 44 * t30 * t127 - 72 * t51 * t151 - 64 * t42 * t27 in
  let t155 := t24 * z in
  let t158 := t11 * t47 in
  let t170 := t15 * d in
  let t183 := H * M in
  let t195 := t38 * t38 in
  let t198 := H * t72 in
  let t201 := H * t38 in
  let t206 := M * t72 in
  let t209 := M * t38 in
  let t212 := -336 * t183 * t72 * t1 - 96 * t9 * t72 * t1 + 336 * t183 * t52 * z - 48 * H * t195 - 48 * M * t195 + 192 * t198 * z - 96 * t201 * t47 - 96 * t206 * z + 96 * t209 * t47 + 32 * t78 * t59 - 32 * t84 * t59 in
  let t215 := c1 in
  let t219 := t104 * t1 in
  let t235 := d * t104 in
  let t238 := t104 * z in
  let t259 := t38 * t12 in
  let t262 := -4 * t102 * t104 * z - 12 * t19 * t104 * z - 16 * t8 * t12 * t47 + 4 * t10 * t219 + 2 * t103 * t219 + 20 * t117 * t104 + 8 * t106 * t219 + 56 * t39 * t12 + 36 * t123 * t235 + 8 * t123 * t238 + 8 * t42 * t127 - 8 * t16 * t219 - 6 * t20 * t219 - 20 * t23 * t235 + 16 * t23 * t238 - 36 * t30 * t235 - 8 * t30 * t238 + 16 * t51 * t259 in
  let t263 := t124 * z in
  let t266 := t12 * t47 in
  let t304 := -48 * t183 * t72 * t11 + 16 * t15 * t12 * t47 + 64 * t183 * t151 * z + 48 * t73 * t11 - 72 * t170 * t127 - 64 * t78 * t158 + 64 * t84 * t158 + 96 * t198 * t43 - 64 * t201 * t59 - 96 * t206 * t43 + 64 * t209 * t59 - 72 * t62 * t259 + 72 * t51 * t263 - 8 * t62 * t263 - 16 * t51 * t266 + 16 * t62 * t266 + 80 * t75 * t27 - 144 * t81 * t27 in
  let t306 := c2 in
  -t6 * (t87 + t50) * t89 * t99 / 6 - t6 * (-72 * t15 * t38 * t11 - 40 * t15 * t11 * t47 + 96 * t73 * t1 - 360 * t62 * t151 + 72 * t51 * t155 + 208 * t62 * t155 + 40 * t51 * t158 - 40 * t62 * t158 + 72 * t170 * t27 - 48 * t75 * t43 + t154 + t212) * t215 * t99 / 6 - t6 * (t304 + t262) * t306 * t99 / 6.
Definition ux_sing_tangMvt2D (X : list R) (H M d U l eps : R) : R :=
  let r := nth 1 X 0 in let z := nth 0 X 0 in
  ux_sing_tangMvt2D_body r z H M d U (chiTrunc r l eps) (dchiTrunc r l eps) (d2chiTrunc r l eps).

(** UandPTang.hpp l.141-187 *)
Definition uz_sing_tangMvt2D_body (r z H M d U c0 c1 : R) : R :=
  let t3 := r * r in
  let t1 := H * H in
  let t2 := t1 * t1 in
  let t4 := t3 * t3 in
  let t5 := t4 * t3 in
  let t7 := t1 * H in
  let t8 := t7 * M in
  let t11 := M * M in
  let t12 := t11 * M in
  let t13 := H * t12 in
  let t16 := t11 * t11 in
  let t18 := t7 * d in
  let t24 := t1 * M in
  let t25 := d * t4 in
  let t28 := H * t11 in
  let t37 := d * d in
  let t38 := t1 * t37 in
  let t41 := -6 * d * t12 * t4 + 16 * t12 * t4 * z + 16 * t4 * t7 * z + 4 * t13 * t5 - t16 * t5 - 10 * t18 * t4 + t2 * t5 + 2 * t24 * t25 - 2 * t25 * t28 + 4 * t3 * t38 - 4 * t5 * t8 in
  let t43 := t3 * z in
  let t47 := z * z in
  let t50 := H * M in
  let t61 := t11 * d in
  let t67 := t37 * d in
  let t70 := H * t37 in
  let t73 := d * H in
  let t78 := d * M in
  let t81 := 48 * d * t3 * t50 * z - 16 * d * t1 * t43 + 24 * t1 * t3 * t47 - 12 * t11 * t3 * t37 - 24 * t11 * t3 * t47 - 24 * t3 * t37 * t50 - 8 * H * t67 - 8 * M * t67 + 32 * t43 * t61 - 16 * t47 * t73 + 16 * t47 * t78 + 32 * t70 * z in
  let t87 := H * t3 + M * t3 + 2 * d in
  let t88 := t87 * t87 in
  let t90 := 1 / t88 / t87 in
  let t92 := 1 / (H + M) in
  let t94 := c0 in
  let t97 := t4 * t4 in
  let t107 := d * t5 in
  let t110 := t5 * z in
  let t139 := t3 * t47 in
  let t147 := -32 * M * t37 * t43 - 16 * t1 * t4 * t47 + 16 * t11 * t4 * t47 - 8 * t12 * t5 * z + 32 * t25 * t50 * z - 16 * t37 * t4 * t50 - 32 * t4 * t61 * z - 8 * t5 * t7 * z + 8 * t107 * t24 - 16 * t107 * t28 + 8 * t110 * t24 + 8 * t110 * t28 - 4 * t13 * t97 - 32 * t139 * t73 + 32 * t139 * t78 + 8 * t18 * t5 + 16 * t38 * t4 + 32 * t43 * t70 + 4 * t8 * t97 in
  let t149 := c1 in
  U * (t81 + t41) * t90 * t92 * t94 / 2 + U * t147 * t149 * t90 * t92 / 2.
Definition uz_sing_tangMvt2D (X : list R) (H M d U l eps : R) : R :=
  let r := nth 1 X 0 in let z := nth 0 X 0 in
  uz_sing_tangMvt2D_body r z H M d U (chiTrunc r l eps) (dchiTrunc r l eps).

(** UandPTang.hpp l.189-263 *)
Definition dxux_sing_tangMvt2D_body (r z H M d U c0 c1 c2 : R) : R :=
  let t5 := r * r in
  let t1 := U * r in
  let t2 := H * H in
  let t3 := t2 * t2 in
  let t4 := t3 * d in
  let t6 := t5 * t5 in
  let t12 := t2 * H in
  let t13 := t12 * M in
  let t14 := d * t6 in
  let t17 := t6 * z in
  let t20 := M * M in
  let t21 := t20 * M in
  let t22 := H * t21 in
  let t27 := t20 * t20 in
  let t31 := d * d in
  let t32 := t12 * t31 in
  let t35 := t12 * d in
  let t36 := t5 * z in
  let t40 := z * z in
  let t43 := t2 * M in
  let t44 := t31 * t5 in
  let t47 := -48 * t12 * t5 * t40 - 16 * t27 * t6 * z - 16 * t3 * t6 * z - 16 * t13 * t14 - 16 * t13 * t17 + 32 * t22 * t14 - 16 * t22 * t17 - 48 * t32 * t5 + 96 * t35 * t36 + 16 * t4 * t6 + 48 * t43 * t44 in
  let t49 := d * t5 * z in
  let t52 := t5 * t40 in
  let t55 := H * t20 in
  let t65 := t31 * d in
  let t66 := t65 * t2 in
  let t68 := t2 * t31 in
  let t71 := t2 * d in
  let t74 := t20 * t31 in
  let t77 := t20 * d in
  let t80 := 48 * t21 * t5 * t40 + 96 * t71 * t40 - 96 * t77 * t40 - 64 * t43 * t49 - 48 * t43 * t52 + 64 * t55 * t44 - 160 * t55 * t49 + 48 * t55 * t52 - 128 * t68 * z + 64 * t74 * z + 32 * t66 in
  let t83 := c0 in
  let t88 := (H * t5 + M * t5 + 2 * d)^2 in
  let t89 := t88 * t88 in
  let t90 := 1 / t89 in
  let t93 := 1 / (H + M) in
  let t97 := t6 * t6 in
  let t99 := t3 * M in
  let t101 := H * t27 in
  let t105 := t6 * t5 in
  let t111 := d * t105 in
  let t114 := t105 * z in
  let t134 := t31 * t6 in
  let t137 := t14 * z in
  let t140 := t6 * t40 in
  let t143 := t3 * H * t97 - t27 * M * t97 - 8 * t27 * d * t105 + 16 * t27 * t105 * z + 16 * t3 * t105 * z + 40 * t12 * t6 * t40 - t101 * t97 - 8 * t4 * t105 + 16 * t13 * t111 - 32 * t22 * t111 + 16 * t13 * t114 + 16 * t22 * t114 + 32 * t43 * t134 + 48 * t43 * t137 + 40 * t43 * t140 - 32 * t35 * t17 + 16 * t32 * t6 + t99 * t97 in
  let t153 := t21 * d in
  let t165 := H * M in
  let t177 := t31 * t31 in
  let t180 := H * t65 in
  let t183 := H * t31 in
  let t188 := M * t65 in
  let t191 := M * t31 in
  let t194 := 256 * t165 * t44 * z - 128 * t165 * t65 * t5 - 32 * t20 * t65 * t5 - 24 * t21 * t31 * t6 - 40 * t21 * t6 * t40 - 16 * H * t177 - 16 * M * t177 - 120 * t55 * t134 + 128 * t55 * t137 - 40 * t55 * t140 + 48 * t153 * t17 + 128 * t180 * z - 96 * t183 * t40 - 64 * t188 * z + 96 * t191 * t40 - 64 * t68 * t36 + 64 * t66 * t5 + 32 * t71 * t52 - 32 * t77 * t52 in
  let t197 := c1 in
  let t201 := t97 * t5 in
  let t217 := d * t97 in
  let t220 := t2 * t20 in
  let t238 := t31 * t105 in
  let t241 := t111 * z in
  let t244 := -16 * t12 * t105 * t40 + 4 * t12 * t20 * t201 - 4 * t2 * t21 * t201 + 16 * t220 * t97 * z - 8 * t27 * t97 * z - 8 * t3 * t97 * z - 4 * t101 * t201 + 32 * t32 * t105 - 16 * t35 * t114 + 24 * t13 * t217 + 4 * t99 * t201 - 24 * t22 * t217 - 8 * t220 * t217 + 16 * t43 * t238 + 48 * t43 * t241 + 8 * t4 * t97 in
  let t245 := t105 * t40 in
  let t283 := 16 * t21 * t105 * t40 + 64 * t165 * t134 * z - 32 * t165 * t65 * t6 - 48 * t153 * t114 - 64 * t71 * t140 + 64 * t77 * t140 + 32 * t68 * t17 - 96 * t74 * t17 + 64 * t180 * t36 - 64 * t183 * t52 - 64 * t188 * t36 + 64 * t191 * t52 - 48 * t55 * t238 + 16 * t55 * t241 - 16 * t43 * t245 + 16 * t55 * t245 + 32 * t66 * t6 in
  let t286 := c2 in
  -t1 * (t80 + t47) * t83 * t90 * t93 - t1 * (t194 + t143) * t197 * t90 * t93 - t1 * (t283 + t244) * t286 * t90 * t93.
Definition dxux_sing_tangMvt2D (X : list R) (H M d U l eps : R) : R :=
  let r := nth 1 X 0 in let z := nth 0 X 0 in
  dxux_sing_tangMvt2D_body r z H M d U (chiTrunc r l eps) (dchiTrunc r l eps) (d2chiTrunc r l eps).

(** UandPTang.hpp l.265-433 *)
Definition dzux_sing_tangMvt2D_body (r z H M d U c0 c1 c2 c3 : R) : R :=
  let t6 := r * r in
  let t1 := H * H in
  let t2 := t1 * t1 in
  let t3 := t2 * H in
  let t4 := M * M in
  let t5 := t3 * t4 in
  let t7 := t6 * t6 in
  let t8 := t7 * t7 in
  let t9 := t8 * t6 in
  let t12 := t4 * M in
  let t13 := t2 * t12 in
  let t16 := t1 * H in
  let t17 := t4 * t4 in
  let t18 := t16 * t17 in
  let t21 := t17 * M in
  let t22 := t1 * t21 in
  let t25 := t2 * t4 in
  let t26 := d * t8 in
  let t29 := t16 * t12 in
  let t32 := t1 * t17 in
  let t35 := d * d in
  let t36 := t3 * t35 in
  let t37 := t7 * t6 in
  let t40 := t3 * d in
  let t41 := t37 * z in
  let t45 := z * z in
  let t48 := t2 * M in
  let t49 := t35 * t37 in
  let t52 := t37 * t45 in
  let t55 := t16 * t4 in
  let t58 := 144 * t3 * t37 * t45 + 36 * t13 * t9 + 36 * t18 * t9 + 12 * t22 * t9 + 120 * t25 * t26 + 240 * t29 * t26 + 120 * t32 * t26 + 144 * t36 * t37 - 288 * t40 * t41 - 288 * t48 * t49 + 288 * t48 * t52 + 480 * t55 * t49 + 12 * t5 * t9 in
  let t59 := d * t37 in
  let t60 := t59 * z in
  let t65 := t1 * t12 in
  let t72 := H * t17 in
  let t80 := t35 * d in
  let t81 := t2 * t80 in
  let t84 := t2 * t35 in
  let t85 := t7 * z in
  let t88 := t2 * d in
  let t89 := t7 * t45 in
  let t93 := t45 * z in
  let t96 := t16 * M in
  let t97 := t80 * t7 in
  let t100 := 480 * t2 * t7 * t93 + 144 * t21 * t37 * t45 + 912 * t65 * t49 + 144 * t55 * t52 + 144 * t65 * t52 + 288 * t72 * t52 + 288 * t55 * t60 - 576 * t65 * t60 - 576 * t72 * t60 - 960 * t81 * t7 + 2400 * t84 * t85 - 1920 * t88 * t89 + 960 * t96 * t97 in
  let t102 := t35 * t7 in
  let t103 := t102 * z in
  let t106 := d * t7 in
  let t107 := t106 * t45 in
  let t110 := t7 * t93 in
  let t113 := t1 * t4 in
  let t120 := H * t12 in
  let t125 := t17 * d in
  let t131 := t35 * t35 in
  let t132 := t16 * t131 in
  let t135 := t16 * t80 in
  let t136 := t6 * z in
  let t139 := t16 * t35 in
  let t140 := t6 * t45 in
  let t143 := -480 * t17 * t7 * t93 - 3360 * t113 * t103 - 960 * t96 * t103 + 3360 * t113 * t107 + 1920 * t120 * t107 - 960 * t96 * t107 - 960 * t120 * t110 + 960 * t96 * t110 + 1440 * t113 * t97 - 480 * t125 * t89 + 576 * t132 * t6 - 3072 * t135 * t136 + 4416 * t139 * t140 in
  let t144 := t16 * d in
  let t145 := t6 * t93 in
  let t148 := t1 * M in
  let t149 := t80 * t6 in
  let t150 := t149 * z in
  let t154 := t35 * t6 * t45 in
  let t158 := d * t6 * t93 in
  let t161 := H * t4 in
  let t168 := t12 * t35 in
  let t171 := t12 * d in
  let t174 := t1 * t131 in
  let t177 := t1 * t80 in
  let t180 := t1 * t35 in
  let t183 := t4 * t80 in
  let t186 := t4 * t35 in
  let t189 := -1344 * t168 * t140 - 1920 * t144 * t145 + 1920 * t171 * t145 + 384 * t148 * t150 + 1536 * t148 * t154 - 1920 * t148 * t158 + 2304 * t161 * t150 - 4224 * t161 * t154 + 1920 * t161 * t158 + 384 * t174 * z - 768 * t177 * t45 + 384 * t180 * t93 + 384 * t183 * t45 - 384 * t186 * t93 in
  let t196 := H * t6 + M * t6 + 2 * d in
  let t197 := t196 * t196 in
  let t198 := t197 * t197 in
  let t200 := 1 / t198 / t196 in
  let t202 := 1 / (H + M) in
  let t204 := c0 in
  let t207 := t2 * t16 in
  let t208 := t8 * t7 in
  let t211 := t2 * t1 in
  let t212 := t211 * M in
  let t223 := t17 * t4 in
  let t224 := H * t223 in
  let t227 := t211 * d in
  let t233 := t3 * M in
  let t234 := d * t9 in
  let t238 := t9 * z in
  let t251 := H * t21 in
  let t261 := t8 * z in
  let t264 := -6 * t223 * t9 * z + 12 * t233 * t238 - 72 * t25 * t234 - 90 * t251 * t234 - 240 * t29 * t234 - 246 * t32 * t234 + 6 * t25 * t238 - 12 * t251 * t238 - 6 * t32 * t238 + 348 * t40 * t261 - 24 * t36 * t8 in
  let t269 := t35 * t8 in
  let t272 := t26 * z in
  let t275 := t8 * t45 in
  let t297 := t21 * d in
  let t312 := t80 * t37 in
  let t315 := t49 * z in
  let t318 := -432 * t2 * t37 * t93 - 144 * t21 * t8 * t45 - 60 * t297 * t261 - 360 * t72 * t269 + 516 * t72 * t272 - 288 * t72 * t275 + 480 * t96 * t312 + 96 * t96 * t315 + 720 * t81 * t37 - 1152 * t84 * t41 + 1344 * t88 * t52 in
  let t321 := t59 * t45 in
  let t324 := t37 * t93 in
  let t341 := t17 * t35 in
  let t358 := t131 * t7 in
  let t361 := t97 * z in
  let t364 := t102 * t45 in
  let t367 := t106 * t93 in
  let t372 := 432 * t17 * t37 * t93 + 480 * t144 * t110 + 48 * t125 * t52 + 1584 * t132 * t7 - 1728 * t135 * t85 + 384 * t139 * t89 - 2880 * t148 * t358 + 5376 * t148 * t361 - 2976 * t148 * t364 + 480 * t148 * t367 - 720 * t161 * t358 in
  let t380 := t12 * t80 in
  let t387 := t131 * d in
  let t388 := t1 * t387 in
  let t397 := H * M in
  let t401 := -288 * t397 * t387 * t6 - 480 * t171 * t110 + 3744 * t174 * t136 - 5376 * t177 * t140 + 2496 * t180 * t145 - 864 * t161 * t361 - 1536 * t161 * t364 - 480 * t161 * t367 + 1824 * t168 * t89 - 480 * t380 * t85 - 288 * t388 * t6 in
  let t409 := t4 * t131 in
  let t416 := H * t387 in
  let t419 := H * t131 in
  let t422 := H * t80 in
  let t425 := M * t387 in
  let t428 := M * t131 in
  let t431 := M * t80 in
  let t434 := -3264 * t397 * t131 * t6 * z + 3264 * t397 * t149 * t45 - 480 * t409 * t136 + 2112 * t183 * t140 - 2496 * t186 * t145 - 192 * t416 * z + 768 * t419 * t45 - 384 * t422 * t93 - 192 * t425 * z - 384 * t428 * t45 + 384 * t431 * t93 in
  let t439 := c1 in
  let t443 := t8 * t37 in
  let t463 := d * t208 in
  let t467 := t208 * z in
  let t491 := -12 * t223 * t208 * z + 96 * t233 * t467 - 24 * t40 * t238 - 72 * t25 * t463 + 156 * t25 * t467 - 60 * t251 * t463 - 96 * t251 * t467 - 936 * t29 * t463 - 636 * t32 * t463 - 156 * t32 * t467 + 672 * t36 * t9 in
  let t496 := t35 * t9 in
  let t499 := t234 * z in
  let t502 := t9 * t45 in
  let t538 := t80 * t8 in
  let t541 := t269 * z in
  let t544 := 192 * t2 * t8 * t93 + 72 * t21 * t9 * t45 - 120 * t297 * t238 + 672 * t84 * t261 - 384 * t88 * t275 - 240 * t72 * t496 - 1176 * t72 * t499 + 168 * t72 * t502 - 480 * t96 * t538 + 3264 * t96 * t541 + 1440 * t81 * t8 in
  let t547 := t26 * t45 in
  let t550 := t8 * t93 in
  let t583 := t131 * t37 in
  let t586 := t312 * z in
  let t589 := t49 * t45 in
  let t592 := t59 * t93 in
  let t597 := -192 * t17 * t8 * t93 + 192 * t125 * t275 + 960 * t132 * t37 + 3264 * t135 * t41 - 1728 * t139 * t52 + 384 * t144 * t324 - 2208 * t148 * t583 + 1344 * t148 * t586 + 2880 * t148 * t589 + 384 * t148 * t592 - 480 * t161 * t583 in
  let t645 := -5376 * t397 * t358 * z + 5376 * t397 * t97 * t45 + 768 * t186 * t110 - 384 * t416 * t136 - 384 * t425 * t136 + 2688 * t419 * t140 - 1920 * t428 * t140 - 1536 * t422 * t145 + 1536 * t431 * t145 - 2304 * t183 * t89 - 960 * t409 * t85 in
  let t650 := c2 in
  let t654 := t8 * t8 in
  let t669 := d * t443 in
  let t672 := t443 * z in
  let t691 := -8 * t13 * t654 - 28 * t18 * t654 + 4 * t207 * t654 + 192 * t36 * t208 + 20 * t212 * t654 - 12 * t22 * t654 + 48 * t227 * t443 + 144 * t233 * t669 + 48 * t233 * t672 + 48 * t25 * t669 + 96 * t25 * t672 - 48 * t251 * t672 - 144 * t29 * t669 - 96 * t32 * t669 - 96 * t32 * t672 + 96 * t40 * t467 + 24 * t5 * t654 in
  let t695 := t35 * t208 in
  let t698 := t463 * z in
  let t701 := t208 * t45 in
  let t732 := -64 * t2 * t9 * t93 - 48 * t21 * t208 * t45 - 48 * t3 * t208 * t45 + 576 * t84 * t238 + 288 * t48 * t695 + 480 * t48 * t698 - 48 * t48 * t701 - 192 * t88 * t502 - 192 * t55 * t695 + 288 * t55 * t698 + 96 * t55 * t701 - 288 * t65 * t695 - 480 * t65 * t698 + 96 * t65 * t701 - 384 * t72 * t698 - 48 * t72 * t701 + 320 * t81 * t9 in
  let t734 := t80 * t9 in
  let t737 := t496 * z in
  let t740 := t234 * t45 in
  let t743 := t9 * t93 in
  let t772 := t538 * z in
  let t775 := -192 * t148 * t131 * t8 + 64 * t17 * t9 * t93 - 384 * t113 * t734 - 576 * t113 * t737 + 576 * t113 * t740 - 1152 * t120 * t737 - 192 * t120 * t740 + 128 * t120 * t743 - 384 * t125 * t502 + 192 * t132 * t8 + 1152 * t135 * t261 - 384 * t144 * t550 + 384 * t148 * t772 + 64 * t96 * t734 + 1152 * t96 * t737 + 192 * t96 * t740 - 128 * t96 * t743 in
  let t779 := t26 * t93 in
  let t814 := 1152 * t148 * t269 * t45 + 768 * t397 * t312 * t45 - 768 * t397 * t583 * z - 512 * t422 * t110 + 512 * t431 * t110 - 384 * t148 * t779 - 1536 * t161 * t772 + 384 * t161 * t779 - 1152 * t168 * t275 + 384 * t171 * t550 + 768 * t174 * t41 + 768 * t177 * t52 - 768 * t180 * t324 - 1536 * t183 * t52 + 768 * t186 * t324 + 768 * t419 * t89 - 768 * t428 * t89 in
  let t818 := c3 in
  -U * (t189 + t143 + t100 + t58) * t200 * t202 * t204 / 6 - U * (42 * t233 * t234 + 3 * t207 * t208 + 6 * t212 * t208 - 3 * t5 * t208 - 24 * t13 * t208 - 39 * t18 * t208 - 30 * t22 * t208 - 9 * t224 * t208 + 30 * t227 * t9 + 528 * t96 * t321 - 864 * t96 * t324 - 3168 * t113 * t312 + 2928 * t113 * t315 - 2928 * t113 * t321 - 720 * t120 * t312 + 1440 * t120 * t315 - 2064 * t120 * t321 + 864 * t120 * t324 - 240 * t341 * t41 + 408 * t48 * t269 + 60 * t48 * t272 - 288 * t48 * t275 - 480 * t55 * t269 - 288 * t55 * t272 - 144 * t55 * t275 - 1272 * t65 * t269 + 576 * t65 * t272 - 144 * t65 * t275 + t434 + t372 + t264 + t401 + 6 * t211 * t9 * z - 144 * t3 * t8 * t45 + t318) * t439 * t200 * t202 / 6 - U * (t491 + t645 - 8256 * t161 * t586 + 4032 * t161 * t589 - 384 * t161 * t592 - 960 * t380 * t41 - 576 * t168 * t52 - 384 * t171 * t324 - 192 * t388 * t7 + 3264 * t174 * t85 - 768 * t180 * t110 + t597 + 12 * t211 * t208 * z + 72 * t3 * t9 * t45 + t544 - 480 * t120 * t538 - 4800 * t120 * t541 + 1344 * t120 * t547 - 384 * t120 * t550 - 480 * t341 * t261 + 192 * t96 * t547 + 384 * t96 * t550 - 3552 * t113 * t538 - 1728 * t113 * t541 + 1728 * t113 * t547 + 420 * t233 * t463 + 12 * t207 * t443 + 54 * t212 * t443 + 42 * t5 * t443 - 84 * t13 * t443 - 144 * t18 * t443 - 66 * t22 * t443 - 6 * t224 * t443 + 132 * t227 * t208 + 912 * t48 * t496 + 840 * t48 * t499 + 168 * t48 * t502 - 1776 * t55 * t496 + 816 * t55 * t499 + 144 * t55 * t502 - 2256 * t65 * t496 - 1104 * t65 * t499 + 144 * t65 * t502 - 192 * t397 * t387 * t7) * t650 * t200 * t202 / 6 - U * (t814 + t775 + t732 + t691) * t818 * t200 * t202 / 6.
Definition dzux_sing_tangMvt2D (X : list R) (H M d U l eps : R) : R :=
  let r := nth 1 X 0 in let z := nth 0 X 0 in
  dzux_sing_tangMvt2D_body r z H M d U (chiTrunc r l eps) (dchiTrunc r l eps) (d2chiTrunc r l eps) (d3chiTrunc r l eps).

(** UandPTang.hpp l.435-464 *)
Definition dxuz_sing_tangMvt2D_body (r z H M d U c0 c1 : R) : R :=
  let t3 := r * r in
  let t1 := H * H in
  let t2 := t1 * H in
  let t4 := t3 * t3 in
  let t7 := M * M in
  let t8 := t7 * M in
  let t17 := H * M in
  let t21 := t7 * d in
  let t27 := d * d in
  let t28 := H * t27 in
  let t30 := d * H in
  let t33 := d * M in
  let t41 := H * t3 + M * t3 + 2 * d in
  let t42 := t41 * t41 in
  let t44 := 1 / t42 / t41 in
  let t46 := 1 / (H + M) in
  let t48 := c0 in
  let t51 := t4 * t3 in
  let t71 := t3 * z in
  let t79 := -H * t7 * t51 - t1 * M * t51 + 4 * M * t27 * t3 - 4 * t17 * d * t4 + 4 * t1 * t4 * z - 4 * t7 * t4 * z + t2 * t51 + 4 * t21 * t4 - 4 * t28 * t3 + 8 * t30 * t71 - 8 * t33 * t71 + t8 * t51 in
  let t81 := c1 in
  -4 * U * (2 * t1 * d * t3 - 6 * t17 * d * t3 - 6 * t1 * t3 * z + 6 * t7 * t3 * z - 2 * t2 * t4 - 4 * t21 * t3 + 4 * t30 * z - 4 * t33 * z - 2 * t8 * t4 - 4 * t28) * t44 * t46 * t48 - 4 * U * t79 * t81 * t44 * t46.
Definition dxuz_sing_tangMvt2D (X : list R) (H M d U l eps : R) : R :=
  let r := nth 1 X 0 in let z := nth 0 X 0 in
  dxuz_sing_tangMvt2D_body r z H M d U (chiTrunc r l eps) (dchiTrunc r l eps).

(** UandPTang.hpp l.466-539 *)
Definition dzuz_sing_tangMvt2D_body (r z H M d U c0 c1 c2 : R) : R :=
  let t5 := r * r in
  let t1 := U * r in
  let t2 := H * H in
  let t3 := t2 * t2 in
  let t4 := t3 * d in
  let t6 := t5 * t5 in
  let t12 := t2 * H in
  let t13 := t12 * M in
  let t14 := d * t6 in
  let t17 := t6 * z in
  let t20 := M * M in
  let t21 := t20 * M in
  let t22 := H * t21 in
  let t27 := t20 * t20 in
  let t31 := d * d in
  let t32 := t12 * t31 in
  let t35 := t12 * d in
  let t36 := t5 * z in
  let t40 := z * z in
  let t43 := t2 * M in
  let t44 := t31 * t5 in
  let t47 := -48 * t12 * t5 * t40 - 16 * t27 * t6 * z - 16 * t3 * t6 * z - 16 * t13 * t14 - 16 * t13 * t17 + 32 * t22 * t14 - 16 * t22 * t17 - 48 * t32 * t5 + 96 * t35 * t36 + 16 * t4 * t6 + 48 * t43 * t44 in
  let t49 := d * t5 * z in
  let t52 := t5 * t40 in
  let t55 := H * t20 in
  let t65 := t31 * d in
  let t66 := t65 * t2 in
  let t68 := t2 * t31 in
  let t71 := t2 * d in
  let t74 := t20 * t31 in
  let t77 := t20 * d in
  let t80 := 48 * t21 * t5 * t40 + 96 * t71 * t40 - 96 * t77 * t40 - 64 * t43 * t49 - 48 * t43 * t52 + 64 * t55 * t44 - 160 * t55 * t49 + 48 * t55 * t52 - 128 * t68 * z + 64 * t74 * z + 32 * t66 in
  let t87 := (H * t5 + M * t5 + 2 * d)^2 in
  let t88 := t87 * t87 in
  let t89 := 1 / t88 in
  let t91 := 1 / (H + M) in
  let t93 := c0 in
  let t97 := t6 * t6 in
  let t99 := t3 * M in
  let t101 := H * t27 in
  let t105 := t6 * t5 in
  let t111 := d * t105 in
  let t114 := t105 * z in
  let t134 := t31 * t6 in
  let t137 := t14 * z in
  let t140 := t6 * t40 in
  let t143 := t3 * H * t97 - t27 * M * t97 - 8 * t27 * d * t105 + 16 * t27 * t105 * z + 16 * t3 * t105 * z + 40 * t12 * t6 * t40 - t101 * t97 - 8 * t4 * t105 + 16 * t13 * t111 - 32 * t22 * t111 + 16 * t13 * t114 + 16 * t22 * t114 + 32 * t43 * t134 + 48 * t43 * t137 + 40 * t43 * t140 - 32 * t35 * t17 + 16 * t32 * t6 + t99 * t97 in
  let t153 := t21 * d in
  let t165 := H * M in
  let t177 := t31 * t31 in
  let t180 := H * t65 in
  let t183 := H * t31 in
  let t188 := M * t65 in
  let t191 := M * t31 in
  let t194 := 256 * t165 * t44 * z - 128 * t165 * t65 * t5 - 32 * t20 * t65 * t5 - 24 * t21 * t31 * t6 - 40 * t21 * t6 * t40 - 16 * H * t177 - 16 * M * t177 - 120 * t55 * t134 + 128 * t55 * t137 - 40 * t55 * t140 + 48 * t153 * t17 + 128 * t180 * z - 96 * t183 * t40 - 64 * t188 * z + 96 * t191 * t40 - 64 * t68 * t36 + 64 * t66 * t5 + 32 * t71 * t52 - 32 * t77 * t52 in
  let t197 := c1 in
  let t201 := t97 * t5 in
  let t217 := d * t97 in
  let t220 := t2 * t20 in
  let t238 := t31 * t105 in
  let t241 := t111 * z in
  let t244 := -16 * t12 * t105 * t40 + 4 * t12 * t20 * t201 - 4 * t2 * t21 * t201 + 16 * t220 * t97 * z - 8 * t27 * t97 * z - 8 * t3 * t97 * z - 4 * t101 * t201 + 32 * t32 * t105 - 16 * t35 * t114 + 24 * t13 * t217 + 4 * t99 * t201 - 24 * t22 * t217 - 8 * t220 * t217 + 16 * t43 * t238 + 48 * t43 * t241 + 8 * t4 * t97 in
  let t245 := t105 * t40 in
  let t283 := 16 * t21 * t105 * t40 + 64 * t165 * t134 * z - 32 * t165 * t65 * t6 - 48 * t153 * t114 - 64 * t71 * t140 + 64 * t77 * t140 + 32 * t68 * t17 - 96 * t74 * t17 + 64 * t180 * t36 - 64 * t183 * t52 - 64 * t188 * t36 + 64 * t191 * t52 - 48 * t55 * t238 + 16 * t55 * t241 - 16 * t43 * t245 + 16 * t55 * t245 + 32 * t66 * t6 in
  let t286 := c2 in
  t1 * (t80 + t47) * t89 * t91 * t93 + t1 * (t194 + t143) * t197 * t89 * t91 + t1 * (t283 + t244) * t286 * t89 * t91.
Definition dzuz_sing_tangMvt2D (X : list R) (H M d U l eps : R) : R :=
  let r := nth 1 X 0 in let z := nth 0 X 0 in
  dzuz_sing_tangMvt2D_body r z H M d U (chiTrunc r l eps) (dchiTrunc r l eps) (d2chiTrunc r l eps).

(** UandPTang.hpp l.581-628 *)
Definition U0_tang3D_body (r2 r z H M d U c0 c1 : R) : R :=
  let t3 := r2 in
  let t1 := H * H in
  let t2 := t1 * t1 in
  let t4 := t3 * t3 in
  let t5 := t4 * t3 in
  let t8 := t1 * H in
  let t9 := t8 * M in
  let t12 := M * M in
  let t13 := t12 * M in
  let t14 := H * t13 in
  let t17 := t12 * t12 in
  let t26 := t1 * M in
  let t27 := d * t4 in
  let t30 := t4 * z in
  let t33 := H * t12 in
  let t38 := t13 * d in
  let t44 := d * d in
  let t48 := 30 * t8 * d * t4 + 60 * t1 * t44 * t3 - 56 * t13 * t4 * z - 56 * t8 * t4 * z + 8 * t14 * t5 - 5 * t17 * t5 + 5 * t2 * t5 + 26 * t26 * t27 - 24 * t26 * t30 - 2 * t33 * t27 - 24 * t33 * t30 + 26 * t38 * t4 - 8 * t9 * t5 in
  let t49 := t1 * d in
  let t50 := t3 * z in
  let t54 := z * z in
  let t57 := H * M in
  let t65 := t12 * t44 in
  let t74 := t44 * d in
  let t77 := H * t44 in
  let t80 := H * d in
  let t85 := M * t44 in
  let t88 := M * d in
  let t91 := -208 * d * t3 * t57 * z + 16 * d * t12 * t50 + 72 * t1 * t3 * t54 - 72 * t12 * t3 * t54 + 104 * t3 * t44 * t57 + 40 * H * t74 + 40 * M * t74 - 4 * t3 * t65 - 128 * t49 * t50 - 48 * t54 * t80 + 48 * t54 * t88 - 32 * t77 * z - 128 * t85 * z in
  let t94 := 1 / (H + M) in
  let t99 := H * t3 + M * t3 + 2 * d in
  let t100 := t99 * t99 in
  let t102 := 1 / t100 / t99 in
  let t103 := c0 in
  let t106 := t4 * t4 in
  let t114 := d * t5 in
  let t117 := t5 * z in
  let t147 := t3 * t54 in
  let t154 := -48 * t1 * t4 * t54 + 48 * t12 * t4 * t54 + 24 * t13 * t5 * z - 96 * t27 * t57 * z + 48 * t4 * t44 * t57 + 24 * t5 * t8 * z - 12 * t106 * t14 + 12 * t106 * t9 + 48 * t114 * t26 - 24 * t114 * t33 - 24 * t117 * t26 - 24 * t117 * t33 - 96 * t147 * t80 + 96 * t147 * t88 + 96 * t30 * t49 - 24 * t38 * t5 - 48 * t4 * t65 + 96 * t50 * t77 - 96 * t50 * t85 in
  let t155 := c1 in
  -(t91 + t48) * t94 * t102 * t103 / 5 - t154 * t155 * t102 * t94 / 5.
Definition U0_tang3D (X : list R) (H M d U l eps : R) : R :=
  let r2 := nth 0 X 0 * nth 0 X 0 + nth 1 X 0 * nth 1 X 0 in let r := sqrt r2 in let z := nth 2 X 0 in
  U0_tang3D_body r2 r z H M d U (chiTrunc r l eps) (dchiTrunc r l eps).

(** UandPTang.hpp l.630-648 *)
Definition V0_tang3D_body (r2 r z H M d U c0 : R) : R :=
  let t3 := r2 in
  let t1 := H * H in
  let t4 := t3 * t3 in
  let t10 := M * M in
  let t23 := H * M in
  let t36 := d * d in
  let t42 := z * z in
  let t52 := -16 * H * d * z + 5 * H * t1 * t4 - 11 * H * t10 * t4 - 64 * M * d * z + 11 * M * t1 * t4 - 5 * M * t10 * t4 + 20 * d * t1 * t3 - 12 * d * t10 * t3 + 32 * d * t23 * t3 - 8 * t1 * t3 * z - 8 * t10 * t3 * z - 64 * t23 * t3 * z + 20 * H * t36 - 24 * H * t42 + 20 * M * t36 + 24 * M * t42 in
  let t53 := c0 in
  let t61 := (H * t3 + M * t3 + 2 * d)^2 in
  t52 * t53 / (H + M) / t61 / 5.
Definition V0_tang3D (X : list R) (H M d U l eps : R) : R :=
  let r2 := nth 0 X 0 * nth 0 X 0 + nth 1 X 0 * nth 1 X 0 in let r := sqrt r2 in let z := nth 2 X 0 in
  V0_tang3D_body r2 r z H M d U (chiTrunc r l eps).

(** UandPTang.hpp l.650-729 *)
Definition W0_tang3D_body (r2 r z H M d U c0 c1 c2 : R) : R :=
  let t1 := r2 in
  let t2 := M * t1 in
  let t4 := t2 + 2 * z in
  let t5 := H * H in
  let t6 := t5 * t5 in
  let t7 := t6 * M in
  let t8 := t1 * t1 in
  let t9 := t8 * t1 in
  let t12 := t5 * H in
  let t13 := M * M in
  let t14 := t12 * t13 in
  let t17 := t13 * M in
  let t18 := t5 * t17 in
  let t24 := t12 * M in
  let t25 := d * t8 in
  let t28 := t8 * z in
  let t31 := t5 * t13 in
  let t36 := H * t17 in
  let t41 := t12 * d in
  let t42 := t1 * z in
  let t46 := z * z in
  let t49 := t5 * M in
  let t50 := d * d in
  let t51 := t50 * t1 in
  let t55 := d * t1 * z in
  let t58 := -32 * t12 * t1 * t46 + 16 * t6 * t8 * z - 40 * t14 * t9 - 20 * t18 * t9 - 136 * t24 * t25 + 56 * t24 * t28 - 160 * t31 * t25 - 24 * t36 * t25 + 64 * t31 * t28 + 24 * t36 * t28 - 32 * t41 * t42 - 208 * t49 * t51 + 224 * t49 * t55 - 20 * t7 * t9 in
  let t59 := t1 * t46 in
  let t62 := H * t13 in
  let t69 := t17 * t50 in
  let t72 := t17 * d in
  let t78 := t5 * t50 in
  let t81 := t5 * d in
  let t84 := H * M in
  let t85 := t50 * d in
  let t91 := t13 * t85 in
  let t93 := t13 * t50 in
  let t96 := t13 * d in
  let t99 := 32 * t17 * t1 * t46 + 32 * t84 * t50 * z + 32 * t69 * t1 - 64 * t72 * t42 + 128 * t81 * t46 - 128 * t96 * t46 - 32 * t49 * t59 - 224 * t62 * t51 + 192 * t62 * t55 + 32 * t62 * t59 - 128 * t78 * z - 32 * t84 * t85 + 256 * t93 * z - 128 * t91 in
  let t106 := (t1 * H + 2 * d + t2)^2 in
  let t107 := t106 * t106 in
  let t108 := 1 / t107 in
  let t110 := 1 / (H + M) in
  let t112 := c0 in
  let t116 := t8 * t8 in
  let t125 := t13 * t13 in
  let t126 := H * t125 in
  let t129 := t125 * M in
  let t138 := d * t9 in
  let t141 := t9 * z in
  let t152 := t125 * d in
  let t166 := t50 * t8 in
  let t169 := 5 * t6 * H * t116 + 40 * t6 * d * t9 + 32 * t12 * t8 * t46 + 120 * t12 * t50 * t8 - 6 * t125 * t9 * z - 22 * t6 * t9 * z - 3 * t126 * t116 - 2 * t129 * t116 + 38 * t14 * t116 + 16 * t18 * t116 + 26 * t7 * t116 + 202 * t24 * t138 + 174 * t31 * t138 - 2 * t36 * t138 - 56 * t24 * t141 - 52 * t31 * t141 - 24 * t36 * t141 - 14 * t152 * t9 + 516 * t49 * t166 - 60 * t41 * t28 in
  let t170 := t25 * z in
  let t173 := t8 * t46 in
  let t204 := t50 * t50 in
  let t207 := H * t85 in
  let t210 := H * t50 in
  let t215 := M * t85 in
  let t218 := M * t50 in
  let t221 := 160 * t5 * t85 * t1 + 472 * t84 * t85 * t1 - 32 * t17 * t8 * t46 - 464 * t84 * t51 * z + 80 * H * t204 + 80 * M * t204 - 72 * t91 * t1 + 160 * t62 * t166 - 276 * t49 * t170 - 180 * t62 * t170 + 32 * t49 * t173 - 32 * t62 * t173 + 112 * t207 * z - 128 * t210 * t46 - 272 * t215 * z + 128 * t218 * t46 + 36 * t72 * t28 + 24 * t78 * t42 - 40 * t93 * t42 - 76 * t69 * t8 in
  let t225 := c1 in
  let t229 := t116 * t1 in
  let t243 := d * t116 in
  let t246 := t116 * z in
  let t267 := t50 * t9 in
  let t270 := t138 * z in
  let t273 := 4 * t125 * t116 * z + 12 * t6 * t116 * z - 16 * t12 * t9 * t46 - 20 * t152 * t116 - 8 * t126 * t229 - 2 * t129 * t229 + 8 * t14 * t229 + 72 * t41 * t141 - 4 * t18 * t229 + 6 * t7 * t229 + 36 * t24 * t243 + 8 * t24 * t246 + 20 * t31 * t243 - 36 * t36 * t243 - 16 * t31 * t246 - 8 * t36 * t246 + 72 * t49 * t267 + 8 * t49 * t270 in
  let t274 := t9 * t46 in
  let t314 := -64 * t84 * t166 * z + 16 * t17 * t9 * t46 + 48 * t84 * t85 * t8 - 8 * t72 * t141 - 64 * t81 * t173 + 64 * t96 * t173 + 96 * t207 * t42 - 64 * t210 * t59 - 96 * t215 * t42 + 64 * t218 * t59 - 16 * t62 * t267 - 72 * t62 * t270 - 16 * t49 * t274 + 16 * t62 * t274 + 144 * t78 * t28 - 80 * t93 * t28 - 56 * t69 * t9 - 48 * t91 * t8 in
  let t318 := c2 in
  t4 * (t99 + t58) * r * t108 * t110 * t112 / 5 + t4 * (t221 + t169) * r * t225 * t108 * t110 / 5 + t4 * (t314 + t273) * r * t318 * t108 * t110 / 5.
Definition W0_tang3D (X : list R) (H M d U l eps : R) : R :=
  let r2 := nth 0 X 0 * nth 0 X 0 + nth 1 X 0 * nth 1 X 0 in let r := sqrt r2 in let z := nth 2 X 0 in
  W0_tang3D_body r2 r z H M d U (chiTrunc r l eps) (dchiTrunc r l eps) (d2chiTrunc r l eps).

(** UandPTang.hpp l.731-804 *)
Definition drU0_tang3D_body (r2 r z H M d U c0 c1 c2 : R) : R :=
  let t3 := r2 in
  let t1 := H * H in
  let t2 := t1 * t1 in
  let t4 := t3 * t3 in
  let t8 := t1 * H in
  let t9 := t8 * M in
  let t10 := d * t4 in
  let t13 := t4 * z in
  let t16 := M * M in
  let t17 := t1 * t16 in
  let t22 := t16 * M in
  let t23 := H * t22 in
  let t28 := t16 * t16 in
  let t29 := t28 * d in
  let t35 := t8 * d in
  let t36 := t3 * z in
  let t40 := z * z in
  let t43 := t1 * M in
  let t44 := d * d in
  let t45 := t44 * t3 in
  let t49 := d * t3 * z in
  let t52 := 56 * t2 * t4 * z + 56 * t28 * t4 * z - 144 * t8 * t3 * t40 - 24 * t17 * t10 + 24 * t23 * t10 - 104 * t9 * t10 + 48 * t17 * t13 + 80 * t23 * t13 + 80 * t9 * t13 - 56 * t29 * t4 + 32 * t35 * t36 - 224 * t43 * t45 + 576 * t43 * t49 in
  let t53 := t3 * t40 in
  let t56 := H * t16 in
  let t63 := t22 * t44 in
  let t66 := t22 * d in
  let t72 := t1 * t44 in
  let t75 := t1 * d in
  let t78 := H * M in
  let t79 := t44 * d in
  let t85 := t16 * t79 in
  let t87 := t16 * t44 in
  let t90 := t16 * d in
  let t93 := 144 * t22 * t3 * t40 + 64 * t78 * t44 * z + 112 * t63 * t3 - 256 * t66 * t36 + 288 * t75 * t40 - 288 * t90 * t40 - 144 * t43 * t53 - 208 * t56 * t45 + 288 * t56 * t49 + 144 * t56 * t53 - 160 * t72 * z - 32 * t78 * t79 + 416 * t87 * z - 128 * t85 in
  let t100 := (t3 * H + M * t3 + 2 * d)^2 in
  let t101 := t100 * t100 in
  let t102 := 1 / t101 in
  let t104 := 1 / (H + M) in
  let t106 := c0 in
  let t110 := t4 * t4 in
  let t113 := t2 * M in
  let t116 := t8 * t16 in
  let t119 := t1 * t22 in
  let t122 := H * t28 in
  let t129 := t4 * t3 in
  let t135 := d * t129 in
  let t138 := t129 * z in
  let t163 := t44 * t4 in
  let t166 := t10 * z in
  let t169 := -56 * t28 * t129 * z + 120 * t8 * t4 * t40 + 120 * t8 * t44 * t4 + 16 * t29 * t129 - 192 * t35 * t13 + 24 * t17 * t135 - 56 * t23 * t135 - 48 * t17 * t138 - 80 * t23 * t138 + 456 * t43 * t163 - 528 * t43 * t166 in
  let t171 := t4 * t40 in
  let t207 := t44 * t44 in
  let t210 := H * t79 in
  let t213 := H * t44 in
  let t218 := M * t79 in
  let t221 := M * t44 in
  let t224 := 480 * t78 * t79 * t3 - 960 * t78 * t45 * z + 80 * H * t207 + 80 * M * t207 + 128 * t210 * z - 288 * t213 * t40 - 448 * t218 * z + 288 * t221 * t40 - 160 * t85 * t3 + 96 * t87 * t36 - 96 * t90 * t53 in
  let t228 := c1 in
  let t232 := t110 * t3 in
  let t244 := d * t110 in
  let t264 := t44 * t129 in
  let t267 := t135 * z in
  let t270 := t129 * t40 in
  let t273 := -48 * t17 * t110 * z + 24 * t2 * t110 * z + 24 * t28 * t110 * z - 48 * t8 * t129 * t40 - 24 * t29 * t110 + 12 * t113 * t232 + 12 * t116 * t232 - 12 * t119 * t232 - 12 * t122 * t232 + 144 * t35 * t138 + 24 * t17 * t244 - 72 * t23 * t244 + 72 * t9 * t244 + 144 * t43 * t264 - 48 * t43 * t267 - 48 * t43 * t270 in
  let t311 := 48 * t22 * t129 * t40 - 192 * t78 * t163 * z + 96 * t78 * t79 * t4 - 96 * t63 * t129 + 288 * t72 * t13 - 96 * t87 * t13 + 48 * t66 * t138 - 192 * t75 * t171 + 192 * t90 * t171 + 192 * t210 * t36 - 192 * t213 * t53 - 192 * t218 * t36 + 192 * t221 * t53 - 48 * t56 * t264 - 144 * t56 * t267 + 48 * t56 * t270 - 96 * t85 * t4 in
  let t314 := c2 in
  -2 / 5 * r * (t93 + t52) * t102 * t104 * t106 - 2 / 5 * r * (160 * t1 * t79 * t3 - 120 * t22 * t4 * t40 + 48 * t66 * t13 - 48 * t56 * t163 - 288 * t56 * t166 + 120 * t43 * t171 - 120 * t56 * t171 - 96 * t72 * t36 - 48 * t63 * t4 + 96 * t75 * t53 + t224 + 5 * t2 * H * t110 - 5 * t28 * M * t110 + 40 * t2 * d * t129 - 56 * t2 * t129 * z + 9 * t113 * t110 + 4 * t116 * t110 - 4 * t119 * t110 - 9 * t122 * t110 + 136 * t9 * t135 - 80 * t9 * t138 + t169) * t228 * t102 * t104 - 2 / 5 * r * (t311 + t273) * t314 * t102 * t104.
Definition drU0_tang3D (X : list R) (H M d U l eps : R) : R :=
  let r2 := nth 0 X 0 * nth 0 X 0 + nth 1 X 0 * nth 1 X 0 in let r := sqrt r2 in let z := nth 2 X 0 in
  drU0_tang3D_body r2 r z H M d U (chiTrunc r l eps) (dchiTrunc r l eps) (d2chiTrunc r l eps).

(** UandPTang.hpp l.806-837 *)
Definition dzU0_tang3D_body (r2 r z H M d U c0 c1 : R) : R :=
  let t3 := r2 in
  let t1 := H * H in
  let t2 := t1 * H in
  let t4 := t3 * t3 in
  let t7 := t1 * M in
  let t10 := M * M in
  let t11 := H * t10 in
  let t14 := t10 * M in
  let t17 := t1 * d in
  let t23 := H * M in
  let t33 := d * d in
  let t34 := H * t33 in
  let t36 := H * d in
  let t39 := M * t33 in
  let t41 := M * d in
  let t44 := -2 * t10 * d * t3 + 26 * t23 * d * t3 - 18 * t1 * t3 * z + 18 * t10 * t3 * z + 3 * t11 * t4 + 7 * t14 * t4 + 16 * t17 * t3 + 7 * t2 * t4 + 12 * t36 * z + 3 * t7 * t4 - 12 * t41 * z + 4 * t34 + 16 * t39 in
  let t48 := t3 * H + M * t3 + 2 * d in
  let t49 := t48 * t48 in
  let t51 := 1 / t49 / t48 in
  let t54 := 1 / (H + M) in
  let t55 := c0 in
  let t58 := t4 * t3 in
  let t80 := t3 * z in
  let t87 := 12 * t23 * d * t4 + 12 * t1 * t4 * z - 12 * t10 * t4 * z + 3 * t11 * t58 - 3 * t14 * t58 - 12 * t17 * t4 - 3 * t2 * t58 - 12 * t34 * t3 + 12 * t39 * t3 + 24 * t36 * t80 - 24 * t41 * t80 + 3 * t7 * t58 in
  let t88 := c1 in
  8 / 5 * t44 * t51 * t54 * t55 + 8 / 5 * t87 * t88 * t51 * t54.
Definition dzU0_tang3D (X : list R) (H M d U l eps : R) : R :=
  let r2 := nth 0 X 0 * nth 0 X 0 + nth 1 X 0 * nth 1 X 0 in let r := sqrt r2 in let z := nth 2 X 0 in
  dzU0_tang3D_body r2 r z H M d U (chiTrunc r l eps) (dchiTrunc r l eps).

(** UandPTang.hpp l.839-878 *)
Definition drV0_tang3D_body (r2 r z H M d U c0 c1 : R) : R :=
  let t3 := r2 in
  let t1 := H * H in
  let t2 := t1 * H in
  let t7 := t1 * M in
  let t8 := d * t3 in
  let t11 := t3 * z in
  let t14 := M * M in
  let t15 := H * t14 in
  let t20 := t14 * M in
  let t21 := t20 * d in
  let t27 := t1 * d in
  let t30 := z * z in
  let t33 := H * M in
  let t34 := d * d in
  let t40 := t14 * t34 in
  let t42 := t14 * d in
  let t47 := 32 * t33 * d * z + 8 * t2 * t3 * z + 8 * t20 * t3 * z + 48 * t1 * t30 + 72 * t15 * t11 + 72 * t7 * t11 - 48 * t14 * t30 - 64 * t15 * t8 - 8 * t21 * t3 + 16 * t27 * z - 16 * t33 * t34 + 112 * t42 * z - 8 * t7 * t8 - 64 * t40 in
  let t52 := t3 * H + M * t3 + 2 * d in
  let t53 := t52 * t52 in
  let t55 := 1 / t53 / t52 in
  let t57 := 1 / (H + M) in
  let t59 := c0 in
  let t62 := t1 * t1 in
  let t63 := t3 * t3 in
  let t64 := t63 * t3 in
  let t73 := t14 * t14 in
  let t82 := d * t63 in
  let t85 := t63 * z in
  let t100 := -16 * H * t20 * t64 + 16 * t2 * M * t64 + 30 * t2 * d * t63 + 60 * t1 * t34 * t3 - 8 * t2 * t63 * z - 8 * t20 * t63 * z - 2 * t15 * t82 - 72 * t15 * t85 - 22 * t21 * t63 + 5 * t62 * t64 - 5 * t73 * t64 + 74 * t7 * t82 - 72 * t7 * t85 in
  let t119 := t34 * d in
  let t136 := -48 * H * d * t30 - 32 * H * t34 * z + 48 * M * d * t30 - 128 * M * t34 * z - 24 * t1 * t3 * t30 + 24 * t14 * t3 * t30 + 104 * t33 * t34 * t3 - 208 * t33 * t8 * z + 40 * H * t119 + 40 * M * t119 - 32 * t27 * t11 - 80 * t42 * t11 - 4 * t40 * t3 in
  let t139 := c1 in
  2 / 5 * r * t47 * t55 * t57 * t59 + 2 / 5 * r * (t136 + t100) * t139 * t55 * t57.
Definition drV0_tang3D (X : list R) (H M d U l eps : R) : R :=
  let r2 := nth 0 X 0 * nth 0 X 0 + nth 1 X 0 * nth 1 X 0 in let r := sqrt r2 in let z := nth 2 X 0 in
  drV0_tang3D_body r2 r z H M d U (chiTrunc r l eps) (dchiTrunc r l eps).

(** UandPTang.hpp l.881-893 *)
Definition dzV0_tang3D_body (r2 r z H M d U c0 : R) : R :=
  let t2 := r2 in
  let t1 := H * H in
  let t7 := M * M in
  let t18 := c0 in
  let t24 := (t2 * H + M * t2 + 2 * d)^2 in
  -8 / 5 * (8 * H * M * t2 + 2 * H * d + 6 * H * z + 8 * M * d - 6 * M * z + t1 * t2 + t7 * t2) * t18 / t24 / (H + M).
Definition dzV0_tang3D (X : list R) (H M d U l eps : R) : R :=
  let r2 := nth 0 X 0 * nth 0 X 0 + nth 1 X 0 * nth 1 X 0 in let r := sqrt r2 in let z := nth 2 X 0 in
  dzV0_tang3D_body r2 r z H M d U (chiTrunc r l eps).

(** UandPTang.hpp l.896-1065 *)
Definition drW0_tang3D_body (r2 r z H M d U c0 c1 c2 c3 : R) : R :=
  let t6 := r2 in
  let t1 := H * H in
  let t2 := t1 * t1 in
  let t3 := t2 * H in
  let t4 := M * M in
  let t5 := t3 * t4 in
  let t7 := t6 * t6 in
  let t8 := t7 * t7 in
  let t9 := t8 * t6 in
  let t12 := t4 * M in
  let t13 := t2 * t12 in
  let t16 := t1 * H in
  let t17 := t4 * t4 in
  let t18 := t16 * t17 in
  let t21 := t17 * M in
  let t22 := t1 * t21 in
  let t25 := t3 * M in
  let t26 := t8 * z in
  let t29 := t2 * t4 in
  let t30 := d * t8 in
  let t35 := t16 * t12 in
  let t38 := t1 * t17 in
  let t43 := H * t21 in
  let t48 := t7 * t6 in
  let t50 := z * z in
  let t53 := t2 * M in
  let t54 := d * t48 in
  let t55 := t54 * z in
  let t58 := t48 * t50 in
  let t61 := -96 * t3 * t48 * t50 - 60 * t13 * t9 - 60 * t18 * t9 - 20 * t22 * t9 + 24 * t25 * t26 + 48 * t29 * t26 - 48 * t38 * t26 - 24 * t43 * t26 - 224 * t29 * t30 - 424 * t35 * t30 - 176 * t38 * t30 + 24 * t43 * t30 - 20 * t5 * t9 + 576 * t53 * t55 - 336 * t53 * t58 in
  let t62 := t16 * t4 in
  let t63 := d * d in
  let t64 := t63 * t48 in
  let t71 := t1 * t12 in
  let t78 := H * t17 in
  let t85 := t21 * t63 in
  let t88 := t21 * d in
  let t89 := t48 * z in
  let t95 := t2 * d in
  let t96 := t7 * t50 in
  let t100 := t50 * z in
  let t103 := t16 * M in
  let t104 := t63 * t7 in
  let t105 := t104 * z in
  let t108 := d * t7 in
  let t109 := t108 * t50 in
  let t112 := 320 * t2 * t7 * t100 - 96 * t21 * t48 * t50 - 320 * t103 * t105 - 1760 * t103 * t109 - 96 * t85 * t48 + 864 * t62 * t55 + 192 * t71 * t55 + 96 * t78 * t55 - 528 * t62 * t58 - 528 * t71 * t58 - 336 * t78 * t58 - 1280 * t62 * t64 - 944 * t71 * t64 + 240 * t78 * t64 + 192 * t88 * t89 + 640 * t95 * t96 in
  let t114 := t7 * t100 in
  let t117 := t1 * t4 in
  let t118 := t63 * d in
  let t119 := t118 * t7 in
  let t126 := H * t12 in
  let t135 := t17 * t118 in
  let t138 := t17 * t63 in
  let t139 := t7 * z in
  let t142 := t17 * d in
  let t148 := t16 * t63 in
  let t149 := t6 * t50 in
  let t152 := t16 * d in
  let t153 := t6 * t100 in
  let t156 := t1 * M in
  let t157 := t118 * t6 in
  let t158 := t157 * z in
  let t162 := t63 * t6 * t50 in
  let t165 := -320 * t100 * t17 * t7 + 640 * t103 * t114 + 3840 * t105 * t117 + 1920 * t105 * t126 - 3840 * t109 * t117 + 160 * t109 * t126 - 640 * t114 * t126 - 1920 * t117 * t119 - 1440 * t119 * t126 + 960 * t135 * t7 - 2240 * t138 * t139 + 1600 * t142 * t96 + 1408 * t148 * t149 - 2176 * t152 * t153 - 2816 * t156 * t158 + 4800 * t156 * t162 in
  let t167 := d * t6 * t100 in
  let t170 := H * t4 in
  let t171 := t63 * t63 in
  let t172 := t171 * t6 in
  let t181 := t12 * t171 in
  let t184 := t12 * t118 in
  let t185 := t6 * z in
  let t188 := t12 * t63 in
  let t191 := t12 * d in
  let t194 := t1 * t118 in
  let t197 := t1 * t63 in
  let t200 := H * M in
  let t207 := t4 * t171 in
  let t210 := t4 * t118 in
  let t213 := t4 * t63 in
  let t216 := 128 * t118 * t200 * t50 - 128 * t171 * t200 * z + 512 * t100 * t197 - 512 * t100 * t213 - 5120 * t149 * t188 + 2176 * t153 * t191 - 2176 * t156 * t167 - 256 * t158 * t170 - 1728 * t162 * t170 + 2176 * t167 * t170 - 192 * t170 * t172 - 768 * t181 * t6 + 3712 * t184 * t185 - 512 * t194 * t50 - 512 * t207 * z + 1024 * t210 * t50 in
  let t220 := 1 / (H + M) in
  let t225 := H * t6 + M * t6 + 2 * d in
  let t226 := t225 * t225 in
  let t227 := t226 * t226 in
  let t229 := 1 / t227 / t225 in
  let t230 := c0 in
  let t233 := t2 * t1 in
  let t234 := t233 * M in
  let t235 := t8 * t7 in
  let t245 := t17 * t4 in
  let t246 := H * t245 in
  let t249 := t17 * t12 in
  let t255 := d * t9 in
  let t258 := t9 * z in
  let t276 := t245 * d in
  let t282 := t3 * d in
  let t288 := -10 * t245 * t9 * z + 108 * t3 * t50 * t8 + 462 * t255 * t29 + 460 * t255 * t35 + 76 * t255 * t38 - 130 * t255 * t43 - 46 * t258 * t29 + 46 * t258 * t38 + 8 * t258 * t43 + 100 * t26 * t282 - 58 * t276 * t9 in
  let t290 := t63 * t8 in
  let t293 := t30 * z in
  let t296 := t8 * t50 in
  let t325 := t2 * t63 in
  let t333 := t118 * t48 in
  let t336 := t64 * z in
  let t339 := t54 * t50 in
  let t342 := -320 * t100 * t2 * t48 + 108 * t21 * t50 * t8 + 1200 * t103 * t333 - 1376 * t103 * t336 + 2240 * t103 * t339 - 316 * t26 * t88 - 108 * t293 * t78 + 348 * t296 * t78 + 400 * t325 * t89 - 256 * t58 * t95 - 112 * t8 * t85 in
  let t345 := t48 * t100 in
  let t372 := t16 * t118 in
  let t379 := t171 * t7 in
  let t382 := t119 * z in
  let t385 := t104 * t50 in
  let t388 := t108 * t100 in
  let t395 := 320 * t100 * t17 * t48 + 896 * t114 * t152 + 800 * t139 * t372 - 1216 * t142 * t58 - 2208 * t148 * t96 + 1200 * t156 * t379 + 1376 * t156 * t382 + 1440 * t156 * t385 + 896 * t156 * t388 + 3792 * t170 * t379 - 6944 * t170 * t382 in
  let t409 := t1 * t171 in
  let t416 := t171 * d in
  let t423 := 3840 * t172 * t200 * z + 480 * t200 * t416 * t6 - 896 * t114 * t191 + 928 * t139 * t184 - 2304 * t149 * t194 + 2816 * t153 * t197 + 4128 * t170 * t385 - 896 * t170 * t388 - 1632 * t181 * t7 + 800 * t185 * t409 + 480 * t188 * t96 in
  let t427 := t4 * t416 in
  let t436 := H * t416 in
  let t439 := H * t171 in
  let t442 := H * t118 in
  let t445 := M * t416 in
  let t448 := M * t171 in
  let t451 := M * t118 in
  let t454 := -3840 * t157 * t200 * t50 - 512 * t100 * t442 + 512 * t100 * t451 + 6144 * t149 * t210 - 2816 * t153 * t213 - 4640 * t185 * t207 + 480 * t427 * t6 + 320 * t436 * z + 448 * t439 * t50 + 320 * t445 * z - 1088 * t448 * t50 in
  let t458 := c1 in
  let t460 := t220 * t229 in
  let t462 := t8 * t48 in
  let t480 := d * t235 in
  let t483 := t235 * z in
  let t511 := -20 * t235 * t245 * z - 64 * t3 * t50 * t9 - 148 * t235 * t276 + 200 * t258 * t282 + 852 * t29 * t480 + 244 * t29 * t483 + 1280 * t35 * t480 + 256 * t38 * t480 - 244 * t38 * t483 - 420 * t43 * t480 - 152 * t43 * t483 in
  let t513 := t63 * t9 in
  let t516 := t255 * z in
  let t519 := t9 * t50 in
  let t555 := t118 * t8 in
  let t558 := t290 * z in
  let t561 := t30 * t50 in
  let t564 := 160 * t100 * t2 * t8 - 64 * t21 * t50 * t9 + 800 * t103 * t555 + 6272 * t103 * t558 - 1760 * t103 * t561 - 72 * t258 * t88 + 800 * t26 * t325 - 128 * t296 * t95 - 1192 * t516 * t78 - 224 * t519 * t78 - 704 * t85 * t9 in
  let t567 := t8 * t100 in
  let t600 := t171 * t48 in
  let t603 := t333 * z in
  let t606 := t64 * t50 in
  let t609 := t54 * t100 in
  let t616 := -160 * t100 * t17 * t8 + 352 * t142 * t296 + 768 * t148 * t58 + 192 * t152 * t345 + 800 * t156 * t600 + 10432 * t156 * t603 - 5184 * t156 * t606 + 192 * t156 * t609 + 2880 * t170 * t600 - 640 * t170 * t603 + 1600 * t372 * t89 in
  let t642 := 6784 * t200 * t379 * z + 320 * t200 * t416 * t7 - 1152 * t114 * t197 + 1600 * t139 * t409 - 4608 * t170 * t606 - 192 * t170 * t609 - 800 * t181 * t48 - 3712 * t184 * t89 + 1344 * t188 * t58 - 192 * t191 * t345 + 2560 * t194 * t96 in
  let t666 := -6784 * t119 * t200 * t50 + 1152 * t114 * t213 - 3264 * t139 * t207 + 2048 * t149 * t439 - 3328 * t149 * t448 - 1792 * t153 * t442 + 1792 * t153 * t451 + 640 * t185 * t436 + 640 * t185 * t445 - 896 * t210 * t96 + 320 * t427 * t7 in
  let t670 := c2 in
  let t673 := t8 * t8 in
  let t686 := t462 * z in
  let t689 := d * t462 in
  let t709 := t480 * z in
  let t712 := 48 * t235 * t3 * t50 + 28 * t13 * t673 + 8 * t18 * t673 - 24 * t22 * t673 - 20 * t246 * t673 - 4 * t249 * t673 + 48 * t25 * t686 - 48 * t276 * t462 + 96 * t29 * t686 + 96 * t29 * t689 + 144 * t35 * t689 - 96 * t38 * t686 - 48 * t38 * t689 - 48 * t43 * t686 - 144 * t43 * t689 + 12 * t5 * t673 + 384 * t53 * t709 in
  let t713 := t235 * t50 in
  let t716 := t63 * t235 in
  let t747 := t513 * z in
  let t750 := t255 * t50 in
  let t753 := -64 * t100 * t2 * t9 + 48 * t21 * t235 * t50 + 1152 * t103 * t747 + 192 * t103 * t750 - 192 * t235 * t85 - 96 * t483 * t88 + 384 * t519 * t95 + 48 * t53 * t713 + 480 * t62 * t709 - 96 * t62 * t713 + 288 * t62 * t716 - 288 * t709 * t71 - 480 * t709 * t78 - 96 * t71 * t713 + 192 * t71 * t716 + 48 * t713 * t78 - 288 * t716 * t78 in
  let t755 := t9 * t100 in
  let t758 := t118 * t9 in
  let t786 := t555 * z in
  let t789 := t30 * t100 in
  let t795 := 64 * t100 * t17 * t9 + 192 * t170 * t171 * t8 - 128 * t103 * t755 + 576 * t117 * t747 - 576 * t117 * t750 + 384 * t117 * t758 - 1152 * t126 * t747 - 192 * t126 * t750 + 128 * t126 * t755 - 64 * t126 * t758 - 320 * t135 * t9 - 576 * t138 * t258 + 192 * t142 * t519 + 1152 * t148 * t296 - 384 * t152 * t567 + 1536 * t156 * t786 - 384 * t156 * t789 in
  let t833 := -1152 * t170 * t290 * t50 - 768 * t200 * t333 * t50 + 768 * t200 * t600 * z - 512 * t114 * t442 + 512 * t114 * t451 - 384 * t170 * t786 + 384 * t170 * t789 - 192 * t181 * t8 - 1152 * t184 * t26 + 384 * t191 * t567 + 1536 * t194 * t58 - 768 * t197 * t345 - 768 * t207 * t89 - 768 * t210 * t58 + 768 * t213 * t345 + 768 * t439 * t96 - 768 * t448 * t96 in
  let t836 := c3 in
  (t216 + t165 + t112 + t61) * t220 * t229 * t230 / 5 + (-8 * t25 * t258 + 600 * t53 * t290 - 588 * t53 * t293 + 348 * t53 * t296 + 2040 * t62 * t290 - 952 * t62 * t293 + 504 * t62 * t296 + 952 * t71 * t290 - 56 * t71 * t293 + 504 * t71 * t296 - 600 * t78 * t290 - 640 * t103 * t345 + 4432 * t117 * t333 - 4032 * t117 * t336 + 4032 * t117 * t339 - 176 * t126 * t333 - 1184 * t126 * t336 + 320 * t126 * t339 + 640 * t126 * t345 - 976 * t135 * t48 + 1072 * t138 * t89 + 15 * t234 * t235 + 53 * t5 * t235 + 72 * t13 * t235 + 42 * t18 * t235 - t22 * t235 - 15 * t246 * t235 - 6 * t249 * t235 + 150 * t25 * t255 + t423 + t454 + 10 * t233 * t9 * z + t288 + t342 + t395) * t458 * t460 / 5 + (-800 * t126 * t561 - 320 * t126 * t567 - 1408 * t135 * t8 - 1024 * t138 * t26 + 320 * t103 * t567 + 4576 * t117 * t555 + 2784 * t117 * t558 - 2784 * t117 * t561 + 1152 * t126 * t555 - 3712 * t126 * t558 + 10 * t234 * t462 + 92 * t5 * t462 + 198 * t13 * t462 + 128 * t18 * t462 - 34 * t22 * t462 - 60 * t246 * t462 - 14 * t249 * t462 + 100 * t25 * t480 + 152 * t25 * t483 + 400 * t53 * t513 + 1640 * t53 * t516 - 224 * t53 * t519 + 2944 * t62 * t513 + 1632 * t62 * t516 - 352 * t62 * t519 + 2544 * t71 * t513 - 928 * t71 * t516 - 352 * t71 * t519 - 704 * t78 * t513 + 20 * t233 * t235 * z + t666 + t616 + t564 + t642 + t511) * t670 * t460 / 5 + (t833 + t795 + t753 + t712) * t836 * t460 / 5.
Definition drW0_tang3D (X : list R) (H M d U l eps : R) : R :=
  let r2 := nth 0 X 0 * nth 0 X 0 + nth 1 X 0 * nth 1 X 0 in let r := sqrt r2 in let z := nth 2 X 0 in
  drW0_tang3D_body r2 r z H M d U (chiTrunc r l eps) (dchiTrunc r l eps) (d2chiTrunc r l eps) (d3chiTrunc r l eps).

(** UandPTang.hpp l.1067-1139 *)
Definition dzW0_tang3D_body (r2 r z H M d U c0 c1 c2 : R) : R :=
  let t4 := r2 in
  let t1 := H * H in
  let t2 := t1 * t1 in
  let t3 := t2 * M in
  let t5 := t4 * t4 in
  let t6 := t5 * t4 in
  let t9 := t1 * H in
  let t10 := M * M in
  let t11 := t9 * t10 in
  let t14 := t10 * M in
  let t15 := t1 * t14 in
  let t18 := t10 * t10 in
  let t19 := H * t18 in
  let t25 := t9 * M in
  let t26 := d * t5 in
  let t29 := t5 * z in
  let t32 := t1 * t10 in
  let t37 := H * t14 in
  let t42 := t18 * d in
  let t48 := t9 * d in
  let t49 := t4 * z in
  let t53 := z * z in
  let t56 := 32 * t18 * t5 * z + 32 * t2 * t5 * z - 96 * t9 * t4 * t53 - 12 * t11 * t6 + 12 * t15 * t6 + 12 * t19 * t6 - 152 * t25 * t26 + 80 * t25 * t29 - 48 * t32 * t26 + 72 * t37 * t26 + 96 * t32 * t29 + 80 * t37 * t29 - 12 * t3 * t6 - 32 * t42 * t5 - 64 * t48 * t49 in
  let t57 := t1 * M in
  let t58 := d * d in
  let t59 := t58 * t4 in
  let t63 := d * t4 * z in
  let t66 := t4 * t53 in
  let t69 := H * t10 in
  let t76 := t14 * t58 in
  let t79 := t14 * d in
  let t85 := t1 * t58 in
  let t88 := t1 * d in
  let t91 := H * M in
  let t92 := t58 * d in
  let t98 := t10 * t92 in
  let t100 := t10 * t58 in
  let t103 := t10 * d in
  let t106 := 96 * t14 * t4 * t53 + 64 * t91 * t58 * z + 512 * t100 * z - 384 * t103 * t53 + 160 * t76 * t4 - 256 * t79 * t49 + 384 * t88 * t53 - 272 * t57 * t59 + 576 * t57 * t63 - 96 * t57 * t66 - 208 * t69 * t59 + 384 * t69 * t63 + 96 * t69 * t66 - 256 * t85 * z - 32 * t91 * t92 - 128 * t98 in
  let t113 := (t4 * H + M * t4 + 2 * d)^2 in
  let t114 := t113 * t113 in
  let t115 := 1 / t114 in
  let t117 := 1 / (H + M) in
  let t119 := c0 in
  let t123 := t5 * t5 in
  let t143 := d * t6 in
  let t146 := t6 * z in
  let t170 := t58 * t5 in
  let t173 := 5 * t2 * H * t123 - 5 * t18 * M * t123 + 40 * t2 * d * t6 - 44 * t18 * t6 * z - 44 * t2 * t6 * z + 96 * t9 * t5 * t53 + 120 * t9 * t58 * t5 + 10 * t11 * t123 - 10 * t15 * t123 - 15 * t19 * t123 + 15 * t3 * t123 + 172 * t25 * t143 + 36 * t32 * t143 - 92 * t37 * t143 - 80 * t25 * t146 - 72 * t32 * t146 - 80 * t37 * t146 + 528 * t57 * t170 - 120 * t48 * t29 + 4 * t42 * t6 in
  let t174 := t26 * z in
  let t177 := t5 * t53 in
  let t208 := t58 * t58 in
  let t211 := H * t92 in
  let t214 := H * t58 in
  let t219 := M * t92 in
  let t222 := M * t58 in
  let t225 := 160 * t1 * t92 * t4 - 96 * t14 * t5 * t53 + 528 * t91 * t92 * t4 - 1056 * t91 * t59 * z + 80 * H * t208 + 80 * M * t208 + 48 * t100 * t49 - 72 * t69 * t170 - 552 * t57 * t174 - 360 * t69 * t174 + 96 * t57 * t177 - 96 * t69 * t177 + 224 * t211 * z - 384 * t214 * t53 - 544 * t219 * z + 384 * t222 * t53 + 72 * t79 * t29 - 208 * t98 * t4 + 48 * t85 * t49 - 96 * t76 * t5 in
  let t228 := c1 in
  let t232 := t123 * t4 in
  let t244 := d * t123 in
  let t264 := t58 * t6 in
  let t267 := t143 * z in
  let t270 := t6 * t53 in
  let t273 := 24 * t18 * t123 * z + 24 * t2 * t123 * z - 48 * t32 * t123 * z - 48 * t9 * t6 * t53 + 12 * t11 * t232 - 24 * t42 * t123 + 144 * t48 * t146 - 12 * t15 * t232 - 12 * t19 * t232 + 12 * t3 * t232 + 72 * t25 * t244 + 24 * t32 * t244 - 72 * t37 * t244 + 144 * t57 * t264 - 48 * t57 * t267 - 48 * t57 * t270 in
  let t311 := 48 * t14 * t6 * t53 - 192 * t91 * t170 * z + 96 * t91 * t92 * t5 - 96 * t100 * t29 + 192 * t103 * t177 + 48 * t79 * t146 - 192 * t88 * t177 + 192 * t211 * t49 - 192 * t214 * t66 - 192 * t219 * t49 + 192 * t222 * t66 - 48 * t69 * t264 - 144 * t69 * t267 + 48 * t69 * t270 + 288 * t85 * t29 - 96 * t98 * t5 - 96 * t76 * t6 in
  let t314 := c2 in
  2 / 5 * r * (t106 + t56) * t115 * t117 * t119 + 2 / 5 * r * (t225 + t173) * t228 * t115 * t117 + 2 / 5 * r * (t311 + t273) * t314 * t115 * t117.
Definition dzW0_tang3D (X : list R) (H M d U l eps : R) : R :=
  let r2 := nth 0 X 0 * nth 0 X 0 + nth 1 X 0 * nth 1 X 0 in let r := sqrt r2 in let z := nth 2 X 0 in
  dzW0_tang3D_body r2 r z H M d U (chiTrunc r l eps) (dchiTrunc r l eps) (d2chiTrunc r l eps).
