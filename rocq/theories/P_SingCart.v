(** Cartesian components of radial fields. *)
From Coquelicot Require Import Coquelicot.
From Verif Require Import Base M_Truncation M_SingNormal M_SingTang M_SingWrap P_Sing Prop_Truncation.
Open Scope R_scope.

Lemma near_x (x y : R) : x * x + y * y <> 0 -> locally x (fun t => t * t + y * y <> 0).
Proof.
  intros Hn. assert (O : open (fun t : R => t * t + y * y <> 0)).
  { apply (open_comp (fun t : R => t * t + y * y) (fun u => u <> 0)); [|apply open_neq]. intros t _. apply (ex_derive_continuous (fun t : R => t * t + y * y) t). auto_derive. auto. }
  apply O, Hn.
Qed.
Lemma near_y (x y : R) : x * x + y * y <> 0 -> locally y (fun t => x * x + t * t <> 0).
Proof. intros Hn. apply (filter_imp (fun t => t * t + x * x <> 0)); [intros t Ht E; apply Ht; lra|]. apply near_x. lra. Qed.
Lemma r2_pos x y : x * x + y * y <> 0 -> 0 < x * x + y * y.
Proof. intros Hn. pose proof (Rle_0_sqr x). pose proof (Rle_0_sqr y). unfold Rsqr in *. lra. Qed.
Lemma sq_r x y : sqrt (x * x + y * y) * sqrt (x * x + y * y) = x * x + y * y.
Proof. apply sqrt_sqrt. pose proof (Rle_0_sqr x). pose proof (Rle_0_sqr y). unfold Rsqr in *. lra. Qed.
Lemma r_pos x y : x * x + y * y <> 0 -> 0 < sqrt (x * x + y * y).
Proof. intros. apply sqrt_lt_R0, r2_pos; auto. Qed.
Lemma gap_nz H M a q : 0 < H -> 0 < M -> 0 < a -> 0 <= q -> H * q + M * q + 2 * a <> 0.
Proof. intros. assert (0 <= H * q) by (apply Rmult_le_pos; lra). assert (0 <= M * q) by (apply Rmult_le_pos; lra). lra. Qed.

Section Radial.
Variables (P Q : R -> R) (dP dQ : R) (x y : R).
Hypothesis Hn : x * x + y * y <> 0.
Notation r := (sqrt (x * x + y * y)).
Hypothesis HP : is_derive P r dP.
Hypothesis HQ : is_derive Q r dQ.
Lemma d_rx : is_derive (fun t => sqrt (t * t + y * y)) x (x / r).
Proof. pose proof (r2_pos _ _ Hn). pose proof (r_pos _ _ Hn). auto_derive; [exact H|]. field. lra. Qed.
Lemma d_ry : is_derive (fun t => sqrt (x * x + t * t)) y (y / r).
Proof. pose proof (r2_pos _ _ Hn). pose proof (r_pos _ _ Hn). auto_derive; [exact H|]. field. lra. Qed.
Lemma d_Fx (F : R -> R) (dF : R) : is_derive F r dF -> is_derive (fun t => F (sqrt (t * t + y * y))) x (dF * (x / r)).
Proof. intros HF. replace (dF * (x / r)) with (scal (x / r) dF) by (unfold scal; simpl; unfold mult; simpl; ring). apply (is_derive_comp F (fun t => sqrt (t * t + y * y))); [exact HF|apply d_rx]. Qed.
Lemma d_Fy (F : R -> R) (dF : R) : is_derive F r dF -> is_derive (fun t => F (sqrt (x * x + t * t))) y (dF * (y / r)).
Proof. intros HF. replace (dF * (y / r)) with (scal (y / r) dF) by (unfold scal; simpl; unfold mult; simpl; ring). apply (is_derive_comp F (fun t => sqrt (x * x + t * t))); [exact HF|apply d_ry]. Qed.
(** a product of a radial function and of a function with a known derivative *)
Lemma d_prod (f g : R -> R) t df dg : is_derive f t df -> is_derive g t dg -> is_derive (fun t => f t * g t) t (df * g t + f t * dg).
Proof. intros A B. auto_derive; [split; [eexists; eauto|split; [eexists; eauto|auto]]|]. change (Derive (fun x => f x) t) with (Derive f t). change (Derive (fun x => g x) t) with (Derive g t). rewrite (is_derive_unique _ _ _ A), (is_derive_unique _ _ _ B). ring. Qed.
Lemma d_plus (f g : R -> R) t df dg : is_derive f t df -> is_derive g t dg -> is_derive (fun t => f t + g t) t (df + dg).
Proof. intros A B. auto_derive; [split; [eexists; eauto|split; [eexists; eauto|auto]]|]. change (Derive (fun x => f x) t) with (Derive f t). change (Derive (fun x => g x) t) with (Derive g t). rewrite (is_derive_unique _ _ _ A), (is_derive_unique _ _ _ B). ring. Qed.
Ltac radial := pose proof (r2_pos _ _ Hn) as R2; pose proof (r_pos _ _ Hn) as R1; pose proof (sq_r x y) as E2;
  auto_derive; [repeat first [exact I | apply conj | solve [eexists; eauto] | lra | match goal with |- 0 < _ => lra end]|];
  change (Derive (fun x0 => P x0) r) with (Derive P r); change (Derive (fun x0 => Q x0) r) with (Derive Q r); rewrite ?(is_derive_unique _ _ _ HP), ?(is_derive_unique _ _ _ HQ);
  clear HP HQ; set (s := sqrt (x * x + y * y)) in *; clearbody s; rewrite <- ?E2; assert (E : s ^ 2 = x ^ 2 + y ^ 2) by (simpl; lra); field [E]; lra.
Lemma d_xx : is_derive (fun t => P (sqrt (t * t + y * y)) * t / sqrt (t * t + y * y)) x (dP * x * x / (x * x + y * y) + P r * y * y / (x * x + y * y) / r).
Proof. radial. Qed.
Lemma d_xy : is_derive (fun t => P (sqrt (x * x + t * t)) * x / sqrt (x * x + t * t)) y (dP * x * y / (x * x + y * y) - P r * x * y / (x * x + y * y) / r).
Proof. radial. Qed.
Lemma d_yx : is_derive (fun t => P (sqrt (t * t + y * y)) * y / sqrt (t * t + y * y)) x (dP * x * y / (x * x + y * y) - P r * x * y / (x * x + y * y) / r).
Proof. radial. Qed.
Lemma d_yy : is_derive (fun t => P (sqrt (x * x + t * t)) * t / sqrt (x * x + t * t)) y (dP * y * y / (x * x + y * y) + P r * x * x / (x * x + y * y) / r).
Proof. radial. Qed.
Variable V : R.
Lemma t_xx : is_derive (fun t => V * P (sqrt (t * t + y * y)) * (t / sqrt (t * t + y * y)) / 2 * t / sqrt (t * t + y * y) - V * Q (sqrt (t * t + y * y)) * (y / sqrt (t * t + y * y)) / 2 * y / sqrt (t * t + y * y)) x ((V * dP * (x / r) / 2) * (x * x) / (x * x + y * y) + (V * P r * (x / r) / 2) * (y * y) / (x * x + y * y) / r - (- V * P r * (y / r) / 2) * (x * y) / (x * x + y * y) / r + (V * Q r * (y / r) / 2) * (x * y) / (x * x + y * y) / r - (V * dQ * (y / r) / 2) * (x * y) / (x * x + y * y) + (V * Q r * (x / r) / 2) * (y * y) / (x * x + y * y) / r).
Proof. radial. Qed.
Lemma t_xy : is_derive (fun t => V * P (sqrt (x * x + t * t)) * (x / sqrt (x * x + t * t)) / 2 * x / sqrt (x * x + t * t) - V * Q (sqrt (x * x + t * t)) * (t / sqrt (x * x + t * t)) / 2 * t / sqrt (x * x + t * t)) y ((V * dP * (x / r) / 2) * (x * y) / (x * x + y * y) - (V * P r * (x / r) / 2) * (x * y) / (x * x + y * y) / r + (- V * P r * (y / r) / 2) * (x * x) / (x * x + y * y) / r - (V * Q r * (y / r) / 2) * (x * x) / (x * x + y * y) / r - (V * dQ * (y / r) / 2) * (y * y) / (x * x + y * y) - (V * Q r * (x / r) / 2) * (x * y) / (x * x + y * y) / r).
Proof. radial. Qed.
Lemma t_yx : is_derive (fun t => V * P (sqrt (t * t + y * y)) * (t / sqrt (t * t + y * y)) / 2 * y / sqrt (t * t + y * y) + V * Q (sqrt (t * t + y * y)) * (y / sqrt (t * t + y * y)) / 2 * t / sqrt (t * t + y * y)) x ((V * dP * (x / r) / 2) * (x * y) / (x * x + y * y) - (V * P r * (x / r) / 2) * (x * y) / (x * x + y * y) / r - (- V * P r * (y / r) / 2) * (y * y) / (x * x + y * y) / r + (V * Q r * (y / r) / 2) * (y * y) / (x * x + y * y) / r + (V * dQ * (y / r) / 2) * (x * x) / (x * x + y * y) - (V * Q r * (x / r) / 2) * (x * y) / (x * x + y * y) / r).
Proof. radial. Qed.
Lemma t_yy : is_derive (fun t => V * P (sqrt (x * x + t * t)) * (x / sqrt (x * x + t * t)) / 2 * t / sqrt (x * x + t * t) + V * Q (sqrt (x * x + t * t)) * (t / sqrt (x * x + t * t)) / 2 * x / sqrt (x * x + t * t)) y ((V * dP * (x / r) / 2) * (y * y) / (x * x + y * y) + (V * P r * (x / r) / 2) * (x * x) / (x * x + y * y) / r + (- V * P r * (y / r) / 2) * (x * y) / (x * x + y * y) / r - (V * Q r * (y / r) / 2) * (x * y) / (x * x + y * y) / r + (V * dQ * (y / r) / 2) * (x * y) / (x * x + y * y) + (V * Q r * (x / r) / 2) * (x * x) / (x * x + y * y) / r).
Proof. radial. Qed.
Lemma t_zx : is_derive (fun t => V * P (sqrt (t * t + y * y)) * (t / sqrt (t * t + y * y)) / 2) x ((V * dP * (x / r) / 2) * x / r - (- V * P r * (y / r) / 2) * y / (x * x + y * y)).
Proof. radial. Qed.
Lemma t_zy : is_derive (fun t => V * P (sqrt (x * x + t * t)) * (x / sqrt (x * x + t * t)) / 2) y ((V * dP * (x / r) / 2) * y / r + (- V * P r * (y / r) / 2) * x / (x * x + y * y)).
Proof. radial. Qed.
End Radial.
