(** Error of linear interpolation, along one axis and in a cell. *)
From Coquelicot Require Import Coquelicot.
From Verif Require Import Base M_Geometry S_Geometry M_Particle S_Particle S_Fem M_Mesh M_Operator S_Operator P_Energy P_Precond M_ParticleOp S_ParticleOp S_Accuracy.
Open Scope R_scope.
Definition smooth1 (g : R -> R) (a b M : R) : Prop := forall t, a <= t <= b -> ex_derive g t /\ ex_derive (Derive g) t /\ Rabs (Derive (Derive g) t) <= M.
Lemma mvt f f' a b : a < b -> (forall t, a <= t <= b -> is_derive f t (f' t)) -> exists c, f b - f a = f' c * (b - a) /\ a < c < b.
Proof. intros H D. destruct (MVT_cor2 f f' a b H) as (c & E & Hc); [intros c Hc; apply is_derive_Reals, D, Hc|]. exists c. auto. Qed.
Lemma lin_err g a h x M : 0 < h -> 0 <= x <= h -> smooth1 g a (a + h) M -> Rabs ((1 - x / h) * g a + x / h * g (a + h) - g (a + x)) <= M * (x * (h - x)) / 2.
Proof.
  intros Hh Hx S. destruct (Req_dec x 0) as [->|N0].
  { replace ((1 - 0 / h) * g a + 0 / h * g (a + h) - g (a + 0)) with 0 by (rewrite Rplus_0_r; unfold Rdiv; ring). rewrite Rabs_R0. lra. }
  destruct (Req_dec x h) as [->|N1].
  { replace ((1 - h / h) * g a + h / h * g (a + h) - g (a + h)) with 0 by (field; lra). rewrite Rabs_R0. lra. }
  set (L := (1 - x / h) * g a + x / h * g (a + h)). set (K := (L - g (a + x)) / (x * (h - x))).
  assert (P : 0 < x * (h - x)) by nra.
  set (phi := fun t => g t - ((1 - (t - a) / h) * g a + (t - a) / h * g (a + h)) + K * ((t - a) * (h - (t - a)))).
  set (phi1 := fun t => Derive g t - (g (a + h) - g a) / h + K * (h - 2 * (t - a))).
  set (phi2 := fun t => Derive (Derive g) t - 2 * K).
  assert (D1 : forall t, a <= t <= a + h -> is_derive phi t (phi1 t)).
  { intros t Ht. destruct (S t Ht) as (E1 & _ & _). unfold phi, phi1. auto_derive; [exact E1|]. change (Derive (fun x0 : R => g x0) t) with (Derive g t). clearbody K. field. lra. }
  assert (D2 : forall t, a <= t <= a + h -> is_derive phi1 t (phi2 t)).
  { intros t Ht. destruct (S t Ht) as (_ & E2 & _). unfold phi1, phi2. auto_derive; [exact E2|]. match goal with |- context [1 * Derive ?F t] => change (Derive F t) with (Derive (Derive g) t) end. clearbody K. field. }
  assert (Z0 : phi a = 0) by (unfold phi; field; lra). assert (Z1 : phi (a + h) = 0) by (unfold phi; field; lra).
  assert (Zx : phi (a + x) = 0). { unfold phi, K. unfold L. field. split; lra. }
  destruct (mvt phi phi1 a (a + x)) as (c1 & E1 & H1); [lra|intros; apply D1; lra|].
  destruct (mvt phi phi1 (a + x) (a + h)) as (c2 & E2 & H2); [lra|intros; apply D1; lra|].
  rewrite Z0, Zx in E1. rewrite Zx, Z1 in E2. assert (F1 : phi1 c1 = 0) by nra. assert (F2 : phi1 c2 = 0) by nra.
  destruct (mvt phi1 phi2 c1 c2) as (c3 & E3 & H3); [lra|intros; apply D2; lra|]. rewrite F1, F2 in E3. assert (F3 : phi2 c3 = 0) by nra.
  destruct (S c3 ltac:(lra)) as (_ & _ & B). unfold phi2 in F3. assert (BK : Rabs K <= M / 2). { replace (Derive (Derive g) c3) with (2 * K) in B by lra. rewrite Rabs_mult, (Rabs_pos_eq 2) in B by lra. lra. }
  replace (L - g (a + x)) with (K * (x * (h - x))). 2: { unfold K. field. split; lra. } rewrite Rabs_mult, (Rabs_pos_eq (x * (h - x))) by lra. nra.
Qed.
Lemma smooth1_nonneg g a b M : a <= b -> smooth1 g a b M -> 0 <= M.
Proof. intros H S. destruct (S a ltac:(lra)) as (_ & _ & B). pose proof (Rabs_pos (Derive (Derive g) a)). lra. Qed.
Lemma mix_err s p q p' q' e : 0 <= s <= 1 -> Rabs (p - p') <= e -> Rabs (q - q') <= e -> Rabs (((1 - s) * p + s * q) - ((1 - s) * p' + s * q')) <= e.
Proof. intros Hs Hp Hq. apply Rabs_le. apply Rabs_le_between in Hp. apply Rabs_le_between in Hq. nra. Qed.
Lemma ratio_in h x : 0 < h -> 0 <= x <= h -> 0 <= x / h <= 1.
Proof. intros Hh Hx. split; [apply Rmult_le_pos; [lra|left; apply Rinv_0_lt_compat, Hh]|]. apply Rmult_le_reg_r with h; [exact Hh|]. unfold Rdiv. rewrite Rmult_assoc, Rinv_l; lra. Qed.
Lemma bil_err f a0 a1 h0 h1 x0 x1 M0 M1 : 0 < h0 -> 0 < h1 -> 0 <= x0 <= h0 -> 0 <= x1 <= h1 ->
  (forall y, 0 <= y <= h1 -> smooth1 (fun t => f t (a1 + y)) a0 (a0 + h0) M0) -> (forall y, 0 <= y <= h0 -> smooth1 (fun t => f (a0 + y) t) a1 (a1 + h1) M1) ->
  Rabs ((1 - x1 / h1) * ((1 - x0 / h0) * f a0 a1 + x0 / h0 * f (a0 + h0) a1) + x1 / h1 * ((1 - x0 / h0) * f a0 (a1 + h1) + x0 / h0 * f (a0 + h0) (a1 + h1)) - f (a0 + x0) (a1 + x1))
  <= M0 * (x0 * (h0 - x0)) / 2 + M1 * (x1 * (h1 - x1)) / 2.
Proof.
  intros P0 P1 X0 X1 S0 S1.
  pose proof (lin_err (fun t => f t (a1 + 0)) a0 h0 x0 M0 P0 X0 (S0 0 ltac:(lra))) as A. pose proof (lin_err (fun t => f t (a1 + h1)) a0 h0 x0 M0 P0 X0 (S0 h1 ltac:(lra))) as B. cbv beta in A, B. rewrite Rplus_0_r in A.
  pose proof (lin_err (fun t => f (a0 + x0) t) a1 h1 x1 M1 P1 X1 (S1 x0 X0)) as C. cbv beta in C.
  pose proof (mix_err (x1 / h1) _ _ _ _ _ (ratio_in h1 x1 P1 X1) A B) as D. 
  eapply Rle_trans; [|apply Rplus_le_compat; [exact D|exact C]]. eapply Rle_trans; [|apply Rabs_triang]. right. f_equal. ring.
Qed.
Lemma tril_err f a0 a1 a2 h0 h1 h2 x0 x1 x2 M0 M1 M2 : 0 < h0 -> 0 < h1 -> 0 < h2 -> 0 <= x0 <= h0 -> 0 <= x1 <= h1 -> 0 <= x2 <= h2 ->
  (forall y z, 0 <= y <= h1 -> 0 <= z <= h2 -> smooth1 (fun t => f t (a1 + y) (a2 + z)) a0 (a0 + h0) M0) ->
  (forall y z, 0 <= y <= h0 -> 0 <= z <= h2 -> smooth1 (fun t => f (a0 + y) t (a2 + z)) a1 (a1 + h1) M1) ->
  (forall y z, 0 <= y <= h0 -> 0 <= z <= h1 -> smooth1 (fun t => f (a0 + y) (a1 + z) t) a2 (a2 + h2) M2) ->
  let B z := (1 - x1 / h1) * ((1 - x0 / h0) * f a0 a1 z + x0 / h0 * f (a0 + h0) a1 z) + x1 / h1 * ((1 - x0 / h0) * f a0 (a1 + h1) z + x0 / h0 * f (a0 + h0) (a1 + h1) z) in
  Rabs ((1 - x2 / h2) * B a2 + x2 / h2 * B (a2 + h2) - f (a0 + x0) (a1 + x1) (a2 + x2))
  <= M0 * (x0 * (h0 - x0)) / 2 + M1 * (x1 * (h1 - x1)) / 2 + M2 * (x2 * (h2 - x2)) / 2.
Proof.
  intros P0 P1 P2 X0 X1 X2 S0 S1 S2 B.
  assert (G : forall z, 0 <= z <= h2 -> Rabs (B (a2 + z) - f (a0 + x0) (a1 + x1) (a2 + z)) <= M0 * (x0 * (h0 - x0)) / 2 + M1 * (x1 * (h1 - x1)) / 2).
  { intros z Hz. apply (bil_err (fun p q => f p q (a2 + z))); auto. }
  pose proof (G 0 ltac:(lra)) as G0. rewrite Rplus_0_r in G0. pose proof (G h2 ltac:(lra)) as G1.
  pose proof (lin_err (fun t => f (a0 + x0) (a1 + x1) t) a2 h2 x2 M2 P2 X2 (S2 x0 x1 X0 X1)) as C. cbv beta in C.
  pose proof (mix_err (x2 / h2) _ _ _ _ _ (ratio_in h2 x2 P2 X2) G0 G1) as D.
  eapply Rle_trans; [|apply Rplus_le_compat; [exact D|exact C]]. eapply Rle_trans; [|apply Rabs_triang]. right. f_equal. ring.
Qed.
(** ** the Q1 field *)
Lemma field_bil m per h0 h1 u e x0 x1 d : length m = 2%nat -> field_at m per [h0; h1] u e [x0; x1] d =
  (1 - x1 / h1) * ((1 - x0 / h0) * gv m per u e 0 d + x0 / h0 * gv m per u e 1 d) + x1 / h1 * ((1 - x0 / h0) * gv m per u e 2 d + x0 / h0 * gv m per u e 3 d).
Proof.
  intros Lm. unfold field_at. rewrite Lm. cbn [Rsum Nat.pow Nat.mul Nat.add]. unfold shape. cbn [length seq zip_with fold_right Nat.pow Nat.mul Nat.add].
  repeat match goal with |- context [Nat.odd ?t] => let v := eval vm_compute in (Nat.odd t) in change (Nat.odd t) with v end. cbv iota. ring.
Qed.
Lemma field_tril m per h0 h1 h2 u e x0 x1 x2 d : length m = 3%nat -> 
  let B a := (1 - x1 / h1) * ((1 - x0 / h0) * gv m per u e a d + x0 / h0 * gv m per u e (1 + a) d) + x1 / h1 * ((1 - x0 / h0) * gv m per u e (2 + a) d + x0 / h0 * gv m per u e (3 + a) d) in
  field_at m per [h0; h1; h2] u e [x0; x1; x2] d = (1 - x2 / h2) * B 0%nat + x2 / h2 * B 4%nat.
Proof.
  intros Lm B. unfold B, field_at. rewrite Lm. cbn [Rsum Nat.pow Nat.mul Nat.add]. unfold shape. cbn [length seq zip_with fold_right Nat.pow Nat.mul Nat.add].
  repeat match goal with |- context [Nat.odd ?t] => let v := eval vm_compute in (Nat.odd t) in change (Nat.odd t) with v end. cbv iota. ring.
Qed.
Definition half_gaps (h x : vec) (M : nat -> R) : R := Rsum (length h) (fun j => M j * (co j x * (co j h - co j x)) / 2).
Lemma field_err D m per h u e x d f M : (D = 2 \/ D = 3)%nat -> length m = D -> length h = D -> length e = D -> Forall (fun s => 0 < s) h -> in_closed_cell h x ->
  bends_in_cell f h e M -> samples_of f m per h u e d -> Rabs (field_at m per h u e x d - f (point_at h e x)) <= half_gaps h x M.
Proof.
  intros [->| ->] Lm Lh Le HP HC HB HS.
  - destruct h as [|h0 [|h1 [|]]]; simpl in Lh; try lia. destruct e as [|e0 [|e1 [|]]]; simpl in Le; try lia.
    inversion HC as [|? x0 ? ? X0 HC1]; subst. inversion HC1 as [|? x1 ? ? X1 HC2]; subst. inversion HC2; subst. inversion HP as [|? ? P0 HP1]; subst. inversion HP1 as [|? ? P1 _]; subst.
    rewrite field_bil by exact Lm. unfold samples_of in HS. rewrite Lm in HS. rewrite !HS by (simpl; lia).
    unfold point_at, grid_point, corner, half_gaps. cbn [zip_with length seq Rsum co nth]. 
    repeat match goal with |- context [Z.of_nat ?t] => let v := eval vm_compute in (Z.of_nat t) in change (Z.of_nat t) with v end.
    rewrite !plus_IZR, !Rplus_0_r. rewrite !Rmult_plus_distr_r, !Rmult_1_l, Rplus_0_l.
    apply (bil_err (fun p q => f [p; q])); auto.
    + intros y Hy t Ht. specialize (HB [t - IZR e0 * h0; y] 0%nat ltac:(constructor; [lra|constructor; [lra|constructor]]) ltac:(simpl; lia)). unfold bends, point_at, grid_point, moved in HB. cbn [zip_with firstn skipn app co nth] in HB.
      replace (IZR e0 * h0 + (t - IZR e0 * h0)) with t in HB by ring. exact HB.
    + intros y Hy t Ht. specialize (HB [y; t - IZR e1 * h1] 1%nat ltac:(constructor; [lra|constructor; [lra|constructor]]) ltac:(simpl; lia)). unfold bends, point_at, grid_point, moved in HB. cbn [zip_with firstn skipn app co nth] in HB.
      replace (IZR e1 * h1 + (t - IZR e1 * h1)) with t in HB by ring. exact HB.
  - destruct h as [|h0 [|h1 [|h2 [|]]]]; simpl in Lh; try lia. destruct e as [|e0 [|e1 [|e2 [|]]]]; simpl in Le; try lia.
    inversion HC as [|? x0 ? ? X0 HC1]; subst. inversion HC1 as [|? x1 ? ? X1 HC2]; subst. inversion HC2 as [|? x2 ? ? X2 HC3]; subst. inversion HC3; subst. inversion HP as [|? ? P0 HP1]; subst. inversion HP1 as [|? ? P1 HP2]; subst. inversion HP2 as [|? ? P2 _]; subst.
    rewrite field_tril by exact Lm. cbn [Nat.add]. unfold samples_of in HS. rewrite Lm in HS. rewrite !HS by (simpl; lia).
    unfold point_at, grid_point, corner, half_gaps. cbn [zip_with length seq Rsum co nth]. 
    repeat match goal with |- context [Z.of_nat ?t] => let v := eval vm_compute in (Z.of_nat t) in change (Z.of_nat t) with v end.
    rewrite !plus_IZR, !Rplus_0_r. rewrite !Rmult_plus_distr_r, !Rmult_1_l, Rplus_0_l.
    apply (tril_err (fun p q r => f [p; q; r])); auto.
    + intros y z Hy Hz t Ht. specialize (HB [t - IZR e0 * h0; y; z] 0%nat ltac:(constructor; [lra|constructor; [lra|constructor; [lra|constructor]]]) ltac:(simpl; lia)). unfold bends, point_at, grid_point, moved in HB. cbn [zip_with firstn skipn app co nth] in HB.
      replace (IZR e0 * h0 + (t - IZR e0 * h0)) with t in HB by ring. exact HB.
    + intros y z Hy Hz t Ht. specialize (HB [y; t - IZR e1 * h1; z] 1%nat ltac:(constructor; [lra|constructor; [lra|constructor; [lra|constructor]]]) ltac:(simpl; lia)). unfold bends, point_at, grid_point, moved in HB. cbn [zip_with firstn skipn app co nth] in HB.
      replace (IZR e1 * h1 + (t - IZR e1 * h1)) with t in HB by ring. exact HB.
    + intros y z Hy Hz t Ht. specialize (HB [y; z; t - IZR e2 * h2] 2%nat ltac:(constructor; [lra|constructor; [lra|constructor; [lra|constructor]]]) ltac:(simpl; lia)). unfold bends, point_at, grid_point, moved in HB. cbn [zip_with firstn skipn app co nth] in HB.
      replace (IZR e2 * h2 + (t - IZR e2 * h2)) with t in HB by ring. exact HB.
Qed.
Lemma half_gaps_le h x M : in_closed_cell h x -> (forall j, (j < length h)%nat -> 0 <= M j) -> half_gaps h x M <= bending h M.
Proof.
  intros HC HM. unfold half_gaps, bending. apply Rsum_le. intros j Hj. specialize (HM j Hj).
  pose proof (Rle_0_sqr (co j h - 2 * co j x)) as Q. unfold Rsqr in Q. nra.
Qed.
Lemma corner_offset h : Forall (fun s => 0 < s) h -> in_closed_cell h (map (fun _ => 0) h).
Proof. induction h as [|s h IH]; intros H; [constructor|]. inversion H; subst. constructor; [lra|apply IH; assumption]. Qed.
Lemma bends_nonneg f h e M : Forall (fun s => 0 < s) h -> bends_in_cell f h e M -> forall j, (j < length h)%nat -> 0 <= M j.
Proof. intros HP HB j Hj. destruct (HB _ j (corner_offset h HP) Hj) as (_ & _ & B). cbv zeta in B. match type of B with Rabs ?a <= _ => pose proof (Rabs_pos a) end. lra. Qed.
Lemma field_bending D m per h u e x d f M : (D = 2 \/ D = 3)%nat -> length m = D -> length h = D -> length e = D -> Forall (fun s => 0 < s) h -> in_closed_cell h x ->
  bends_in_cell f h e M -> samples_of f m per h u e d -> Rabs (field_at m per h u e x d - f (point_at h e x)) <= bending h M.
Proof.
  intros HD Lm Lh Le HP HC HB HS. eapply Rle_trans; [apply (field_err D); eassumption|]. apply half_gaps_le; [exact HC|]. eapply bends_nonneg; eassumption.
Qed.
