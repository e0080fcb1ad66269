(** Derivatives of the 3D normal field along any differentiable curve: the closed forms are cubic in z. *)
From Coquelicot Require Import Coquelicot.
From Verif Require Import Base M_Truncation M_SingNormal M_SingTang P_Sing P_SingCart.
Open Scope R_scope.
Definition cub (f0 f1 f2 f3 z : R) : R :=
  f0 * (- ((z - 1) * (z - 2) * (z - 3) / 6)) + f1 * (z * (z - 2) * (z - 3) / 2) + f2 * (- (z * (z - 1) * (z - 3) / 2)) + f3 * (z * (z - 1) * (z - 2) / 6).
Definition dcub (f0 f1 f2 f3 z : R) : R :=
  f0 * (- ((z - 2) * (z - 3) + (z - 1) * (z - 3) + (z - 1) * (z - 2)) / 6) + f1 * (((z - 2) * (z - 3) + z * (z - 3) + z * (z - 2)) / 2) + f2 * (- ((z - 1) * (z - 3) + z * (z - 3) + z * (z - 1)) / 2) + f3 * (((z - 1) * (z - 2) + z * (z - 2) + z * (z - 1)) / 6).
Lemma cub_d (f0 f1 f2 f3 ze : R -> R) (t d0 d1 d2 d3 dz : R) :
  is_derive f0 t d0 -> is_derive f1 t d1 -> is_derive f2 t d2 -> is_derive f3 t d3 -> is_derive ze t dz ->
  is_derive (fun t => cub (f0 t) (f1 t) (f2 t) (f3 t) (ze t)) t (cub d0 d1 d2 d3 (ze t) + dcub (f0 t) (f1 t) (f2 t) (f3 t) (ze t) * dz).
Proof.
  intros H0 H1 H2 H3 Dz. unfold cub, dcub. auto_derive; [repeat split; eexists; eauto|].
  change (Derive (fun x => f0 x) t) with (Derive f0 t). change (Derive (fun x => f1 x) t) with (Derive f1 t). change (Derive (fun x => f2 x) t) with (Derive f2 t). change (Derive (fun x => f3 x) t) with (Derive f3 t). change (Derive (fun x => ze x) t) with (Derive ze t).
  rewrite (is_derive_unique _ _ _ H0), (is_derive_unique _ _ _ H1), (is_derive_unique _ _ _ H2), (is_derive_unique _ _ _ H3), (is_derive_unique _ _ _ Dz). field.
Qed.
Lemma cst_d (c t : R) : is_derive (fun _ : R => c) t 0.
Proof. apply (is_derive_const (V:=R_NormedModule)). Qed.
Lemma id_d (t : R) : is_derive (fun x : R => x) t 1.
Proof. apply (is_derive_id (K:=R_AbsRing)). Qed.
Lemma cubic_curve (F dr dz : R -> R -> R) (rho zeta : R -> R) (t r' z' : R) :
  (forall r z, F r z = cub (F r 0) (F r 1) (F r 2) (F r 3) z) ->
  (forall z, is_derive (fun r => F r z) (rho t) (dr (rho t) z)) ->
  is_derive (fun z => F (rho t) z) (zeta t) (dz (rho t) (zeta t)) ->
  is_derive rho t r' -> is_derive zeta t z' ->
  is_derive (fun t => F (rho t) (zeta t)) t (dr (rho t) (zeta t) * r' + dz (rho t) (zeta t) * z').
Proof.
  intros HF HR HZ Dr Dz.
  assert (E1 : dr (rho t) (zeta t) = cub (dr (rho t) 0) (dr (rho t) 1) (dr (rho t) 2) (dr (rho t) 3) (zeta t)).
  { pose proof (cub_d _ _ _ _ _ (rho t) _ _ _ _ _ (HR 0) (HR 1) (HR 2) (HR 3) (cst_d (zeta t) (rho t))) as D.
    apply (is_derive_ext _ (fun r => F r (zeta t))) in D; [|intros r; symmetry; apply HF].
    pose proof (eq_trans (eq_sym (is_derive_unique _ _ _ (HR (zeta t)))) (is_derive_unique _ _ _ D)) as E. rewrite E. ring. }
  assert (E2 : dz (rho t) (zeta t) = dcub (F (rho t) 0) (F (rho t) 1) (F (rho t) 2) (F (rho t) 3) (zeta t)).
  { pose proof (cub_d _ _ _ _ _ (zeta t) _ _ _ _ _ (cst_d (F (rho t) 0) (zeta t)) (cst_d (F (rho t) 1) (zeta t)) (cst_d (F (rho t) 2) (zeta t)) (cst_d (F (rho t) 3) (zeta t)) (id_d (zeta t))) as D.
    apply (is_derive_ext _ (fun z => F (rho t) z)) in D; [|intros r; symmetry; apply HF].
    pose proof (eq_trans (eq_sym (is_derive_unique _ _ _ HZ)) (is_derive_unique _ _ _ D)) as E. rewrite E. unfold cub. field. }
  assert (HC : forall j, is_derive (fun t => F (rho t) j) t (dr (rho t) j * r')).
  { intros j. replace (dr (rho t) j * r') with (scal r' (dr (rho t) j)) by (unfold scal; simpl; unfold mult; simpl; ring). apply (is_derive_comp (fun r => F r j) rho t _ _ (HR j) Dr). }
  pose proof (cub_d _ _ _ _ _ t _ _ _ _ _ (HC 0) (HC 1) (HC 2) (HC 3) Dz) as D. cbv beta in D.
  apply (is_derive_ext _ (fun t => F (rho t) (zeta t))) in D; [|intros s; symmetry; apply HF].
  replace (dr (rho t) (zeta t) * r' + dz (rho t) (zeta t) * z') with (cub (dr (rho t) 0 * r') (dr (rho t) 1 * r') (dr (rho t) 2 * r') (dr (rho t) 3 * r') (zeta t) + dcub (F (rho t) 0) (F (rho t) 1) (F (rho t) 2) (F (rho t) 3) (zeta t) * z'); [exact D|].
  rewrite E1, E2. unfold cub. field.
Qed.
Section Cubic.
Variables (r z H M a U c0 c1 c2 : R).
Hypothesis HM : H + M <> 0.
Hypothesis Hq : H * (r * r) + M * (r * r) + 2 * a <> 0.
Lemma ur_cubic : ur_sing_normalMvt3D_body (r * r) r z H M a U c0 c1 =
  cub (ur_sing_normalMvt3D_body (r * r) r 0 H M a U c0 c1) (ur_sing_normalMvt3D_body (r * r) r 1 H M a U c0 c1) (ur_sing_normalMvt3D_body (r * r) r 2 H M a U c0 c1) (ur_sing_normalMvt3D_body (r * r) r 3 H M a U c0 c1) z.
Proof. unfold cub, ur_sing_normalMvt3D_body. cbv zeta. field. nz Hq. Qed.
Lemma uz_cubic : uz_sing_normalMvt3D_body (r * r) r z H M a U c0 c1 c2 =
  cub (uz_sing_normalMvt3D_body (r * r) r 0 H M a U c0 c1 c2) (uz_sing_normalMvt3D_body (r * r) r 1 H M a U c0 c1 c2) (uz_sing_normalMvt3D_body (r * r) r 2 H M a U c0 c1 c2) (uz_sing_normalMvt3D_body (r * r) r 3 H M a U c0 c1 c2) z.
Proof. unfold cub, uz_sing_normalMvt3D_body. cbv zeta. field. nz Hq. Qed.
End Cubic.
