(** The element-by-element forms under the similarities of S_Turn. *)
From Coq Require Import Permutation.
From Coquelicot Require Import Coquelicot.
From Verif Require Import Base M_Geometry S_Geometry P_Geometry M_Particle S_Particle P_Particle M_Quadrature S_Fem P_Energy M_MatElem P_MatElem M_Mesh M_Operator M_Bc S_Operator S_Bc P_Mesh P_Operator P_Operator2 P_Global P_Stokes P_Operator3 P_Constant Prop_Operator Prop_StokesUnique.
From Verif Require Import P_Precond P_QuadTab P_Div.
From Verif Require Import S_Turn P_TurnTab P_Turn P_TurnGrid.
Local Open Scope R_scope.

Section Form.
  Variables (s : similarity) (m : list Z) (per : list bool).
  Let D := length m. Let m' := img 0%Z s m. Let per' := img false s per.
  Hypothesis HG : grid_ok m per.
  Hypothesis HS : sim_ok D s.
  Let HD : (D = 2 \/ D = 3)%nat := proj1 HG.
  Let L b k := loc (ax s) (fl s) b k.
  Let A c := nth c (ax s) 0%nat.
  Lemma m_len : length m' = D. Proof. exact (img_len s m HS 0%Z m). Qed.
  Lemma E_perm : Permutation (map (cturn s m per) (E0 m per)) (E0 m' per').
  Proof. apply (enum_perm _ _ (cells_box m' per')); [apply cturn_enum; auto; apply E0_enum, HG|apply E0_enum]. apply (img_grid s m per); auto. Qed.
  Lemma gv_img k x x' e i c : vec_image s m per k x x' -> In e (E0 m per) -> (i < 2 ^ D)%nat -> (c < D)%nat -> gv m' per' x' (cturn s m per e) (L 2 i) c = k * (sgn s c * gv m per x e i (A c)).
  Proof.
    intros HX He Hi Hc. apply E0_enum in He; [|apply HG]. assert (Le : length e = length m) by (eapply cell_dim; eauto). unfold gv, m', per', L. rewrite corner_turn by auto. apply HX; auto.
    apply (wrap_in_nodes m per e); auto; [apply HG|apply HG|]. apply corner_near; rewrite Le; auto.
  Qed.
  Lemma gs_img k x x' e i : scal_image s m per k x x' -> In e (E0 m per) -> (i < 2 ^ D)%nat -> gv m' per' x' (cturn s m per e) (L 2 i) 0 = k * gv m per x e i 0.
  Proof.
    intros HX He Hi. apply E0_enum in He; [|apply HG]. assert (Le : length e = length m) by (eapply cell_dim; eauto). unfold gv, m', per', L. rewrite corner_turn by auto. apply HX; auto.
    apply (wrap_in_nodes m per e); auto; [apply HG|apply HG|]. apply corner_near; rewrite Le; auto.
  Qed.
  Lemma gv3_img k x x' e i c : vec_image (fine_sim s) (refined_size m per) per k x x' -> In e (E0 m per) -> (c < D)%nat -> gv3 (img 0%Z s (refined_size m per)) per' x' (cturn s m per e) (L 3 i) c = k * (sgn s c * gv3 (refined_size m per) per x e i (A c)).
  Proof.
    intros HX He Hc. apply E0_enum in He; [|apply HG]. assert (Le : length e = length m) by (eapply cell_dim; eauto). unfold gv3, per', L. rewrite corner3_turn by auto. apply HX.
    - apply gv3_node; auto.
    - assert (E : length (refined_size m per) = D) by (unfold refined_size; rewrite length_zip_with; auto; symmetry; apply HG). rewrite E. exact Hc.
  Qed.
  Lemma sum2 b F : (b = 2 \/ b = 3)%nat -> Rsum (b ^ D) F = Rsum (b ^ D) (fun k => F (L b k)).
  Proof. intros Hb. symmetry. exact (loc_sum D s HD HS b F Hb). Qed.
  Lemma scalar_turn M M' mu k kv x x' v v' : (forall i j, (i < 2 ^ D)%nat -> (j < 2 ^ D)%nat -> M' (L 2 i) (L 2 j) = mu * M i j) ->
    vec_image s m per k x x' -> vec_image s m per kv v v' -> scalar_form m' per' (E0 m' per') D M' v' x' = kv * k * mu * scalar_form m per (E0 m per) D M v x.
  Proof.
    intros HM HX HV. unfold scalar_form. rewrite m_len. fold D. rewrite <- (Lsum_perm _ _ _ E_perm), Lsum_map, <- Lsum_scal. apply Lsum_ext. intros e He.
    rewrite <- Rsum_scal. rewrite <- (ax_sum D s HS (fun c => kv * k * mu * Rsum (2 ^ D) (fun k1 => Rsum (2 ^ D) (fun k2 => gv m per v e k1 c * M k1 k2 * gv m per x e k2 c)))). apply Rsum_ext. intros c Hc. fold (A c).
    rewrite (sum2 2) by auto. rewrite <- Rsum_scal. apply Rsum_ext. intros i Hi. rewrite (sum2 2) by auto. rewrite <- Rsum_scal. apply Rsum_ext. intros j Hj.
    rewrite (gv_img kv v v') by assumption. rewrite (gv_img k x x') by assumption. rewrite HM by assumption. transitivity (kv * k * mu * (gv m per v e i (A c) * M i j * gv m per x e j (A c)) * (sgn s c * sgn s c)); [ring|]. rewrite sgn2. ring.
  Qed.
  Lemma tensor_turn M M' mu k kv x x' v v' : (forall i j p q, (i < 2 ^ D)%nat -> (j < 2 ^ D)%nat -> (p < D)%nat -> (q < D)%nat -> M' (L 2 i) (L 2 j) p q = mu * (sgn s p * sgn s q * M i j (A p) (A q))) ->
    vec_image s m per k x x' -> vec_image s m per kv v v' -> tensor_form m' per' (E0 m' per') D M' v' x' = kv * k * mu * tensor_form m per (E0 m per) D M v x.
  Proof.
    intros HM HX HV. unfold tensor_form. rewrite m_len. fold D. rewrite <- (Lsum_perm _ _ _ E_perm), Lsum_map, <- Lsum_scal. apply Lsum_ext. intros e He.
    rewrite (sum2 2) by auto. rewrite <- Rsum_scal. apply Rsum_ext. intros i Hi. rewrite (sum2 2) by auto. rewrite <- Rsum_scal. apply Rsum_ext. intros j Hj.
    rewrite <- Rsum_scal. rewrite <- (ax_sum D s HS (fun p => kv * k * mu * Rsum D (fun q => gv m per v e i p * M i j p q * gv m per x e j q))). apply Rsum_ext. intros p Hp. fold (A p).
    rewrite <- Rsum_scal. rewrite <- (ax_sum D s HS (fun q => kv * k * mu * (gv m per v e i (A p) * M i j (A p) q * gv m per x e j q))). apply Rsum_ext. intros q Hq. fold (A q).
    rewrite (gv_img kv v v') by assumption. rewrite (gv_img k x x') by assumption. rewrite HM by assumption. transitivity (kv * k * mu * (gv m per v e i (A p) * M i j (A p) (A q) * gv m per x e j (A q)) * ((sgn s p * sgn s p) * (sgn s q * sgn s q))); [ring|]. rewrite !sgn2. ring.
  Qed.
  Lemma div_turn M M' mu k kq u u' q q' : (forall i v d, (i < 2 ^ D)%nat -> (v < 3 ^ D)%nat -> (d < D)%nat -> M' (L 2 i) (L 3 v) d = mu * (sgn s d * M i v (A d))) ->
    vec_image (fine_sim s) (refined_size m per) per k u u' -> scal_image s m per kq q q' ->
    div_form (img 0%Z s (refined_size m per)) m' per' (E0 m' per') D M' q' u' = kq * k * mu * div_form (refined_size m per) m per (E0 m per) D M q u.
  Proof.
    intros HM HU HQ. unfold div_form. rewrite m_len. fold D. rewrite <- (Lsum_perm _ _ _ E_perm), Lsum_map, <- Lsum_scal. apply Lsum_ext. intros e He.
    rewrite (sum2 2) by auto. rewrite <- Rsum_scal. apply Rsum_ext. intros i Hi. rewrite (sum2 3) by auto. rewrite <- Rsum_scal. apply Rsum_ext. intros j Hj.
    rewrite <- Rsum_scal. rewrite <- (ax_sum D s HS (fun p => kq * k * mu * (gv m per q e i 0 * M i j p * gv3 (refined_size m per) per u e j p))). apply Rsum_ext. intros p Hp. fold (A p).
    rewrite (gs_img kq q q') by assumption. rewrite (gv3_img k u u') by assumption. rewrite HM by assumption. transitivity (kq * k * mu * (gv m per q e i 0 * M i j (A p) * gv3 (refined_size m per) per u e j (A p)) * (sgn s p * sgn s p)); [ring|]. rewrite sgn2. ring.
  Qed.
  Lemma aform_turn (strain : bool) h k kv x x' v v' : steps_ok h m -> vec_image s m per k x x' -> vec_image s m per kv v v' ->
    aform strain (img_steps s h) m' per' D v' x' = kv * k * lam s ^ (D - 2) * aform strain h m per D v x.
  Proof.
    intros Hh HX HV. unfold aform. destruct strain.
    - apply tensor_turn; auto. intros. apply (strain_turn s m h HD HS Hh); assumption.
    - apply scalar_turn; auto. intros. apply (lap_turn s m h HD HS Hh); assumption.
  Qed.
  Lemma massform_turn h k kv x x' v v' : steps_ok h m -> vec_image s m per k x x' -> vec_image s m per kv v v' ->
    scalar_form m' per' (E0 m' per') D (getMatElemMass (img_steps s h)) v' x' = kv * k * lam s ^ D * scalar_form m per (E0 m per) D (getMatElemMass h) v x.
  Proof. intros Hh HX HV. apply scalar_turn; auto. intros. apply (mass_turn_h s m h HD HS Hh); assumption. Qed.
  Lemma A_inj c c' : (c < D)%nat -> (c' < D)%nat -> A c = A c' -> c = c'.
  Proof.
    intros Hc Hc' E. apply (NoDup_nth (ax s) 0%nat); auto; try (rewrite (ax_len D s HS); assumption). apply (Permutation_NoDup (l := seq 0 D)); [symmetry; apply HS|apply seq_NoDup].
  Qed.
  Lemma unit_image n c : in_grid_box (nodes_box m) n -> (c < D)%nat -> vec_image s m per (sgn s c) (unit_field n (A c)) (unit_field (turn s m per n) c).
  Proof.
    intros Hn Hc n0 c0 Hn0 Hc0. fold D in Hc0. fold (A c0). unfold unit_field. destruct (same_node_spec (turn s m per n) (turn s m per n0)) as [E|E].
    - apply (turn_inj s m per) in E; auto. subst n0. destruct (same_node_spec n n) as [_|X]; [|congruence]. cbn [andb]. destruct (Nat.eqb_spec c c0) as [->|X].
      + rewrite Nat.eqb_refl, Rmult_1_r, sgn2. reflexivity.
      + destruct (Nat.eqb_spec (A c) (A c0)) as [Y|_]; [apply A_inj in Y; congruence|]. ring.
    - destruct (same_node_spec n n0) as [->|_]; [congruence|]. cbn [andb]. ring.
  Qed.
  Lemma unit_scal n : in_grid_box (nodes_box m) n -> scal_image s m per 1 (unit_field n 0) (unit_field (turn s m per n) 0).
  Proof.
    intros Hn n0 Hn0. unfold unit_field. destruct (same_node_spec (turn s m per n) (turn s m per n0)) as [E|E].
    - apply (turn_inj s m per) in E; auto. subst n0. destruct (same_node_spec n n) as [_|X]; [|congruence]. cbn. ring.
    - destruct (same_node_spec n n0) as [->|_]; [congruence|]. cbn [andb]. ring.
  Qed.
End Form.
