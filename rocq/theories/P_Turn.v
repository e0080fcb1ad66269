(** Forms and grids under the similarities of S_Turn. *)
From Coq Require Import QArith Qreals Permutation FunctionalExtensionality.
From Coquelicot Require Import Coquelicot.
From Verif Require Import Base M_Geometry S_Geometry P_Geometry M_Particle S_Particle P_Particle M_Quadrature S_Fem P_Energy M_MatElem P_MatElem M_Mesh M_Operator M_Bc S_Operator S_Bc P_Mesh P_Operator P_Operator2 P_Global P_Stokes P_Operator3.
From Verif Require Import P_Precond P_QuadTab P_Div.
From Verif Require Import S_Turn P_TurnTab.
Local Open Scope R_scope.

Lemma nth_all {A} (d : A) (l : list A) : map (fun i => nth i l d) (seq 0 (length l)) = l.
Proof. induction l as [|x l IH]; [reflexivity|]. cbn [length seq map]. f_equal. rewrite <- seq_shift. rewrite map_map. exact IH. Qed.
(** ** element matrices *)
Section Elem.
  Variables (s : similarity) (m : list Z) (h : list R).
  Let D := length m. Let h' := img_steps s h.
  Hypothesis HD : (D = 2 \/ D = 3)%nat.
  Hypothesis HS : sim_ok D s.
  Hypothesis Hh : steps_ok h m.
  Let L b k := loc (ax s) (fl s) b k.
  Let lp : 0 < lam s := proj2 (proj2 (proj2 HS)).
  Lemma img_len {A} (d : A) (l : list A) : length (img d s l) = D.
  Proof. unfold img. rewrite map_length. exact (ax_len D s HS). Qed.
  Lemma img_nth {A} (d : A) (l : list A) i : (i < D)%nat -> nth i (img d s l) d = nth (nth i (ax s) 0%nat) l d.
  Proof. intros Hi. unfold img. rewrite (nth_indep _ d (nth 0 l d)) by (rewrite map_length, (ax_len D s HS); exact Hi). rewrite (map_nth (fun i => nth i l d)). reflexivity. Qed.
  Lemma st_img d : (d < D)%nat -> st h' d = lam s * st h (nth d (ax s) 0%nat).
  Proof.
    intros Hd. unfold st, h', img_steps. rewrite (nth_indep _ 0 (lam s * 0)) by (rewrite map_length, img_len; exact Hd). rewrite (map_nth (Rmult (lam s))). rewrite img_nth by exact Hd. reflexivity.
  Qed.
  Lemma img_perm {A} (d : A) (l : list A) : length l = D -> Permutation (img d s l) l.
  Proof.
    intros Hl. unfold img. transitivity (map (fun i => nth i l d) (seq 0 D)); [apply Permutation_map, HS|]. apply Permutation_refl'. rewrite <- Hl. apply nth_all.
  Qed.
  Lemma img_steps_ok m' : length m' = D -> steps_ok h' m'.
  Proof.
    intros Hm. destruct Hh as [Lh Fh]. split; [unfold h', img_steps; rewrite map_length, img_len, Hm; reflexivity|]. unfold h', img_steps. rewrite Forall_map.
    eapply Permutation_Forall; [symmetry; apply img_perm; exact Lh|]. eapply Forall_impl; [|exact Fh]. intros a Ha. cbn beta. apply Rmult_lt_0_compat; auto.
  Qed.
  Lemma vol_perm l l' : Permutation l l' -> vol l = vol l'.
  Proof. induction 1; cbn; try ring; try congruence. - unfold vol in *. cbn in *. rewrite IHPermutation. ring. Qed.
  Lemma vol_scale k l : vol (map (Rmult k) l) = k ^ length l * vol l.
  Proof. induction l as [|a l IH]; cbn; [ring|]. unfold vol in *. rewrite IH. ring. Qed.
  Lemma vol_img : vol h' = lam s ^ D * vol h.
  Proof. unfold h', img_steps. rewrite vol_scale, img_len, (vol_perm _ _ (img_perm 0 h (proj1 Hh))). reflexivity. Qed.
  Lemma pow_less k : (k <= D)%nat -> lam s ^ (D - k) * lam s ^ k = lam s ^ D.
  Proof. intros Hk. rewrite <- pow_add. f_equal. lia. Qed.
  Let m' := img 0%Z s m.
  Let Lm' : length m' = D := img_len 0%Z m.
  Let Hh' : steps_ok h' m' := img_steps_ok m' Lm'.
  Let st_pos d : (d < D)%nat -> 0 < st h d.
  Proof. intros Hd. unfold st. destruct Hh as [Lh Fh]. rewrite Forall_forall in Fh. apply Fh, nth_In. fold D in Lh. rewrite Lh. exact Hd. Qed.
  Lemma diag_sum i j : (i < 2 ^ D)%nat -> (j < 2 ^ D)%nat ->
    Rsum D (fun d => / st h' d ^ 2 * cross D d d (L 2 i) (L 2 j)) = / lam s ^ 2 * Rsum D (fun d => / st h d ^ 2 * cross D d d i j).
  Proof.
    intros Hi Hj. rewrite <- Rsum_scal, <- (ax_sum D s HS (fun d => / lam s ^ 2 * (/ st h d ^ 2 * cross D d d i j))). apply Rsum_ext. intros d Hd. unfold L. rewrite (cross_turn D s HD HS d d i j) by assumption. rewrite st_img by exact Hd. pose proof (st_pos _ (ax_lt D s HS d Hd)). rewrite (sgn2 s). field. lra.
  Qed.
  Lemma lap_turn i j : (i < 2 ^ D)%nat -> (j < 2 ^ D)%nat -> getMatElemLaplacian h' (L 2 i) (L 2 j) = lam s ^ (D - 2) * getMatElemLaplacian h i j.
  Proof.
    intros Hi Hj. assert (HD' : length m' = 2%nat \/ length m' = 3%nat) by (rewrite Lm'; exact HD). rewrite (e_lap h' m') by (auto; rewrite Lm'; apply (loc_lt D s HD HS); auto). rewrite (e_lap h m) by auto. rewrite Lm'. fold D. rewrite diag_sum by assumption. rewrite vol_img, <- (pow_less 2) by lia. field. lra.
  Qed.
  Lemma dl_ax p q : (p < D)%nat -> (q < D)%nat -> dl p q = dl (nth p (ax s) 0%nat) (nth q (ax s) 0%nat).
  Proof.
    intros Hp Hq. unfold dl. destruct (Nat.eqb_spec p q) as [->|N]; [rewrite Nat.eqb_refl; reflexivity|]. destruct (Nat.eqb_spec (nth p (ax s) 0%nat) (nth q (ax s) 0%nat)) as [E|]; [|reflexivity]. exfalso. apply N.
    apply (NoDup_nth (ax s) 0%nat); auto; try (rewrite (ax_len D s HS); assumption). apply (Permutation_NoDup (l := seq 0 D)); [symmetry; apply HS|apply seq_NoDup].
  Qed.
  Lemma strain_turn i j p q : (i < 2 ^ D)%nat -> (j < 2 ^ D)%nat -> (p < D)%nat -> (q < D)%nat ->
    getMatElemStrainTensor h' (L 2 i) (L 2 j) p q = lam s ^ (D - 2) * (sgn s p * sgn s q * getMatElemStrainTensor h i j (nth p (ax s) 0%nat) (nth q (ax s) 0%nat)).
  Proof.
    intros Hi Hj Hp Hq. assert (HD' : length m' = 2%nat \/ length m' = 3%nat) by (rewrite Lm'; exact HD). pose proof (ax_lt D s HS p Hp). pose proof (ax_lt D s HS q Hq).
    rewrite (e_strain h' m') by (auto; rewrite Lm'; auto; apply (loc_lt D s HD HS); auto). rewrite (e_strain h m) by auto. rewrite Lm'. fold D. rewrite diag_sum by assumption. unfold L. rewrite (cross_turn D s HD HS q p i j) by assumption.
    rewrite !st_img, vol_img, <- (pow_less 2) by (assumption || lia). pose proof (st_pos _ (ax_lt D s HS p Hp)). pose proof (st_pos _ (ax_lt D s HS q Hq)). rewrite <- (dl_ax p q) by assumption.
    assert (E : dl p q = sgn s p * sgn s q * dl p q). { unfold dl. destruct (Nat.eqb_spec p q) as [->|]; [rewrite sgn2; ring|ring]. }
    rewrite E. assert (E2 : sgn s p * sgn s q * (sgn s p * sgn s q * dl p q) = dl p q) by (transitivity ((sgn s p * sgn s p) * (sgn s q * sgn s q) * dl p q); [ring|rewrite !sgn2; ring]).
    rewrite Rmult_plus_distr_l. rewrite (Rmult_comm (vol h)), Rmult_plus_distr_r, !Rmult_plus_distr_l. f_equal.
    - transitivity (lam s ^ (D - 2) * vol h * Rsum D (fun d => / st h d ^ 2 * cross D d d i j) * (sgn s p * sgn s q * dl p q)); [field; lra|]. rewrite <- E at 1. rewrite <- E2 at 1. ring.
    - field. lra.
  Qed.
  Lemma half2 l : map (fun a : R => 2 * a) (map (fun a => / 2 * a) l) = l.
  Proof. rewrite map_map. rewrite <- (map_id l) at 2. apply map_ext. intros; field. Qed.
  Lemma mass_turn_h i j : (i < 2 ^ D)%nat -> (j < 2 ^ D)%nat -> getMatElemMass h' (L 2 i) (L 2 j) = lam s ^ D * getMatElemMass h i j.
  Proof.
    intros Hi Hj. assert (HD' : length m' = 2%nat \/ length m' = 3%nat) by (rewrite Lm'; exact HD).
    assert (HF : forall l n, steps_ok l n -> steps_ok (map (fun a => / 2 * a) l) n) by (intros l n [A B]; split; [rewrite map_length; exact A|rewrite Forall_map; eapply Forall_impl; [|exact B]; intros a Ha; cbn beta in *; lra]).
    rewrite <- (half2 h'), <- (half2 h). rewrite (e_mass _ m' _ _ (HF _ _ Hh')) by (auto; rewrite Lm'; apply (loc_lt D s HD HS); auto). rewrite (e_mass _ m _ _ (HF _ _ Hh)) by auto. rewrite Lm'. fold D. unfold L. rewrite (mass_turn D s HD HS) by assumption.
    rewrite !(vol_scale (/ 2)). fold h'. rewrite vol_img. rewrite (proj1 Hh'), (proj1 Hh), Lm'. fold D. ring.
  Qed.
  Lemma press_turn_h i v d : (i < 2 ^ D)%nat -> (v < 3 ^ D)%nat -> (d < D)%nat ->
    getMatElemPressure h' (L 2 i) (L 3 v) d = lam s ^ (D - 1) * (sgn s d * getMatElemPressure h i v (nth d (ax s) 0%nat)).
  Proof.
    intros Hi Hv Hd. assert (HD' : length m' = 2%nat \/ length m' = 3%nat) by (rewrite Lm'; exact HD). pose proof (ax_lt D s HS d Hd).
    rewrite (e_press h' m') by (auto; rewrite Lm'; auto; apply (loc_lt D s HD HS); auto). rewrite (e_press h m) by auto. rewrite Lm'. fold D. unfold L. rewrite (press_turn D s HD HS) by assumption.
    rewrite st_img, vol_img, <- (pow_less 1) by (assumption || lia). pose proof (st_pos _ H). rewrite pow_1. field. lra.
  Qed.
End Elem.
