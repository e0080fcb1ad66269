(** Facts about [cpow] (std::pow on non-negative arguments). *)
From Verif Require Import Base.
Open Scope R_scope.

Lemma cpow_0_l y : y <> 0 -> cpow 0 y = 0.
Proof. intros H; unfold cpow; destruct (Req_EM_T 0 0); [|congruence]. destruct (Req_EM_T y 0); congruence. Qed.
Lemma cpow_pos_eq x y : 0 < x -> cpow x y = Rpower x y.
Proof. intros H; unfold cpow; destruct (Req_EM_T x 0); [lra|reflexivity]. Qed.
Lemma cpow_pos x y : 0 < x -> 0 < cpow x y.
Proof. intros H; rewrite cpow_pos_eq by exact H. apply exp_pos. Qed.
Lemma cpow_nonneg x y : 0 <= x -> 0 < y -> 0 <= cpow x y.
Proof.
  intros Hx Hy. destruct Hx as [Hx|<-]; [left; apply cpow_pos, Hx|]. rewrite cpow_0_l; lra.
Qed.
Lemma cpow_1_l y : cpow 1 y = 1.
Proof. rewrite cpow_pos_eq by lra. unfold Rpower. rewrite ln_1, Rmult_0_r, exp_0. reflexivity. Qed.
Lemma cpow_1_r x : 0 <= x -> cpow x 1 = x.
Proof. intros [H|<-]; [rewrite cpow_pos_eq, Rpower_1 by exact H; reflexivity|apply cpow_0_l; lra]. Qed.
Lemma cpow_2_r x : 0 <= x -> cpow x 2 = x * x.
Proof.
  intros [H|<-]; [|rewrite cpow_0_l; lra]. rewrite cpow_pos_eq by exact H.
  replace 2 with (INR 2) by (simpl; lra). rewrite Rpower_pow by exact H. simpl; ring.
Qed.
Lemma cpow_nat x n : 0 <= x -> (0 < n)%nat -> cpow x (INR n) = x ^ n.
Proof.
  intros [H|<-] Hn; [rewrite cpow_pos_eq by exact H; apply Rpower_pow, H|].
  rewrite cpow_0_l by (apply not_0_INR; lia). symmetry; apply pow_i; exact Hn.
Qed.
Lemma cpow_mult x a b : 0 <= x -> 0 < a -> 0 < b -> cpow (cpow x a) b = cpow x (a * b).
Proof.
  intros [H|<-] Ha Hb.
  - rewrite (cpow_pos_eq (cpow x a)) by (apply cpow_pos, H). rewrite !cpow_pos_eq by exact H. apply Rpower_mult.
  - rewrite (cpow_0_l a), (cpow_0_l b), cpow_0_l by nra. reflexivity.
Qed.
Lemma cpow_mul_base x y a : 0 <= x -> 0 <= y -> 0 < a -> cpow (x * y) a = cpow x a * cpow y a.
Proof.
  intros [Hx|<-] [Hy|<-] Ha.
  - rewrite !cpow_pos_eq by (try apply Rmult_lt_0_compat; assumption). symmetry; apply Rpower_mult_distr; assumption.
  - rewrite Rmult_0_r, cpow_0_l by lra; ring.
  - rewrite Rmult_0_l, cpow_0_l by lra; ring.
  - rewrite Rmult_0_l, cpow_0_l by lra; ring.
Qed.
Lemma cpow_lt x y a : 0 <= x -> x < y -> 0 < a -> cpow x a < cpow y a.
Proof.
  intros [Hx|<-] Hxy Ha.
  - rewrite !cpow_pos_eq by lra. unfold Rpower. apply exp_increasing.
    apply Rmult_lt_compat_l; [exact Ha|]. apply ln_increasing; assumption.
  - rewrite cpow_0_l by lra. apply cpow_pos; lra.
Qed.
Lemma cpow_le x y a : 0 <= x -> x <= y -> 0 < a -> cpow x a <= cpow y a.
Proof. intros Hx [H|<-] Ha; [left; apply cpow_lt; assumption|right; reflexivity]. Qed.
Lemma cpow_lt_1 x a : 0 <= x -> 0 < a -> cpow x a < 1 -> x < 1.
Proof.
  intros Hx Ha H. apply Rnot_le_lt; intros H1.
  assert (cpow 1 a <= cpow x a) by (apply cpow_le; lra). rewrite cpow_1_l in *. lra.
Qed.
Lemma cpow_inj x y a : 0 <= x -> 0 <= y -> 0 < a -> cpow x a = cpow y a -> x = y.
Proof.
  intros Hx Hy Ha H. destruct (Rtotal_order x y) as [L|[E|L]]; [|exact E|].
  - apply (cpow_lt x y a) in L; lra.
  - apply (cpow_lt y x a) in L; lra.
Qed.
Lemma cpow_root x a : 0 <= x -> 0 < a -> cpow (cpow x a) (1 / a) = x.
Proof.
  intros Hx Ha. assert (0 < 1 / a) by (unfold Rdiv; rewrite Rmult_1_l; apply Rinv_0_lt_compat, Ha).
  rewrite cpow_mult by assumption. replace (a * (1 / a)) with 1 by (field; lra). apply cpow_1_r, Hx.
Qed.
Lemma cpow_root' x a : 0 <= x -> 0 < a -> cpow (cpow x (1 / a)) a = x.
Proof.
  intros Hx Ha. assert (0 < 1 / a) by (unfold Rdiv; rewrite Rmult_1_l; apply Rinv_0_lt_compat, Ha).
  rewrite cpow_mult by assumption. replace (1 / a * a) with 1 by (field; lra). apply cpow_1_r, Hx.
Qed.
Close Scope R_scope.
