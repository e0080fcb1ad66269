(** Lemmas for Prop_MatElem. *)
From Coquelicot Require Import Coquelicot.
From Coq Require Import QArith Qreals.
From Verif Require Import Base M_MatElem S_Fem.
Open Scope R_scope.

(** integrals of separable functions *)
Lemma is_RInt_cmul (f : R -> R) a b c I : is_RInt f a b I -> is_RInt (fun x => c * f x) a b (c * I).
Proof. intros H. exact (is_RInt_scal f a b c I H). Qed.
Lemma is_RInt_mulc (f : R -> R) a b c I : is_RInt f a b I -> is_RInt (fun x => f x * c) a b (I * c).
Proof.
  intros H. rewrite (Rmult_comm I). apply (is_RInt_ext (fun x => c * f x)); [intros; apply Rmult_comm|].
  apply is_RInt_cmul, H.
Qed.
Lemma is_RInt_sum (f g : R -> R) a b I J : is_RInt f a b I -> is_RInt g a b J -> is_RInt (fun x => f x + g x) a b (I + J).
Proof. intros H K. exact (is_RInt_plus f g a b I J H K). Qed.

Lemma is_int2_sep A B a0 b0 a1 b1 IA IB : is_RInt A a0 b0 IA -> is_RInt B a1 b1 IB ->
  is_int2 (fun x y => A x * B y) a0 b0 a1 b1 (IA * IB).
Proof.
  intros HA HB. exists (fun y => IA * B y). split; [|apply is_RInt_cmul, HB].
  intros y _. apply is_RInt_mulc, HA.
Qed.
Lemma is_int2_plus f g a0 b0 a1 b1 I J : is_int2 f a0 b0 a1 b1 I -> is_int2 g a0 b0 a1 b1 J ->
  is_int2 (fun x y => f x y + g x y) a0 b0 a1 b1 (I + J).
Proof.
  intros [F [HF1 HF2]] [G [HG1 HG2]]. exists (fun y => F y + G y). split.
  - intros y Hy. apply is_RInt_sum; auto.
  - apply is_RInt_sum; auto.
Qed.
Lemma is_int2_cmul f c a0 b0 a1 b1 I : is_int2 f a0 b0 a1 b1 I -> is_int2 (fun x y => c * f x y) a0 b0 a1 b1 (c * I).
Proof.
  intros [F [HF1 HF2]]. exists (fun y => c * F y). split; [intros y Hy|]; apply is_RInt_cmul; auto.
Qed.
Lemma is_int2_ext f g a0 b0 a1 b1 I : a0 < b0 -> (forall x y, a0 < x < b0 -> a1 < y < b1 -> f x y = g x y) ->
  is_int2 f a0 b0 a1 b1 I -> is_int2 g a0 b0 a1 b1 I.
Proof.
  intros Hab E [F [HF1 HF2]]. exists F. split; [|exact HF2]. intros y Hy.
  apply (is_RInt_ext (fun x => f x y)); [|auto]. intros x Hx. rewrite Rmin_left, Rmax_right in Hx by lra. auto.
Qed.
Lemma is_int3_sep A B C a0 b0 a1 b1 a2 b2 IA IB IC : is_RInt A a0 b0 IA -> is_RInt B a1 b1 IB -> is_RInt C a2 b2 IC ->
  is_int3 (fun x y z => A x * B y * C z) a0 b0 a1 b1 a2 b2 (IA * IB * IC).
Proof.
  intros HA HB HC. exists (fun z => IA * IB * C z). split; [|apply is_RInt_cmul, HC].
  intros z _. destruct (is_int2_sep A B a0 b0 a1 b1 IA IB HA HB) as [g [H1 H2]].
  exists (fun y => g y * C z). split; [intros y Hy|]; apply is_RInt_mulc; auto.
Qed.
Lemma is_int3_plus f g a0 b0 a1 b1 a2 b2 I J : is_int3 f a0 b0 a1 b1 a2 b2 I -> is_int3 g a0 b0 a1 b1 a2 b2 J ->
  is_int3 (fun x y z => f x y z + g x y z) a0 b0 a1 b1 a2 b2 (I + J).
Proof.
  intros [F [HF1 HF2]] [G [HG1 HG2]]. exists (fun y => F y + G y). split.
  - intros z Hz. apply is_int2_plus; auto.
  - apply is_RInt_sum; auto.
Qed.
Lemma is_int3_cmul f c a0 b0 a1 b1 a2 b2 I : is_int3 f a0 b0 a1 b1 a2 b2 I -> is_int3 (fun x y z => c * f x y z) a0 b0 a1 b1 a2 b2 (c * I).
Proof.
  intros [F [HF1 HF2]]. exists (fun y => c * F y). split; [intros y Hy; apply is_int2_cmul; auto|apply is_RInt_cmul; auto].
Qed.
Lemma is_int3_ext f g a0 b0 a1 b1 a2 b2 I : a0 < b0 ->
  (forall x y z, a0 < x < b0 -> a1 < y < b1 -> a2 < z < b2 -> f x y z = g x y z) ->
  is_int3 f a0 b0 a1 b1 a2 b2 I -> is_int3 g a0 b0 a1 b1 a2 b2 I.
Proof.
  intros Hab E [F [HF1 HF2]]. exists F. split; [|exact HF2]. intros z Hz.
  apply (is_int2_ext (fun x y => f x y z)); [exact Hab|intros; apply E; auto|auto].
Qed.
Lemma is_int2_unique f a0 b0 a1 b1 I J : a1 < b1 -> is_int2 f a0 b0 a1 b1 I -> is_int2 f a0 b0 a1 b1 J -> I = J.
Proof.
  intros H1 [F [HF1 HF2]] [G [HG1 HG2]]. rewrite <- (is_RInt_unique _ _ _ _ HG2).
  rewrite <- (is_RInt_unique _ _ _ _ HF2). apply RInt_ext. intros y Hy. rewrite Rmin_left, Rmax_right in Hy by lra.
  rewrite <- (is_RInt_unique _ _ _ _ (HF1 y Hy)). apply (is_RInt_unique _ _ _ _ (HG1 y Hy)).
Qed.

(** 1D integrals *)
Definition mass1 (r s : bool) : Q := if Bool.eqb r s then 1#3 else 1#6.
Definition stiff1 (r s : bool) : Q := if Bool.eqb r s then 1 else -1.
Definition conv1 (r s : bool) : Q := if r then 1#2 else -1#2.   (* dhat r * hat s *)
Ltac q2r := unfold Q2R; simpl Qnum; simpl Qden.
Lemma is_RInt_poly (F f : R -> R) a b v : (forall x, is_derive F x (f x)) -> (forall x, ex_derive f x) -> v = F b - F a -> is_RInt f a b v.
Proof. intros HF Hf ->. apply (is_RInt_derive F f); auto. intros x _. apply (ex_derive_continuous f x), Hf. Qed.
Ltac poly_int F := apply (is_RInt_poly F); [intros; auto_derive; auto; field; lra|intros; auto_derive; auto|q2r; field; lra].

Lemma mass1_int h r s : 0 < h -> is_RInt (fun x => hat r (x / h) * hat s (x / h)) 0 h (h * Q2R (mass1 r s)).
Proof.
  intros Hh.
  destruct r, s; unfold hat, mass1; simpl.
  - poly_int (fun x => x * x * x / (3 * (h * h))).
  - poly_int (fun x => x * x / (2 * h) - x * x * x / (3 * (h * h))).
  - poly_int (fun x => x * x / (2 * h) - x * x * x / (3 * (h * h))).
  - poly_int (fun x => x - x * x / h + x * x * x / (3 * (h * h))).
Qed.
Lemma stiff1_int h r s : 0 < h -> is_RInt (fun _ => dhat r / h * (dhat s / h)) 0 h (/ h * Q2R (stiff1 r s)).
Proof.
  intros Hh. replace (/ h * Q2R (stiff1 r s)) with ((h - 0) * (dhat r / h * (dhat s / h))).
  - exact (is_RInt_const 0 h (dhat r / h * (dhat s / h))).
  - destruct r, s; unfold dhat, stiff1; simpl; q2r; field; lra.
Qed.
Lemma conv1_int h r s : 0 < h -> is_RInt (fun x => dhat r / h * hat s (x / h)) 0 h (Q2R (conv1 r s)).
Proof.
  intros Hh.
  assert (L : is_RInt (fun x => hat s (x / h)) 0 h (h * Q2R (1#2))).
  { destruct s; unfold hat.
    - poly_int (fun x => x * x / (2 * h)).
    - poly_int (fun x => x - x * x / (2 * h)). }
  replace (Q2R (conv1 r s)) with (dhat r / h * (h * Q2R (1#2))) by (destruct r; unfold dhat, conv1; q2r; field; lra).
  apply is_RInt_cmul, L.
Qed.

(** derivatives of the shape functions *)
Lemma Derive_hat r h x : h <> 0 -> Derive (fun t => hat r (t / h)) x = dhat r / h.
Proof. intros Hh. apply is_derive_unique. destruct r; unfold hat, dhat; auto_derive; auto; field; lra. Qed.
Lemma D2_sep0 (A B : R -> R) x y : D2 0 (fun x y => A x * B y) x y = Derive A x * B y.
Proof. unfold D2. rewrite Derive_scal_l. reflexivity. Qed.
Lemma D2_sep1 (A B : R -> R) x y : D2 1 (fun x y => A x * B y) x y = A x * Derive B y.
Proof. unfold D2. rewrite Derive_scal. reflexivity. Qed.
Lemma D3_sep0 (A B C : R -> R) x y z : D3 0 (fun x y z => A x * B y * C z) x y z = Derive A x * B y * C z.
Proof. unfold D3. rewrite !Derive_scal_l. reflexivity. Qed.
Lemma D3_sep1 (A B C : R -> R) x y z : D3 1 (fun x y z => A x * B y * C z) x y z = A x * Derive B y * C z.
Proof. unfold D3. rewrite Derive_scal_l, Derive_scal. reflexivity. Qed.
Lemma D3_sep2 (A B C : R -> R) x y z : D3 2 (fun x y z => A x * B y * C z) x y z = A x * B y * Derive C z.
Proof. unfold D3. rewrite Derive_scal. reflexivity. Qed.

(** tables *)
Lemma table_ok (T : list (list Q)) (f : nat -> nat -> Q) n m :
  forallb (fun i => forallb (fun j => Qeq_bool (nth j (nth i T []) 0%Q) (f i j)) (seq 0 m)) (seq 0 n) = true ->
  forall i j, (i < n)%nat -> (j < m)%nat -> entry T i j = Q2R (f i j).
Proof.
  intros H i j Hi Hj. unfold entry. apply Qeq_eqR, Qeq_bool_iff.
  rewrite forallb_forall in H. specialize (H i ltac:(apply in_seq; lia)).
  rewrite forallb_forall in H. apply (H j). apply in_seq; lia.
Qed.
Definition vx2 (i : nat) : bool := fst (nth i vertices2 (false, false)).
Definition vy2 (i : nat) : bool := snd (nth i vertices2 (false, false)).
Definition vx3 (i : nat) : bool := fst (fst (nth i vertices3 (false, false, false))).
Definition vy3 (i : nat) : bool := snd (fst (nth i vertices3 (false, false, false))).
Definition vz3 (i : nat) : bool := snd (nth i vertices3 (false, false, false)).

Lemma tab_dxudxu2 i j : (i < 4)%nat -> (j < 4)%nat -> matElem2d_dxudxu i j = Q2R (stiff1 (vx2 i) (vx2 j)) * Q2R (mass1 (vy2 i) (vy2 j)).
Proof. intros. rewrite <- Q2R_mult. apply (table_ok _ (fun i j => (stiff1 (vx2 i) (vx2 j) * mass1 (vy2 i) (vy2 j))%Q) 4 4); auto. Qed.
Lemma tab_dyudyu2 i j : (i < 4)%nat -> (j < 4)%nat -> matElem2d_dyudyu i j = Q2R (mass1 (vx2 i) (vx2 j)) * Q2R (stiff1 (vy2 i) (vy2 j)).
Proof. intros. rewrite <- Q2R_mult. apply (table_ok _ (fun i j => (mass1 (vx2 i) (vx2 j) * stiff1 (vy2 i) (vy2 j))%Q) 4 4); auto. Qed.
Lemma tab_dxudyu2 i j : (i < 4)%nat -> (j < 4)%nat -> matElem2d_dxudyu i j = Q2R (conv1 (vx2 j) (vx2 i)) * Q2R (conv1 (vy2 i) (vy2 j)).
Proof. intros. rewrite <- Q2R_mult. apply (table_ok _ (fun i j => (conv1 (vx2 j) (vx2 i) * conv1 (vy2 i) (vy2 j))%Q) 4 4); auto. Qed.
Lemma tab_mass2 i j : (i < 4)%nat -> (j < 4)%nat -> matElemMass2d i j = Q2R (mass1 (vx2 i) (vx2 j)) * Q2R (mass1 (vy2 i) (vy2 j)).
Proof. intros. rewrite <- Q2R_mult. apply (table_ok _ (fun i j => (mass1 (vx2 i) (vx2 j) * mass1 (vy2 i) (vy2 j))%Q) 4 4); auto. Qed.
Ltac tab3 F := intros; rewrite <- !Q2R_mult; apply (table_ok _ F 8 8); auto.
Lemma tab_dxudxu3 i j : (i < 8)%nat -> (j < 8)%nat -> matElem3d_dxudxu i j = Q2R (stiff1 (vx3 i) (vx3 j)) * Q2R (mass1 (vy3 i) (vy3 j)) * Q2R (mass1 (vz3 i) (vz3 j)).
Proof. tab3 (fun i j => (stiff1 (vx3 i) (vx3 j) * mass1 (vy3 i) (vy3 j) * mass1 (vz3 i) (vz3 j))%Q). Qed.
Lemma tab_dyudyu3 i j : (i < 8)%nat -> (j < 8)%nat -> matElem3d_dyudyu i j = Q2R (mass1 (vx3 i) (vx3 j)) * Q2R (stiff1 (vy3 i) (vy3 j)) * Q2R (mass1 (vz3 i) (vz3 j)).
Proof. tab3 (fun i j => (mass1 (vx3 i) (vx3 j) * stiff1 (vy3 i) (vy3 j) * mass1 (vz3 i) (vz3 j))%Q). Qed.
Lemma tab_dzudzu3 i j : (i < 8)%nat -> (j < 8)%nat -> matElem3d_dzudzu i j = Q2R (mass1 (vx3 i) (vx3 j)) * Q2R (mass1 (vy3 i) (vy3 j)) * Q2R (stiff1 (vz3 i) (vz3 j)).
Proof. tab3 (fun i j => (mass1 (vx3 i) (vx3 j) * mass1 (vy3 i) (vy3 j) * stiff1 (vz3 i) (vz3 j))%Q). Qed.
Lemma tab_dxudyu3 i j : (i < 8)%nat -> (j < 8)%nat -> matElem3d_dxudyu i j = Q2R (conv1 (vx3 j) (vx3 i)) * Q2R (conv1 (vy3 i) (vy3 j)) * Q2R (mass1 (vz3 i) (vz3 j)).
Proof. tab3 (fun i j => (conv1 (vx3 j) (vx3 i) * conv1 (vy3 i) (vy3 j) * mass1 (vz3 i) (vz3 j))%Q). Qed.
Lemma tab_dyudzu3 i j : (i < 8)%nat -> (j < 8)%nat -> matElem3d_dyudzu i j = Q2R (mass1 (vx3 i) (vx3 j)) * Q2R (conv1 (vy3 j) (vy3 i)) * Q2R (conv1 (vz3 i) (vz3 j)).
Proof. tab3 (fun i j => (mass1 (vx3 i) (vx3 j) * conv1 (vy3 j) (vy3 i) * conv1 (vz3 i) (vz3 j))%Q). Qed.
Lemma tab_dxudzu3 i j : (i < 8)%nat -> (j < 8)%nat -> matElem3d_dxudzu i j = Q2R (conv1 (vx3 j) (vx3 i)) * Q2R (mass1 (vy3 i) (vy3 j)) * Q2R (conv1 (vz3 i) (vz3 j)).
Proof. tab3 (fun i j => (conv1 (vx3 j) (vx3 i) * mass1 (vy3 i) (vy3 j) * conv1 (vz3 i) (vz3 j))%Q). Qed.
Lemma tab_mass3 i j : (i < 8)%nat -> (j < 8)%nat -> matElemMass3d i j = Q2R (mass1 (vx3 i) (vx3 j)) * Q2R (mass1 (vy3 i) (vy3 j)) * Q2R (mass1 (vz3 i) (vz3 j)).
Proof. tab3 (fun i j => (mass1 (vx3 i) (vx3 j) * mass1 (vy3 i) (vy3 j) * mass1 (vz3 i) (vz3 j))%Q). Qed.

(** ---- tents ---- *)
(** tent k is affine on both halves: value a + b t *)
Definition tl_a (k : nat) : R := match k with 0%nat => 1 | _ => 0 end.
Definition tl_b (k : nat) : R := match k with 0%nat => -1 | 1%nat => 1 | _ => 0 end.
Definition tr_a (k : nat) : R := match k with 0%nat => 0 | 1%nat => 2 | _ => -1 end.
Definition tr_b (k : nat) : R := match k with 0%nat => 0 | 1%nat => -1 | _ => 1 end.
Lemma tent_left k t : (k < 3)%nat -> 0 <= t <= 1 -> tent k t = tl_a k + tl_b k * t.
Proof.
  intros Hk Ht. destruct k as [|[|[|k]]]; [| | |lia]; unfold tent, tl_a, tl_b; simpl INR; unfold Rmax, Rabs;
  repeat match goal with |- context [Rcase_abs ?x] => destruct (Rcase_abs x) | |- context [Rle_dec ?x ?y] => destruct (Rle_dec x y) end; lra.
Qed.
Lemma tent_right k t : (k < 3)%nat -> 1 <= t <= 2 -> tent k t = tr_a k + tr_b k * t.
Proof.
  intros Hk Ht. destruct k as [|[|[|k]]]; [| | |lia]; unfold tent, tr_a, tr_b; simpl INR; unfold Rmax, Rabs;
  repeat match goal with |- context [Rcase_abs ?x] => destruct (Rcase_abs x) | |- context [Rle_dec ?x ?y] => destruct (Rle_dec x y) end; lra.
Qed.
Lemma div_bounds a b x h : 0 < h -> a * h < x < b * h -> a < x / h < b.
Proof.
  intros Hh [H1 H2]. split; apply (Rmult_lt_reg_r h); auto; unfold Rdiv; rewrite Rmult_assoc, Rinv_l by lra; lra.
Qed.
Lemma Derive_tent_left k h x : (k < 3)%nat -> 0 < h -> 0 < x < h -> Derive (fun t => tent k (t / h)) x = tl_b k / h.
Proof.
  intros Hk Hh Hx. transitivity (Derive (fun t => tl_a k + tl_b k * (t / h)) x).
  - apply Derive_ext_loc. 
    apply (locally_interval _ x 0 h); simpl; [lra|lra|]. intros y Hy1 Hy2. apply tent_left; auto.
    simpl in *. assert (0 < y / h < 1) by (apply div_bounds; [auto|lra]). lra.
  - apply is_derive_unique. auto_derive; auto. field. lra.
Qed.
Lemma Derive_tent_right k h x : (k < 3)%nat -> 0 < h -> h < x < 2 * h -> Derive (fun t => tent k (t / h)) x = tr_b k / h.
Proof.
  intros Hk Hh Hx. transitivity (Derive (fun t => tr_a k + tr_b k * (t / h)) x).
  - apply Derive_ext_loc.
    apply (locally_interval _ x h (2 * h)); simpl; [lra|lra|]. intros y Hy1 Hy2. apply tent_right; auto.
    simpl in *. assert (1 < y / h < 2) by (apply div_bounds; [auto|lra]). lra.
  - apply is_derive_unique. auto_derive; auto. field. lra.
Qed.
Definition pm1 (r : bool) (k : nat) : Q :=
  match k with 0%nat => if r then 1#12 else 5#12 | 1%nat => 1#2 | _ => if r then 5#12 else 1#12 end.
Definition pd1 (r : bool) (k : nat) : Q :=
  match k with
  | 0%nat => if r then -1#4 else -3#4
  | 1%nat => if r then -1#2 else 1#2
  | _ => if r then 3#4 else 1#4 end.
Lemma is_RInt_split (f fl fr : R -> R) h I J : 0 < h ->
  (forall x, 0 < x < h -> f x = fl x) -> (forall x, h < x < 2 * h -> f x = fr x) ->
  is_RInt fl 0 h I -> is_RInt fr h (2 * h) J -> is_RInt f 0 (2 * h) (I + J).
Proof.
  intros Hh El Er Hl Hr. apply (is_RInt_Chasles f 0 h (2 * h) I J).
  - apply (is_RInt_ext fl); [|exact Hl]. intros x Hx. rewrite Rmin_left, Rmax_right in Hx by lra. symmetry; apply El, Hx.
  - apply (is_RInt_ext fr); [|exact Hr]. intros x Hx. rewrite Rmin_left, Rmax_right in Hx by lra. symmetry; apply Er, Hx.
Qed.
Definition ha (r : bool) : R := if r then 0 else 1.
Definition hb (r : bool) : R := if r then 1/2 else -1/2.
Lemma hat_half r h x : 0 < h -> hat r (x / (2 * h)) = ha r + hb r * (x / h).
Proof. intros Hh. destruct r; unfold hat, ha, hb; field; lra. Qed.
Lemma pm1_int h r k : 0 < h -> (k < 3)%nat ->
  is_RInt (fun x => hat r (x / (2 * h)) * tent k (x / h)) 0 (2 * h) (h * Q2R (pm1 r k)).
Proof.
  intros Hh Hk.
  pose (F a b := fun x => (ha r * a) * x + (ha r * b + hb r * a) * (x * x / (2 * h)) + (hb r * b) * (x * x * x / (3 * (h * h)))).
  replace (h * Q2R (pm1 r k)) with ((F (tl_a k) (tl_b k) h - F (tl_a k) (tl_b k) 0) + (F (tr_a k) (tr_b k) (2 * h) - F (tr_a k) (tr_b k) h)).
  - apply (is_RInt_split _ (fun x => (ha r + hb r * (x / h)) * (tl_a k + tl_b k * (x / h))) (fun x => (ha r + hb r * (x / h)) * (tr_a k + tr_b k * (x / h)))); auto.
    + intros x Hx. rewrite hat_half, tent_left; auto. assert (0 < x / h < 1) by (apply div_bounds; [auto|lra]). lra.
    + intros x Hx. rewrite hat_half, tent_right; auto. assert (1 < x / h < 2) by (apply div_bounds; [auto|lra]). lra.
    + apply (is_RInt_poly (F (tl_a k) (tl_b k))); [intros; unfold F; auto_derive; auto; field; lra|intros; auto_derive; auto|reflexivity].
    + apply (is_RInt_poly (F (tr_a k) (tr_b k))); [intros; unfold F; auto_derive; auto; field; lra|intros; auto_derive; auto|reflexivity].
  - unfold F. destruct k as [|[|[|k]]]; [| | |lia]; destruct r; unfold ha, hb, tl_a, tl_b, tr_a, tr_b, pm1; q2r; field; lra.
Qed.
Lemma pd1_int h r k : 0 < h -> (k < 3)%nat ->
  is_RInt (fun x => hat r (x / (2 * h)) * Derive (fun t => tent k (t / h)) x) 0 (2 * h) (Q2R (pd1 r k)).
Proof.
  intros Hh Hk.
  pose (F b := fun x => (ha r * (b / h)) * x + hb r * (b / h) * (x * x / (2 * h))).
  replace (Q2R (pd1 r k)) with ((F (tl_b k) h - F (tl_b k) 0) + (F (tr_b k) (2 * h) - F (tr_b k) h)).
  - apply (is_RInt_split _ (fun x => (ha r + hb r * (x / h)) * (tl_b k / h)) (fun x => (ha r + hb r * (x / h)) * (tr_b k / h))); auto.
    + intros x Hx. rewrite hat_half, Derive_tent_left; auto.
    + intros x Hx. rewrite hat_half, Derive_tent_right; auto.
    + apply (is_RInt_poly (F (tl_b k))); [intros; unfold F; auto_derive; auto; field; lra|intros; auto_derive; auto|reflexivity].
    + apply (is_RInt_poly (F (tr_b k))); [intros; unfold F; auto_derive; auto; field; lra|intros; auto_derive; auto|reflexivity].
  - unfold F. destruct k as [|[|[|k]]]; [| | |lia]; destruct r; unfold ha, hb, tl_b, tr_b, pd1; q2r; field; lra.
Qed.
Ltac tabp F n m := intros; rewrite <- ?Q2R_mult, <- Q2R_opp; apply (table_ok _ F n m); auto.
Lemma tab_pdxu2 i j : (i < 4)%nat -> (j < 9)%nat -> matElem2d_pdxu i j = - (Q2R (pd1 (vx2 i) (j mod 3)) * Q2R (pm1 (vy2 i) (j / 3))).
Proof. tabp (fun i j => (- (pd1 (vx2 i) (j mod 3) * pm1 (vy2 i) (j / 3)))%Q) 4%nat 9%nat. Qed.
Lemma tab_pdyu2 i j : (i < 4)%nat -> (j < 9)%nat -> matElem2d_pdyu i j = - (Q2R (pm1 (vx2 i) (j mod 3)) * Q2R (pd1 (vy2 i) (j / 3))).
Proof. tabp (fun i j => (- (pm1 (vx2 i) (j mod 3) * pd1 (vy2 i) (j / 3)))%Q) 4%nat 9%nat. Qed.
Lemma tab_pdxu3 i j : (i < 8)%nat -> (j < 27)%nat -> matElem3d_pdxu i j = - (Q2R (pd1 (vx3 i) (j mod 3)) * Q2R (pm1 (vy3 i) ((j / 3) mod 3)) * Q2R (pm1 (vz3 i) (j / 9))).
Proof. tabp (fun i j => (- (pd1 (vx3 i) (j mod 3) * pm1 (vy3 i) ((j / 3) mod 3) * pm1 (vz3 i) (j / 9)))%Q) 8%nat 27%nat. Qed.
Lemma tab_pdyu3 i j : (i < 8)%nat -> (j < 27)%nat -> matElem3d_pdyu i j = - (Q2R (pm1 (vx3 i) (j mod 3)) * Q2R (pd1 (vy3 i) ((j / 3) mod 3)) * Q2R (pm1 (vz3 i) (j / 9))).
Proof. tabp (fun i j => (- (pm1 (vx3 i) (j mod 3) * pd1 (vy3 i) ((j / 3) mod 3) * pm1 (vz3 i) (j / 9)))%Q) 8%nat 27%nat. Qed.
Lemma tab_pdzu3 i j : (i < 8)%nat -> (j < 27)%nat -> matElem3d_pdzu i j = - (Q2R (pm1 (vx3 i) (j mod 3)) * Q2R (pm1 (vy3 i) ((j / 3) mod 3)) * Q2R (pd1 (vz3 i) (j / 9))).
Proof. tabp (fun i j => (- (pm1 (vx3 i) (j mod 3) * pm1 (vy3 i) ((j / 3) mod 3) * pd1 (vz3 i) (j / 9)))%Q) 8%nat 27%nat. Qed.

(** ---- products of derivatives of shape functions ---- *)
Lemma D2_phi0 h0 h1 i x y : 0 < h0 -> D2 0 (phi2 h0 h1 i) x y = dhat (vx2 i) / h0 * hat (vy2 i) (y / h1).
Proof. intros H. unfold phi2, Q1_2. rewrite (D2_sep0 (fun t => hat (vx2 i) (t / h0)) (fun t => hat (vy2 i) (t / h1))), Derive_hat by lra. reflexivity. Qed.
Lemma D2_phi1 h0 h1 i x y : 0 < h1 -> D2 1 (phi2 h0 h1 i) x y = hat (vx2 i) (x / h0) * (dhat (vy2 i) / h1).
Proof. intros H. unfold phi2, Q1_2. rewrite (D2_sep1 (fun t => hat (vx2 i) (t / h0)) (fun t => hat (vy2 i) (t / h1))), Derive_hat by lra. reflexivity. Qed.
Section Int2.
  Variables (h0 h1 : R) (H0 : 0 < h0) (H1 : 0 < h1) (i j : nat) (Hi : (i < 4)%nat) (Hj : (j < 4)%nat).
  Lemma int2_00 : is_int2 (fun x y => D2 0 (phi2 h0 h1 i) x y * D2 0 (phi2 h0 h1 j) x y) 0 h0 0 h1 (h1 / h0 * matElem2d_dxudxu i j).
  Proof.
    rewrite tab_dxudxu2 by auto.
    replace (h1 / h0 * (Q2R (stiff1 (vx2 i) (vx2 j)) * Q2R (mass1 (vy2 i) (vy2 j))))
      with ((/ h0 * Q2R (stiff1 (vx2 i) (vx2 j))) * (h1 * Q2R (mass1 (vy2 i) (vy2 j)))) by (field; lra).
    apply (is_int2_ext (fun x y => (dhat (vx2 i) / h0 * (dhat (vx2 j) / h0)) * (hat (vy2 i) (y / h1) * hat (vy2 j) (y / h1)))); auto.
    - intros. rewrite !D2_phi0 by auto. ring.
    - apply (is_int2_sep (fun _ => dhat (vx2 i) / h0 * (dhat (vx2 j) / h0)) (fun y => hat (vy2 i) (y / h1) * hat (vy2 j) (y / h1))).
      + apply stiff1_int; auto.
      + apply mass1_int; auto.
  Qed.
  Lemma int2_11 : is_int2 (fun x y => D2 1 (phi2 h0 h1 i) x y * D2 1 (phi2 h0 h1 j) x y) 0 h0 0 h1 (h0 / h1 * matElem2d_dyudyu i j).
  Proof.
    rewrite tab_dyudyu2 by auto.
    replace (h0 / h1 * (Q2R (mass1 (vx2 i) (vx2 j)) * Q2R (stiff1 (vy2 i) (vy2 j))))
      with ((h0 * Q2R (mass1 (vx2 i) (vx2 j))) * (/ h1 * Q2R (stiff1 (vy2 i) (vy2 j)))) by (field; lra).
    apply (is_int2_ext (fun x y => (hat (vx2 i) (x / h0) * hat (vx2 j) (x / h0)) * (dhat (vy2 i) / h1 * (dhat (vy2 j) / h1)))); auto.
    - intros. rewrite !D2_phi1 by auto. ring.
    - apply (is_int2_sep (fun x => hat (vx2 i) (x / h0) * hat (vx2 j) (x / h0)) (fun _ => dhat (vy2 i) / h1 * (dhat (vy2 j) / h1))).
      + apply mass1_int; auto.
      + apply stiff1_int; auto.
  Qed.
  Lemma int2_10 : is_int2 (fun x y => D2 1 (phi2 h0 h1 i) x y * D2 0 (phi2 h0 h1 j) x y) 0 h0 0 h1 (matElem2d_dxudyu i j).
  Proof.
    rewrite tab_dxudyu2 by auto.
    apply (is_int2_ext (fun x y => (dhat (vx2 j) / h0 * hat (vx2 i) (x / h0)) * (dhat (vy2 i) / h1 * hat (vy2 j) (y / h1)))); auto.
    - intros. rewrite D2_phi0, D2_phi1 by auto. ring.
    - apply (is_int2_sep (fun x => dhat (vx2 j) / h0 * hat (vx2 i) (x / h0)) (fun y => dhat (vy2 i) / h1 * hat (vy2 j) (y / h1))).
      + apply conv1_int; auto.
      + apply conv1_int; auto.
  Qed.
  Lemma int2_mass : is_int2 (fun x y => phi2 h0 h1 i x y * phi2 h0 h1 j x y) 0 h0 0 h1 (h0 * h1 * matElemMass2d i j).
  Proof.
    rewrite tab_mass2 by auto.
    replace (h0 * h1 * (Q2R (mass1 (vx2 i) (vx2 j)) * Q2R (mass1 (vy2 i) (vy2 j))))
      with ((h0 * Q2R (mass1 (vx2 i) (vx2 j))) * (h1 * Q2R (mass1 (vy2 i) (vy2 j)))) by ring.
    apply (is_int2_ext (fun x y => (hat (vx2 i) (x / h0) * hat (vx2 j) (x / h0)) * (hat (vy2 i) (y / h1) * hat (vy2 j) (y / h1)))); auto.
    - intros. unfold phi2, Q1_2. fold (vx2 i) (vx2 j) (vy2 i) (vy2 j). ring.
    - apply (is_int2_sep (fun x => hat (vx2 i) (x / h0) * hat (vx2 j) (x / h0)) (fun y => hat (vy2 i) (y / h1) * hat (vy2 j) (y / h1))); apply mass1_int; auto.
  Qed.
End Int2.
Lemma int2_01 h0 h1 i j : 0 < h0 -> 0 < h1 -> (i < 4)%nat -> (j < 4)%nat ->
  is_int2 (fun x y => D2 0 (phi2 h0 h1 i) x y * D2 1 (phi2 h0 h1 j) x y) 0 h0 0 h1 (matElem2d_dxudyu j i).
Proof.
  intros. apply (is_int2_ext (fun x y => D2 1 (phi2 h0 h1 j) x y * D2 0 (phi2 h0 h1 i) x y)); auto; [intros; ring|apply int2_10; auto].
Qed.
Lemma D2_along k f a c x y : D2 k (along2 f a c) x y = if Nat.eqb c a then D2 k f x y else 0.
Proof.
  unfold D2, along2. destruct (Nat.eqb c a), k; auto.
  - apply (Derive_const 0 x).
  - apply (Derive_const 0 y).
Qed.

(** 3D *)
Lemma D3_phi0 h0 h1 h2 i x y z : 0 < h0 -> D3 0 (phi3 h0 h1 h2 i) x y z = dhat (vx3 i) / h0 * hat (vy3 i) (y / h1) * hat (vz3 i) (z / h2).
Proof. intros H. unfold phi3, Q1_3. rewrite (D3_sep0 (fun t => hat (vx3 i) (t / h0)) (fun t => hat (vy3 i) (t / h1)) (fun t => hat (vz3 i) (t / h2))), Derive_hat by lra. reflexivity. Qed.
Lemma D3_phi1 h0 h1 h2 i x y z : 0 < h1 -> D3 1 (phi3 h0 h1 h2 i) x y z = hat (vx3 i) (x / h0) * (dhat (vy3 i) / h1) * hat (vz3 i) (z / h2).
Proof. intros H. unfold phi3, Q1_3. rewrite (D3_sep1 (fun t => hat (vx3 i) (t / h0)) (fun t => hat (vy3 i) (t / h1)) (fun t => hat (vz3 i) (t / h2))), Derive_hat by lra. reflexivity. Qed.
Lemma D3_phi2 h0 h1 h2 i x y z : 0 < h2 -> D3 2 (phi3 h0 h1 h2 i) x y z = hat (vx3 i) (x / h0) * hat (vy3 i) (y / h1) * (dhat (vz3 i) / h2).
Proof. intros H. unfold phi3, Q1_3. rewrite (D3_sep2 (fun t => hat (vx3 i) (t / h0)) (fun t => hat (vy3 i) (t / h1)) (fun t => hat (vz3 i) (t / h2))), Derive_hat by lra. reflexivity. Qed.
Lemma int3_sep_ext (f : R -> R -> R -> R) A B C h0 h1 h2 IA IB IC v : 0 < h0 ->
  is_RInt A 0 h0 IA -> is_RInt B 0 h1 IB -> is_RInt C 0 h2 IC ->
  (forall x y z, f x y z = A x * B y * C z) -> v = IA * IB * IC -> is_int3 f 0 h0 0 h1 0 h2 v.
Proof.
  intros Hh HA HB HC E ->. apply (is_int3_ext (fun x y z => A x * B y * C z)); auto. apply is_int3_sep; auto.
Qed.
Section Int3.
  Variables (h0 h1 h2 : R) (H0 : 0 < h0) (H1 : 0 < h1) (H2 : 0 < h2) (i j : nat) (Hi : (i < 8)%nat) (Hj : (j < 8)%nat).
  Let mx := fun x => hat (vx3 i) (x / h0) * hat (vx3 j) (x / h0).
  Let my := fun x => hat (vy3 i) (x / h1) * hat (vy3 j) (x / h1).
  Let mz := fun x => hat (vz3 i) (x / h2) * hat (vz3 j) (x / h2).
  Ltac fin := [> intros; rewrite ?D3_phi0, ?D3_phi1, ?D3_phi2 by auto; unfold mx, my, mz; try ring | field; lra].
  Lemma int3_00 : is_int3 (fun x y z => D3 0 (phi3 h0 h1 h2 i) x y z * D3 0 (phi3 h0 h1 h2 j) x y z) 0 h0 0 h1 0 h2 (h1 * h2 / h0 * matElem3d_dxudxu i j).
  Proof.
    rewrite tab_dxudxu3 by auto. eapply int3_sep_ext; [exact H0|apply (stiff1_int h0 (vx3 i) (vx3 j) H0)|apply (mass1_int h1 (vy3 i) (vy3 j) H1)|apply (mass1_int h2 (vz3 i) (vz3 j) H2)| |]; fin.
  Qed.
  Lemma int3_11 : is_int3 (fun x y z => D3 1 (phi3 h0 h1 h2 i) x y z * D3 1 (phi3 h0 h1 h2 j) x y z) 0 h0 0 h1 0 h2 (h0 * h2 / h1 * matElem3d_dyudyu i j).
  Proof.
    rewrite tab_dyudyu3 by auto. eapply int3_sep_ext; [exact H0|apply (mass1_int h0 (vx3 i) (vx3 j) H0)|apply (stiff1_int h1 (vy3 i) (vy3 j) H1)|apply (mass1_int h2 (vz3 i) (vz3 j) H2)| |]; fin.
  Qed.
  Lemma int3_22 : is_int3 (fun x y z => D3 2 (phi3 h0 h1 h2 i) x y z * D3 2 (phi3 h0 h1 h2 j) x y z) 0 h0 0 h1 0 h2 (h0 * h1 / h2 * matElem3d_dzudzu i j).
  Proof.
    rewrite tab_dzudzu3 by auto. eapply int3_sep_ext; [exact H0|apply (mass1_int h0 (vx3 i) (vx3 j) H0)|apply (mass1_int h1 (vy3 i) (vy3 j) H1)|apply (stiff1_int h2 (vz3 i) (vz3 j) H2)| |]; fin.
  Qed.
  Lemma int3_10 : is_int3 (fun x y z => D3 1 (phi3 h0 h1 h2 i) x y z * D3 0 (phi3 h0 h1 h2 j) x y z) 0 h0 0 h1 0 h2 (h2 * matElem3d_dxudyu i j).
  Proof.
    rewrite tab_dxudyu3 by auto. eapply int3_sep_ext; [exact H0|apply (conv1_int h0 (vx3 j) (vx3 i) H0)|apply (conv1_int h1 (vy3 i) (vy3 j) H1)|apply (mass1_int h2 (vz3 i) (vz3 j) H2)| |]; fin.
  Qed.
  Lemma int3_20 : is_int3 (fun x y z => D3 2 (phi3 h0 h1 h2 i) x y z * D3 0 (phi3 h0 h1 h2 j) x y z) 0 h0 0 h1 0 h2 (h1 * matElem3d_dxudzu i j).
  Proof.
    rewrite tab_dxudzu3 by auto. eapply int3_sep_ext; [exact H0|apply (conv1_int h0 (vx3 j) (vx3 i) H0)|apply (mass1_int h1 (vy3 i) (vy3 j) H1)|apply (conv1_int h2 (vz3 i) (vz3 j) H2)| |]; fin.
  Qed.
  Lemma int3_21 : is_int3 (fun x y z => D3 2 (phi3 h0 h1 h2 i) x y z * D3 1 (phi3 h0 h1 h2 j) x y z) 0 h0 0 h1 0 h2 (h0 * matElem3d_dyudzu i j).
  Proof.
    rewrite tab_dyudzu3 by auto. eapply int3_sep_ext; [exact H0|apply (mass1_int h0 (vx3 i) (vx3 j) H0)|apply (conv1_int h1 (vy3 j) (vy3 i) H1)|apply (conv1_int h2 (vz3 i) (vz3 j) H2)| |]; fin.
  Qed.
  Lemma int3_mass : is_int3 (fun x y z => phi3 h0 h1 h2 i x y z * phi3 h0 h1 h2 j x y z) 0 h0 0 h1 0 h2 (h0 * h1 * h2 * matElemMass3d i j).
  Proof.
    rewrite tab_mass3 by auto. eapply int3_sep_ext; [exact H0|apply (mass1_int h0 (vx3 i) (vx3 j) H0)|apply (mass1_int h1 (vy3 i) (vy3 j) H1)|apply (mass1_int h2 (vz3 i) (vz3 j) H2)| |].
    - intros. unfold phi3, Q1_3. fold (vx3 i) (vx3 j) (vy3 i) (vy3 j) (vz3 i) (vz3 j). ring.
    - ring.
  Qed.
End Int3.
Lemma int3_comm f g h0 h1 h2 v : 0 < h0 -> is_int3 (fun x y z => f x y z * g x y z) 0 h0 0 h1 0 h2 v -> is_int3 (fun x y z => g x y z * f x y z) 0 h0 0 h1 0 h2 v.
Proof. intros H. apply is_int3_ext; auto. intros; ring. Qed.
Lemma D3_along k f a c x y z : D3 k (along3 f a c) x y z = if Nat.eqb c a then D3 k f x y z else 0.
Proof.
  unfold D3, along3. destruct (Nat.eqb c a), k as [|[|k]]; auto.
  - apply (Derive_const 0 x).
  - apply (Derive_const 0 y).
  - apply (Derive_const 0 z).
Qed.
Close Scope R_scope.
