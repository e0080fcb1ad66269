(** Differences and averages of smooth functions. *)
From Coq Require Import FunctionalExtensionality.
From Coquelicot Require Import Coquelicot.
From Verif Require Import Base M_Geometry S_Geometry M_Particle S_Particle S_Fem M_Mesh M_Operator S_Operator P_Energy P_Precond M_ParticleOp S_ParticleOp S_Accuracy P_Accuracy S_Consistency.
Open Scope R_scope.
Lemma grow psi psi' P p h : 0 <= h -> psi 0 = 0 -> P 0 = 0 -> (forall s, 0 <= s <= h -> is_derive psi s (psi' s)) -> (forall s, 0 <= s <= h -> is_derive P s (p s)) ->
  (forall s, 0 <= s <= h -> Rabs (psi' s) <= p s) -> forall s, 0 <= s <= h -> Rabs (psi s) <= P s.
Proof.
  intros Hh Z0 ZP D DP B s Hs. destruct (Req_dec s 0) as [->|N]; [rewrite Z0, ZP, Rabs_R0; lra|].
  assert (U : forall e, e = 1 \/ e = -1 -> e * psi s <= P s).
  { intros e He. destruct (mvt (fun t => P t - e * psi t) (fun t => p t - e * psi' t) 0 s) as (c & E & Hc); [lra| |].
    - intros t Ht. apply (is_derive_minus P (fun t => e * psi t)); [apply DP; lra|]. apply (is_derive_scal psi); apply D; lra.
    - rewrite Z0, ZP in E. assert (0 <= p c - e * psi' c). { specialize (B c ltac:(lra)). apply Rabs_le_between in B. destruct He as [->| ->]; lra. } nra. }
  apply Rabs_le. pose proof (U 1 (or_introl eq_refl)). pose proof (U (-1) (or_intror eq_refl)). lra.
Qed.
Lemma diff2 g c h M : 0 < h -> smooth1 g (c - h) (c + h) M -> Rabs (g (c + h) - 2 * g c + g (c - h)) <= M * h ^ 2.
Proof.
  intros Hh S. set (g1 := Derive g). set (g2 := Derive g1).
  assert (D1 : forall s, 0 <= s <= h -> is_derive (fun s => g1 (c + s) - g1 (c - s)) s (g2 (c + s) + g2 (c - s))).
  { intros s Hs. destruct (S (c + s) ltac:(lra)) as (_ & E & _). destruct (S (c - s) ltac:(lra)) as (_ & E' & _). auto_derive; [split; [exact E|split; [exact E'|exact I]]|]. change (Derive (fun x : R => g1 x)) with g2. unfold Rminus. ring. }
  assert (D0 : forall s, 0 <= s <= h -> is_derive (fun s => g (c + s) - 2 * g c + g (c - s)) s (g1 (c + s) - g1 (c - s))).
  { intros s Hs. destruct (S (c + s) ltac:(lra)) as (E & _ & _). destruct (S (c - s) ltac:(lra)) as (E' & _ & _). auto_derive; [split; [exact E|split; [exact E'|exact I]]|]. change (Derive (fun x : R => g x)) with g1. unfold Rminus. ring. }
  assert (B1 : forall s, 0 <= s <= h -> Rabs (g1 (c + s) - g1 (c - s)) <= 2 * M * s).
  { apply (grow (fun s => g1 (c + s) - g1 (c - s)) (fun s => g2 (c + s) + g2 (c - s)) (fun s => 2 * M * s) (fun s => 2 * M) h); [lra|rewrite Rplus_0_r, Rminus_0_r; ring|ring|exact D1|intros; auto_derive; [exact I|ring]|].
    intros s Hs. destruct (S (c + s) ltac:(lra)) as (_ & _ & B). destruct (S (c - s) ltac:(lra)) as (_ & _ & B'). fold g1 in B, B'. fold g2 in B, B'. pose proof (Rabs_triang (g2 (c + s)) (g2 (c - s))). lra. }
  assert (B0 : Rabs (g (c + h) - 2 * g c + g (c - h)) <= M * h ^ 2).
  { apply (grow (fun s => g (c + s) - 2 * g c + g (c - s)) (fun s => g1 (c + s) - g1 (c - s)) (fun s => M * s ^ 2) (fun s => 2 * M * s) h); [lra|rewrite Rplus_0_r, Rminus_0_r; ring|ring|exact D0|intros; auto_derive; [exact I|ring]|exact B1|lra]. }
  exact B0.
Qed.
Lemma diff4 g c h M : 0 < h -> (forall t, c - h <= t <= c + h -> ex_derive g t /\ ex_derive (Derive g) t) -> smooth1 (Derive (Derive g)) (c - h) (c + h) M ->
  Rabs (g (c + h) - 2 * g c + g (c - h) - h ^ 2 * Derive (Derive g) c) <= M * h ^ 4 / 12.
Proof.
  intros Hh T S. set (g1 := Derive g) in *. set (g2 := Derive g1) in *. 
  assert (SG : forall s, 0 <= s <= h -> Rabs (g2 (c + s) - 2 * g2 c + g2 (c - s)) <= M * s ^ 2).
  { intros s Hs. destruct (Req_dec s 0) as [->|N]; [|apply diff2; [lra|intros t Ht; apply S; lra]]. rewrite Rplus_0_r, Rminus_0_r. replace (g2 c - 2 * g2 c + g2 c) with 0 by ring. rewrite Rabs_R0. lra. }
  assert (D1 : forall s, 0 <= s <= h -> is_derive (fun s => g1 (c + s) - g1 (c - s) - 2 * g2 c * s) s (g2 (c + s) - 2 * g2 c + g2 (c - s))).
  { intros s Hs. destruct (T (c + s) ltac:(lra)) as (_ & E). destruct (T (c - s) ltac:(lra)) as (_ & E'). auto_derive; [split; [exact E|split; [exact E'|exact I]]|]. change (Derive (fun x : R => g1 x)) with g2. unfold Rminus. ring. }
  assert (D0 : forall s, 0 <= s <= h -> is_derive (fun s => g (c + s) - 2 * g c + g (c - s) - s ^ 2 * g2 c) s (g1 (c + s) - g1 (c - s) - 2 * g2 c * s)).
  { intros s Hs. destruct (T (c + s) ltac:(lra)) as (E & _). destruct (T (c - s) ltac:(lra)) as (E' & _). auto_derive; [split; [exact E|split; [exact E'|exact I]]|]. change (Derive (fun x : R => g x)) with g1. unfold Rminus. ring. }
  assert (B1 : forall s, 0 <= s <= h -> Rabs (g1 (c + s) - g1 (c - s) - 2 * g2 c * s) <= M * s ^ 3 / 3).
  { apply (grow _ (fun s => g2 (c + s) - 2 * g2 c + g2 (c - s)) (fun s => M * s ^ 3 / 3) (fun s => M * s ^ 2) h); [lra|rewrite Rplus_0_r, Rminus_0_r; ring|field|exact D1|intros; auto_derive; [exact I|field]|exact SG]. }
  apply (grow (fun s => g (c + s) - 2 * g c + g (c - s) - s ^ 2 * g2 c) (fun s => g1 (c + s) - g1 (c - s) - 2 * g2 c * s) (fun s => M * s ^ 4 / 12) (fun s => M * s ^ 3 / 3) h); [lra|rewrite Rplus_0_r, Rminus_0_r; ring|field|exact D0|intros; auto_derive; [exact I|field]|exact B1|lra].
Qed.
(** along one axis of a function of a point *)
Lemma co_moved X j t : (j < length X)%nat -> co j (moved X j t) = t.
Proof. intros H. unfold co, moved. rewrite app_nth2; rewrite firstn_length, Nat.min_l by lia; [|lia]. rewrite Nat.sub_diag. reflexivity. Qed.
Lemma moved_moved X j s t : (j < length X)%nat -> moved (moved X j s) j t = moved X j t.
Proof. revert j. induction X as [|x X IH]; intros [|j] H; cbn [length] in H; try lia; [reflexivity|]. unfold moved in *. cbn [firstn skipn app]. f_equal. apply IH. lia. Qed.
Lemma moved_co X j : (j < length X)%nat -> moved X j (co j X) = X.
Proof. revert j. induction X as [|x X IH]; intros [|j] H; cbn [length] in H; try lia; [reflexivity|]. unfold moved, co in *. cbn [firstn skipn app nth]. f_equal. apply IH. lia. Qed.
Definition line (f : vec -> R) (X : vec) (j : nat) : R -> R := fun t => f (moved X j t).
Lemma line_moved f X j t : (j < length X)%nat -> line f (moved X j t) j = line f X j.
Proof. intros H. apply functional_extensionality. intros s. unfold line. f_equal. apply moved_moved, H. Qed.
Lemma second_line f X j : (j < length X)%nat -> line (second f j) X j = Derive (Derive (line f X j)).
Proof. intros H. apply functional_extensionality. intros t. unfold line at 1, second. rewrite co_moved by exact H. change (fun t0 : R => f (moved (moved X j t) j t0)) with (line f (moved X j t) j). rewrite line_moved by exact H. reflexivity. Qed.
Lemma bends_line f X j t M : (j < length X)%nat -> bends f (moved X j t) j M -> ex_derive (line f X j) t /\ ex_derive (Derive (line f X j)) t /\ Rabs (Derive (Derive (line f X j)) t) <= M.
Proof. intros H B. unfold bends in B. rewrite co_moved in B by exact H. change (fun t0 : R => f (moved (moved X j t) j t0)) with (line f (moved X j t) j) in B. rewrite line_moved in B by exact H. exact B. Qed.
(** averages with weights 1/6, 4/6, 1/6, and second differences, with the step s along the axis j *)
Definition avg (f : vec -> R) (X : vec) (j : nat) (s : R) : R := (line f X j (co j X - s) + 4 * f X + line f X j (co j X + s)) / 6.
Definition dif (f : vec -> R) (X : vec) (j : nat) (s : R) : R := line f X j (co j X + s) - 2 * f X + line f X j (co j X - s).
Lemma avg_err f X j s M : (j < length X)%nat -> 0 < s -> (forall t, co j X - s <= t <= co j X + s -> bends f (moved X j t) j M) -> Rabs (avg f X j s - f X) <= s ^ 2 / 6 * M.
Proof.
  intros H Hs B. assert (K := diff2 (line f X j) (co j X) s M Hs ltac:(intros t Ht; apply bends_line; auto)).
  replace (line f X j (co j X)) with (f X) in K by (unfold line; rewrite moved_co; auto). replace (avg f X j s - f X) with ((line f X j (co j X + s) - 2 * f X + line f X j (co j X - s)) / 6) by (unfold avg; field).
  unfold Rdiv at 1. rewrite Rabs_mult, (Rabs_pos_eq (/ 6)) by lra. lra.
Qed.
Lemma dif_err f X j s M : (j < length X)%nat -> 0 < s -> (forall t, co j X - s <= t <= co j X + s -> twice_derivable f j (moved X j t) /\ bends (second f j) (moved X j t) j M) ->
  Rabs (dif f X j s / s ^ 2 - second f j X) <= s ^ 2 / 12 * M.
Proof.
  intros H Hs B. 
  assert (K := diff4 (line f X j) (co j X) s M Hs).
  assert (K1 : forall t, co j X - s <= t <= co j X + s -> ex_derive (line f X j) t /\ ex_derive (Derive (line f X j)) t).
  { intros t Ht. destruct (B t Ht) as [T _]. unfold twice_derivable in T. rewrite co_moved in T by exact H. change (fun t0 : R => f (moved (moved X j t) j t0)) with (line f (moved X j t) j) in T. rewrite line_moved in T by exact H. exact T. }
  assert (K2 : smooth1 (Derive (Derive (line f X j))) (co j X - s) (co j X + s) M).
  { intros t Ht. destruct (B t Ht) as [_ T]. apply bends_line in T; [|exact H]. rewrite second_line in T by exact H. exact T. }
  specialize (K K1 K2). replace (line f X j (co j X)) with (f X) in K by (unfold line; rewrite moved_co; auto). unfold second. change (fun t : R => f (moved X j t)) with (line f X j).
  replace (dif f X j s / s ^ 2 - Derive (Derive (line f X j)) (co j X)) with ((line f X j (co j X + s) - 2 * f X + line f X j (co j X - s) - s ^ 2 * Derive (Derive (line f X j)) (co j X)) / s ^ 2) by (unfold dif; field; lra).
  assert (P : 0 < s ^ 2) by (apply pow_lt; exact Hs). unfold Rdiv at 1. rewrite Rabs_mult, (Rabs_pos_eq (/ s ^ 2)) by (apply Rlt_le, Rinv_0_lt_compat, P).
  apply (Rmult_le_reg_r (s ^ 2)); [exact P|]. rewrite Rmult_assoc, Rinv_l, Rmult_1_r by lra. replace (s ^ 2 / 12 * M * s ^ 2) with (M * s ^ 4 / 12) by field. exact K.
Qed.
(** an average of values that are close to those of another function *)
Lemma avg_close p0 p1 p2 q0 q1 q2 e : Rabs (p0 - q0) <= e -> Rabs (p1 - q1) <= e -> Rabs (p2 - q2) <= e -> Rabs ((p0 + 4 * p1 + p2) / 6 - (q0 + 4 * q1 + q2) / 6) <= e.
Proof. intros A B C. apply Rabs_le_between in A. apply Rabs_le_between in B. apply Rabs_le_between in C. apply Rabs_le. lra. Qed.
