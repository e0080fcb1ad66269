(** Quadratic forms of the element matrices as sums of squares (for C23). *)
From Coquelicot Require Import Coquelicot.
From Coq Require Import QArith Qreals.
From Verif Require Import Base M_MatElem S_Fem P_MatElem.
Open Scope R_scope.

(** algebra of finite sums *)
Lemma Rsum_ext n f g : (forall i, (i < n)%nat -> f i = g i) -> Rsum n f = Rsum n g.
Proof. induction n as [|n IH]; intros H; simpl; [reflexivity|]. rewrite IH, H by auto. reflexivity. Qed.
Lemma Rsum_plus n f g : Rsum n (fun i => f i + g i) = Rsum n f + Rsum n g.
Proof. induction n as [|n IH]; simpl; [ring|rewrite IH; ring]. Qed.
Lemma Rsum_scal n c f : Rsum n (fun i => c * f i) = c * Rsum n f.
Proof. induction n as [|n IH]; simpl; [ring|rewrite IH; ring]. Qed.
Lemma Rsum_scal_r n c f : Rsum n (fun i => f i * c) = Rsum n f * c.
Proof. induction n as [|n IH]; simpl; [ring|rewrite IH; ring]. Qed.
Lemma Rsum_zero n : Rsum n (fun _ => 0) = 0.
Proof. induction n as [|n IH]; simpl; [reflexivity|rewrite IH; ring]. Qed.
Lemma Rsum_swap n m f : Rsum n (fun i => Rsum m (fun j => f i j)) = Rsum m (fun j => Rsum n (fun i => f i j)).
Proof.
  induction n as [|n IH]; simpl; [symmetry; apply Rsum_zero|]. rewrite IH. symmetry. apply Rsum_plus.
Qed.
Lemma Rsum_nonneg n f : (forall i, (i < n)%nat -> 0 <= f i) -> 0 <= Rsum n f.
Proof. induction n as [|n IH]; intros H; simpl; [lra|]. pose proof (IH (fun i Hi => H i ltac:(lia))). pose proof (H n ltac:(lia)). lra. Qed.
Lemma Rsum_nonneg_0 n f : (forall i, (i < n)%nat -> 0 <= f i) -> Rsum n f = 0 -> forall i, (i < n)%nat -> f i = 0.
Proof.
  induction n as [|n IH]; intros H E i Hi; [lia|]. simpl in E.
  pose proof (Rsum_nonneg n f (fun i Hi => H i ltac:(lia))). pose proof (H n ltac:(lia)).
  destruct (Nat.eq_dec i n) as [->|]; [lra|]. apply IH; auto; try lia; try lra.
Qed.
Lemma Rsum_mul n m f g : Rsum n f * Rsum m g = Rsum n (fun i => Rsum m (fun j => f i * g j)).
Proof.
  induction n as [|n IH]; simpl; [ring|]. rewrite Rmult_plus_distr_r, IH, Rsum_scal. reflexivity.
Qed.

Definition bil (n : nat) (T : nat -> nat -> R) (U V : nat -> R) : R := Rsum n (fun i => Rsum n (fun j => U i * T i j * V j)).
Lemma bil_modes n k T (w : nat -> R) (d e : nat -> nat -> R) U V :
  (forall i j, (i < n)%nat -> (j < n)%nat -> T i j = Rsum k (fun m => w m * d i m * e j m)) ->
  bil n T U V = Rsum k (fun m => w m * (Rsum n (fun i => d i m * U i) * Rsum n (fun j => e j m * V j))).
Proof.
  intros H. unfold bil.
  rewrite (Rsum_ext n _ (fun i => Rsum n (fun j => Rsum k (fun m => U i * (w m * d i m * e j m) * V j)))).
  2:{ intros i Hi. apply Rsum_ext. intros j Hj. rewrite H by auto. rewrite <- Rsum_scal, <- Rsum_scal_r. reflexivity. }
  rewrite (Rsum_ext n _ (fun i => Rsum k (fun m => Rsum n (fun j => U i * (w m * d i m * e j m) * V j)))) by (intros; apply Rsum_swap).
  rewrite Rsum_swap. apply Rsum_ext. intros m Hm. rewrite Rsum_mul, <- Rsum_scal.
  apply Rsum_ext. intros i Hi. rewrite <- Rsum_scal. apply Rsum_ext. intros; ring.
Qed.

(** Legendre modes: hat r = 1/2 + sg r (t - 1/2); mode weights 1 and 1/12. *)
Definition sg (r : bool) : Q := if r then 1 else -1.
Definition md (r : bool) (m : nat) : Q := match m with O => 1#2 | _ => sg r end.
Definition dd (r : bool) (m : nat) : Q := match m with O => sg r | _ => 0 end.
Definition w1 (m : nat) : Q := match m with O => 1 | _ => 1#12 end.
(* 2D: mode m = (m mod 2, m / 2); 3D: (m mod 2, (m/2) mod 2, m/4) *)
Definition w2q (m : nat) : Q := (w1 (m mod 2) * w1 (m / 2))%Q.
Definition c2 (k i m : nat) : Q :=
  match k with
  | O => dd (vx2 i) (m mod 2) * md (vy2 i) (m / 2)
  | _ => md (vx2 i) (m mod 2) * dd (vy2 i) (m / 2)
  end%Q.
Definition w3q (m : nat) : Q := (w1 (m mod 2) * w1 ((m / 2) mod 2) * w1 (m / 4))%Q.
Definition c3 (k i m : nat) : Q :=
  match k with
  | O => dd (vx3 i) (m mod 2) * md (vy3 i) ((m / 2) mod 2) * md (vz3 i) (m / 4)
  | S O => md (vx3 i) (m mod 2) * dd (vy3 i) ((m / 2) mod 2) * md (vz3 i) (m / 4)
  | _ => md (vx3 i) (m mod 2) * md (vy3 i) ((m / 2) mod 2) * dd (vz3 i) (m / 4)
  end%Q.
Fixpoint Qsumn (n : nat) (f : nat -> Q) : Q := match n with O => 0%Q | S k => (Qsumn k f + f k)%Q end.
Lemma Q2R_sum n f : Q2R (Qsumn n f) = Rsum n (fun m => Q2R (f m)).
Proof. induction n as [|n IH]; simpl; [apply RMicromega.Q2R_0|rewrite Q2R_plus, IH; reflexivity]. Qed.
Lemma table_modes T n k w d e :
  forallb (fun i => forallb (fun j => Qeq_bool (nth j (nth i T []) 0%Q) (Qsumn k (fun m => w m * d i m * e j m)%Q)) (seq 0 n)) (seq 0 n) = true ->
  forall i j, (i < n)%nat -> (j < n)%nat -> entry T i j = Rsum k (fun m => Q2R (w m) * Q2R (d i m) * Q2R (e j m)).
Proof.
  intros H i j Hi Hj. rewrite (table_ok T (fun i j => Qsumn k (fun m => w m * d i m * e j m)%Q) n n H i j Hi Hj), Q2R_sum.
  apply Rsum_ext. intros. rewrite !Q2R_mult. reflexivity.
Qed.
Definition cr2 k i m := Q2R (c2 k i m).
Definition cr3 k i m := Q2R (c3 k i m).
Definition wr2 m := Q2R (w2q m).
Definition wr3 m := Q2R (w3q m).
Definition g2 (k : nat) (U : nat -> R) (m : nat) : R := Rsum 4 (fun i => cr2 k i m * U i).
Definition g3 (k : nat) (U : nat -> R) (m : nat) : R := Rsum 8 (fun i => cr3 k i m * U i).
Ltac bm w d e k n := intros; unfold g2, g3; apply (bil_modes n k _ w d e); apply (table_modes _ n k); vm_compute; reflexivity.
Lemma bil2_00 U V : bil 4 matElem2d_dxudxu U V = Rsum 4 (fun m => wr2 m * (g2 0 U m * g2 0 V m)).
Proof. bm wr2 (cr2 0) (cr2 0) 4%nat 4%nat. Qed.
Lemma bil2_11 U V : bil 4 matElem2d_dyudyu U V = Rsum 4 (fun m => wr2 m * (g2 1 U m * g2 1 V m)).
Proof. bm wr2 (cr2 1) (cr2 1) 4%nat 4%nat. Qed.
Lemma bil2_10 U V : bil 4 matElem2d_dxudyu U V = Rsum 4 (fun m => wr2 m * (g2 1 U m * g2 0 V m)).
Proof. bm wr2 (cr2 1) (cr2 0) 4%nat 4%nat. Qed.
Lemma bil3_00 U V : bil 8 matElem3d_dxudxu U V = Rsum 8 (fun m => wr3 m * (g3 0 U m * g3 0 V m)).
Proof. bm wr3 (cr3 0) (cr3 0) 8%nat 8%nat. Qed.
Lemma bil3_11 U V : bil 8 matElem3d_dyudyu U V = Rsum 8 (fun m => wr3 m * (g3 1 U m * g3 1 V m)).
Proof. bm wr3 (cr3 1) (cr3 1) 8%nat 8%nat. Qed.
Lemma bil3_22 U V : bil 8 matElem3d_dzudzu U V = Rsum 8 (fun m => wr3 m * (g3 2 U m * g3 2 V m)).
Proof. bm wr3 (cr3 2) (cr3 2) 8%nat 8%nat. Qed.
Lemma bil3_10 U V : bil 8 matElem3d_dxudyu U V = Rsum 8 (fun m => wr3 m * (g3 1 U m * g3 0 V m)).
Proof. bm wr3 (cr3 1) (cr3 0) 8%nat 8%nat. Qed.
Lemma bil3_20 U V : bil 8 matElem3d_dxudzu U V = Rsum 8 (fun m => wr3 m * (g3 2 U m * g3 0 V m)).
Proof. bm wr3 (cr3 2) (cr3 0) 8%nat 8%nat. Qed.
Lemma bil3_21 U V : bil 8 matElem3d_dyudzu U V = Rsum 8 (fun m => wr3 m * (g3 2 U m * g3 1 V m)).
Proof. bm wr3 (cr3 2) (cr3 1) 8%nat 8%nat. Qed.
Lemma wr2_pos m : (m < 4)%nat -> 0 < wr2 m.
Proof. intros H. do 4 (destruct m as [|m]; [unfold wr2, w2q, Q2R; simpl; lra|]). lia. Qed.
Lemma wr3_pos m : (m < 8)%nat -> 0 < wr3 m.
Proof. intros H. do 8 (destruct m as [|m]; [unfold wr3, w3q, Q2R; simpl; lra|]). lia. Qed.

Lemma bil_ext n T T' U V : (forall i j, (i < n)%nat -> (j < n)%nat -> T i j = T' i j) -> bil n T U V = bil n T' U V.
Proof. intros H. unfold bil. apply Rsum_ext; intros i Hi. apply Rsum_ext; intros j Hj. rewrite H; auto. Qed.
Lemma bil_plus n T T' U V : bil n (fun i j => T i j + T' i j) U V = bil n T U V + bil n T' U V.
Proof.
  unfold bil. rewrite <- Rsum_plus. apply Rsum_ext; intros i Hi. rewrite <- Rsum_plus. apply Rsum_ext; intros; ring.
Qed.
Lemma bil_scal n c T U V : bil n (fun i j => c * T i j) U V = c * bil n T U V.
Proof.
  unfold bil. rewrite <- Rsum_scal. apply Rsum_ext; intros i Hi. rewrite <- Rsum_scal. apply Rsum_ext; intros; ring.
Qed.
Lemma bil_trans n T U V : bil n (fun i j => T j i) U V = bil n T V U.
Proof. unfold bil. rewrite Rsum_swap. apply Rsum_ext; intros i Hi. apply Rsum_ext; intros; ring. Qed.
Lemma vform_bil n D M U : vform n D M U = Rsum D (fun a => Rsum D (fun b => bil n (fun i j => M i j a b) (fun i => U i a) (fun i => U i b))).
Proof.
  unfold vform, bil.
  transitivity (Rsum n (fun i => Rsum D (fun a => Rsum D (fun b => Rsum n (fun j => U i a * M i j a b * U j b))))).
  { apply Rsum_ext; intros i Hi. rewrite Rsum_swap. apply Rsum_ext; intros a Ha. apply Rsum_swap. }
  rewrite Rsum_swap. apply Rsum_ext; intros a Ha. apply Rsum_swap.
Qed.

(** ---- sums of squares ---- *)
Lemma lap2_sos h0 h1 U : h0 <> 0 -> h1 <> 0 -> qform 4 (getMatElemLaplacian2 h0 h1) U =
  Rsum 4 (fun m => wr2 m * (h1 / h0 * (g2 0 U m * g2 0 U m) + h0 / h1 * (g2 1 U m * g2 1 U m))).
Proof.
  intros H0 H1. change (qform 4 (getMatElemLaplacian2 h0 h1) U) with (bil 4 (getMatElemLaplacian2 h0 h1) U U).
  unfold getMatElemLaplacian2. rewrite bil_plus, !bil_scal, bil2_00, bil2_11.
  rewrite <- !Rsum_scal, <- Rsum_plus. apply Rsum_ext; intros; ring.
Qed.
Lemma lap3_sos h0 h1 h2 U : qform 8 (getMatElemLaplacian3 h0 h1 h2) U =
  Rsum 8 (fun m => wr3 m * (h1 * h2 / h0 * (g3 0 U m * g3 0 U m) + h0 * h2 / h1 * (g3 1 U m * g3 1 U m) + h0 * h1 / h2 * (g3 2 U m * g3 2 U m))).
Proof.
  change (qform 8 (getMatElemLaplacian3 h0 h1 h2) U) with (bil 8 (getMatElemLaplacian3 h0 h1 h2) U U).
  unfold getMatElemLaplacian3. rewrite !bil_plus, !bil_scal, bil3_00, bil3_11, bil3_22.
  rewrite <- !Rsum_scal, <- !Rsum_plus. apply Rsum_ext; intros; ring.
Qed.
Lemma strain2_sos h0 h1 U : h0 <> 0 -> h1 <> 0 -> vform 4 2 (getMatElemStrainTensor2 h0 h1) U =
  Rsum 4 (fun m => wr2 m * (h0 * h1) *
    (2 * (g2 0 (fun i => U i 0%nat) m / h0) ^ 2 + 2 * (g2 1 (fun i => U i 1%nat) m / h1) ^ 2
     + (g2 1 (fun i => U i 0%nat) m / h1 + g2 0 (fun i => U i 1%nat) m / h0) ^ 2)).
Proof.
  intros H0 H1. rewrite vform_bil. cbn [Rsum]. unfold getMatElemStrainTensor2.
  rewrite !bil_plus, !bil_scal, (bil_trans 4 matElem2d_dxudyu), !bil2_00, !bil2_11, !bil2_10. cbn [Rsum]. field. auto.
Qed.
Lemma strain3_sos h0 h1 h2 U : h0 <> 0 -> h1 <> 0 -> h2 <> 0 -> vform 8 3 (getMatElemStrainTensor3 h0 h1 h2) U =
  Rsum 8 (fun m => wr3 m * (h0 * h1 * h2) *
    (2 * (g3 0 (fun i => U i 0%nat) m / h0) ^ 2 + 2 * (g3 1 (fun i => U i 1%nat) m / h1) ^ 2 + 2 * (g3 2 (fun i => U i 2%nat) m / h2) ^ 2
     + (g3 1 (fun i => U i 0%nat) m / h1 + g3 0 (fun i => U i 1%nat) m / h0) ^ 2
     + (g3 2 (fun i => U i 0%nat) m / h2 + g3 0 (fun i => U i 2%nat) m / h0) ^ 2
     + (g3 2 (fun i => U i 1%nat) m / h2 + g3 1 (fun i => U i 2%nat) m / h1) ^ 2)).
Proof.
  intros H0 H1 H2. rewrite vform_bil. cbn [Rsum]. unfold getMatElemStrainTensor3.
  rewrite !bil_plus, !bil_scal, (bil_trans 8 matElem3d_dxudyu), (bil_trans 8 matElem3d_dxudzu), (bil_trans 8 matElem3d_dyudzu), !bil3_00, !bil3_11, !bil3_22, !bil3_10, !bil3_20, !bil3_21.
  rewrite <- !Rsum_scal. rewrite <- ?Rsum_plus.
  transitivity (Rsum 8 (fun m => wr3 m * (h0 * h1 * h2) *
    (2 * (g3 0 (fun i => U i 0%nat) m / h0) ^ 2 + 2 * (g3 1 (fun i => U i 1%nat) m / h1) ^ 2 + 2 * (g3 2 (fun i => U i 2%nat) m / h2) ^ 2
     + (g3 1 (fun i => U i 0%nat) m / h1 + g3 0 (fun i => U i 1%nat) m / h0) ^ 2
     + (g3 2 (fun i => U i 0%nat) m / h2 + g3 0 (fun i => U i 2%nat) m / h0) ^ 2
     + (g3 2 (fun i => U i 1%nat) m / h2 + g3 1 (fun i => U i 2%nat) m / h1) ^ 2))); [|reflexivity].
  rewrite !Rplus_0_l. rewrite <- ?Rsum_plus. apply Rsum_ext. intros m _. field. auto.
Qed.

(** ---- kernels ---- *)
Ltac numeric := unfold cr2, cr3, c2, c3, dd, md, sg, vx2, vy2, vx3, vy3, vz3, vertices2, vertices3, Q2R in *; cbn in *.
Lemma g2_vals U :
  g2 0 U 0 = (- U 0%nat + U 1%nat - U 2%nat + U 3%nat) / 2 /\ g2 0 U 2 = U 0%nat - U 1%nat - U 2%nat + U 3%nat /\ g2 0 U 1 = 0 /\ g2 0 U 3 = 0 /\
  g2 1 U 0 = (- U 0%nat - U 1%nat + U 2%nat + U 3%nat) / 2 /\ g2 1 U 1 = U 0%nat - U 1%nat - U 2%nat + U 3%nat /\ g2 1 U 2 = 0 /\ g2 1 U 3 = 0.
Proof. unfold g2. numeric. repeat split; lra. Qed.
Lemma g3_vals U : let s a0 a1 a2 a3 a4 a5 a6 a7 := a0 * U 0%nat + a1 * U 1%nat + a2 * U 2%nat + a3 * U 3%nat + a4 * U 4%nat + a5 * U 5%nat + a6 * U 6%nat + a7 * U 7%nat in
  (g3 0 U 0 = s (-1) 1 (-1) 1 (-1) 1 (-1) 1 / 4 /\ g3 0 U 2 = s 1 (-1) (-1) 1 1 (-1) (-1) 1 / 2 /\
   g3 0 U 4 = s 1 (-1) 1 (-1) (-1) 1 (-1) 1 / 2 /\ g3 0 U 6 = s (-1) 1 1 (-1) 1 (-1) (-1) 1 /\
   g3 0 U 1 = 0 /\ g3 0 U 3 = 0 /\ g3 0 U 5 = 0 /\ g3 0 U 7 = 0) /\
  (g3 1 U 0 = s (-1) (-1) 1 1 (-1) (-1) 1 1 / 4 /\ g3 1 U 1 = s 1 (-1) (-1) 1 1 (-1) (-1) 1 / 2 /\
   g3 1 U 4 = s 1 1 (-1) (-1) (-1) (-1) 1 1 / 2 /\ g3 1 U 5 = s (-1) 1 1 (-1) 1 (-1) (-1) 1 /\
   g3 1 U 2 = 0 /\ g3 1 U 3 = 0 /\ g3 1 U 6 = 0 /\ g3 1 U 7 = 0) /\
  (g3 2 U 0 = s (-1) (-1) (-1) (-1) 1 1 1 1 / 4 /\ g3 2 U 1 = s 1 (-1) 1 (-1) (-1) 1 (-1) 1 / 2 /\
   g3 2 U 2 = s 1 1 (-1) (-1) (-1) (-1) 1 1 / 2 /\ g3 2 U 3 = s (-1) 1 1 (-1) 1 (-1) (-1) 1 /\
   g3 2 U 4 = 0 /\ g3 2 U 5 = 0 /\ g3 2 U 6 = 0 /\ g3 2 U 7 = 0).
Proof. intros s. unfold s, g3. numeric. repeat split; lra. Qed.
Lemma sq_nonneg x : 0 <= x * x. Proof. nra. Qed.
Lemma sq_zero x : x * x = 0 -> x = 0. Proof. intros H. destruct (Rmult_integral _ _ H); auto. Qed.
Lemma wsq_zero c x : 0 < c -> c * (x * x) = 0 -> x = 0.
Proof. intros Hc H. apply sq_zero. destruct (Rmult_integral _ _ H); [lra|auto]. Qed.
Lemma wsq_nonneg c x : 0 < c -> 0 <= c * (x * x).
Proof. intros Hc. apply Rmult_le_pos; [lra|apply sq_nonneg]. Qed.
Lemma wr_mul_nonneg w x : 0 < w -> 0 <= x -> 0 <= w * x. Proof. intros; apply Rmult_le_pos; lra. Qed.

Lemma lap2_psd h0 h1 U : 0 < h0 -> 0 < h1 -> 0 <= qform 4 (getMatElemLaplacian2 h0 h1) U /\
  (qform 4 (getMatElemLaplacian2 h0 h1) U = 0 <-> (forall i, (i < 4)%nat -> U i = U 0%nat)).
Proof.
  intros H0 H1. rewrite lap2_sos by lra.
  assert (P : 0 < h1 / h0 /\ 0 < h0 / h1) by (split; apply Rdiv_lt_0_compat; auto).
  assert (N : forall m, (m < 4)%nat -> 0 <= wr2 m * (h1 / h0 * (g2 0 U m * g2 0 U m) + h0 / h1 * (g2 1 U m * g2 1 U m))).
  { intros m Hm. apply wr_mul_nonneg; [apply wr2_pos, Hm|]. apply Rplus_le_le_0_compat; apply wsq_nonneg; tauto. }
  split; [apply Rsum_nonneg, N|]. split.
  - intros E. pose proof (Rsum_nonneg_0 _ _ N E) as Z. cbv beta in Z.
    assert (G : forall m, (m < 4)%nat -> g2 0 U m = 0 /\ g2 1 U m = 0).
    { intros m Hm. specialize (Z m Hm). pose proof (wr2_pos m Hm) as W. destruct (Rmult_integral _ _ Z) as [|Z']; [lra|].
      pose proof (wsq_nonneg _ (g2 0 U m) (proj1 P)). pose proof (wsq_nonneg _ (g2 1 U m) (proj2 P)).
      split; [apply (wsq_zero (h1 / h0))|apply (wsq_zero (h0 / h1))]; try tauto; lra. }
    destruct (g2_vals U) as [A [B [_ [_ [C _]]]]].
    pose proof (proj1 (G 0%nat ltac:(lia))) as E1. pose proof (proj1 (G 2%nat ltac:(lia))) as E2. pose proof (proj2 (G 0%nat ltac:(lia))) as E3.
    rewrite A in E1. rewrite B in E2. rewrite C in E3.
    intros i Hi. destruct i as [|[|[|[|i]]]]; [| | | |lia]; lra.
  - intros E. pose proof (E 1%nat ltac:(lia)). pose proof (E 2%nat ltac:(lia)). pose proof (E 3%nat ltac:(lia)).
    destruct (g2_vals U) as [A [B [B1 [B3 [C [D [D2 D3]]]]]]].
    cbn [Rsum]. rewrite A, B, B1, B3, C, D, D2, D3, H, H2, H3. field. lra.
Qed.
Lemma lap3_psd h0 h1 h2 U : 0 < h0 -> 0 < h1 -> 0 < h2 -> 0 <= qform 8 (getMatElemLaplacian3 h0 h1 h2) U /\
  (qform 8 (getMatElemLaplacian3 h0 h1 h2) U = 0 <-> (forall i, (i < 8)%nat -> U i = U 0%nat)).
Proof.
  intros H0 H1 H2. rewrite lap3_sos.
  assert (P0 : 0 < h1 * h2 / h0) by (apply Rdiv_lt_0_compat; auto; apply Rmult_lt_0_compat; auto).
  assert (P1 : 0 < h0 * h2 / h1) by (apply Rdiv_lt_0_compat; auto; apply Rmult_lt_0_compat; auto).
  assert (P2 : 0 < h0 * h1 / h2) by (apply Rdiv_lt_0_compat; auto; apply Rmult_lt_0_compat; auto).
  assert (N : forall m, (m < 8)%nat -> 0 <= wr3 m * (h1 * h2 / h0 * (g3 0 U m * g3 0 U m) + h0 * h2 / h1 * (g3 1 U m * g3 1 U m) + h0 * h1 / h2 * (g3 2 U m * g3 2 U m))).
  { intros m Hm. apply wr_mul_nonneg; [apply wr3_pos, Hm|]. apply Rplus_le_le_0_compat; [apply Rplus_le_le_0_compat|]; apply wsq_nonneg; auto. }
  split; [apply Rsum_nonneg, N|]. split.
  - intros E. pose proof (Rsum_nonneg_0 _ _ N E) as Z. cbv beta in Z.
    assert (G : forall m, (m < 8)%nat -> g3 0 U m = 0 /\ g3 1 U m = 0 /\ g3 2 U m = 0).
    { intros m Hm. specialize (Z m Hm). pose proof (wr3_pos m Hm) as W. destruct (Rmult_integral _ _ Z) as [|Z']; [lra|].
      pose proof (wsq_nonneg _ (g3 0 U m) P0). pose proof (wsq_nonneg _ (g3 1 U m) P1). pose proof (wsq_nonneg _ (g3 2 U m) P2).
      split; [apply (wsq_zero _ _ P0)|split; [apply (wsq_zero _ _ P1)|apply (wsq_zero _ _ P2)]]; lra. }
    destruct (g3_vals U) as [(A0 & A2 & A4 & A6 & _) [(B0 & B1 & B4 & _) (C0 & _)]].
    pose proof (proj1 (G 0%nat ltac:(lia))) as E0. pose proof (proj1 (G 2%nat ltac:(lia))) as E2. pose proof (proj1 (G 4%nat ltac:(lia))) as E4. pose proof (proj1 (G 6%nat ltac:(lia))) as E6.
    pose proof (proj1 (proj2 (G 0%nat ltac:(lia)))) as F0. pose proof (proj1 (proj2 (G 4%nat ltac:(lia)))) as F4.
    pose proof (proj2 (proj2 (G 0%nat ltac:(lia)))) as K0.
    rewrite A0 in E0. rewrite A2 in E2. rewrite A4 in E4. rewrite A6 in E6. rewrite B0 in F0. rewrite B4 in F4. rewrite C0 in K0.
    intros i Hi. do 8 (destruct i as [|i]; [lra|]). lia.
  - intros E. 
    assert (G : forall k m, (m < 8)%nat -> g3 k U m = U 0%nat * Rsum 8 (fun i => cr3 k i m)).
    { intros k m Hm. unfold g3. rewrite <- Rsum_scal. apply Rsum_ext. intros i Hi. rewrite (E i Hi). ring. }
    assert (S0 : forall k m, (m < 8)%nat -> g3 k U m = 0).
    { intros k m Hm. rewrite G by auto. enough (X : Rsum 8 (fun i => cr3 k i m) = 0) by (rewrite X; ring).
      destruct k as [|[|k]]; do 8 (destruct m as [|m]; [numeric; lra|]); lia. }
    rewrite (Rsum_ext 8 _ (fun _ => 0)); [apply Rsum_zero|]. intros m Hm. rewrite !S0 by auto. ring.
Qed.
Lemma strain2_psd h0 h1 U : 0 < h0 -> 0 < h1 -> 0 <= vform 4 2 (getMatElemStrainTensor2 h0 h1) U /\
  (vform 4 2 (getMatElemStrainTensor2 h0 h1) U = 0 <-> rigid2 h0 h1 U).
Proof.
  intros H0 H1. rewrite strain2_sos by lra.
  assert (V : 0 < h0 * h1) by (apply Rmult_lt_0_compat; auto).
  match goal with |- context [Rsum 4 ?f] => set (F := f) end.
  assert (N : forall m, (m < 4)%nat -> 0 <= F m).
  { intros m Hm. unfold F. apply Rmult_le_pos; [apply Rmult_le_pos; [left; apply wr2_pos, Hm|lra]|].
    repeat apply Rplus_le_le_0_compat; try (apply Rmult_le_pos; [lra|]); apply pow2_ge_0. }
  split; [apply Rsum_nonneg, N|]. split.
  - intros E. pose proof (Rsum_nonneg_0 _ _ N E) as Z.
    set (u := fun i => U i 0%nat) in *. set (v := fun i => U i 1%nat) in *.
    assert (G : forall m, (m < 4)%nat -> g2 0 u m = 0 /\ g2 1 v m = 0 /\ h0 * g2 1 u m + h1 * g2 0 v m = 0).
    { intros m Hm. specialize (Z m Hm). unfold F in Z. pose proof (wr2_pos m Hm) as W.
      destruct (Rmult_integral _ _ Z) as [Z'|Z']; [pose proof (Rmult_lt_0_compat _ _ W V); lra|].
      set (p := g2 0 u m / h0) in *. set (q := g2 1 v m / h1) in *. set (r := g2 1 u m / h1 + g2 0 v m / h0) in *.
      assert (p = 0 /\ q = 0 /\ r = 0) as [Ep [Eq Er]] by (repeat split; nra).
      split; [|split].
      - replace (g2 0 u m) with (p * h0) by (unfold p; field; lra). rewrite Ep; ring.
      - replace (g2 1 v m) with (q * h1) by (unfold q; field; lra). rewrite Eq; ring.
      - replace (h0 * g2 1 u m + h1 * g2 0 v m) with (r * (h0 * h1)) by (unfold r; field; lra). rewrite Er; ring. }
    destruct (g2_vals u) as [A0 [A2 [_ [_ [B0 [B1 [B2 _]]]]]]]. destruct (g2_vals v) as [C0 [C2 [C1 [_ [D0 [D1 _]]]]]].
    destruct (G 0%nat ltac:(lia)) as [E1 [E2 E3]]. destruct (G 1%nat ltac:(lia)) as [_ [E4 _]]. destruct (G 2%nat ltac:(lia)) as [E5 [_ _]].
    rewrite A0 in E1. rewrite D0 in E2. rewrite B0, C0 in E3. rewrite D1 in E4. rewrite A2 in E5.
    unfold u, v in *. clear -E1 E2 E3 E4 E5 H0 H1.
    exists (U 0%nat 0%nat), (U 0%nat 1%nat), ((U 1%nat 1%nat - U 0%nat 1%nat) / h0).
    assert (X : U 2%nat 0%nat = U 0%nat 0%nat - (U 1%nat 1%nat - U 0%nat 1%nat) / h0 * h1).
    { apply (Rmult_eq_reg_l h0); [|lra]. replace (h0 * (U 0%nat 0%nat - (U 1%nat 1%nat - U 0%nat 1%nat) / h0 * h1)) with (h0 * U 0%nat 0%nat - (U 1%nat 1%nat - U 0%nat 1%nat) * h1) by (field; lra).
      assert (U 1%nat 0%nat = U 0%nat 0%nat) by lra. assert (U 3%nat 0%nat = U 2%nat 0%nat) by lra. 
      assert (U 3%nat 1%nat = U 1%nat 1%nat) by lra. assert (U 2%nat 1%nat = U 0%nat 1%nat) by lra.
      rewrite H, H2, H3, H4 in E3. lra. }
    intros i Hi. do 4 (destruct i as [|i]; [unfold node2, b2r; simpl; split; try lra; field_simplify; try lra|]); lia.
  - intros [t0 [t1 [w Hr]]].
    destruct (Hr 0%nat ltac:(lia)) as [r00 r01]. destruct (Hr 1%nat ltac:(lia)) as [r10 r11].
    destruct (Hr 2%nat ltac:(lia)) as [r20 r21]. destruct (Hr 3%nat ltac:(lia)) as [r30 r31].
    unfold node2, b2r in *; simpl in *.
    unfold F. cbn [Rsum].
    destruct (g2_vals (fun i => U i 0%nat)) as [-> [-> [-> [-> [-> [-> [-> ->]]]]]]].
    destruct (g2_vals (fun i => U i 1%nat)) as [-> [-> [-> [-> [-> [-> [-> ->]]]]]]].
    rewrite r00, r01, r10, r11, r20, r21, r30, r31. field. lra.
Qed.

Lemma six_squares p q r s t o : 2 * p ^ 2 + 2 * q ^ 2 + 2 * r ^ 2 + s ^ 2 + t ^ 2 + o ^ 2 = 0 -> p = 0 /\ q = 0 /\ r = 0 /\ s = 0 /\ t = 0 /\ o = 0.
Proof.
  intros Z. pose proof (pow2_ge_0 p); pose proof (pow2_ge_0 q); pose proof (pow2_ge_0 r); pose proof (pow2_ge_0 s); pose proof (pow2_ge_0 t); pose proof (pow2_ge_0 o).
  assert (Q : forall x, x ^ 2 = 0 -> x = 0) by (intros x Hx; apply sq_zero; lra).
  repeat split; apply Q; lra.
Qed.
Lemma strain3_psd h0 h1 h2 U : 0 < h0 -> 0 < h1 -> 0 < h2 -> 0 <= vform 8 3 (getMatElemStrainTensor3 h0 h1 h2) U /\
  (vform 8 3 (getMatElemStrainTensor3 h0 h1 h2) U = 0 <-> rigid3 h0 h1 h2 U).
Proof.
  intros H0 H1 H2. rewrite strain3_sos by lra.
  assert (V : 0 < h0 * h1 * h2) by (apply Rmult_lt_0_compat; auto; apply Rmult_lt_0_compat; auto).
  match goal with |- context [Rsum 8 ?f] => set (F := f) end.
  assert (N : forall m, (m < 8)%nat -> 0 <= F m).
  { intros m Hm. unfold F. apply Rmult_le_pos; [apply Rmult_le_pos; [left; apply wr3_pos, Hm|lra]|].
    repeat apply Rplus_le_le_0_compat; try (apply Rmult_le_pos; [lra|]); apply pow2_ge_0. }
  split; [apply Rsum_nonneg, N|]. split.
  - intros E. pose proof (Rsum_nonneg_0 _ _ N E) as Z.
    (* rescaled unknowns *)
    set (u := fun i => h0 * U i 0%nat). set (v := fun i => h1 * U i 1%nat). set (w := fun i => h2 * U i 2%nat).
    assert (GS : forall k m c (f : nat -> R), g3 k (fun i => c * f i) m = c * g3 k f m).
    { intros. unfold g3. rewrite <- Rsum_scal. apply Rsum_ext; intros; ring. }
    assert (G : forall m, (m < 8)%nat -> g3 0 u m = 0 /\ g3 1 v m = 0 /\ g3 2 w m = 0 /\
       g3 1 u m + g3 0 v m = 0 /\ g3 2 u m + g3 0 w m = 0 /\ g3 2 v m + g3 1 w m = 0).
    { intros m Hm. specialize (Z m Hm). unfold F in Z. pose proof (wr3_pos m Hm) as W.
      destruct (Rmult_integral _ _ Z) as [Z'|Z']; [pose proof (Rmult_lt_0_compat _ _ W V); lra|].
      unfold u, v, w. rewrite !GS.
      destruct (six_squares _ _ _ _ _ _ Z') as (Ep & Eq & Er & Es & Et & Eo). clear Z Z' E N.
      repeat split.
      - match type of Ep with ?t = 0 => transitivity (t * (h0 * h0)); [field; lra|rewrite Ep; ring] end.
      - match type of Eq with ?t = 0 => transitivity (t * (h1 * h1)); [field; lra|rewrite Eq; ring] end.
      - match type of Er with ?t = 0 => transitivity (t * (h2 * h2)); [field; lra|rewrite Er; ring] end.
      - match type of Es with ?t = 0 => transitivity (t * (h0 * h1)); [field; lra|rewrite Es; ring] end.
      - match type of Et with ?t = 0 => transitivity (t * (h0 * h2)); [field; lra|rewrite Et; ring] end.
      - match type of Eo with ?t = 0 => transitivity (t * (h1 * h2)); [field; lra|rewrite Eo; ring] end. }
    destruct (g3_vals u) as [(u00 & u02 & u04 & u06 & u01 & u03 & u05 & u07) [(u10 & u11 & u14 & u15 & u12 & u13 & u16 & u17) (u20 & u21 & u22 & u23 & u24 & u25 & u26 & u27)]].
    destruct (g3_vals v) as [(v00 & v02 & v04 & v06 & v01 & v03 & v05 & v07) [(v10 & v11 & v14 & v15 & v12 & v13 & v16 & v17) (v20 & v21 & v22 & v23 & v24 & v25 & v26 & v27)]].
    destruct (g3_vals w) as [(w00 & w02 & w04 & w06 & w01 & w03 & w05 & w07) [(w10 & w11 & w14 & w15 & w12 & w13 & w16 & w17) (w20 & w21 & w22 & w23 & w24 & w25 & w26 & w27)]].
    assert (X : (forall i, (i < 8)%nat -> u i = u 0%nat + (u 4%nat - u 0%nat) * b2r (vz3 i) - (v 1%nat - v 0%nat) * b2r (vy3 i) /\
                 v i = v 0%nat + (v 1%nat - v 0%nat) * b2r (vx3 i) - (w 2%nat - w 0%nat) * b2r (vz3 i) /\
                 w i = w 0%nat + (w 2%nat - w 0%nat) * b2r (vy3 i) - (u 4%nat - u 0%nat) * b2r (vx3 i))).
    { pose proof (G 0%nat ltac:(lia)) as (a1 & a2 & a3 & a4 & a5 & a6). pose proof (G 1%nat ltac:(lia)) as (b1 & b2 & b3 & b4 & b5 & b6).
      pose proof (G 2%nat ltac:(lia)) as (c1 & c2 & c3 & c4 & c5 & c6). pose proof (G 3%nat ltac:(lia)) as (d1 & d2 & d3 & d4 & d5 & d6).
      pose proof (G 4%nat ltac:(lia)) as (e1 & e2 & e3 & e4 & e5 & e6). pose proof (G 5%nat ltac:(lia)) as (f1 & f2 & f3 & f4 & f5 & f6).
      pose proof (G 6%nat ltac:(lia)) as (k1 & k2 & k3 & k4 & k5 & k6).
      clear - a1 a2 a3 a4 a5 a6 b1 b2 b3 b4 b5 b6 c1 c2 c3 c4 c5 c6 d1 d2 d3 d4 d5 d6 e1 e2 e3 e4 e5 e6 f1 f2 f3 f4 f5 f6 k1 k2 k3 k4 k5 k6
       u00 u02 u04 u06 u01 u03 u05 u07 u10 u11 u14 u15 u12 u13 u16 u17 u20 u21 u22 u23 u24 u25 u26 u27
       v00 v02 v04 v06 v01 v03 v05 v07 v10 v11 v14 v15 v12 v13 v16 v17 v20 v21 v22 v23 v24 v25 v26 v27
       w00 w02 w04 w06 w01 w03 w05 w07 w10 w11 w14 w15 w12 w13 w16 w17 w20 w21 w22 w23 w24 w25 w26 w27.
      rewrite ?u00, ?u02, ?u04, ?u06, ?u01, ?u03, ?u05, ?u07, ?u10, ?u11, ?u14, ?u15, ?u12, ?u13, ?u16, ?u17, ?u20, ?u21, ?u22, ?u23, ?u24, ?u25, ?u26, ?u27,
       ?v00, ?v02, ?v04, ?v06, ?v01, ?v03, ?v05, ?v07, ?v10, ?v11, ?v14, ?v15, ?v12, ?v13, ?v16, ?v17, ?v20, ?v21, ?v22, ?v23, ?v24, ?v25, ?v26, ?v27,
       ?w00, ?w02, ?w04, ?w06, ?w01, ?w03, ?w05, ?w07, ?w10, ?w11, ?w14, ?w15, ?w12, ?w13, ?w16, ?w17, ?w20, ?w21, ?w22, ?w23, ?w24, ?w25, ?w26, ?w27 in *.
      clear u00 u02 u04 u06 u01 u03 u05 u07 u10 u11 u14 u15 u12 u13 u16 u17 u20 u21 u22 u23 u24 u25 u26 u27
       v00 v02 v04 v06 v01 v03 v05 v07 v10 v11 v14 v15 v12 v13 v16 v17 v20 v21 v22 v23 v24 v25 v26 v27
       w00 w02 w04 w06 w01 w03 w05 w07 w10 w11 w14 w15 w12 w13 w16 w17 w20 w21 w22 w23 w24 w25 w26 w27.
      assert (u1 : u 1%nat = u 0%nat) by lra. assert (u3 : u 3%nat = u 2%nat) by lra. assert (u5 : u 5%nat = u 4%nat) by lra. assert (u7 : u 7%nat = u 6%nat) by lra.
      assert (v2 : v 2%nat = v 0%nat) by lra. assert (v3 : v 3%nat = v 1%nat) by lra. assert (v6 : v 6%nat = v 4%nat) by lra. assert (v7 : v 7%nat = v 5%nat) by lra.
      assert (w4 : w 4%nat = w 0%nat) by lra. assert (w5 : w 5%nat = w 1%nat) by lra. assert (w6 : w 6%nat = w 2%nat) by lra. assert (w7 : w 7%nat = w 3%nat) by lra.
      rewrite u1, u3, u5, u7, v2, v3, v6, v7, w4, w5, w6, w7 in *.
      intros i Hi. do 8 (destruct i as [|i]; [unfold vx3, vy3, vz3, b2r; simpl; repeat split; lra|]). lia. }
    exists (U 0%nat 0%nat), (U 0%nat 1%nat), (U 0%nat 2%nat), ((w 2%nat - w 0%nat) / (h1 * h2)), ((u 4%nat - u 0%nat) / (h0 * h2)), ((v 1%nat - v 0%nat) / (h0 * h1)).
    intros i Hi. destruct (X i Hi) as (X0 & X1 & X2). unfold node3. fold (vx3 i) (vy3 i) (vz3 i).
    change (u i) with (h0 * U i 0%nat) in X0. change (v i) with (h1 * U i 1%nat) in X1. change (w i) with (h2 * U i 2%nat) in X2.
    set (du := u 4%nat - u 0%nat) in *. set (dv := v 1%nat - v 0%nat) in *. set (dw := w 2%nat - w 0%nat) in *.
    change (u 0%nat) with (h0 * U 0%nat 0%nat) in X0. change (v 0%nat) with (h1 * U 0%nat 1%nat) in X1. change (w 0%nat) with (h2 * U 0%nat 2%nat) in X2.
    repeat split.
    + apply (Rmult_eq_reg_l h0); [|lra]. rewrite X0. field. lra.
    + apply (Rmult_eq_reg_l h1); [|lra]. rewrite X1. field. lra.
    + apply (Rmult_eq_reg_l h2); [|lra]. rewrite X2. field. lra.
  - intros (t0 & t1 & t2 & w0 & w1 & w2 & Hr).
    assert (GL : forall k m a b c e (f g : nat -> R), g3 k (fun i => a + b * f i + c * g i) m = e -> e = a * Rsum 8 (fun i => cr3 k i m) + b * g3 k f m + c * g3 k g m).
    { intros k m a b c e f g <-. unfold g3. rewrite <- !Rsum_scal, <- !Rsum_plus. apply Rsum_ext; intros; ring. }
    assert (GE : forall k m f g, (forall i, (i < 8)%nat -> f i = g i) -> g3 k f m = g3 k g m).
    { intros k m f g H. unfold g3. apply Rsum_ext. intros i Hi. rewrite H; auto. }
    assert (S1 : forall k m, (m < 8)%nat -> Rsum 8 (fun i => cr3 k i m) = 0).
    { intros k m Hm. destruct k as [|[|k]]; do 8 (destruct m as [|m]; [numeric; lra|]); lia. }
    assert (C : forall k m, (m < 8)%nat -> (k < 3)%nat ->
       g3 k (fun i => b2r (vx3 i)) m = (if (Nat.eqb k 0 && Nat.eqb m 0)%bool then 1 else 0) /\
       g3 k (fun i => b2r (vy3 i)) m = (if (Nat.eqb k 1 && Nat.eqb m 0)%bool then 1 else 0) /\
       g3 k (fun i => b2r (vz3 i)) m = (if (Nat.eqb k 2 && Nat.eqb m 0)%bool then 1 else 0)).
    { intros k m Hm Hk. destruct k as [|[|[|k]]]; [| | |lia]; (do 8 (destruct m as [|m]; [unfold g3, b2r; numeric; repeat split; lra|]); lia). }
    assert (GU : forall k m, (m < 8)%nat -> (k < 3)%nat ->
       g3 k (fun i => U i 0%nat) m = w1 * h2 * (if (Nat.eqb k 2 && Nat.eqb m 0)%bool then 1 else 0) - w2 * h1 * (if (Nat.eqb k 1 && Nat.eqb m 0)%bool then 1 else 0) /\
       g3 k (fun i => U i 1%nat) m = w2 * h0 * (if (Nat.eqb k 0 && Nat.eqb m 0)%bool then 1 else 0) - w0 * h2 * (if (Nat.eqb k 2 && Nat.eqb m 0)%bool then 1 else 0) /\
       g3 k (fun i => U i 2%nat) m = w0 * h1 * (if (Nat.eqb k 1 && Nat.eqb m 0)%bool then 1 else 0) - w1 * h0 * (if (Nat.eqb k 0 && Nat.eqb m 0)%bool then 1 else 0)).
    { intros k m Hm Hk. destruct (C k m Hm Hk) as (Cx & Cy & Cz). repeat split.
      - rewrite (GE k m _ (fun i => t0 + (w1 * h2) * b2r (vz3 i) + (- (w2 * h1)) * b2r (vy3 i))).
        2:{ intros i Hi. destruct (Hr i Hi) as (-> & _ & _). unfold node3. fold (vx3 i) (vy3 i) (vz3 i). ring. }
        rewrite (GL k m _ _ _ _ _ _ eq_refl), S1, Cy, Cz by auto. ring.
      - rewrite (GE k m _ (fun i => t1 + (w2 * h0) * b2r (vx3 i) + (- (w0 * h2)) * b2r (vz3 i))).
        2:{ intros i Hi. destruct (Hr i Hi) as (_ & -> & _). unfold node3. fold (vx3 i) (vy3 i) (vz3 i). ring. }
        rewrite (GL k m _ _ _ _ _ _ eq_refl), S1, Cx, Cz by auto. ring.
      - rewrite (GE k m _ (fun i => t2 + (w0 * h1) * b2r (vy3 i) + (- (w1 * h0)) * b2r (vx3 i))).
        2:{ intros i Hi. destruct (Hr i Hi) as (_ & _ & ->). unfold node3. fold (vx3 i) (vy3 i) (vz3 i). ring. }
        rewrite (GL k m _ _ _ _ _ _ eq_refl), S1, Cx, Cy by auto. ring. }
    rewrite (Rsum_ext 8 F (fun _ => 0)); [apply Rsum_zero|]. intros m Hm. unfold F.
    destruct (GU 0%nat m Hm ltac:(lia)) as (-> & -> & ->). destruct (GU 1%nat m Hm ltac:(lia)) as (-> & -> & ->).
    destruct (GU 2%nat m Hm ltac:(lia)) as (-> & -> & ->). cbn [Nat.eqb andb]. destruct (Nat.eqb m 0); field; lra.
Qed.
Ltac tabs := unfold entry; cbn [nth]; unfold Q2R; cbn [Qnum Qden].
Lemma kernel_annihilated : forall h0 h1 h2, 0 < h0 -> 0 < h1 -> 0 < h2 ->
  (forall c i, (i < 4)%nat -> Rsum 4 (fun j => getMatElemLaplacian2 h0 h1 i j * c) = 0) /\
  (forall c i, (i < 8)%nat -> Rsum 8 (fun j => getMatElemLaplacian3 h0 h1 h2 i j * c) = 0) /\
  (forall U i a, rigid2 h0 h1 U -> (i < 4)%nat -> (a < 2)%nat ->
     Rsum 4 (fun j => Rsum 2 (fun b => getMatElemStrainTensor2 h0 h1 i j a b * U j b)) = 0) /\
  (forall U i a, rigid3 h0 h1 h2 U -> (i < 8)%nat -> (a < 3)%nat ->
     Rsum 8 (fun j => Rsum 3 (fun b => getMatElemStrainTensor3 h0 h1 h2 i j a b * U j b)) = 0).
Proof.
  intros h0 h1 h2 H0 H1 H2. split; [|split; [|split]].
  - intros c i Hi. cbn [Rsum]. unfold getMatElemLaplacian2, matElem2d_dxudxu, matElem2d_dyudyu, matElem2d_dxudxu_q, matElem2d_dyudyu_q.
    do 4 (destruct i as [|i]; [tabs; field; lra|]); lia.
  - intros c i Hi. cbn [Rsum]. unfold getMatElemLaplacian3, matElem3d_dxudxu, matElem3d_dyudyu, matElem3d_dzudzu, matElem3d_dxudxu_q, matElem3d_dyudyu_q, matElem3d_dzudzu_q.
    do 8 (destruct i as [|i]; [tabs; field; lra|]); lia.
  - intros U i a (t0 & t1 & w & Hr) Hi Ha.
    rewrite (Rsum_ext 4 _ (fun j => getMatElemStrainTensor2 h0 h1 i j a 0 * (t0 - w * node2 h1 1 j) + getMatElemStrainTensor2 h0 h1 i j a 1 * (t1 + w * node2 h0 0 j))).
    2:{ intros j Hj. cbn [Rsum]. destruct (Hr j Hj) as [-> ->]. ring. }
    destruct a as [|[|a]]; [| |lia]; cbn [Rsum]; unfold node2, b2r, getMatElemStrainTensor2, matElem2d_dxudxu, matElem2d_dyudyu, matElem2d_dxudyu, matElem2d_dxudxu_q, matElem2d_dyudyu_q, matElem2d_dxudyu_q;
    (do 4 (destruct i as [|i]; [tabs; cbn; field; lra|]); lia).
  - intros U i a (t0 & t1 & t2 & w0 & w1 & w2 & Hr) Hi Ha.
    rewrite (Rsum_ext 8 _ (fun j => getMatElemStrainTensor3 h0 h1 h2 i j a 0 * (t0 + w1 * node3 h2 2 j - w2 * node3 h1 1 j) + getMatElemStrainTensor3 h0 h1 h2 i j a 1 * (t1 + w2 * node3 h0 0 j - w0 * node3 h2 2 j) + getMatElemStrainTensor3 h0 h1 h2 i j a 2 * (t2 + w0 * node3 h1 1 j - w1 * node3 h0 0 j))).
    2:{ intros j Hj. cbn [Rsum]. destruct (Hr j Hj) as [-> [-> ->]]. ring. }
    destruct a as [|[|[|a]]]; [| | |lia]; cbn [Rsum]; unfold node3, b2r, getMatElemStrainTensor3, matElem3d_dxudxu, matElem3d_dyudyu, matElem3d_dzudzu, matElem3d_dxudyu, matElem3d_dxudzu, matElem3d_dyudzu, matElem3d_dxudxu_q, matElem3d_dyudyu_q, matElem3d_dzudzu_q, matElem3d_dxudyu_q, matElem3d_dxudzu_q, matElem3d_dyudzu_q;
    (do 8 (destruct i as [|i]; [tabs; cbn; field; lra|]); lia).
Qed.
Close Scope R_scope.
