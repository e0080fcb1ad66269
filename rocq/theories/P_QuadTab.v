(** Divergence against viscous energy and mass, through a quadrature exact on the elements. *)
From Coq Require Import QArith Qreals Permutation.
From Coquelicot Require Import Coquelicot.
From Verif Require Import Base M_Geometry S_Geometry P_Geometry M_Particle S_Particle P_Particle M_Quadrature S_Fem P_Energy M_MatElem P_MatElem M_Mesh M_Operator M_Bc S_Operator S_Bc P_Mesh P_Operator P_Operator2 P_Global P_Stokes P_Operator3.
Local Open Scope R_scope.

Definition dig (b k i : nat) : nat := (k / b ^ i) mod b.
Definition hatq (r : nat) (x : Q) : Q := match r with O => (1 - x)%Q | _ => x end.
Definition pts1 : list (Q * Q) := [(1#6, 0); (2#3, 1#2); (1#6, 1)]%Q.
Fixpoint pts (D : nat) : list (Q * list Q) :=
  match D with O => [(1%Q, [])] | S D => flat_map (fun p : Q * list Q => map (fun q : Q * Q => ((fst p * fst q)%Q, snd p ++ [snd q])) pts1) (pts D) end.
Definition qprod (D : nat) (f : nat -> Q) : Q := fold_right (fun i p => (f i * p)%Q) 1%Q (seq 0 D).
(** reference derivative along d of the k-th shape function of a fine cell *)
Definition gq (D d k : nat) (x : list Q) : Q := qprod D (fun i => if Nat.eqb i d then (if Nat.eqb (dig 2 k i) 0 then -1 else 1)%Q else hatq (dig 2 k i) (nth i x 0%Q)).
(** the kp-th shape function of a coarse cell, on its j-th fine cell *)
Definition phiq (D kp j : nat) (x : list Q) : Q := qprod D (fun i => hatq (dig 2 kp i) ((inject_Z (Z.of_nat (dig 2 j i)) + nth i x 0%Q) / 2)%Q).
(** the velocity node of the coarse cell that is the k-th vertex of its j-th fine cell *)
Definition idx (D j k : nat) : nat := fold_right (fun i s => ((dig 2 j i + dig 2 k i) * 3 ^ i + s)%nat) 0%nat (seq 0 D).

Definition qsum {A} (f : A -> Q) (l : list A) : Q := fold_right (fun a s => Qred (f a + s)) 0%Q l.
Lemma Q2R_qsum {A} (f : A -> Q) l : Q2R (qsum f l) = Lsum (fun a => Q2R (f a)) l.
Proof. induction l as [|a l IH]; [cbn; apply RMicromega.Q2R_0|]. rewrite Lsum_cons, <- IH. unfold qsum. cbn [fold_right]. rewrite (Qeq_eqR _ _ (Qred_correct _)), Q2R_plus. reflexivity. Qed.
Lemma Lsum_seq n f : Lsum f (seq 0 n) = Rsum n f.
Proof. induction n as [|n IH]; [reflexivity|]. rewrite seq_S, Lsum_app, IH. cbn [Rsum]. rewrite Lsum_cons. unfold Lsum. cbn. ring. Qed.

Definition G (D d k : nat) (p : Q * list Q) : R := Q2R (gq D d k (snd p)).
Definition F (D kp j : nat) (p : Q * list Q) : R := Q2R (phiq D kp j (snd p)).
Definition W (p : Q * list Q) : R := Q2R (fst p).
Lemma W_pos D p : In p (pts D) -> 0 <= W p.
Proof.
  unfold W. revert p. induction D as [|D IH]; intros p H; cbn [pts] in H.
  - destruct H as [<-|[]]. cbn. lra.
  - apply in_flat_map in H. destruct H as (q & Hq & H). apply in_map_iff in H. destruct H as (r & <- & Hr). cbn [fst]. rewrite Q2R_mult. apply Rmult_le_pos; [apply IH; exact Hq|]. destruct Hr as [<-|[<-|[<-|[]]]]; cbn; unfold Q2R; cbn; lra.
Qed.

(** the tables as quadratures *)
Definition crossq (D a b i j : nat) : Q := qsum (fun p => (fst p * (gq D a i (snd p) * gq D b j (snd p)))%Q) (pts D).
Definition massq (D i j : nat) : Q := qsum (fun s => qsum (fun p => (fst p * (phiq D i s (snd p) * phiq D j s (snd p)))%Q) (pts D)) (seq 0 (2 ^ D)).
Definition pressq (D d i v : nat) : Q := qsum (fun s => qsum (fun k => if Nat.eqb (idx D s k) v then qsum (fun p => (fst p * (phiq D i s (snd p) * gq D d k (snd p)))%Q) (pts D) else 0%Q) (seq 0 (2 ^ D))) (seq 0 (2 ^ D)).
Definition cross D a b i j : R := Lsum (fun p => W p * (G D a i p * G D b j p)) (pts D).
Definition massF D i j : R := Rsum (2 ^ D) (fun s => Lsum (fun p => W p * (F D i s p * F D j s p)) (pts D)).
Definition press D d i v : R := Rsum (2 ^ D) (fun s => Rsum (2 ^ D) (fun k => if Nat.eqb (idx D s k) v then Lsum (fun p => W p * (F D i s p * G D d k p)) (pts D) else 0)).
Lemma cross_q D a b i j : Q2R (crossq D a b i j) = cross D a b i j.
Proof. unfold crossq, cross. rewrite Q2R_qsum. apply Lsum_ext. intros p _. rewrite !Q2R_mult. reflexivity. Qed.
Lemma mass_q D i j : Q2R (massq D i j) = massF D i j.
Proof. unfold massq, massF. rewrite Q2R_qsum, Lsum_seq. apply Rsum_ext. intros s _. rewrite Q2R_qsum. apply Lsum_ext. intros p _. rewrite !Q2R_mult. reflexivity. Qed.
Lemma press_q D d i v : Q2R (pressq D d i v) = press D d i v.
Proof.
  unfold pressq, press. rewrite Q2R_qsum, Lsum_seq. apply Rsum_ext. intros s _. rewrite Q2R_qsum, Lsum_seq. apply Rsum_ext. intros k _.
  destruct (Nat.eqb (idx D s k) v); [|apply RMicromega.Q2R_0]. rewrite Q2R_qsum. apply Lsum_ext. intros p _. rewrite !Q2R_mult. reflexivity.
Qed.
Ltac tab H n m := intros; first [rewrite <- cross_q|rewrite <- mass_q|rewrite <- press_q]; try rewrite <- Q2R_opp; apply (P_MatElem.table_ok _ H n m); auto; vm_compute; reflexivity.
Lemma q_dx2 i j : (i < 4)%nat -> (j < 4)%nat -> matElem2d_dxudxu i j = cross 2 0 0 i j. Proof. tab (crossq 2 0 0) 4%nat 4%nat. Qed.
Lemma q_dy2 i j : (i < 4)%nat -> (j < 4)%nat -> matElem2d_dyudyu i j = cross 2 1 1 i j. Proof. tab (crossq 2 1 1) 4%nat 4%nat. Qed.
Lemma q_xy2 i j : (i < 4)%nat -> (j < 4)%nat -> matElem2d_dxudyu i j = cross 2 1 0 i j. Proof. tab (crossq 2 1 0) 4%nat 4%nat. Qed.
Lemma q_dx3 i j : (i < 8)%nat -> (j < 8)%nat -> matElem3d_dxudxu i j = cross 3 0 0 i j. Proof. tab (crossq 3 0 0) 8%nat 8%nat. Qed.
Lemma q_dy3 i j : (i < 8)%nat -> (j < 8)%nat -> matElem3d_dyudyu i j = cross 3 1 1 i j. Proof. tab (crossq 3 1 1) 8%nat 8%nat. Qed.
Lemma q_dz3 i j : (i < 8)%nat -> (j < 8)%nat -> matElem3d_dzudzu i j = cross 3 2 2 i j. Proof. tab (crossq 3 2 2) 8%nat 8%nat. Qed.
Lemma q_xy3 i j : (i < 8)%nat -> (j < 8)%nat -> matElem3d_dxudyu i j = cross 3 1 0 i j. Proof. tab (crossq 3 1 0) 8%nat 8%nat. Qed.
Lemma q_xz3 i j : (i < 8)%nat -> (j < 8)%nat -> matElem3d_dxudzu i j = cross 3 2 0 i j. Proof. tab (crossq 3 2 0) 8%nat 8%nat. Qed.
Lemma q_yz3 i j : (i < 8)%nat -> (j < 8)%nat -> matElem3d_dyudzu i j = cross 3 2 1 i j. Proof. tab (crossq 3 2 1) 8%nat 8%nat. Qed.
Lemma q_m2 i j : (i < 4)%nat -> (j < 4)%nat -> matElemMass2d i j = / 4 * massF 2 i j.
Proof. intros. rewrite <- mass_q. replace (/ 4) with (Q2R (1#4)) by (unfold Q2R; cbn; field). rewrite <- Q2R_mult. apply (P_MatElem.table_ok _ (fun i j => ((1#4) * massq 2 i j)%Q) 4 4); auto; vm_compute; reflexivity. Qed.
Lemma q_m3 i j : (i < 8)%nat -> (j < 8)%nat -> matElemMass3d i j = / 8 * massF 3 i j.
Proof. intros. rewrite <- mass_q. replace (/ 8) with (Q2R (1#8)) by (unfold Q2R; cbn; field). rewrite <- Q2R_mult. apply (P_MatElem.table_ok _ (fun i j => ((1#8) * massq 3 i j)%Q) 8 8); auto; vm_compute; reflexivity. Qed.
Ltac ptab D d n m := intros; rewrite <- press_q, <- Q2R_opp; apply (P_MatElem.table_ok _ (fun i v => (- pressq D d i v)%Q) n m); auto; vm_compute; reflexivity.
Lemma q_px2 i v : (i < 4)%nat -> (v < 9)%nat -> matElem2d_pdxu i v = - press 2 0 i v. Proof. ptab 2%nat 0%nat 4%nat 9%nat. Qed.
Lemma q_py2 i v : (i < 4)%nat -> (v < 9)%nat -> matElem2d_pdyu i v = - press 2 1 i v. Proof. ptab 2%nat 1%nat 4%nat 9%nat. Qed.
Lemma q_px3 i v : (i < 8)%nat -> (v < 27)%nat -> matElem3d_pdxu i v = - press 3 0 i v. Proof. ptab 3%nat 0%nat 8%nat 27%nat. Qed.
Lemma q_py3 i v : (i < 8)%nat -> (v < 27)%nat -> matElem3d_pdyu i v = - press 3 1 i v. Proof. ptab 3%nat 1%nat 8%nat 27%nat. Qed.
Lemma q_pz3 i v : (i < 8)%nat -> (v < 27)%nat -> matElem3d_pdzu i v = - press 3 2 i v. Proof. ptab 3%nat 2%nat 8%nat 27%nat. Qed.
