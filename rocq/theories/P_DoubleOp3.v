(** From one process to the grid; number of terms of a row. *)
From Coq Require Import Permutation.
From Coquelicot Require Import Coquelicot.
From Flocq Require Import Core BinarySingleNaN.
From Verif Require Import Base M_Geometry S_Geometry P_Geometry M_Particle S_Particle P_Particle M_Quadrature S_Fem M_MatElem P_MatElem P_Energy M_Mesh M_Operator S_Operator P_Mesh P_Operator P_Operator2 P_Global P_Stokes P_Operator3 P_Diag P_Precond.
From Verif Require Import M_Double S_Double P_Double P_Double2 P_Double3 P_Double4.
From Verif Require Import M_DoubleOp P_DoubleOp P_DoubleOp2.
Open Scope R_scope.

(** ** ghosted nodes stand for nodes of the grid *)
Lemma ghost_wrap m : forall per lo up p, Forall (fun n => 1 <= n)%Z m -> length per = length m -> Forall2 Z.le (map (fun _ => 0%Z) m) lo -> Forall2 Z.le up m ->
  Forall2 Z.le (ghost_low lo per) p -> Forall2 Z.lt p (ghost_up up m per) -> in_grid_box (nodes_box m) (wrap m per p).
Proof.
  unfold in_grid_box, nodes_box. cbn [bottom_left upper_right]. induction m as [|n m IH]; intros [|b per] lo up p HF Hl H1 H2 H3 H4; cbn [map length] in *; try lia.
  - inversion H1; subst. inversion H2; subst. split; constructor.
  - inversion H1; subst. inversion H2; subst. cbn [ghost_low ghost_up] in *. inversion H3; subst. inversion H4; subst. inversion HF; subst. cbn [wrap].
    edestruct (IH per) as [I1 I2]; eauto; try lia. destruct b; split; constructor; auto; try lia; apply Z.mod_pos_bound; lia.
Qed.
Lemma inside_wrap m per dof dm p : Forall (fun n => 1 <= n)%Z m -> length per = length m -> view_ok m per dof dm -> length p = length m -> point_inside Z.ltb (g_ghost dm) p = true -> in_grid_box (nodes_box m) (wrap m per p).
Proof.
  intros HF HL V L H. pose proof (view_dims m per dof dm V HL) as (_ & _ & Hg). destruct V as (E1 & E2 & E3 & H1 & H2 & H3 & E4).
  apply (point_inside_grid (length m)) in H; auto. rewrite E4 in H. destruct H as [P1 P2]. eapply ghost_wrap; eauto.
Qed.
(** the argument of the operator *)
Lemma x_rel m per dof dm (fin : Prop) s x xr xa xk : Forall (fun n => 1 <= n)%Z m -> length per = length m -> view_ok m per dof dm ->
  (fin -> forall n d, in_grid_box (nodes_box m) n -> (d < dof)%nat -> finite (x n d)) ->
  (forall n d, xr n d = dval (x n d) /\ xa n d = s * Rabs (dval (x n d)) /\ xk n d = s * 1) ->
  xrel fin (length m) s (dglobal_to_local dm x) (global_to_local dm xr) (global_to_local dm xa) (global_to_local dm xk).
Proof.
  intros HF HL V HX HV. split; [repeat split|]. split; [repeat split|]. split; [intros p d; cbn; apply HV|]. intros Hf p d L Hp Hd. cbn in *. pose proof V as V'. destruct V' as (-> & -> & E3 & _). apply HX; auto; [eapply inside_wrap; eauto|]. rewrite <- E3. exact Hd.
Qed.

(** ** number of terms *)
Lemma one_hit {A} (g : A -> list Z) n E : NoDup E -> (forall e e', In e E -> In e' E -> g e = n -> g e' = n -> e = e') -> Lsum (fun e => if same_node (g e) n then 1 else 0) E <= 1.
Proof.
  induction 1 as [|e E Hn ND IH]; intros HI; [unfold Lsum; simpl; lra|]. rewrite Lsum_cons. destruct (same_node_spec (g e) n) as [He|He].
  - rewrite (Lsum_ext _ (fun _ => 0)); [unfold Lsum; clear; induction E; simpl; lra|]. intros e' He'. destruct (same_node_spec (g e') n) as [K|K]; [|reflexivity]. exfalso. apply Hn. rewrite (HI e e'); auto; [left|right]; auto.
  - rewrite Rplus_0_l. apply IH. intros; apply HI; auto; right; assumption.
Qed.
Lemma mod_inj a b o n mu : (0 <= a < n)%Z -> (0 <= b < n)%Z -> (0 < mu)%Z -> ((mu * a + o) mod (mu * n) = (mu * b + o) mod (mu * n))%Z -> a = b.
Proof.
  intros Ha Hb Hm H. pose proof (Z.div_mod (mu * a + o) (mu * n) ltac:(nia)) as D1. pose proof (Z.div_mod (mu * b + o) (mu * n) ltac:(nia)) as D2. rewrite H in D1. set (q1 := ((mu * a + o) / (mu * n))%Z) in *. set (q2 := ((mu * b + o) / (mu * n))%Z) in *.
  assert (E : (mu * (a - b) = mu * (n * (q1 - q2)))%Z) by nia. apply Z.mul_reg_l in E; [|lia]. destruct (Z.eq_dec q1 q2) as [->|]; [lia|]. exfalso. assert (q1 - q2 >= 1 \/ q1 - q2 <= -1)%Z as [|] by lia; nia.
Qed.
Lemma corner_cell m per k e e' : length per = length m -> in_grid_box (cells_box m per) e -> in_grid_box (cells_box m per) e' -> wrap m per (corner e k) = wrap m per (corner e' k) -> e = e'.
Proof.
  unfold in_grid_box, cells_box, corner. cbn [bottom_left upper_right]. intros HL [A1 A2] [B1 B2].
  replace (length e') with (length e) by (apply Forall2_len in A1, B1; lia). pose (f := fun i => Z.of_nat (k / 2 ^ i mod 2)). change (fun (a : Z) (i : nat) => (a + Z.of_nat (k / 2 ^ i mod 2))%Z) with (fun (a : Z) (i : nat) => (a + f i)%Z). clearbody f. generalize 0%nat as s. revert per e e' HL A1 A2 B1 B2. induction m as [|n m IH]; intros [|b per] e e' HL A1 A2 B1 B2 s; cbn [map zip_with length] in *; try lia; inversion A1; subst; inversion B1; subst; [reflexivity|].
  inversion A2; subst. inversion B2; subst. cbn [length seq zip_with wrap]. intros E. injection E as E1 E2. f_equal; [|eapply IH; eauto].
  destruct b; [|lia]. eapply (mod_inj _ _ (f s) n 1); try lia. rewrite !Z.mul_1_l. exact E1.
Qed.
Lemma corner3_cell mp per k e e' : length per = length mp -> in_grid_box (cells_box mp per) e -> in_grid_box (cells_box mp per) e' -> wrap (refined_size mp per) per (corner3 e k) = wrap (refined_size mp per) per (corner3 e' k) -> e = e'.
Proof.
  unfold in_grid_box, cells_box, corner3, refined_size. cbn [bottom_left upper_right]. intros HL [A1 A2] [B1 B2].
  replace (length e') with (length e) by (apply Forall2_len in A1, B1; lia). pose (f := fun i => Z.of_nat (k / 3 ^ i mod 3)). change (fun (a : Z) (i : nat) => (2 * a + Z.of_nat (k / 3 ^ i mod 3))%Z) with (fun (a : Z) (i : nat) => (2 * a + f i)%Z). clearbody f. generalize 0%nat as s. revert per e e' HL A1 A2 B1 B2. induction mp as [|n m IH]; intros [|b per] e e' HL A1 A2 B1 B2 s; cbn [map zip_with length] in *; try lia; inversion A1; subst; inversion B1; subst; [reflexivity|].
  inversion A2; subst. inversion B2; subst. cbn [length seq zip_with wrap]. intros E. pose proof (f_equal (fun l => nth 0 l 0%Z) E) as E1. pose proof (f_equal (@tl Z) E) as E2. cbn [nth tl] in E1, E2. f_equal; [|eapply IH; eauto].
  destruct b; [|lia]. eapply (mod_inj _ _ (f s) n 2); try lia; exact E1.
Qed.
Section Count.
  Variables (m : list Z) (per : list bool) (dof : nat) (dms : list dmda).
  Hypothesis HG : grid_ok m per.
  Hypothesis HD : distributes m per dof dms.
  Let HL : length per = length m := proj1 (proj2 HG).
  Definition vhit (n e : list Z) (k : nat) : R := if same_node (wrap m per (corner e k)) n then 1 else 0.
  Lemma vhit_one n k : Lsum (fun e => vhit n e k) (E0 m per) <= 1.
  Proof. unfold vhit. apply (one_hit (fun e => wrap m per (corner e k))); [apply (E0_enum m per HL)|]. intros e e' He He' E E'. apply E0_enum in He, He'; auto. cbv beta in E, E'. apply (corner_cell m per k); auto. congruence. Qed.
  Lemma sum_one (f : nat -> R) d : (forall d', f d' = 0 \/ d' = d) -> (forall d', f d' <= 1) -> Rsum dof f <= 1.
  Proof.
    intros H1 H2. apply Rle_trans with (Rsum dof (fun k => dl d k)).
    - apply Rsum_le. intros k _. unfold dl. destruct (Nat.eqb_spec d k); [apply H2|]. destruct (H1 k) as [->|]; [lra|congruence].
    - destruct (lt_dec d dof) as [Hd|Hd]; [rewrite <- (Rsum_dl dof d (fun _ => 1) Hd); right; apply Rsum_ext; intros; ring|].
      rewrite (Rsum_ext dof _ (fun _ => 0)); [rewrite Rsum_zero; lra|]. intros k Hk. unfold dl. destruct (Nat.eqb_spec d k); [lia|reflexivity].
  Qed.
  Definition chit (n : list Z) (d : nat) (p : list Z) (d' : nat) : R := if same_node (wrap m per p) n && Nat.eqb d' d then 1 else 0.
  Lemma hit_form n d ct : hitsw m per n d ct = snd ct * chit n d (fst (fst ct)) (snd (fst ct)).
  Proof. unfold hitsw, chit. destruct (_ && _); ring. Qed.
  Lemma hit_sum n d l : Lsum (hitsw m per n d) l = Lsum (fun ct : contrib => snd ct * chit n d (fst (fst ct)) (snd (fst ct))) l.
  Proof. apply Lsum_ext. intros; apply hit_form. Qed.
  Lemma chit_sum n d e k1 : Rsum dof (fun d' => chit n d (corner e k1) d') <= vhit n e k1.
  Proof.
    unfold chit, vhit. destruct (same_node _ n); cbn [andb].
    - apply (sum_one _ d); intros d'; destruct (Nat.eqb_spec d' d); auto; lra.
    - rewrite Rsum_zero. lra.
  Qed.
  Lemma vertex_count n (B : R) : 0 <= B -> Lsum (fun e => Rsum (2 ^ length m) (fun k => B * vhit n e k)) (E0 m per) <= INR (2 ^ length m) * B.
  Proof.
    intros HB. rewrite Lsum_Rsum. rewrite <- Rsum_const. apply Rsum_le. intros k _. rewrite Lsum_scal. pose proof (vhit_one n k). nra.
  Qed.
  Lemma diag_ccount x n d : (forall n d, x n d = 1) -> Lsum (fun e => Lsum (hitsw m per n d) (diag_c m per dof x (fun _ _ => 1) e)) (E0 m per) <= INR (2 ^ length m * 2 ^ length m).
  Proof.
    intros Hx. rewrite mult_INR. eapply Rle_trans; [|apply (vertex_count n (INR (2 ^ length m)) (pos_INR _))]. apply Lsum_le. intros e He. apply E0_enum in He; auto.
    rewrite hit_sum. rewrite (diag_elem_sum m per dof HG x (fun _ _ => 1) e (fun p d' => chit n d p d') He).
    rewrite Rsum_swap. apply Rsum_le. intros k1 _. rewrite Rsum_swap. rewrite <- Rsum_const. apply Rsum_le. intros k2 _. eapply Rle_trans; [|apply (chit_sum n d e k1)]. right. apply Rsum_ext. intros d' _. unfold gv. rewrite Hx. ring.
  Qed.
  Lemma tens_ccount x n d : (forall n d, x n d = 1) -> Lsum (fun e => Lsum (hitsw m per n d) (tens_c m per dof x (fun _ _ _ _ => 1) e)) (E0 m per) <= INR (2 ^ length m * (2 ^ length m * dof)).
  Proof.
    intros Hx. rewrite mult_INR. eapply Rle_trans; [|apply (vertex_count n (INR (2 ^ length m * dof)) (pos_INR _))]. apply Lsum_le. intros e He. apply E0_enum in He; auto.
    rewrite hit_sum. rewrite (tens_elem_sum m per dof HG x (fun _ _ _ _ => 1) e (fun p d' => chit n d p d') He).
    apply Rsum_le. intros k1 _. rewrite mult_INR, Rmult_assoc, <- Rsum_const. apply Rsum_le. intros k2 _. rewrite Rsum_swap, <- Rsum_const. apply Rsum_le. intros d2 _. eapply Rle_trans; [|apply (chit_sum n d e k1)]. right. apply Rsum_ext. intros d' _. unfold gv. rewrite Hx. ring.
  Qed.
  Lemma diag_count x : (forall n d, x n d = 1) -> exists y, diag_block_matrix_raw (diag_block_mult (kernel_diag_block (fun _ _ => 1))) dms x = Ok y /\ forall n d, y n d <= INR (2 ^ length m * 2 ^ length m).
  Proof. intros Hx. destruct (diag_strong m per dof dms HG HD x (fun _ _ => 1)) as (y & E & H). exists y. split; [exact E|]. intros n d. rewrite (H _ (E0_enum m per HL)). apply diag_ccount, Hx. Qed.
  Lemma tens_count x : (forall n d, x n d = 1) -> exists y, diag_block_matrix_raw (diag_block_mult (kernel_tensor_block (fun _ _ _ _ => 1))) dms x = Ok y /\ forall n d, y n d <= INR (2 ^ length m * (2 ^ length m * dof)).
  Proof. intros Hx. destruct (tens_strong m per dof dms HG HD x (fun _ _ _ _ => 1)) as (y & E & H). exists y. split; [exact E|]. intros n d. rewrite (H _ (E0_enum m per HL)). apply tens_ccount, Hx. Qed.
  Lemma dd_count : exists y, diag_diag_block_matrix (diag_diag_block_mult (kernel_diag_diag_block (fun _ _ => 1))) dms = Ok y /\ forall n d, y n d <= INR (2 ^ length m).
  Proof.
    destruct (assembly_strong m per dof dms HG HD (fun dm _ y => diag_diag_block_mult (kernel_diag_diag_block (fun _ _ => 1)) dm y) zeros (dd_c dof (fun _ _ => 1))) as [y [Ey Hy]].
    - intros dm Hin. apply (dd_runs m per dof dms (fun _ _ => 1) dm HG HD Hin). pose proof (proj1 HD) as HV. rewrite Forall_forall in HV. destruct (HV dm Hin); simpl; tauto.
    - intros e _. eapply Forall_impl; [|apply (dd_near m per dof HG)]. simpl; tauto.
    - exists y. split; [exact Ey|]. intros n d. rewrite (Hy _ (E0_enum m per HL)). rewrite <- (Rmult_1_r (INR _)). eapply Rle_trans; [|apply (vertex_count n 1 ltac:(lra))]. apply Lsum_le. intros e He. apply E0_enum in He; auto.
      rewrite hit_sum. rewrite (dd_elem_sum m per dof HG (fun _ _ => 1) e (fun p d' => chit n d p d') He).
      apply Rsum_le. intros k1 _. eapply Rle_trans; [|rewrite Rmult_1_l; apply (chit_sum n d e k1)]. right. apply Rsum_ext. intros; ring.
  Qed.
End Count.
Close Scope R_scope.
