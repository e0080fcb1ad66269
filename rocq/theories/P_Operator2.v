(** Proofs about the global operators, continued: the kernels of operator.hpp. *)
From Coq Require Import Permutation.
From Coquelicot Require Import Coquelicot.
From Verif Require Import Base M_Geometry S_Geometry P_Geometry M_Particle S_Particle P_Particle M_Quadrature S_Fem M_MatElem P_MatElem P_Energy M_Mesh M_Operator S_Operator P_Mesh P_Operator.
Open Scope R_scope.

Lemma Lsum_single {A} (f : A -> R) a : Lsum f [a] = f a. Proof. unfold Lsum; simpl; ring. Qed.

Section Kernels.
  Variables (m : list Z) (per : list bool) (dof : nat) (dms : list dmda).
  Hypothesis HG : grid_ok m per.
  Hypothesis HD : distributes m per dof dms.
  Let HL : length per = length m := proj1 (proj2 HG).
  Variable x : field.

  Definition nd (e : list Z) (k : nat) : list Z := nth k (get_element e) [].
  Definition diag_c (M : nat -> nat -> R) (e : list Z) : list contrib :=
    flat_map (fun k1 => flat_map (fun k2 => flat_map (fun d => [(nd e k1, d, x (wrap m per (nd e k2)) d * M k1 k2)])
      (seq 0 dof)) (seq 0 (length (get_element e)))) (seq 0 (length (get_element e))).
  Definition tens_c (M : nat -> nat -> nat -> nat -> R) (e : list Z) : list contrib :=
    flat_map (fun k1 => flat_map (fun k2 => flat_map (fun d1 => flat_map (fun d2 => [(nd e k1, d1, x (wrap m per (nd e k2)) d2 * M k1 k2 d1 d2)])
      (seq 0 dof)) (seq 0 dof)) (seq 0 (length (get_element e)))) (seq 0 (length (get_element e))).
  Definition dd_c (M : nat -> nat -> R) (e : list Z) : list contrib :=
    flat_map (fun k => flat_map (fun d => [(nd e k, d, M k k)]) (seq 0 dof)) (seq 0 (length (get_element e))).

  Lemma nd_near e k : (k < length (get_element e))%nat -> near e (nd e k).
  Proof. intros H. apply get_element_near, nth_In, H. Qed.

  Lemma elem_in_ghost dm e p : In dm dms -> in_grid_box (get_DM_bounds dm true) e -> near e p -> point_inside Z.ltb (g_ghost dm) p = true.
  Proof.
    intros Hin He Hn. apply (point_inside_iff m per dof dms HG HD); auto. destruct HD as [HV _]. rewrite Forall_forall in HV.
    destruct (HV dm Hin) as (E1 & E2 & E3 & H1 & H2 & H3 & E4). rewrite E4. unfold get_DM_bounds in He. rewrite E1, E2 in He.
    destruct He as [He1 He2]. simpl in He1, He2. unfold in_grid_box, ghost_box; simpl. apply (ghost_contains _ _ m per e); auto.
  Qed.
  Lemma read_ghost dm e k d : In dm dms -> in_grid_box (get_DM_bounds dm true) e -> (k < length (get_element e))%nat ->
    at_read (global_to_local dm x) (nd e k) d = Ok (x (wrap m per (nd e k)) d).
  Proof.
    intros Hin He Hk. unfold at_read, global_to_local; simpl. rewrite (elem_in_ghost dm e _ Hin He (nd_near e k Hk)).
    destruct HD as [HV _]. rewrite Forall_forall in HV. destruct (HV dm Hin) as (E1 & E2 & _). rewrite E1, E2. reflexivity.
  Qed.
  Lemma dof_g2l dm : In dm dms -> lv_dof (global_to_local dm x) = dof.
  Proof. intros Hin. destruct HD as [HV _]. rewrite Forall_forall in HV. destruct (HV dm Hin) as (E1 & E2 & E3 & _). exact E3. Qed.
  Lemma bounds_dim dm : In dm dms -> has_dim (length m) (get_DM_bounds dm true).
  Proof. intros Hin. destruct HD as [HV _]. rewrite Forall_forall in HV. apply (view_dims m per dof dm (HV dm Hin) HL). Qed.

  Lemma diag_runs M dm : In dm dms -> forall y0,
    diag_block_mult (kernel_diag_block M) dm (global_to_local dm x) y0 = runs step1 y0 (local_contribs (diag_c M) dm).
  Proof.
    intros Hin y0. unfold diag_block_mult, local_contribs. eapply iterate_runs; [apply bounds_dim, Hin|].
    intros e y He. unfold kernel_diag_block, diag_c. rewrite dof_g2l by auto.
    apply for_runs. intros k1 y1 Hk1. apply for_runs. intros k2 y2 Hk2. apply for_runs. intros d y3 Hd.
    fold (nd e k1) (nd e k2). rewrite (read_ghost dm e) by auto. reflexivity.
  Qed.
  Lemma tens_runs M dm : In dm dms -> forall y0,
    diag_block_mult (kernel_tensor_block M) dm (global_to_local dm x) y0 = runs step1 y0 (local_contribs (tens_c M) dm).
  Proof.
    intros Hin y0. unfold diag_block_mult, local_contribs. eapply iterate_runs; [apply bounds_dim, Hin|].
    intros e y He. unfold kernel_tensor_block, tens_c. rewrite dof_g2l by auto.
    apply for_runs. intros k1 y1 Hk1. apply for_runs. intros k2 y2 Hk2. apply for_runs. intros d1 y3 Hd1. apply for_runs. intros d2 y4 Hd2.
    fold (nd e k1) (nd e k2). rewrite (read_ghost dm e) by auto. reflexivity.
  Qed.

  Lemma diag_near M e : Forall (fun ct : contrib => near e (fst (fst ct)) /\ (snd (fst ct) < dof)%nat) (diag_c M e).
  Proof.
    rewrite Forall_forall. intros ct H. unfold diag_c in H.
    apply in_flat_map in H as [k1 [H1 H]]. apply in_flat_map in H as [k2 [H2 H]]. apply in_flat_map in H as [d [H3 H]].
    destruct H as [<-|[]]. apply in_seq in H1, H3. simpl. split; [apply nd_near|]; lia.
  Qed.
  Lemma tens_near M e : Forall (fun ct : contrib => near e (fst (fst ct)) /\ (snd (fst ct) < dof)%nat) (tens_c M e).
  Proof.
    rewrite Forall_forall. intros ct H. unfold tens_c in H.
    apply in_flat_map in H as [k1 [H1 H]]. apply in_flat_map in H as [k2 [H2 H]]. apply in_flat_map in H as [d [H3 H]]. apply in_flat_map in H as [d' [H4 H]].
    destruct H as [<-|[]]. apply in_seq in H1, H3. simpl. split; [apply nd_near|]; lia.
  Qed.
  Lemma dd_near M e : Forall (fun ct : contrib => near e (fst (fst ct)) /\ (snd (fst ct) < dof)%nat) (dd_c M e).
  Proof.
    rewrite Forall_forall. intros ct H. unfold dd_c in H.
    apply in_flat_map in H as [k1 [H1 H]]. apply in_flat_map in H as [d [H3 H]].
    destruct H as [<-|[]]. apply in_seq in H1, H3. simpl. split; [apply nd_near|]; lia.
  Qed.
  Lemma near_only (c : list Z -> list contrib) : (forall e, Forall (fun ct : contrib => near e (fst (fst ct)) /\ (snd (fst ct) < dof)%nat) (c e)) ->
    forall e, in_grid_box (cells_box m per) e -> Forall (fun ct : contrib => near e (fst (fst ct))) (c e).
  Proof. intros H e _. eapply Forall_impl; [|apply H]. simpl; tauto. Qed.

  Lemma diag_strong M : exists y, diag_block_matrix_raw (diag_block_mult (kernel_diag_block M)) dms x = Ok y /\
    forall E, enumerates E (cells_box m per) -> forall n d, y n d = Lsum (fun e => Lsum (hitsw m per n d) (diag_c M e)) E.
  Proof.
    apply (assembly_strong m per dof dms HG HD).
    - intros dm Hin. apply diag_runs, Hin.
    - apply near_only, diag_near.
  Qed.
  Lemma tens_strong M : exists y, diag_block_matrix_raw (diag_block_mult (kernel_tensor_block M)) dms x = Ok y /\
    forall E, enumerates E (cells_box m per) -> forall n d, y n d = Lsum (fun e => Lsum (hitsw m per n d) (tens_c M e)) E.
  Proof.
    apply (assembly_strong m per dof dms HG HD).
    - intros dm Hin. apply tens_runs, Hin.
    - apply near_only, tens_near.
  Qed.

  Lemma cell_dim e : in_grid_box (cells_box m per) e -> length e = length m.
  Proof. intros [H _]. apply Forall2_len in H. simpl in H. rewrite map_length in H. lia. Qed.
  Lemma elem_facts e : in_grid_box (cells_box m per) e ->
    length (get_element e) = (2 ^ length m)%nat /\ forall k, (k < 2 ^ length m)%nat -> nd e k = corner e k.
  Proof.
    intros He. pose proof (cell_dim e He) as Hl. pose proof (proj1 HG) as Hd. rewrite <- Hl in Hd |- *. split; [apply get_element_length, Hd|].
    intros k Hk. apply get_element_corner; auto.
  Qed.

  Lemma diag_elem_sum M e (f : list Z -> nat -> R) : in_grid_box (cells_box m per) e ->
    Lsum (fun ct : contrib => snd ct * f (fst (fst ct)) (snd (fst ct))) (diag_c M e) =
    Rsum dof (fun d => Rsum (2 ^ length m) (fun k1 => Rsum (2 ^ length m) (fun k2 => f (corner e k1) d * M k1 k2 * gv m per x e k2 d))).
  Proof.
    intros He. destruct (elem_facts e He) as [Hlen Hnd]. unfold diag_c. rewrite Hlen.
    rewrite Lsum_flat_map, Lsum_seq. rewrite Rsum_swap. apply Rsum_ext. intros k1 H1.
    rewrite Lsum_flat_map, Lsum_seq. rewrite Rsum_swap. apply Rsum_ext. intros k2 H2.
    rewrite Lsum_flat_map, Lsum_seq. apply Rsum_ext. intros d Hd.
    rewrite Lsum_single. simpl. rewrite !Hnd by auto. unfold gv. ring.
  Qed.
  Lemma tens_elem_sum M e (f : list Z -> nat -> R) : in_grid_box (cells_box m per) e ->
    Lsum (fun ct : contrib => snd ct * f (fst (fst ct)) (snd (fst ct))) (tens_c M e) =
    Rsum (2 ^ length m) (fun k1 => Rsum (2 ^ length m) (fun k2 => Rsum dof (fun d1 => Rsum dof (fun d2 => f (corner e k1) d1 * M k1 k2 d1 d2 * gv m per x e k2 d2)))).
  Proof.
    intros He. destruct (elem_facts e He) as [Hlen Hnd]. unfold tens_c. rewrite Hlen.
    rewrite Lsum_flat_map, Lsum_seq. apply Rsum_ext. intros k1 H1.
    rewrite Lsum_flat_map, Lsum_seq. apply Rsum_ext. intros k2 H2.
    rewrite Lsum_flat_map, Lsum_seq. apply Rsum_ext. intros d Hd.
    rewrite Lsum_flat_map, Lsum_seq. apply Rsum_ext. intros d2 Hd2.
    rewrite Lsum_single. simpl. rewrite !Hnd by auto. unfold gv. ring.
  Qed.
  Lemma dd_elem_sum M e (f : list Z -> nat -> R) : in_grid_box (cells_box m per) e ->
    Lsum (fun ct : contrib => snd ct * f (fst (fst ct)) (snd (fst ct))) (dd_c M e) =
    Rsum (2 ^ length m) (fun k => Rsum dof (fun d => f (corner e k) d * M k k)).
  Proof.
    intros He. destruct (elem_facts e He) as [Hlen Hnd]. unfold dd_c. rewrite Hlen.
    rewrite Lsum_flat_map, Lsum_seq. apply Rsum_ext. intros k1 H1.
    rewrite Lsum_flat_map, Lsum_seq. apply Rsum_ext. intros d Hd.
    rewrite Lsum_single. simpl. rewrite !Hnd by auto. ring.
  Qed.

  Lemma diag_weak M : exists y, diag_block_matrix_raw (diag_block_mult (kernel_diag_block M)) dms x = Ok y /\
    forall N E, enumerates N (nodes_box m) -> enumerates E (cells_box m per) -> forall v, inner N dof y v = scalar_form m per E dof M v x.
  Proof.
    destruct (diag_strong M) as [y [Ey Hy]]. exists y. split; [exact Ey|]. intros N E HN HE v.
    rewrite (weak_form m per dof HG (diag_c M) y N E v HN HE); [|intros; apply diag_near|apply Hy, HE].
    unfold scalar_form. apply Lsum_ext. intros e He. apply HE in He.
    exact (diag_elem_sum M e (fun p d => v (wrap m per p) d) He).
  Qed.
  Lemma tens_weak M : exists y, diag_block_matrix_raw (diag_block_mult (kernel_tensor_block M)) dms x = Ok y /\
    forall N E, enumerates N (nodes_box m) -> enumerates E (cells_box m per) -> forall v, inner N dof y v = tensor_form m per E dof M v x.
  Proof.
    destruct (tens_strong M) as [y [Ey Hy]]. exists y. split; [exact Ey|]. intros N E HN HE v.
    rewrite (weak_form m per dof HG (tens_c M) y N E v HN HE); [|intros; apply tens_near|apply Hy, HE].
    unfold tensor_form. apply Lsum_ext. intros e He. apply HE in He.
    exact (tens_elem_sum M e (fun p d => v (wrap m per p) d) He).
  Qed.
End Kernels.
Close Scope R_scope.
