(** Properties C17-C19. *)
From Coquelicot Require Import Coquelicot.
From Verif Require Import Base M_Geometry S_Geometry M_Quadrature S_Fem P_Geometry.
Open Scope R_scope.

(** C17 *)
Theorem C17_weights_are_tensor_shape_functions : forall x0 x1 x2 h0 h1 h2,
  h0 <> 0 -> h1 <> 0 -> h2 <> 0 ->
  P1_integration2 (x0, x1) (h0, h1) = map (fun v => Q1_2 v (x0 / h0) (x1 / h1)) vertices2 /\
  P1_integration3 (x0, x1, x2) (h0, h1, h2) = map (fun v => Q1_3 v (x0 / h0) (x1 / h1) (x2 / h2)) vertices3.
Proof.
  intros x0 x1 x2 h0 h1 h2 H0 H1 H2. unfold P1_integration2, P1_integration3, Q1_2, Q1_3, hat; simpl.
  split; repeat (apply f_equal2; [field; auto|]); reflexivity.
Qed.
Print Assumptions C17_weights_are_tensor_shape_functions.

Theorem C17_weights_2d : forall x0 x1 h0 h1, 0 < h0 -> 0 < h1 ->
  sum_list (P1_integration2 (x0, x1) (h0, h1)) = 1 /\
  (0 <= x0 <= h0 -> 0 <= x1 <= h1 -> Forall (fun w => 0 <= w <= 1) (P1_integration2 (x0, x1) (h0, h1))) /\
  (* reproduces every bilinear function from its vertex values *)
  (forall a b c d, let f x y := a + b * x + c * y + d * (x * y) in
     sum_list (zip_with (fun w v => w * f (b2r (fst v) * h0) (b2r (snd v) * h1)) (P1_integration2 (x0, x1) (h0, h1)) vertices2)
     = f x0 x1) /\
  (* 1/0 at the vertices of the cell *)
  (forall v, In v vertices2 ->
     P1_integration2 (b2r (fst v) * h0, b2r (snd v) * h1) (h0, h1)
     = map (fun u => if (Bool.eqb (fst u) (fst v) && Bool.eqb (snd u) (snd v))%bool then 1 else 0) vertices2).
Proof.
  intros x0 x1 h0 h1 H0 H1. split; [|split; [|split]].
  - simpl. field. lra.
  - intros Hx0 Hx1. rewrite (proj1 (C17_weights_are_tensor_shape_functions x0 x1 1 h0 h1 1 ltac:(lra) ltac:(lra) ltac:(lra))).
    apply Forall_forall. intros w Hw. apply in_map_iff in Hw as [v [<- _]].
    assert (Q : forall t h, 0 < h -> 0 <= t <= h -> 0 <= t / h <= 1).
    { intros t h Hh Ht. split; [apply Rmult_le_pos; [lra|left; apply Rinv_0_lt_compat, Hh]|].
      apply (Rmult_le_reg_r h); [exact Hh|]. unfold Rdiv. rewrite Rmult_assoc, Rinv_l by lra. lra. }
    pose proof (Q _ _ H0 Hx0). pose proof (Q _ _ H1 Hx1). unfold Q1_2.
    assert (0 <= hat (fst v) (x0 / h0) <= 1) by (unfold hat; destruct (fst v); lra).
    assert (0 <= hat (snd v) (x1 / h1) <= 1) by (unfold hat; destruct (snd v); lra).
    split; [apply Rmult_le_pos; lra|]. rewrite <- (Rmult_1_l 1). apply Rmult_le_compat; lra.
  - intros a b c d f. unfold f, b2r; simpl. field. lra.
  - intros v Hv. simpl in Hv. destruct Hv as [<-|[<-|[<-|[<-|[]]]]]; unfold b2r; simpl; repeat (apply f_equal2; [field; lra|]); reflexivity.
Qed.
Print Assumptions C17_weights_2d.

Theorem C17_weights_3d : forall x0 x1 x2 h0 h1 h2, 0 < h0 -> 0 < h1 -> 0 < h2 ->
  sum_list (P1_integration3 (x0, x1, x2) (h0, h1, h2)) = 1 /\
  (0 <= x0 <= h0 -> 0 <= x1 <= h1 -> 0 <= x2 <= h2 ->
   Forall (fun w => 0 <= w <= 1) (P1_integration3 (x0, x1, x2) (h0, h1, h2))) /\
  (forall a b c d e f g k,
     let F x y z := a + b * x + c * y + d * z + e * (x * y) + f * (x * z) + g * (y * z) + k * (x * y * z) in
     sum_list (zip_with (fun w v => w * F (b2r (fst (fst v)) * h0) (b2r (snd (fst v)) * h1) (b2r (snd v) * h2))
       (P1_integration3 (x0, x1, x2) (h0, h1, h2)) vertices3) = F x0 x1 x2) /\
  (forall v, In v vertices3 ->
     P1_integration3 (b2r (fst (fst v)) * h0, b2r (snd (fst v)) * h1, b2r (snd v) * h2) (h0, h1, h2)
     = map (fun u => if (Bool.eqb (fst (fst u)) (fst (fst v)) && Bool.eqb (snd (fst u)) (snd (fst v)) && Bool.eqb (snd u) (snd v))%bool
                     then 1 else 0) vertices3).
Proof.
  intros x0 x1 x2 h0 h1 h2 H0 H1 H2. split; [|split; [|split]].
  - simpl. field. lra.
  - intros Hx0 Hx1 Hx2. rewrite (proj2 (C17_weights_are_tensor_shape_functions x0 x1 x2 h0 h1 h2 ltac:(lra) ltac:(lra) ltac:(lra))).
    apply Forall_forall. intros w Hw. apply in_map_iff in Hw as [v [<- _]].
    assert (Q : forall t h, 0 < h -> 0 <= t <= h -> 0 <= t / h <= 1).
    { intros t h Hh Ht. split; [apply Rmult_le_pos; [lra|left; apply Rinv_0_lt_compat, Hh]|].
      apply (Rmult_le_reg_r h); [exact Hh|]. unfold Rdiv. rewrite Rmult_assoc, Rinv_l by lra. lra. }
    pose proof (Q _ _ H0 Hx0). pose proof (Q _ _ H1 Hx1). pose proof (Q _ _ H2 Hx2). unfold Q1_3.
    assert (A : 0 <= hat (fst (fst v)) (x0 / h0) <= 1) by (unfold hat; destruct (fst (fst v)); lra).
    assert (B : 0 <= hat (snd (fst v)) (x1 / h1) <= 1) by (unfold hat; destruct (snd (fst v)); lra).
    assert (C : 0 <= hat (snd v) (x2 / h2) <= 1) by (unfold hat; destruct (snd v); lra).
    assert (AB : 0 <= hat (fst (fst v)) (x0 / h0) * hat (snd (fst v)) (x1 / h1) <= 1).
    { split; [apply Rmult_le_pos; lra|]. rewrite <- (Rmult_1_l 1). apply Rmult_le_compat; lra. }
    split; [apply Rmult_le_pos; lra|]. rewrite <- (Rmult_1_l 1). apply Rmult_le_compat; lra.
  - intros a b c d e f g k F. unfold F, b2r; simpl. field. lra.
  - intros v Hv. simpl in Hv. destruct Hv as [<-|[<-|[<-|[<-|[<-|[<-|[<-|[<-|[]]]]]]]]]; unfold b2r; simpl; repeat (apply f_equal2; [field; lra|]); reflexivity.
Qed.
Print Assumptions C17_weights_3d.
Example C17_example : P1_integration2 (1/4, 1/2) (1/2, 2) = [3/8; 3/8; 1/8; 1/8].
Proof. simpl. repeat (apply f_equal2; [field|]); reflexivity. Qed.

(** the node order of the weights is the one of get_element *)
Theorem C17_weight_order_is_element_order : forall i j k,
  get_element2 i j = map (fun v => [(i + b2z (fst v))%Z; (j + b2z (snd v))%Z]) vertices2 /\
  get_element3 i j k = map (fun v => [(i + b2z (fst (fst v)))%Z; (j + b2z (snd (fst v)))%Z; (k + b2z (snd v))%Z]) vertices3.
Proof. intros i j k. unfold get_element2, get_element3; simpl. rewrite !Z.add_0_r. split; reflexivity. Qed.
Print Assumptions C17_weight_order_is_element_order.

(** C18 *)
Theorem C18_gradient_2d : forall x0 x1 h0 h1 n, 0 < h0 -> 0 < h1 -> (n < 4)%nat ->
  let g := nth n (P1_integration_grad2 (x0, x1) (h0, h1)) (0, 0) in
  is_derive (fun t => nth n (P1_integration2 (t, x1) (h0, h1)) 0) x0 (fst g / (h0 * h1)) /\
  is_derive (fun t => nth n (P1_integration2 (x0, t) (h0, h1)) 0) x1 (snd g / (h0 * h1)).
Proof.
  intros x0 x1 h0 h1 n H0 H1 Hn g. unfold g, P1_integration2, P1_integration_grad2.
  destruct n as [|[|[|[|n]]]]; [| | | |lia]; cbn [nth fst snd]; split; auto_derive; auto; field; lra.
Qed.
Print Assumptions C18_gradient_2d.
Theorem C18_gradient_3d : forall x0 x1 x2 h0 h1 h2 n, 0 < h0 -> 0 < h1 -> 0 < h2 -> (n < 8)%nat ->
  let g := nth n (P1_integration_grad3 (x0, x1, x2) (h0, h1, h2)) (0, 0, 0) in
  is_derive (fun t => nth n (P1_integration3 (t, x1, x2) (h0, h1, h2)) 0) x0 (fst (fst g) / (h0 * h1 * h2)) /\
  is_derive (fun t => nth n (P1_integration3 (x0, t, x2) (h0, h1, h2)) 0) x1 (snd (fst g) / (h0 * h1 * h2)) /\
  is_derive (fun t => nth n (P1_integration3 (x0, x1, t) (h0, h1, h2)) 0) x2 (snd g / (h0 * h1 * h2)).
Proof.
  intros x0 x1 x2 h0 h1 h2 n H0 H1 H2 Hn g. unfold g, P1_integration3, P1_integration_grad3.
  destruct n as [|[|[|[|[|[|[|[|n]]]]]]]]; [| | | | | | | |lia]; cbn [nth fst snd]; split; [|split| |split| |split| |split| |split| |split| |split| |split]; auto_derive; auto; field; lra.
Qed.
Print Assumptions C18_gradient_3d.
Theorem C18_gradients_sum_to_zero : forall x0 x1 x2 h0 h1 h2,
  sum_list (map fst (P1_integration_grad2 (x0, x1) (h0, h1))) = 0 /\
  sum_list (map snd (P1_integration_grad2 (x0, x1) (h0, h1))) = 0 /\
  sum_list (map (fun g => fst (fst g)) (P1_integration_grad3 (x0, x1, x2) (h0, h1, h2))) = 0 /\
  sum_list (map (fun g => snd (fst g)) (P1_integration_grad3 (x0, x1, x2) (h0, h1, h2))) = 0 /\
  sum_list (map snd (P1_integration_grad3 (x0, x1, x2) (h0, h1, h2))) = 0.
Proof. intros. simpl. repeat split; ring. Qed.
Print Assumptions C18_gradients_sum_to_zero.
Close Scope R_scope.

(** C19 *)
Definition lex_cube (D : nat) (n : Z) (lo : list Z) : box Z := mkbox lo (map (fun z => (z + n)%Z) lo).
Theorem C19_elements_enumerate_vertices : forall i j k p,
  (In p (get_element2 i j) <-> in_grid_box (lex_cube 2 2 [i; j]) p) /\
  (In p (get_element3 i j k) <-> in_grid_box (lex_cube 3 2 [i; j; k]) p) /\
  (In p (get_element_4Q1_2 i j) <-> in_grid_box (lex_cube 2 3 [2 * i; 2 * j]%Z) p) /\
  (In p (get_element_4Q1_3 i j k) <-> in_grid_box (lex_cube 3 3 [2 * i; 2 * j; 2 * k]%Z) p).
Proof.
  intros i j k p.
  assert (H2 : forall n lo0 lo1, in_grid_box (lex_cube 2 n [lo0; lo1]) p <->
     exists x y, p = [x; y] /\ (lo0 <= x < lo0 + n)%Z /\ (lo1 <= y < lo1 + n)%Z).
  { intros. unfold in_grid_box, lex_cube; simpl. split.
    - intros [A B]. inversion A as [|? x ? l ? A']; subst. inversion A' as [|? y ? l' ? A'']; subst. inversion A''; subst.
      inversion B as [|? ? ? ? ? B']; subst. inversion B'; subst. exists x, y. split; [reflexivity|lia].
    - intros [x [y [-> [? ?]]]]. split; repeat (apply Forall2_cons; [lia|]); apply Forall2_nil. }
  assert (H3 : forall n lo0 lo1 lo2, in_grid_box (lex_cube 3 n [lo0; lo1; lo2]) p <->
     exists x y z, p = [x; y; z] /\ (lo0 <= x < lo0 + n)%Z /\ (lo1 <= y < lo1 + n)%Z /\ (lo2 <= z < lo2 + n)%Z).
  { intros. unfold in_grid_box, lex_cube; simpl. split.
    - intros [A B]. inversion A as [|? x ? l ? A']; subst. inversion A' as [|? y ? l' ? A'']; subst.
      inversion A'' as [|? z ? l'' ? A3]; subst. inversion A3; subst.
      inversion B as [|? ? ? ? ? B']; subst. inversion B' as [|? ? ? ? ? B'']; subst. inversion B''; subst. exists x, y, z. split; [reflexivity|lia].
    - intros [x [y [z [-> [? [? ?]]]]]]. split; repeat (apply Forall2_cons; [lia|]); apply Forall2_nil. }
  rewrite !H2, !H3. repeat split.
  - intros H; simpl in H; repeat (destruct H as [<-|H]; [eexists; eexists; split; [reflexivity|lia]|]); destruct H.
  - intros [x [y [-> [Hx Hy]]]]. simpl.
    assert (x = i \/ x = i + 1)%Z as [->| ->] by lia; assert (y = j \/ y = j + 1)%Z as [->| ->] by lia; tauto.
  - intros H; simpl in H; repeat (destruct H as [<-|H]; [eexists; eexists; eexists; split; [reflexivity|lia]|]); destruct H.
  - intros [x [y [z [-> [Hx [Hy Hz]]]]]]. simpl.
    assert (x = i \/ x = i + 1)%Z as [->| ->] by lia; assert (y = j \/ y = j + 1)%Z as [->| ->] by lia; assert (z = k \/ z = k + 1)%Z as [->| ->] by lia; tauto.
  - intros H; unfold get_element_4Q1_2, In in H; repeat (destruct H as [<-|H]; [eexists; eexists; split; [reflexivity|lia]|]); destruct H.
  - intros [x [y [-> [Hx Hy]]]]. unfold get_element_4Q1_2, In.
    assert (x = 2 * i \/ x = 2 * i + 1 \/ x = 2 * i + 2)%Z as [->|[->| ->]] by lia;
    assert (y = 2 * j \/ y = 2 * j + 1 \/ y = 2 * j + 2)%Z as [->|[->| ->]] by lia; tauto.
  - intros H; unfold get_element_4Q1_3, In in H; repeat (destruct H as [<-|H]; [eexists; eexists; eexists; split; [reflexivity|lia]|]); destruct H.
  - intros [x [y [z [-> [Hx [Hy Hz]]]]]]. unfold get_element_4Q1_3, In.
    assert (x = 2 * i \/ x = 2 * i + 1 \/ x = 2 * i + 2)%Z as [->|[->| ->]] by lia;
    assert (y = 2 * j \/ y = 2 * j + 1 \/ y = 2 * j + 2)%Z as [->|[->| ->]] by lia;
    assert (z = 2 * k \/ z = 2 * k + 1 \/ z = 2 * k + 2)%Z as [->|[->| ->]] by lia;
    repeat first [left; reflexivity | right].
Qed.
Print Assumptions C19_elements_enumerate_vertices.

(** first axis fastest, hence no vertex twice *)
Ltac colex_tac := 
  repeat (simpl strictly_increasing; split; [
    let x := fresh in let H := fresh in intros x H; unfold In in H;
    repeat (destruct H as [<-|H];
      [first [exists 2; split; [simpl; lia|]; split; [cbn [nth]; lia|]; intros [|[|[|n]]] ?; cbn [nth]; try lia; destruct n; reflexivity
             |exists 1; split; [simpl; lia|]; split; [cbn [nth]; lia|]; intros [|[|[|n]]] ?; cbn [nth]; try lia; try reflexivity; destruct n; reflexivity
             |exists 0; split; [simpl; lia|]; split; [cbn [nth]; lia|]; intros [|[|[|n]]] ?; cbn [nth]; try lia; try reflexivity; destruct n; reflexivity]|]);
    destruct H|]); try exact I.
Theorem C19_elements_first_axis_fastest : forall i j k,
  strictly_increasing colex_lt (get_element2 i j) /\ strictly_increasing colex_lt (get_element3 i j k) /\
  strictly_increasing colex_lt (get_element_4Q1_2 i j) /\ strictly_increasing colex_lt (get_element_4Q1_3 i j k).
Proof.
  intros i j k. split; [|split; [|split]]; unfold get_element2, get_element3, get_element_4Q1_2, get_element_4Q1_3.
  all: colex_tac.
Qed.
Print Assumptions C19_elements_first_axis_fastest.

Definition in_ghost (info : dmda_info) (i j : Z) : Prop :=
  (i_gxs info <= i < i_gxs info + i_gxm info)%Z /\ (i_gys info <= j < i_gys info + i_gym info)%Z.
Theorem C19_local_index_in_range_and_injective : forall info i j c i' j' c',
  (0 < i_dof info)%Z -> in_ghost info i j -> in_ghost info i' j' ->
  (0 <= c < i_dof info)%Z -> (0 <= c' < i_dof info)%Z ->
  (0 <= c + DMDALocalIndex2D info i j < i_dof info * (i_gxm info * i_gym info))%Z /\
  ((c + DMDALocalIndex2D info i j = c' + DMDALocalIndex2D info i' j')%Z -> i = i' /\ j = j' /\ c = c').
Proof.
  intros info i j c i' j' c' Hd [Hi Hj] [Hi' Hj'] Hc Hc'. unfold DMDALocalIndex2D.
  set (m := i_gxm info) in *. set (n := i_gym info) in *. set (d := i_dof info) in *.
  set (a := (i - i_gxs info)%Z). set (b := (j - i_gys info)%Z). set (a' := (i' - i_gxs info)%Z). set (b' := (j' - i_gys info)%Z).
  assert (Ha : (0 <= a < m)%Z) by (unfold a; lia). assert (Hb : (0 <= b < n)%Z) by (unfold b; lia).
  assert (Ha' : (0 <= a' < m)%Z) by (unfold a'; lia). assert (Hb' : (0 <= b' < n)%Z) by (unfold b'; lia).
  replace (b * m + i - i_gxs info)%Z with (b * m + a)%Z by (unfold a; lia).
  replace (b' * m + i' - i_gxs info)%Z with (b' * m + a')%Z by (unfold a'; lia).
  assert (Hlin : (0 <= b * m + a < m * n)%Z) by nia.
  split; [nia|]. intros E.
  assert (E1 : (b * m + a = b' * m + a')%Z).
  { assert (((b * m + a) - (b' * m + a')) * d = c' - c)%Z by lia. nia. }
  assert (b = b') by nia. assert (a = a') by nia. unfold a, a', b, b' in *. split; [lia|]. split; [lia|].
  rewrite E1 in E. lia.
Qed.
Print Assumptions C19_local_index_in_range_and_injective.
Theorem C19_index_lists_follow_elements : forall info i j dof,
  get_indices info i j dof = map (fun p => (dof + DMDALocalIndex2D info (nth 0 p 0) (nth 1 p 0))%Z) (get_element2 i j) /\
  get_indices_tensor info i j
    = flat_map (fun d => map (fun p => (d + DMDALocalIndex2D info (nth 0 p 0) (nth 1 p 0))%Z) (get_element2 i j)) [0; 1]%Z /\
  get_indices_4Q1 info i j
    = flat_map (fun d => map (fun p => (d + DMDALocalIndex2D info (nth 0 p 0) (nth 1 p 0))%Z) (get_element_4Q1_2 i j)) [0; 1]%Z.
Proof. intros. repeat split. Qed.
Print Assumptions C19_index_lists_follow_elements.
Example C19_example : in_ghost (mkinfo 5 5 0 0 5 5 0 0 5 5 2) 4 3 /\ DMDALocalIndex2D (mkinfo 5 5 0 0 5 5 0 0 5 5 2) 4 3 = 38%Z.
Proof. unfold in_ghost; simpl. repeat split; lia. Qed.
