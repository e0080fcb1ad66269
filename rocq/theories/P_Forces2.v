From Verif Require Import Base M_Geometry S_Geometry P_Geometry M_Particle S_Particle P_Particle M_Quadrature S_Fem M_MatElem P_Energy M_Mesh M_Operator S_Operator P_Mesh P_Operator M_Bc M_ParticleOp S_ParticleOp P_ParticleOp P_Forces.
From Coq Require Import Permutation.
Open Scope R_scope.

(** ** the sub-grid count [num] against the number of control points *)
Lemma bsum_le {A} (f g : A -> Z) l : (forall a, In a l -> (f a <= g a)%Z) -> (bsum f l <= bsum g l)%Z.
Proof. induction l as [|a l IH]; intros H; [simpl; lia|]. pose proof (H a (or_introl eq_refl)). specialize (IH (fun x Hx => H x (or_intror Hx))). unfold bsum in *. cbn [fold_right]. lia. Qed.
Lemma bsum_pos {A} (f : A -> Z) l : (forall a, In a l -> (0 <= f a)%Z) -> (0 <= bsum f l)%Z.
Proof. intros H. rewrite <- (bsum_zero l). apply bsum_le. exact H. Qed.
Lemma bsum_one {A} (f : A -> Z) l a : (forall a, In a l -> (0 <= f a)%Z) -> In a l -> (f a <= bsum f l)%Z.
Proof.
  induction l as [|b l IH]; intros H Hin; [destruct Hin|]. unfold bsum in *. cbn [fold_right].
  assert (0 <= bsum f l)%Z by (apply bsum_pos; intros; apply H; right; auto). unfold bsum in H0.
  destruct Hin as [->|Hin]; [lia|]. specialize (IH (fun x Hx => H x (or_intror Hx)) Hin). pose proof (H b (or_introl eq_refl)). lia.
Qed.
Lemma bsum_scal {A} k (f : A -> Z) l : bsum (fun a => k * f a)%Z l = (k * bsum f l)%Z.
Proof. induction l; [simpl; lia|]. unfold bsum in *. cbn [fold_right]. rewrite IHl. lia. Qed.
Lemma bsum_const {A} k (l : list A) : bsum (fun _ => k) l = (k * Z.of_nat (length l))%Z.
Proof. rewrite length_bsum, <- bsum_scal. apply bsum_ext. intros. lia. Qed.
Lemma zrange_len a b : length (zrange a b) = Z.to_nat (b - a).
Proof. unfold zrange. rewrite map_length, seq_length. reflexivity. Qed.
Lemma nth_rep {A} k D (x d : A) : (k < D)%nat -> nth k (repeat x D) d = x.
Proof. revert k. induction D; intros k Hk; [lia|]. destruct k; [reflexivity|]. simpl. apply IHD. lia. Qed.
Lemma pts_cube D n k : forall q, (k <= D)%nat -> (0 <= n)%Z -> Z.of_nat (length (pts (mkbox (repeat 0%Z D) (repeat n D)) k q)) = (n ^ Z.of_nat k)%Z.
Proof.
  induction k as [|k IH]; intros q Hk Hn; [reflexivity|]. cbn [pts bottom_left upper_right].
  rewrite (nth_rep k D 0%Z 0%Z), (nth_rep k D n 0%Z) by lia.
  assert (E : forall l, Z.of_nat (length (flat_map (fun z => pts (mkbox (repeat 0%Z D) (repeat n D)) k (set_nth k z q)) l)) = (Z.of_nat (length l) * n ^ Z.of_nat k)%Z).
  { induction l as [|a l IHl]; [reflexivity|]. cbn [flat_map length]. rewrite app_length, Nat2Z.inj_add, IHl, IH by lia. lia. }
  rewrite E, zrange_len, Z.sub_0_r, Z2Nat.id by exact Hn. rewrite Nat2Z.inj_succ, Z.pow_succ_r by lia. reflexivity.
Qed.
Lemma grid_pts_cube D n : (0 <= n)%Z -> Z.of_nat (length (grid_pts (mkbox (repeat 0%Z D) (repeat n D)))) = (n ^ Z.of_nat D)%Z.
Proof. intros Hn. unfold grid_pts. cbn [bottom_left]. rewrite repeat_length. apply pts_cube; auto. Qed.

Section Num.
  Variables (D : nat) (m : list Z) (per : list bool) (h : vec) (parts : list gpart) (dms : list dmda) (bc : list (option bc_row)) (dpart : R) (scale : Z) (i : nat).
  Hypothesis HG : grid_ok m per.
  Hypothesis HD : distributes m per D dms.
  Hypothesis HDm : length m = D.
  Hypothesis Hh : length h = D.
  Hypothesis Hi : (i < length parts)%nat.
  Let p := nth i parts gpart0.
  Hypothesis Hpb : has_dim D (p_bbox (gp p) h).
  Let c := create_Mat_and_Vec D h parts dms bc dpart scale.
  (** over the cells of the particle's box: whether it belongs to the process *)
  Definition over (f : list Z -> Z) : Z :=
    bsum (fun dm => bsum (fun q => if inb (get_DM_bounds dm true) q then f q else 0%Z) (grid_pts (p_bbox (gp p) h))) dms.
  Lemma D23n : D = 2%nat \/ D = 3%nat. Proof. rewrite <- HDm. apply HG. Qed.
  Lemma x_num_spec : x_num c i = over (sub_count D (gp p) h scale).
  Proof.
    unfold c, create_Mat_and_Vec. cbn [x_num]. rewrite allreduce_bsum, bsum_map. unfold over. apply bsum_ext. intros dm Hin.
    rewrite mat_nth by assumption. fold p. rewrite (num_count D (gp p) h dpart scale) by (try assumption; first [exact D23n | eapply view_dim; eauto]). reflexivity.
  Qed.
  Lemma npts_spec : Z.of_nat (length (flat_map (inside_pts h p) dms)) = over (fun q => if p_contains (gp p) (grid_point h q) then 1%Z else 0%Z).
  Proof.
    unfold over. assert (E : forall l, (forall dm, In dm l -> In dm dms) -> Z.of_nat (length (flat_map (inside_pts h p) l)) = bsum (fun dm => bsum (fun q => if inb (get_DM_bounds dm true) q then if p_contains (gp p) (grid_point h q) then 1%Z else 0%Z else 0%Z) (grid_pts (p_bbox (gp p) h))) l).
    { induction l as [|dm l IH]; intros Hl; [reflexivity|]. cbn [flat_map]. rewrite app_length, Nat2Z.inj_add, IH by (intros; apply Hl; right; auto).
      change (bsum ?f (dm :: l)) with (f dm + bsum f l)%Z. cbv beta. f_equal.
      unfold inside_pts. rewrite length_bsum, bsum_filter, <- (bsum_filter (fun q => if p_contains (gp p) (grid_point h q) then 1%Z else 0%Z)).
      apply bsum_perm. eapply overlap_perm; eauto. eapply view_dim; eauto. apply Hl. left. auto. }
    apply E. auto.
  Qed.
  Lemma over_ext f g : (forall q, in_grid_box (p_bbox (gp p) h) q -> f q = g q) -> over f = over g.
  Proof.
    intros H. unfold over. apply bsum_ext. intros dm _. apply bsum_ext. intros q Hq. destruct (grid_pts_spec D _ Hpb) as [H1 _]. apply H1 in Hq. rewrite (H q Hq). reflexivity.
  Qed.
  Lemma over_le f g : (forall q, in_grid_box (p_bbox (gp p) h) q -> (f q <= g q)%Z) -> (over f <= over g)%Z.
  Proof.
    intros H. unfold over. apply bsum_le. intros dm _. apply bsum_le. intros q Hq. destruct (grid_pts_spec D _ Hpb) as [H1 _]. apply H1 in Hq. destruct (inb _ q); [apply H; exact Hq|lia].
  Qed.
  Lemma corner_sub q : length q = D -> pos_plus (pos_times (pos_of_int q) h) (pos_times (pos_of_int (repeat 0%Z D)) (map (fun x => (x / IZR scale)%R) h)) = grid_point h q.
  Proof.
    intros Hq. rewrite !grid_point_mul. unfold pos_plus, pos_add_assign.
    assert (E : forall n g, length g = n -> grid_point g (repeat 0%Z n) = repeat 0 n).
    { induction n; intros [|x g] Hg; simpl in Hg; try lia; [reflexivity|]. unfold grid_point in *. cbn [repeat zip_with]. rewrite IHn by lia. f_equal. ring. }
    rewrite E by (rewrite map_length; exact Hh). assert (L : length (grid_point h q) = D) by (unfold grid_point; rewrite zip_length; lia).
    rewrite <- L. generalize (grid_point h q). intros l. induction l as [|x l IH]; [reflexivity|]. cbn [length repeat zip_with]. rewrite IH. f_equal. ring.
  Qed.
  Lemma num_ge : (1 <= scale)%Z -> (Z.of_nat (length (flat_map (inside_pts h p) dms)) <= x_num c i)%Z.
  Proof.
    intros Hs. rewrite x_num_spec, npts_spec. apply over_le. intros q Hq. unfold sub_count.
    destruct (p_contains (gp p) (grid_point h q)) eqn:E.
    - match goal with |- (_ <= bsum ?f ?l)%Z => transitivity (f (repeat 0%Z D)); [|apply (bsum_one f l)] end.
      + cbv beta. rewrite corner_sub by (rewrite (in_grid_box_len _ _ Hq); apply Hpb). rewrite E. lia.
      + intros a _. match goal with |- context [if ?t then _ else _] => destruct t end; lia.
      + destruct (grid_pts_spec D (mkbox (repeat 0%Z D) (repeat scale D))) as [H1 _]; [split; simpl; apply repeat_length|]. apply H1.
        split; cbn [bottom_left upper_right]; clear - Hs; induction D; simpl; constructor; auto; lia.
    - apply bsum_pos. intros a _. match goal with |- context [if ?t then _ else _] => destruct t end; lia.
  Qed.
  (** a particle made of whole cells: all the sub-points of a cell are inside like its corner *)
  Lemma num_cells : (1 <= scale)%Z ->
    (forall q s, in_grid_box (p_bbox (gp p) h) q -> in_grid_box (mkbox (repeat 0%Z D) (repeat scale D)) s ->
       p_contains (gp p) (pos_plus (pos_times (pos_of_int q) h) (pos_times (pos_of_int s) (map (fun x => (x / IZR scale)%R) h))) = p_contains (gp p) (grid_point h q)) ->
    x_num c i = (scale ^ Z.of_nat D * Z.of_nat (length (flat_map (inside_pts h p) dms)))%Z.
  Proof.
    intros Hs HC. rewrite x_num_spec, npts_spec. transitivity (over (fun q => scale ^ Z.of_nat D * (if p_contains (gp p) (grid_point h q) then 1 else 0))%Z).
    - apply over_ext. intros q Hq. unfold sub_count. destruct (grid_pts_spec D (mkbox (repeat 0%Z D) (repeat scale D))) as [H1 _]; [split; simpl; apply repeat_length|].
      rewrite (bsum_ext _ (fun _ => if p_contains (gp p) (grid_point h q) then 1%Z else 0%Z)).
      + rewrite bsum_const, grid_pts_cube by lia. lia.
      + intros s Hs'. apply H1 in Hs'. rewrite (HC q s Hq Hs'). reflexivity.
    - unfold over. rewrite <- bsum_scal. apply bsum_ext. intros dm _. rewrite <- bsum_scal. apply bsum_ext. intros q _. destruct (inb _ q); lia.
  Qed.
  Lemma num_scale1 : scale = 1%Z -> x_num c i = Z.of_nat (length (flat_map (inside_pts h p) dms)).
  Proof.
    intros E1. rewrite num_cells; try lia. { rewrite E1, Z.pow_1_l; lia. } intros q s Hq [S1 S2]. rewrite E1 in S2. cbn [bottom_left upper_right] in *.
    assert (E : s = repeat 0%Z D). { clear - S1 S2. revert s S1 S2. induction D as [|n IH]; intros s S1 S2; inversion S1; subst; [reflexivity|]. inversion S2; subst. cbn [repeat]. f_equal; [lia|]. apply IH; assumption. }
    rewrite E, corner_sub; [reflexivity|]. rewrite (in_grid_box_len _ _ Hq). apply Hpb.
  Qed.
End Num.
