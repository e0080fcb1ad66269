(** C73: the projection on the rigid motions that the smooth-extension operator takes off the velocity of the fluid inside the particles. *)
From Coquelicot Require Import Coquelicot.
From Verif Require Import Base M_Geometry S_Geometry P_Geometry M_Shapes S_Shapes P_Shapes M_Particle S_Particle P_Particle M_Quadrature S_Fem M_MatElem P_Energy M_Mesh M_Operator S_Operator P_Mesh P_Operator P_Operator2 P_Operator3 P_Global M_Bc S_Bc P_Bc P_Diag Prop_Operator Prop_Operator2 M_ParticleOp S_ParticleOp P_ParticleOp P_Circle P_Forces P_Forces2 Prop_ParticleOp M_Problem S_Problem P_Problem P_Problem2 Prop_Problem.
From Verif Require Import S_Projection P_Projection.
From Coq Require Import Permutation.
Open Scope R_scope.

(** The mean velocity and the mean moment of the fluid over the sub-grid points inside the particle, whatever the distribution over the processes. *)
Theorem C73_projection_is_the_mean : forall D m per h parts dms bc k scale sol i, setting D m per h parts dms bc k -> (i < length parts)%nat ->
  let c := create_Mat_and_Vec D h parts dms (map Some bc) k scale in let p := gp (nth i parts gpart0) in
  (exists L, sub_sample m per h p scale L) /\
  forall L, sub_sample m per h p scale L -> L <> [] ->
    exists mean cross, projection c sol i = Ok (mean, cross) /\ length mean = D /\ length cross = spin_size D /\
    (forall d, (d < D)%nat -> co d mean = mean_over (fun qs => field_at m per h sol (fst qs) (sub_offset h scale (snd qs)) d) L) /\
    (D = 2%nat -> co 0 cross = mean_over (fun qs => moment2 (sample_arm h scale p qs) (sample_velocity m per h scale sol qs)) L) /\
    (D = 3%nat -> forall a, (a < 3)%nat -> co a cross = mean_over (fun qs => moment3 a (sample_arm h scale p qs) (sample_velocity m per h scale sol qs)) L).
Proof.
  intros D m per h parts dms bc k scale sol i (HG & Hm & HD & HSt & HS & HW & HN & HT) Hi c p. destruct (wf D h parts k HW i Hi) as (W1 & _ & W3).
  split; [eexists; apply (all_subs_sample D m per h parts dms scale i sol HG HD Hm W1)|]. intros L HL _.
  destruct (projection_value D m per h parts dms (map Some bc) k scale i sol HG HD Hm HSt Hi W1 W3 L HL) as (mean & cross & E & L1 & L2 & V1 & V2). exists mean, cross. split; [exact E|]. split; [exact L1|]. split; [exact L2|].
  assert (LA : forall qs, length (sample_arm h scale p qs) = D) by (intros qs; apply (arm_len D m h parts scale i Hm HSt W3 qs)).
  assert (LV : forall qs, length (sample_velocity m per h scale sol qs) = D) by (intros qs; unfold sample_velocity; rewrite map_length, seq_length; exact Hm).
  split; [|split].
  - intros d Hd. rewrite V1. unfold mean_over. f_equal. apply Lsum_ext. intros qs _. unfold sample_velocity. rewrite Hm. apply co_map_seq, Hd.
  - intros ->. rewrite V2. unfold mean_over. f_equal. apply Lsum_ext. intros qs _. fold p. rewrite (list2 _ (LA qs)) at 1. rewrite (list2 _ (LV qs)) at 1. reflexivity.
  - intros -> a Ha. rewrite V2. unfold mean_over. f_equal. apply Lsum_ext. intros qs _. fold p. rewrite (list3 _ (LA qs)) at 1. rewrite (list3 _ (LV qs)) at 1. destruct a as [|[|[|a]]]; [reflexivity..|lia].
Qed.
Print Assumptions C73_projection_is_the_mean.
Theorem C73_independent_of_the_processes : forall D m per h parts dms dms' bc k scale sol i, setting D m per h parts dms bc k -> setting D m per h parts dms' bc k -> (i < length parts)%nat ->
  projection (create_Mat_and_Vec D h parts dms (map Some bc) k scale) sol i = projection (create_Mat_and_Vec D h parts dms' (map Some bc) k scale) sol i.
Proof.
  intros D m per h parts dms dms' bc k scale sol i (HG & Hm & HD & HSt & HS & HW & HN & HT) (_ & _ & HD' & _) Hi. destruct (wf D h parts k HW i Hi) as (W1 & _ & W3).
  pose proof (all_subs_sample D m per h parts dms scale i sol HG HD Hm W1) as HL.
  destruct (projection_value D m per h parts dms (map Some bc) k scale i sol HG HD Hm HSt Hi W1 W3 _ HL) as (m1 & c1 & -> & L1 & L2 & V1 & V2).
  destruct (projection_value D m per h parts dms' (map Some bc) k scale i sol HG HD' Hm HSt Hi W1 W3 _ HL) as (m2 & c2 & -> & L1' & L2' & V1' & V2').
  f_equal. apply f_equal2; apply (nth_ext _ _ 0 0); try congruence; intros a _.
  - exact (eq_trans (V1 a) (eq_sym (V1' a))).
  - exact (eq_trans (V2 a) (eq_sym (V2' a))).
Qed.
Print Assumptions C73_independent_of_the_processes.

(** ** What the projection keeps *)
Lemma mean_const {A} (x : R) (L : list A) : L <> [] -> mean_over (fun _ => x) L = x.
Proof. intros H. unfold mean_over. rewrite Lsum_const. field. apply not_0_INR. destruct L; [congruence|discriminate]. Qed.
Lemma mean_plus {A} (f g : A -> R) L : mean_over (fun a => f a + g a) L = mean_over f L + mean_over g L.
Proof. unfold mean_over. rewrite Lsum_plus. unfold Rdiv. ring. Qed.
Lemma mean_scal {A} x (f : A -> R) L : mean_over (fun a => x * f a) L = x * mean_over f L.
Proof. unfold mean_over. rewrite Lsum_scal. unfold Rdiv. ring. Qed.
Lemma mean_ext {A} (f g : A -> R) L : (forall a, In a L -> f a = g a) -> mean_over f L = mean_over g L.
Proof. intros H. unfold mean_over. rewrite (Lsum_ext f g L H). reflexivity. Qed.
(** A fluid that moves as one block gives the particle exactly its velocity. *)
Theorem C73_translation : forall D m per h parts dms bc k scale sol i v L, setting D m per h parts dms bc k -> (i < length parts)%nat ->
  sub_sample m per h (gp (nth i parts gpart0)) scale L -> L <> [] ->
  length v = D -> (forall n d, in_grid_box (nodes_box m) n -> (d < D)%nat -> sol n d = co d v) ->
  exists cross, projection (create_Mat_and_Vec D h parts dms (map Some bc) k scale) sol i = Ok (v, cross).
Proof.
  intros D m per h parts dms bc k scale sol i v L H Hi HL HN Lv HU. destruct (C73_projection_is_the_mean D m per h parts dms bc k scale sol i H Hi) as [_ HP].
  destruct (HP L HL HN) as (mean & cross & E & L1 & L2 & V1 & _). exists cross. rewrite E. f_equal. f_equal. destruct H as (HG & Hm & _ & HSt & _).
  apply (nth_ext _ _ 0 0); [congruence|]. intros d Hd. rewrite L1 in Hd. refine (eq_trans (V1 d Hd) _). rewrite <- (mean_const (nth d v 0) L HN). apply mean_ext. intros [q s] Hqs. cbn [fst snd].
  rewrite (field_at_ext m per h sol (fun _ d => co d v)).
  - rewrite field_at_const; [reflexivity|rewrite Hm; rewrite <- Hm; apply HG|apply HSt|rewrite sub_offset_len; apply HSt].
  - intros j Hj. unfold gv. apply HU; [|exact Hd]. apply HL in Hqs. destruct Hqs as (Q & _). apply (wrap_in_nodes m per q); [apply HG|apply HG|exact Q|].
    assert (Lq : length q = length m). { rewrite (in_grid_box_len _ _ Q). unfold cells_box. cbn. apply map_length. }
    apply get_element_near. rewrite <- get_element_corner; [apply nth_In; rewrite get_element_length|..]; rewrite ?Lq; try exact Hj; apply HG.
Qed.
Print Assumptions C73_translation.

(** A fluid that moves as a rigid body around the centre of the particle with velocity v and spin w: the mean velocity is that of the mean sample point,
    and the moment is w times the mean squared distance of the samples (plus the moment of v when the sample is not centred). *)
Section Rigid2.
  Variables (m : list Z) (per : list bool) (h : vec) (parts : list gpart) (dms : list dmda) (bc : list bc_row) (k : R) (scale : Z) (sol : field) (i : nat) (v : vec) (w cx cy : R) (L : list (list Z * list Z)).
  Hypothesis HS : setting 2 m per h parts dms bc k.
  Hypothesis HP : per = [false; false].
  Hypothesis Hi : (i < length parts)%nat.
  Let p := gp (nth i parts gpart0).
  Hypothesis HC : p_center p = [cx; cy].
  Hypothesis HL : sub_sample m per h p scale L.
  Hypothesis HN : L <> [].
  Hypothesis HR : moves_rigidly2 h sol v w (cx, cy).
  Let arm := sample_arm h scale p.
  Lemma rigid_sample qs d : In qs L -> (d < 2)%nat -> field_at m per h sol (fst qs) (sub_offset h scale (snd qs)) d = co d (rigid2 v w (arm qs)).
  Proof.
    destruct qs as [q s]. intros Hqs Hd. cbn [fst snd]. apply HL in Hqs. destruct Hqs as (Q & _ & S & _). destruct HS as (HG & Hm & _ & HSt & _). pose proof (in_grid_box_len _ _ Q) as Lq. pose proof (in_grid_box_len _ _ S) as Ls. unfold cells_box in Lq. cbn [bottom_left] in Lq, Ls. rewrite map_length in Lq. rewrite repeat_length in Ls.
    unfold arm, sample_arm. rewrite HC. cbn [fst snd]. unfold sub_point, sub_offset. destruct HSt as [Lh Ph]. clear HL HS. subst per. rewrite Hm in *.
    destruct m as [|m0 [|m1 [|]]]; try discriminate. destruct h as [|h0 [|h1 [|]]]; try discriminate. destruct q as [|q0 [|q1 [|]]]; try discriminate. destruct s as [|s0 [|s1 [|]]]; try discriminate.
    inversion Ph as [|? ? P0 Ph1]; subst. inversion Ph1 as [|? ? P1 _]; subst. cbn [length seq map nth]. unfold co at 1 2. cbn [nth].
    rewrite (rigid_at m0 m1 h0 h1 sol v w (cx, cy) q0 q1 _ _ d P0 P1 HR Hd). cbn [fst snd zip_with].
    match goal with |- co d (rigid2 v w ?a) = co d (rigid2 v w ?b) => assert (E : a = b) by (unfold co; cbn [nth]; apply f_equal2; [ring|]; apply f_equal2; [ring|reflexivity]); rewrite E end. reflexivity.
  Qed.
  Lemma rigid_values : exists mean cross, projection (create_Mat_and_Vec 2 h parts dms (map Some bc) k scale) sol i = Ok (mean, cross) /\
    mean = rigid2 v w [mean_over (fun qs => co 0 (arm qs)) L; mean_over (fun qs => co 1 (arm qs)) L] /\
    cross = [moment2 [mean_over (fun qs => co 0 (arm qs)) L; mean_over (fun qs => co 1 (arm qs)) L] v + w * mean_over (fun qs => co 0 (arm qs) ^ 2 + co 1 (arm qs) ^ 2) L].
  Proof.
    destruct (C73_projection_is_the_mean 2 m per h parts dms bc k scale sol i HS Hi) as [_ PR]. destruct (PR L HL HN) as (mean & cross & E & L1 & L2 & V1 & V2 & _). exists mean, cross. split; [exact E|].
    pose proof HS as (_ & Hm & _). split.
    - rewrite (list2 _ L1). rewrite !V1 by lia. rewrite (mean_ext _ _ L (fun qs Hq => rigid_sample qs 0%nat Hq ltac:(lia))), (mean_ext _ _ L (fun qs Hq => rigid_sample qs 1%nat Hq ltac:(lia))).
      unfold rigid2. apply f_equal2; [|apply f_equal2; [|reflexivity]].
      + rewrite (mean_ext _ (fun qs => co 0 v + (- w) * co 1 (arm qs))) by (intros; unfold co; cbn [nth]; ring). rewrite mean_plus, mean_scal, mean_const by exact HN. match goal with |- context [co 1 [?a; ?b]] => change (co 1 [a; b]) with b end. ring.
      + rewrite (mean_ext _ (fun qs => co 1 v + w * co 0 (arm qs))) by (intros; unfold co; cbn [nth]; ring). rewrite mean_plus, mean_scal, mean_const by exact HN. match goal with |- context [co 0 [?a; ?b]] => change (co 0 [a; b]) with a end. ring.
    - rewrite (list1 _ L2), (V2 eq_refl). apply f_equal2; [|reflexivity].
      rewrite (mean_ext _ (fun qs => (co 1 v * co 0 (arm qs) + (- co 0 v) * co 1 (arm qs)) + w * (co 0 (arm qs) ^ 2 + co 1 (arm qs) ^ 2))).
      + rewrite mean_plus, mean_plus, !mean_scal. unfold moment2. set (A0 := mean_over (fun a => co 0 (arm a)) L). set (A1 := mean_over (fun a => co 1 (arm a)) L). change (co 0 [A0; A1]) with A0. change (co 1 [A0; A1]) with A1. ring.
      + intros qs Hq. unfold moment2, sample_velocity. rewrite Hm. cbn [seq map]. rewrite (rigid_sample qs 0 Hq), (rigid_sample qs 1 Hq) by lia. fold p. change (sample_arm h scale p qs) with (arm qs). unfold rigid2.
        set (a0 := co 0 (arm qs)). set (a1 := co 1 (arm qs)). unfold co. cbn [nth]. fold (co 0 v) (co 1 v). ring.
  Qed.
End Rigid2.
Theorem C73_rigid_motion_2d : forall m per h parts dms bc k scale sol i v w cx cy L, setting 2 m per h parts dms bc k -> per = [false; false] -> (i < length parts)%nat ->
  let p := gp (nth i parts gpart0) in p_center p = [cx; cy] -> sub_sample m per h p scale L -> L <> [] -> moves_rigidly2 h sol v w (cx, cy) ->
  let r0 := [mean_over (fun qs => co 0 (sample_arm h scale p qs)) L; mean_over (fun qs => co 1 (sample_arm h scale p qs)) L] in
  projection (create_Mat_and_Vec 2 h parts dms (map Some bc) k scale) sol i =
    Ok (rigid2 v w r0, [moment2 r0 v + w * mean_over (fun qs => co 0 (sample_arm h scale p qs) ^ 2 + co 1 (sample_arm h scale p qs) ^ 2) L]).
Proof.
  intros m per h parts dms bc k scale sol i v w cx cy L HS HP Hi p HC HL HN HR r0. destruct (rigid_values m per h parts dms bc k scale sol i v w cx cy L HS HP Hi HC HL HN HR) as (mean & cross & E & -> & ->). exact E.
Qed.
Print Assumptions C73_rigid_motion_2d.

(** In space: the same, with the mean inertia of the samples. *)
Lemma rigid_at3 m0 m1 m2 h0 h1 h2 u v w ctr e0 e1 e2 x0 x1 x2 d : 0 < h0 -> 0 < h1 -> 0 < h2 -> moves_rigidly3 [h0; h1; h2] u v w ctr -> (d < 3)%nat ->
  field_at [m0; m1; m2] [false; false; false] [h0; h1; h2] u [e0; e1; e2] [x0; x1; x2] d = co d (rigid3 v w [IZR e0 * h0 + x0 - co 0 ctr; IZR e1 * h1 + x1 - co 1 ctr; IZR e2 * h2 + x2 - co 2 ctr]).
Proof.
  intros P0 P1 P2 HU Hd.
  set (b := fun d j : nat => match d, j with 0%nat, 1%nat => - co 2 w | 0%nat, 2%nat => co 1 w | 1%nat, 0%nat => co 2 w | 1%nat, 2%nat => - co 0 w | 2%nat, 0%nat => - co 1 w | 2%nat, 1%nat => co 0 w | _, _ => 0 end).
  set (a := fun d => co d v - (b d 0%nat * co 0 ctr + b d 1%nat * co 1 ctr + b d 2%nat * co 2 ctr)).
  rewrite (field_at_ext _ _ _ u (affine_field [h0; h1; h2] a b)).
  - rewrite field_at_affine; try (right; reflexivity); try reflexivity; [|repeat constructor; assumption].
    unfold rigid3, a, b, co. destruct d as [|[|[|]]]; [| | |lia]; cbn; ring.
  - intros k Hk. unfold gv, corner. cbn [length seq zip_with wrap].
    match goal with |- u [?z0; ?z1; ?z2] d = _ => generalize z0, z1, z2 end. intros z0 z1 z2. rewrite (HU z0 z1 z2 d Hd).
    unfold affine_field, rigid3, a, b, co. destruct d as [|[|[|]]]; [| | |lia]; cbn; ring.
Qed.
Section Rigid3.
  Variables (m : list Z) (per : list bool) (h : vec) (parts : list gpart) (dms : list dmda) (bc : list bc_row) (k : R) (scale : Z) (sol : field) (i : nat) (v w : vec) (L : list (list Z * list Z)).
  Hypothesis HS : setting 3 m per h parts dms bc k.
  Hypothesis HP : per = [false; false; false].
  Hypothesis Hi : (i < length parts)%nat.
  Let p := gp (nth i parts gpart0).
  Hypothesis HL : sub_sample m per h p scale L.
  Hypothesis HN : L <> [].
  Hypothesis HR : moves_rigidly3 h sol v w (p_center p).
  Let arm := sample_arm h scale p.
  Lemma rigid_sample3 qs d : In qs L -> (d < 3)%nat -> field_at m per h sol (fst qs) (sub_offset h scale (snd qs)) d = co d (rigid3 v w (arm qs)).
  Proof.
    destruct qs as [q s]. intros Hqs Hd. cbn [fst snd]. apply HL in Hqs. destruct Hqs as (Q & _ & S & _). destruct HS as (HG & Hm & _ & HSt & _ & HW & _). pose proof (in_grid_box_len _ _ Q) as Lq. pose proof (in_grid_box_len _ _ S) as Ls. unfold cells_box in Lq. cbn [bottom_left] in Lq, Ls. rewrite map_length in Lq. rewrite repeat_length in Ls.
    assert (LC : length (p_center p) = 3%nat) by (destruct (wf 3 h parts k HW i Hi) as (_ & _ & W3); exact W3).
    unfold arm, sample_arm. cbn [fst snd]. unfold sub_point, sub_offset. destruct HSt as [Lh Ph]. pose proof HR as HR'. revert HR' LC. generalize (p_center p). intros ctr HR' LC. clear HL HS HR HW. subst per. rewrite Hm in *.
    destruct m as [|m0 [|m1 [|m2 [|]]]]; try discriminate. destruct h as [|h0 [|h1 [|h2 [|]]]]; try discriminate. destruct q as [|q0 [|q1 [|q2 [|]]]]; try discriminate. destruct s as [|s0 [|s1 [|s2 [|]]]]; try discriminate. destruct ctr as [|c0 [|c1 [|c2 [|]]]]; try discriminate.
    inversion Ph as [|? ? P0 Ph1]; subst. inversion Ph1 as [|? ? P1 Ph2]; subst. inversion Ph2 as [|? ? P2 _]; subst. cbn [length seq map nth].
    rewrite (rigid_at3 m0 m1 m2 h0 h1 h2 sol v w [c0; c1; c2] q0 q1 q2 _ _ _ d P0 P1 P2 HR' Hd). cbn [fst snd zip_with].
    match goal with |- co d (rigid3 v w ?a) = co d (rigid3 v w ?b) => assert (E : a = b) by (unfold co; cbn [nth]; repeat (apply f_equal2; [ring|]); reflexivity); rewrite E end. reflexivity.
  Qed.
  Lemma rigid_values3 : let r0 := [mean_over (fun qs => co 0 (arm qs)) L; mean_over (fun qs => co 1 (arm qs)) L; mean_over (fun qs => co 2 (arm qs)) L] in
    exists cross, projection (create_Mat_and_Vec 3 h parts dms (map Some bc) k scale) sol i = Ok (rigid3 v w r0, cross) /\ length cross = 3%nat /\
    forall a, (a < 3)%nat -> co a cross = moment3 a r0 v + Rsum 3 (fun b => (mean_over (fun qs => (if Nat.eqb a b then Rsum 3 (fun j => co j (arm qs) ^ 2) else 0) - co a (arm qs) * co b (arm qs)) L) * co b w).
  Proof.
    intros r0. destruct (C73_projection_is_the_mean 3 m per h parts dms bc k scale sol i HS Hi) as [_ PR]. destruct (PR L HL HN) as (mean & cross & E & L1 & L2 & V1 & _ & V2). exists cross.
    pose proof HS as (_ & Hm & _). split; [|split; [exact L2|]].
    - rewrite E. f_equal. apply f_equal2; [|reflexivity]. rewrite (list3 _ L1). rewrite !V1 by lia.
      rewrite (mean_ext _ _ L (fun qs Hq => rigid_sample3 qs 0%nat Hq ltac:(lia))), (mean_ext _ _ L (fun qs Hq => rigid_sample3 qs 1%nat Hq ltac:(lia))), (mean_ext _ _ L (fun qs Hq => rigid_sample3 qs 2%nat Hq ltac:(lia))).
      unfold rigid3. change (co 0 r0) with (mean_over (fun qs => co 0 (arm qs)) L). change (co 1 r0) with (mean_over (fun qs => co 1 (arm qs)) L). change (co 2 r0) with (mean_over (fun qs => co 2 (arm qs)) L).
      apply f_equal2; [|apply f_equal2; [|apply f_equal2; [|reflexivity]]].
      + rewrite (mean_ext _ (fun qs => co 0 v + (co 1 w * co 2 (arm qs) + (- co 2 w) * co 1 (arm qs)))) by (intros; unfold co; cbn [nth]; ring). rewrite !mean_plus, !mean_scal, mean_const by exact HN. ring.
      + rewrite (mean_ext _ (fun qs => co 1 v + (co 2 w * co 0 (arm qs) + (- co 0 w) * co 2 (arm qs)))) by (intros; unfold co; cbn [nth]; ring). rewrite !mean_plus, !mean_scal, mean_const by exact HN. ring.
      + rewrite (mean_ext _ (fun qs => co 2 v + (co 0 w * co 1 (arm qs) + (- co 1 w) * co 0 (arm qs)))) by (intros; unfold co; cbn [nth]; ring). rewrite !mean_plus, !mean_scal, mean_const by exact HN. ring.
    - intros a Ha. rewrite (V2 eq_refl a Ha).
      assert (EV : forall qs, In qs L -> sample_velocity m per h scale sol qs = rigid3 v w (arm qs)).
      { intros qs Hq. unfold sample_velocity. rewrite Hm. cbn [seq map]. rewrite (rigid_sample3 qs 0 Hq), (rigid_sample3 qs 1 Hq), (rigid_sample3 qs 2 Hq) by lia. reflexivity. }
      set (I := fun b qs => (if Nat.eqb a b then Rsum 3 (fun j => co j (arm qs) ^ 2) else 0) - co a (arm qs) * co b (arm qs)).
      assert (EM : forall x y z t (f g q e : list Z * list Z -> R) (u s : R) , mean_over (fun qs => (u * f qs + s * g qs) + (x * q qs + (y * e qs + z * t qs))) L = (u * mean_over f L + s * mean_over g L) + (x * mean_over q L + (y * mean_over e L + z * mean_over t L))) by (intros; rewrite !mean_plus, !mean_scal; reflexivity).
      cbn [Rsum]. change (mean_over (fun qs => _) L * co 0 w) with (mean_over (I 0%nat) L * co 0 w). change (mean_over (fun qs => _) L * co 1 w) with (mean_over (I 1%nat) L * co 1 w). change (mean_over (fun qs => _) L * co 2 w) with (mean_over (I 2%nat) L * co 2 w).
      unfold moment3 at 2. change (co 0 r0) with (mean_over (fun qs => co 0 (arm qs)) L). change (co 1 r0) with (mean_over (fun qs => co 1 (arm qs)) L). change (co 2 r0) with (mean_over (fun qs => co 2 (arm qs)) L).
      destruct a as [|[|[|a]]]; [| | |lia].
      + rewrite (mean_ext _ (fun qs => (co 2 v * co 1 (arm qs) + (- co 1 v) * co 2 (arm qs)) + (co 0 w * I 0%nat qs + (co 1 w * I 1%nat qs + co 2 w * I 2%nat qs)))); [rewrite EM; ring|].
        intros qs Hq. fold p. rewrite (EV qs Hq). change (sample_arm h scale p qs) with (arm qs). unfold I, moment3, rigid3. cbn [Rsum Nat.eqb]. set (a0 := co 0 (arm qs)). set (a1 := co 1 (arm qs)). set (a2 := co 2 (arm qs)). unfold co. cbn [nth]. ring.
      + rewrite (mean_ext _ (fun qs => (co 0 v * co 2 (arm qs) + (- co 2 v) * co 0 (arm qs)) + (co 0 w * I 0%nat qs + (co 1 w * I 1%nat qs + co 2 w * I 2%nat qs)))); [rewrite EM; ring|].
        intros qs Hq. fold p. rewrite (EV qs Hq). change (sample_arm h scale p qs) with (arm qs). unfold I, moment3, rigid3. cbn [Rsum Nat.eqb]. set (a0 := co 0 (arm qs)). set (a1 := co 1 (arm qs)). set (a2 := co 2 (arm qs)). unfold co. cbn [nth]. ring.
      + rewrite (mean_ext _ (fun qs => (co 1 v * co 0 (arm qs) + (- co 0 v) * co 1 (arm qs)) + (co 0 w * I 0%nat qs + (co 1 w * I 1%nat qs + co 2 w * I 2%nat qs)))); [rewrite EM; ring|].
        intros qs Hq. fold p. rewrite (EV qs Hq). change (sample_arm h scale p qs) with (arm qs). unfold I, moment3, rigid3. cbn [Rsum Nat.eqb]. set (a0 := co 0 (arm qs)). set (a1 := co 1 (arm qs)). set (a2 := co 2 (arm qs)). unfold co. cbn [nth]. ring.
  Qed.
End Rigid3.
Theorem C73_rigid_motion_3d : forall m per h parts dms bc k scale sol i v w L, setting 3 m per h parts dms bc k -> per = [false; false; false] -> (i < length parts)%nat ->
  let p := gp (nth i parts gpart0) in sub_sample m per h p scale L -> L <> [] -> moves_rigidly3 h sol v w (p_center p) ->
  let arm := sample_arm h scale p in let r0 := map (fun a => mean_over (fun qs => co a (arm qs)) L) (seq 0 3) in
  let inertia := fun a b => mean_over (fun qs => (if Nat.eqb a b then Rsum 3 (fun j => co j (arm qs) ^ 2) else 0) - co a (arm qs) * co b (arm qs)) L in
  exists cross, projection (create_Mat_and_Vec 3 h parts dms (map Some bc) k scale) sol i = Ok (rigid3 v w r0, cross) /\ length cross = 3%nat /\
  forall a, (a < 3)%nat -> co a cross = moment3 a r0 v + Rsum 3 (fun b => inertia a b * co b w).
Proof.
  intros m per h parts dms bc k scale sol i v w L HS HP Hi p HL HN HR arm r0 inertia. destruct (rigid_values3 m per h parts dms bc k scale sol i v w L HS HP Hi HL HN HR) as (cross & E & L2 & V). exists cross. split; [exact E|]. split; [exact L2|exact V].
Qed.
Print Assumptions C73_rigid_motion_3d.

(** ** What is left in the control vector *)
(** [compute_y] with a mean velocity and a mean moment: at every grid point inside particle i, the velocity of the fluid minus that of the rigid body with this velocity and
    the spin Ci_R times the moment. *)
Definition body_velocity (D : nat) (v : vec) (C : R) (cross r : vec) : vec := match D with 2%nat => rigid2 v (C * co 0 cross) r | _ => rigid3 v (map (Rmult C) cross) r end.
Theorem C73_residue : forall D m per h parts dms bc k scale, setting D m per h parts dms bc k ->
  let c := create_Mat_and_Vec D h parts dms (map Some bc) k scale in
  exists pts, (forall dm i, In dm dms -> (i < length parts)%nat -> control_points h dm (gp (nth i parts gpart0)) (pts dm i)) /\
  forall sol mean cross dm y0, In dm dms -> length y0 = control_size D h parts k scale dm ->
    (forall i, (i < length parts)%nat -> length (mean i) = D /\ length (cross i) = spin_size D) ->
    compute_y_rigid c sol mean cross dm y0 = Ok (laid_out D (length parts) (pts dm) (fun i q d =>
      let p := nth i parts gpart0 in sol q d - co d (body_velocity D (mean i) (gp_Ci_R p) (cross i) (zip_with Rminus (zip_with (fun z s => IZR z * s) q h) (p_center (gp p)))))).
Proof.
  intros D m per h parts dms bc k scale (HG & Hm & HD & HSt & HS & HW & HN & HT) c. exists (the_pts h parts).
  assert (Hh : length h = D). { destruct HSt as [E _]. rewrite E. exact Hm. }
  split; [intros dm i Hin Hi; apply (the_pts_spec D m per h parts dms k HG Hm HD HW dm i Hin Hi)|]. intros sol mean cross dm y0 Hin L0 HLn. unfold compute_y_rigid.
  apply (y_loop_value D m per h parts dms bc k scale HG Hm HD HSt HS HW _ _ dm y0 Hin L0). intros i q d Hi Hq Hd. change (x_h c) with h.
  destruct (pts_own D m per h parts dms k HG Hm HD HSt HW dm i q Hin Hi Hq) as (Po & _ & Lq). unfold get_g. rewrite Po. cbn [bind]. f_equal. f_equal. destruct (HLn i Hi) as [Lm Lc]. destruct (wf D h parts k HW i Hi) as (_ & _ & W3).
  rewrite grid_point_mul. unfold grid_point. set (r := zip_with Rminus (zip_with (fun z s => IZR z * s) q h) (p_center (gp (nth i parts gpart0)))).
  assert (Lr : length r = D). { unfold r. rewrite zip_length; [rewrite zip_length; congruence|]. rewrite zip_length; congruence. }
  clearbody r. assert (H23 : (D = 2 \/ D = 3)%nat) by (rewrite <- Hm; apply HG). fold (co d (vec_plus (mean i) (scalar_times_vec (gp_Ci_R (nth i parts gpart0)) (cross_sv (cross i) r)))). revert Lm Lc Lr. generalize (mean i), (cross i), (gp_Ci_R (nth i parts gpart0)). intros v x C Lv Lx Lr. clear - H23 Lv Lx Lr Hd.
  destruct H23 as [-> | ->]; cbn [spin_size] in Lx.
  - destruct v as [|v0 [|v1 [|]]]; try discriminate. destruct r as [|r0 [|r1 [|]]]; try discriminate. destruct x as [|x0 [|]]; try discriminate. unfold body_velocity, rigid2, co. cbn. unfold cross12. cbn. destruct d as [|[|d]]; [| |lia]; cbn; ring.
  - destruct v as [|v0 [|v1 [|v2 [|]]]]; try discriminate. destruct r as [|r0 [|r1 [|r2 [|]]]]; try discriminate. destruct x as [|x0 [|x1 [|x2 [|]]]]; try discriminate. unfold body_velocity, rigid3, co. cbn. unfold cross33. cbn. destruct d as [|[|[|d]]]; [| | |lia]; cbn; ring.
Qed.
Print Assumptions C73_residue.
(** A rigid motion of the fluid around the centre of a particle whose samples are centred: the velocity is taken off exactly, the spin up to the factor 1 - Ci_R M
    where M is the mean squared distance of the samples to the axis. *)
Theorem C73_rigid_residue_2d : forall m per h parts dms bc k scale sol i v w cx cy L, setting 2 m per h parts dms bc k -> per = [false; false] -> (i < length parts)%nat ->
  let p := gp (nth i parts gpart0) in p_center p = [cx; cy] -> sub_sample m per h p scale L -> L <> [] -> length v = 2%nat -> moves_rigidly2 h sol v w (cx, cy) ->
  (forall a, (a < 2)%nat -> mean_over (fun qs => co a (sample_arm h scale p qs)) L = 0) ->
  let M := mean_over (fun qs => co 0 (sample_arm h scale p qs) ^ 2 + co 1 (sample_arm h scale p qs) ^ 2) L in
  projection (create_Mat_and_Vec 2 h parts dms (map Some bc) k scale) sol i = Ok (v, [w * M]) /\
  forall n0 n1 d, (d < 2)%nat -> let r := [IZR n0 * co 0 h - cx; IZR n1 * co 1 h - cy] in
    sol [n0; n1] d - co d (body_velocity 2 v (gp_Ci_R (nth i parts gpart0)) [w * M] r) = (1 - gp_Ci_R (nth i parts gpart0) * M) * co d (rigid2 [0; 0] w r).
Proof.
  intros m per h parts dms bc k scale sol i v w cx cy L HS HP Hi p HC HL HN Lv HR HZ M. split.
  - rewrite (C73_rigid_motion_2d m per h parts dms bc k scale sol i v w cx cy L HS HP Hi HC HL HN HR). fold p. fold M. rewrite (HZ 0%nat), (HZ 1%nat) by lia. f_equal. apply f_equal2.
    + rewrite (list2 v Lv) at 2. unfold rigid2, co. cbn [nth]. apply f_equal2; [ring|]. apply f_equal2; [ring|reflexivity].
    + apply f_equal2; [|reflexivity]. unfold moment2, co. cbn [nth]. ring.
  - intros n0 n1 d Hd r. rewrite (HR n0 n1 d Hd). cbn [fst snd]. fold r. unfold body_velocity, rigid2. generalize (gp_Ci_R (nth i parts gpart0)). intros C.
    set (a0 := co 0 r). set (a1 := co 1 r). unfold co. destruct d as [|[|d]]; [| |lia]; cbn [nth]; ring.
Qed.
Print Assumptions C73_rigid_residue_2d.
Theorem C73_rigid_residue_3d : forall m per h parts dms bc k scale sol i v w L, setting 3 m per h parts dms bc k -> per = [false; false; false] -> (i < length parts)%nat ->
  let p := gp (nth i parts gpart0) in sub_sample m per h p scale L -> L <> [] -> length v = 3%nat -> moves_rigidly3 h sol v w (p_center p) ->
  let arm := sample_arm h scale p in
  (forall a, (a < 3)%nat -> mean_over (fun qs => co a (arm qs)) L = 0) ->
  forall J, (forall a b, (a < 3)%nat -> (b < 3)%nat -> mean_over (fun qs => co a (arm qs) * co b (arm qs)) L = if Nat.eqb a b then J else 0) ->
  exists cross, projection (create_Mat_and_Vec 3 h parts dms (map Some bc) k scale) sol i = Ok (v, cross) /\ length cross = 3%nat /\ (forall a, (a < 3)%nat -> co a cross = 2 * J * co a w) /\
  forall n0 n1 n2 d, (d < 3)%nat -> let r := [IZR n0 * co 0 h - co 0 (p_center p); IZR n1 * co 1 h - co 1 (p_center p); IZR n2 * co 2 h - co 2 (p_center p)] in
    sol [n0; n1; n2] d - co d (body_velocity 3 v (gp_Ci_R (nth i parts gpart0)) cross r) = (1 - gp_Ci_R (nth i parts gpart0) * (2 * J)) * co d (rigid3 [0; 0; 0] w r).
Proof.
  intros m per h parts dms bc k scale sol i v w L HS HP Hi p HL HN Lv HR arm HZ J HJ.
  destruct (C73_rigid_motion_3d m per h parts dms bc k scale sol i v w L HS HP Hi HL HN HR) as (cross & E & LC & V). exists cross. fold p in E, V. fold arm in E, V. cbn [seq map] in E, V.
  assert (EC : forall a, (a < 3)%nat -> co a cross = 2 * J * co a w).
  { intros a Ha. rewrite (V a Ha). rewrite !HZ by lia.
    assert (EI : forall b, (b < 3)%nat -> mean_over (fun qs => (if Nat.eqb a b then Rsum 3 (fun j => co j (arm qs) ^ 2) else 0) - co a (arm qs) * co b (arm qs)) L = (if Nat.eqb a b then 3 * J else 0) - (if Nat.eqb a b then J else 0)).
    { intros b Hb. rewrite (mean_ext _ (fun qs => (if Nat.eqb a b then Rsum 3 (fun j => co j (arm qs) ^ 2) else 0) + (-1) * (co a (arm qs) * co b (arm qs)))) by (intros; ring). rewrite mean_plus, mean_scal, (HJ a b Ha Hb). 
      destruct (Nat.eqb a b); [|rewrite mean_const by exact HN; ring]. cbn [Rsum]. rewrite (mean_ext _ (fun qs => (co 0 (arm qs) * co 0 (arm qs) + co 1 (arm qs) * co 1 (arm qs)) + co 2 (arm qs) * co 2 (arm qs))) by (intros; ring). rewrite !mean_plus, (HJ 0%nat 0%nat), (HJ 1%nat 1%nat), (HJ 2%nat 2%nat) by lia. cbn [Nat.eqb]. ring. }
    cbn [Rsum]. rewrite !EI by lia. destruct a as [|[|[|a]]]; [| | |lia]; cbn [Nat.eqb]; unfold moment3, co; cbn [nth]; ring. }
  split; [|split; [exact LC|split; [exact EC|]]].
  - rewrite E. rewrite !HZ by lia. f_equal. apply f_equal2; [|reflexivity]. rewrite (list3 v Lv) at 2. unfold rigid3, co. cbn [nth]. repeat (apply f_equal2; [ring|]). reflexivity.
  - intros n0 n1 n2 d Hd r. rewrite (HR n0 n1 n2 d Hd). fold r. rewrite (list3 cross LC), !EC by lia. unfold body_velocity, rigid3. generalize (gp_Ci_R (nth i parts gpart0)). intros C.
    set (a0 := co 0 r). set (a1 := co 1 r). set (a2 := co 2 r). cbn [map]. unfold co. destruct d as [|[|[|d]]]; [| | |lia]; cbn [nth]; ring.
Qed.
Print Assumptions C73_rigid_residue_3d.

(** The spin is not taken off exactly: a disc of radius 3/20 on a grid of step 1/8, one sample per cell.  Five samples, M = 1/80, Ci_R M = 10/9. *)
Definition ex73_disc (fuel : nat) : gpart := circle_gpart fuel (1 / 1000) (1 / 2, 1 / 2) (3 / 20) quat_default [0; 0] [0] 1 [0; 0].
Definition ex73_bc : list bc_row := repeat [None; None] 4.
Definition ex73_sol : field := fun n d => co d (rigid2 [0; 0] 1 [IZR (nth 0 n 0%Z) / 8 - 1 / 2; IZR (nth 1 n 0%Z) / 8 - 1 / 2]).
Definition ex73_sample : list (list Z * list Z) := map (fun q => (q, [0; 0]%Z)) [[4; 4]; [3; 4]; [5; 4]; [4; 3]; [4; 5]]%Z.
Lemma ex73_setting fuel : setting 2 ex2_m ex2_per ex2_h [ex73_disc fuel] ex2_dms ex73_bc (1 / 10).
Proof.
  destruct ex2_grid as (_ & HG & Hm & HD & HSt & _ & HN). split; [exact HG|]. split; [exact Hm|]. split; [exact HD|]. split; [exact HSt|].
  split; [repeat constructor; simpl; lia|]. split; [constructor; [apply circle_well_formed; reflexivity|constructor]|]. split; [exact HN|]. split; [reflexivity|repeat constructor].
Qed.
Lemma ex73_inside fuel z0 z1 : p_contains (gp (ex73_disc fuel)) (sub_point ex2_h 1 [z0; z1] [0; 0]%Z) = true <-> ((z0 - 4) * (z0 - 4) + (z1 - 4) * (z1 - 4) <= 1)%Z.
Proof.
  cbn [ex73_disc circle_gpart gp p_contains]. rewrite circle_contains by lra. unfold sub_point, ex2_h. cbn [length seq map nth fst snd]. unfold co. cbn [nth].
  assert (E : ((IZR z0 + 0 / 1) * (1 / 8) - 1 / 2) * ((IZR z0 + 0 / 1) * (1 / 8) - 1 / 2) + ((IZR z1 + 0 / 1) * (1 / 8) - 1 / 2) * ((IZR z1 + 0 / 1) * (1 / 8) - 1 / 2) = IZR ((z0 - 4) * (z0 - 4) + (z1 - 4) * (z1 - 4)) / 64).
  { rewrite plus_IZR, !mult_IZR, !minus_IZR. field. }
  rewrite E. split; intros H.
  - apply Z.lt_succ_r. apply lt_IZR. change (Z.succ 1) with 2%Z. lra.
  - apply IZR_le in H. lra.
Qed.
Lemma ex73_sampled fuel : sub_sample ex2_m ex2_per ex2_h (gp (ex73_disc fuel)) 1 ex73_sample.
Proof.
  split.
  { apply FinFun.Injective_map_NoDup; [intros a b E; congruence|].
    repeat (apply NoDup_cons; [intros H; repeat (destruct H as [H|H]; [discriminate|]); exact H|]). apply NoDup_nil. }
  intros q s. change (length ex2_m) with 2%nat. cbn [repeat]. split.
  - intros H. unfold ex73_sample in H. apply in_map_iff in H as (q' & E & H). injection E as <- <-.
    assert (Q : exists z0 z1, q' = [z0; z1] /\ (3 <= z0 <= 5)%Z /\ (3 <= z1 <= 5)%Z /\ ((z0 - 4) * (z0 - 4) + (z1 - 4) * (z1 - 4) <= 1)%Z).
    { cbn in H. destruct H as [<- | [<- | [<- | [<- | [<- | []]]]]]; do 2 eexists; (split; [reflexivity|]); lia. }
    destruct Q as (z0 & z1 & -> & H0 & H1 & H2). split; [|split; [|split]].
    + change (cells_box ex2_m ex2_per) with (mkbox [0; 0] [8; 8])%Z. split; repeat (constructor; [lia|]); constructor.
    + cbn [ex73_disc circle_gpart gp p_bbox]. unfold bounding_box2_h.
      assert (B0 : 3 <= IZR z0 <= 5) by (split; apply IZR_le; lia). assert (B1 : 3 <= IZR z1 <= 5) by (split; apply IZR_le; lia).
      assert (EB : bounding_box2 (circle_make (1 / 2, 1 / 2) (3 / 20) quat_default) = mkbox [1 / 2 - 3 / 20; 1 / 2 - 3 / 20] [1 / 2 + 3 / 20; 1 / 2 + 3 / 20]).
      { unfold bounding_box2, circle_make, se2_make. cbn [c2 s2 q2]. rewrite is_rotate_default. reflexivity. }
      rewrite EB. apply int_bounding_box_covers; try reflexivity; [unfold ex2_h; repeat (constructor; [lra|]); constructor|].
      unfold ex2_h. cbn [zip_with]. split; cbn [bottom_left upper_right]; repeat (constructor; [lra|]); constructor.
    + split; repeat (constructor; [lia|]); constructor.
    + apply ex73_inside, H2.
  - intros (Q & _ & S & C). change (cells_box ex2_m ex2_per) with (mkbox [0; 0] [8; 8])%Z in Q.
    destruct Q as [Q1 Q2]. destruct S as [S1 S2]. cbn [bottom_left upper_right] in *.
    inversion Q1 as [|? z0 ? q1 A0 Q3]; subst. inversion Q3 as [|? z1 ? q2 A1 Q4]; subst. inversion Q4; subst.
    inversion S1 as [|? s0 ? q1 T0 S3]; subst. inversion S3 as [|? s1 ? q2 T1 S4]; subst. inversion S4; subst.
    inversion S2 as [|? ? ? ? U0 S5]; subst. inversion S5 as [|? ? ? ? U1 _]; subst.
    assert (s0 = 0%Z) by lia. assert (s1 = 0%Z) by lia. subst s0 s1. apply ex73_inside in C.
    assert (B : (3 <= z0 <= 5 /\ 3 <= z1 <= 5)%Z) by (clear - C; pose proof (Z.square_nonneg (z0 - 4)); pose proof (Z.square_nonneg (z1 - 4)); split; split; apply Z.nlt_ge; intros K; nia).
    unfold ex73_sample. apply in_map_iff. exists [z0; z1]. split; [reflexivity|].
    assert (K : (z0 = 4 /\ z1 = 4 \/ z0 = 3 /\ z1 = 4 \/ z0 = 5 /\ z1 = 4 \/ z0 = 4 /\ z1 = 3 \/ z0 = 4 /\ z1 = 5)%Z).
    { clear - C B. destruct B as [B0 B1]. assert (K0 : (z0 = 3 \/ z0 = 4 \/ z0 = 5)%Z) by lia. assert (K1 : (z1 = 3 \/ z1 = 4 \/ z1 = 5)%Z) by lia.
      destruct K0 as [-> | [-> | ->]], K1 as [-> | [-> | ->]]; lia. }
    cbn [In]. destruct K as [[-> ->]|[[-> ->]|[[-> ->]|[[-> ->]|[-> ->]]]]]; tauto.
Qed.
Theorem C73_rotation_refuted : forall fuel,
  setting 2 ex2_m ex2_per ex2_h [ex73_disc fuel] ex2_dms ex73_bc (1 / 10) /\
  sub_sample ex2_m ex2_per ex2_h (gp (ex73_disc fuel)) 1 ex73_sample /\ length ex73_sample = 5%nat /\
  moves_rigidly2 ex2_h ex73_sol [0; 0] 1 (1 / 2, 1 / 2) /\
  exists mean cross, projection (create_Mat_and_Vec 2 ex2_h [ex73_disc fuel] ex2_dms (map Some ex73_bc) (1 / 10) 1) ex73_sol 0 = Ok (mean, cross) /\
    ex73_sol [5; 4]%Z 1%nat = 1 / 8 /\
    ex73_sol [5; 4]%Z 1%nat - co 1 (body_velocity 2 mean (gp_Ci_R (ex73_disc fuel)) cross [5 / 8 - 1 / 2; 4 / 8 - 1 / 2]) = - (1 / 72).
Proof.
  intros fuel. split; [apply ex73_setting|]. split; [apply ex73_sampled|]. split; [reflexivity|].
  assert (HR : moves_rigidly2 ex2_h ex73_sol [0; 0] 1 (1 / 2, 1 / 2)).
  { intros n0 n1 d Hd. unfold ex73_sol, ex2_h. cbn [nth fst snd]. replace (IZR n0 / 8 - 1 / 2) with (IZR n0 * co 0 [1 / 8; 1 / 8] - 1 / 2) by (unfold co; cbn [nth]; field). replace (IZR n1 / 8 - 1 / 2) with (IZR n1 * co 1 [1 / 8; 1 / 8] - 1 / 2) by (unfold co; cbn [nth]; field). reflexivity. }
  split; [exact HR|].
  assert (LP : (0 < length [ex73_disc fuel])%nat) by (cbn; lia).
  assert (HN : ex73_sample <> []) by discriminate.
  assert (AR : forall z0 z1, sample_arm ex2_h 1 (gp (ex73_disc fuel)) ([z0; z1], [0; 0]%Z) = [IZR z0 / 8 - 1 / 2; IZR z1 / 8 - 1 / 2]).
  { intros z0 z1. unfold sample_arm, sub_point, ex2_h. cbn [ex73_disc circle_gpart gp p_center vec2 fst snd length seq map nth zip_with]. unfold co. cbn [nth]. apply f_equal2; [field|]. apply f_equal2; [field|reflexivity]. }
  destruct (C73_rigid_residue_2d ex2_m ex2_per ex2_h [ex73_disc fuel] ex2_dms ex73_bc (1 / 10) 1 ex73_sol 0 [0; 0] 1 (1 / 2) (1 / 2) ex73_sample (ex73_setting fuel) eq_refl LP eq_refl (ex73_sampled fuel) HN eq_refl HR) as [E V].
  { intros a Ha. unfold mean_over, ex73_sample. cbn [map Lsum fold_right length nth]. rewrite !AR. destruct a as [|[|a]]; [| |lia]; unfold co; cbn [nth INR]; field. }
  eexists. eexists. split; [exact E|]. clear E. split; [unfold ex73_sol, rigid2, co; cbn [nth]; field|].
  specialize (V 5%Z 4%Z 1%nat ltac:(lia)). cbn [nth] in V |- *.
  assert (EM : mean_over (fun qs => co 0 (sample_arm ex2_h 1 (gp (ex73_disc fuel)) qs) ^ 2 + co 1 (sample_arm ex2_h 1 (gp (ex73_disc fuel)) qs) ^ 2) ex73_sample = 1 / 80).
  { unfold mean_over, ex73_sample. cbn [map Lsum fold_right length]. rewrite !AR. unfold co. cbn [nth INR]. field. }
  rewrite EM in *. assert (EC : gp_Ci_R (ex73_disc fuel) = 800 / 9). { cbn [ex73_disc circle_gpart gp_Ci_R]. unfold circle_Ci_R. cbn. field. }
  rewrite EC in *. unfold ex2_h in V.
  replace [5 * co 0 [1 / 8; 1 / 8] - 1 / 2; 4 * co 1 [1 / 8; 1 / 8] - 1 / 2] with [5 / 8 - 1 / 2; 4 / 8 - 1 / 2] in V by (unfold co; cbn [nth]; repeat (apply f_equal2; [field|]); reflexivity).
  rewrite V. unfold rigid2, co. cbn [nth]. field.
Qed.
Print Assumptions C73_rotation_refuted.
Close Scope R_scope.
