From Verif Require Import Base M_Geometry S_Geometry P_Geometry M_Shapes M_Particle S_Particle P_Particle M_Quadrature S_Fem M_MatElem P_Energy M_Mesh M_Operator S_Operator P_Mesh P_Operator P_Operator2 P_Operator3 P_Global M_Bc S_Bc P_Bc P_Diag Prop_Operator Prop_Operator2 M_ParticleOp S_ParticleOp P_ParticleOp P_Forces Prop_ParticleOp M_Problem S_Problem.
From Coq Require Import Permutation FunctionalExtensionality.
Open Scope R_scope.

Notation bi := on_off.
(** ** three runs in step *)
Definition lk {A} (R : A -> A -> A -> Prop) (o1 o2 o3 : outcome A) : Prop := exists s1 s2 s3, o1 = Ok s1 /\ o2 = Ok s2 /\ o3 = Ok s3 /\ R s1 s2 s3.
Lemma lk_ret {A} (R : A -> A -> A -> Prop) s1 s2 s3 : R s1 s2 s3 -> lk R (Ok s1) (Ok s2) (Ok s3).
Proof. intros H. exists s1, s2, s3. auto. Qed.
Lemma lk_bind {A B} (R : A -> A -> A -> Prop) (Q : B -> B -> B -> Prop) o1 o2 o3 f1 f2 f3 : lk R o1 o2 o3 ->
  (forall s1 s2 s3, R s1 s2 s3 -> lk Q (f1 s1) (f2 s2) (f3 s3)) -> lk Q (bind o1 f1) (bind o2 f2) (bind o3 f3).
Proof. intros (s1 & s2 & s3 & -> & -> & -> & H) K. apply K, H. Qed.
Lemma lk_fold {A S} (R : nat -> S -> S -> S -> Prop) (f1 f2 f3 : A -> S -> outcome S) l : forall k o1 o2 o3,
  lk (R k) o1 o2 o3 -> (forall j a s1 s2 s3, nth_error l j = Some a -> R (k + j)%nat s1 s2 s3 -> lk (R (k + Datatypes.S j)%nat) (f1 a s1) (f2 a s2) (f3 a s3)) ->
  lk (R (k + length l)%nat) (fold_left (fun o a => bind o (f1 a)) l o1) (fold_left (fun o a => bind o (f2 a)) l o2) (fold_left (fun o a => bind o (f3 a)) l o3).
Proof.
  induction l as [|a l IH]; intros k o1 o2 o3 H K; simpl; [rewrite Nat.add_0_r; exact H|].
  replace (k + Datatypes.S (length l))%nat with (Datatypes.S k + length l)%nat by lia. apply IH.
  - eapply lk_bind; [exact H|]. intros s1 s2 s3 Hs. replace (Datatypes.S k) with (k + 1)%nat by lia. apply (K 0%nat); [reflexivity|]. rewrite Nat.add_0_r. exact Hs.
  - intros j b s1 s2 s3 Hj Hs. replace (Datatypes.S k + Datatypes.S j)%nat with (k + Datatypes.S (Datatypes.S j))%nat by lia. apply K; [exact Hj|]. replace (k + Datatypes.S j)%nat with (Datatypes.S k + j)%nat by lia. exact Hs.
Qed.
Lemma lk_for {S} (R : nat -> S -> S -> S -> Prop) n (f1 f2 f3 : nat -> S -> outcome S) s1 s2 s3 : R 0%nat s1 s2 s3 ->
  (forall j s1 s2 s3, (j < n)%nat -> R j s1 s2 s3 -> lk (R (Datatypes.S j)) (f1 j s1) (f2 j s2) (f3 j s3)) ->
  lk (R n) (for_ n f1 s1) (for_ n f2 s2) (for_ n f3 s3).
Proof.
  intros H K. induction n as [|n IH]; [apply lk_ret, H|]. rewrite !for_last. eapply lk_bind; [apply IH; intros; apply K; auto|]. intros t1 t2 t3 Ht. apply K; auto.
Qed.
Lemma lk_iterate {S} D b (R : S -> S -> S -> Prop) (f1 f2 f3 : list Z -> S -> outcome S) s1 s2 s3 : has_dim D b -> R s1 s2 s3 ->
  (forall p s1 s2 s3, in_grid_box b p -> R s1 s2 s3 -> lk R (f1 p s1) (f2 p s2) (f3 p s3)) ->
  lk R (iterate_o b f1 s1) (iterate_o b f2 s2) (iterate_o b f3 s3).
Proof.
  intros Hb H K. destruct (grid_pts_spec D b Hb) as (Hin & _ & _ & Hrun). unfold iterate_o. rewrite !Hrun.
  refine (lk_fold (fun _ => R) f1 f2 f3 _ 0%nat _ _ _ _ _); [apply lk_ret, H|]. intros j p t1 t2 t3 Hp Ht. apply K; [apply Hin, (nth_error_In _ _ Hp)|exact Ht].
Qed.
(** ** three lists *)
Inductive F3 {A} (R : A -> A -> A -> Prop) : list A -> list A -> list A -> Prop :=
| F3n : F3 R [] [] []
| F3c a b c l m n : R a b c -> F3 R l m n -> F3 R (a :: l) (b :: m) (c :: n).
Lemma F3_map {A B} (R : B -> B -> B -> Prop) (f1 f2 f3 : A -> B) l : (forall a, In a l -> R (f1 a) (f2 a) (f3 a)) -> F3 R (map f1 l) (map f2 l) (map f3 l).
Proof. induction l as [|a l IH]; intros H; simpl; constructor; [apply H; left; auto|apply IH; intros; apply H; right; auto]. Qed.
Lemma F3_impl {A} (R Q : A -> A -> A -> Prop) l1 l2 l3 : (forall a b c, R a b c -> Q a b c) -> F3 R l1 l2 l3 -> F3 Q l1 l2 l3.
Proof. intros H K. induction K; constructor; auto. Qed.
Lemma F3_len {A} (R : A -> A -> A -> Prop) l1 l2 l3 : F3 R l1 l2 l3 -> length l2 = length l1 /\ length l3 = length l1.
Proof. induction 1; simpl; lia. Qed.
Lemma F3_nth {A} (R : A -> A -> A -> Prop) l1 l2 l3 i d : F3 R l1 l2 l3 -> (i < length l1)%nat -> R (nth i l1 d) (nth i l2 d) (nth i l3 d).
Proof. intros H. revert i. induction H; intros [|i] Hi; simpl in *; try lia; [auto|apply IHF3; lia]. Qed.
Lemma F3_of_nth {A} (R : A -> A -> A -> Prop) d : forall l1 l2 l3, length l2 = length l1 -> length l3 = length l1 -> (forall i, (i < length l1)%nat -> R (nth i l1 d) (nth i l2 d) (nth i l3 d)) -> F3 R l1 l2 l3.
Proof.
  induction l1 as [|a l1 IH]; intros [|b l2] [|c l3] H1 H2 K; simpl in *; try lia; constructor; [apply (K 0%nat); lia|]. apply IH; try lia. intros i Hi. apply (K (S i)). lia.
Qed.
Lemma F3_zip {A B} (Q : A -> A -> A -> Prop) (R : A -> A -> A -> Prop) (f1 f2 f3 : B -> A -> A) r : forall l1 l2 l3, F3 R l1 l2 l3 ->
  (forall x a b c, In x r -> R a b c -> Q (f1 x a) (f2 x b) (f3 x c)) -> F3 Q (zip_with f1 r l1) (zip_with f2 r l2) (zip_with f3 r l3).
Proof.
  induction r as [|x r IH]; intros l1 l2 l3 H K; [constructor|]. destruct H; simpl; [constructor|]. constructor; [apply K; [left; auto|auto]|]. apply IH; auto. intros; apply K; [right; auto|auto].
Qed.
Lemma F3_Lsum {A} (a b : R) (f : A -> R) l1 l2 l3 : F3 (fun x y z => f z = a * f x + b * f y) l1 l2 l3 -> Lsum f l3 = a * Lsum f l1 + b * Lsum f l2.
Proof. induction 1; [unfold Lsum; simpl; ring|]. rewrite !Lsum_cons, H, IHF3. ring. Qed.

(** ** linear combinations of vectors *)
Definition vl (n : nat) (a b : R) (u v w : vec) : Prop := length u = n /\ length v = n /\ length w = n /\ forall k, co k w = a * co k u + b * co k v.
Section VL.
  Variables (n : nat) (a b : R).
  Lemma vl_zero : vl n a b (vzero n) (vzero n) (vzero n).
  Proof. unfold vl. rewrite !len_zero. repeat split; auto. intros k. rewrite co_zero. ring. Qed.
  Lemma vl_add u v w u' v' w' : vl n a b u v w -> vl n a b u' v' w' -> vl n a b (vec_add_assign u u') (vec_add_assign v v') (vec_add_assign w w').
  Proof.
    intros (A1 & A2 & A3 & A4) (B1 & B2 & B3 & B4). unfold vl. rewrite !len_add by congruence. repeat split; auto. intros k. rewrite !co_add by congruence. rewrite A4, B4. ring.
  Qed.
  Lemma vl_sub u v w u' v' w' : vl n a b u v w -> vl n a b u' v' w' -> vl n a b (vec_sub_assign u u') (vec_sub_assign v v') (vec_sub_assign w w').
  Proof.
    intros (A1 & A2 & A3 & A4) (B1 & B2 & B3 & B4). unfold vl. rewrite !len_sub by congruence. repeat split; auto. intros k. rewrite !co_sub by congruence. rewrite A4, B4. ring.
  Qed.
  Lemma vl_scale u v w c : vl n a b u v w -> vl n a b (vec_scale_assign u c) (vec_scale_assign v c) (vec_scale_assign w c).
  Proof. intros (A1 & A2 & A3 & A4). unfold vl. rewrite !len_scale. repeat split; auto. intros k. rewrite !co_scale, A4. ring. Qed.
  Lemma vl_div u v w c : vl n a b u v w -> vl n a b (vec_div_assign u c) (vec_div_assign v c) (vec_div_assign w c).
  Proof. intros (A1 & A2 & A3 & A4). unfold vl. rewrite !len_div. repeat split; auto. intros k. rewrite !co_div, A4. unfold Rdiv. ring. Qed.
  Lemma vl_fold_add l1 l2 l3 : F3 (vl n a b) l1 l2 l3 -> forall u v w, vl n a b u v w -> vl n a b (fold_left vec_add_assign l1 u) (fold_left vec_add_assign l2 v) (fold_left vec_add_assign l3 w).
  Proof. induction 1; intros u v w Hu; simpl; auto. apply IHF3. apply vl_add; auto. Qed.
  Lemma vl_allsum l1 l2 l3 : F3 (vl n a b) l1 l2 l3 -> vl n a b (allsum n l1) (allsum n l2) (allsum n l3).
  Proof. intros H. apply vl_fold_add; [exact H|apply vl_zero]. Qed.
End VL.
Lemma vl_cross_vv D a b r u v w : (D = 2 \/ D = 3)%nat -> length r = D -> vl D a b u v w -> vl (spin_size D) a b (cross_vv r u) (cross_vv r v) (cross_vv r w).
Proof.
  intros [-> | ->] Hr (H1 & H2 & H3 & H4); unfold vl.
  - rewrite !cross_vv2 by assumption. repeat split; auto. intros [|[|k]]; unfold co in *; cbn [nth]; try ring. unfold moment2, co. rewrite !H4. ring.
  - rewrite !cross_vv3 by assumption. repeat split; auto. intros [|[|[|[|k]]]]; unfold co in *; cbn [nth]; try ring; unfold moment3, co; rewrite !H4; ring.
Qed.
Lemma vl_cross_sv D a b r u v w : (D = 2 \/ D = 3)%nat -> length r = D -> vl (spin_size D) a b u v w -> vl D a b (cross_sv u r) (cross_sv v r) (cross_sv w r).
Proof.
  intros [-> | ->] Hr (H1 & H2 & H3 & H4); unfold vl; cbn [spin_size] in *.
  - rewrite (list1 u H1), (list1 v H2), (list1 w H3), !cross_sv2 by assumption. repeat split; auto. intros [|[|[|k]]]; unfold co in *; cbn [nth]; try ring; rewrite !H4; ring.
  - rewrite !cross_sv3 by assumption. repeat split; auto. intros [|[|[|[|k]]]]; unfold co in *; cbn [nth]; try ring; unfold moment3, co; rewrite !H4; ring.
Qed.

(** ** linear combinations of fields and controls *)
Notation fcomb := field_combination.
Definition lcomb (a b : R) (x1 x2 x3 : list R) : Prop := F3 (fun u v w => w = a * u + b * v) x1 x2 x3.
Lemma lk_read a b x1 x2 x3 k : lcomb a b x1 x2 x3 -> (k < length x1)%nat -> lk (fun u v w => w = a * u + b * v) (read_arr x1 k) (read_arr x2 k) (read_arr x3 k).
Proof.
  intros H Hk. destruct (F3_len _ _ _ _ H) as [L2 L3]. unfold read_arr. rewrite !(nth_error_nth' _ 0) by lia. apply lk_ret. apply (F3_nth _ _ _ _ k 0 H Hk).
Qed.
Lemma set_nth_app {A} (l : list A) x t v : set_nth (length l) v (l ++ x :: t) = l ++ v :: t.
Proof. induction l; simpl; [reflexivity|]. rewrite IHl. reflexivity. Qed.
Lemma F3_shapes {A} D a b (x1 x2 x3 : list (list vec)) : F3 (F3 (vl D a b)) x1 x2 x3 -> forall l : list (list A), same_shape l x1 ->
  (same_shape l x1 /\ Forall (all_len D) x1) /\ (same_shape l x2 /\ Forall (all_len D) x2) /\ same_shape l x3 /\ Forall (all_len D) x3.
Proof.
  induction 1 as [|l1 l2 l3 m1 m2 m3 Hl Hr IH]; intros l Hs; inversion Hs; subst; [repeat split; constructor|].
  match goal with H : Forall2 _ ?t m1 |- _ => destruct (IH t H) as ((I1 & I2) & (I3 & I4) & I5 & I6) end. destruct (F3_len _ _ _ _ Hl) as [L2 L3].
  assert (AL : all_len D l1 /\ all_len D l2 /\ all_len D l3). { clear - Hl. induction Hl as [|u v w ? ? ? (U1 & U2 & U3 & _) _ (I1 & I2 & I3)]; repeat split; constructor; auto. }
  destruct AL as (A1 & A2 & A3). repeat split; constructor; auto; congruence.
Qed.

Definition moved (D : nat) (t : R) (u r w : vec) : Prop := length u = D /\ length r = D /\ length w = D /\ forall k0, co k0 w = co k0 u + t * co k0 r.
Lemma moved_rel D a b t1 t2 t3 g1 g2 g3 rr w1 w2 w3 : t3 = a * t1 + b * t2 -> F3 (F3 (vl D a b)) g1 g2 g3 ->
  F3 (F3 (moved D t1)) g1 rr w1 -> F3 (F3 (moved D t2)) g2 rr w2 -> F3 (F3 (moved D t3)) g3 rr w3 -> F3 (F3 (vl D a b)) w1 w2 w3.
Proof.
  intros Hrg H1. revert w1 w2 w3 rr. induction H1 as [|l1 l2 l3 m1 m2 m3 Hl Hr IH]; intros w1 w2 w3 rr K1 K2 K3; inversion K1; subst; inversion K2; subst; inversion K3; subst; constructor; [|eapply IH; eauto].
  match goal with A1 : F3 _ l1 ?r ?p1, A2 : F3 _ l2 ?r ?p2, A3 : F3 _ l3 ?r ?p3 |- _ => revert A1 A2 A3; generalize r p1 p2 p3 end. clear - Hl. induction Hl as [|u v w l1 l2 l3 Hu Hl IH]; intros r p1 p2 p3 A1 A2 A3; inversion A1; subst; inversion A2; subst; inversion A3; subst; constructor; [|eapply IH; eauto].
  destruct Hu as (_ & _ & _ & Hu). unfold moved in *. repeat match goal with H : _ /\ _ |- _ => destruct H end. unfold vl. repeat split; auto. intros k0.
  repeat match goal with H : forall k0, co k0 ?z = co k0 _ + _ * _ |- context [co k0 ?z] => rewrite (H k0) end. rewrite Hu. ring.
Qed.

Lemma lk_on_all {A B} (R : B -> B -> B -> Prop) (f1 f2 f3 : A -> outcome B) l : (forall x, In x l -> lk R (f1 x) (f2 x) (f3 x)) -> lk (F3 R) (on_all f1 l) (on_all f2 l) (on_all f3 l).
Proof.
  induction l as [|x l IH]; intros K; [apply lk_ret; constructor|]. cbn [on_all]. eapply lk_bind; [apply K; left; auto|]. intros s1 s2 s3 Hs. eapply lk_bind; [apply IH; intros; apply K; right; auto|]. intros l1 l2 l3 Hl. apply lk_ret. constructor; assumption.
Qed.
Lemma on_all_len {A B} (f : A -> outcome B) l : forall r, on_all f l = Ok r -> length r = length l.
Proof.
  induction l as [|x l IH]; intros r H; cbn [on_all] in H; [injection H as <-; reflexivity|]. destruct (f x); cbn [bind] in H; try discriminate. destruct (on_all f l) eqn:E; cbn [bind] in H; try discriminate. injection H as <-. simpl. rewrite (IH _ eq_refl). reflexivity.
Qed.

Section Main.
  Variables (D : nat) (m : list Z) (per : list bool) (h : vec) (parts : list gpart) (dms : list dmda) (bc : list bc_row) (k : R) (scale : Z).
  Hypothesis HG : grid_ok m per.
  Hypothesis Hm : length m = D.
  Hypothesis HD : distributes m per D dms.
  Hypothesis HSt : steps_ok h m.
  Hypothesis HS : small_grid m.
  Hypothesis HW : Forall (fun p => well_formed D h k (gp p)) parts.
  Hypothesis HN : nonempty_views dms.
  Hypothesis HT : table_ok D D bc.
  Let c := create_Mat_and_Vec D h parts dms (map Some bc) k scale.
  Let Hh : length h = D. Proof. destruct HSt as [H _]. rewrite H. exact Hm. Qed.
  Let D23 : (D = 2 \/ D = 3)%nat. Proof. rewrite <- Hm. apply HG. Qed.
  Let OK : ctx_ok m per c. Proof. apply (C41_context_is_well_formed D m per h parts dms (map Some bc) k scale HG Hm HD HSt HW). Qed.
  Definition sized (x : control) : Prop := forall dm, In dm dms -> length (x dm) = control_size D h parts k scale dm.
  Lemma pts_own dm i q : In dm dms -> (i < length parts)%nat -> In q (the_pts h parts dm i) -> point_inside Z.ltb (g_own dm) q = true /\ in_grid_box (nodes_box m) q /\ length q = D.
  Proof.
    intros Hin Hi Hq. assert (HL : length per = length m) by apply HG. destruct (wf D h parts k HW i Hi) as (W1 & _).
    destruct (inside_pts_spec D m per h dms (nth i parts gpart0) HG HD Hm W1 dm Hin) as [_ I2]. apply I2 in Hq as (Q1 & Q2 & _).
    pose proof (proj1 HD) as HV. rewrite Forall_forall in HV. pose proof (proj1 (bounds_in m per D dm q (HV dm Hin) HL) Q1) as [Ho Hc].
    destruct (view_dims m per D dm (HV dm Hin) HL) as (V2 & _). assert (Lq : length q = D) by (rewrite (in_grid_box_len _ _ Q2); apply W1).
    split; [|split; [apply (cells_sub_nodes m per); auto|exact Lq]]. apply (point_inside_grid (length m)); auto; lia.
  Qed.
  Definition off (dm : dmda) (j : nat) : nat := (D * list_sum (map (fun i => length (the_pts h parts dm i)) (seq 0 j)))%nat.
  Lemma off_S dm j : off dm (S j) = (off dm j + D * length (the_pts h parts dm j))%nat.
  Proof. unfold off. rewrite seq_S, map_app, list_sum_app. cbn [map list_sum fold_right plus]. lia. Qed.
  Lemma off_le dm j n : (j <= n)%nat -> (off dm j <= off dm n)%nat.
  Proof. induction 1; [lia|]. rewrite off_S. lia. Qed.
  Lemma sized_off x dm : sized x -> In dm dms -> length (x dm) = off dm (length parts).
  Proof. intros Hx Hin. rewrite (Hx dm Hin). apply (size_is D m per h parts dms k scale HG Hm HD Hh HS HW dm Hin). Qed.
  Lemma fluid_is cut dm i : In dm dms -> (i < length parts)%nat -> cut = overlap_box Z.ltb \/ cut = box_inside Z.ltb -> fluid_pts cut D h dm (nth i parts gpart0) = the_pts h parts dm i.
  Proof. intros Hin Hi Hc. apply (fluid_pts_eq D m per h dms); auto. apply (wf D h parts k HW i Hi). Qed.

  Definition fall (a b : R) (f1 f2 f3 : field) : Prop := forall n d, f3 n d = a * f1 n d + b * f2 n d.
  Section Forces.
    Variables (a b : R) (af1 af2 af3 : bool).
    Hypothesis Haf : bi af3 = a * bi af1 + b * bi af2.
    Lemma forces_step dm x1 x2 x3 f1 f2 f3 : In dm dms -> sized x1 -> sized x2 -> sized x3 -> lcomb a b (x1 dm) (x2 dm) (x3 dm) -> fall a b f1 f2 f3 ->
      lk (fall a b) (set_rhs_problem_impl c (x1 dm) af1 dm f1) (set_rhs_problem_impl c (x2 dm) af2 dm f2) (set_rhs_problem_impl c (x3 dm) af3 dm f3).
    Proof.
      intros Hin S1 S2 S3 Hx Hf. pose proof (sized_off x1 dm S1 Hin) as L1. unfold set_rhs_problem_impl.
      set (Rn := fun N (s1 s2 s3 : nat * field) => fst s1 = N /\ fst s2 = N /\ fst s3 = N /\ fall a b (snd s1) (snd s2) (snd s3)).
      eapply lk_bind with (R := Rn (off dm (0 + length parts)%nat)).
      - change (x_parts c) with parts. change (x_h c) with h. change (x_D c) with D.
        refine (lk_fold (fun j => Rn (off dm j)) _ _ _ parts 0%nat _ _ _ _ _).
        + apply lk_ret. unfold Rn. cbn [fst snd]. repeat split; auto; unfold off; simpl; lia.
        + intros j p s1 s2 s3 Hj Hs. cbn [plus] in *. assert (Hjl : (j < length parts)%nat) by (apply nth_error_Some; congruence).
          rewrite <- (nth_error_nth _ _ gpart0 Hj). rewrite (fluid_is _ dm j Hin Hjl (or_introl eq_refl)). rewrite off_S.
          replace (off dm j + D * length (the_pts h parts dm j))%nat with (off dm j + D * (0 + length (the_pts h parts dm j)))%nat by lia.
          refine (lk_fold (fun i => Rn (off dm j + D * i)%nat) _ _ _ (the_pts h parts dm j) 0%nat _ _ _ _ _).
          * apply lk_ret. rewrite Nat.mul_0_r, Nat.add_0_r. exact Hs.
          * intros i q t1 t2 t3 Hi Ht. cbn [plus] in *. assert (Hil : (i < length (the_pts h parts dm j))%nat) by (apply nth_error_Some; congruence).
            destruct (pts_own dm j q Hin Hjl (nth_error_In _ _ Hi)) as (Po & _ & _).
            replace (off dm j + D * S i)%nat with (off dm j + D * i + D)%nat by lia.
            refine (lk_for (fun d => Rn (off dm j + D * i + d)%nat) D _ _ _ _ _ _ _ _); [rewrite Nat.add_0_r; exact Ht|].
            intros d [n1 g1] [n2 g2] [n3 g3] Hd (E1 & E2 & E3 & Hg). cbn [fst snd] in *. rewrite E1, E2, E3. 
            eapply lk_bind. { apply (lk_read a b _ _ _ _ Hx). rewrite L1. pose proof (off_le dm (S j) (length parts) Hjl) as HO. rewrite off_S in HO. assert ((i + 1) * D <= D * length (the_pts h parts dm j))%nat by (rewrite (Nat.mul_comm (i + 1)); apply Nat.mul_le_mono_l; lia). lia. }
            intros u v w Hv. eapply lk_bind with (R := fall a b).
            -- unfold set_g. rewrite Po. apply lk_ret. intros n' d'. destruct (same_node q n' && Nat.eqb d d'); [|apply Hg]. set (F := gp_rho _ * _). transitivity (w + bi af3 * F); [unfold on_off; destruct af3; ring|]. rewrite Hv, Haf. unfold on_off; destruct af1, af2; ring.
            -- intros e1 e2 e3 He. apply lk_ret. unfold Rn. cbn [fst snd]. repeat split; auto; lia.
      - intros s1 s2 s3 (_ & _ & _ & H). apply lk_ret, H.
    Qed.
    Lemma forces_all x1 x2 x3 : sized x1 -> sized x2 -> sized x3 -> (forall dm, In dm dms -> lcomb a b (x1 dm) (x2 dm) (x3 dm)) ->
      lk (fall a b) (fold_left (fun o dm => bind o (set_rhs_problem_impl c (x1 dm) af1 dm)) dms (Ok zeros)) (fold_left (fun o dm => bind o (set_rhs_problem_impl c (x2 dm) af2 dm)) dms (Ok zeros)) (fold_left (fun o dm => bind o (set_rhs_problem_impl c (x3 dm) af3 dm)) dms (Ok zeros)).
    Proof.
      intros S1 S2 S3 Hx. refine (lk_fold (fun _ => fall a b) _ _ _ dms 0%nat _ _ _ _ _).
      - apply lk_ret. intros n d. unfold zeros. ring.
      - intros j dm f1 f2 f3 Hj Hf. apply nth_error_In in Hj. apply forces_step; auto.
    Qed.
    (** what is added to rhs *)
    Lemma rhs_added x1 x2 x3 : sized x1 -> sized x2 -> sized x3 -> (forall dm, In dm dms -> lcomb a b (x1 dm) (x2 dm) (x3 dm)) ->
      exists m1 m2 m3, fcomb m D a b m1 m2 m3 /\ (forall rhs, set_rhs_problem c x1 af1 rhs = Ok (fun n d => rhs n d + m1 n d)) /\
        (forall rhs, set_rhs_problem c x2 af2 rhs = Ok (fun n d => rhs n d + m2 n d)) /\ (forall rhs, set_rhs_problem c x3 af3 rhs = Ok (fun n d => rhs n d + m3 n d)).
    Proof.
      intros S1 S2 S3 Hx. destruct (forces_all x1 x2 x3 S1 S2 S3 Hx) as (f1 & f2 & f3 & E1 & E2 & E3 & Hf).
      assert (EL : f3 = lin a b f1 f2) by (apply functional_extensionality; intros n; apply functional_extensionality; intros d; apply Hf).
      destruct (C24_mass_linear h m per D dms a b f1 f2 HG HD) as (y1 & y2 & y3 & M1 & M2 & M3 & V). rewrite <- EL in M3.
      exists y1, y2, y3. split; [exact V|]. unfold set_rhs_problem. change (x_dms c) with dms. change (x_h c) with h. rewrite E1, E2, E3. cbn [bind]. rewrite M1, M2, M3. cbn [bind]. auto.
    Qed.
  End Forces.
  (** ** init_problem *)
  Lemma setup_is conds : length conds = D -> exists load : field, forall rhs, exists y, setup_RHS D conds (map Some bc) h dms rhs = Ok y /\
    forall n d, in_grid_box (nodes_box m) n -> (d < D)%nat -> y n d = match prescribed D m per bc n d with Some f => f (zip_with (fun i s => IZR i * s) n h) | None => rhs n d + load n d end.
  Proof.
    intros Hc. pose proof HT as HT'. rewrite <- Hm in HT' at 1. destruct (loaded_dec conds) as [E|E].
    - destruct (C45_first_call m per D dms conds bc h zeros HG HD HN HT' Hc E) as (y0 & mf & _ & Em & _). exists mf. intros rhs.
      destruct (C45_first_call m per D dms conds bc h rhs HG HD HN HT' Hc E) as (y & mf' & Ey & Em' & V). rewrite Em in Em'. injection Em' as <-. exists y. rewrite Hm in Ey, V. split; [exact Ey|exact V].
    - exists zeros. intros rhs. destruct (C30_on_rhs m per D bc h dms rhs HG HD HN HT') as (y & Ey & V). rewrite Hm in Ey, V. exists y. unfold setup_RHS. rewrite (has_condition_unloaded _ E). cbn [bind]. split; [exact Ey|].
      intros n d Hn Hd. rewrite (V n d Hn Hd). unfold zeros. destruct (prescribed D m per bc n d); ring.
  Qed.
  Definition init_value (fl : flags) (load sing added rhs : field) (n : list Z) (d : nat) : R :=
    match prescribed D m per bc n d with
    | Some f => if f_rhs fl then f (zip_with (fun i s => IZR i * s) n h) else 0
    | None => rhs n d + (if f_rhs fl then load n d else 0) + (if f_sing fl then sing n d else 0) + added n d
    end.
  Lemma init_is pb fl x af added : length (fl_conds pb) = D -> (forall rhs, set_rhs_problem c x af rhs = Ok (fun n d => rhs n d + added n d)) ->
    forall load, (forall rhs, exists y, setup_RHS D (fl_conds pb) (map Some bc) h dms rhs = Ok y /\
      forall n d, in_grid_box (nodes_box m) n -> (d < D)%nat -> y n d = match prescribed D m per bc n d with Some f => f (zip_with (fun i s => IZR i * s) n h) | None => rhs n d + load n d end) ->
    forall rhs, exists y, init_problem c pb fl x af rhs = Ok y /\ forall n d, in_grid_box (nodes_box m) n -> (d < D)%nat -> y n d = init_value fl load (fl_sing pb) added rhs n d.
  Proof.
    intros Hc Ha load Hl rhs. pose proof HT as HT'. rewrite <- Hm in HT' at 1. unfold init_problem, init_value. change (x_D c) with D. change (x_bc c) with (map Some bc). change (x_h c) with h. change (x_dms c) with dms.
    destruct (f_rhs fl).
    - destruct (Hl rhs) as (y1 & E1 & V1). rewrite E1. cbn [bind]. rewrite Ha. cbn [bind].
      match goal with |- context [SetDirichletOnRHS _ _ ?r _ _] => destruct (C30_on_rhs m per D bc h dms r HG HD HN HT') as (y & Ey & V) end. rewrite Hm in Ey. rewrite Ey. exists y. split; [reflexivity|]. intros n d Hn Hd. rewrite (V n d Hn Hd), Hm.
      destruct (prescribed D m per bc n d) eqn:EP; [reflexivity|]. destruct (f_sing fl); rewrite (V1 n d Hn Hd), EP; ring.
    - cbn [bind]. rewrite Ha. cbn [bind].
      match goal with |- context [SetNullDirichletOnRHS _ _ ?r _] => destruct (C30_null_on_rhs m per D bc dms r HG HD HN HT') as (y & Ey & V) end. rewrite Hm in Ey. rewrite Ey. exists y. split; [reflexivity|]. intros n d Hn Hd. rewrite (V n d Hn Hd), Hm.
      destruct (prescribed D m per bc n d) eqn:EP; [reflexivity|]. destruct (f_sing fl); ring.
  Qed.

  (** ** interpolation, simple layer, spreading *)
  Section Lin.
    Variables (a b : R).
    Definition grel (g1 g2 g3 : dmda -> list (list vec)) : Prop :=
      forall dm, In dm dms -> F3 (F3 (vl D a b)) (g1 dm) (g2 dm) (g3 dm) /\ same_shape (x_surf c dm) (g1 dm).
    Lemma field_at_comb u1 u2 u3 e x d dm : In dm dms -> in_grid_box (get_DM_bounds dm true) e -> (d < D)%nat -> fcomb m D a b u1 u2 u3 ->
      field_at m per h u3 e x d = a * field_at m per h u1 e x d + b * field_at m per h u2 e x d.
    Proof.
      intros Hin He Hd Hu. unfold field_at. rewrite Hm, <- !Rsum_scal, <- Rsum_plus. apply Rsum_ext. intros j Hj. unfold gv.
      destruct (corner_in_ghost D m per dms HG HD Hm dm e j Hin He Hj) as (_ & Hn & Hc). rewrite (Hu (wrap m per (corner e j)) d); [ring| |exact Hd].
      apply (wrap_in_nodes m per e); auto; apply HG.
    Qed.
    Definition interp_of (u : field) : dmda -> list (list vec) := fun dm => match interp_fluid_to_surf c false u dm with Ok g => g | _ => [] end.
    Lemma interp_all_is u : interp_all c false u = Ok (interp_of u).
    Proof. unfold interp_all. change (x_dms c) with dms. rewrite (on_all_map _ (interp_of u)); [reflexivity|]. intros dm Hin. unfold interp_of. rewrite (interp_ok m per c u dm OK Hin). reflexivity. Qed.
    Lemma interp_rel u1 u2 u3 : fcomb m D a b u1 u2 u3 -> grel (interp_of u1) (interp_of u2) (interp_of u3).
    Proof.
      intros Hu dm Hin. unfold interp_of. rewrite !(interp_ok m per c _ dm OK Hin). split.
      - apply F3_map. intros spts Hs. apply F3_map. intros sp Hsp. destruct OK as (_ & _ & _ & _ & HC). destruct (HC dm spts sp Hin Hs Hsp) as [He Lx]. change (x_h c) with h. change (x_D c) with D in *.
        unfold vl. rewrite !map_length, !seq_length. repeat split; auto. intros d. destruct (Nat.lt_ge_cases d D) as [Hd|Hd].
        + rewrite !co_map_seq by exact Hd. apply (field_at_comb _ _ _ _ _ _ dm); auto.
        + unfold co. rewrite !nth_overflow by (rewrite map_length, seq_length; exact Hd). ring.
      - unfold same_shape. induction (x_surf c dm) as [|s l IH]; simpl; constructor; [rewrite map_length; reflexivity|apply IH].
    Qed.
    Lemma grel_shape g1 g2 g3 dm : grel g1 g2 g3 -> In dm dms -> Forall (fun g => same_shape (x_surf c dm) g /\ Forall (all_len D) g) [g1 dm; g2 dm; g3 dm].
    Proof.
      intros Hg Hin. destruct (Hg dm Hin) as [H1 H2]. clear Hg.
      pose proof (fun A => @F3_shapes A D a b _ _ _ H1) as K.
      destruct (K _ _ H2) as (K1 & K2 & K3). repeat constructor; tauto.
    Qed.
    Lemma radial_len dm i r : In dm dms -> In r (nth i (x_radial c dm) []) -> length r = D.
    Proof.
      intros Hin Hr. destruct (C41_context_is_well_formed D m per h parts dms (map Some bc) k scale HG Hm HD HSt HW) as [_ K]. destruct (K dm Hin) as (_ & _ & AL). fold c in AL. rewrite Forall_forall in AL.
      destruct (nth_in_or_default i (x_radial c dm) []) as [H|H]; [|rewrite H in Hr; destruct Hr]. specialize (AL _ H). unfold all_len in AL. rewrite Forall_forall in AL. apply AL, Hr.
    Qed.
    Lemma grel_nth g1 g2 g3 dm i : grel g1 g2 g3 -> In dm dms -> F3 (vl D a b) (nth i (g1 dm) []) (nth i (g2 dm) []) (nth i (g3 dm) []).
    Proof.
      intros Hg Hin. destruct (Hg dm Hin) as [H1 _]. destruct (Nat.lt_ge_cases i (length (g1 dm))) as [Hi|Hi]; [apply (F3_nth _ _ _ _ i [] H1 Hi)|].
      destruct (F3_len _ _ _ _ H1) as [L2 L3]. rewrite !nth_overflow by lia. constructor.
    Qed.
    Lemma mean_rel g1 g2 g3 i : grel g1 g2 g3 -> vl D a b (sl_mean c g1 i) (sl_mean c g2 i) (sl_mean c g3 i).
    Proof.
      intros Hg. unfold sl_mean. change (x_D c) with D. change (x_dms c) with dms. apply vl_div, vl_allsum, F3_map. intros dm Hin. apply vl_fold_add; [|apply vl_zero]. apply grel_nth; auto.
    Qed.
    Lemma local_cross_rel rs : (forall r, In r rs -> length r = D) -> forall l1 l2 l3 u v w, F3 (vl D a b) l1 l2 l3 -> vl (spin_size D) a b u v w ->
      vl (spin_size D) a b (fold_left (fun acc rg => vec_add_assign acc (cross_vv (fst rg) (snd rg))) (combine rs l1) u) (fold_left (fun acc rg => vec_add_assign acc (cross_vv (fst rg) (snd rg))) (combine rs l2) v) (fold_left (fun acc rg => vec_add_assign acc (cross_vv (fst rg) (snd rg))) (combine rs l3) w).
    Proof.
      induction rs as [|r rs IH]; intros Hr l1 l2 l3 u v w Hl Hu; [exact Hu|]. destruct Hl as [|g1 g2 g3 t1 t2 t3 Hgv Hl]; [exact Hu|]. cbn [combine fold_left fst snd]. apply IH; [intros; apply Hr; right; auto|exact Hl|].
      apply vl_add; [exact Hu|]. apply vl_cross_vv; auto. apply Hr. left; auto.
    Qed.
    Lemma cross_rel g1 g2 g3 i : grel g1 g2 g3 -> vl (spin_size D) a b (sl_cross c g1 i) (sl_cross c g2 i) (sl_cross c g3 i).
    Proof.
      intros Hg. unfold sl_cross. change (x_D c) with D. change (x_dms c) with dms. apply vl_scale, vl_allsum, F3_map. intros dm Hin. apply local_cross_rel; [intros r Hr; eapply radial_len; eauto|apply grel_nth; auto|apply vl_zero].
    Qed.
    Lemma simple_rel g1 g2 g3 : grel g1 g2 g3 -> grel (fst (fst (simple_layer c g1))) (fst (fst (simple_layer c g2))) (fst (fst (simple_layer c g3))).
    Proof.
      intros Hg dm Hin. unfold simple_layer. cbn [fst]. destruct (Hg dm Hin) as [H1 H2]. destruct (F3_len _ _ _ _ H1) as [L2 L3]. rewrite L2, L3. split.
      - apply F3_map. intros i Hi. apply F3_zip with (R := vl D a b); [apply grel_nth; auto|]. intros r u v w Hr Hu. apply vl_sub; [exact Hu|]. apply vl_add; [apply mean_rel; auto|]. apply vl_cross_sv; auto; [eapply radial_len; eauto|apply cross_rel; auto].
      - destruct (C41_context_is_well_formed D m per h parts dms (map Some bc) k scale HG Hm HD HSt HW) as [_ K]. destruct (K dm Hin) as (SR & _ & _). fold c in SR. 
        apply (proj2 (P_Geometry.Forall2_nth_iff _ _ _ [] [])). pose proof (Forall2_len _ _ _ H2) as L1. rewrite map_length, seq_length. split; [lia|]. intros i Hi. rewrite nth_map_seq by lia.
        pose proof (same_shape_nth _ _ i H2) as E1. pose proof (same_shape_nth _ _ i SR) as E2. rewrite zip_length; congruence.
    Qed.
    Lemma dotp_lin u v w I : length I = D -> vl D a b u v w -> dotp w I = a * dotp u I + b * dotp v I.
    Proof. intros HI (U1 & U2 & U3 & U4). rewrite !(dotp_co D) by assumption. rewrite <- !Rsum_scal, <- Rsum_plus. apply Rsum_ext. intros d _. rewrite U4. ring. Qed.
    Lemma SL_rel g1 g2 g3 : grel g1 g2 g3 -> lk (fcomb m D a b) (SL_to_Rhs c g1) (SL_to_Rhs c g2) (SL_to_Rhs c g3).
    Proof.
      intros Hg. pose proof HT as HT'. rewrite <- Hm in HT' at 1.
      assert (Hs : forall dm, In dm dms -> (same_shape (x_surf c dm) (g1 dm) /\ Forall (all_len D) (g1 dm)) /\ (same_shape (x_surf c dm) (g2 dm) /\ Forall (all_len D) (g2 dm)) /\ same_shape (x_surf c dm) (g3 dm) /\ Forall (all_len D) (g3 dm)).
      { intros dm Hin. pose proof (grel_shape g1 g2 g3 dm Hg Hin) as H. apply Forall_inv in H as A1. apply Forall_inv_tail in H. apply Forall_inv in H as A2. apply Forall_inv_tail in H. apply Forall_inv in H as A3. auto. }
      destruct (SL_raw_ok m per c g1 OK) as (y1 & E1 & V1). { intros dm Hin. apply (Hs dm Hin). }
      destruct (SL_raw_ok m per c g2 OK) as (y2 & E2 & V2). { intros dm Hin. apply (Hs dm Hin). }
      destruct (SL_raw_ok m per c g3 OK) as (y3 & E3 & V3). { intros dm Hin. apply (Hs dm Hin). }
      assert (RAW : fcomb m D a b y1 y2 y3).
      { intros n d Hn Hd. refine (same_field_weak m D y3 (lin a b y1 y2) _ n d Hn Hd). intros v. rewrite inner_lin.
        change (x_D c) with D in *. change (x_dms c) with dms in *. rewrite (V1 v _ (N0_enum m)), (V2 v _ (N0_enum m)), (V3 v _ (N0_enum m)). rewrite <- !Lsum_scal, <- Lsum_plus. apply Lsum_ext. intros dm Hin.
        destruct (Hg dm Hin) as [F _]. destruct (F3_len _ _ _ _ F) as [L2 L3]. rewrite L2, L3. rewrite <- !Lsum_scal, <- Lsum_plus. apply Lsum_ext. intros i _.
        assert (K : forall l1 l2 l3 Is, F3 (vl D a b) l1 l2 l3 -> (forall I, In I Is -> length I = D) -> Lsum (fun gI => dotp (fst gI) (snd gI)) (combine l3 Is) = a * Lsum (fun gI => dotp (fst gI) (snd gI)) (combine l1 Is) + b * Lsum (fun gI => dotp (fst gI) (snd gI)) (combine l2 Is)).
        { clear. intros l1 l2 l3 Is H. revert Is. induction H as [|u v w l1 l2 l3 Hu Hl IH]; intros [|I Is] HI; cbn [combine]; try (unfold Lsum; simpl; ring). rewrite !Lsum_cons. cbn [fst snd]. rewrite (dotp_lin u v w I (HI I (or_introl eq_refl)) Hu), (IH Is) by (intros; apply HI; right; auto). ring. }
        rewrite (K _ _ _ _ (grel_nth g1 g2 g3 dm i Hg Hin)); [ring|]. intros I HI. rewrite nth_mapmap in HI. apply in_map_iff in HI as [sp [<- _]]. rewrite map_length, seq_length. reflexivity. }
      unfold SL_to_Rhs. rewrite E1, E2, E3. cbn [bind]. change (x_D c) with D. change (x_dms c) with dms. change (x_bc c) with (map Some bc).
      destruct (C30_null_on_rhs m per D bc dms y1 HG HD HN HT') as (z1 & Z1 & W1). destruct (C30_null_on_rhs m per D bc dms y2 HG HD HN HT') as (z2 & Z2 & W2). destruct (C30_null_on_rhs m per D bc dms y3 HG HD HN HT') as (z3 & Z3 & W3).
      rewrite Hm in Z1, Z2, Z3. exists z1, z2, z3. repeat split; auto. intros n d Hn Hd. rewrite (W1 n d Hn Hd), (W2 n d Hn Hd), (W3 n d Hn Hd). destruct (prescribed (length m) m per bc n d); [ring|]. apply RAW; auto.
    Qed.
    (** the rigid motion of the particles *)
    Lemma rigid_rel rg1 rg2 rg3 u1 u2 u3 : bi rg3 = a * bi rg1 + b * bi rg2 -> Forall (fun p => length (gp_velocity p) = D /\ length (gp_angular p) = spin_size D) parts ->
      fcomb m D a b u1 u2 u3 -> exists g1 g2 g3, interp_all c rg1 u1 = Ok g1 /\ interp_all c rg2 u2 = Ok g2 /\ interp_all c rg3 u3 = Ok g3 /\ grel g1 g2 g3.
    Proof.
      intros Hrg HP Hu. pose proof (interp_rel u1 u2 u3 Hu) as Hg.
      assert (E : forall rg u, interp_all c rg u = Ok (fun dm => match interp_fluid_to_surf c rg u dm with Ok g => g | _ => [] end)).
      { intros rg u. unfold interp_all. change (x_dms c) with dms. rewrite (on_all_map _ (fun dm => match interp_fluid_to_surf c rg u dm with Ok g => g | _ => [] end)); [reflexivity|]. intros dm Hin.
        pose proof (interp_ok m per c u dm OK Hin) as EI. unfold interp_fluid_to_surf in *. destruct (on_all _ (x_surf c dm)); [reflexivity| | |]; discriminate. }
      rewrite !E. do 3 eexists. split; [reflexivity|]. split; [reflexivity|]. split; [reflexivity|].
      assert (V : forall rg u dm, In dm dms -> interp_fluid_to_surf c rg u dm = Ok (if rg then interp_rigid_motion parts (x_radial c dm) (interp_of u dm) else interp_of u dm)).
      { intros rg u dm Hin. pose proof (interp_ok m per c u dm OK Hin) as EI. unfold interp_of. unfold interp_fluid_to_surf in *. destruct (on_all _ (x_surf c dm)); cbn [bind] in *; [destruct rg; reflexivity| | |]; discriminate. }
      intros dm Hin. rewrite !V by exact Hin. destruct (Hg dm Hin) as [H1 H2].
      assert (K0 : forall r g : list (list vec), interp_rigid_motion parts r g = zip_with (fun pr gs => zip_with (rigid_motion_point (fst pr)) (snd pr) gs) (combine parts r) g) by reflexivity.
      (* every density moves by [bi rg] times the same vector *)
      assert (K : forall rg (g : list (list vec)), Forall (all_len D) g -> same_shape (x_radial c dm) g -> 
         F3 (F3 (moved D (bi rg))) g
           (zip_with (fun p rs => map (fun r => vec_sub_assign (gp_velocity p) (cross_sv (gp_angular p) r)) rs) parts (x_radial c dm)) (if rg then interp_rigid_motion parts (x_radial c dm) g else g)).
      { intros rg g HA HSh. rewrite K0.
        assert (RL : forall i r, In r (nth i (x_radial c dm) []) -> length r = D) by (intros i r; apply (radial_len dm i r Hin)).
        assert (PL : length (x_radial c dm) = length parts). { destruct (C41_context_is_well_formed D m per h parts dms (map Some bc) k scale HG Hm HD HSt HW) as [_ K]. destruct (K dm Hin) as (SR & SL & _). fold c in SR, SL. pose proof (Forall2_len _ _ _ SR). lia. }
        revert RL PL HA HSh. generalize (x_radial c dm). clear - HP D23. revert g. induction HP as [|p ps [P1 P2] HP IH]; intros g rad RL PL HA HSh.
        - destruct rad; [|discriminate]. destruct g; [|inversion HSh]. cbn. destruct rg; constructor.
        - destruct rad as [|rs rad]; [discriminate|]. destruct g as [|gs g']; [inversion HSh|]. assert (Hl : length rs = length gs) by (inversion HSh; assumption). assert (HSh' : same_shape rad g') by (inversion HSh; assumption). assert (HA1 : all_len D gs) by (inversion HA; assumption). assert (HA2 : Forall (all_len D) g') by (inversion HA; assumption). cbn [combine zip_with fst snd].
          specialize (IH g' rad (fun i r Hr => RL (S i) r Hr) ltac:(simpl in PL; lia) HA2 HSh').
          assert (Q : F3 (moved D (bi rg)) gs (map (fun r => vec_sub_assign (gp_velocity p) (cross_sv (gp_angular p) r)) rs) (if rg then zip_with (rigid_motion_point p) rs gs else gs)).
          { assert (RL0 : forall r, In r rs -> length r = D) by (intros r Hr; apply (RL 0%nat r Hr)). clear - RL0 Hl HA1 P1 P2 D23. revert gs Hl HA1. induction rs as [|r rs IH]; intros [|u gs] Hl HA1; simpl in Hl; try lia; [destruct rg; constructor|].
            assert (A1 : length u = D) by (inversion HA1; assumption). assert (A2 : all_len D gs) by (inversion HA1; assumption). assert (Lr : length r = D) by (apply RL0; left; auto).
            assert (LC : length (cross_sv (gp_angular p) r) = D). { destruct D23 as [E|E]; rewrite E in *; cbn [spin_size] in P2; [rewrite (list1 _ P2), cross_sv2 by exact Lr|rewrite cross_sv3 by assumption]; reflexivity. }
            specialize (IH (fun r' Hr' => RL0 r' (or_intror Hr')) gs ltac:(lia) A2). cbn [map zip_with].
            assert (H0 : length u = D /\ length (vec_sub_assign (gp_velocity p) (cross_sv (gp_angular p) r)) = D) by (rewrite len_sub by congruence; auto).
            destruct rg; constructor; auto; repeat split; try apply H0; try tauto.
            - unfold rigid_motion_point, velocity_minus_vec. rewrite !len_sub; try congruence; rewrite len_sub; congruence.
            - intros k0. unfold rigid_motion_point. rewrite minus2, co_sub by congruence. unfold on_off. ring.
            - intros k0. unfold on_off. ring. }
          destruct rg; constructor; auto. }
      destruct (C41_context_is_well_formed D m per h parts dms (map Some bc) k scale HG Hm HD HSt HW) as [_ KK]. destruct (KK dm Hin) as (SR & _ & _). fold c in SR.
      pose proof (grel_shape _ _ _ dm Hg Hin) as H. apply Forall_inv in H as A1. apply Forall_inv_tail in H. apply Forall_inv in H as A2. apply Forall_inv_tail in H. apply Forall_inv in H as A3.
      assert (SRt : forall g : list (list vec), same_shape (x_surf c dm) g -> same_shape (x_radial c dm) g).
      { intros g Hs. apply (proj2 (P_Geometry.Forall2_nth_iff _ _ _ [] [])). pose proof (Forall2_len _ _ _ Hs) as L1. pose proof (Forall2_len _ _ _ SR) as L2. split; [lia|]. intros i Hi. rewrite <- (same_shape_nth _ _ i Hs). symmetry. apply (same_shape_nth _ _ i SR). }
      pose proof (K rg1 _ (proj2 A1) (SRt _ (proj1 A1))) as K1. pose proof (K rg2 _ (proj2 A2) (SRt _ (proj1 A2))) as K2. pose proof (K rg3 _ (proj2 A3) (SRt _ (proj1 A3))) as K3. clear K.
      split; [exact (moved_rel D a b (bi rg1) (bi rg2) (bi rg3) _ _ _ _ _ _ _ Hrg H1 K1 K2 K3)|].
      apply (proj2 (P_Geometry.Forall2_nth_iff _ _ _ [] [])). pose proof (Forall2_len _ _ _ H2) as L1. pose proof (F3_len _ _ _ _ K1) as [L2 L3]. split; [lia|]. intros i Hi. rewrite (same_shape_nth _ _ i H2).
        assert (Hi' : (i < length (interp_of u1 dm))%nat) by lia. pose proof (F3_nth _ _ _ _ i [] K1 Hi') as Q. destruct (F3_len _ _ _ _ Q) as [_ Q3]. symmetry. exact Q3.
    Qed.
    (** ** the projection on the rigid motions *)
    Definition prel (s1 s2 s3 : vec * vec) : Prop := vl D a b (fst s1) (fst s2) (fst s3) /\ vl (spin_size D) a b (snd s1) (snd s2) (snd s3).
    Lemma interp_point_rel dm u1 u2 u3 e x : In dm dms -> in_grid_box (get_DM_bounds dm true) e -> length x = D -> fcomb m D a b u1 u2 u3 ->
      lk (vl D a b) (interp_surf_point D h (global_to_local dm u1) (e, x)) (interp_surf_point D h (global_to_local dm u2) (e, x)) (interp_surf_point D h (global_to_local dm u3) (e, x)).
    Proof.
      intros Hin He Hx Hu. rewrite !(interp_point_ok D m per h dms HG HD Hm HSt dm _ e x Hin He Hx). apply lk_ret. unfold vl. rewrite !map_length, !seq_length. repeat split; auto. intros d. destruct (Nat.lt_ge_cases d D) as [Hd|Hd].
      - rewrite !co_map_seq by exact Hd. apply (field_at_comb _ _ _ _ _ _ dm); auto.
      - unfold co. rewrite !nth_overflow by (rewrite map_length, seq_length; exact Hd). ring.
    Qed.
    Lemma projection_rel u1 u2 u3 i : (i < length parts)%nat -> fcomb m D a b u1 u2 u3 -> lk prel (projection c u1 i) (projection c u2 i) (projection c u3 i).
    Proof.
      intros Hi Hu. unfold projection. change (x_dms c) with dms. change (x_D c) with D.
      assert (K : forall dm, In dm dms -> lk prel (projection_impl c u1 i dm) (projection_impl c u2 i dm) (projection_impl c u3 i dm)).
      { intros dm Hin. destruct (wf D h parts k HW i Hi) as (W1 & _ & W3). unfold projection_impl. change (x_D c) with D. change (x_h c) with h. change (x_parts c) with parts. change (x_scale c) with scale.
        eapply lk_bind with (R := prel).
        - destruct (intersect Z.ltb (get_DM_bounds dm true) (p_bbox (gp (nth i parts gpart0)) h)); [|apply lk_ret; split; apply vl_zero].
          pose proof (view_dim' D m per dms HG HD Hm dm Hin) as Hb. apply (lk_iterate D); [apply overlap_dim; auto|split; apply vl_zero|]. intros pos s1 s2 s3 Hp Hs. apply (overlap_grid D) in Hp; auto. destruct Hp as [Hp1 Hp2].
          assert (Lp : length pos = D) by (rewrite (in_grid_box_len _ _ Hp1); apply Hb).
          unfold kernel_projection. apply (lk_iterate D); [split; apply repeat_length|exact Hs|]. intros q t1 t2 t3 Hq Ht. pose proof (in_grid_box_len _ _ Hq) as Lq. cbn [bottom_left] in Lq. rewrite repeat_length in Lq.
          set (hs := map (fun x => x / IZR scale) h). assert (Lhs : length hs = D) by (unfold hs; rewrite map_length; exact Hh).
          assert (Lx : length (pos_times (pos_of_int q) hs) = D). { unfold pos_times, pos_mul_assign, pos_of_int. rewrite zip_length; rewrite map_length; congruence. }
          assert (Ly : length (pos_times (pos_of_int pos) h) = D). { unfold pos_times, pos_mul_assign, pos_of_int. rewrite zip_length; rewrite map_length; congruence. }
          destruct (p_contains _ _); [|apply lk_ret; exact Ht].
          eapply lk_bind; [apply interp_point_rel; eauto|]. intros v1 v2 v3 Hv. apply lk_ret. destruct Ht as [T1 T2]. split; cbn [fst snd]; apply vl_add; auto. apply vl_cross_vv; auto.
          assert (Lpl : length (pos_plus (pos_times (pos_of_int pos) h) (pos_times (pos_of_int q) hs)) = D) by (unfold pos_plus, pos_add_assign; rewrite zip_length; congruence).
          rewrite zip_length; congruence.
        - intros s1 s2 s3 [H1 H2]. apply lk_ret. split; cbn [fst snd]; apply vl_div; assumption. }
      eapply lk_bind with (R := F3 prel).
      - apply lk_on_all, K.
      - intros l1 l2 l3 Hl. apply lk_ret. split; cbn [fst snd]; apply vl_allsum; clear - Hl; induction Hl as [|? ? ? ? ? ? [H1 H2] Hl IH]; constructor; auto.
    Qed.
    Lemma projection_all_rel u1 u2 u3 : fcomb m D a b u1 u2 u3 ->
      lk (fun p1 p2 p3 => forall i, (i < length parts)%nat -> vl D a b (fst p1 i) (fst p2 i) (fst p3 i) /\ vl (spin_size D) a b (snd p1 i) (snd p2 i) (snd p3 i)) (projection_all c u1) (projection_all c u2) (projection_all c u3).
    Proof.
      intros Hu. unfold projection_all. change (x_parts c) with parts. eapply lk_bind with (R := fun l1 l2 l3 => length l1 = length parts /\ F3 prel l1 l2 l3).
      - assert (K : forall i, In i (seq 0 (length parts)) -> lk prel (projection c u1 i) (projection c u2 i) (projection c u3 i)) by (intros i Hi; apply in_seq in Hi; apply projection_rel; [lia|exact Hu]).
        destruct (lk_on_all prel _ _ _ _ K) as (l1 & l2 & l3 & E1 & E2 & E3 & H). exists l1, l2, l3. repeat split; auto. rewrite (on_all_len _ _ _ E1). apply seq_length.
      - intros l1 l2 l3 [L Hl]. apply lk_ret. intros i Hi. cbn [fst snd]. apply (F3_nth prel l1 l2 l3 i ([], []) Hl). lia.
    Qed.
    (** ** writing y *)
    Definition yrel (N : nat) (S : nat) (s1 s2 s3 : nat * list R) : Prop :=
      fst s1 = N /\ fst s2 = N /\ fst s3 = N /\ exists a1 a2 a3 t1 t2 t3, snd s1 = a1 ++ t1 /\ snd s2 = a2 ++ t2 /\ snd s3 = a3 ++ t3 /\ lcomb a b a1 a2 a3 /\ length a1 = N /\ length (snd s1) = S /\ length (snd s2) = S /\ length (snd s3) = S.
    Lemma write_rel N S s1 s2 s3 v1 v2 v3 : (N < S)%nat -> yrel N S s1 s2 s3 -> v3 = a * v1 + b * v2 ->
      lk (yrel (Datatypes.S N) S) (bind (write_arr (snd s1) (fst s1) v1) (fun py => Ok (Datatypes.S (fst s1), py))) (bind (write_arr (snd s2) (fst s2) v2) (fun py => Ok (Datatypes.S (fst s2), py))) (bind (write_arr (snd s3) (fst s3) v3) (fun py => Ok (Datatypes.S (fst s3), py))).
    Proof.
      intros HN' (E1 & E2 & E3 & a1 & a2 & a3 & t1 & t2 & t3 & P1 & P2 & P3 & HL & L & S1 & S2 & S3) Hv. destruct (F3_len _ _ _ _ HL) as [L2 L3].
      rewrite E1, E2, E3. unfold write_arr. rewrite S1, S2, S3, (proj2 (Nat.ltb_lt N S) HN'). cbn [bind]. apply lk_ret.
      rewrite P1, app_length in S1. rewrite P2, app_length in S2. rewrite P3, app_length in S3.
      destruct t1 as [|c1 t1]; [simpl in S1; lia|]. destruct t2 as [|c2 t2]; [simpl in S2; lia|]. destruct t3 as [|c3 t3]; [simpl in S3; lia|].
      assert (N2 : length a2 = N) by lia. assert (N3 : length a3 = N) by lia.
      assert (Q1 : set_nth N v1 (snd s1) = (a1 ++ [v1]) ++ t1) by (rewrite P1, <- L, set_nth_app, <- app_assoc; reflexivity).
      assert (Q2 : set_nth N v2 (snd s2) = (a2 ++ [v2]) ++ t2) by (rewrite P2, <- N2, set_nth_app, <- app_assoc; reflexivity).
      assert (Q3 : set_nth N v3 (snd s3) = (a3 ++ [v3]) ++ t3) by (rewrite P3, <- N3, set_nth_app, <- app_assoc; reflexivity).
      unfold yrel. cbn [fst snd]. rewrite Q1, Q2, Q3. split; [reflexivity|]. split; [reflexivity|]. split; [reflexivity|].
      exists (a1 ++ [v1]), (a2 ++ [v2]), (a3 ++ [v3]), t1, t2, t3. cbn [length] in *. rewrite !app_length. cbn [length]. repeat split; auto; try lia.
      clear - HL Hv. induction HL; simpl; constructor; auto. constructor.
    Qed.
    Lemma y_loop_rel v1 v2 v3 dm y1 y2 y3 : In dm dms -> length y1 = off dm (length parts) -> length y2 = off dm (length parts) -> length y3 = off dm (length parts) ->
      (forall i q d, (i < length parts)%nat -> In q (the_pts h parts dm i) -> (d < D)%nat -> lk (fun u v w => w = a * u + b * v) (v1 i (nth i parts gpart0) q d) (v2 i (nth i parts gpart0) q d) (v3 i (nth i parts gpart0) q d)) ->
      lk (lcomb a b) (compute_y_loop c v1 dm y1) (compute_y_loop c v2 dm y2) (compute_y_loop c v3 dm y3).
    Proof.
      intros Hin L1 L2 L3 Hv. unfold compute_y_loop. change (x_parts c) with parts. change (x_D c) with D. change (x_h c) with h. set (S := off dm (length parts)) in *.
      eapply lk_bind with (R := yrel (off dm (length parts)) S).
      - refine (lk_for (fun j => yrel (off dm j) S) (length parts) _ _ _ _ _ _ _ _).
        + unfold yrel. cbn [fst snd]. assert (O0 : off dm 0 = 0%nat) by (unfold off; simpl; lia). rewrite O0. repeat split; auto. exists [], [], [], y1, y2, y3. repeat split; auto. constructor.
        + intros j s1 s2 s3 Hj Hs. rewrite (fluid_is _ dm j Hin Hj (or_intror eq_refl)), off_S.
          replace (off dm j + D * length (the_pts h parts dm j))%nat with (off dm j + D * (0 + length (the_pts h parts dm j)))%nat by lia.
          refine (lk_fold (fun i => yrel (off dm j + D * i)%nat S) _ _ _ (the_pts h parts dm j) 0%nat _ _ _ _ _).
          * apply lk_ret. rewrite Nat.mul_0_r, Nat.add_0_r. exact Hs.
          * intros i q t1 t2 t3 Hi Ht. cbn [plus] in *. assert (Hil : (i < length (the_pts h parts dm j))%nat) by (apply nth_error_Some; congruence).
            replace (off dm j + D * Datatypes.S i)%nat with (off dm j + D * i + D)%nat by lia.
            refine (lk_for (fun d => yrel (off dm j + D * i + d)%nat S) D _ _ _ _ _ _ _ _); [rewrite Nat.add_0_r; exact Ht|].
            intros d [n1 g1] [n2 g2] [n3 g3] Hd HR. eapply lk_bind; [apply Hv; [exact Hj|apply (nth_error_In _ _ Hi)|exact Hd]|]. intros u v w Huvw.
            replace (off dm j + D * i + Datatypes.S d)%nat with (Datatypes.S (off dm j + D * i + d)) by lia.
            apply (write_rel _ S (n1, g1) (n2, g2) (n3, g3)); auto. unfold S. pose proof (off_le dm (Datatypes.S j) (length parts) Hj) as HO. rewrite off_S in HO. assert ((i + 1) * D <= D * length (the_pts h parts dm j))%nat by (rewrite (Nat.mul_comm (i + 1)); apply Nat.mul_le_mono_l; lia). lia.
      - intros s1 s2 s3 (_ & _ & _ & a1 & a2 & a3 & t1 & t2 & t3 & P1 & P2 & P3 & HL & L & S1 & S2 & S3). apply lk_ret. destruct (F3_len _ _ _ _ HL) as [La2 La3].
        rewrite P1, app_length in S1. rewrite P2, app_length in S2. rewrite P3, app_length in S3. fold S in L. destruct t1; [|simpl in S1; lia]. destruct t2; [|simpl in S2; lia]. destruct t3; [|simpl in S3; lia]. rewrite P1, P2, P3, !app_nil_r. exact HL.
    Qed.
    Definition crel (y1 y2 y3 : control) : Prop := forall dm, In dm dms -> lcomb a b (y1 dm) (y2 dm) (y3 dm).
    Lemma on_control_rel f1 f2 f3 y1 y2 y3 : sized y1 -> sized y2 -> sized y3 ->
      (forall dm, In dm dms -> lk (lcomb a b) (f1 dm (y1 dm)) (f2 dm (y2 dm)) (f3 dm (y3 dm))) -> lk crel (on_control c f1 y1) (on_control c f2 y2) (on_control c f3 y3).
    Proof.
      intros S1 S2 S3 K. unfold on_control. change (x_dms c) with dms.
      assert (E : forall (f : dmda -> list R -> outcome (list R)) (y : control), (forall dm, In dm dms -> exists r, f dm (y dm) = Ok r) -> exists l, on_all (fun dm => f dm (y dm)) dms = Ok l).
      { intros f y H. exists (map (fun dm => match f dm (y dm) with Ok r => r | _ => [] end) dms). apply on_all_map. intros dm Hin. destruct (H dm Hin) as [r Hr]. rewrite Hr. reflexivity. }
      destruct (E f1 y1) as [l1 E1]. { intros dm Hin. destruct (K dm Hin) as (r & _ & _ & Hr & _). eauto. }
      destruct (E f2 y2) as [l2 E2]. { intros dm Hin. destruct (K dm Hin) as (_ & r & _ & _ & Hr & _). eauto. }
      destruct (E f3 y3) as [l3 E3]. { intros dm Hin. destruct (K dm Hin) as (_ & _ & r & _ & _ & Hr & _). eauto. }
      rewrite E1, E2, E3. cbn [bind]. apply lk_ret. intros dm Hin. destruct (K dm Hin) as (r1 & r2 & r3 & -> & -> & -> & H). exact H.
    Qed.
    Lemma get_g_rel u1 u2 u3 dm i q d : fcomb m D a b u1 u2 u3 -> In dm dms -> (i < length parts)%nat -> In q (the_pts h parts dm i) -> (d < D)%nat ->
      lk (fun u v w => w = a * u + b * v) (get_g dm u1 q d) (get_g dm u2 q d) (get_g dm u3 q d).
    Proof. intros Hu Hin Hi Hq Hd. destruct (pts_own dm i q Hin Hi Hq) as (Po & Pn & _). unfold get_g. rewrite Po. apply lk_ret. apply Hu; auto. Qed.
    Lemma compute_y_rel u1 u2 u3 y1 y2 y3 : fcomb m D a b u1 u2 u3 -> sized y1 -> sized y2 -> sized y3 ->
      lk crel (on_control c (compute_y c u1) y1) (on_control c (compute_y c u2) y2) (on_control c (compute_y c u3) y3).
    Proof.
      intros Hu S1 S2 S3. apply on_control_rel; auto. intros dm Hin. unfold compute_y. apply y_loop_rel; auto; try (apply sized_off; auto). intros i q d Hi Hq Hd. apply (get_g_rel _ _ _ _ i); auto.
    Qed.
    Lemma compute_y_rigid_rel u1 u2 u3 y1 y2 y3 m1 m2 m3 c1 c2 c3 : fcomb m D a b u1 u2 u3 -> sized y1 -> sized y2 -> sized y3 ->
      (forall i, (i < length parts)%nat -> vl D a b (m1 i) (m2 i) (m3 i) /\ vl (spin_size D) a b (c1 i) (c2 i) (c3 i)) ->
      lk crel (on_control c (compute_y_rigid c u1 m1 c1) y1) (on_control c (compute_y_rigid c u2 m2 c2) y2) (on_control c (compute_y_rigid c u3 m3 c3) y3).
    Proof.
      intros Hu S1 S2 S3 Hp. apply on_control_rel; auto. intros dm Hin. unfold compute_y_rigid. apply y_loop_rel; auto; try (apply sized_off; auto). intros i q d Hi Hq Hd. destruct (pts_own dm i q Hin Hi Hq) as (_ & _ & Lq).
      eapply lk_bind; [apply (get_g_rel _ _ _ _ i); eauto|]. intros v1 v2 v3 Hv. apply lk_ret. destruct (Hp i Hi) as [M C]. change (x_h c) with h. destruct (wf D h parts k HW i Hi) as (W1 & _ & W3).
      assert (Lr : length (zip_with Rminus (pos_times (pos_of_int q) h) (p_center (gp (nth i parts gpart0)))) = D). { unfold pos_times, pos_mul_assign, pos_of_int. rewrite zip_length; rewrite zip_length; rewrite map_length; congruence. }
      pose proof (vl_add D a b _ _ _ _ _ _ M (vl_scale D a b _ _ _ (gp_Ci_R (nth i parts gpart0)) (vl_cross_sv D a b _ _ _ _ D23 Lr C))) as (_ & _ & _ & T). specialize (T d). unfold co in T. unfold vec_plus, scalar_times_vec, vec_times_scalar. rewrite T, Hv. ring.
    Qed.
    (** ** the whole operators *)
    Lemma init_rel pb fl1 fl2 fl3 af1 af2 af3 x1 x2 x3 r1 r2 r3 : length (fl_conds pb) = D -> bi (f_rhs fl3) = a * bi (f_rhs fl1) + b * bi (f_rhs fl2) -> bi (f_sing fl3) = a * bi (f_sing fl1) + b * bi (f_sing fl2) ->
      bi af3 = a * bi af1 + b * bi af2 -> sized x1 -> sized x2 -> sized x3 -> crel x1 x2 x3 -> fcomb m D a b r1 r2 r3 ->
      lk (fcomb m D a b) (init_problem c pb fl1 x1 af1 r1) (init_problem c pb fl2 x2 af2 r2) (init_problem c pb fl3 x3 af3 r3).
    Proof.
      intros Hc Hf Hs Ha S1 S2 S3 Hx Hr. destruct (rhs_added a b af1 af2 af3 Ha x1 x2 x3 S1 S2 S3 Hx) as (m1 & m2 & m3 & HM & A1 & A2 & A3). destruct (setup_is (fl_conds pb) Hc) as (load & Hl).
      destruct (init_is pb fl1 x1 af1 m1 Hc A1 load Hl r1) as (y1 & E1 & V1). destruct (init_is pb fl2 x2 af2 m2 Hc A2 load Hl r2) as (y2 & E2 & V2). destruct (init_is pb fl3 x3 af3 m3 Hc A3 load Hl r3) as (y3 & E3 & V3).
      rewrite E1, E2, E3. apply lk_ret. intros n d Hn Hd. rewrite (V1 n d Hn Hd), (V2 n d Hn Hd), (V3 n d Hn Hd). unfold init_value.
      set (A := fun fl : flags => bi (f_rhs fl)) in *. destruct (prescribed D m per bc n d) as [f|].
      - set (F := f _). transitivity (bi (f_rhs fl3) * F); [destruct (f_rhs fl3); unfold on_off; ring|]. rewrite Hf. destruct (f_rhs fl1), (f_rhs fl2); unfold on_off; ring.
      - transitivity (r3 n d + bi (f_rhs fl3) * load n d + bi (f_sing fl3) * fl_sing pb n d + m3 n d); [destruct (f_rhs fl3), (f_sing fl3); unfold on_off; ring|].
        rewrite Hf, Hs, (Hr n d Hn Hd), (HM n d Hn Hd). destruct (f_rhs fl1), (f_rhs fl2), (f_sing fl1), (f_sing fl2); unfold on_off; ring.
    Qed.
    Lemma zeros_comb : fcomb m D a b zeros zeros zeros. Proof. intros n d _ _. unfold zeros. ring. Qed.
    Definition orel (r1 r2 r3 : control * pstate) : Prop := crel (fst r1) (fst r2) (fst r3) /\ fcomb m D a b (s_rhs (snd r1)) (s_rhs (snd r2)) (s_rhs (snd r3)) /\ fcomb m D a b (s_sol (snd r1)) (s_sol (snd r2)) (s_sol (snd r3)).
    Lemma sem_rel pb cr1 cr2 cr3 x1 x2 x3 y1 y2 y3 st1 st2 st3 : linear_solver m D (fl_solve pb) -> length (fl_conds pb) = D -> bi cr3 = a * bi cr1 + b * bi cr2 ->
      sized x1 -> sized x2 -> sized x3 -> sized y1 -> sized y2 -> sized y3 -> crel x1 x2 x3 ->
      lk orel (sem_matrix c pb cr1 x1 y1 st1) (sem_matrix c pb cr2 x2 y2 st2) (sem_matrix c pb cr3 x3 y3 st3).
    Proof.
      intros HL Hc Hf X1 X2 X3 Y1 Y2 Y3 Hx. unfold sem_matrix.
      eapply lk_bind; [eapply (init_rel pb); eauto; [cbn; ring|apply zeros_comb]|]. intros r1 r2 r3 Hr. cbv zeta. apply HL in Hr. rewrite !interp_all_is. cbn [bind].
      eapply lk_bind; [apply SL_rel, simple_rel, interp_rel, Hr|]. intros q1 q2 q3 Hq. apply HL in Hq as Hu.
      eapply lk_bind; [apply projection_all_rel, Hu|]. intros p1 p2 p3 Hp.
      eapply lk_bind; [apply compute_y_rigid_rel; eauto|]. intros z1 z2 z3 Hz. apply lk_ret. split; [exact Hz|]. split; assumption.
    Qed.
    Lemma dton_rel pb fl1 fl2 fl3 x1 x2 x3 y1 y2 y3 st1 st2 st3 : linear_solver m D (fl_solve pb) -> length (fl_conds pb) = D -> rigid_data D parts ->
      bi (f_rhs fl3) = a * bi (f_rhs fl1) + b * bi (f_rhs fl2) -> bi (f_sing fl3) = a * bi (f_sing fl1) + b * bi (f_sing fl2) -> bi (f_rigid fl3) = a * bi (f_rigid fl1) + b * bi (f_rigid fl2) ->
      sized x1 -> sized x2 -> sized x3 -> sized y1 -> sized y2 -> sized y3 -> crel x1 x2 x3 ->
      lk orel (DtoN_matrix c pb fl1 x1 y1 st1) (DtoN_matrix c pb fl2 x2 y2 st2) (DtoN_matrix c pb fl3 x3 y3 st3).
    Proof.
      intros HL Hc HP Hf Hs Hg X1 X2 X3 Y1 Y2 Y3 Hx. unfold DtoN_matrix.
      eapply lk_bind; [eapply (init_rel pb); eauto; [cbn; ring|apply zeros_comb]|]. intros r1 r2 r3 Hr. cbv zeta. apply HL in Hr.
      destruct (rigid_rel _ _ _ _ _ _ Hg HP Hr) as (g1 & g2 & g3 & -> & -> & -> & Hgr). cbn [bind].
      eapply lk_bind; [apply SL_rel, Hgr|]. intros q1 q2 q3 Hq. apply HL in Hq as Hu.
      eapply lk_bind; [apply compute_y_rel; eauto|]. intros z1 z2 z3 Hz. apply lk_ret. split; [exact Hz|]. split; assumption.
    Qed.
  End Lin.
End Main.
