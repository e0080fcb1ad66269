(** C50: the vector accessors and the transfers between ghosted and global vectors. *)
From Verif Require Import Base M_Geometry M_Particle S_Geometry S_Particle S_Fem M_Mesh M_Operator S_Operator P_Geometry P_Particle P_Energy P_Mesh P_Operator M_Vec Prop_Operator2.
Open Scope Z_scope.

Lemma mixed_radix (n : Z) i j i' j' : 0 <= i < n -> 0 <= i' < n -> j * n + i = j' * n + i' -> i = i' /\ j = j'.
Proof. intros H H' E. assert (j = j') by nia. subst. lia. Qed.
Lemma radix_bound (n k i j : Z) : 0 <= i < n -> 0 <= j < k -> 0 <= j * n + i < k * n.
Proof. nia. Qed.

(** ** every node has its own storage *)
Lemma at_2 b dof i j : has_dim 2 b -> in_grid_box b [i; j] -> 0 < dof ->
  at_ b dof [i; j] = Ok (((j - low b 1) * ext b 0 + (i - low b 0)) * dof) /\ 0 <= i - low b 0 < ext b 0 /\ 0 <= j - low b 1 < ext b 1 /\ vec_size b dof = ext b 1 * ext b 0 * dof.
Proof.
  destruct b as [[|l0 [|l1 [|? ?]]] [|u0 [|u1 [|? ?]]]]; intros [H1 H2] [H3 H4] Hd; try discriminate. cbn in H3, H4.
  inversion H3 as [|? ? ? ? A1 H3']; subst. inversion H3' as [|? ? ? ? A2 _]; subst. inversion H4 as [|? ? ? ? A3 H4']; subst. inversion H4' as [|? ? ? ? A4 _]; subst.
  unfold at_, row2, low, ext, vec_size, extents, zprod. cbn [bottom_left upper_right nth zip_with fold_left].
  destruct (Z.leb_spec 0 (j - l1)); [|lia]. destruct (Z.ltb_spec (j - l1) (u1 - l1)); [|lia]. cbn. split; [reflexivity|]. split; [lia|]. split; [lia|]. destruct (u0 - l0), (u1 - l1); lia.
Qed.
Lemma at_3 b dof i j k : has_dim 3 b -> in_grid_box b [i; j; k] -> 0 < dof ->
  at_ b dof [i; j; k] = Ok ((((k - low b 2) * ext b 1 + (j - low b 1)) * ext b 0 + (i - low b 0)) * dof) /\ 0 <= i - low b 0 < ext b 0 /\ 0 <= j - low b 1 < ext b 1 /\ 0 <= k - low b 2 < ext b 2 /\
  vec_size b dof = ext b 2 * ext b 1 * ext b 0 * dof.
Proof.
  destruct b as [[|l0 [|l1 [|l2 [|? ?]]]] [|u0 [|u1 [|u2 [|? ?]]]]]; intros [H1 H2] [H3 H4] Hd; try discriminate. cbn in H3, H4.
  inversion H3 as [|? ? ? ? A1 H3']; subst. inversion H3' as [|? ? ? ? A2 H3'']; subst. inversion H3'' as [|? ? ? ? A5 _]; subst.
  inversion H4 as [|? ? ? ? A3 H4']; subst. inversion H4' as [|? ? ? ? A4 H4'']; subst. inversion H4'' as [|? ? ? ? A6 _]; subst.
  unfold at_, row3, low, ext, vec_size, extents, zprod. cbn [bottom_left upper_right nth zip_with fold_left].
  destruct (Z.leb_spec 0 (k - l2)); [|lia]. destruct (Z.ltb_spec (k - l2) (u2 - l2)); [|lia]. cbn [andb]. split; [reflexivity|]. split; [lia|]. split; [lia|]. split; [lia|]. ring.
Qed.
(** the address is inside the array, and two (node, component) pairs never share one *)
Theorem C50_own_storage : forall b dof p, (has_dim 2 b \/ has_dim 3 b) -> (0 < dof)%nat -> in_grid_box b p ->
  exists a, at_ b (Z.of_nat dof) p = Ok a /\
  (forall d, (d < dof)%nat -> 0 <= a + Z.of_nat d < vec_size b (Z.of_nat dof)) /\
  (forall p' a' d d', in_grid_box b p' -> at_ b (Z.of_nat dof) p' = Ok a' -> (d < dof)%nat -> (d' < dof)%nat -> a + Z.of_nat d = a' + Z.of_nat d' -> p = p' /\ d = d').
Proof.
  intros b dof p Hb Hd Hp. assert (Hz : 0 < Z.of_nat dof) by lia. set (D := Z.of_nat dof) in *.
  assert (BND : forall d, (d < dof)%nat -> 0 <= Z.of_nat d < D) by (unfold D; lia).
  destruct Hb as [Hb|Hb].
  - assert (L : forall q, in_grid_box b q -> exists i j, q = [i; j]).
    { intros q [H _]. apply Forall2_len in H. destruct Hb as [Hb _]. rewrite Hb in H. destruct q as [|i [|j [|? ?]]]; try discriminate. eauto. }
    destruct (L p Hp) as (i & j & ->). destruct (at_2 b D i j Hb Hp Hz) as (E & B0 & B1 & S). exists (((j - low b 1) * ext b 0 + (i - low b 0)) * D). split; [exact E|]. split.
    + intros d Hdd. rewrite S. apply radix_bound; [auto|]. apply radix_bound; auto.
    + intros p' a' d d' Hp' E' Hd1 Hd2 EA. destruct (L p' Hp') as (i' & j' & ->). destruct (at_2 b D i' j' Hb Hp' Hz) as (F & B0' & B1' & _). rewrite F in E'. injection E' as <-.
      apply (mixed_radix D) in EA; auto. destruct EA as [Ed EA]. apply (mixed_radix (ext b 0)) in EA; auto. split; [f_equal; [lia|f_equal; lia]|lia].
  - assert (L : forall q, in_grid_box b q -> exists i j k, q = [i; j; k]).
    { intros q [H _]. apply Forall2_len in H. destruct Hb as [Hb _]. rewrite Hb in H. destruct q as [|i [|j [|k [|? ?]]]]; try discriminate. eauto. }
    destruct (L p Hp) as (i & j & k & ->). destruct (at_3 b D i j k Hb Hp Hz) as (E & B0 & B1 & B2 & S). eexists. split; [exact E|]. split.
    + intros d Hdd. rewrite S. apply radix_bound; [auto|]. apply radix_bound; auto. apply radix_bound; auto.
    + intros p' a' d d' Hp' E' Hd1 Hd2 EA. destruct (L p' Hp') as (i' & j' & k' & ->). destruct (at_3 b D i' j' k' Hb Hp' Hz) as (F & B0' & B1' & B2' & _). rewrite F in E'. injection E' as <-.
      apply (mixed_radix D) in EA; auto. destruct EA as [Ed EA]. apply (mixed_radix (ext b 0)) in EA; auto. destruct EA as [E0 EA]. apply (mixed_radix (ext b 1)) in EA; auto. split; [f_equal; [lia|f_equal; [lia|f_equal; lia]]|lia].
Qed.

(** ** the nodal view of a vector used in the rest of the model is the one the addresses give *)
(** the array holds at the address of each node the values of the nodal vector *)
Definition stores (m : mem) (x : lvec) : Prop :=
  m_size m = vec_size (lv_box x) (Z.of_nat (lv_dof x)) /\
  forall p d a, in_grid_box (lv_box x) p -> (d < lv_dof x)%nat -> at_ (lv_box x) (Z.of_nat (lv_dof x)) p = Ok a -> m_val m (a + Z.of_nat d) = lv_val x p d.
Theorem C50_accessor_reads_and_adds_at_its_node : forall m x p d r, (has_dim 2 (lv_box x) \/ has_dim 3 (lv_box x)) -> stores m x -> in_grid_box (lv_box x) p -> (d < lv_dof x)%nat ->
  exists a m' x', at_ (lv_box x) (Z.of_nat (lv_dof x)) p = Ok a /\ load m (a + Z.of_nat d) = Ok (lv_val x p d) /\ at_read x p d = Ok (lv_val x p d) /\
    bind (load m (a + Z.of_nat d)) (fun v => store m (a + Z.of_nat d) (v + r)%R) = Ok m' /\ at_add x p d r = Ok x' /\ stores m' x'.
Proof.
  intros m x p d r Hb [Hs Hv] Hp Hd. destruct (C50_own_storage (lv_box x) (lv_dof x) p Hb ltac:(lia) Hp) as (a & E & B & U).
  assert (I : in_mem m (a + Z.of_nat d) = true). { unfold in_mem. rewrite Hs. specialize (B d Hd). destruct (Z.leb_spec 0 (a + Z.of_nat d)), (Z.ltb_spec (a + Z.of_nat d) (vec_size (lv_box x) (Z.of_nat (lv_dof x)))); auto; lia. }
  assert (IB : point_inside Z.ltb (lv_box x) p = true).
  { assert (LP : length p = length (bottom_left (lv_box x))) by (destruct Hp as [H1 _]; apply Forall2_len in H1; auto). destruct Hb as [Hb|Hb]; [apply (point_inside_grid 2)|apply (point_inside_grid 3)]; auto; rewrite LP; apply Hb. }
  exists a. unfold load, store, at_read, at_add. rewrite I, IB. cbn [bind]. do 2 eexists. split; [exact E|]. rewrite (Hv p d a Hp Hd E). split; [reflexivity|]. split; [reflexivity|]. split; [reflexivity|]. split; [reflexivity|].
  split; [exact Hs|]. cbn [lv_box lv_dof lv_val m_val]. intros q c a' Hq Hc Ea. unfold add_val, same_node. destruct (Z.eqb_spec (a + Z.of_nat d) (a' + Z.of_nat c)) as [EQ|NE].
  - destruct (U q a' d c Hq Ea Hd Hc EQ) as [<- <-]. destruct (list_eq_dec Z.eq_dec p p); [|contradiction]. rewrite Nat.eqb_refl. reflexivity.
  - destruct (list_eq_dec Z.eq_dec p q) as [<-|N]; [|cbn; apply Hv; auto]. destruct (Nat.eqb_spec d c) as [<-|]; [|cbn; apply Hv; auto]. rewrite E in Ea. injection Ea as <-. contradiction.
Qed.
(** a component index equal to dof designates the next node of the row *)
Theorem C50_component_overrun : forall b dof i j a, has_dim 2 b -> 0 < dof -> in_grid_box b [i; j] -> in_grid_box b [i + 1; j] -> at_ b dof [i; j] = Ok a -> at_ b dof [i + 1; j] = Ok (a + dof).
Proof.
  intros b dof i j a Hb Hd H1 H2 E. destruct (at_2 b dof i j Hb H1 Hd) as (F & _). destruct (at_2 b dof (i + 1) j Hb H2 Hd) as (F' & _). rewrite F in E. injection E as <-. rewrite F'. f_equal. ring.
Qed.

(** ** transfers *)
Lemma ghost_in_nodes m : forall per lo up q, length per = length m -> Forall (fun n => 1 <= n) m -> Forall2 Z.le (map (fun _ => 0) m) lo -> Forall2 Z.le up m -> Forall2 Z.le lo up ->
  in_grid_box (mkbox (ghost_low lo per) (ghost_up up m per)) q -> in_grid_box (nodes_box m) (wrap m per q).
Proof.
  unfold in_grid_box, nodes_box. simpl. induction m as [|n m IH]; intros [|b per] lo up q Hl Hm H0 H1 H2 [H3 H4]; simpl in *; try lia.
  - inversion H0; subst. inversion H1; subst. simpl in *. split; constructor.
  - inversion H0; subst. inversion H1; subst. simpl in *. inversion H3; subst. inversion H4; subst. inversion Hm; subst. inversion H2; subst.
    edestruct (IH per) as [I1 I2]; eauto; try lia. destruct b; split; constructor; auto; try lia; apply Z.mod_pos_bound; lia.
Qed.
(** adding the ghosted vectors of all the processes puts every stored value, once, on the node it stands for:
    against any test field, the sum over the global nodes is the sum over the stored entries *)
Theorem C50_add_accumulates_each_entry_once : forall m per dof dms ls g v, grid_ok m per -> distributes m per dof dms -> Forall2 (fun dm x => lv_box x = g_ghost dm) dms ls ->
  (inner (box_points_list (nodes_box m)) dof (local_to_global_add dms ls g) v =
   inner (box_points_list (nodes_box m)) dof g v +
   Lsum (fun dl : dmda * lvec => Lsum (fun q => Rsum dof (fun d => lv_val (snd dl) q d * lv_val (global_to_local (fst dl) v) q d)) (box_points_list (g_ghost (fst dl)))) (combine dms ls))%R.
Proof.
  intros m per dof dms ls g v HG [HV _] HF. set (N := box_points_list (nodes_box m)).
  assert (EN : enumerates N (nodes_box m)) by (apply (box_points_list_enum (length m)); split; cbn; rewrite ?map_length; reflexivity). destruct EN as [ND IN].
  assert (HC : forall dl, In dl (combine dms ls) -> view_ok m per dof (fst dl) /\ lv_box (snd dl) = g_ghost (fst dl)).
  { clear - HV HF. induction HF; intros dl Hin; [destruct Hin|]. inversion HV; subst. destruct Hin as [<-|Hin]; [auto|]. apply IHHF; auto. }
  unfold inner. rewrite !(Lsum_Rsum (fun n d => _)). rewrite (Lsum_ext _ (fun dl : dmda * lvec => Rsum dof (fun d => Lsum (fun q => lv_val (snd dl) q d * lv_val (global_to_local (fst dl) v) q d)%R (box_points_list (g_ghost (fst dl)))))) by (intros; apply Lsum_Rsum).
  rewrite (Lsum_Rsum (fun dl d => _)), <- Rsum_plus. apply Rsum_ext. intros d Hd.
  rewrite (Lsum_ext (fun n => (local_to_global_add dms ls g n d * v n d)%R) (fun n => (g n d * v n d + Lsum (fun dl : dmda * lvec => Lsum (fun q => if list_eq_dec Z.eq_dec (wrap m per q) n then lv_val (snd dl) q d * v n d else 0) (box_points_list (g_ghost (fst dl)))) (combine dms ls))%R)).
  - rewrite Lsum_plus. f_equal. rewrite Lsum_swap. apply Lsum_ext. intros dl Hin. destruct (HC dl Hin) as [VO LB]. rewrite Lsum_swap. apply Lsum_ext. intros q Hq.
    destruct VO as (V1 & V2 & V3 & V4 & V5 & V6 & V7). 
    assert (W : In (wrap m per q) N).
    { apply IN. rewrite V7 in Hq. assert (EB : enumerates (box_points_list (ghost_box m per (g_own (fst dl)))) (ghost_box m per (g_own (fst dl)))).
      { assert (L1 := Forall2_len _ _ _ V4). assert (L2 := Forall2_len _ _ _ V6). rewrite map_length in L1. destruct HG as (_ & HL & _). apply (box_points_list_enum (length m)). unfold ghost_box. split; cbn.
        - clear - L1 HL. revert per HL L1. generalize (bottom_left (g_own (fst dl))). induction m as [|n m IH]; intros [|a lo] [|b per] HL L1; simpl in *; try lia. f_equal. apply IH; lia.
        - clear - L2 HL. revert per HL L2. generalize (upper_right (g_own (fst dl))). induction m as [|n m IH]; intros [|a lo] [|b per] HL L1; simpl in *; try lia. f_equal. apply IH; lia. }
      apply EB in Hq. apply (ghost_in_nodes m per (bottom_left (g_own (fst dl))) (upper_right (g_own (fst dl)))); auto; apply HG. }
    rewrite (Lsum_pick (list_eq_dec Z.eq_dec) (wrap m per q) (fun n => lv_val (snd dl) q d * v n d)%R N ND W). unfold global_to_local. cbn [lv_val]. rewrite V1, V2. reflexivity.
  - intros n Hn. unfold local_to_global_add. rewrite Rmult_plus_distr_r. f_equal. fold (Lsum (fun dl : dmda * lvec => fold_right Rplus 0%R (map (fun q => if same_node (wrap (g_size (fst dl)) (g_per (fst dl)) q) n then lv_val (snd dl) q d else 0%R) (box_points_list (lv_box (snd dl))))) (combine dms ls)).
    rewrite <- (Lsum_scal_r (v n d)). apply Lsum_ext. intros dl Hin. destruct (HC dl Hin) as [VO LB]. destruct VO as (V1 & V2 & _). rewrite LB, V1, V2.
    fold (Lsum (fun q => if same_node (wrap m per q) n then lv_val (snd dl) q d else 0%R) (box_points_list (g_ghost (fst dl)))). rewrite <- Lsum_scal_r. apply Lsum_ext. intros q Hq. unfold same_node. destruct (list_eq_dec Z.eq_dec (wrap m per q) n); [reflexivity|apply Rmult_0_l].
Qed.
(** scattering a field to the ghosted vectors and inserting it back changes nothing, whatever the target held *)
Theorem C50_insert_after_scatter : forall m per dof dms g y, grid_ok m per -> distributes m per dof dms ->
  same_field m dof (local_to_global_insert dms (map (fun dm => global_to_local dm g) dms) y) g.
Proof.
  intros m per dof dms g y HG [HV HT] n d Hn Hd. unfold local_to_global_insert.
  assert (K : forall l acc, Forall (view_ok m per dof) l -> (acc = g n d \/ exists dm, In dm l /\ point_inside Z.ltb (g_own dm) n = true) ->
    fold_left (fun acc (dl : dmda * lvec) => if point_inside Z.ltb (g_own (fst dl)) n then lv_val (snd dl) n d else acc) (combine l (map (fun dm => global_to_local dm g) l)) acc = g n d).
  { induction l as [|dm l IH]; intros acc HF Hacc; [destruct Hacc as [E|(dm & [] & _)]; exact E|]. inversion HF as [|? ? VO HF']; subst. cbn [map combine fold_left fst snd]. apply IH; [exact HF'|].
    destruct (point_inside Z.ltb (g_own dm) n) eqn:E.
    - left. unfold global_to_local. cbn [lv_val]. destruct VO as (V1 & V2 & _). rewrite V1, V2, wrap_id; auto. apply HG.
    - destruct Hacc as [Ha|(dm' & [<-|Hin] & Hi)]; [left; exact Ha|congruence|right; eauto]. }
  apply K; [exact HV|]. right. destruct (HT n) as [H1 _]. destruct (H1 Hn) as (k & Hk & Hin & _). rewrite map_length in Hk.
  destruct (nth_error dms k) as [dm|] eqn:E; [|apply nth_error_None in E; lia]. exists dm. split; [apply (nth_error_In _ _ E)|].
  rewrite (nth_indep _ _ (g_own dm)) in Hin by (rewrite map_length; auto). rewrite map_nth in Hin. rewrite (nth_error_nth _ _ _ E) in Hin.
  rewrite Forall_forall in HV. destruct (HV dm (nth_error_In _ _ E)) as (V1 & V2 & V3 & V4 & V5 & V6 & _). assert (L1 := Forall2_len _ _ _ V4). assert (L2 := Forall2_len _ _ _ V6). rewrite map_length in L1.
  apply (point_inside_grid (length m)); auto; [split; auto; lia|]. destruct Hin as [Q _]. apply Forall2_len in Q. lia.
Qed.
(** a vector on a 3 x 2 ghosted box starting at (-1, 4) with two components, and its array *)
Example C50_example : exists m x, stores m x /\ lv_dof x = 2%nat /\ in_grid_box (lv_box x) [-1; 5] /\ at_ (lv_box x) 2 [-1; 5] = Ok 6 /\ has_dim 2 (lv_box x).
Proof.
  set (b := mkbox [-1; 4] [2; 6]). set (v := fun (p : list Z) (d : nat) => IZR (100 * nth 0 p 0 + 10 * nth 1 p 0 + Z.of_nat d)).
  exists (mkmem 12 (fun a => v [(a / 2) mod 3 - 1; a / 6 + 4] (Z.to_nat (a mod 2)))), (mklvec b 2 v). split; [|split; [reflexivity|split; [split; repeat constructor; cbn; lia|split; [reflexivity|split; reflexivity]]]].
  split; [reflexivity|]. cbn [lv_box lv_dof lv_val m_val]. intros p d a Hp Hd E. assert (L := Forall2_len _ _ _ (proj1 Hp)). destruct p as [|i [|j [|? ?]]]; try discriminate L.
  destruct (at_2 b 2 i j ltac:(split; reflexivity) Hp ltac:(lia)) as (F & B0 & B1 & _). change (Z.of_nat 2) with 2 in E. rewrite F in E. injection E as <-. cbn in B0, B1. unfold low, ext. cbn [b bottom_left upper_right nth].
  assert (Dd : Z.of_nat d = 0 \/ Z.of_nat d = 1) by lia. f_equal; [|replace ((((j - 4) * (2 - -1) + (i - -1)) * 2 + Z.of_nat d) mod 2) with (Z.of_nat d); [lia|apply Z.mod_unique with ((j - 4) * 3 + (i + 1)); lia]].
  replace ((((j - 4) * (2 - -1) + (i - -1)) * 2 + Z.of_nat d) / 2) with ((j - 4) * 3 + (i + 1)) by (apply Z.div_unique with (Z.of_nat d); lia).
  replace (((j - 4) * 3 + (i + 1)) mod 3) with (i + 1) by (apply Z.mod_unique with (j - 4); lia).
  replace ((((j - 4) * (2 - -1) + (i - -1)) * 2 + Z.of_nat d) / 6) with (j - 4) by (apply Z.div_unique with ((i + 1) * 2 + Z.of_nat d); lia).
  f_equal; [lia|f_equal; lia].
Qed.
