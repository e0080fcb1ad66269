(** createMesh produces a layout on which the Stokes operator is defined. *)
From Coq Require Import Permutation.
From Verif Require Import Base M_Geometry S_Geometry P_Geometry M_Particle S_Particle P_Particle M_Mesh M_Operator S_Operator P_Mesh.
Open Scope Z_scope.

Lemma fold_add_acc l : forall a, fold_left Z.add l a = a + fold_left Z.add l 0.
Proof. induction l as [|b l IH]; intros a; simpl; [lia|]. rewrite IH, (IH b). lia. Qed.
Lemma own_start_cons a l c : own_start (a :: l) (S c) = a + own_start l c.
Proof. unfold own_start. simpl. apply fold_add_acc. Qed.
Lemma own_start_0 l : own_start l 0 = 0. Proof. reflexivity. Qed.
Definition own_end (l : list Z) (c : nat) : Z := own_start l c + nth c l 0.
Lemma own_end_cons a l c : own_end (a :: l) (S c) = a + own_end l c.
Proof. unfold own_end. rewrite own_start_cons. simpl. lia. Qed.
Lemma own_end_0 a l : own_end (a :: l) 0 = a. Proof. reflexivity. Qed.

Lemma own_bounds l : Forall (fun a => 0 <= a) l -> forall c, (c < length l)%nat -> 0 <= own_start l c <= own_end l c /\ own_end l c <= zsum l.
Proof.
  induction 1 as [|a l Ha HF IH]; intros c Hc; simpl in Hc; [lia|].
  assert (S0 : 0 <= zsum l) by (clear -HF; induction HF; simpl; lia).
  destruct c as [|c]; [rewrite own_end_0, own_start_0; simpl; lia|]. rewrite own_end_cons, own_start_cons. simpl. specialize (IH c ltac:(lia)). lia.
Qed.
Lemma own_cover l : Forall (fun a => 0 <= a) l -> forall p, 0 <= p < zsum l ->
  exists c, (c < length l)%nat /\ own_start l c <= p < own_end l c.
Proof.
  induction 1 as [|a l Ha HF IH]; intros p Hp; simpl in Hp; [lia|].
  destruct (Z.lt_ge_cases p a) as [H|H].
  - exists 0%nat. rewrite own_end_0, own_start_0. simpl. lia.
  - destruct (IH (p - a)) as [c [Hc Hp']]; [lia|]. exists (S c). rewrite own_end_cons, own_start_cons. simpl. lia.
Qed.
Lemma own_unique l : Forall (fun a => 0 <= a) l -> forall p c c', (c < length l)%nat -> (c' < length l)%nat ->
  own_start l c <= p < own_end l c -> own_start l c' <= p < own_end l c' -> c = c'.
Proof.
  induction 1 as [|a l Ha HF IH]; intros p c c' Hc Hc' H1 H2; simpl in *; [lia|].
  destruct c as [|c], c' as [|c']; auto; rewrite ?own_end_cons, ?own_start_cons, ?own_end_0, ?own_start_0 in *.
  - pose proof (own_bounds l HF c' ltac:(lia)). lia.
  - pose proof (own_bounds l HF c ltac:(lia)). lia.
  - f_equal. apply (IH (p - a)); lia.
Qed.

Lemma proc_coords_in np : forall c, In c (proc_coords np) <-> Forall2 (fun n k => (k < n)%nat) np c.
Proof.
  induction np as [|n np IH]; intros c; simpl.
  - split; [intros [<-|[]]; constructor|]. intros H; inversion H; auto.
  - rewrite in_flat_map. split.
    + intros [c' [H1 H2]]. apply in_map_iff in H2 as [i [<- Hi]]. apply in_seq in Hi. constructor; [lia|]. apply IH, H1.
    + intros H. inversion H as [|? i ? c' Hi Hc]; subst. exists c'. split; [apply IH, Hc|]. apply in_map_iff. exists i. split; auto. apply in_seq. lia.
Qed.
Lemma NoDup_flat_map_cons n (l : list (list nat)) : NoDup l -> NoDup (flat_map (fun c => map (fun i => i :: c) (seq 0 n)) l).
Proof.
  induction 1 as [|c l Hc Hl IH]; simpl; [constructor|]. apply NoDup_app_intro; auto.
  - apply FinFun.Injective_map_NoDup; [|apply seq_NoDup]. intros i j E. injection E; auto.
  - intros x H1 H2. apply in_map_iff in H1 as [i [<- _]]. apply in_flat_map in H2 as [c' [H2 H3]]. apply in_map_iff in H3 as [j [E _]]. injection E as _ ->. auto.
Qed.
Lemma proc_coords_nodup np : NoDup (proc_coords np).
Proof. induction np; simpl; [repeat constructor; auto|]. apply NoDup_flat_map_cons, IHnp. Qed.

(** membership of a point in an owned box, axis by axis *)
Inductive owns : list (list Z) -> list nat -> list Z -> Prop :=
  | owns_nil : owns [] [] []
  | owns_cons l c p ls cs ps : own_start l c <= p < own_end l c -> owns ls cs ps -> owns (l :: ls) (c :: cs) (p :: ps).
Lemma owns_box ls : forall cs p, length cs = length ls -> (in_grid_box (own_box ls cs) p <-> owns ls cs p).
Proof.
  unfold in_grid_box, own_box. cbn [bottom_left upper_right]. induction ls as [|l ls IH]; intros [|c cs] p HL; cbn [zip_with length] in *; try lia.
  - split; [intros [H _]; inversion H; constructor|]. intros H; inversion H; split; constructor.
  - split.
    + intros [H1 H2]. inversion H1; subst. inversion H2; subst. constructor; [unfold own_end; lia|]. apply IH; auto; lia.
    + intros H. inversion H as [|? ? ? ? ? ? A B]; subst. apply IH in B as [B1 B2]; [|lia]. unfold own_end in A. split; constructor; auto; lia.
Qed.
Definition nneg (ls : list (list Z)) := Forall (Forall (fun a => 0 <= a)) ls.
Lemma coords_len ls c : In c (proc_coords (map (@length Z) ls)) -> length c = length ls.
Proof. intros H. apply proc_coords_in, Forall2_len in H. rewrite map_length in H. lia. Qed.

Lemma owns_unique ls : nneg ls -> forall p c c', Forall2 (fun n k => (k < n)%nat) (map (@length Z) ls) c -> Forall2 (fun n k => (k < n)%nat) (map (@length Z) ls) c' ->
  owns ls c p -> owns ls c' p -> c = c'.
Proof.
  induction 1 as [|l ls Hl HN IH]; intros p c c' H1 H2 H3 H4.
  - inversion H3; inversion H4; subst; congruence.
  - inversion H3; subst. inversion H4; subst. inversion H1; subst. inversion H2; subst.
    f_equal; [eapply own_unique; eauto|eapply IH; eauto].
Qed.
Lemma own_tiling ls : nneg ls -> tiling (map (own_box ls) (proc_coords (map (@length Z) ls))) (nodes_box (map zsum ls)).
Proof.
  intros HN p. set (cs := proc_coords (map (@length Z) ls)). rewrite map_length.
  assert (Hnth : forall k, (k < length cs)%nat -> nth k (map (own_box ls) cs) (nodes_box (map zsum ls)) = own_box ls (nth k cs [])).
  { intros k Hk. rewrite (nth_indep _ _ (own_box ls [])) by (rewrite map_length; exact Hk). apply map_nth. }
  assert (Hl : forall k, (k < length cs)%nat -> length (nth k cs []) = length ls).
  { intros k Hk. apply coords_len, nth_In, Hk. }
  split.
  - intros Hp.
    assert (HE : exists c, In c cs /\ owns ls c p).
    { destruct Hp as [H1 H2]. unfold nodes_box in H1, H2. cbn [bottom_left upper_right] in *. subst cs. clear Hnth Hl.
      revert p H1 H2. induction HN as [|l ls Hl HN IH]; intros p H1 H2; cbn [map] in *.
      - inversion H1; subst. exists []. split; [simpl; auto|constructor].
      - inversion H1 as [|? q ? p' A1 B1]; subst. inversion H2 as [|? ? ? ? A2 B2]; subst.
        destruct (own_cover l Hl q ltac:(lia)) as [c [Hc Hq]]. destruct (IH p' B1 B2) as [c' [Hc' Hp']].
        exists (c :: c'). split; [|constructor; auto]. apply proc_coords_in. constructor; auto. apply proc_coords_in, Hc'. }
    destruct HE as [c [Hc Ho]]. destruct (In_nth cs c [] Hc) as [k [Hk Ek]]. exists k. split; [exact Hk|]. split.
    + rewrite Hnth, Ek by auto. apply owns_box; auto. rewrite <- Ek. apply Hl, Hk.
    + intros j Hj Hin. rewrite Hnth in Hin by auto. apply owns_box in Hin; [|apply Hl, Hj].
      assert (EQ : nth j cs [] = c).
      { eapply owns_unique; eauto; apply proc_coords_in; [apply nth_In, Hj|exact Hc]. }
      apply (proj1 (NoDup_nth cs []) (proc_coords_nodup _)); auto. congruence.
  - intros k Hk Hin. rewrite Hnth in Hin by auto. apply owns_box in Hin; [|apply Hl, Hk].
    pose proof (nth_In cs [] Hk) as HI. unfold cs in HI. apply proc_coords_in in HI.
    revert HI Hin. fold cs. generalize (nth k cs []). unfold in_grid_box, nodes_box. cbn [bottom_left upper_right]. clear -HN. revert p.
    induction HN as [|l ls Hl HN IH]; intros p c H1 H2; cbn [map] in *.
    + inversion H2; split; constructor.
    + inversion H1 as [|? k' ? c' A1 B1]; subst. inversion H2 as [|? ? q ? ? p' A2 B2]; subst. destruct (IH p' c' B1 B2) as [I1 I2]. pose proof (own_bounds l Hl k' A1). split; constructor; auto; lia.
Qed.

Lemma own_view m per dof ls c : m = map zsum ls -> nneg ls -> In c (proc_coords (map (@length Z) ls)) -> view_ok m per dof (mk_dm m per dof (own_box ls c)).
Proof.
  intros Em HN Hc. unfold view_ok, mk_dm. cbn [g_size g_per g_dof g_own g_ghost]. repeat (split; [reflexivity|]).
  apply proc_coords_in in Hc. subst m. unfold own_box. cbn [bottom_left upper_right].
  assert (P : Forall2 Z.le (map (fun _ : Z => 0) (map zsum ls)) (zip_with own_start ls c) /\
     Forall2 Z.le (zip_with own_start ls c) (zip_with (fun l k => own_start l k + nth k l 0) ls c) /\
     Forall2 Z.le (zip_with (fun l k => own_start l k + nth k l 0) ls c) (map zsum ls)).
  { revert c Hc. induction HN as [|l ls Hl HN IH]; intros c Hc; cbn [map] in *; inversion Hc; subst; cbn [zip_with map].
    - repeat split; constructor.
    - destruct (IH _ H3) as (A & B & C). pose proof (own_bounds l Hl y ltac:(auto)) as K. unfold own_end in K. repeat split; constructor; auto; lia. }
  destruct P as (A & B & C). repeat split; auto.
Qed.
Lemma own_distributes m per dof ls : m = map zsum ls -> nneg ls ->
  distributes m per dof (map (fun c => mk_dm m per dof (own_box ls c)) (proc_coords (map (@length Z) ls))).
Proof.
  intros Em HN. split.
  - apply Forall_forall. intros dm H. apply in_map_iff in H as [c [<- Hc]]. apply own_view; auto.
  - rewrite map_map. cbn [g_own mk_dm]. subst m. apply own_tiling, HN.
Qed.

(** ** set_lxu *)
Lemma dec_last_length l : length (dec_last l) = length l.
Proof. induction l as [|a [|b l] IH]; simpl in *; auto. Qed.
Lemma set_lxu_length p l : length (set_lxu p l) = length l.
Proof. unfold set_lxu. destruct p; rewrite ?dec_last_length, map_length; auto. Qed.
Lemma zsum_double l : zsum (map (fun a => 2 * a) l) = 2 * zsum l.
Proof. induction l as [|a l IH]; [reflexivity|]. cbn [map]. change (2 * a + zsum (map (fun a => 2 * a) l) = 2 * (a + zsum l)). lia. Qed.
Lemma zsum_dec_last l : l <> [] -> zsum (dec_last l) = zsum l - 1.
Proof. induction l as [|a [|b l] IH]; intros H; [congruence|simpl; lia|]. change (zsum (dec_last (a :: b :: l))) with (a + zsum (dec_last (b :: l))). rewrite IH by congruence. change (zsum (a :: b :: l)) with (a + zsum (b :: l)). lia. Qed.
Lemma set_lxu_sum p l : l <> [] -> zsum (set_lxu p l) = if p then 2 * zsum l else 2 * zsum l - 1.
Proof. intros H. unfold set_lxu. destruct p; [apply zsum_double|]. rewrite zsum_dec_last, zsum_double; auto. destruct l; simpl; congruence. Qed.
Lemma set_lxu_nneg p l : Forall (fun a => 1 <= a) l -> Forall (fun a => 0 <= a) (set_lxu p l).
Proof.
  intros H. assert (D : Forall (fun a => 1 <= a) (map (fun a => 2 * a) l)) by (induction H; cbn [map]; constructor; auto; lia).
  unfold set_lxu. destruct p; [eapply Forall_impl; [|exact D]; simpl; lia|].
  clear H. induction D as [|a [|b t] Ha D IH]; cbn [dec_last]; [constructor|constructor; [lia|constructor]|constructor; [lia|exact IH]].
Qed.
(** starts double; ends double, minus one at the end of a non-periodic axis *)
Lemma set_lxu_own p l : Forall (fun a => 1 <= a) l -> forall c, (c < length l)%nat ->
  own_start (set_lxu p l) c = 2 * own_start l c /\
  own_end (set_lxu p l) c = (if (own_end l c =? zsum l) && negb p then 2 * own_end l c - 1 else 2 * own_end l c).
Proof.
  assert (DB : forall l c, (c < length l)%nat -> own_start (map (fun a => 2 * a) l) c = 2 * own_start l c /\ own_end (map (fun a => 2 * a) l) c = 2 * own_end l c).
  { clear. induction l as [|a l IH]; intros c Hc; simpl in Hc; [lia|]. cbn [map]. destruct c as [|c]; rewrite ?own_end_cons, ?own_start_cons, ?own_end_0, ?own_start_0; [lia|].
    destruct (IH c ltac:(lia)). lia. }
  assert (DL : forall l c, (c < length l)%nat -> own_start (dec_last l) c = own_start l c /\ own_end (dec_last l) c = own_end l c - (if Nat.eqb c (length l - 1) then 1 else 0)).
  { clear. induction l as [|a [|b l] IH]; intros c Hc; simpl in Hc; [lia| |].
    - destruct c as [|c]; [|lia]. cbn. lia.
    - cbn [dec_last]. destruct c as [|c]; [rewrite ?own_end_0, ?own_start_0; simpl; lia|].
      specialize (IH c ltac:(simpl; lia)). cbn [dec_last length] in IH. rewrite ?own_end_cons, ?own_start_cons. cbn [length]. simpl in IH.
      replace (Nat.eqb (S c) (S (S (length l)) - 1)) with (Nat.eqb c (length l - 0)) by (simpl; rewrite Nat.sub_0_r; reflexivity). destruct IH as [I1 I2]. split; [rewrite <- I1; reflexivity|]. cbn [dec_last] in I2. lia. }
  intros HF c Hc. pose proof (DB l c Hc) as [D1 D2]. unfold set_lxu. destruct p.
  - rewrite andb_false_r. auto.
  - destruct (DL (map (fun a => 2 * a) l) c) as [L1 L2]; [rewrite map_length; auto|]. rewrite map_length in L2. rewrite L1, L2, D1, D2. split; auto. rewrite andb_true_r.
    assert (LAST : Nat.eqb c (length l - 1) = (own_end l c =? zsum l)).
    { clear -HF Hc. revert c Hc. induction HF as [|a l Ha HF IH]; intros c Hc; simpl in Hc; [lia|].
      assert (S0 : Forall (fun a => 0 <= a) l) by (eapply Forall_impl; [|exact HF]; simpl; lia).
      destruct c as [|c].
      - rewrite own_end_0. change (zsum (a :: l)) with (a + zsum l). destruct l as [|b l]; [simpl; symmetry; apply Z.eqb_eq; lia|].
        simpl length. change (zsum (b :: l)) with (b + zsum l). inversion HF; subst. assert (0 <= zsum l) by (inversion S0; subst; clear -H4; induction H4; simpl; lia).
        simpl. symmetry. apply Z.eqb_neq. lia.
      - rewrite own_end_cons. change (zsum (a :: l)) with (a + zsum l). simpl length. specialize (IH c ltac:(lia)).
        replace (Nat.eqb (S c) (S (length l) - 1)) with (Nat.eqb c (length l - 1)).
        + rewrite IH. destruct (Z.eqb_spec (own_end l c) (zsum l)); symmetry; [apply Z.eqb_eq|apply Z.eqb_neq]; lia.
        + destruct l; simpl in *; [lia|]. rewrite Nat.sub_0_r. reflexivity. }
    rewrite LAST. destruct (own_end l c =? zsum l); lia.
Qed.

Lemma mesh_vel_refined npoints period : length period = length npoints -> mesh_vel npoints period = refined_size (mesh_pres npoints period) period.
Proof.
  unfold mesh_vel, refined_size, mesh_pres. revert period. induction npoints as [|n l IH]; intros [|b per] H; cbn [zip_with length] in *; try lia; [reflexivity|].
  rewrite IH by lia. f_equal. destruct b; lia.
Qed.

Lemma createMesh_layout npoints period ls : length period = length npoints -> ranges_ok (mesh_pres npoints period) ls ->
  stokes_layout (mesh_pres npoints period) period (length npoints) (createMesh npoints period ls).
Proof.
  intros HL HR. set (mp := mesh_pres npoints period) in *.
  assert (LP : length period = length mp) by (unfold mp, mesh_pres; rewrite length_zip_with; lia).
  assert (Em : mp = map zsum ls) by (clear -HR; induction HR as [|? ? ? ? [? _]]; simpl; congruence).
  assert (P1 : nneg ls).
  { clearbody mp; clear -HR. induction HR as [|? ? ? ? (_ & _ & H)]; constructor; auto. eapply Forall_impl; [|exact H]; simpl; lia. }
  assert (P2 : nneg (zip_with set_lxu period ls)).
  { clearbody mp; clear -HR. revert period. unfold nneg. induction HR as [|? ? ? ? (_ & _ & H)]; intros [|b per]; cbn [zip_with]; constructor; auto. apply set_lxu_nneg, H. }
  assert (Ev : mesh_vel npoints period = map zsum (zip_with set_lxu period ls)).
  { rewrite mesh_vel_refined by auto. fold mp. clearbody mp. clear -HR LP. revert period LP. unfold refined_size. induction HR as [|n l m' ls' (Hs & Hne & H)]; intros [|b per] LP; cbn [zip_with length map] in *; try lia; [reflexivity|].
    rewrite IHHR by lia. f_equal. rewrite set_lxu_sum by auto. subst n. destruct b; reflexivity. }
  assert (Elen : map (@length Z) (zip_with set_lxu period ls) = map (@length Z) ls).
  { assert (LL : length period = length ls) by (apply Forall2_len in HR; lia). clear -LL. revert period LL. induction ls as [|l ls IH]; intros [|b per] LL; cbn [zip_with length map] in *; try lia; [reflexivity|].
    rewrite IH by lia. rewrite set_lxu_length. reflexivity. }
  unfold createMesh. fold mp. split; [|split].
  - rewrite map_map. cbn [fst]. replace (refined_size mp period) with (mesh_vel npoints period) by (apply mesh_vel_refined; auto). rewrite <- Elen. apply own_distributes; auto.
  - rewrite map_map. cbn [snd]. apply own_distributes; auto.
  - apply Forall_forall. intros dm H. apply in_map_iff in H as [c [<- Hc]]. cbn [fst snd g_own mk_dm].
    apply proc_coords_in in Hc. unfold own_box, refined_own. cbn [bottom_left upper_right].
    assert (P : zip_with own_start (zip_with set_lxu period ls) c = map (fun a => 2 * a) (zip_with own_start ls c) /\
      zip_with (fun l k => own_start l k + nth k l 0) (zip_with set_lxu period ls) c =
      zip_with (fun b np => if (b =? fst np) && negb (snd np) then 2 * b - 1 else 2 * b) (zip_with (fun l k => own_start l k + nth k l 0) ls c) (combine mp period)).
    { clearbody mp; clear -HR LP Hc. revert period c LP Hc. induction HR as [|n l m' ls' (Hs & Hne & H)]; intros [|b per] c LP Hc; cbn [length map] in *; inversion Hc; subst; try lia; cbn [zip_with map combine]; [split; reflexivity|].
      destruct (IHHR per l') as [I1 I2]; auto; try lia. destruct (set_lxu_own b l H y) as [O1 O2]; auto. unfold own_end in O2. cbn [fst snd].
      split; f_equal; auto. }
    destruct P as [-> ->]. reflexivity.
Qed.
Close Scope Z_scope.
