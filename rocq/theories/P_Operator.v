(** Proofs about the global operators. *)
From Coq Require Import Permutation.
From Coquelicot Require Import Coquelicot.
From Verif Require Import Base M_Geometry S_Geometry P_Geometry M_Particle S_Particle P_Particle M_Quadrature S_Fem M_MatElem P_MatElem P_Energy M_Mesh M_Operator S_Operator P_Mesh.
Open Scope R_scope.

(** ** list sums *)
Lemma Lsum_app {A} (f : A -> R) l m : Lsum f (l ++ m) = Lsum f l + Lsum f m.
Proof. unfold Lsum. induction l; simpl; [ring|]. rewrite IHl. ring. Qed.
Lemma Lsum_cons {A} (f : A -> R) a l : Lsum f (a :: l) = f a + Lsum f l. Proof. reflexivity. Qed.
Lemma Lsum_ext {A} (f g : A -> R) l : (forall a, In a l -> f a = g a) -> Lsum f l = Lsum g l.
Proof. induction l; intros H; [reflexivity|]. rewrite !Lsum_cons, H, IHl; auto; [intros; apply H; right; auto|left; auto]. Qed.
Lemma Lsum_zero {A} (l : list A) : Lsum (fun _ => 0) l = 0.
Proof. induction l; [reflexivity|]. rewrite Lsum_cons, IHl. ring. Qed.
Lemma Lsum_all_zero {A} (f : A -> R) l : (forall a, In a l -> f a = 0) -> Lsum f l = 0.
Proof. intros H. transitivity (Lsum (fun _ => 0) l); [apply Lsum_ext, H|apply Lsum_zero]. Qed.
Lemma Lsum_plus {A} (f g : A -> R) l : Lsum (fun a => f a + g a) l = Lsum f l + Lsum g l.
Proof. induction l; [unfold Lsum; simpl; ring|]. rewrite !Lsum_cons, IHl. ring. Qed.
Lemma Lsum_scal {A} c (f : A -> R) l : Lsum (fun a => c * f a) l = c * Lsum f l.
Proof. induction l; [unfold Lsum; simpl; ring|]. rewrite !Lsum_cons, IHl. ring. Qed.
Lemma Lsum_scal_r {A} c (f : A -> R) l : Lsum (fun a => f a * c) l = Lsum f l * c.
Proof. induction l; [unfold Lsum; simpl; ring|]. rewrite !Lsum_cons, IHl. ring. Qed.
Lemma Lsum_swap {A B} (f : A -> B -> R) l m : Lsum (fun a => Lsum (f a) m) l = Lsum (fun b => Lsum (fun a => f a b) l) m.
Proof.
  induction l as [|a l IH]; [unfold Lsum at 1; simpl; rewrite Lsum_all_zero; reflexivity|].
  rewrite Lsum_cons, IH, <- Lsum_plus. reflexivity.
Qed.
Lemma Lsum_perm {A} (f : A -> R) l m : Permutation l m -> Lsum f l = Lsum f m.
Proof. induction 1; rewrite ?Lsum_cons; try lra; auto. Qed.
Lemma Lsum_flat_map {A B} (f : B -> R) (g : A -> list B) l : Lsum f (flat_map g l) = Lsum (fun a => Lsum f (g a)) l.
Proof. induction l; [reflexivity|]. simpl. rewrite Lsum_app, IHl. reflexivity. Qed.
Lemma Lsum_map {A B} (f : B -> R) (g : A -> B) l : Lsum f (map g l) = Lsum (fun a => f (g a)) l.
Proof. unfold Lsum. rewrite map_map. reflexivity. Qed.
Lemma Lsum_nonneg {A} (f : A -> R) l : (forall a, In a l -> 0 <= f a) -> 0 <= Lsum f l.
Proof.
  induction l; intros H; [unfold Lsum; simpl; lra|]. rewrite Lsum_cons.
  pose proof (H a (or_introl eq_refl)). assert (0 <= Lsum f l) by (apply IHl; intros; apply H; right; auto). lra.
Qed.
Lemma Lsum_nonneg_0 {A} (f : A -> R) l : (forall a, In a l -> 0 <= f a) -> Lsum f l = 0 -> forall a, In a l -> f a = 0.
Proof.
  induction l; intros H H0 b Hb; [destruct Hb|]. rewrite Lsum_cons in H0.
  pose proof (H a (or_introl eq_refl)). assert (0 <= Lsum f l) by (apply Lsum_nonneg; intros; apply H; right; auto).
  destruct Hb as [<-|Hb]; [lra|]. apply IHl; auto; [intros; apply H; right; auto|lra].
Qed.
Lemma Lsum_seq n f : Lsum f (seq 0 n) = Rsum n f.
Proof. induction n; [reflexivity|]. rewrite seq_S, Lsum_app, IHn. simpl. unfold Lsum; simpl. ring. Qed.
Lemma Lsum_Rsum {A} (f : A -> nat -> R) l n : Lsum (fun a => Rsum n (f a)) l = Rsum n (fun i => Lsum (fun a => f a i) l).
Proof.
  induction l; [unfold Lsum; simpl; rewrite Rsum_zero; reflexivity|]. rewrite Lsum_cons, IHl, <- Rsum_plus. reflexivity.
Qed.
(** picking one element of a duplicate-free list *)
Lemma Lsum_pick {A} (dec : forall a b : A, {a = b} + {a <> b}) (a : A) (f : A -> R) l : NoDup l -> In a l ->
  Lsum (fun b => if dec a b then f b else 0) l = f a.
Proof.
  induction l as [|b l IH]; intros HN HI; [destruct HI|]. inversion HN as [|? ? Hb HN']; subst. rewrite Lsum_cons.
  destruct (dec a b) as [<-|Hab].
  - rewrite Lsum_all_zero; [ring|]. intros c Hc. destruct (dec a c); [subst; contradiction|reflexivity].
  - destruct HI as [->|HI]; [congruence|]. rewrite IH; auto. ring.
Qed.
Lemma Rsum_pick n k f : (k < n)%nat -> Rsum n (fun i => if Nat.eqb k i then f i else 0) = f k.
Proof.
  induction n; intros H; [lia|]. simpl. destruct (Nat.eqb_spec k n) as [->|E].
  - transitivity (0 + f n); [|ring]. f_equal. transitivity (Rsum n (fun _ => 0)); [|apply Rsum_zero]. apply Rsum_ext. intros i Hi.
    destruct (Nat.eqb_spec n i); [lia|reflexivity].
  - rewrite IHn by lia. ring.
Qed.

(** ** runs of elementary updates *)
Section Runs.
  Context {S C : Type} (step : S -> C -> outcome S).
  Definition runs (s : S) (l : list C) : outcome S := fold_left (fun o c => bind o (fun s => step s c)) l (Ok s).
  Lemma fold_fail l (o : outcome S) : (forall s, o <> Ok s) -> fold_left (fun o c => bind o (fun s => step s c)) l o = o.
  Proof. induction l; intros H; [reflexivity|]. simpl. destruct o; simpl; auto. exfalso; apply (H a0); reflexivity. Qed.
  Lemma runs_app s l m : runs s (l ++ m) = bind (runs s l) (fun s' => runs s' m).
  Proof.
    unfold runs. rewrite fold_left_app. destruct (fold_left _ l (Ok s)) eqn:E; simpl; auto; apply fold_fail; discriminate.
  Qed.
  Lemma bind_fail_fold {A} (body : A -> S -> outcome S) l (o : outcome S) : (forall s, o <> Ok s) ->
    fold_left (fun o k => bind o (body k)) l o = o.
  Proof. induction l as [|k l IH]; intros H; [reflexivity|]. simpl. destruct o as [s| | |]; simpl; auto. exfalso; apply (H s); reflexivity. Qed.
  Lemma fold_runs {A} (body : A -> S -> outcome S) (c : A -> list C) l : forall s,
    (forall k s', In k l -> body k s' = runs s' (c k)) ->
    fold_left (fun o k => bind o (body k)) l (Ok s) = runs s (flat_map c l).
  Proof.
    induction l as [|k l IH]; intros s H; [reflexivity|]. simpl. rewrite runs_app, H by (left; auto).
    destruct (runs s (c k)) as [s'| | |] eqn:E; simpl.
    - apply IH. intros; apply H; right; auto.
    - apply bind_fail_fold; discriminate.
    - apply bind_fail_fold; discriminate.
    - apply bind_fail_fold; discriminate.
  Qed.
  Lemma for_runs n body c s : (forall k s', (k < n)%nat -> body k s' = runs s' (c k)) ->
    for_ n body s = runs s (flat_map c (seq 0 n)).
  Proof. intros H. apply fold_runs. intros k s' Hk. apply H. apply in_seq in Hk. lia. Qed.
  Lemma iterate_runs D b f c s : has_dim D b -> (forall p s', in_grid_box b p -> f p s' = runs s' (c p)) ->
    iterate_o b f s = runs s (flat_map c (grid_pts b)).
  Proof.
    intros Hb H. destruct (grid_pts_spec D b Hb) as (Hin & _ & _ & Hrun). unfold iterate_o. rewrite Hrun.
    apply fold_runs. intros p s' Hp. apply H, Hin, Hp.
  Qed.
  Lemma runs_cons s c l : runs s (c :: l) = bind (step s c) (fun s' => runs s' l).
  Proof. change (c :: l) with ([c] ++ l). rewrite runs_app. reflexivity. Qed.
  Lemma runs1 s c : runs s [c] = step s c. Proof. reflexivity. Qed.
End Runs.

Definition contrib := (list Z * nat * R)%type.
Definition step1 (y : lvec) (c : contrib) : outcome lvec := at_add y (fst (fst c)) (snd (fst c)) (snd c).
Definition hits (n : list Z) (d : nat) (c : contrib) : R := if same_node (fst (fst c)) n && Nat.eqb (snd (fst c)) d then snd c else 0.

Lemma runs1_ok l : forall y, Forall (fun c : contrib => point_inside Z.ltb (lv_box y) (fst (fst c)) = true) l ->
  exists y', runs step1 y l = Ok y' /\ lv_box y' = lv_box y /\ lv_dof y' = lv_dof y /\
    forall q d, lv_val y' q d = lv_val y q d + Lsum (hits q d) l.
Proof.
  induction l as [|c l IH]; intros y H.
  - exists y. split; [reflexivity|]. repeat split; auto. intros. unfold Lsum; simpl; ring.
  - inversion H as [|? ? Hc Hl]; subst. unfold runs. simpl. unfold step1 at 2. unfold at_add. rewrite Hc.
    destruct (IH (mklvec (lv_box y) (lv_dof y) (add_val (lv_val y) (fst (fst c)) (snd (fst c)) (snd c)))) as (y' & E1 & E2 & E3 & E4).
    { exact Hl. }
    exists y'. split; [exact E1|]. split; [exact E2|]. split; [exact E3|]. intros q d. rewrite E4, Lsum_cons. cbn [lv_val].
    unfold add_val, hits at 2. destruct (same_node _ _ && _); ring.
Qed.

(** pairs of vectors: tag [true] for the first one *)
Definition contrib2 := (bool * contrib)%type.
Definition step2 (y : lvec * lvec) (c : contrib2) : outcome (lvec * lvec) :=
  if fst c then bind (step1 (fst y) (snd c)) (fun y1 => Ok (y1, snd y))
  else bind (step1 (snd y) (snd c)) (fun y2 => Ok (fst y, y2)).
Definition tagged (b : bool) (l : list contrib2) : list contrib := map snd (filter (fun c => Bool.eqb (fst c) b) l).
Lemma runs2_ok l : forall y1 y2,
  Forall (fun c : contrib => point_inside Z.ltb (lv_box y1) (fst (fst c)) = true) (tagged true l) ->
  Forall (fun c : contrib => point_inside Z.ltb (lv_box y2) (fst (fst c)) = true) (tagged false l) ->
  exists y1' y2', runs step2 (y1, y2) l = Ok (y1', y2') /\ runs step1 y1 (tagged true l) = Ok y1' /\ runs step1 y2 (tagged false l) = Ok y2'.
Proof.
  induction l as [|[b c] l IH]; intros y1 y2 H1 H2.
  - exists y1, y2. repeat split.
  - destruct b; unfold tagged in *; simpl in *; rewrite runs_cons; unfold step2 at 1; simpl.
    + inversion H1 as [|? ? Hc Hl]; subst. rewrite (runs_cons step1 y1). unfold step1 at 1 2. unfold at_add. rewrite Hc. simpl.
      apply IH; auto.
    + inversion H2 as [|? ? Hc Hl]; subst. rewrite (runs_cons step1 y2). unfold step1 at 1 3. unfold at_add. rewrite Hc. simpl.
      apply IH; auto.
Qed.
Lemma tagged_flat_map {A} b (c : A -> list contrib2) l : tagged b (flat_map c l) = flat_map (fun a => tagged b (c a)) l.
Proof. induction l; [reflexivity|]. simpl. rewrite <- IHl. unfold tagged. rewrite filter_app, map_app. reflexivity. Qed.

(** ** assembly *)
Lemma on_all_ok {A B} (f : A -> outcome B) (P : A -> B -> Prop) l :
  (forall a, In a l -> exists b, f a = Ok b /\ P a b) -> exists bs, on_all f l = Ok bs /\ Forall2 P l bs.
Proof.
  induction l as [|a l IH]; intros H; [exists []; split; [reflexivity|constructor]|].
  destruct (H a (or_introl eq_refl)) as [b [E Pb]]. destruct IH as [bs [E' Pbs]]; [intros; apply H; right; auto|].
  exists (b :: bs). simpl. rewrite E, E'. split; [reflexivity|constructor; auto].
Qed.
Definition hitsw (m : list Z) (per : list bool) (n : list Z) (d : nat) (c : contrib) : R :=
  if same_node (wrap m per (fst (fst c))) n && Nat.eqb (snd (fst c)) d then snd c else 0.
Lemma same_node_spec p q : reflect (p = q) (same_node p q).
Proof. unfold same_node. destruct (list_eq_dec Z.eq_dec p q); constructor; auto. Qed.

Lemma ghost_sum m per N n d (C : list contrib) : NoDup N -> Forall (fun c : contrib => In (fst (fst c)) N) C ->
  Lsum (fun q => if same_node (wrap m per q) n then Lsum (hits q d) C else 0) N = Lsum (hitsw m per n d) C.
Proof.
  intros HN HC. transitivity (Lsum (fun q => Lsum (fun c => if same_node (wrap m per q) n then hits q d c else 0) C) N).
  { apply Lsum_ext. intros q _. destruct (same_node (wrap m per q) n); [reflexivity|]. symmetry. apply Lsum_zero. }
  rewrite Lsum_swap. apply Lsum_ext. intros c Hc. rewrite Forall_forall in HC. specialize (HC c Hc).
  unfold hitsw, hits. destruct (Nat.eqb (snd (fst c)) d).
  - rewrite andb_true_r.
    rewrite <- (Lsum_pick (list_eq_dec Z.eq_dec) (fst (fst c)) (fun q => if same_node (wrap m per q) n then snd c else 0) N HN HC).
    apply Lsum_ext. intros q _. rewrite andb_true_r. unfold same_node at 2. destruct (list_eq_dec Z.eq_dec (fst (fst c)) q), (same_node (wrap m per q) n); reflexivity.
  - rewrite andb_false_r. apply Lsum_all_zero. intros q _. rewrite andb_false_r. destruct (same_node _ _); reflexivity.
Qed.

Section Assembly.
  Variables (m : list Z) (per : list bool) (dof : nat) (dms : list dmda).
  Hypothesis HG : grid_ok m per.
  Hypothesis HD : distributes m per dof dms.
  Let HL : length per = length m := proj1 (proj2 HG).

  Lemma l2g_strong (CS : dmda -> list contrib) (ys : list lvec) :
    (forall dm, In dm dms -> Forall (fun c : contrib => in_grid_box (g_ghost dm) (fst (fst c))) (CS dm)) ->
    Forall2 (fun dm y => lv_box y = g_ghost dm /\ forall q d, lv_val y q d = Lsum (hits q d) (CS dm)) dms ys ->
    forall n d, local_to_global_add dms ys zeros n d = Lsum (fun dm => Lsum (hitsw m per n d) (CS dm)) dms.
  Proof.
    intros HC HF n d. destruct HD as [HV _]. unfold local_to_global_add, zeros. rewrite Rplus_0_l.
    change (fold_right Rplus 0 (map ?f ?l)) with (Lsum f l).
    revert HV HC. clear HD. induction HF as [|dm y dms ys [Hb Hv] HF IH]; intros HV HC; [reflexivity|].
    simpl combine. rewrite !Lsum_cons. inversion HV as [|? ? V1 V2]; subst. f_equal.
    - destruct (view_dims m per dof dm V1 HL) as (_ & _ & Hg). destruct V1 as (E1 & E2 & _). simpl fst; simpl snd. rewrite E1, E2, Hb.
      destruct (box_points_list_enum _ _ Hg) as [N I].
      rewrite <- (ghost_sum m per (box_points_list (g_ghost dm)) n d (CS dm) N).
      + apply Lsum_ext. intros q _. rewrite Hv. reflexivity.
      + rewrite Forall_forall. intros c Hc. apply I. specialize (HC dm (or_introl eq_refl)). rewrite Forall_forall in HC. apply HC, Hc.
    - apply IH; auto. intros; apply HC; right; auto.
  Qed.

  (** contributions of the elements of one process *)
  Definition local_contribs (c : list Z -> list contrib) (dm : dmda) : list contrib := flat_map c (grid_pts (get_DM_bounds dm true)).

  Lemma contribs_in_ghost c dm : In dm dms -> (forall e, in_grid_box (cells_box m per) e -> Forall (fun ct : contrib => near e (fst (fst ct))) (c e)) ->
    Forall (fun ct : contrib => in_grid_box (g_ghost dm) (fst (fst ct))) (local_contribs c dm).
  Proof.
    intros Hin Hc. destruct HD as [HV _]. rewrite Forall_forall in HV. pose proof (HV dm Hin) as V.
    destruct (view_dims m per dof dm V HL) as (_ & Hb & _). destruct (grid_pts_enum _ _ Hb) as [_ I].
    rewrite Forall_forall. intros ct H. apply in_flat_map in H as [e [He Hct]]. apply I in He.
    assert (Hcell : in_grid_box (cells_box m per) e) by (apply (bounds_in m per dof dm e V HL); exact He).
    specialize (Hc e Hcell). rewrite Forall_forall in Hc. specialize (Hc ct Hct).
    destruct V as (E1 & E2 & E3 & H1 & H2 & H3 & E4). rewrite E4. unfold get_DM_bounds in He. rewrite E1, E2 in He.
    destruct He as [He1 He2]. simpl in He1, He2. unfold in_grid_box, ghost_box; simpl.
    eapply ghost_contains; eauto.
  Qed.

  Lemma elements_sum (f : contrib -> R) c E : enumerates E (cells_box m per) ->
    Lsum (fun dm => Lsum f (local_contribs c dm)) dms = Lsum (fun e => Lsum f (c e)) E.
  Proof.
    intros HE. pose proof (element_boxes_tile m per dof dms HL HD) as HT.
    assert (HF : Forall (has_dim (length m)) (map (fun dm => get_DM_bounds dm true) dms)).
    { rewrite Forall_forall. intros b Hb. apply in_map_iff in Hb as [dm [<- Hin]]. destruct HD as [HV _]. rewrite Forall_forall in HV.
      apply (view_dims m per dof dm (HV dm Hin) HL). }
    pose proof (tiling_perm _ _ _ HT (cells_dim m per HL) HF) as HP.
    rewrite <- (Lsum_perm (fun e => Lsum f (c e)) _ _ (enum_perm _ _ _ (grid_pts_enum _ _ (cells_dim m per HL)) HE)).
    rewrite <- (Lsum_perm _ _ _ HP), Lsum_flat_map, Lsum_map. apply Lsum_ext. intros dm _.
    unfold local_contribs. rewrite Lsum_flat_map. reflexivity.
  Qed.

  Lemma point_inside_iff dm p : In dm dms -> in_grid_box (g_ghost dm) p -> point_inside Z.ltb (g_ghost dm) p = true.
  Proof.
    intros Hin Hp. destruct HD as [HV _]. rewrite Forall_forall in HV. destruct (view_dims m per dof dm (HV dm Hin) HL) as (_ & _ & Hg).
    apply (point_inside_grid (length m)); auto. destruct Hp as [H1 _]. apply Forall2_len in H1. destruct Hg as [H2 _]. lia.
  Qed.

  Lemma assembly_strong apply x (c : list Z -> list contrib) :
    (forall dm, In dm dms -> apply dm (global_to_local dm x) (fill0 dm) = runs step1 (fill0 dm) (local_contribs c dm)) ->
    (forall e, in_grid_box (cells_box m per) e -> Forall (fun ct : contrib => near e (fst (fst ct))) (c e)) ->
    exists y, diag_block_matrix_raw apply dms x = Ok y /\
      forall E, enumerates E (cells_box m per) -> forall n d, y n d = Lsum (fun e => Lsum (hitsw m per n d) (c e)) E.
  Proof.
    intros Ha Hc. unfold diag_block_matrix_raw.
    destruct (on_all_ok (fun dm => apply dm (global_to_local dm x) (fill0 dm))
      (fun dm y => lv_box y = g_ghost dm /\ forall q d, lv_val y q d = Lsum (hits q d) (local_contribs c dm)) dms) as [ys [Ey Hy]].
    { intros dm Hin. destruct (runs1_ok (local_contribs c dm) (fill0 dm)) as (y' & R1 & R2 & R3 & R4).
      { rewrite Forall_forall. intros ct Hct. simpl. apply point_inside_iff; auto.
        pose proof (contribs_in_ghost c dm Hin Hc) as F. rewrite Forall_forall in F. apply F, Hct. }
      exists y'. rewrite Ha by auto. split; [exact R1|]. split; [exact R2|]. intros q d. rewrite R4. simpl. unfold zeros. ring. }
    rewrite Ey. simpl. eexists. split; [reflexivity|]. intros E HE n d.
    rewrite (l2g_strong (local_contribs c) ys); [|intros; apply contribs_in_ghost; auto|exact Hy].
    apply elements_sum, HE.
  Qed.

  (** weak form: against any test field *)
  Lemma weak_form c y N E v :
    enumerates N (nodes_box m) -> enumerates E (cells_box m per) ->
    (forall e, in_grid_box (cells_box m per) e -> Forall (fun ct : contrib => near e (fst (fst ct)) /\ (snd (fst ct) < dof)%nat) (c e)) ->
    (forall n d, y n d = Lsum (fun e => Lsum (hitsw m per n d) (c e)) E) ->
    inner N dof y v = Lsum (fun e => Lsum (fun ct : contrib => snd ct * v (wrap m per (fst (fst ct))) (snd (fst ct))) (c e)) E.
  Proof.
    intros [HN HN'] [HE HE'] Hc Hy. unfold inner.
    transitivity (Lsum (fun n => Rsum dof (fun d => Lsum (fun e => Lsum (fun ct => hitsw m per n d ct * v n d) (c e)) E)) N).
    { apply Lsum_ext. intros n _. apply Rsum_ext. intros d _. rewrite Hy, <- Lsum_scal_r. apply Lsum_ext. intros e _. rewrite <- Lsum_scal_r. reflexivity. }
    transitivity (Lsum (fun n => Lsum (fun e => Lsum (fun ct => Rsum dof (fun d => hitsw m per n d ct * v n d)) (c e)) E) N).
    { apply Lsum_ext. intros n _. rewrite <- Lsum_Rsum. apply Lsum_ext. intros e _. rewrite Lsum_Rsum. reflexivity. }
    rewrite Lsum_swap. apply Lsum_ext. intros e He. rewrite Lsum_swap. apply Lsum_ext. intros ct Hct.
    apply HE' in He. pose proof (Hc e He) as F. rewrite Forall_forall in F. destruct (F ct Hct) as [Hnear Hd].
    assert (Hw : In (wrap m per (fst (fst ct))) N).
    { apply HN'. eapply wrap_in_nodes; eauto. apply (proj2 (proj2 HG)). }
    rewrite <- (Lsum_pick (list_eq_dec Z.eq_dec) (wrap m per (fst (fst ct))) (fun n => snd ct * v n (snd (fst ct))) N HN Hw).
    apply Lsum_ext. intros n _. unfold hitsw, same_node.
    destruct (list_eq_dec Z.eq_dec (wrap m per (fst (fst ct))) n) as [<-|Hne]; simpl.
    - rewrite <- (Rsum_pick dof (snd (fst ct)) (fun d => snd ct * v (wrap m per (fst (fst ct))) d) Hd).
      apply Rsum_ext. intros d _. destruct (Nat.eqb _ d); ring.
    - transitivity (Rsum dof (fun _ => 0)); [|apply Rsum_zero]. apply Rsum_ext. intros d _. ring.
  Qed.
End Assembly.

(** A field is determined on the nodes by its products with all fields. *)
Lemma inner_ext N dof y y' : NoDup N -> (forall v, inner N dof y v = inner N dof y' v) ->
  forall n d, In n N -> (d < dof)%nat -> y n d = y' n d.
Proof.
  intros HN H n d Hn Hd. specialize (H (fun q e => if same_node n q && Nat.eqb d e then 1 else 0)).
  assert (P : forall z : field, inner N dof z (fun q e => if same_node n q && Nat.eqb d e then 1 else 0) = z n d).
  { intros z. unfold inner. rewrite <- (Lsum_pick (list_eq_dec Z.eq_dec) n (fun q => z q d) N HN Hn). apply Lsum_ext. intros q _.
    unfold same_node. destruct (list_eq_dec Z.eq_dec n q) as [<-|]; simpl.
    - rewrite <- (Rsum_pick dof d (fun e => z n e) Hd). apply Rsum_ext. intros e _. destruct (Nat.eqb d e); ring.
    - transitivity (Rsum dof (fun _ => 0)); [|apply Rsum_zero]. apply Rsum_ext. intros e _. ring. }
  rewrite !P in H. exact H.
Qed.
Close Scope R_scope.
