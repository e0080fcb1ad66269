(** Proof library: the layout of the control vectors. *)
From Verif Require Import Base M_Geometry S_Geometry P_Geometry M_Shapes M_Particle S_Particle P_Particle M_Quadrature S_Fem M_MatElem P_Energy M_Mesh M_Operator S_Operator P_Mesh P_Operator P_Operator2 P_Operator3 P_Global M_Bc S_Bc P_Bc Prop_Operator Prop_Operator2 M_ParticleOp S_ParticleOp P_ParticleOp P_Forces Prop_ParticleOp M_Problem S_Problem P_Problem.
From Coq Require Import Permutation FunctionalExtensionality.
Open Scope R_scope.

Lemma fold_inv {A S} (body : A -> S -> outcome S) (I : nat -> S -> Prop) l : forall k s, I k s ->
  (forall j a s, nth_error l j = Some a -> I (k + j)%nat s -> exists s', body a s = Ok s' /\ I (Datatypes.S (k + j)) s') ->
  exists s', fold_left (fun o a => bind o (body a)) l (Ok s) = Ok s' /\ I (k + length l)%nat s'.
Proof.
  induction l as [|a l IH]; intros k s Hs H.
  - exists s. rewrite Nat.add_0_r. auto.
  - cbn [fold_left bind]. destruct (H 0%nat a s eq_refl) as (s1 & E1 & I1); [rewrite Nat.add_0_r; exact Hs|]. rewrite E1.
    destruct (IH (Datatypes.S k) s1) as (s2 & E2 & I2).
    + rewrite Nat.add_0_r in I1. exact I1.
    + intros j b s' Hj HI. destruct (H (Datatypes.S j) b s' Hj) as (s3 & E3 & I3); [rewrite Nat.add_succ_r; exact HI|]. exists s3. split; [exact E3|]. rewrite Nat.add_succ_r in I3. exact I3.
    + exists s2. split; [exact E2|]. cbn [length]. rewrite Nat.add_succ_r. exact I2.
Qed.
Lemma flat_const_length {A B} (f : A -> list B) n l : (forall a, In a l -> length (f a) = n) -> length (flat_map f l) = (n * length l)%nat.
Proof. induction l as [|a l IH]; intros H; [simpl; lia|]. cbn [flat_map length]. rewrite app_length, IH by (intros; apply H; right; auto). rewrite (H a (or_introl eq_refl)). lia. Qed.
Lemma chunk_length D (F : list Z -> nat -> R) l : length (flat_map (fun q => map (F q) (seq 0 D)) l) = (D * length l)%nat.
Proof. apply flat_const_length. intros. rewrite map_length, seq_length. reflexivity. Qed.
Lemma laid_out_S D np pts F : laid_out D (S np) pts F = laid_out D np pts F ++ flat_map (fun q => map (F np q) (seq 0 D)) (pts np).
Proof. unfold laid_out. rewrite seq_S, flat_map_app. cbn [flat_map plus]. rewrite app_nil_r. reflexivity. Qed.
Lemma laid_out_length D np pts F : length (laid_out D np pts F) = (D * list_sum (map (fun i => length (pts i)) (seq 0 np)))%nat.
Proof. induction np as [|n IH]; [simpl; lia|]. rewrite laid_out_S, app_length, IH, chunk_length, seq_S, map_app, list_sum_app. cbn [map list_sum fold_right plus]. lia. Qed.
Lemma laid_out_ext D np pts F G : (forall i q d, (i < np)%nat -> In q (pts i) -> (d < D)%nat -> F i q d = G i q d) -> laid_out D np pts F = laid_out D np pts G.
Proof.
  intros H. unfold laid_out. rewrite !flat_map_concat_map. f_equal. apply map_ext_in. intros i Hi. apply in_seq in Hi. rewrite !flat_map_concat_map. f_equal. apply map_ext_in. intros q Hq. apply map_ext_in. intros d Hd. apply in_seq in Hd. apply H; auto; lia.
Qed.
(** prefixes of the layout *)
Lemma laid_out_prefix D np pts F j : (j < np)%nat -> exists t, laid_out D np pts F = laid_out D (S j) pts F ++ t.
Proof.
  induction np as [|n IH]; [lia|]. intros Hj. destruct (Nat.eq_dec j n) as [->|Hne].
  - exists []. rewrite app_nil_r. reflexivity.
  - rewrite laid_out_S. destruct (IH ltac:(lia)) as [t' E']. rewrite E'. rewrite <- app_assoc. eauto.
Qed.
(** reading the entry of component d of the i-th node of particle j *)
Lemma laid_out_read D np pts F j i q d : (j < np)%nat -> nth_error (pts j) i = Some q -> (d < D)%nat ->
  nth_error (laid_out D np pts F) (length (laid_out D j pts F) + D * i + d) = Some (F j q d).
Proof.
  intros Hj Hi Hd. destruct (laid_out_prefix D np pts F j Hj) as [t ->]. rewrite laid_out_S, <- app_assoc.
  rewrite nth_error_app2 by lia. replace (length (laid_out D j pts F) + D * i + d - length (laid_out D j pts F))%nat with (D * i + d)%nat by lia.
  apply nth_error_split in Hi as (l1 & l2 & E & L). rewrite E, flat_map_app, <- app_assoc, nth_error_app2; rewrite chunk_length, L; [|lia].
  replace (D * i + d - D * i)%nat with d by lia. cbn [flat_map]. rewrite nth_error_app1, nth_error_app1 by (rewrite ?app_length, map_length, seq_length; lia).
  rewrite (nth_error_map (F j q) d), nth_error_nth' with (d := 0%nat) by (rewrite seq_length; lia). rewrite seq_nth by lia. reflexivity.
Qed.
(** any list of the right length is the layout of some values, the nodes of a particle being distinct *)
Lemma chunks_exist D (l : list (list Z)) : NoDup l -> forall x : list R, length x = (D * length l)%nat -> exists F : list Z -> nat -> R, x = flat_map (fun q => map (F q) (seq 0 D)) l.
Proof.
  induction 1 as [|q l Hq ND IH]; intros x Hx.
  - exists (fun _ _ => 0). destruct x; [reflexivity|simpl in Hx; lia].
  - cbn [length] in Hx. destruct (IH (skipn D x)) as [F EF]; [rewrite skipn_length; lia|].
    exists (fun p d => if same_node q p then nth d x 0 else F p d). cbn [flat_map]. rewrite <- (firstn_skipn D x) at 1. f_equal.
    + destruct (same_node_spec q q); [|congruence]. assert (HL : (D <= length x)%nat) by (rewrite Hx; lia). revert HL. generalize x as z. clear. induction D as [|n IH]; intros z HL; [reflexivity|]. rewrite seq_S, map_app. destruct (IH z) as []; [lia|]. cbn [map plus].
      clear IH. revert n HL. induction z as [|a z IH]; intros n HL; [simpl in HL; lia|]. destruct n; [reflexivity|]. cbn [firstn nth app]. f_equal. apply IH. simpl in HL. lia.
    + rewrite EF. rewrite !flat_map_concat_map. f_equal. apply map_ext_in. intros p Hp. apply map_ext. intros d. destruct (same_node_spec q p); [subst; contradiction|reflexivity].
Qed.
Lemma layout_exists D pts : forall np, (forall i, (i < np)%nat -> NoDup (pts i)) -> forall x : list R, length x = (D * list_sum (map (fun i => length (pts i)) (seq 0 np)))%nat -> exists F, x = laid_out D np pts F.
Proof.
  induction np as [|n IH]; intros HN x Hx.
  - exists (fun _ _ _ => 0). destruct x; [reflexivity|simpl in Hx; lia].
  - rewrite seq_S, map_app, list_sum_app in Hx. cbn [map list_sum fold_right plus] in Hx. set (L := list_sum (map (fun i => length (pts i)) (seq 0 n))) in *.
    destruct (IH (fun i Hi => HN i ltac:(lia)) (firstn (D * L) x)) as [F EF]; [rewrite firstn_length; lia|].
    destruct (chunks_exist D (pts n) (HN n ltac:(lia)) (skipn (D * L) x)) as [G EG]; [rewrite skipn_length; lia|].
    exists (fun i q d => if Nat.eqb i n then G q d else F i q d). rewrite laid_out_S, <- (firstn_skipn (D * L) x) at 1. f_equal.
    + rewrite EF. apply laid_out_ext. intros i q d Hi _ _. destruct (Nat.eqb_spec i n); [lia|reflexivity].
    + rewrite EG, Nat.eqb_refl. reflexivity.
Qed.

  Lemma existsb_in q l : existsb (same_node q) l = true <-> In q l.
  Proof. rewrite existsb_exists. split; [intros (x & Hx & E); destruct (same_node_spec q x); [subst; auto|discriminate]|intros H; exists q; split; auto; destruct (same_node_spec q q); congruence]. Qed.
  (** the points of different processes are different: all the processes together *)
  Lemma last_holder_none n (ps : nat -> list (list Z)) F q d v : (forall i, (i < n)%nat -> ~ In q (ps i)) -> last_holder n ps F q d v = v.
  Proof.
    unfold last_holder. induction n as [|n IH]; intros H; [reflexivity|]. rewrite seq_S, fold_left_app. cbn [fold_left plus]. rewrite IH by (intros; apply H; lia).
    destruct (existsb (same_node q) (ps n)) eqn:E; [|reflexivity]. apply existsb_in in E. destruct (H n ltac:(lia) E).
  Qed.
  Lemma last_holder_some n (ps : nat -> list (list Z)) F q d v i : (i < n)%nat -> In q (ps i) -> (forall j, (i < j < n)%nat -> ~ In q (ps j)) -> last_holder n ps F q d v = F i q d.
  Proof.
    unfold last_holder. induction n as [|n IH]; intros Hi Hq H; [lia|]. rewrite seq_S, fold_left_app. cbn [fold_left plus]. destruct (Nat.eq_dec i n) as [->|Hne].
    - rewrite (proj2 (existsb_in q (ps n)) Hq). reflexivity.
    - rewrite IH by (auto; try lia; intros; apply H; lia). destruct (existsb (same_node q) (ps n)) eqn:E; [|reflexivity]. apply existsb_in in E. destruct (H n ltac:(lia) E).
  Qed.
  Lemma last_holder_indep n (ps : nat -> list (list Z)) F q d v v' i : (i < n)%nat -> In q (ps i) -> last_holder n ps F q d v = last_holder n ps F q d v'.
  Proof.
    unfold last_holder. induction n as [|n IH]; intros Hi Hq; [lia|]. rewrite !seq_S, !fold_left_app. cbn [fold_left plus]. destruct (existsb (same_node q) (ps n)) eqn:E; [reflexivity|].
    destruct (Nat.eq_dec i n) as [->|Hne]; [apply existsb_in in Hq; congruence|]. apply IH; auto. lia.
  Qed.
Section Layout.
  Variables (D : nat) (m : list Z) (per : list bool) (h : vec) (parts : list gpart) (dms : list dmda) (bc : list bc_row) (k : R) (scale : Z).
  Hypothesis HG : grid_ok m per.
  Hypothesis Hm : length m = D.
  Hypothesis HD : distributes m per D dms.
  Hypothesis HSt : steps_ok h m.
  Hypothesis HS : small_grid m.
  Hypothesis HW : Forall (fun p => well_formed D h k (gp p)) parts.
  Let c := create_Mat_and_Vec D h parts dms (map Some bc) k scale.
  Let Hh : length h = D. Proof. destruct HSt as [H _]. rewrite H. exact Hm. Qed.
  Let np := length parts.
  Let pts := the_pts h parts.
  (** writing *)
  Lemma y_loop_value val F dm y0 : In dm dms -> length y0 = control_size D h parts k scale dm ->
    (forall i q d, (i < np)%nat -> In q (pts dm i) -> (d < D)%nat -> val i (nth i parts gpart0) q d = Ok (F i q d)) ->
    compute_y_loop c val dm y0 = Ok (laid_out D np (pts dm) F).
  Proof.
    intros Hin L0 HV. assert (LT : length y0 = length (laid_out D np (pts dm) F)) by (rewrite laid_out_length, L0; apply (size_is D m per h parts dms k scale HG Hm HD Hh HS HW dm Hin)).
    unfold compute_y_loop. change (x_parts c) with parts. change (x_D c) with D. change (x_h c) with h. fold np.
    set (ZZ := length y0) in *. set (st := fun (w : list R) (s : nat * list R) => fst s = length w /\ exists t, snd s = w ++ t /\ length (snd s) = ZZ).
    assert (A : exists s, for_ np (fun ipart s => fold_left (fun o ind => bind o (fun s => for_ D (fun d (s : nat * list R) => let '(num, py) := s in bind (val ipart (nth ipart parts gpart0) ind d) (fun v => bind (write_arr py num v) (fun py => Ok (S num, py)))) s)) (fluid_pts (box_inside Z.ltb) D h dm (nth ipart parts gpart0)) (Ok s)) (0%nat, y0) = Ok s /\ st (laid_out D np (pts dm) F) s).
    { apply (for_inv np _ (fun j => st (laid_out D j (pts dm) F))).
      - split; [reflexivity|]. exists y0. auto.
      - intros j s Hj Hs. rewrite (fluid_is D m per h parts dms k HG Hm HD HSt HS HW _ dm j Hin Hj (or_intror eq_refl)). fold (pts dm j).
        destruct (fold_inv (fun ind s => for_ D (fun d (s : nat * list R) => let '(num, py) := s in bind (val j (nth j parts gpart0) ind d) (fun v => bind (write_arr py num v) (fun py => Ok (S num, py)))) s)
          (fun i => st (laid_out D j (pts dm) F ++ flat_map (fun q => map (F j q) (seq 0 D)) (firstn i (pts dm j)))) (pts dm j) 0%nat s) as (s' & E & I).
        + cbn [firstn flat_map]. rewrite app_nil_r. exact Hs.
        + intros i q s1 Hi Hs1. cbn [plus] in *.
          assert (EF : firstn (S i) (pts dm j) = firstn i (pts dm j) ++ [q]). { clear - Hi. revert i Hi. induction (pts dm j) as [|a l IH]; intros i Hi; [destruct i; discriminate|]. destruct i; [injection Hi as ->; reflexivity|]. cbn [firstn app]. f_equal. apply IH, Hi. }
          rewrite EF, flat_map_app. cbn [flat_map]. rewrite app_nil_r, app_assoc. set (w := laid_out D j (pts dm) F ++ flat_map (fun q => map (F j q) (seq 0 D)) (firstn i (pts dm j))) in *.
          apply (for_inv D _ (fun d => st (w ++ map (F j q) (seq 0 d)))); [cbn [seq map]; rewrite app_nil_r; exact Hs1|].
          intros d [num py] Hd (E1 & t & E2 & E3). cbn [fst snd] in *. rewrite (HV j q d Hj (nth_error_In _ _ Hi) Hd). cbn [bind]. 
          assert (Hlt : (num < ZZ)%nat).
          { rewrite E1. fold ZZ in LT. rewrite LT. assert (HR : nth_error (laid_out D np (pts dm) F) (length (laid_out D j (pts dm) F) + D * i + d) <> None) by (rewrite (laid_out_read D np (pts dm) F j i q d Hj Hi Hd); discriminate).
            apply nth_error_Some in HR. unfold w. rewrite !app_length, chunk_length, map_length, seq_length, firstn_length. assert (i < length (pts dm j))%nat by (apply nth_error_Some; congruence). rewrite Nat.min_l by lia. lia. }
          unfold write_arr. rewrite E3, (proj2 (Nat.ltb_lt num ZZ) Hlt). cbn [bind]. eexists. split; [reflexivity|].
          rewrite E2, app_length in E3. destruct t as [|t0 t]; [simpl in E3; lia|]. split; cbn [fst snd].
          * rewrite seq_S, map_app, app_assoc, !app_length, E1, app_length. cbn [map length plus]. lia.
          * exists t. rewrite E2, E1, set_nth_app, seq_S, map_app, app_assoc. cbn [map plus]. rewrite <- (app_assoc _ [F j q d] t). cbn [app]. split; [reflexivity|]. rewrite app_length. cbn [length] in *. lia.
        + exists s'. split; [exact E|]. cbn [plus] in I. rewrite firstn_all in I. rewrite laid_out_S. exact I. }
    destruct A as ([num py] & E & E1 & t & E2 & E3). rewrite E. cbn [bind fst snd] in *. f_equal. rewrite E2, app_length in E3. destruct t; [rewrite E2, app_nil_r; reflexivity|]. simpl in E3. lia.
  Qed.
  (** reading *)
  Definition given (af : bool) (F : nat -> list Z -> nat -> R) (i : nat) (q : list Z) (d : nat) : R :=
    if af then F i q d + gp_rho (nth i parts gpart0) * nth d (gp_force (nth i parts gpart0)) 0 else F i q d.
  Lemma impl_value af dm px F f : In dm dms -> px = laid_out D np (pts dm) F ->
    exists f', set_rhs_problem_impl c px af dm f = Ok f' /\ forall q d, f' q d = if Nat.ltb d D then last_holder np (pts dm) (given af F) q d (f q d) else f q d.
  Proof.
    intros Hin EP. unfold set_rhs_problem_impl. change (x_parts c) with parts. change (x_D c) with D. change (x_h c) with h.
    set (st := fun j (s : nat * field) => fst s = length (laid_out D j (pts dm) F) /\ forall q d, snd s q d = if Nat.ltb d D then last_holder j (pts dm) (given af F) q d (f q d) else f q d).
    match goal with |- context [fold_left ?B parts (Ok (0%nat, f))] => assert (A : exists s, fold_left B parts (Ok (0%nat, f)) = Ok s /\ st np s) end.
    { refine (fold_inv _ st parts 0%nat (0%nat, f) _ _).
      - split; [reflexivity|]. intros q d. cbn [snd]. unfold last_holder. cbn [seq fold_left]. destruct (Nat.ltb d D); reflexivity.
      - intros j p s Hj Hs. cbn [plus] in *. assert (Hjl : (j < np)%nat) by (apply nth_error_Some; congruence). rewrite <- (nth_error_nth _ _ gpart0 Hj). rewrite (fluid_is D m per h parts dms k HG Hm HD HSt HS HW _ dm j Hin Hjl (or_introl eq_refl)). fold (pts dm j).
        destruct Hs as [E0 V0]. set (pr := nth j parts gpart0).
        set (ib := fun ind => fun d (s : nat * field) => let '(num, f) := s in bind (read_arr px num) (fun v => bind (set_g dm f ind d (if af then v + gp_rho pr * nth d (gp_force pr) 0 else v)) (fun f => Ok (S num, f)))).
        destruct (fold_inv (fun ind s => for_ D (ib ind) s)
          (fun i (s' : nat * field) => fst s' = (length (laid_out D j (pts dm) F) + D * i)%nat /\ forall q d, snd s' q d = if Nat.ltb d D && existsb (same_node q) (firstn i (pts dm j)) then given af F j q d else snd s q d) (pts dm j) 0%nat s) as (s' & E & I1 & I2).
        + split; [lia|]. intros q d. cbn [firstn existsb]. rewrite andb_false_r. reflexivity.
        + intros i q s1 Hi [E1 V1]. cbn [plus] in *.
          assert (EF : firstn (S i) (pts dm j) = firstn i (pts dm j) ++ [q]). { clear - Hi. revert i Hi. induction (pts dm j) as [|a l IH]; intros i Hi; [destruct i; discriminate|]. destruct i; [injection Hi as ->; reflexivity|]. cbn [firstn app]. f_equal. apply IH, Hi. }
          destruct (for_inv D (ib q) (fun d' (s' : nat * field) => fst s' = (length (laid_out D j (pts dm) F) + D * i + d')%nat /\ forall n d, snd s' n d = if Nat.ltb d d' && same_node q n then given af F j n d else snd s1 n d) s1) as (s2 & E2 & I1 & I2).
          * split; [lia|]. intros n d. reflexivity.
          * intros d' [num g] Hd [F1 F2]. cbn [fst snd] in *. unfold ib. subst px. unfold read_arr. rewrite F1, (laid_out_read D np (pts dm) F j i q d' Hjl Hi Hd). cbn [bind].
            destruct (pts_own D m per h parts dms k HG Hm HD HSt HW dm j q Hin Hjl (nth_error_In _ _ Hi)) as (Po & _ & _). unfold set_g. rewrite Po. cbn [bind]. eexists. split; [reflexivity|]. split; [cbn [fst]; lia|].
            intros n d. cbn [snd]. destruct (same_node_spec q n) as [->|Hne]; cbn [andb].
            -- rewrite andb_true_r. destruct (Nat.eqb_spec d' d) as [->|Hne]; [destruct (Nat.ltb_spec d (S d)); [reflexivity|lia]|]. rewrite F2. destruct (same_node_spec n n); [|congruence]. rewrite andb_true_r. destruct (Nat.ltb_spec d d'), (Nat.ltb_spec d (S d')); auto; lia.
            -- rewrite F2. destruct (same_node_spec q n); [congruence|]. rewrite !andb_false_r. reflexivity.
          * exists s2. split; [exact E2|]. split; [lia|]. intros n d. rewrite I2, EF, existsb_app. cbn [existsb]. rewrite orb_false_r.
            assert (SY : same_node n q = same_node q n) by (destruct (same_node_spec n q), (same_node_spec q n); congruence). rewrite SY, V1.
            destruct (Nat.ltb d D), (same_node q n), (existsb (same_node n) (firstn i (pts dm j))); reflexivity.
        + exists s'. split; [exact E|]. cbn [plus] in I1, I2. rewrite firstn_all in I2. split.
          * rewrite I1, laid_out_S, app_length, chunk_length. reflexivity.
          * intros q d. rewrite I2, V0. unfold last_holder. rewrite seq_S, fold_left_app. cbn [fold_left plus]. destruct (Nat.ltb d D); cbn [andb]; [|reflexivity]. destruct (existsb (same_node q) (pts dm j)); reflexivity. }
    destruct A as (s & E & _ & V). rewrite E. cbn [bind]. exists (snd s). split; [reflexivity|]. exact V.
  Qed.
End Layout.
