From Verif Require Import Base M_Geometry S_Geometry P_Geometry M_Particle S_Particle P_Particle M_Quadrature S_Fem M_MatElem P_Energy M_Mesh M_Operator S_Operator P_Mesh P_Operator M_Bc M_ParticleOp S_ParticleOp P_ParticleOp.
From Coq Require Import Permutation.
Open Scope R_scope.

(** ** the grid points inside a particle *)
Lemma zip_ext {A B C} (f g : A -> B -> C) l m : (forall a b, f a b = g a b) -> zip_with f l m = zip_with g l m.
Proof. intros H. revert m. induction l as [|a l IH]; intros [|b m]; simpl; auto. rewrite H, IH. reflexivity. Qed.
Lemma overlap_is_inside (b1 b2 : box Z) : overlap_box Z.ltb b1 b2 = box_inside Z.ltb b1 b2.
Proof. unfold overlap_box, box_inside. f_equal; apply zip_ext; intros a b; unfold std_max, std_min; reflexivity. Qed.
Definition small_grid (m : list Z) : Prop := Forall (fun n => (n < 2 ^ 31)%Z) m.
Lemma cut_ok m lo up pl pu : length pl = length lo -> length pu = length lo -> length up = length lo ->
  Forall2 Z.le (map (fun _ => 0%Z) m) lo -> Forall2 Z.le up m -> Forall2 Z.le (map (fun _ => 0%Z) m) up -> Forall2 Z.le lo m -> small_grid m -> intersect_loop Z.ltb lo up pl pu = true ->
  let b := box_inside Z.ltb (mkbox lo up) (mkbox pl pu) in box_ints b /\ box_nonneg b.
Proof.
  intros L1 L2 L3 H1 H2 H3 HLM HS HI. cbv zeta. unfold box_ints, box_nonneg, box_inside. cbn [bottom_left upper_right].
  revert lo up pl pu L1 L2 L3 H1 H2 H3 HLM HI HS. induction m as [|n m IH]; intros lo up pl pu L1 L2 L3 H1 H2 H3 HLM HI HS; inversion H1; subst; inversion H2; subst; inversion H3; subst; inversion HLM; subst; try (simpl in *; lia).
  - destruct pl; [|simpl in *; lia]. repeat split; constructor.
  - destruct pl as [|a pl]; [simpl in *; lia|]. destruct pu as [|c pu]; [simpl in *; lia|]. inversion HS; subst. simpl in HI.
    match goal with |- context [zip_with _ (?x :: _) (a :: pl)] => rename x into l0 end.
    match goal with |- context [zip_with _ (?x :: _) (c :: pu)] => rename x into u0 end.
    destruct (Z.ltb_spec c l0); [discriminate|]. destruct (Z.ltb_spec u0 a); [discriminate|].
    match goal with |- context [zip_with _ (l0 :: ?x) _] => rename x into lo' end.
    match goal with |- context [zip_with _ (u0 :: ?x) _] => rename x into up' end.
    destruct (IH lo' up' pl pu) as [[I1 I2] [I3 I4]]; auto; try (simpl in *; lia).
    cbn [zip_with]. repeat split; constructor; auto; unfold is_int; match goal with |- context [Z.ltb ?x ?y] => destruct (Z.ltb_spec x y) end; lia.
Qed.
Section Pts.
  Variables (D : nat) (m : list Z) (per : list bool) (h : vec) (dms : list dmda) (p : gpart).
  Hypothesis HG : grid_ok m per.
  Hypothesis HD : distributes m per D dms.
  Hypothesis HDm : length m = D.
  Hypothesis Hh : length h = D.
  Hypothesis HSm : small_grid m.
  Hypothesis Hpb : has_dim D (p_bbox (gp p) h).
  Lemma D23' : D = 2%nat \/ D = 3%nat. Proof. rewrite <- HDm. apply HG. Qed.
  Lemma view_dim' dm : In dm dms -> has_dim D (get_DM_bounds dm true).
  Proof. intros Hin. destruct HD as [HV _]. rewrite Forall_forall in HV. rewrite <- HDm. apply (view_dims m per D dm (HV dm Hin)). apply HG. Qed.
  Lemma cut_of dm : In dm dms -> intersect Z.ltb (get_DM_bounds dm true) (p_bbox (gp p) h) = true ->
    let b := box_inside Z.ltb (get_DM_bounds dm true) (p_bbox (gp p) h) in box_ints b /\ box_nonneg b.
  Proof.
    intros Hin HI. pose proof (view_dim' dm Hin) as [V1 V2]. destruct HD as [HV _]. rewrite Forall_forall in HV. destruct (HV dm Hin) as (E1 & E2 & _ & H1 & H2 & H3 & _).
    unfold intersect in HI. unfold get_DM_bounds in *. rewrite E1, E2 in *. cbn [bottom_left upper_right] in *. destruct (p_bbox (gp p) h) as [pl pu]. destruct Hpb as [P1 P2]. cbn [bottom_left upper_right] in *.
    assert (HL : length per = length m) by apply HG.
    assert (U : Forall2 Z.le (dec_upper (upper_right (g_own dm)) m per) m /\ Forall2 Z.le (map (fun _ => 0%Z) m) (dec_upper (upper_right (g_own dm)) m per)).
    { clear V1 V2 HI P1 P2. assert (H4 : Forall2 Z.le (map (fun _ => 0%Z) m) (upper_right (g_own dm))).
      { clear - H1 H2. revert H2. generalize (upper_right (g_own dm)). induction H1; intros u H2; inversion H2; subst; constructor; auto; lia. }
      clear - H3 H4 HL HG. destruct HG as (_ & _ & Hpos). clear HG. revert H3 H4. generalize (upper_right (g_own dm)). revert per HL. induction m as [|n m' IH]; intros [|b per'] HL u H3 H4; simpl in HL; try lia; inversion H3; subst; simpl; [split; constructor|].
      inversion H4; subst. inversion Hpos; subst. destruct (IH ltac:(assumption) per' ltac:(lia) _ ltac:(eassumption) ltac:(assumption)) as [I1 I2].
      split; constructor; auto; destruct b; simpl; try lia; match goal with |- context [Z.eqb ?x ?y] => destruct (Z.eqb_spec x y) end; simpl; lia. }
    assert (LM : Forall2 Z.le (bottom_left (g_own dm)) m).
    { clear - H2 H3. revert H3. generalize m. induction H2; intros m' H3; inversion H3; subst; constructor; auto; lia. }
    apply (cut_ok m); try tauto; try lia.
  Qed.
  Definition inside_pts (dm : dmda) : list (list Z) := filter (fun q => p_contains (gp p) (grid_point h q)) (grid_pts (box_inside Z.ltb (get_DM_bounds dm true) (p_bbox (gp p) h))).
  Lemma fluid_pts_eq cut dm : In dm dms -> cut = overlap_box Z.ltb \/ cut = box_inside Z.ltb -> fluid_pts cut D h dm p = inside_pts dm.
  Proof.
    intros Hin Hcut. assert (EC : forall b1 b2, cut b1 b2 = box_inside Z.ltb b1 b2). { destruct Hcut as [->| ->]; intros; [apply overlap_is_inside|reflexivity]. }
    unfold fluid_pts, inside_pts. rewrite EC. pose proof (view_dim' dm Hin) as Hb. pose proof (overlap_dim D _ _ Hb Hpb) as Hov.
    destruct (intersect Z.ltb (get_DM_bounds dm true) (p_bbox (gp p) h)) eqn:E.
    - destruct (cut_of dm Hin E) as [H1 H2]. destruct D23' as [E2|E2]; rewrite E2 in *; simpl; [apply find_fluid_points2_filter|apply find_fluid_points3_filter]; assumption.
    - destruct (grid_pts_spec D _ Hov) as [H1 _].
      destruct (grid_pts (box_inside Z.ltb (get_DM_bounds dm true) (p_bbox (gp p) h))) as [|q l] eqn:EG; [reflexivity|].
      exfalso. assert (Hq : in_grid_box (box_inside Z.ltb (get_DM_bounds dm true) (p_bbox (gp p) h)) q) by (apply H1; left; reflexivity).
      apply (overlap_grid D) in Hq; auto. destruct Hq as [Q1 Q2]. rewrite (intersect_common_point _ _ _ Q1 Q2) in E. discriminate.
  Qed.
  Lemma inside_pts_spec dm : In dm dms -> NoDup (inside_pts dm) /\
    forall q, In q (inside_pts dm) <-> in_grid_box (get_DM_bounds dm true) q /\ in_grid_box (p_bbox (gp p) h) q /\ p_contains (gp p) (grid_point h q) = true.
  Proof.
    intros Hin. pose proof (view_dim' dm Hin) as Hb. pose proof (overlap_dim D _ _ Hb Hpb) as Hov. destruct (grid_pts_spec D _ Hov) as (H1 & H2 & _).
    split; [apply NoDup_filter, H2|]. intros q. unfold inside_pts. rewrite filter_In, H1, (overlap_grid D) by assumption. tauto.
  Qed.
End Pts.

(** ** reading the control *)
Lemma read_app pre v post : read_arr (pre ++ v :: post) (length pre) = Ok v.
Proof. unfold read_arr. rewrite nth_error_app2 by lia. rewrite Nat.sub_diag. reflexivity. Qed.
Lemma read_app1 pre w v post : read_arr (pre ++ w :: v :: post) (S (length pre)) = Ok v.
Proof. unfold read_arr. rewrite nth_error_app2 by lia. replace (S (length pre) - length pre)%nat with 1%nat by lia. reflexivity. Qed.
Lemma read_app2 pre a w v post : read_arr (pre ++ a :: w :: v :: post) (S (S (length pre))) = Ok v.
Proof. unfold read_arr. rewrite nth_error_app2 by lia. replace (S (S (length pre)) - length pre)%nat with 2%nat by lia. reflexivity. Qed.
Definition rd_body (pcontrol : list R) := fun d (s : nat * vec * vec) => let '(k, f, g) := s in
                bind (read_arr pcontrol k) (fun v => Ok (S k, set_nth d (nth d f 0 + v) f, set_nth d v g)).
Lemma read_point D pre v post f : (D = 2 \/ D = 3)%nat -> length v = D -> length f = D ->
  for_ D (rd_body (pre ++ v ++ post)) (length pre, f, vzero D) = Ok ((length pre + D)%nat, vec_add_assign f v, v).
Proof.
  intros [->| ->] Hv Hf.
  - destruct v as [|v0 [|v1 [|]]]; try discriminate. destruct f as [|f0 [|f1 [|]]]; try discriminate.
    unfold for_, rd_body. cbn [seq fold_left bind app]. rewrite read_app. cbn [bind]. rewrite read_app1. cbn. replace (length pre + 2)%nat with (S (S (length pre))) by lia. reflexivity.
  - destruct v as [|v0 [|v1 [|v2 [|]]]]; try discriminate. destruct f as [|f0 [|f1 [|f2 [|]]]]; try discriminate.
    unfold for_, rd_body. cbn [seq fold_left bind app]. rewrite read_app. cbn [bind]. rewrite read_app1. cbn [bind]. rewrite read_app2. cbn. replace (length pre + 3)%nat with (S (S (S (length pre)))) by lia. reflexivity.
Qed.
Definition radius (h center : vec) (ind : list Z) : vec := zip_with Rminus (grid_point h ind) center.
Lemma grid_point_mul h ind : pos_times (pos_of_int ind) h = grid_point h ind.
Proof. unfold pos_times, pos_mul_assign, pos_of_int, grid_point. revert h. induction ind as [|z ind IH]; intros [|x h]; simpl; try reflexivity. f_equal. apply IH. Qed.
Definition pt_body (D : nat) (h center : vec) (pcontrol : list R) := fun (s : nat * (vec * vec)) (ind : list Z) =>
        let '(k, ft) := s in
        bind (for_ D (rd_body pcontrol) (k, fst ft, vzero D)) (fun s =>
        let '(k, f, g) := s in
        Ok (k, (f, set_torques center ind g h (snd ft)))).
Lemma read_points D h center pts : forall (gs : list vec) pre post f t, (D = 2 \/ D = 3)%nat -> length pts = length gs -> all_len D gs -> length f = D ->
  fold_left (fun o ind => bind o (fun s => pt_body D h center (pre ++ concat gs ++ post) s ind)) pts (Ok (length pre, (f, t)))
  = Ok ((length pre + length (concat gs))%nat, (fold_left vec_add_assign gs f,
        fold_left (fun t rg => vec_add_assign t (cross_vv (fst rg) (snd rg))) (combine (map (radius h center) pts) gs) t)).
Proof.
  induction pts as [|ind pts IH]; intros [|v gs] pre post f t HD HL HA Hf; simpl in HL; try lia.
  - simpl. rewrite Nat.add_0_r. reflexivity.
  - inversion HA; subst. cbn [fold_left bind concat]. rewrite <- app_assoc.
    assert (E1 : pt_body (length f) h center (pre ++ v ++ concat gs ++ post) (length pre, (f, t)) ind = Ok (length (pre ++ v), (vec_add_assign f v, set_torques center ind v h t))).
    { unfold pt_body. cbn [fst snd]. rewrite read_point by congruence. cbn [bind]. rewrite app_length. do 2 f_equal. congruence. }
    rewrite E1, (app_assoc pre v).
    rewrite IH; auto; try lia. 2:{ rewrite len_add; congruence. }
    rewrite !app_length, Nat.add_assoc. cbn [map combine fold_left fst snd]. unfold set_torques. rewrite grid_point_mul. reflexivity.
Qed.
Definition flat (ctl : list (list vec)) : list R := concat (map (@concat R) ctl).
Lemma flat_split ctl k : (k < length ctl)%nat -> flat ctl = flat (firstn k ctl) ++ concat (nth k ctl []) ++ flat (skipn (S k) ctl).
Proof.
  revert k. induction ctl as [|a ctl IH]; intros k Hk; simpl in Hk; [lia|]. destruct k as [|k]; [reflexivity|]. unfold flat in *. cbn [firstn map concat nth]. rewrite (IH k) at 1 by lia. rewrite <- app_assoc. reflexivity.
Qed.
Lemma flat_firstn ctl k : (k < length ctl)%nat -> length (flat (firstn (S k) ctl)) = (length (flat (firstn k ctl)) + length (concat (nth k ctl [])))%nat.
Proof.
  revert k. induction ctl as [|a ctl IH]; intros k Hk; simpl in Hk; [lia|]. destruct k as [|k].
  - unfold flat. simpl. rewrite app_nil_r. reflexivity.
  - unfold flat in *. cbn [firstn map concat nth]. rewrite !app_length. cbn [firstn] in IH. rewrite <- Nat.add_assoc, <- IH by lia. reflexivity.
Qed.
Definition ctl_pts (c : pctx) (dm : dmda) (i : nat) : list (list Z) := fluid_pts (overlap_box Z.ltb) (x_D c) (x_h c) dm (nth i (x_parts c) gpart0).
Definition weight (c : pctx) (i : nat) : R := gp_volume (nth i (x_parts c) gpart0) / IZR (x_num c i).
Definition lforce (c : pctx) (gs : list vec) (i : nat) : vec := vec_scale_assign (local_mean (x_D c) gs) (weight c i).
Definition ltorque (c : pctx) (dm : dmda) (gs : list vec) (i : nat) : vec :=
  vec_scale_assign (local_cross (x_D c) (map (radius (x_h c) (p_center (gp (nth i (x_parts c) gpart0)))) (ctl_pts c dm i)) gs) (weight c i).
Lemma local_forces c ctl dm : (x_D c = 2 \/ x_D c = 3)%nat -> length ctl = length (x_parts c) ->
  (forall i, (i < length ctl)%nat -> length (nth i ctl []) = length (ctl_pts c dm i)) -> Forall (all_len (x_D c)) ctl ->
  forces_torques_local c (flat ctl) dm = Ok (map (fun i => (lforce c (nth i ctl []) i, ltorque c dm (nth i ctl []) i)) (seq 0 (length (x_parts c)))).
Proof.
  intros HD HL HP HA. unfold forces_torques_local.
  match goal with |- bind (for_ _ ?body _) _ = _ => set (B := body) end.
  destruct (for_inv (length (x_parts c)) B (fun k s => s = (length (flat (firstn k ctl)), map (fun i => (lforce c (nth i ctl []) i, ltorque c dm (nth i ctl []) i)) (seq 0 k))) (0%nat, [])) as (s & E & ->).
  - reflexivity.
  - intros k s Hk ->. eexists. split; [|reflexivity]. unfold B. cbv zeta. cbn [fst snd].
    assert (Hk' : (k < length ctl)%nat) by lia.
    pose proof (read_points (x_D c) (x_h c) (p_center (gp (nth k (x_parts c) gpart0))) (ctl_pts c dm k) (nth k ctl []) (flat (firstn k ctl)) (flat (skipn (S k) ctl)) (vzero (x_D c)) (vzero (spin_size (x_D c)))) as RP.
    rewrite <- flat_split in RP by exact Hk'.
    assert (RP' := RP HD (eq_sym (HP k Hk')) (proj1 (Forall_forall _ _) HA _ (nth_In _ _ Hk')) (len_zero _)). clear RP.
    match type of RP' with _ = ?rhs => match goal with |- bind ?t ?f = _ => transitivity (bind rhs f); [exact (f_equal (fun zz => bind zz f) RP')|] end end.
    cbn [bind fst snd]. rewrite flat_firstn by exact Hk'. rewrite seq_S, map_app. reflexivity.
  - rewrite E. reflexivity.
Qed.
Lemma combine_flat {A B C} (a : A -> list B) (b : A -> list C) l : (forall x, In x l -> length (a x) = length (b x)) ->
  combine (flat_map a l) (flat_map b l) = flat_map (fun x => combine (a x) (b x)) l.
Proof.
  induction l as [|x l IH]; intros H; [reflexivity|]. cbn [flat_map]. rewrite <- IH by (intros; apply H; right; auto).
  specialize (H x (or_introl eq_refl)). clear IH. revert H. generalize (a x) (b x). intros l1. induction l1 as [|y l1 IH1]; intros [|z l2] HL; simpl in HL; try lia; [reflexivity|]. simpl. f_equal. apply IH1. lia.
Qed.
Definition arms (c : pctx) (i : nat) : list vec :=
  flat_map (fun dm => map (radius (x_h c) (p_center (gp (nth i (x_parts c) gpart0)))) (ctl_pts c dm i)) (x_dms c).
Lemma forces_ok c ctl : (x_D c = 2 \/ x_D c = 3)%nat ->
  (forall dm, In dm (x_dms c) -> length (ctl dm) = length (x_parts c) /\ Forall (all_len (x_D c)) (ctl dm) /\
     forall i, (i < length (x_parts c))%nat -> length (nth i (ctl dm) []) = length (ctl_pts c dm i)) ->
  (forall dm i q, In dm (x_dms c) -> (i < length (x_parts c))%nat -> In q (ctl_pts c dm i) -> length (radius (x_h c) (p_center (gp (nth i (x_parts c) gpart0))) q) = x_D c) ->
  exists res, forces_torques c (fun dm => flat (ctl dm)) = Ok res /\ length res = length (x_parts c) /\
    forall i, (i < length (x_parts c))%nat ->
      let F := fst (nth i res ([], [])) in let T := snd (nth i res ([], [])) in
      length F = x_D c /\ length T = spin_size (x_D c) /\
      (forall k, co k F = weight c i * total k (gathered (x_dms c) i ctl)) /\
      (forall k, co k T = weight c i * Lsum (fun p => co k (cross_vv (fst p) (snd p))) (combine (arms c i) (gathered (x_dms c) i ctl))).
Proof.
  intros HD HC HR. unfold forces_torques.
  rewrite (on_all_map _ (fun dm => map (fun i => (lforce c (nth i (ctl dm) []) i, ltorque c dm (nth i (ctl dm) []) i)) (seq 0 (length (x_parts c))))).
  2:{ intros dm Hin. destruct (HC dm Hin) as (H1 & H2 & H3). apply local_forces; auto. intros i Hi. apply H3. rewrite <- H1. exact Hi. }
  cbn [bind]. eexists. split; [reflexivity|]. split; [rewrite map_length, seq_length; reflexivity|]. intros i Hi. cbv zeta.
  rewrite nth_map_seq by exact Hi. cbn [fst snd]. rewrite !map_map.
  assert (LF : forall dm, In dm (x_dms c) -> all_len (x_D c) (nth i (ctl dm) [])).
  { intros dm Hin. destruct (HC dm Hin) as (H1 & H2 & _). rewrite Forall_forall in H2. apply H2, nth_In. rewrite H1. exact Hi. }
  destruct (allsum_spec (x_D c) (map (fun dm => lforce c (nth i (ctl dm) []) i) (x_dms c))) as [F1 F2].
  { apply Forall_forall. intros v Hv. apply in_map_iff in Hv as [dm [<- Hin]]. unfold lforce. rewrite len_scale. apply allsum_spec, LF, Hin. }
  assert (LT : forall dm, In dm (x_dms c) -> length (ltorque c dm (nth i (ctl dm) []) i) = spin_size (x_D c) /\
     forall k, co k (ltorque c dm (nth i (ctl dm) []) i) = weight c i * Lsum (fun p => co k (cross_vv (fst p) (snd p))) (combine (map (radius (x_h c) (p_center (gp (nth i (x_parts c) gpart0)))) (ctl_pts c dm i)) (nth i (ctl dm) []))).
  { intros dm Hin. unfold ltorque, local_cross.
    destruct (vsum_spec (spin_size (x_D c)) (fun p => cross_vv (fst p) (snd p)) (combine (map (radius (x_h c) (p_center (gp (nth i (x_parts c) gpart0)))) (ctl_pts c dm i)) (nth i (ctl dm) [])) (vzero (spin_size (x_D c)))) as [H1 H2].
    - apply len_zero.
    - intros [r v] Hp. pose proof (in_combine_l _ _ _ _ Hp) as Hp1. pose proof (in_combine_r _ _ _ _ Hp) as Hp2. apply in_map_iff in Hp1 as [q [<- Hq]].
      assert (L1 := HR dm i q Hin Hi Hq). assert (L2 : length v = x_D c). { specialize (LF dm Hin). unfold all_len in LF. rewrite Forall_forall in LF. apply LF, Hp2. }
      cbn [fst snd]. destruct HD as [E|E]; rewrite E in *; [rewrite cross_vv2|rewrite cross_vv3]; auto.
    - rewrite len_scale. split; [exact H1|]. intros k. rewrite co_scale, H2, co_zero. ring. }
  destruct (allsum_spec (spin_size (x_D c)) (map (fun dm => ltorque c dm (nth i (ctl dm) []) i) (x_dms c))) as [T1 T2].
  { apply Forall_forall. intros v Hv. apply in_map_iff in Hv as [dm [<- Hin]]. apply LT, Hin. }
  match goal with |- context [allsum (x_D c) ?l] => assert (E1 : l = map (fun dm => lforce c (nth i (ctl dm) []) i) (x_dms c)) by (apply map_ext; intros dm; rewrite nth_map_seq by exact Hi; reflexivity); rewrite E1 end.
  match goal with |- context [allsum (spin_size (x_D c)) ?l] => assert (E2 : l = map (fun dm => ltorque c dm (nth i (ctl dm) []) i) (x_dms c)) by (apply map_ext; intros dm; rewrite nth_map_seq by exact Hi; reflexivity); rewrite E2 end.
  split; [exact F1|]. split; [exact T1|]. split; intros k.
  - rewrite F2, total_gathered, <- Lsum_scal. unfold total. rewrite Lsum_map. apply Lsum_ext. intros dm Hin. unfold lforce. rewrite co_scale.
    unfold local_mean. rewrite (proj2 (vsum_id _ _ _ (len_zero (x_D c)) (LF dm Hin))), co_zero. unfold total. rewrite Rplus_0_l. apply Rmult_comm.
  - rewrite T2. unfold total. rewrite Lsum_map, (Lsum_ext _ _ _ (fun dm Hin => proj2 (LT dm Hin) k)), Lsum_scal. f_equal.
    unfold arms, gathered. rewrite combine_flat.
    + rewrite Lsum_flat_map. reflexivity.
    + intros dm Hin. rewrite map_length. symmetry. apply HC; assumption.
Qed.
