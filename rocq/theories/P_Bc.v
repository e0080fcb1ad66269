From Coq Require Import Permutation.
From Coquelicot Require Import Coquelicot.
From Verif Require Import Base M_Geometry S_Geometry P_Geometry M_Particle S_Particle P_Particle M_Quadrature S_Fem M_MatElem P_MatElem P_Energy M_Mesh M_Operator M_Bc S_Operator S_Bc P_Mesh P_Operator P_Operator2 P_Global P_Stokes P_Operator3.

(** ** generic: loops of pointwise assignments *)
Lemma same_node_spec p q : reflect (p = q) (same_node p q).
Proof. unfold same_node. destruct (list_eq_dec Z.eq_dec p q); constructor; auto. Qed.

Lemma inside_dim' b p D : has_dim D b -> in_grid_box b p -> point_inside Z.ltb b p = true.
Proof. intros Hb Hp. apply (point_inside_grid D); auto. destruct Hp as [H1 _]. apply Forall2_len in H1. destruct Hb. lia. Qed.

Section Sets.
  Variables (val : list Z -> nat -> condition_fn -> R) (dm : dmda).
  Definition upd (row : bc_row) (n : list Z) (c : nat) (v : R) : R := match nth c row None with Some f => val n c f | None => v end.
  Lemma kernel_ok row pos y : (g_dof dm <= length row)%nat -> point_inside Z.ltb (g_own dm) pos = true ->
    exists y', kernel_on_bc val dm row pos y = Ok y' /\
      forall n c, y' n c = if same_node pos n && Nat.ltb c (g_dof dm) then upd row n c (y n c) else y n c.
  Proof.
    unfold kernel_on_bc, for_. intros Hr Hp.
    assert (G : forall k, (k <= g_dof dm)%nat -> exists y', fold_left (fun o dof => bind o (fun y => bind (bc_cond row dof) (fun c => match c with None => Ok y | Some f => set_g dm y pos dof (val pos dof f) end))) (seq 0 k) (Ok y) = Ok y' /\
      forall n c, y' n c = if same_node pos n && Nat.ltb c k then upd row n c (y n c) else y n c).
    { induction k as [|k IH]; intros Hk.
      - exists y. split; [reflexivity|]. intros n c. rewrite (proj2 (Nat.ltb_ge c 0)) by lia. rewrite andb_false_r. reflexivity.
      - destruct (IH ltac:(lia)) as [y1 [E1 V1]]. rewrite seq_S, fold_left_app, E1. cbn [fold_left bind]. rewrite Nat.add_0_l.
        unfold bc_cond. destruct (nth_error row k) as [c0|] eqn:En; [|apply nth_error_None in En; lia]. cbn [bind].
        assert (Enth : nth k row None = c0) by (apply nth_error_nth, En).
        destruct c0 as [f|].
        + unfold set_g. rewrite Hp. eexists. split; [reflexivity|]. intros n c. cbv beta. destruct (same_node_spec pos n) as [<-|Hne]; cbn [andb].
          * destruct (Nat.eqb_spec k c) as [<-|Hkc].
            -- rewrite (proj2 (Nat.ltb_lt k (S k))) by lia. unfold upd. rewrite Enth. reflexivity.
            -- rewrite V1. destruct (same_node_spec pos pos); [|congruence]. cbn [andb]. destruct (Nat.ltb_spec c k), (Nat.ltb_spec c (S k)); try lia; reflexivity.
          * rewrite V1. destruct (same_node_spec pos n); [congruence|]. reflexivity.
        + exists y1. split; [reflexivity|]. intros n c. rewrite V1. destruct (same_node_spec pos n) as [<-|Hne]; cbn [andb]; [|reflexivity].
          destruct (Nat.ltb_spec c k), (Nat.ltb_spec c (S k)); try lia; try reflexivity. assert (c = k) by lia. subst. unfold upd. rewrite Enth. reflexivity. }
    destruct (G (g_dof dm) ltac:(lia)) as [y' [E V]]. exists y'. split; [exact E|exact V].
  Qed.
  Lemma iterate_set D row b y : has_dim D b -> has_dim D (g_own dm) -> (forall p, in_grid_box b p -> in_grid_box (g_own dm) p) -> (g_dof dm <= length row)%nat ->
    exists y', iterate_o b (kernel_on_bc val dm row) y = Ok y' /\
      forall n c, y' n c = if point_inside Z.ltb b n && Nat.eqb (length n) D && Nat.ltb c (g_dof dm) then upd row n c (y n c) else y n c.
  Proof.
    intros Hb Ho Hsub Hr. destruct (grid_pts_spec D b Hb) as (Hin & Hnd & _ & Hrun). unfold iterate_o. rewrite Hrun.
    assert (Hbn : forall n, (point_inside Z.ltb b n && Nat.eqb (length n) D = true) <-> In n (grid_pts b)).
    { intros n. rewrite Hin, andb_true_iff, Nat.eqb_eq. split.
      - intros [H1 H2]. apply (point_inside_grid D) in H1; auto.
      - intros H. assert (length n = D) by (destruct H as [H1 _]; apply Forall2_len in H1; destruct Hb; lia). split; auto. apply (point_inside_grid D); auto. }
    assert (G : forall l, (forall p, In p l -> in_grid_box (g_own dm) p) -> forall y, exists y', fold_left (fun s p => bind s (kernel_on_bc val dm row p)) l (Ok y) = Ok y' /\
       forall n c, y' n c = if existsb (fun p => same_node p n) l && Nat.ltb c (g_dof dm) then upd row n c (y n c) else y n c).
    { clear y. induction l as [|p l IH]; intros Hl y; [exists y; split; [reflexivity|]; intros; reflexivity|].
      destruct (kernel_ok row p y Hr) as [y1 [E1 V1]].
      { eapply inside_dim'; [exact Ho|]. apply Hl. left; auto. }
      cbn [fold_left bind]. rewrite E1. destruct (IH ltac:(intros; apply Hl; right; auto) y1) as [y2 [E2 V2]]. exists y2. split; [exact E2|].
      intros n c. rewrite V2, V1. cbn [existsb]. destruct (same_node p n), (existsb _ l), (Nat.ltb c (g_dof dm)); cbn [andb orb]; try reflexivity.
      unfold upd. destruct (nth c row None); reflexivity. }
    destruct (G (grid_pts b)) with (y := y) as [y' [E V]].
    { intros p Hp. apply Hsub, Hin, Hp. }
    exists y'. split; [exact E|]. intros n c. rewrite V. f_equal.
    assert (EQ : existsb (fun p => same_node p n) (grid_pts b) = point_inside Z.ltb b n && Nat.eqb (length n) D).
    { apply eq_iff_eq_true. rewrite Hbn, existsb_exists. split.
      - intros [p [Hp Hs]]. destruct (same_node_spec p n); [subst; auto|discriminate].
      - intros H. exists n. split; auto. destruct (same_node_spec n n); congruence. }
    rewrite EQ. reflexivity.
  Qed.
End Sets.

(** boxes with one coordinate changed *)
Lemma Forall2_nth_iff {A} (P : A -> A -> Prop) l m d : Forall2 P l m <-> length l = length m /\ forall i, (i < length l)%nat -> P (nth i l d) (nth i m d).
Proof.
  split.
  - intros H. split; [apply Forall2_len in H; auto|]. induction H; intros i Hi; simpl in Hi; [lia|]. destruct i; simpl; auto. apply IHForall2. lia.
  - revert m. induction l as [|a l IH]; intros [|b m] [HL H]; simpl in *; try lia; constructor.
    + apply (H 0%nat). lia.
    + apply IH. split; [lia|]. intros i Hi. apply (H (S i)). lia.
Qed.

  Lemma box_iff (m : list Z) b n : has_dim (length m) b -> (in_grid_box b n <-> length n = length m /\ forall i, (i < length m)%nat -> (nth i (bottom_left b) 0 <= nth i n 0 < nth i (upper_right b) 0)%Z).
  Proof.
    intros [D1 D2]. unfold in_grid_box. rewrite !(Forall2_nth_iff _ _ _ 0%Z). split.
    - intros [[A1 A2] [B1 B2]]. split; [lia|]. intros i Hi. split; [apply A2; lia|apply B2; lia].
    - intros [A B]. repeat split; try lia; intros i Hi; apply B; lia.
  Qed.
Section OneSide.
  Variables (m : list Z) (per : list bool) (dof : nat) (dm : dmda).
  Hypothesis HL : length per = length m.
  Hypothesis HV : view_ok m per dof dm.
  Hypothesis HN : Forall2 Z.lt (bottom_left (g_own dm)) (upper_right (g_own dm)).
  Variable d : nat.
  Hypothesis Hd : (d < length m)%nat.
  Let lo := bottom_left (g_own dm).
  Let up := upper_right (g_own dm).
  Let HD : has_dim (length m) (g_own dm) := proj1 (view_dims m per dof dm HV HL).
  Lemma own_facts : length lo = length m /\ length up = length m /\ forall i, (i < length m)%nat -> (0 <= nth i lo 0 /\ nth i lo 0 < nth i up 0 /\ nth i up 0 <= nth i m 0)%Z.
  Proof.
    pose proof HV as (_ & _ & _ & H1 & _ & H3 & _). fold lo in H1. fold up in H3. pose proof HD as [D1 D2]. fold lo in D1. fold up in D2.
    split; [exact D1|]. split; [exact D2|]. intros i H. split; [|split].
    - apply (Forall2_nth_iff _ _ _ 0%Z) in H1 as [_ H1]. specialize (H1 i). rewrite map_length in H1. specialize (H1 H).
      rewrite (map_nth (fun _ : Z => 0%Z) m 0%Z i) in H1. exact H1.
    - apply (Forall2_nth_iff _ _ _ 0%Z) in HN as [_ H2]. apply H2. fold lo. lia.
    - apply (Forall2_nth_iff _ _ _ 0%Z) in H3 as [_ H3]. apply H3. lia.
  Qed.
  (** lower side *)
  Lemma low_box n : nth d lo 0%Z = 0%Z ->
    (in_grid_box (mkbox lo (set_nth d 1%Z up)) n <-> in_grid_box (g_own dm) n /\ nth d n 0%Z = 0%Z) /\ has_dim (length m) (mkbox lo (set_nth d 1%Z up)).
  Proof.
    intros E0. destruct own_facts as (L1 & L2 & B).
    assert (HB : has_dim (length m) (mkbox lo (set_nth d 1%Z up))) by (split; simpl; rewrite ?length_set_nth; auto).
    split; [|exact HB]. rewrite (box_iff m _ n HB), (box_iff m _ n HD). cbn [bottom_left upper_right]. fold lo up. split.
    - intros [A K]. split; [split; [exact A|]|].
      + intros i Hi. specialize (K i Hi). destruct (Nat.eq_dec d i) as [<-|Hne].
        * rewrite nth_set_nth_eq in K by lia. specialize (B d Hd). lia.
        * rewrite nth_set_nth_neq in K by auto. exact K.
      + specialize (K d Hd). rewrite nth_set_nth_eq in K by lia. lia.
    - intros [[A K] E]. split; auto. intros i Hi. specialize (K i Hi). destruct (Nat.eq_dec d i) as [<-|Hne].
      + rewrite nth_set_nth_eq by lia. lia.
      + rewrite nth_set_nth_neq by auto. exact K.
  Qed.
  Lemma up_box n : nth d up 0%Z = nth d m 0%Z ->
    (in_grid_box (mkbox (set_nth d (nth d m 0 - 1)%Z lo) up) n <-> in_grid_box (g_own dm) n /\ nth d n 0%Z = (nth d m 0 - 1)%Z) /\ has_dim (length m) (mkbox (set_nth d (nth d m 0 - 1)%Z lo) up).
  Proof.
    intros E0. destruct own_facts as (L1 & L2 & B).
    assert (HB : has_dim (length m) (mkbox (set_nth d (nth d m 0 - 1)%Z lo) up)) by (split; simpl; rewrite ?length_set_nth; auto).
    split; [|exact HB]. rewrite (box_iff m _ n HB), (box_iff m _ n HD). cbn [bottom_left upper_right]. fold lo up. split.
    - intros [A K]. split; [split; [exact A|]|].
      + intros i Hi. specialize (K i Hi). destruct (Nat.eq_dec d i) as [<-|Hne].
        * rewrite nth_set_nth_eq in K by lia. specialize (B d Hd). lia.
        * rewrite nth_set_nth_neq in K by auto. lia.
      + specialize (K d Hd). rewrite nth_set_nth_eq in K by lia. lia.
    - intros [[A K] E]. split; auto. intros i Hi. specialize (K i Hi). destruct (Nat.eq_dec d i) as [<-|Hne].
      + rewrite nth_set_nth_eq by lia. lia.
      + rewrite nth_set_nth_neq by auto. exact K.
  Qed.
End OneSide.

Section Dirichlet.
  Variables (m : list Z) (per : list bool) (dof : nat) (val : list Z -> nat -> condition_fn -> R) (bc : list bc_row).
  Hypothesis HL : length per = length m.
  Hypothesis HT : table_ok (length m) dof bc.
  Let D := length m.
  Let bc' := map Some bc.

  Lemma side_row s : (s < 2 * D)%nat -> bc_side bc' s = Ok (nth s bc []) /\ length (nth s bc []) = dof.
  Proof.
    intros Hs. destruct HT as [T1 T2]. fold D in T1. unfold bc_side, bc'. rewrite nth_error_map.
    destruct (nth_error bc s) as [r|] eqn:E; [|apply nth_error_None in E; lia]. simpl. rewrite (nth_error_nth bc s [] E). split; [reflexivity|].
    rewrite Forall_forall in T2. apply T2. eapply nth_error_In; eauto.
  Qed.
  Definition side_upd (n : list Z) (c : nat) (v : R) (s : nat * bool) : R :=
    if on_side m per n s then upd val (nth (side_index s) bc []) n c v else v.
  Lemma fold_prescribed n c l : forall acc v,
    fold_left (side_upd n c) l (match acc with Some f => val n c f | None => v end) =
    match fold_left (fun acc s => if on_side m per n s then match nth c (nth (side_index s) bc []) None with Some f => Some f | None => acc end else acc) l acc with
    | Some f => val n c f | None => v end.
  Proof.
    induction l as [|s l IH]; intros acc v; [reflexivity|]. cbn [fold_left]. rewrite <- IH. f_equal. unfold side_upd, upd.
    destruct (on_side m per n s); [|reflexivity]. destruct (nth c (nth (side_index s) bc []) None); reflexivity.
  Qed.

  Section Process.
    Variable dm : dmda.
    Hypothesis HV : view_ok m per dof dm.
    Hypothesis HN : Forall2 Z.lt (bottom_left (g_own dm)) (upper_right (g_own dm)).
    Definition inO (n : list Z) : bool := point_inside Z.ltb (g_own dm) n && Nat.eqb (length n) (length m).
    Lemma own_dim : has_dim (length m) (g_own dm). Proof. apply (view_dims m per dof dm HV HL). Qed.
    Lemma inside_bool b n : has_dim (length m) b -> point_inside Z.ltb b n && Nat.eqb (length n) (length m) = true <-> in_grid_box b n.
    Proof.
      intros Hb. rewrite andb_true_iff, Nat.eqb_eq. split.
      - intros [H1 H2]. apply (point_inside_grid (length m)) in H1; auto.
      - intros H. split; [eapply inside_dim'; eauto|]. destruct H as [H1 _]. apply Forall2_len in H1. destruct Hb. lia.
    Qed.
    Lemma low_step d y : (d < length m)%nat -> nth d per false = false ->
      exists y', (if Z.eqb (nth d (bottom_left (g_own dm)) 0%Z) 0 then
            bind (bc_side bc' (2 * d)) (fun row =>
            iterate_o (mkbox (bottom_left (g_own dm)) (set_nth d 1%Z (upper_right (g_own dm)))) (kernel_on_bc val dm row) y)
          else Ok y) = Ok y' /\ forall n c, y' n c = if inO n && Nat.ltb c dof then side_upd n c (y n c) (d, false) else y n c.
    Proof.
      intros Hd Hp. unfold side_upd, on_side. cbn [fst snd]. rewrite Hp. cbn [negb andb].
      assert (Edof : g_dof dm = dof) by (destruct HV; tauto).
      destruct (Z.eqb_spec (nth d (bottom_left (g_own dm)) 0%Z) 0) as [E0|E0].
      - destruct (side_row (2 * d)) as [ER LR]; [unfold D; lia|]. rewrite ER. cbn [bind].
        destruct (low_box m per dof dm HL HV HN d Hd [] E0) as [_ HB].
        destruct (iterate_set val dm (length m) (nth (2 * d) bc []) _ y HB own_dim) as [y' [E V]].
        { intros p Hp'. apply (low_box m per dof dm HL HV HN d Hd p E0) in Hp'. tauto. } { rewrite LR, Edof. lia. }
        exists y'. split; [exact E|]. intros n c. rewrite V. unfold side_index. cbn [fst snd]. rewrite Nat.add_0_r, Edof. unfold inO.
        destruct (low_box m per dof dm HL HV HN d Hd n E0) as [HI _]. rewrite <- (inside_bool _ n HB), <- (inside_bool _ n own_dim) in HI.
        destruct (Z.eqb_spec (nth d n 0%Z) 0) as [En|En].
        + assert (X : point_inside Z.ltb (mkbox (bottom_left (g_own dm)) (set_nth d 1%Z (upper_right (g_own dm)))) n && Nat.eqb (length n) (length m) =
             point_inside Z.ltb (g_own dm) n && Nat.eqb (length n) (length m)) by (apply eq_iff_eq_true; tauto). rewrite X. reflexivity.
        + destruct (point_inside Z.ltb (mkbox (bottom_left (g_own dm)) (set_nth d 1%Z (upper_right (g_own dm)))) n && Nat.eqb (length n) (length m)); [exfalso; tauto|].
          cbn [andb]. match goal with |- _ = if ?b then _ else _ => destruct b end; reflexivity.
      - exists y. split; [reflexivity|]. intros n c. unfold inO.
        destruct (point_inside Z.ltb (g_own dm) n && (length n =? length m)%nat) eqn:EI; [|reflexivity].
        apply (inside_bool _ n own_dim) in EI. apply (box_iff m _ n own_dim) in EI as [_ EI]. specialize (EI d Hd).
        destruct (own_facts m per dof dm HL HV HN d Hd) as (_ & _ & B). specialize (B d Hd).
        destruct (Z.eqb_spec (nth d n 0%Z) 0); [lia|]. match goal with |- _ = if ?b then _ else _ => destruct b end; reflexivity.
    Qed.
    Lemma up_step d y : (d < length m)%nat -> nth d per false = false ->
      exists y', (if Z.eqb (nth d (upper_right (g_own dm)) 0%Z) (nth d m 0%Z) then
            bind (bc_side bc' (2 * d + 1)) (fun row =>
            iterate_o (mkbox (set_nth d (nth d m 0 - 1)%Z (bottom_left (g_own dm))) (upper_right (g_own dm))) (kernel_on_bc val dm row) y)
          else Ok y) = Ok y' /\ forall n c, y' n c = if inO n && Nat.ltb c dof then side_upd n c (y n c) (d, true) else y n c.
    Proof.
      intros Hd Hp. unfold side_upd, on_side. cbn [fst snd]. rewrite Hp. cbn [negb andb].
      assert (Edof : g_dof dm = dof) by (destruct HV; tauto).
      destruct (Z.eqb_spec (nth d (upper_right (g_own dm)) 0%Z) (nth d m 0%Z)) as [E0|E0].
      - destruct (side_row (2 * d + 1)) as [ER LR]; [unfold D; lia|]. rewrite ER. cbn [bind].
        destruct (up_box m per dof dm HL HV HN d Hd [] E0) as [_ HB].
        destruct (iterate_set val dm (length m) (nth (2 * d + 1) bc []) _ y HB own_dim) as [y' [E V]].
        { intros p Hp'. apply (up_box m per dof dm HL HV HN d Hd p E0) in Hp'. tauto. } { rewrite LR, Edof. lia. }
        exists y'. split; [exact E|]. intros n c. rewrite V. unfold side_index. cbn [fst snd]. rewrite Edof. unfold inO.
        destruct (up_box m per dof dm HL HV HN d Hd n E0) as [HI _]. rewrite <- (inside_bool _ n HB), <- (inside_bool _ n own_dim) in HI.
        set (B' := mkbox _ _) in *.
        destruct (Z.eqb_spec (nth d n 0%Z) (nth d m 0 - 1)%Z) as [En|En].
        + assert (X : point_inside Z.ltb B' n && Nat.eqb (length n) (length m) =
             point_inside Z.ltb (g_own dm) n && Nat.eqb (length n) (length m)) by (apply eq_iff_eq_true; tauto). rewrite X. reflexivity.
        + destruct (point_inside Z.ltb B' n && Nat.eqb (length n) (length m)); [exfalso; tauto|].
          cbn [andb]. match goal with |- _ = if ?b then _ else _ => destruct b end; reflexivity.
      - exists y. split; [reflexivity|]. intros n c. unfold inO.
        destruct (point_inside Z.ltb (g_own dm) n && (length n =? length m)%nat) eqn:EI; [|reflexivity].
        apply (inside_bool _ n own_dim) in EI. apply (box_iff m _ n own_dim) in EI as [_ EI]. specialize (EI d Hd).
        destruct (own_facts m per dof dm HL HV HN d Hd) as (_ & _ & B). specialize (B d Hd).
        destruct (Z.eqb_spec (nth d n 0%Z) (nth d m 0 - 1)%Z); [lia|]. match goal with |- _ = if ?b then _ else _ => destruct b end; reflexivity.
    Qed.
    Lemma impl_ok y : exists y', set_dirichlet_impl D val bc' dm y = Ok y' /\
      forall n c, y' n c = if inO n && Nat.ltb c dof then fold_left (side_upd n c) (sides D) (y n c) else y n c.
    Proof.
      unfold set_dirichlet_impl, get_boundary_type, get_global_bounds, get_DM_bounds, for_.
      assert (Ep : g_per dm = per) by (destruct HV; tauto). assert (Em : g_size dm = m) by (destruct HV; tauto). rewrite Ep, Em.
      unfold sides. assert (HDk : (D <= length m)%nat) by (unfold D; lia). revert HDk. generalize D as k.
      induction k as [|k IH]; intros Hk.
      - exists y. split; [reflexivity|]. intros. match goal with |- _ = if ?b then _ else _ => destruct b end; reflexivity.
      - destruct (IH ltac:(lia)) as [y1 [E1 V1]]. rewrite seq_S, fold_left_app, E1, flat_map_app. cbn [fold_left bind flat_map app Nat.add].
        destruct (nth k per false) eqn:Ek.
        + exists y1. split; [reflexivity|]. intros n c. rewrite V1, fold_left_app. cbn [fold_left].
          unfold side_upd at 2 3, on_side. cbn [fst snd]. rewrite Ek. cbn [negb andb]. reflexivity.
        + destruct (low_step k y1 ltac:(lia) Ek) as [y2 [E2 V2]]. destruct (up_step k y2 ltac:(lia) Ek) as [y3 [E3 V3]].
          exists y3. split.
          * cbv beta. match goal with |- bind ?o ?f = _ => transitivity (bind (Ok y2) f); [apply (f_equal (fun oo => bind oo f)); exact E2|exact E3] end.
          * intros n c. rewrite V3, V2, V1, fold_left_app. cbn [fold_left]. destruct (inO n && Nat.ltb c dof); reflexivity.
    Qed.
  End Process.

  Lemma dirichlet_ok dms y : Forall (view_ok m per dof) dms -> nonempty_views dms ->
    exists y', set_dirichlet D val bc' dms y = Ok y' /\
      forall n c, y' n c = if existsb (fun dm => inO dm n) dms && Nat.ltb c dof then
        match prescribed D m per bc n c with Some f => val n c f | None => y n c end else y n c.
  Proof.
    unfold set_dirichlet, nonempty_views. intros HV HN. revert y. induction dms as [|dm dms IH]; intros y.
    - exists y. split; [reflexivity|]. reflexivity.
    - inversion HV; subst. inversion HN; subst. destruct (impl_ok dm H1 H3 y) as [y1 [E1 V1]].
      cbn [fold_left bind]. rewrite E1. destruct (IH H2 H4 y1) as [y2 [E2 V2]]. exists y2. split; [exact E2|].
      intros n c. rewrite V2, V1. pose proof (fold_prescribed n c (sides D) None (y n c)) as FP. cbn beta iota in FP. rewrite FP. clear FP. fold (prescribed D m per bc n c).
      cbn [existsb]. destruct (inO dm n), (existsb (fun dm => inO dm n) dms), (Nat.ltb c dof); cbn [andb orb]; try reflexivity.
      destruct (prescribed D m per bc n c); reflexivity.
  Qed.
  Lemma owned_somewhere dms n : distributes m per dof dms -> in_grid_box (nodes_box m) n -> existsb (fun dm => inO dm n) dms = true.
  Proof.
    intros [HV HTl] Hn. destruct (HTl n) as [H _]. destruct (H Hn) as [k [Hk [Hin _]]]. rewrite map_length in Hk.
    apply existsb_exists. destruct dms as [|dm0 dms0]; [simpl in Hk; lia|]. set (dms := dm0 :: dms0) in *.
    exists (nth k dms dm0). split; [apply nth_In, Hk|]. rewrite (nth_indep _ _ (g_own dm0)) in Hin by (rewrite map_length; auto). rewrite map_nth in Hin.
    rewrite Forall_forall in HV. apply inside_bool; auto. apply own_dim, HV, nth_In, Hk.
  Qed.
End Dirichlet.
