(** C67: which boundary data the Stokes driver can satisfy, and the null space it gives to the assembled matrix. *)
From Coquelicot Require Import Coquelicot.
From Verif Require Import Base M_Geometry S_Geometry P_Geometry M_Particle S_Particle P_Particle M_Quadrature S_Fem M_MatElem P_MatElem P_Energy M_Mesh M_Operator M_Bc M_Assembly S_Operator S_Bc P_Mesh P_Operator P_Operator2 P_Global P_Stokes P_Operator3 P_Bc P_Diag P_Assembly P_Assembly2 P_Telescope P_Constant P_AssemblyBc P_Flux Prop_Operator Prop_Operator2 Prop_Assembly Prop_Assembly2 Prop_StokesUnique.
Open Scope R_scope.

(** the value prescribed at a velocity node (0 where there is none) *)
Definition boundary_data (D : nat) (m : list Z) (per : list bool) (bc : list bc_row) (h : list R) : field :=
  fun n c => match prescribed D m per bc n c with Some f => f (zip_with (fun i s => IZR i * s) n h) | None => 0 end.
(** there are a velocity and a pressure whose image by the constrained matrix-free operator is (bv, bp) *)
Definition has_solution (strain : bool) (h : list R) (mp : list Z) (per : list bool) (bc : list bc_row) (dms : list (dmda * dmda)) (bv bp : field) : Prop :=
  exists xv xp yv yp, stokes_matrix (if strain then strain_tensor_mult h else laplacian_mult h) h (length mp) (Some (map Some bc)) dms xv xp = Ok (yv, yp) /\
    same_field (refined_size mp per) (length mp) yv bv /\ same_field mp 1 yp bp.

(** ** the discrete divergence theorem *)
Theorem C67_divergence_is_flux : forall (strain : bool) h mp per dms xv xp, let D := length mp in
  grid_ok mp per -> stokes_layout mp per D dms -> length h = D ->
  exists yv yp, stokes_matrix_raw (if strain then strain_tensor_mult h else laplacian_mult h) h dms xv xp = Ok (yv, yp) /\
    forall Np E, enumerates Np (nodes_box mp) -> enumerates E (cells_box (refined_size mp per) per) ->
      Lsum (fun n => yp n 0%nat) Np = flux h (refined_size mp per) per E xv.
Proof.
  intros strain h mp per dms xv xp D HG HS Hh.
  assert (K : exists rv rp, stokes_matrix_raw (if strain then strain_tensor_mult h else laplacian_mult h) h dms xv xp = Ok (rv, rp) /\
    forall q, inner (N0 mp) 1 rp q = div_form (refined_size mp per) mp per (E0 mp per) D (getMatElemPressure h) q xv).
  { destruct strain; [destruct (stokes_rep_strain h mp per D dms xv xp HG HS) as (rv & rp & E & W)|destruct (stokes_rep_lap h mp per D dms xv xp HG HS) as (rv & rp & E & W)]; exists rv, rp; (split; [exact E|]); apply (W _ _ _ _ (nv0 mp per) (np0 mp) (ev0 mp per HG) (ep0 mp per HG)). }
  destruct K as (rv & rp & E & Q). exists rv, rp. split; [exact E|]. intros Np E' HNp HE'.
  rewrite (Lsum_perm _ _ _ (enum_perm _ _ _ HNp (N0_enum mp))), sum_inner, Q.
  pose proof (div_flux h mp per (E0 mp per) E' 1 xv HG Hh (ep0 mp per HG) HE') as DF. rewrite Rmult_1_l in DF. exact DF.
Qed.

Lemma flux_ext h m per E v v' : grid_ok m per -> enumerates E (cells_box m per) ->
  (forall n s, in_grid_box (nodes_box m) n -> In s (sides (length m)) -> on_side m per n s = true -> v n (fst s) = v' n (fst s)) -> flux h m per E v = flux h m per E v'.
Proof.
  intros HG HE HV. pose proof HG as (HL & Lp & HM). unfold flux. apply Lsum_ext. intros e He. apply HE in He. apply Rsum_ext. intros d Hd. destruct (nth d per false) eqn:P; [reflexivity|]. f_equal.
  assert (Le : length e = length m) by (eapply cell_dim; eauto).
  assert (W : forall up k, (k < 2 ^ length m)%nat -> (k / 2 ^ d mod 2)%nat = (if up : bool then 1 else 0)%nat -> (if up then (nth d e 0 + 2)%Z = nth d m 0%Z else nth d e 0%Z = 0%Z) -> gv m per v e k d = gv m per v' e k d).
  { intros up k Hk Hb Hs. unfold gv. apply (HV _ (d, up)).
    - apply (wrap_in_nodes m per e); auto. apply corner_near; rewrite Le; auto.
    - apply in_sides, Hd.
    - unfold on_side. cbn [fst snd]. rewrite P. cbn [negb andb]. apply Z.eqb_eq.
      assert (N : nth d (wrap m per (corner e k)) 0%Z = (nth d e 0 + Z.of_nat (k / 2 ^ d mod 2))%Z).
      { clear - P Hd Le Lp HL. destruct HL as [L|L].
        - destruct m as [|m0 [|m1 [|]]]; try discriminate L. destruct per as [|q0 [|q1 [|]]]; try discriminate Lp. destruct e as [|i [|j [|]]]; try discriminate Le. destruct d as [|[|]]; [| |cbn in Hd; lia]; cbn [nth] in P; subst; reflexivity.
        - destruct m as [|m0 [|m1 [|m2 [|]]]]; try discriminate L. destruct per as [|q0 [|q1 [|q2 [|]]]]; try discriminate Lp. destruct e as [|i [|j [|l [|]]]]; try discriminate Le. destruct d as [|[|[|]]]; [| | |cbn in Hd; lia]; cbn [nth] in P; subst; reflexivity. }
      rewrite N, Hb. destruct up; lia. }
  f_equal.
  - destruct (Z.eqb_spec (nth d e 0 + 2)%Z (nth d m 0%Z)) as [Eq|]; [|reflexivity]. unfold face_mean. f_equal. apply Rsum_ext. intros k Hk. destruct (Nat.eqb_spec (k / 2 ^ d mod 2) 1) as [Eb|]; [|reflexivity]. apply (W true k Hk Eb Eq).
  - destruct (Z.eqb_spec (nth d e 0%Z) 0%Z) as [Eq|]; [|reflexivity]. unfold face_mean. f_equal. apply Rsum_ext. intros k Hk. destruct (Nat.eqb_spec (k / 2 ^ d mod 2) 0) as [Eb|]; [|reflexivity]. apply (W false k Hk Eb Eq).
Qed.
(** ** the right-hand side set up by the driver is reached exactly when the boundary data have no net flux *)
Theorem C67_setup_solvable_iff_no_net_flux : forall (strain : bool) h mp per bc conds dms rhs, let D := length mp in let mv := refined_size mp per in
  grid_ok mp per -> has_cells mp per -> at_most_one_thin mp per -> steps_ok h mp -> stokes_layout mp per D dms -> nonempty_views (map fst dms) -> table_ok D D bc ->
  held strain D mv per bc -> normal_conditions D per bc -> length conds = D ->
  exists bv, setup_RHS D conds (map Some bc) h (map fst dms) rhs = Ok bv /\
    forall E, enumerates E (cells_box mv per) ->
      (has_solution strain h mp per bc dms bv zero_field <-> flux h mv per E (boundary_data D mv per bc h) = 0).
Proof.
  intros strain h mp per bc conds dms rhs D mv HG HC H1 Hh HS HN HT HH HB Lc. pose proof (refined_grid mp per HG) as HGv.
  assert (Lv : length mv = D) by (unfold mv, refined_size; rewrite length_zip_with; auto; symmetry; apply HG).
  assert (K : exists bv, setup_RHS D conds (map Some bc) h (map fst dms) rhs = Ok bv /\ forall n c, in_grid_box (nodes_box mv) n -> (c < D)%nat -> prescribed D mv per bc n c <> None -> bv n c = boundary_data D mv per bc h n c).
  { unfold setup_RHS. assert (T' : table_ok (length mv) D bc) by (rewrite Lv; exact HT).
    assert (S : forall r, exists y, SetDirichletOnRHS D (map fst dms) r (map Some bc) h = Ok y /\ forall n c, in_grid_box (nodes_box mv) n -> (c < D)%nat -> prescribed D mv per bc n c <> None -> y n c = boundary_data D mv per bc h n c).
    { intros r. destruct (C30_on_rhs mv per D bc h (map fst dms) r HGv (proj1 HS) HN T') as (y & E & V). rewrite Lv in E, V. exists y. split; [exact E|]. intros n c Hn Hc HP. rewrite (V n c Hn Hc). unfold boundary_data. destruct (prescribed D mv per bc n c); [reflexivity|congruence]. }
    destruct (has_condition conds); [|apply S]. destruct (C45_set_rhs_adds mv per D (map fst dms) conds h rhs HGv (proj1 HS) Lc) as (y' & mf & E & _). rewrite E. apply S. }
  destruct K as (bv & E & V). exists bv. split; [exact E|]. intros E' HE'.
  pose proof (solvable strain h mp per bc dms HG HS HN HT HC Hh HH H1 HB bv zero_field) as SV. unfold has_solution. fold D mv. unfold viscous in SV.
  transitivity (div_form mv mp per (E0 mp per) D (getMatElemPressure h) (constant 1) bv = Lsum (fun n => zero_field n 0%nat) (N0 mp)); [exact SV|].
  assert (Z0 : Lsum (fun n => zero_field n 0%nat) (N0 mp) = 0) by (apply Lsum_all_zero; reflexivity). rewrite Z0.
  pose proof (div_flux h mp per (E0 mp per) E' 1 bv HG (proj1 Hh) (ep0 mp per HG) HE') as DF. rewrite Rmult_1_l in DF. change (fun (_ : list Z) (_ : nat) => 1) with (constant 1) in DF. fold D mv in DF. rewrite DF.
  rewrite (flux_ext h mv per E' bv (boundary_data D mv per bc h)); auto; [reflexivity|].
  intros n s Hn Hs Ho. rewrite Lv in Hs. assert (Hd : (fst s < D)%nat). { unfold sides in Hs. apply in_flat_map in Hs as (x & Hx & Hs). apply in_seq in Hx. destruct Hs as [<-|[<-|[]]]; cbn; lia. }
  apply V; auto. apply C30_constrained_iff. unfold on_side in Ho. apply andb_true_iff in Ho as [O1 O2]. apply negb_true_iff in O1. apply Z.eqb_eq in O2. exists (fst s), (snd s). split; [exact Hd|]. split; [exact O1|]. split; [exact O2|]. apply (HB s Hs O1).
Qed.

Lemma Lsum_at {A} (f : A -> R) (a : A) l : NoDup l -> In a l -> (forall b, In b l -> b <> a -> f b = 0) -> Lsum f l = f a.
Proof.
  induction l as [|x l IH]; intros HN Hin H0; [destruct Hin|]. inversion HN as [|? ? N1 N2]; subst. rewrite Lsum_cons. destruct Hin as [->|Hin].
  - rewrite Lsum_all_zero; [ring|]. intros b Hb. apply H0; [right; exact Hb|]. intros ->. contradiction.
  - rewrite IH; auto; [|intros; apply H0; auto; right; auto]. rewrite H0; [ring|left; reflexivity|]. intros ->. contradiction.
Qed.
(** ** a moving lid on a square cavity: at a corner the condition of the last side wins, so the lid's velocity leaks through the two side walls *)
Definition lid (g : R -> R) : list bc_row :=
  [[Some (fun _ => 0); Some (fun _ => 0)]; [Some (fun _ => 0); Some (fun _ => 0)]; [Some (fun _ => 0); Some (fun _ => 0)]; [Some (fun p => g (nth 0 p 0)); Some (fun _ => 0)]].
Section Lid.
  Variables (m0 m1 : Z) (h0 h1 : R) (g : R -> R).
  Hypothesis HM : (2 <= m0 /\ 2 <= m1)%Z.
  Let mv := refined_size [m0; m1] [false; false].
  Lemma lid_x i j : (0 <= i < 2 * m0 - 1)%Z -> (0 <= j < 2 * m1 - 1)%Z -> boundary_data 2 mv [false; false] (lid g) [h0; h1] [i; j] 0%nat = if (j =? 2 * m1 - 2)%Z then g (IZR i * h0) else 0.
  Proof.
    intros Hi Hj. unfold boundary_data, prescribed, mv, refined_size. cbn [zip_with sides flat_map seq app fold_left]. unfold on_side. cbn [fst snd nth negb andb side_index Nat.mul Nat.add lid].
    replace (2 * m1 - 1 - 1)%Z with (2 * m1 - 2)%Z by ring.
    destruct (i =? 0)%Z, (i =? 2 * m0 - 1 - 1)%Z, (j =? 0)%Z, (j =? 2 * m1 - 2)%Z; reflexivity.
  Qed.
  Lemma lid_y i j : boundary_data 2 mv [false; false] (lid g) [h0; h1] [i; j] 1%nat = 0.
  Proof.
    unfold boundary_data, prescribed, mv, refined_size. cbn [zip_with sides flat_map seq app fold_left]. unfold on_side. cbn [fst snd nth negb andb side_index Nat.mul Nat.add lid].
    destruct (i =? 0)%Z, (i =? 2 * m0 - 1 - 1)%Z, (j =? 0)%Z, (j =? 2 * m1 - 1 - 1)%Z; reflexivity.
  Qed.
  Lemma lid_flux E : enumerates E (cells_box mv [false; false]) -> flux [h0; h1] mv [false; false] E (boundary_data 2 mv [false; false] (lid g) [h0; h1]) = h1 / 2 * (g (IZR (2 * (m0 - 1)) * h0) - g 0).
  Proof.
    intros [HN HE]. set (w := boundary_data 2 mv [false; false] (lid g) [h0; h1]).
    assert (IC : forall i j, In [i; j] E <-> (0 <= i < 2 * m0 - 2)%Z /\ (0 <= j < 2 * m1 - 2)%Z).
    { intros i j. rewrite HE. unfold in_grid_box, cells_box, mv, refined_size. cbn [zip_with map bottom_left upper_right]. split.
      - intros [A B]. remember (2 * m0 - 1 - 1)%Z as a0 eqn:Ea. remember (2 * m1 - 1 - 1)%Z as a1 eqn:Eb. inversion A as [|? ? ? ? A1 A2]; subst x y l l'. inversion A2; subst x y l l'. inversion B as [|? ? ? ? B1 B2]; subst x y l l'. inversion B2; subst x y l l'. lia.
      - intros [A B]. split; repeat constructor; lia. }
    assert (I2 : forall e, In e E -> exists i j, e = [i; j]).
    { intros e He. apply HE in He. destruct He as [A _]. unfold cells_box, mv, refined_size in A. cbn [zip_with map bottom_left] in A. inversion A as [|? i ? t A1 A2]; subst. inversion A2 as [|? j ? t' A3 A4]; subst. inversion A4; subst. exists i, j. reflexivity. }
    transitivity (Lsum (fun e => if (nth 0 e 0 + 2 =? 2 * m0 - 1)%Z && (nth 1 e 0 + 2 =? 2 * m1 - 1)%Z then h1 / 2 * g (IZR (2 * (m0 - 1)) * h0) else 0) E - Lsum (fun e => if (nth 0 e 0 =? 0)%Z && (nth 1 e 0 + 2 =? 2 * m1 - 1)%Z then h1 / 2 * g 0 else 0) E).
    - rewrite <- Lsum_minus. unfold flux. apply Lsum_ext. intros e He. destruct (I2 e He) as (i & j & ->). apply IC in He as [Hi Hj].
      change (length mv) with 2%nat. cbn [Rsum nth]. unfold face_area, face_mean. change (length mv) with 2%nat. cbn [firstn skipn app fold_right Rsum Nat.pow Nat.mul Nat.add Nat.div Nat.modulo Nat.divmod fst snd Nat.sub Nat.eqb pow].
      unfold gv, corner. cbn [length seq zip_with Nat.div Nat.modulo Nat.divmod fst snd Nat.sub Nat.pow Nat.mul Nat.add Z.of_nat Pos.of_succ_nat]. change (nth 0 mv 0%Z) with (2 * m0 - 1)%Z. change (nth 1 mv 0%Z) with (2 * m1 - 1)%Z.
      rewrite !Z.add_0_r.
      assert (WR : forall a b, wrap mv [false; false] [a; b] = [a; b]) by reflexivity. rewrite !WR. unfold w. rewrite !lid_y, !lid_x by lia.
      assert (Ej : (j =? 2 * m1 - 2)%Z = false) by (apply Z.eqb_neq; lia). rewrite Ej.
      replace (j + 1 =? 2 * m1 - 2)%Z with (j + 2 =? 2 * m1 - 1)%Z by (destruct (Z.eqb_spec (j + 2) (2 * m1 - 1)), (Z.eqb_spec (j + 1) (2 * m1 - 2)); lia || reflexivity).
      destruct (Z.eqb_spec (i + 2) (2 * m0 - 1)) as [E0|], (Z.eqb_spec i 0) as [->|], (Z.eqb_spec (j + 2) (2 * m1 - 1)), (Z.eqb_spec (j + 2) (2 * m1 - 1)); cbn [andb]; try lia;
        try (replace (i + 1)%Z with (2 * (m0 - 1))%Z by lia); try (replace (0 + 1)%Z with (2 * (m0 - 1))%Z by lia); rewrite ?Rmult_0_l; try field; destruct (j =? 0)%Z; field.
    - rewrite (Lsum_at _ [2 * m0 - 3; 2 * m1 - 3]%Z E HN), (Lsum_at _ [0; 2 * m1 - 3]%Z E HN).
      + cbn [nth]. rewrite !(proj2 (Z.eqb_eq _ _)) by lia. cbn [andb]. ring.
      + apply IC; lia.
      + intros e He Ne. destruct (I2 e He) as (i & j & ->). cbn [nth]. destruct (Z.eqb_spec i 0), (Z.eqb_spec (j + 2) (2 * m1 - 1)); cbn [andb]; try reflexivity. exfalso. apply Ne. f_equal; [lia|f_equal; lia].
      + apply IC; lia.
      + intros e He Ne. destruct (I2 e He) as (i & j & ->). cbn [nth]. destruct (Z.eqb_spec (i + 2) (2 * m0 - 1)), (Z.eqb_spec (j + 2) (2 * m1 - 1)); cbn [andb]; try reflexivity. exfalso. apply Ne. f_equal; [lia|f_equal; lia].
  Qed.
End Lid.
Definition zeros : bc_row := [None; None].
(** Every wall is impermeable on its own: the three fixed walls prescribe 0 and the lid prescribes a velocity along itself.
    The driver's right-hand side is nevertheless reached only if the lid moves at the same speed at its two ends. *)
Theorem C67_lid_solvable_iff : forall (strain : bool) m0 m1 h0 h1 g dms rhs, let mp := [m0; m1] in let per := [false; false] in
  (2 <= m0)%Z -> (2 <= m1)%Z -> (3 <= m0 \/ 3 <= m1)%Z -> 0 < h0 -> 0 < h1 -> stokes_layout mp per 2 dms -> nonempty_views (map fst dms) ->
  exists bv, setup_RHS 2 zeros (map Some (lid g)) [h0; h1] (map fst dms) rhs = Ok bv /\
    (has_solution strain [h0; h1] mp per (lid g) dms bv zero_field <-> g 0 = g (IZR (2 * (m0 - 1)) * h0)).
Proof.
  intros strain m0 m1 h0 h1 g dms rhs mp per M0 M1 Hw P0 P1 HS HN.
  assert (HG : grid_ok mp per). { split; [left; reflexivity|]. split; [reflexivity|]. repeat constructor; lia. }
  assert (HC : has_cells mp per) by (constructor; [right; exact M0|constructor; [right; exact M1|constructor]]).
  assert (H1 : at_most_one_thin mp per). { unfold at_most_one_thin, mp, per. cbn [combine filter fst snd]. unfold thin. cbn [negb andb]. destruct (Z.ltb_spec m0 3), (Z.ltb_spec m1 3); cbn; lia. }
  assert (Hh : steps_ok [h0; h1] mp) by (split; [reflexivity|constructor; [exact P0|constructor; [exact P1|constructor]]]).
  assert (HT : table_ok 2 2 (lid g)) by (split; [reflexivity|repeat constructor]).
  assert (HB : normal_conditions 2 per (lid g)). { intros s Hs _. cbn in Hs. destruct Hs as [<-|[<-|[<-|[<-|[]]]]]; cbn; discriminate. }
  assert (HH : held strain 2 (refined_size mp per) per (lid g)).
  { unfold held. destruct strain.
    - exists (0%nat, false). split; [cbn; auto|]. split; [reflexivity|]. intros c Hc. destruct c as [|[|]]; [| |lia]; cbn; discriminate.
    - intros c Hc. exists [0; 0]%Z. split; [unfold mp, per, refined_size; split; cbn [zip_with nodes_box bottom_left upper_right map]; repeat (constructor; [lia|]); constructor|].
      apply C30_constrained_iff. exists 0%nat, false. split; [lia|]. split; [reflexivity|]. split; [reflexivity|]. destruct c as [|[|]]; [| |lia]; cbn; discriminate. }
  destruct (C67_setup_solvable_iff_no_net_flux strain [h0; h1] mp per (lid g) zeros dms rhs HG HC H1 Hh HS HN HT HH HB eq_refl) as (bv & E & S).
  exists bv. split; [exact E|]. pose proof (refined_grid mp per HG) as HGv. specialize (S (E0 (refined_size mp per) per) (E0_enum _ _ (proj1 (proj2 HGv)))).
  etransitivity; [exact S|]. assert (LF : flux [h0; h1] (refined_size mp per) per (E0 (refined_size mp per) per) (boundary_data (length mp) (refined_size mp per) per (lid g) [h0; h1]) = h1 / 2 * (g (IZR (2 * (m0 - 1)) * h0) - g 0)) by exact (lid_flux m0 m1 h0 h1 g (conj M0 M1) _ (E0_enum _ _ (proj1 (proj2 HGv)))). rewrite LF. split; intros K; [|rewrite K; ring]. apply Rmult_integral in K as [K|K]; lra.
Qed.
Definition lid_dms := createMesh [3; 3]%Z [false; false] [[3]; [3]]%Z.
Example lid_layout : stokes_layout [3; 3]%Z [false; false] 2 lid_dms.
Proof. apply (C28_createMesh_layout [3; 3]%Z [false; false] [[3]; [3]]%Z eq_refl). repeat constructor; simpl; try lia; try discriminate. Qed.
(** a lid moving at the speed of its abscissa: each wall is impermeable on its own, the driver's system has no solution *)
Theorem C67_lid_refuted : forall (strain : bool), exists (bc : list bc_row) bv,
  stokes_layout [3; 3]%Z [false; false] 2 lid_dms /\ nonempty_views (map fst lid_dms) /\ table_ok 2 2 bc /\ all_conditions 2 2 [false; false] bc /\
  (forall s p, In s (sides 2) -> match nth (fst s) (nth (side_index s) bc []) None with Some f => f p = 0 | None => False end) /\
  setup_RHS 2 zeros (map Some bc) [1/7; 1/3] (map fst lid_dms) zero_field = Ok bv /\ ~ has_solution strain [1/7; 1/3] [3; 3]%Z [false; false] bc lid_dms bv zero_field.
Proof.
  intros strain. assert (HN : nonempty_views (map fst lid_dms)) by (unfold lid_dms; vm_compute; repeat constructor).
  destruct (C67_lid_solvable_iff strain 3%Z 3%Z (1/7) (1/3) (fun x => x) lid_dms zero_field ltac:(lia) ltac:(lia) ltac:(lia) ltac:(lra) ltac:(lra) lid_layout HN) as (bv & E & S).
  exists (lid (fun x => x)), bv. split; [exact lid_layout|]. split; [exact HN|]. split; [split; [reflexivity|repeat constructor]|].
  split; [intros s c Hs _ Hc; cbn in Hs; destruct c as [|[|]]; [| |lia]; destruct Hs as [<-|[<-|[<-|[<-|[]]]]]; cbn; discriminate|].
  split; [intros s p Hs; cbn in Hs; destruct Hs as [<-|[<-|[<-|[<-|[]]]]]; reflexivity|].
  split; [exact E|]. intros K. apply S in K. change (2 * (3 - 1))%Z with 4%Z in K. lra.
Qed.
(** if the value that wins at each node of each wall has no component through that wall, there is a solution *)
Theorem C67_impermeable_solvable : forall (strain : bool) h mp per bc conds dms rhs, let D := length mp in let mv := refined_size mp per in
  grid_ok mp per -> has_cells mp per -> at_most_one_thin mp per -> steps_ok h mp -> stokes_layout mp per D dms -> nonempty_views (map fst dms) -> table_ok D D bc ->
  held strain D mv per bc -> normal_conditions D per bc -> length conds = D ->
  (forall n s, in_grid_box (nodes_box mv) n -> In s (sides D) -> on_side mv per n s = true -> boundary_data D mv per bc h n (fst s) = 0) ->
  exists bv, setup_RHS D conds (map Some bc) h (map fst dms) rhs = Ok bv /\ has_solution strain h mp per bc dms bv zero_field.
Proof.
  intros strain h mp per bc conds dms rhs D mv HG HC H1 Hh HS HN HT HH HB Lc HI. pose proof (refined_grid mp per HG) as HGv. pose proof (E0_enum _ _ (proj1 (proj2 HGv))) as HE.
  destruct (C67_setup_solvable_iff_no_net_flux strain h mp per bc conds dms rhs HG HC H1 Hh HS HN HT HH HB Lc) as (bv & E & S). exists bv. split; [exact E|]. apply (S _ HE).
  assert (Lv : length mv = D) by (unfold mv, refined_size; rewrite length_zip_with; auto; symmetry; apply HG).
  fold D mv. rewrite (flux_ext h mv per _ _ zero_field HGv HE); [|intros n s Hn Hs Ho; rewrite Lv in Hs; apply (HI n s Hn Hs Ho)].
  unfold flux. apply Lsum_all_zero. intros e _. rewrite (Rsum_ext _ _ (fun _ => 0)); [apply Rsum_zero|]. intros d _. destruct (nth d per false); [reflexivity|].
  assert (F : forall up, face_mean mv per zero_field e d up = 0). { intros up. unfold face_mean, gv, zero_field. rewrite (Rsum_ext _ _ (fun _ => 0)); [|intros k _; destruct (Nat.eqb _ _); reflexivity]. rewrite Rsum_zero. unfold Rdiv. ring. }
  rewrite !F. destruct (_ =? _)%Z, (_ =? _)%Z; ring.
Qed.
