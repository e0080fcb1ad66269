(** C34: interpolation on a refined grid. *)
From Verif Require Import Base M_Geometry M_Particle M_Quadrature S_Geometry S_Particle S_Fem M_Mesh M_Operator S_Operator P_Geometry P_Particle P_Mesh P_Operator M_Vec M_Interp Prop_Vec.
Open Scope R_scope.

(** ** specification: linear interpolation along one axis, bilinear interpolation *)
(** value at the fraction i/n of the way from p to p+1 *)
Definition lin1 (n : nat) (f : Z -> R) (p : Z) (i : nat) : R := (1 - INR i / INR n) * f p + INR i / INR n * f (p + 1)%Z.
Definition bilinear (n0 n1 : nat) (u : list Z -> R) (p0 p1 : Z) (i j : nat) : R := lin1 n1 (fun q => lin1 n0 (fun p => u [p; q]) p0 i) p1 j.

Lemma lin1_ext n f g p i : (forall q, f q = g q) -> lin1 n f p i = lin1 n g p i.
Proof. intros E. unfold lin1. rewrite !E. reflexivity. Qed.
Lemma lin1_glue n f p p' i i' : (0 < n)%nat -> (i <= n)%nat -> (i' <= n)%nat -> (Z.of_nat i + p * Z.of_nat n = Z.of_nat i' + p' * Z.of_nat n)%Z -> lin1 n f p i = lin1 n f p' i'.
Proof.
  intros Hn Hi Hi' E. assert (HN : INR n <> 0) by (apply not_0_INR; lia). unfold lin1.
  assert (C : (p = p' /\ i = i') \/ (p' = p + 1 /\ i = n /\ i' = 0%nat)%Z \/ (p = p' + 1 /\ i' = n /\ i = 0%nat)%Z).
  { destruct (Z.lt_trichotomy p p') as [L|[L|L]]; [right; left|left|right; right].
    - assert (p' = p + 1)%Z by nia. subst p'. repeat split; nia.
    - subst p'. split; [reflexivity|lia].
    - assert (p = p' + 1)%Z by nia. subst p. repeat split; nia. }
  destruct C as [(-> & ->)|[(-> & -> & ->)|(-> & -> & ->)]]; [reflexivity| |]; cbn [INR]; field; exact HN.
Qed.

Lemma store_in m a v : (0 <= a < m_size m)%Z -> store m a v = Ok (mkmem (m_size m) (fun y => if (a =? y)%Z then v else m_val m y)).
Proof. intros H. unfold store, in_mem. destruct (Z.leb_spec 0 a), (Z.ltb_spec a (m_size m)); try lia. reflexivity. Qed.
Lemma load_in m a : (0 <= a < m_size m)%Z -> load m a = Ok (m_val m a).
Proof. intros H. unfold load, in_mem. destruct (Z.leb_spec 0 a), (Z.ltb_spec a (m_size m)); try lia. reflexivity. Qed.
Section Point.
Variables (bc br : box Z) (n0 n1 : nat) (h0 h1 : R) (x : lvec) (mc : mem).
Hypothesis (Hn0 : (0 < n0)%nat) (Hn1 : (0 < n1)%nat) (Hh0 : h0 <> 0) (Hh1 : h1 <> 0).
Hypothesis (Hbc : lv_box x = bc) (Hdof : lv_dof x = 2%nat) (Hst : stores mc x) (Hdc : has_dim 2 bc) (Hdr : has_dim 2 br).
Notation point := (interp_point bc br 2 2 n0 n1 h0 h1 mc).
Definition rnode (p0 p1 : Z) (i j : nat) : list Z := [(Z.of_nat i + p0 * Z.of_nat n0)%Z; (Z.of_nat j + p1 * Z.of_nat n1)%Z].
Lemma load_coarse q d : in_grid_box bc q -> (d < 2)%nat -> exists a, at_ bc 2 q = Ok a /\ load mc (a + Z.of_nat d) = Ok (lv_val x q d).
Proof.
  intros Hq Hd. destruct (C50_accessor_reads_and_adds_at_its_node mc x q d 0 ltac:(rewrite Hbc; auto) Hst ltac:(rewrite Hbc; auto) ltac:(lia)) as (a & _ & _ & E & L & _). rewrite Hbc, Hdof in E. eauto.
Qed.
(** accumulation of the four contributions on two consecutive slots *)
Lemma point_ok p0 p1 i j mr u : m_size mr = vec_size br 2 -> at_ br 2 (rnode p0 p1 i j) = Ok u -> in_grid_box br (rnode p0 p1 i j) ->
  (forall k, (k < 4)%nat -> in_grid_box bc (nth k (get_element [p0; p1]) [])) ->
  exists mr', point [p0; p1] i j mr = Ok mr' /\ m_size mr' = m_size mr /\
   (forall d, (d < 2)%nat -> m_val mr' (u + Z.of_nat d) = bilinear n0 n1 (fun q => lv_val x q d) p0 p1 i j) /\
   (forall a, (a <> u)%Z -> (a <> u + 1)%Z -> m_val mr' a = m_val mr a).
Proof.
  intros Hs Hu Hb Hc. destruct (C50_own_storage br 2 (rnode p0 p1 i j) (or_introl Hdr) ltac:(lia) Hb) as (u' & Eu & Bu & _). change (Z.of_nat 2) with 2%Z in Eu, Bu. rewrite Hu in Eu. injection Eu as <-.
  pose proof (Bu 0%nat ltac:(lia)) as U0. pose proof (Bu 1%nat ltac:(lia)) as U1. rewrite <- Hs in U0, U1. change (Z.of_nat 0) with 0%Z in *. change (Z.of_nat 1) with 1%Z in *.
  unfold interp_point. cbn [nth]. change ([(Z.of_nat i + p0 * Z.of_nat n0)%Z; (Z.of_nat j + p1 * Z.of_nat n1)%Z]) with (rnode p0 p1 i j). rewrite Hu. cbn [bind].
  set (bf := P1_integration2 _ _). unfold for_ at 1. cbn [seq fold_left bind]. change (Z.of_nat 0) with 0%Z. change (Z.of_nat 1) with 1%Z. rewrite store_in by lia. cbn [bind]. rewrite store_in by (cbn [m_size]; lia). cbn [bind m_size].
  (* one vertex *)
  assert (K : forall k w e0 e1 m, (k < 4)%nat -> m_size m = m_size mr -> m_val m (u + 0)%Z = e0 -> m_val m (u + 1)%Z = e1 -> (forall a, (a <> u)%Z -> (a <> u + 1)%Z -> m_val m a = m_val mr a) ->
    exists m', bind (at_ bc 2 (nth k (get_element [p0; p1]) [])) (fun a => for_ 2 (fun d m => bind (load mc (a + Z.of_nat d)) (fun x => bind (load m (u + Z.of_nat d)) (fun y => store m (u + Z.of_nat d) (y + x * w)))) m) = Ok m' /\
    m_size m' = m_size mr /\ m_val m' (u + 0)%Z = e0 + lv_val x (nth k (get_element [p0; p1]) []) 0%nat * w /\ m_val m' (u + 1)%Z = e1 + lv_val x (nth k (get_element [p0; p1]) []) 1%nat * w /\ (forall a, (a <> u)%Z -> (a <> u + 1)%Z -> m_val m' a = m_val mr a)).
  { intros k w e0 e1 m Hk Sm V0 V1 Vo. destruct (load_coarse _ 0%nat (Hc k Hk) ltac:(lia)) as (a & Ea & L0). destruct (load_coarse _ 1%nat (Hc k Hk) ltac:(lia)) as (a' & Ea' & L1). rewrite Ea in Ea'. injection Ea' as <-.
    rewrite Ea. cbn [bind]. unfold for_. cbn [seq fold_left bind]. rewrite L0. cbn [bind]. change (Z.of_nat 0) with 0%Z. change (Z.of_nat 1) with 1%Z. rewrite load_in by lia. cbn [bind]. rewrite store_in by lia. cbn [bind]. change 1%Z with (Z.of_nat 1) at 1. rewrite L1. cbn [bind].
    change (Z.of_nat 1) with 1%Z. rewrite load_in by (cbn [m_size]; lia). cbn [bind m_val]. rewrite store_in by (cbn [m_size]; lia). eexists. split; [reflexivity|]. cbn [m_size m_val].
    destruct (Z.eqb_spec (u + 1) (u + 0)); [lia|]. destruct (Z.eqb_spec (u + 0) (u + 0)); [|lia]. destruct (Z.eqb_spec (u + 0) (u + 1)); [lia|]. destruct (Z.eqb_spec (u + 1) (u + 1)); [|lia].
    split; [exact Sm|]. split; [rewrite V0; reflexivity|]. split; [rewrite V1; reflexivity|]. intros b Hb0 Hb1. destruct (Z.eqb_spec (u + 1) b); [lia|]. destruct (Z.eqb_spec (u + 0) b); [lia|]. auto. }
  assert (LB : length bf = 4%nat) by reflexivity. rewrite LB. unfold for_ at 1. cbn [seq fold_left bind].
  set (m0 := mkmem _ _).
  assert (M0 : m_val m0 (u + 0)%Z = 0 /\ m_val m0 (u + 1)%Z = 0 /\ (forall a, (a <> u)%Z -> (a <> u + 1)%Z -> m_val m0 a = m_val mr a)).
  { unfold m0. cbn [m_val]. destruct (Z.eqb_spec (u + 1) (u + 0)); [lia|]. destruct (Z.eqb_spec (u + 0) (u + 0)); [|lia]. destruct (Z.eqb_spec (u + 1) (u + 1)); [|lia]. split; [reflexivity|]. split; [reflexivity|].
    intros b Hb0 Hb1. destruct (Z.eqb_spec (u + 1) b); [lia|]. destruct (Z.eqb_spec (u + 0) b); [lia|]. reflexivity. }
  destruct M0 as (Z0 & Z1 & Zo).
  destruct (K 0%nat (nth 0 bf 0) 0 0 m0 ltac:(lia) eq_refl Z0 Z1 Zo) as (m1 & E1 & S1 & V10 & V11 & V1o). cbn [nth get_element get_element2] in E1 |- *. rewrite E1. cbn [bind].
  destruct (K 1%nat (nth 1 bf 0) _ _ m1 ltac:(lia) S1 V10 V11 V1o) as (m2 & E2 & S2 & V20 & V21 & V2o). cbn [nth get_element get_element2] in E2 |- *. rewrite E2. cbn [bind].
  destruct (K 2%nat (nth 2 bf 0) _ _ m2 ltac:(lia) S2 V20 V21 V2o) as (m3 & E3 & S3 & V30 & V31 & V3o). cbn [nth get_element get_element2] in E3 |- *. rewrite E3. cbn [bind].
  destruct (K 3%nat (nth 3 bf 0) _ _ m3 ltac:(lia) S3 V30 V31 V3o) as (m4 & E4 & S4 & V40 & V41 & V4o). cbn [nth get_element get_element2] in E4 |- *. rewrite E4.
  exists m4. split; [reflexivity|]. split; [exact S4|]. split; [|exact V4o].
  assert (N0 : INR n0 <> 0) by (apply not_0_INR; lia). assert (N1 : INR n1 <> 0) by (apply not_0_INR; lia).
  intros d Hd. assert (D : d = 0%nat \/ d = 1%nat) by lia. destruct D as [->| ->]; [change (Z.of_nat 0) with 0%Z; rewrite V40|change (Z.of_nat 1) with 1%Z; rewrite V41];
    cbn [nth get_element get_element2]; unfold bf, P1_integration2, bilinear, lin1; cbn [nth]; field; auto.
Qed.
End Point.

Lemma flat_map_single {A B} (f : A -> B) l : flat_map (fun x => [f x]) l = map f l.
Proof. induction l; cbn; congruence. Qed.
(** ** equal refinement: the velocity pass computes the bilinear interpolation *)
Section Equal.
Variables (bc br : box Z) (n : nat) (h0 h1 : R) (x : lvec) (mc : mem) (cells : list (list Z)).
Hypothesis (Hn : (0 < n)%nat) (Hh0 : h0 <> 0) (Hh1 : h1 <> 0).
Hypothesis (Hbc : lv_box x = bc) (Hdof : lv_dof x = 2%nat) (Hst : stores mc x) (Hdc : has_dim 2 bc) (Hdr : has_dim 2 br).
Definition step (m : mem) (t : list Z * nat * nat) : outcome mem := let '(pos, i, j) := t in interp_point bc br 2 2 n n h0 h1 mc pos i j m.
Definition good (t : list Z * nat * nat) : Prop := let '(pos, i, j) := t in exists p0 p1, pos = [p0; p1] /\ (i <= n)%nat /\ (j <= n)%nat /\ in_grid_box br (rnode n n p0 p1 i j) /\ (forall k, (k < 4)%nat -> in_grid_box bc (nth k (get_element [p0; p1]) [])).
Definition right (m : mem) (t : list Z * nat * nat) : Prop := let '(pos, i, j) := t in forall u d, (d < 2)%nat -> at_ br 2 (rnode n n (nth 0 pos 0%Z) (nth 1 pos 0%Z) i j) = Ok u ->
  m_val m (u + Z.of_nat d) = bilinear n n (fun q => lv_val x q d) (nth 0 pos 0%Z) (nth 1 pos 0%Z) i j.
Lemma runs_right l : forall done m, (forall t, In t (done ++ l) -> good t) -> (forall t, In t done -> right m t) -> m_size m = vec_size br 2 ->
  exists m', runs step m l = Ok m' /\ m_size m' = vec_size br 2 /\ forall t, In t (done ++ l) -> right m' t.
Proof.
  induction l as [|[[pos i] j] l IH]; intros done m Hg Hr Hs.
  - exists m. split; [reflexivity|]. split; [exact Hs|]. intros t Ht. rewrite app_nil_r in Ht. auto.
  - destruct (Hg (pos, i, j)) as (p0 & p1 & -> & Hi & Hj & Hin & Hc); [apply in_or_app; right; left; reflexivity|].
    destruct (C50_own_storage br 2 _ (or_introl Hdr) ltac:(lia) Hin) as (u & Eu & _ & Uq). change (Z.of_nat 2) with 2%Z in Eu, Uq.
    destruct (point_ok bc br n n h0 h1 x mc Hn Hn Hh0 Hh1 Hbc Hdof Hst Hdc Hdr p0 p1 i j m u Hs Eu Hin Hc) as (m1 & E1 & S1 & V1 & O1).
    assert (Hr1 : forall t, In t (done ++ [([p0; p1], i, j)]) -> right m1 t).
    { intros [[pos' i'] j'] Ht u' d Hd Eu'. assert (Gt : good (pos', i', j')) by (apply Hg; apply in_app_or in Ht as [Ht|[Ht|[]]]; apply in_or_app; [left; exact Ht|right; left; exact Ht]).
      destruct Gt as (q0 & q1 & -> & Hi' & Hj' & Hin' & _). cbn [nth] in *.
      destruct (Z.eq_dec (u' + Z.of_nat d) u) as [EQ|NE]; [|destruct (Z.eq_dec (u' + Z.of_nat d) (u + 1)) as [EQ|NE2]].
      - destruct (Uq _ u' 0%nat d Hin' Eu' ltac:(lia) Hd ltac:(lia)) as [EN <-]. unfold rnode in EN. injection EN as EN0 EN1. replace (u' + Z.of_nat 0)%Z with (u + Z.of_nat 0)%Z by lia. rewrite V1 by lia.
        unfold bilinear. rewrite (lin1_glue n _ p1 q1 j j' Hn Hj Hj' EN1). apply lin1_ext. intros q. apply lin1_glue; auto.
      - destruct (Uq _ u' 1%nat d Hin' Eu' ltac:(lia) Hd ltac:(lia)) as [EN <-]. unfold rnode in EN. injection EN as EN0 EN1. replace (u' + Z.of_nat 1)%Z with (u + Z.of_nat 1)%Z by lia. rewrite V1 by lia.
        unfold bilinear. rewrite (lin1_glue n _ p1 q1 j j' Hn Hj Hj' EN1). apply lin1_ext. intros q. apply lin1_glue; auto.
      - rewrite O1 by lia. apply in_app_or in Ht as [Ht|[Ht|[]]].
        + apply (Hr _ Ht u' d Hd Eu').
        + injection Ht as <- <- <- <-. rewrite Eu in Eu'. injection Eu' as <-. destruct d as [|[|d]]; lia. }
    destruct (IH (done ++ [([p0; p1], i, j)]) m1) as (m' & E' & S' & R'); [rewrite <- app_assoc; exact Hg|exact Hr1|congruence|].
    exists m'. rewrite <- app_assoc in R'. split; [|split; [exact S'|exact R']]. unfold runs in *. cbn [fold_left bind]. unfold step at 2. rewrite E1. exact E'.
Qed.
End Equal.

Theorem C34_velocity : forall (dmc dmr : dmda) (n : nat) (h0 h1 : R) (x : lvec) (mc mr : mem) (m : list Z) (per : list bool),
  (0 < n)%nat -> h0 <> 0 -> h1 <> 0 -> length m = 2%nat -> grid_ok m per -> view_ok m per 2 dmc -> lv_box x = g_ghost dmc -> lv_dof x = 2%nat -> stores mc x ->
  has_dim 2 (g_ghost dmr) -> g_dof dmr = 2%nat -> m_size mr = vec_size (g_ghost dmr) 2 ->
  let node p0 p1 i j := [(Z.of_nat i + p0 * Z.of_nat n)%Z; (Z.of_nat j + p1 * Z.of_nat n)%Z] in
  (forall p0 p1 i j, in_grid_box (get_DM_bounds dmc true) [p0; p1] -> (i <= n)%nat -> (j <= n)%nat -> in_grid_box (g_ghost dmr) (node p0 p1 i j)) ->
  exists mr', linear_interpolation dmc dmr n n h0 h1 mc mr = Ok mr' /\
  forall p0 p1 i j d u, in_grid_box (get_DM_bounds dmc true) [p0; p1] -> (i <= n)%nat -> (j <= n)%nat -> (d < 2)%nat -> at_ (g_ghost dmr) 2 (node p0 p1 i j) = Ok u ->
    load mr' (u + Z.of_nat d) = Ok (bilinear n n (fun q => lv_val x q d) p0 p1 i j).
Proof.
  intros dmc dmr n h0 h1 x mc mr m per Hn Hh0 Hh1 Lm HG HV Hb Hd Hst Hdr Hdr2 Hs node Hin.
  destruct (view_dims m per 2 dmc HV ltac:(apply HG)) as (_ & VB & VG). rewrite Lm in VB, VG.
  assert (HC : forall p0 p1 k, in_grid_box (get_DM_bounds dmc true) [p0; p1] -> (k < 4)%nat -> in_grid_box (g_ghost dmc) (nth k (get_element [p0; p1]) [])).
  { intros p0 p1 k Hp Hk. destruct HV as (V1 & V2 & V3 & V4 & V5 & V6 & V7). destruct Hp as [P1 P2]. unfold get_DM_bounds in P1, P2. rewrite V1, V2 in *. cbn [bottom_left upper_right] in P1, P2. rewrite V7. unfold ghost_box.
    apply (ghost_contains _ _ m per [p0; p1]); auto; [apply HG|]. apply get_element_near, nth_In. exact Hk. }
  assert (PP : forall p, in_grid_box (get_DM_bounds dmc true) p -> exists p0 p1, p = [p0; p1]).
  { intros p [H1 _]. apply Forall2_len in H1. rewrite (proj1 VB) in H1. destruct p as [|a [|b [|? ?]]]; try discriminate. eauto. }
  unfold linear_interpolation. assert (V3 : g_dof dmc = 2%nat) by apply HV. rewrite V3, Hdr2. change (Z.of_nat 2) with 2%Z.
  set (cell := fun p => flat_map (fun j => map (fun i => (p, i, j)) (seq 0 (n + 1))) (seq 0 (n + 1)) : list (list Z * nat * nat)).
  rewrite (iterate_runs (step (g_ghost dmc) (g_ghost dmr) n h0 h1 mc) 2 _ _ cell _ VB).
  2:{ intros p s' Hp. unfold interp_kernel, cell. apply for_runs. intros j s2 Hj. rewrite <- flat_map_single. apply for_runs. intros i s3 Hi. reflexivity. }
  destruct (grid_pts_spec 2 _ VB) as (IN & _).
  assert (INC : forall p i j, In (p, i, j) (flat_map cell (grid_pts (get_DM_bounds dmc true))) <-> in_grid_box (get_DM_bounds dmc true) p /\ (i <= n)%nat /\ (j <= n)%nat).
  { intros p i j. rewrite in_flat_map. unfold cell. setoid_rewrite in_flat_map. setoid_rewrite in_map_iff. split.
    - intros (p' & Hp & j' & Hj & i' & E & Hi). injection E as <- <- <-. apply in_seq in Hi, Hj. split; [apply IN, Hp|lia].
    - intros (Hp & Hi & Hj). exists p. split; [apply IN, Hp|]. exists j. split; [apply in_seq; lia|]. exists i. split; [reflexivity|apply in_seq; lia]. }
  destruct (runs_right (g_ghost dmc) (g_ghost dmr) n h0 h1 x mc Hn Hh0 Hh1 Hb Hd Hst VG Hdr (flat_map cell (grid_pts (get_DM_bounds dmc true))) [] mr) as (mr' & E & Sz & RR).
  - intros [[p i] j] Ht. cbn [app] in Ht. apply INC in Ht as (Hp & Hi & Hj). destruct (PP p Hp) as (p0 & p1 & ->). exists p0, p1. split; [reflexivity|]. split; [exact Hi|]. split; [exact Hj|]. split; [apply Hin; auto|]. intros k Hk. apply HC; auto.
  - intros t [].
  - exact Hs.
  - exists mr'. split; [exact E|]. intros p0 p1 i j d u Hp Hi Hj Hdd Hu. destruct (C50_own_storage (g_ghost dmr) 2 (node p0 p1 i j) (or_introl Hdr) ltac:(lia) (Hin p0 p1 i j Hp Hi Hj)) as (u' & Eu & B & _). change (Z.of_nat 2) with 2%Z in Eu, B. rewrite Hu in Eu. injection Eu as <-.
    rewrite load_in by (rewrite Sz; apply B; auto). f_equal. apply (RR ([p0; p1], i, j)); auto. cbn [app]. apply INC. auto.
Qed.

(** ** on one process, a grid without periodic axis: every node of the refined grid *)
(** the grid seen by its only process *)
Definition whole (m0 m1 : Z) (dof : nat) : dmda := mkdmda [m0; m1] [false; false] (mkbox [0%Z; 0%Z] [m0; m1]) (mkbox [0%Z; 0%Z] [m0; m1]) dof.
Lemma whole_ok m0 m1 dof : (1 <= m0)%Z -> (1 <= m1)%Z -> grid_ok [m0; m1] [false; false] /\ view_ok [m0; m1] [false; false] dof (whole m0 m1 dof).
Proof.
  intros H0 H1. split; [split; [left; reflexivity|split; [reflexivity|repeat constructor; lia]]|]. repeat split; try (repeat constructor; lia).
  unfold ghost_box, whole. cbn. destruct (Z.eqb_spec m0 m0), (Z.eqb_spec m1 m1); try lia. f_equal; f_equal; lia || (f_equal; lia).
Qed.
Lemma whole_cells m0 m1 dof p0 p1 : in_grid_box (get_DM_bounds (whole m0 m1 dof) true) [p0; p1] <-> (0 <= p0 < m0 - 1 /\ 0 <= p1 < m1 - 1)%Z.
Proof.
  unfold get_DM_bounds, whole, in_grid_box. cbn. destruct (Z.eqb_spec m0 m0), (Z.eqb_spec m1 m1); try lia. cbn. split.
  - intros [A B]. inversion A as [|? ? ? ? A1 A2]; subst. inversion A2; subst. inversion B as [|? ? ? ? B1 B2]; subst. inversion B2; subst. lia.
  - intros [[A1 A2] [B1 B2]]. split; repeat constructor; lia.
Qed.
Lemma in_whole m0 m1 a b : in_grid_box (mkbox [0%Z; 0%Z] [m0; m1]) [a; b] <-> (0 <= a < m0 /\ 0 <= b < m1)%Z.
Proof.
  unfold in_grid_box. cbn. split.
  - intros [A B]. inversion A as [|? ? ? ? A1 A2]; subst. inversion A2; subst. inversion B as [|? ? ? ? B1 B2]; subst. inversion B2; subst. lia.
  - intros [[A1 A2] [B1 B2]]. split; repeat constructor; lia.
Qed.
(** the cell of a refined node along one axis: the last node belongs to the last cell *)
Lemma refined_cell (n : nat) m a : (0 < n)%nat -> (2 <= m)%Z -> (0 <= a < (m - 1) * Z.of_nat n + 1)%Z -> exists p i, (0 <= p < m - 1)%Z /\ (i <= n)%nat /\ (a = Z.of_nat i + p * Z.of_nat n)%Z.
Proof.
  intros Hn Hm Ha. destruct (Z.eq_dec a ((m - 1) * Z.of_nat n)) as [E|E].
  - exists (m - 2)%Z, n. split; [lia|]. split; [lia|]. nia.
  - pose proof (Z.div_mod a (Z.of_nat n) ltac:(lia)) as DM. pose proof (Z.mod_pos_bound a (Z.of_nat n) ltac:(lia)) as MB. exists (a / Z.of_nat n)%Z, (Z.to_nat (a mod Z.of_nat n)). split; [|split; lia]. nia.
Qed.
Theorem C34_velocity_single_process : forall (n : nat) (h0 h1 : R) (x : lvec) (mc mr : mem) (m0 m1 : Z),
  (0 < n)%nat -> h0 <> 0 -> h1 <> 0 -> (2 <= m0)%Z -> (2 <= m1)%Z ->
  let r0 := ((m0 - 1) * Z.of_nat n + 1)%Z in let r1 := ((m1 - 1) * Z.of_nat n + 1)%Z in
  let dmc := whole m0 m1 2 in let dmr := whole r0 r1 2 in
  lv_box x = g_ghost dmc -> lv_dof x = 2%nat -> stores mc x -> m_size mr = vec_size (g_ghost dmr) 2 ->
  exists mr', linear_interpolation dmc dmr n n h0 h1 mc mr = Ok mr' /\
  forall a b d, (0 <= a < r0)%Z -> (0 <= b < r1)%Z -> (d < 2)%nat ->
    exists u p0 p1 i j, at_ (g_ghost dmr) 2 [a; b] = Ok u /\ (0 <= p0 < m0 - 1)%Z /\ (0 <= p1 < m1 - 1)%Z /\ (i <= n)%nat /\ (j <= n)%nat /\ (a = Z.of_nat i + p0 * Z.of_nat n)%Z /\ (b = Z.of_nat j + p1 * Z.of_nat n)%Z /\
      load mr' (u + Z.of_nat d) = Ok (bilinear n n (fun q => lv_val x q d) p0 p1 i j).
Proof.
  intros n h0 h1 x mc mr m0 m1 Hn Hh0 Hh1 Hm0 Hm1 r0 r1 dmc dmr Hb Hd Hst Hs.
  destruct (whole_ok m0 m1 2 ltac:(lia) ltac:(lia)) as [HG HV].
  destruct (C34_velocity dmc dmr n h0 h1 x mc mr [m0; m1] [false; false] Hn Hh0 Hh1 eq_refl HG HV Hb Hd Hst ltac:(split; reflexivity) eq_refl Hs) as (mr' & E & V).
  - intros p0 p1 i j Hp Hi Hj. apply whole_cells in Hp. apply in_whole. unfold r0, r1. nia.
  - exists mr'. split; [exact E|]. intros a b d Ha Hb' Hdd. destruct (refined_cell n m0 a Hn Hm0 Ha) as (p0 & i & Hp0 & Hi & Ea). destruct (refined_cell n m1 b Hn Hm1 Hb') as (p1 & j & Hp1 & Hj & Eb).
    destruct (C50_own_storage (g_ghost dmr) 2 [a; b] ltac:(left; split; reflexivity) ltac:(lia)) as (u & Eu & _); [apply in_whole; auto|]. change (Z.of_nat 2) with 2%Z in Eu. exists u, p0, p1, i, j. repeat (split; [assumption|]).
    apply V; auto; [apply whole_cells; auto|]. rewrite <- Ea, <- Eb. exact Eu.
Qed.
(** a 3 x 2 grid refined 4 times with a velocity linear in the position, and its values *)
Example C34_example : exists mc x, stores mc x /\ lv_box x = g_ghost (whole 3 2 2) /\ lv_dof x = 2%nat /\ bilinear 4 4 (fun q => lv_val x q 1%nat) 1 0 2 3 = 3 / 2 + 10 * (3 / 4) + 1 / 8.
Proof.
  set (b := mkbox [0%Z; 0%Z] [3%Z; 2%Z]). set (v := fun (p : list Z) (d : nat) => IZR (nth 0 p 0%Z) + 10 * IZR (nth 1 p 0%Z) + INR d / 8).
  exists (mkmem 12 (fun a => v [((a / 2) mod 3)%Z; (a / 6)%Z] (Z.to_nat (a mod 2)))), (mklvec b 2 v). split; [|split; [reflexivity|split; [reflexivity|unfold bilinear, lin1, v; cbn [lv_val nth INR]; change (1 + 1)%Z with 2%Z; change (0 + 1)%Z with 1%Z; field]]].
  split; [reflexivity|]. cbn [lv_box lv_dof lv_val m_val]. intros p d a Hp Hd E. assert (L := Forall2_len _ _ _ (proj1 Hp)). destruct p as [|i [|j [|? ?]]]; try discriminate L.
  destruct (at_2 b 2 i j ltac:(split; reflexivity) Hp ltac:(lia)) as (F & B0 & B1 & _). change (Z.of_nat 2) with 2%Z in E. rewrite F in E. injection E as <-. cbn in B0, B1. unfold low, ext. cbn [b bottom_left upper_right nth].
  assert (Dd : (Z.of_nat d = 0 \/ Z.of_nat d = 1)%Z) by lia. set (c := (((j - 0) * (3 - 0) + (i - 0)) * 2 + Z.of_nat d)%Z).
  assert (C1 : (c mod 2 = Z.of_nat d)%Z) by (symmetry; apply Z.mod_unique with ((j - 0) * 3 + (i - 0))%Z; lia).
  assert (C2 : (c / 2 = j * 3 + i)%Z) by (symmetry; apply Z.div_unique with (Z.of_nat d); lia).
  assert (C3 : ((j * 3 + i) mod 3 = i)%Z) by (symmetry; apply Z.mod_unique with j; lia).
  assert (C4 : (c / 6 = j)%Z) by (symmetry; apply Z.div_unique with (i * 2 + Z.of_nat d)%Z; lia).
  rewrite C2, C3, C4, C1, Nat2Z.id. reflexivity.
Qed.

(** ** the pressure pass reads past the end of the coarse array *)
Lemma for_ok {S} n (body : nat -> S -> outcome S) s s' k : for_ n body s = Ok s' -> (k < n)%nat -> exists s1 s2, body k s1 = Ok s2.
Proof.
  intros E Hk. unfold for_ in E. assert (Hin : In k (seq 0 n)) by (apply in_seq; lia). clear Hk. revert s E Hin. generalize (seq 0 n) as l. induction l as [|c l IH]; intros s E Hin; [destruct Hin|]. cbn [fold_left bind] in E.
  destruct (body c s) as [s1| | |] eqn:B; try (rewrite bind_fail_fold in E by discriminate; discriminate).
  destruct Hin as [<-|Hin]; [eauto|]. eapply IH; eauto.
Qed.
Lemma iterate_ok {S} D b (f : list Z -> S -> outcome S) s s' p : has_dim D b -> iterate_o b f s = Ok s' -> in_grid_box b p -> exists s1 s2, f p s1 = Ok s2.
Proof.
  intros Hb E Hp. destruct (grid_pts_spec D b Hb) as (Hin & _ & _ & Hrun). unfold iterate_o in E. rewrite Hrun in E. apply Hin in Hp. clear - E Hp. revert s E Hp. generalize (grid_pts b) as l.
  induction l as [|c l IH]; intros s E Hin; [destruct Hin|]. cbn [fold_left bind] in E.
  destruct (f c s) as [s1| | |] eqn:B; try (rewrite bind_fail_fold in E by discriminate; discriminate).
  destruct Hin as [<-|Hin]; [eauto|]. eapply IH; eauto.
Qed.
Lemma whole_bounds_dim m0 m1 dof : has_dim 2 (get_DM_bounds (whole m0 m1 dof) true).
Proof. split; reflexivity. Qed.
(** whatever the values, the grid sizes and the refinement: no run on the pressure vector (one double per node) stays inside its arrays *)
Theorem C34_pressure_refuted : forall (n0 n1 : nat) (h0 h1 : R) (mc mr mr' : mem) (m0 m1 r0 r1 : Z), (2 <= m0)%Z -> (2 <= m1)%Z -> m_size mc = vec_size (g_ghost (whole m0 m1 1)) 1 ->
  linear_interpolation (whole m0 m1 1) (whole r0 r1 1) n0 n1 h0 h1 mc mr <> Ok mr'.
Proof.
  intros n0 n1 h0 h1 mc mr mr' m0 m1 r0 r1 H0 H1 Hs E. unfold linear_interpolation in E.
  destruct (iterate_ok 2 _ _ _ _ [(m0 - 2)%Z; (m1 - 2)%Z] (whole_bounds_dim m0 m1 1) E) as (s1 & s2 & E1); [apply whole_cells; lia|].
  unfold interp_kernel in E1. destruct (for_ok _ _ _ _ 0%nat E1 ltac:(lia)) as (s3 & s4 & E2). destruct (for_ok _ _ _ _ 0%nat E2 ltac:(lia)) as (s5 & s6 & E3).
  unfold interp_point in E3. destruct (at_ (g_ghost (whole r0 r1 1)) _ _) as [u| | |]; try discriminate E3. cbn [bind] in E3. destruct (for_ 2 _ s5) as [s7| | |]; try discriminate E3. cbn [bind] in E3.
  destruct (for_ok _ _ _ _ 3%nat E3 ltac:(cbn; lia)) as (s8 & s9 & E4). cbn [nth get_element get_element2] in E4.
  destruct (at_2 (g_ghost (whole m0 m1 1)) 1 (m0 - 2 + 1) (m1 - 2 + 1) ltac:(split; reflexivity) ltac:(apply in_whole; lia) ltac:(lia)) as (F & _ & _ & VS). change (Z.of_nat (g_dof (whole m0 m1 1))) with 1%Z in E4. rewrite F in E4. cbn [bind] in E4.
  destruct (for_ok _ _ _ _ 1%nat E4 ltac:(lia)) as (s10 & s11 & E5). unfold load at 1, in_mem in E5. rewrite Hs, VS in E5. unfold low, ext in E5. cbn [whole g_ghost bottom_left upper_right nth] in E5.
  destruct (Z.ltb_spec (((m1 - 2 + 1 - 0) * (m0 - 0) + (m0 - 2 + 1 - 0)) * 1 + Z.of_nat 1) ((m1 - 0) * (m0 - 0) * 1)); [lia|]. rewrite andb_false_r in E5. discriminate E5.
Qed.

(** ** different refinement factors: the bounds of the two inner loops are exchanged *)
(** finer along the first axis: rows beyond the refined grid are addressed, on every grid *)
Theorem C34_first_axis_finer_refuted : forall (n0 n1 : nat) (h0 h1 : R) (mc mr mr' : mem) (m0 m1 : Z), (2 <= m0)%Z -> (2 <= m1)%Z -> (n1 < n0)%nat ->
  linear_interpolation (whole m0 m1 2) (whole ((m0 - 1) * Z.of_nat n0 + 1) ((m1 - 1) * Z.of_nat n1 + 1) 2) n0 n1 h0 h1 mc mr <> Ok mr'.
Proof.
  intros n0 n1 h0 h1 mc mr mr' m0 m1 H0 H1 Hn E. unfold linear_interpolation in E.
  destruct (iterate_ok 2 _ _ _ _ [(m0 - 2)%Z; (m1 - 2)%Z] (whole_bounds_dim m0 m1 2) E) as (s1 & s2 & E1); [apply whole_cells; lia|].
  unfold interp_kernel in E1. destruct (for_ok _ _ _ _ n0 E1 ltac:(lia)) as (s3 & s4 & E2). destruct (for_ok _ _ _ _ 0%nat E2 ltac:(lia)) as (s5 & s6 & E3).
  unfold interp_point in E3. cbn [nth] in E3. unfold at_, row2, low, ext in E3. cbn [whole g_ghost bottom_left upper_right nth] in E3.
  destruct (Z.ltb_spec (Z.of_nat n0 + (m1 - 2) * Z.of_nat n1 - 0) ((m1 - 1) * Z.of_nat n1 + 1 - 0)); [nia|]. rewrite andb_false_r in E3. discriminate E3.
Qed.
(** finer along the second axis: the last node of the refined grid is never written, on every grid *)
Lemma for_keeps {S} n (body : nat -> S -> outcome S) (P : S -> Prop) s s' : (forall k s1 s2, (k < n)%nat -> P s1 -> body k s1 = Ok s2 -> P s2) -> P s -> for_ n body s = Ok s' -> P s'.
Proof.
  intros K H0 E. unfold for_ in E. assert (K' : forall k s1 s2, In k (seq 0 n) -> P s1 -> body k s1 = Ok s2 -> P s2) by (intros k s1 s2 Hk; apply in_seq in Hk; apply K; lia). clear K. revert s H0 E K'. generalize (seq 0 n) as l.
  induction l as [|c l IH]; intros s H0 E K; [injection E as <-; exact H0|]. cbn [fold_left bind] in E.
  destruct (body c s) as [s1| | |] eqn:B; try (rewrite bind_fail_fold in E by discriminate; discriminate).
  apply (IH s1); auto; [eapply K; eauto; left; reflexivity|]. intros. eapply K; eauto. right; assumption.
Qed.
Lemma iterate_keeps {S} D b (f : list Z -> S -> outcome S) (P : S -> Prop) s s' : has_dim D b -> (forall p s1 s2, in_grid_box b p -> P s1 -> f p s1 = Ok s2 -> P s2) -> P s -> iterate_o b f s = Ok s' -> P s'.
Proof.
  intros Hb K H0 E. destruct (grid_pts_spec D b Hb) as (Hin & _ & _ & Hrun). unfold iterate_o in E. rewrite Hrun in E.
  assert (K' : forall p s1 s2, In p (grid_pts b) -> P s1 -> f p s1 = Ok s2 -> P s2) by (intros p s1 s2 Hp; apply K, Hin, Hp). clear K Hin Hrun. revert s H0 E K'. generalize (grid_pts b) as l.
  induction l as [|c l IH]; intros s H0 E K; [injection E as <-; exact H0|]. cbn [fold_left bind] in E.
  destruct (f c s) as [s1| | |] eqn:B; try (rewrite bind_fail_fold in E by discriminate; discriminate).
  apply (IH s1); auto; [eapply K; eauto; left; reflexivity|]. intros. eapply K; eauto. right; assumption.
Qed.
Lemma store_keeps m a v m' y : store m a v = Ok m' -> a <> y -> m_val m' y = m_val m y.
Proof. unfold store. destruct (in_mem m a); [|discriminate]. intros E N. injection E as <-. cbn. destruct (Z.eqb_spec a y); congruence. Qed.
Theorem C34_second_axis_finer_refuted : forall (n0 n1 : nat) (h0 h1 : R) (mc mr mr' : mem) (m0 m1 : Z) (d : nat), (2 <= m0)%Z -> (2 <= m1)%Z -> (0 < n0 < n1)%nat -> (d < 2)%nat ->
  let r0 := ((m0 - 1) * Z.of_nat n0 + 1)%Z in let r1 := ((m1 - 1) * Z.of_nat n1 + 1)%Z in
  linear_interpolation (whole m0 m1 2) (whole r0 r1 2) n0 n1 h0 h1 mc mr = Ok mr' ->
  exists u, at_ (g_ghost (whole r0 r1 2)) 2 [(r0 - 1)%Z; (r1 - 1)%Z] = Ok u /\ m_val mr' (u + Z.of_nat d) = m_val mr (u + Z.of_nat d).
Proof.
  intros n0 n1 h0 h1 mc mr mr' m0 m1 d H0 H1 Hn Hd r0 r1 E.
  destruct (at_2 (g_ghost (whole r0 r1 2)) 2 (r0 - 1) (r1 - 1) ltac:(split; reflexivity) ltac:(apply in_whole; unfold r0, r1; nia) ltac:(lia)) as (F & _). eexists. split; [exact F|].
  set (A := (_ + Z.of_nat d)%Z). unfold linear_interpolation in E. revert E. apply (iterate_keeps 2 _ _ (fun m => m_val m A = m_val mr A) _ _ (whole_bounds_dim m0 m1 2)); [|reflexivity].
  intros p s1 s2 Hp K1 E. assert (L := Forall2_len _ _ _ (proj1 Hp)). destruct p as [|p0 [|p1 [|? ?]]]; try discriminate L. apply whole_cells in Hp. unfold interp_kernel in E.
  revert E. apply (for_keeps _ _ (fun m => m_val m A = m_val mr A)); [|exact K1]. intros j s3 s4 Hj K2. apply (for_keeps _ _ (fun m => m_val m A = m_val mr A)); [|exact K2]. intros i s5 s6 Hi K3 E.
  unfold interp_point in E. cbn [nth] in E. change (Z.of_nat (g_dof (whole r0 r1 2))) with 2%Z in E. destruct (at_ (g_ghost (whole r0 r1 2)) 2 [(Z.of_nat i + p0 * Z.of_nat n0)%Z; (Z.of_nat j + p1 * Z.of_nat n1)%Z]) as [u| | |] eqn:Eu; try discriminate E. cbn [bind] in E.
  assert (NA : forall c, (c < 2)%nat -> (u + Z.of_nat c <> A)%Z).
  { intros c Hc. unfold at_, row2, low, ext in Eu. cbn [whole g_ghost bottom_left upper_right nth] in Eu. destruct (_ && _) in Eu; [|discriminate Eu]. injection Eu as <-. unfold A, low, ext. cbn [whole g_ghost bottom_left upper_right nth]. fold r0 r1.
    assert (B1 : (Z.of_nat j + p1 * Z.of_nat n1 <= r1 - 1 - Z.of_nat n1 + Z.of_nat n0)%Z) by (unfold r1; nia). assert (B0 : (Z.of_nat i + p0 * Z.of_nat n0 <= r0 - 1 - Z.of_nat n0 + Z.of_nat n1)%Z) by (unfold r0; nia).
    assert (R0 : (2 <= r0)%Z) by (unfold r0; nia). clearbody r0 r1.
    set (J := (Z.of_nat j + p1 * Z.of_nat n1)%Z) in *. set (I := (Z.of_nat i + p0 * Z.of_nat n0)%Z) in *. set (D := (Z.of_nat n1 - Z.of_nat n0)%Z). assert (HD : (1 <= D)%Z) by lia.
    assert (P1 : (J * r0 <= (r1 - 1 - D) * r0)%Z) by (apply Z.mul_le_mono_nonneg_r; lia). assert (P2 : (0 <= (D - 1) * (r0 - 1))%Z) by (apply Z.mul_nonneg_nonneg; lia). 
    rewrite !Z.sub_0_r. assert (Z.of_nat c <= 1)%Z by lia. lia. }
  destruct (for_ 2 _ s5) as [s7| | |] eqn:E7; try discriminate E. cbn [bind] in E.
  assert (K7 : m_val s7 A = m_val mr A). { revert E7. apply (for_keeps _ _ (fun m => m_val m A = m_val mr A)); [|exact K3]. intros c s8 s9 Hc K8 E9. rewrite (store_keeps _ _ _ _ A E9); [exact K8|apply NA; lia]. }
  revert E. apply (for_keeps _ _ (fun m => m_val m A = m_val mr A)); [|exact K7]. intros k s8 s9 Hk K8 E. destruct (at_ (g_ghost (whole m0 m1 2)) _ _) as [v| | |]; try discriminate E. cbn [bind] in E.
  revert E. apply (for_keeps _ _ (fun m => m_val m A = m_val mr A)); [|exact K8]. intros c s10 s11 Hc K10 E. destruct (load mc _) as [xx| | |]; try discriminate E. cbn [bind] in E. destruct (load s10 _) as [yy| | |]; try discriminate E. cbn [bind] in E.
  rewrite (store_keeps _ _ _ _ A E); [exact K10|apply NA; lia].
Qed.
