(** SetDirichletOnMat: which rows are cleared. *)
From Coquelicot Require Import Coquelicot.
From Verif Require Import Base M_Geometry S_Geometry P_Geometry M_Particle S_Particle P_Particle M_Quadrature S_Fem M_MatElem P_MatElem P_Energy M_Mesh M_Operator M_Bc M_Assembly S_Operator S_Bc P_Mesh P_Operator P_Operator2 P_Global P_Stokes P_Operator3 P_Bc P_Assembly P_Assembly2.
Open Scope R_scope.

(** ** MatZeroRows *)
Lemma same_dof_spec a b : reflect (a = b) (same_dof a b).
Proof.
  unfold same_dof. destruct a as [[a1 a2] a3], b as [[b1 b2] b3]. cbn [fst snd].
  destruct (Bool.eqb a1 b1) eqn:E1; cbn [andb]; [|constructor; intros [= ? _ _]; subst; rewrite eqb_reflx in E1; discriminate].
  apply eqb_prop in E1. subst. destruct (same_node_spec a2 b2) as [->|N]; cbn [andb]; [|constructor; congruence].
  destruct (Nat.eqb_spec a3 b3) as [->|N]; constructor; congruence.
Qed.
Lemma existsb_dof r rows : existsb (same_dof r) rows = true <-> In r rows.
Proof.
  rewrite existsb_exists. split; [intros [x [H1 H2]]; destruct (same_dof_spec r x); [subst; auto|discriminate]|].
  intros H. exists r. split; auto. destruct (same_dof_spec r r); [reflexivity|contradiction].
Qed.
Definition dedup (rows : list gdof) : list gdof := fold_right (fun r acc => if existsb (same_dof r) acc then acc else r :: acc) [] rows.
Lemma dedup_in rows r : In r (dedup rows) <-> In r rows.
Proof.
  induction rows as [|a rows IH]; [reflexivity|]. cbn [dedup fold_right]. fold (dedup rows). destruct (existsb (same_dof a) (dedup rows)) eqn:E.
  - rewrite IH. split; [right; auto|]. intros [<-|H]; auto. apply IH, existsb_dof, E.
  - simpl. rewrite IH. reflexivity.
Qed.
Lemma dedup_nodup rows : NoDup (dedup rows).
Proof.
  induction rows as [|a rows IH]; [constructor|]. cbn [dedup fold_right]. fold (dedup rows). destruct (existsb (same_dof a) (dedup rows)) eqn:E; auto.
  constructor; auto. intros H. apply existsb_dof in H. congruence.
Qed.
Lemma same_dof_sym a b : same_dof a b = same_dof b a.
Proof. destruct (same_dof_spec a b), (same_dof_spec b a); subst; auto; congruence. Qed.
Lemma mm_app A B x b n c : MatMult (A ++ B) x b n c = MatMult A x b n c + MatMult B x b n c.
Proof. unfold MatMult. rewrite map_app, fold_right_app. generalize (fold_right Rplus 0 (map (fun e : mentry => if same_dof (fst (fst e)) (b, n, c) then snd e * x (fst (fst (snd (fst e)))) (snd (fst (snd (fst e)))) (snd (snd (fst e))) else 0) B)). intros r. induction A as [|e A IH]; simpl; [ring|]. rewrite IH. ring. Qed.
Lemma gdof_dec (a b : gdof) : {a = b} + {a <> b}.
Proof. destruct (same_dof a b) eqn:E; destruct (same_dof_spec a b); try discriminate; auto. Qed.
Lemma zero_rows_act rows A x b n c : MatMult (zero_rows rows A) x b n c = if existsb (same_dof (b, n, c)) rows then x b n c else MatMult A x b n c.
Proof.
  unfold zero_rows. fold (dedup rows). rewrite mm_app.
  assert (D : MatMult (map (fun r : gdof => (r, r, 1)) (dedup rows)) x b n c = if existsb (same_dof (b, n, c)) rows then x b n c else 0).
  { unfold MatMult. rewrite map_map. cbn [fst snd]. change (fold_right Rplus 0 (map ?f ?l)) with (Lsum f l).
    destruct (existsb (same_dof (b, n, c)) rows) eqn:E.
    - apply existsb_dof in E. rewrite <- dedup_in in E.
      etransitivity; [|exact (Lsum_pick gdof_dec (b, n, c) (fun r => x (fst (fst r)) (snd (fst r)) (snd r)) (dedup rows) (dedup_nodup rows) E)].
      apply Lsum_ext. intros r _. destruct (same_dof_spec r (b, n, c)) as [->|N]; destruct (gdof_dec (b, n, c) _) as [E'|N']; try congruence; ring.
    - apply Lsum_all_zero. intros r Hr. destruct (same_dof_spec r (b, n, c)) as [->|N]; [|reflexivity]. pose proof (proj2 (existsb_dof _ _) (proj1 (dedup_in _ _) Hr)). congruence. }
  rewrite D. clear D. destruct (existsb (same_dof (b, n, c)) rows) eqn:E.
  - match goal with |- ?a + _ = _ => assert (Z0 : a = 0) end; [|rewrite Z0; ring].
    unfold MatMult. change (fold_right Rplus 0 (map ?f ?l)) with (Lsum f l). apply Lsum_all_zero. intros e He. apply filter_In in He as [_ He]. cbv beta in *.
    destruct (same_dof_spec (fst (fst e)) (b, n, c)) as [Q|N]; [|reflexivity]. rewrite Q, E in He. discriminate.
  - rewrite Rplus_0_r. unfold MatMult. induction A as [|e A IH]; [reflexivity|]. cbn [filter map fold_right].
    destruct (existsb (same_dof (fst (fst e))) rows) eqn:Ee; cbn [negb].
    + rewrite IH. destruct (same_dof_spec (fst (fst e)) (b, n, c)) as [Q|N]; [rewrite Q in Ee; congruence|ring].
    + cbn [map fold_right]. rewrite IH. reflexivity.
Qed.

(** ** the rows of one side *)
Lemma on_all_map {A B} (f : A -> outcome B) (g : A -> B) l : (forall a, In a l -> f a = Ok (g a)) -> on_all f l = Ok (map g l).
Proof. induction l as [|a l IH]; intros H; [reflexivity|]. cbn [on_all map]. rewrite (H a (or_introl eq_refl)). cbn [bind]. rewrite IH by (intros; apply H; right; auto). reflexivity. Qed.
Lemma on_all_app {A B} (f : A -> outcome B) l1 l2 r1 r2 : on_all f l1 = Ok r1 -> on_all f l2 = Ok r2 -> on_all f (l1 ++ l2) = Ok (r1 ++ r2).
Proof.
  revert r1. induction l1 as [|a l1 IH]; intros r1 H1 H2; cbn [on_all app] in *.
  - injection H1 as <-. exact H2.
  - destruct (f a) as [b| | |]; cbn [bind] in *; try discriminate. destruct (on_all f l1) as [bs| | |]; cbn [bind] in *; try discriminate. injection H1 as <-.
    rewrite (IH bs eq_refl H2). reflexivity.
Qed.
Section Rows.
  Variables (mp : list Z) (per : list bool) (dms : list (dmda * dmda)).
  Hypothesis H2 : length mp = 2%nat.
  Hypothesis HG : grid_ok mp per.
  Hypothesis HS : stokes_layout mp per 2 dms.
  Let mv := refined_size mp per.
  Lemma rows_pairs dm idx (p : nat -> list Z) k : In dm dms ->
    (forall t, (t < k)%nat -> idx (Z.of_nat t) = lidx (fst dm) (p t) 0 /\ in_grid_box (g_ghost (fst dm)) (p t)) ->
    on_all (ltog dm) (pairs (map idx (map Z.of_nat (seq 0 k)))) = Ok (flat_map (fun t => [(false, wrap mv per (p t), 0%nat); (false, wrap mv per (p t), 1%nat)]) (seq 0 k)).
  Proof.
    intros Hin H. induction k as [|k IH]; [reflexivity|]. rewrite seq_S, !map_app, flat_map_app. unfold pairs. rewrite flat_map_app. apply on_all_app.
    - apply IH. intros; apply H; lia.
    - destruct (H k (Nat.lt_succ_diag_r k)) as [E I]. cbn [map flat_map Nat.add app]. rewrite E. cbn [on_all].
      rewrite (ltog_v mp per dms H2 HG HS dm (p k) 0 Hin I ltac:(lia)).
      replace (lidx (fst dm) (p k) 0 + 1)%Z with (lidx (fst dm) (p k) 1) by (unfold lidx; lia).
      rewrite (ltog_v mp per dms H2 HG HS dm (p k) 1 Hin I ltac:(lia)). reflexivity.
  Qed.

  Definition glo (q : bool) (a : Z) : Z := if q then (a - 1)%Z else Z.max (a - 1) 0.
  Definition gup (q : bool) (b M : Z) : Z := if q then (b + 1)%Z else Z.min (b + 1) M.
  Lemma view2 dm : In dm dms -> nonempty_views (map fst dms) -> exists M0 M1 q0 q1 xs ys xe ye,
    mv = [M0; M1] /\ per = [q0; q1] /\ g_own (fst dm) = mkbox [xs; ys] [xe; ye] /\ (0 <= xs < xe /\ xe <= M0 /\ 0 <= ys < ye /\ ye <= M1)%Z /\
    g_ghost (fst dm) = mkbox [glo q0 xs; glo q1 ys] [gup q0 xe M0; gup q1 ye M1] /\
    info_of (fst dm) = mkinfo M0 M1 xs ys (xe - xs) (ye - ys) (glo q0 xs) (glo q1 ys) (gup q0 xe M0 - glo q0 xs) (gup q1 ye M1 - glo q1 ys) 2 /\ g_per (fst dm) = per.
  Proof.
    intros Hin HN. pose proof (vv mp per dms HS dm Hin) as V. fold mv in V. pose proof (lmv mp per H2 HG) as L. fold mv in L.
    assert (Lp : length per = 2%nat) by (destruct HG as (_ & -> & _); exact H2).
    unfold nonempty_views in HN. rewrite Forall_forall in HN. specialize (HN (fst dm) (in_map fst _ _ Hin)).
    destruct V as (E1 & E2 & E3 & K1 & K2 & K3 & E4).
    destruct mv as [|M0 [|M1 [|]]] eqn:Em; try discriminate L. destruct per as [|q0 [|q1 [|]]]; try discriminate Lp.
    destruct (fst dm) as [gs gp own gh df]. cbn [g_size g_per g_own g_ghost g_dof] in *. subst gs gp df gh. destruct own as [lo up]. cbn [bottom_left upper_right map] in *.
    inversion K1 as [|? xs ? t A1 A2]; subst. inversion A2 as [|? ys ? t' A3 A4]; subst. inversion A4; subst.
    inversion K3 as [|xe ? t ? B1 B2]; subst. inversion B2 as [|ye ? t' ? B3 B4]; subst. inversion B4; subst.
    inversion HN as [|? ? ? ? C1 C2]; subst. inversion C2 as [|? ? ? ? C3 C4]; subst.
    exists M0, M1, q0, q1, xs, ys, xe, ye. repeat split; auto; try lia.
  Qed.
  Lemma in2 lo0 lo1 up0 up1 x y : in_grid_box (mkbox [lo0; lo1] [up0; up1]) [x; y] <-> (lo0 <= x < up0)%Z /\ (lo1 <= y < up1)%Z.
  Proof.
    unfold in_grid_box. cbn [bottom_left upper_right]. split.
    - intros [A B]. inversion A as [|? ? ? ? A1 A2]; subst. inversion A2 as [|? ? ? ? A3 A4]; subst. inversion B as [|? ? ? ? B1 B2]; subst. inversion B2; subst. lia.
    - intros [A B]. split; repeat apply Forall2_cons; try apply Forall2_nil; lia.
  Qed.
  Lemma in2_inv lo0 lo1 up0 up1 p : in_grid_box (mkbox [lo0; lo1] [up0; up1]) p -> exists x y, p = [x; y].
  Proof. intros [A _]. cbn in A. inversion A as [|? x ? t A1 A2]; subst. inversion A2 as [|? y ? t' A3 A4]; subst. inversion A4; subst. exists x, y. reflexivity. Qed.
  Lemma zs_nat k : map Z.of_nat (seq 0 (Z.to_nat k)) = map Z.of_nat (seq 0 (Z.to_nat k)). Proof. reflexivity. Qed.

  Definition side_ok (single : bool) (dm : dmda * dmda) (s : nat * bool) : Prop :=
    exists gs, on_all (ltog dm) (dirichlet_rows single (fst dm) (side_index s)) = Ok gs /\
      (forall g, In g gs -> fst (fst g) = false /\ in_grid_box (nodes_box mv) (snd (fst g)) /\ on_side mv per (snd (fst g)) s = true) /\
      (forall n c, in_grid_box (g_own (fst dm)) n -> on_side mv per n s = true -> (c < 2)%nat -> In (false, n, c) gs).
  (** a list of ghost nodes p(t) that are the local indices given *)
  Lemma side_ok_intro single dm s idx (p : nat -> list Z) k : In dm dms ->
    dirichlet_rows single (fst dm) (side_index s) = pairs (map idx (map Z.of_nat (seq 0 k))) ->
    (forall t, (t < k)%nat -> idx (Z.of_nat t) = lidx (fst dm) (p t) 0 /\ in_grid_box (g_ghost (fst dm)) (p t) /\ in_grid_box (nodes_box mv) (wrap mv per (p t)) /\ on_side mv per (wrap mv per (p t)) s = true) ->
    (forall n, in_grid_box (g_own (fst dm)) n -> on_side mv per n s = true -> exists t, (t < k)%nat /\ wrap mv per (p t) = n) ->
    side_ok single dm s.
  Proof.
    intros Hin E H K. unfold side_ok. rewrite E. eexists. split; [apply (rows_pairs dm idx p k Hin); intros t Ht; split; apply H; auto|]. split.
    - intros g Hg. apply in_flat_map in Hg as [t [Ht Hg]]. apply in_seq in Ht. destruct (H t ltac:(lia)) as (_ & _ & A & B).
      destruct Hg as [<-|[<-|[]]]; cbn [fst snd]; auto.
    - intros n c Hn Hs Hc. destruct (K n Hn Hs) as [t [Ht <-]]. apply in_flat_map. exists t. split; [apply in_seq; lia|]. destruct c as [|[|]]; [left|right; left|lia]; reflexivity.
  Qed.
  Lemma side_ok_nil single dm s : dirichlet_rows single (fst dm) (side_index s) = [] -> (forall n, in_grid_box (g_own (fst dm)) n -> on_side mv per n s = true -> False) -> side_ok single dm s.
  Proof. intros E K. exists []. rewrite E. split; [reflexivity|]. split; [intros g []|]. intros n c Hn Hs. destruct (K n Hn Hs). Qed.

  Lemma mod_in (q : bool) x M : (1 <= M)%Z -> (if q then -1 <= x <= M else 0 <= x < M)%Z -> (0 <= (if q then x mod M else x) < M)%Z.
  Proof. destruct q; intros; [apply Z.mod_pos_bound|]; lia. Qed.
  (** the values an axis takes when the index runs over [0, k): all the owned ones *)
  Lemma axis_cover (single q : bool) lo up M : (0 <= lo < up)%Z -> (up <= M)%Z -> (single = true -> lo = 0 /\ up = M)%Z ->
    let k := if single then M else (gup q up M - glo q lo)%Z in
    (0 <= k)%Z /\ (k <= gup q up M - glo q lo)%Z /\ (forall t, (0 <= t < k)%Z -> (glo q lo <= glo q lo + t < gup q up M)%Z /\ (0 <= (if q then (glo q lo + t) mod M else glo q lo + t) < M)%Z) /\
    (forall y, (lo <= y < up)%Z -> exists t, (0 <= t < k)%Z /\ (if q then (glo q lo + t) mod M else glo q lo + t)%Z = y).
  Proof.
    intros H1 H3 Hs. unfold gup, glo. destruct single; [destruct (Hs eq_refl) as [-> ->]|]; destruct q; cbv zeta; repeat split; try lia; try (intros; apply Z.mod_pos_bound; lia); intros y Hy.
    - destruct (Z.eq_dec y (M - 1)) as [->|].
      + exists 0%Z. split; [lia|]. symmetry. apply (Z.mod_unique_pos _ _ (-1)); lia.
      + exists (y + 1)%Z. split; [lia|]. replace (0 - 1 + (y + 1))%Z with y by lia. apply Z.mod_small; lia.
    - exists y. split; lia.
    - exists (y - lo + 1)%Z. split; [lia|]. replace (lo - 1 + (y - lo + 1))%Z with y by lia. apply Z.mod_small; lia.
    - exists (y - Z.max (lo - 1) 0)%Z. split; lia.
  Qed.
  Definition covers_all (dm : dmda * dmda) : Prop := forall n, in_grid_box (nodes_box mv) n -> in_grid_box (g_own (fst dm)) n.
  Lemma all_sides single dm s : In dm dms -> nonempty_views (map fst dms) -> (single = true -> covers_all dm) -> (single = true -> nth 0 per false = true -> nth 1 per false = true) ->
    In s (sides 2) -> side_ok single dm s.
  Proof.
    intros Hin HN HC HQ Hs. destruct (view2 dm Hin HN) as (M0 & M1 & q0 & q1 & xs & ys & xe & ye & Em & Ep & Eo & HB & Eg & Ei & Epg).
    assert (HC' : single = true -> (xs = 0 /\ xe = M0 /\ ys = 0 /\ ye = M1)%Z).
    { intros S. specialize (HC S). unfold covers_all in HC. rewrite Em in HC. pose proof (HC [0; 0]%Z) as A. pose proof (HC [M0 - 1; M1 - 1]%Z) as B. rewrite Eo in A, B. change (nodes_box [M0; M1]) with (mkbox [0; 0]%Z [M0; M1]) in A, B.
      rewrite !in2 in A, B. lia. }
    assert (XC := axis_cover single q0 xs xe M0 ltac:(lia) ltac:(lia) ltac:(intros S; specialize (HC' S); lia)).
    assert (YC := axis_cover single q1 ys ye M1 ltac:(lia) ltac:(lia) ltac:(intros S; specialize (HC' S); lia)).
    cbv zeta in XC, YC. set (kx := if single then M0 else (gup q0 xe M0 - glo q0 xs)%Z) in *. set (ky := if single then M1 else (gup q1 ye M1 - glo q1 ys)%Z) in *.
    destruct XC as (X0 & X1 & X2 & X3). destruct YC as (Y0 & Y1 & Y2 & Y3).
    rewrite Ep in HQ. cbn [nth] in HQ.
    assert (LI : forall x y, lidx (fst dm) [x; y] 0 = (2 * ((y - glo q1 ys) * (gup q0 xe M0 - glo q0 xs) + x - glo q0 xs))%Z).
    { intros x y. unfold lidx, DMDALocalIndex2D. rewrite Ei. cbn [i_dof i_gys i_gxm i_gxs nth]. lia. }
    assert (WR : forall x y, wrap mv per [x; y] = [if q0 then x mod M0 else x; if q1 then y mod M1 else y]%Z) by (intros; rewrite Em, Ep; reflexivity).
    assert (NB : nodes_box mv = mkbox [0; 0]%Z [M0; M1]) by (rewrite Em; reflexivity).
    assert (OWN : forall n, in_grid_box (g_own (fst dm)) n -> exists x y, n = [x; y] /\ (xs <= x < xe)%Z /\ (ys <= y < ye)%Z).
    { intros n Hn. rewrite Eo in Hn. destruct (in2_inv _ _ _ _ _ Hn) as (x & y & ->). apply in2 in Hn. exists x, y. repeat split; lia. }
    assert (DR : forall w, dirichlet_rows single (fst dm) w =
      match w with
      | 0%nat => if negb q0 && (xs =? 0)%Z then pairs (map (fun j => (2 * (0 + j * kx))%Z) (map Z.of_nat (seq 0 (Z.to_nat ky)))) else []
      | 1%nat => if negb q0 && (xe =? M0)%Z then pairs (map (fun j => (2 * (kx - 1 + j * kx))%Z) (map Z.of_nat (seq 0 (Z.to_nat ky)))) else []
      | 2%nat => if negb q1 && (ys =? 0)%Z then pairs (map (fun i => (2 * (i + 0 * kx))%Z) (map Z.of_nat (seq 0 (Z.to_nat kx)))) else []
      | _ => if negb q1 && (ye =? M1)%Z then pairs (map (fun i => (2 * (i + (ky - 1) * kx))%Z) (map Z.of_nat (seq 0 (Z.to_nat kx)))) else []
      end).
    { intros w. unfold dirichlet_rows. rewrite Ei, Epg, Ep. cbn [nth i_dof i_gys i_gxm i_gxs i_gym i_mx i_my i_xs i_ys i_xm i_ym]. fold kx ky.
      replace (xs + (xe - xs))%Z with xe by lia. replace (ys + (ye - ys))%Z with ye by lia.
      destruct w as [|[|[|w]]]; try reflexivity.
      - replace (if single then (M0 - 1)%Z else (gup q0 xe M0 - glo q0 xs - 1)%Z) with (kx - 1)%Z by (unfold kx; destruct single; reflexivity). reflexivity.
      - replace (if single then (M1 - 1)%Z else (gup q1 ye M1 - glo q1 ys - 1)%Z) with (ky - 1)%Z by (unfold ky; destruct single; reflexivity). reflexivity. }
    assert (OS : forall x y d (u : bool), (d < 2)%nat -> on_side mv per [x; y] (d, u) = negb (nth d [q0; q1] false) && (nth d [x; y] 0 =? (if u then nth d [M0; M1] 0 - 1 else 0))%Z) by (intros; rewrite Em, Ep; reflexivity).
    cbn in Hs. destruct Hs as [<-|[<-|[<-|[<-|[]]]]]; cbn [side_index fst snd Nat.mul Nat.add].
    - (* left *)
      destruct (negb q0 && (xs =? 0)%Z) eqn:C.
      + apply andb_true_iff in C as [C1 C2]. apply negb_true_iff in C1. apply Z.eqb_eq in C2. 
        assert (KX : kx = (gup q0 xe M0 - glo q0 xs)%Z) by (unfold kx; destruct single; [destruct (HC' eq_refl) as (-> & -> & _); rewrite C1; unfold gup, glo; lia|reflexivity]).
        apply (side_ok_intro single dm (0%nat, false) (fun j => 2 * (0 + j * kx))%Z (fun t => [0; glo q1 ys + Z.of_nat t]%Z) (Z.to_nat ky) Hin).
        * rewrite DR. reflexivity.
        * intros t Ht. destruct (Y2 (Z.of_nat t) ltac:(lia)) as [Y4 Y5]. rewrite LI, WR, NB, Eg, !in2. rewrite OS by lia.
          assert (GX : glo q0 xs = 0%Z) by (rewrite C1, C2; reflexivity). rewrite <- KX, GX. split; [ring|]. split; [split; [|lia]|split; [rewrite C1; lia|cbn [nth]; rewrite C1; reflexivity]]. rewrite C1; unfold gup; lia.
        * intros n Hn Hs. destruct (OWN n Hn) as (x & y & -> & Hx & Hy). rewrite OS in Hs by lia. rewrite C1 in Hs. cbn [negb nth andb] in Hs. apply Z.eqb_eq in Hs. subst x.
          destruct (Y3 y Hy) as [t [T1 T2]]. exists (Z.to_nat t). split; [lia|]. rewrite WR, Z2Nat.id by lia. rewrite T2, C1. reflexivity.
      + apply side_ok_nil; [rewrite DR; reflexivity|].
        intros n Hn Hs. destruct (OWN n Hn) as (x & y & -> & Hx & Hy). rewrite OS in Hs by lia. cbn [nth] in Hs. apply andb_true_iff in Hs as [S1 S2]. apply Z.eqb_eq in S2. rewrite S1 in C. cbn [andb] in C. apply Z.eqb_neq in C. lia.
    - (* right *)
      destruct (negb q0 && (xe =? M0)%Z) eqn:C.
      + apply andb_true_iff in C as [C1 C2]. apply negb_true_iff in C1. apply Z.eqb_eq in C2.
        assert (KX : kx = (gup q0 xe M0 - glo q0 xs)%Z) by (unfold kx; destruct single; [destruct (HC' eq_refl) as (-> & -> & _); rewrite C1; unfold gup, glo; lia|reflexivity]).
        apply (side_ok_intro single dm (0%nat, true) (fun j => 2 * (kx - 1 + j * kx))%Z (fun t => [M0 - 1; glo q1 ys + Z.of_nat t]%Z) (Z.to_nat ky) Hin).
        * rewrite DR. reflexivity.
        * intros t Ht. destruct (Y2 (Z.of_nat t) ltac:(lia)) as [Y4 Y5]. rewrite LI, WR, NB, Eg, !in2. rewrite OS by lia.
          assert (GX : gup q0 xe M0 = M0) by (rewrite C1, C2; unfold gup; lia). rewrite <- KX. rewrite GX in *. split; [rewrite KX; ring|]. split; [split; [|lia]|split; [rewrite C1; lia|cbn [nth]; rewrite C1, Z.eqb_refl; reflexivity]]. rewrite C1; unfold glo; lia.
        * intros n Hn Hs. destruct (OWN n Hn) as (x & y & -> & Hx & Hy). rewrite OS in Hs by lia. rewrite C1 in Hs. cbn [negb nth andb] in Hs. apply Z.eqb_eq in Hs. subst x.
          destruct (Y3 y Hy) as [t [T1 T2]]. exists (Z.to_nat t). split; [lia|]. rewrite WR, Z2Nat.id by lia. rewrite T2, C1. reflexivity.
      + apply side_ok_nil; [rewrite DR; reflexivity|].
        intros n Hn Hs. destruct (OWN n Hn) as (x & y & -> & Hx & Hy). rewrite OS in Hs by lia. cbn [nth] in Hs. apply andb_true_iff in Hs as [S1 S2]. apply Z.eqb_eq in S2. rewrite S1 in C. cbn [andb] in C. apply Z.eqb_neq in C. lia.
    - (* bottom *)
      destruct (negb q1 && (ys =? 0)%Z) eqn:C.
      + apply andb_true_iff in C as [C1 C2]. apply negb_true_iff in C1. apply Z.eqb_eq in C2.
        apply (side_ok_intro single dm (1%nat, false) (fun i => 2 * (i + 0 * kx))%Z (fun t => [glo q0 xs + Z.of_nat t; 0]%Z) (Z.to_nat kx) Hin).
        * rewrite DR. reflexivity.
        * intros t Ht. destruct (X2 (Z.of_nat t) ltac:(lia)) as [X4 X5]. rewrite LI, WR, NB, Eg, !in2. rewrite OS by lia.
          assert (GY : glo q1 ys = 0%Z) by (rewrite C1, C2; reflexivity). rewrite GY. split; [ring|]. split; [split; [lia|]|split; [rewrite C1; lia|cbn [nth]; rewrite C1; reflexivity]]. rewrite C1; unfold gup; lia.
        * intros n Hn Hs. destruct (OWN n Hn) as (x & y & -> & Hx & Hy). rewrite OS in Hs by lia. rewrite C1 in Hs. cbn [negb nth andb] in Hs. apply Z.eqb_eq in Hs. subst y.
          destruct (X3 x Hx) as [t [T1 T2]]. exists (Z.to_nat t). split; [lia|]. rewrite WR, Z2Nat.id by lia. rewrite T2, C1. reflexivity.
      + apply side_ok_nil; [rewrite DR; reflexivity|].
        intros n Hn Hs. destruct (OWN n Hn) as (x & y & -> & Hx & Hy). rewrite OS in Hs by lia. cbn [nth] in Hs. apply andb_true_iff in Hs as [S1 S2]. apply Z.eqb_eq in S2. rewrite S1 in C. cbn [andb] in C. apply Z.eqb_neq in C. lia.
    - (* top *)
      destruct (negb q1 && (ye =? M1)%Z) eqn:C.
      + apply andb_true_iff in C as [C1 C2]. apply negb_true_iff in C1. apply Z.eqb_eq in C2.
        assert (KX : kx = (gup q0 xe M0 - glo q0 xs)%Z).
        { unfold kx; destruct single; [|reflexivity]. destruct (HC' eq_refl) as (-> & -> & _). destruct q0; [specialize (HQ eq_refl eq_refl); congruence|]. unfold gup, glo; lia. }
        assert (KY : ky = (gup q1 ye M1 - glo q1 ys)%Z) by (unfold ky; destruct single; [destruct (HC' eq_refl) as (_ & _ & -> & ->); rewrite C1; unfold gup, glo; lia|reflexivity]).
        apply (side_ok_intro single dm (1%nat, true) (fun i => 2 * (i + (ky - 1) * kx))%Z (fun t => [glo q0 xs + Z.of_nat t; M1 - 1]%Z) (Z.to_nat kx) Hin).
        * rewrite DR. reflexivity.
        * intros t Ht. destruct (X2 (Z.of_nat t) ltac:(lia)) as [X4 X5]. rewrite LI, WR, NB, Eg, !in2. rewrite OS by lia.
          assert (GY : gup q1 ye M1 = M1) by (rewrite C1, C2; unfold gup; lia). rewrite <- KX. rewrite GY in *. split; [rewrite KY; ring|]. split; [split; [lia|]|split; [rewrite C1; lia|cbn [nth]; rewrite C1, Z.eqb_refl; reflexivity]]. rewrite C1; unfold glo; lia.
        * intros n Hn Hs. destruct (OWN n Hn) as (x & y & -> & Hx & Hy). rewrite OS in Hs by lia. rewrite C1 in Hs. cbn [negb nth andb] in Hs. apply Z.eqb_eq in Hs. subst y.
          destruct (X3 x Hx) as [t [T1 T2]]. exists (Z.to_nat t). split; [lia|]. rewrite WR, Z2Nat.id by lia. rewrite T2, C1. reflexivity.
      + apply side_ok_nil; [rewrite DR; reflexivity|].
        intros n Hn Hs. destruct (OWN n Hn) as (x & y & -> & Hx & Hy). rewrite OS in Hs by lia. cbn [nth] in Hs. apply andb_true_iff in Hs as [S1 S2]. apply Z.eqb_eq in S2. rewrite S1 in C. cbn [andb] in C. apply Z.eqb_neq in C. lia.
  Qed.
  Lemma buffers single dm : In dm dms -> nonempty_views (map fst dms) -> (single = true -> covers_all dm) -> buffers_ok single (fst dm) = true.
  Proof.
    intros Hin HN HC. destruct (view2 dm Hin HN) as (M0 & M1 & q0 & q1 & xs & ys & xe & ye & Em & Ep & Eo & HB & Eg & Ei & Epg).
    unfold buffers_ok. rewrite Ei. cbn [i_mx i_my i_gxm i_gym]. destruct single; [|rewrite !Z.leb_refl; reflexivity].
    specialize (HC eq_refl). unfold covers_all in HC. rewrite Em in HC. pose proof (HC [0; 0]%Z) as A. pose proof (HC [M0 - 1; M1 - 1]%Z) as B. rewrite Eo in A, B. change (nodes_box [M0; M1]) with (mkbox [0; 0]%Z [M0; M1]) in A, B.
    rewrite !in2 in A, B. apply andb_true_iff. unfold gup, glo. split; apply Z.leb_le; destruct q0, q1; lia.
  Qed.
  (** one collective MatZeroRowsLocal *)
  Lemma zero_side single s A : nonempty_views (map fst dms) -> (single = true -> forall dm, In dm dms -> covers_all dm) -> (single = true -> nth 0 per false = true -> nth 1 per false = true) -> In s (sides 2) ->
    exists A', zero_rows_side single dms (side_index s) A = Ok A' /\ forall x (b : bool) n c, (if b then True else in_grid_box (nodes_box mv) n /\ (c < 2)%nat) ->
      MatMult A' x b n c = if negb b && on_side mv per n s then x b n c else MatMult A x b n c.
  Proof.
    intros HN HC HQ Hs. unfold zero_rows_side.
    destruct (on_all_ok (fun dm => if buffers_ok single (fst dm) then on_all (ltog dm) (dirichlet_rows single (fst dm) (side_index s)) else UB)
       (fun dm gs => (forall g, In g gs -> fst (fst g) = false /\ in_grid_box (nodes_box mv) (snd (fst g)) /\ on_side mv per (snd (fst g)) s = true) /\
      (forall n c, in_grid_box (g_own (fst dm)) n -> on_side mv per n s = true -> (c < 2)%nat -> In (false, n, c) gs)) dms) as (rows & Er & Fr).
    { intros dm Hin. rewrite (buffers single dm Hin HN (fun S => HC S dm Hin)). destruct (all_sides single dm s Hin HN (fun S => HC S dm Hin) HQ Hs) as (gs & E1 & E2). exists gs. split; auto. }
    rewrite Er. cbn [bind]. eexists. split; [reflexivity|]. intros x b n c Hn. rewrite zero_rows_act.
    destruct (existsb (same_dof (b, n, c)) (concat rows)) eqn:E.
    - apply existsb_dof in E. apply in_concat in E as [gs [I1 I2]].
      assert (K : exists dm, In dm dms /\ (forall g, In g gs -> fst (fst g) = false /\ in_grid_box (nodes_box mv) (snd (fst g)) /\ on_side mv per (snd (fst g)) s = true)).
      { clear - Fr I1. induction Fr as [|dm gs' ? ? [F1 F2] Fr IH]; [destruct I1|]. destruct I1 as [->|I1]; [exists dm; split; [left; auto|exact F1]|]. destruct (IH I1) as (dm' & ? & ?). exists dm'. split; [right; auto|auto]. }
      destruct K as (dm & _ & K). destruct (K _ I2) as (K1 & _ & K3). cbn [fst snd] in K1, K3. subst b. rewrite K3. reflexivity.
    - destruct b; [reflexivity|]. cbn [negb andb]. destruct (on_side mv per n s) eqn:O; [|reflexivity]. exfalso. destruct Hn as [Hn Hc].
      assert (Ho : exists dm, In dm dms /\ in_grid_box (g_own (fst dm)) n).
      { destruct HS as [[_ HT] _]. destruct (HT n) as [H _]. destruct (H Hn) as [k [Hk [Hin _]]]. rewrite !map_length in Hk. rewrite map_map in Hin.
        assert (exists d0 : dmda * dmda, True) as [d0 _] by (clear - Hk; destruct dms as [|d0 ds]; [simpl in Hk; lia|exists d0; auto]). rewrite (nth_indep _ _ (g_own (fst d0))) in Hin by (rewrite map_length; auto).
        rewrite (map_nth (fun x : dmda * dmda => g_own (fst x))) in Hin. exists (nth k dms d0). split; [apply nth_In; auto|exact Hin]. }
      destruct Ho as (dm & Hin & Ho). assert (K : In (false, n, c) (concat rows)).
      { apply in_concat. clear - Fr Hin Ho O Hc. induction Fr as [|dm' gs' ? ? [F1 F2] Fr IH]; [destruct Hin|]. destruct Hin as [->|Hin]; [exists gs'; split; [left; auto|apply F2; auto]|].
        destruct (IH Hin) as (g & ? & ?). exists g. split; [right; auto|auto]. }
      apply existsb_dof in K. congruence.
  Qed.
End Rows.
