(** C84: transfers between the grid and the surface points of the particles in double arithmetic. *)
From Coq Require Import Permutation.
From Coquelicot Require Import Coquelicot.
From Flocq Require Import Core BinarySingleNaN.
From Verif Require Import Base M_Geometry S_Geometry P_Geometry M_Particle S_Particle P_Particle S_Fem M_Quadrature M_MatElem P_MatElem P_Energy M_Mesh M_Operator S_Operator P_Mesh P_Operator P_Operator2 P_Precond M_Bc S_Bc P_Bc M_ParticleOp S_ParticleOp P_ParticleOp.
From Verif Require Import M_Double S_Double P_Double P_Double2 P_Double3 P_Double4 P_Double5 P_Double6 P_Double7 P_Double8.
From Verif Require Import M_DoubleOp S_DoubleOp P_DoubleOp P_DoubleOp2 P_DoubleOp3.
From Verif Require Import Prop_DoubleOp M_DoubleBc S_DoubleBc P_DoubleBc Prop_DoubleBc.
From Verif Require Import M_DoublePart S_DoublePart P_DoublePart P_DoublePart2 P_DoublePart3.
Open Scope R_scope.

(** ** the weights *)

(** ** the real shape functions *)
Lemma abs_shape_sum D h x : (D = 2 \/ D = 3)%nat -> length h = D -> length x = D ->
  Rsum (2 ^ D) (fun k => Rabs (shape h x k)) = fold_right Rmult 1 (zip_with (fun y s => Rabs (y / s) + Rabs (1 - y / s)) x h).
Proof.
  intros [->| ->] Hh Hx.
  - destruct h as [|h0 [|h1 [|]]]; simpl in Hh; try lia. destruct x as [|x0 [|x1 [|]]]; simpl in Hx; try lia.
    cbn [Rsum Nat.pow Nat.mul Nat.add]. unfold shape. cbn [length seq zip_with fold_right Nat.pow Nat.mul Nat.add].
    repeat match goal with |- context [Nat.odd ?t] => let v := eval vm_compute in (Nat.odd t) in change (Nat.odd t) with v end. cbv iota. rewrite !Rabs_mult, Rabs_R1. ring.
  - destruct h as [|h0 [|h1 [|h2 [|]]]]; simpl in Hh; try lia. destruct x as [|x0 [|x1 [|x2 [|]]]]; simpl in Hx; try lia.
    cbn [Rsum Nat.pow Nat.mul Nat.add]. unfold shape. cbn [length seq zip_with fold_right Nat.pow Nat.mul Nat.add].
    repeat match goal with |- context [Nat.odd ?t] => let v := eval vm_compute in (Nat.odd t) in change (Nat.odd t) with v end. cbv iota. rewrite !Rabs_mult, Rabs_R1. ring.
Qed.
Lemma abs_shape_le D eps h x : (D = 2 \/ D = 3)%nat -> 0 <= eps -> good_steps h -> length h = D -> in_cell eps h x -> Rsum (2 ^ D) (fun k => Rabs (shape (map dval h) (map dval x) k)) <= (1 + 2 * eps) ^ D.
Proof.
  intros HD He [_ HF] HL HC. assert (Lx : length x = D) by (rewrite <- HL; symmetry; eapply Forall2_len; exact HC).
  rewrite (abs_shape_sum D) by (rewrite ?map_length; assumption). rewrite <- HL. clear HL Lx HD.
  assert (G : 0 <= fold_right Rmult 1 (zip_with (fun y s => Rabs (y / s) + Rabs (1 - y / s)) (map dval x) (map dval h)) <= (1 + 2 * eps) ^ length h); [|apply G].
  induction HC as [|s y h x [F B] HC IH]; [simpl; lra|]. inversion HF as [|? ? [G M] HF']; subst. cbn [map zip_with fold_right length pow]. specialize (IH HF').
  assert (P : 0 < dval s) by (unfold moderate in M; assert (0 < / 2 ^ 200) by (apply Rinv_0_lt_compat, pow_lt; lra); lra).
  assert (Q : - eps <= dval y / dval s <= 1 + eps). { split; apply Rmult_le_reg_r with (dval s); try exact P; unfold Rdiv; rewrite Rmult_assoc, Rinv_l, Rmult_1_r by lra; apply B. }
  set (q := dval y / dval s) in *. assert (Q2 : 0 <= Rabs q + Rabs (1 - q) <= 1 + 2 * eps). { pose proof (Rabs_pos q). pose proof (Rabs_pos (1 - q)). split; [lra|]. unfold Rabs. destruct (Rcase_abs q), (Rcase_abs (1 - q)); lra. }
  split; [apply Rmult_le_pos; lra|]. apply Rmult_le_compat; lra.
Qed.
Lemma in_cell_good eps h x : eps <= 1 -> good_steps h -> in_cell eps h x -> good_offset h x.
Proof.
  intros He [_ HF] HC. induction HC as [|s y h x [F B] HC IH]; [constructor|]. inversion HF as [|? ? [G M] HF']; subst. constructor; [|apply IH, HF']. split; [exact F|].
  assert (P : 0 < dval s) by (unfold moderate in M; assert (0 < / 2 ^ 200) by (apply Rinv_0_lt_compat, pow_lt; lra); lra). apply Rabs_le. nra.
Qed.
Lemma weighted_between n (w v : nat -> R) lo hi : Rsum n w = 1 -> (forall k, (k < n)%nat -> lo <= v k <= hi) ->
  let over := (hi - lo) * (Rsum n (fun k => Rabs (w k)) - 1) / 2 in lo - over <= Rsum n (fun k => w k * v k) <= hi + over.
Proof.
  intros Hw Hv over. assert (E : over = Rsum n (fun k => (hi - lo) * ((Rabs (w k) - w k) / 2))).
  { rewrite Rsum_scal. unfold over. rewrite <- Hw at 1. assert (X : Rsum n (fun k => (Rabs (w k) - w k) / 2) = (Rsum n (fun k => Rabs (w k)) - Rsum n w) / 2). { clear. induction n as [|n IH]; simpl; [lra|]. rewrite IH. lra. } rewrite X. lra. }
  assert (T : forall (c : R), c = Rsum n (fun k => w k * c)). { intros c. rewrite (Rsum_ext n _ (fun k => c * w k)) by (intros; ring). rewrite Rsum_scal, Hw. ring. }
  rewrite E. pose proof (T lo) as T1. pose proof (T hi) as T2. clear E T Hw. clearbody over.
  assert (G : Rsum n (fun k => w k * lo) - Rsum n (fun k => (hi - lo) * ((Rabs (w k) - w k) / 2)) <= Rsum n (fun k => w k * v k) <= Rsum n (fun k => w k * hi) + Rsum n (fun k => (hi - lo) * ((Rabs (w k) - w k) / 2))); [|rewrite <- T1, <- T2 in G; exact G]. clear T1 T2.
  induction n as [|n IH]; [simpl; lra|]. cbn [Rsum]. destruct IH as [I1 I2]; [intros k Hk; apply Hv; lia|]. specialize (Hv n ltac:(lia)). destruct Hv as [V1 V2].
  assert (A : Rabs (w n) - w n >= 0 /\ Rabs (w n) + w n >= 0) by (unfold Rabs; destruct (Rcase_abs (w n)); lra).
  assert (B1 : w n * lo - (hi - lo) * ((Rabs (w n) - w n) / 2) <= w n * v n) by (unfold Rabs in *; destruct (Rcase_abs (w n)); nra).
  assert (B2 : w n * v n <= w n * hi + (hi - lo) * ((Rabs (w n) - w n) / 2)) by (unfold Rabs in *; destruct (Rcase_abs (w n)); nra). lra.
Qed.
Lemma small_pow D : (D = 2 \/ D = 3)%nat -> (2 ^ D <= 8)%nat /\ INR (2 ^ D) <= 2 ^ 20.
Proof. intros [->| ->]; (split; [simpl; lia|]); rewrite INR_IZR_INZ; apply Rle_trans with (2 ^ 3); try (apply pow_le_1; lia); simpl; lra. Qed.
Lemma approx_out c fin f r a k K : (c <= 20)%nat -> INR K <= 2 ^ 20 -> approx c fin f r a k -> k <= INR K ->
  (finite f -> Rabs (dval f - r) <= INR (K + c + 1) * u64 * a + INR (K + 1) * tiny64) /\ (fin -> a <= 2 ^ 1000 -> finite f).
Proof.
  intros Hc BK A Hk. split.
  - intros F. pose proof (approx_bound c fin _ _ _ _ K BK Hc A Hk F) as B. rewrite !plus_INR in *. cbn [INR] in *. rewrite tiny_eta. exact B.
  - intros Hf Ha. destruct A as (n & -> & _ & _ & A). apply A. right. repeat split; try assumption. lra.
Qed.

(** ** interpolation *)
(** One surface point: the value of the Q1 field, up to rounding. *)
Theorem C84_interpolation_in_doubles : forall h m per dms dm u e x, good_steps h -> length h = length m -> grid_ok m per -> distributes m per (length m) dms -> In dm dms ->
  in_grid_box (get_DM_bounds dm true) e -> good_offset h x ->
  exists g, dinterp_surf_point (length m) h (dglobal_to_local dm u) (e, x) = Ok g /\ length g = length m /\
    forall d, (d < length m)%nat ->
      let exact_value := field_at m per (map dval h) (exact u) e (map dval x) d in
      let size := size_at m per (map dval h) (absolute u) e (map dval x) d in
      (finite (nth d g dzero) -> Rabs (dval (nth d g dzero) - exact_value) <= INR (2 ^ length m + 12) * u64 * size + INR (2 ^ length m + 1) * tiny64) /\
      (finite_on m (length m) u -> size <= 2 ^ 1000 -> finite (nth d g dzero)).
Proof.
  intros h m per dms dm u e x Hh HL HG HD Hin He HO. assert (D23' : (length m = 2 \/ length m = 3)%nat) by apply HG.
  destruct (point_acc (length m) m per h dms dm u e x D23' Hh HL eq_refl HG HD Hin He HO) as (g & E & L & V). exists g. split; [exact E|]. split; [exact L|]. intros d Hd. cbv zeta.
  replace (2 ^ length m + 12)%nat with (2 ^ length m + 11 + 1)%nat by lia. eapply approx_out; [| |eapply (point_approx (finite_on m (length m) u) (length m)); try eassumption; try reflexivity|apply Rle_refl].
  - lia.
  - apply small_pow, D23'.
  - intros F k Hk. apply F; [eapply wrap_node; eauto|exact Hd].
  - apply V, Hd.
Qed.
(** All the surface points of a process. *)
Theorem C84_interpolation_of_all_points : forall h m per dms dm u (surf : list (list (list Z * list double))), good_steps h -> length h = length m -> grid_ok m per -> distributes m per (length m) dms -> In dm dms ->
  (forall spts sp, In spts surf -> In sp spts -> in_grid_box (get_DM_bounds dm true) (fst sp) /\ good_offset h (snd sp)) ->
  exists gs, dinterp_fluid_to_surf (length m) h surf u dm = Ok gs /\
    Forall2 (Forall2 (fun sp g => length g = length m /\ forall d, (d < length m)%nat ->
      let exact_value := field_at m per (map dval h) (exact u) (fst sp) (map dval (snd sp)) d in
      let size := size_at m per (map dval h) (absolute u) (fst sp) (map dval (snd sp)) d in
      (finite (nth d g dzero) -> Rabs (dval (nth d g dzero) - exact_value) <= INR (2 ^ length m + 12) * u64 * size + INR (2 ^ length m + 1) * tiny64) /\
      (finite_on m (length m) u -> size <= 2 ^ 1000 -> finite (nth d g dzero)))) surf gs.
Proof.
  intros h m per dms dm u surf Hh HL HG HD Hin HS. unfold dinterp_fluid_to_surf. apply on_all_ok. intros spts Hs. apply on_all_ok. intros [e x] Hsp. destruct (HS spts (e, x) Hs Hsp) as [He HO].
  exact (C84_interpolation_in_doubles h m per dms dm u e x Hh HL HG HD Hin He HO).
Qed.
(** The same bits on any distribution over processes. *)
Theorem C84_same_bits_on_any_partition : forall h m per dms dms' dm dm' u e x, good_steps h -> length h = length m -> grid_ok m per -> distributes m per (length m) dms -> distributes m per (length m) dms' ->
  In dm dms -> In dm' dms' -> in_grid_box (get_DM_bounds dm true) e -> in_grid_box (get_DM_bounds dm' true) e -> good_offset h x ->
  exists g, dinterp_surf_point (length m) h (dglobal_to_local dm u) (e, x) = Ok g /\ dinterp_surf_point (length m) h (dglobal_to_local dm' u) (e, x) = Ok g.
Proof.
  intros h m per dms dms' dm dm' u e x Hh HL HG HD HD' Hin Hin' He He' HO. assert (D23' : (length m = 2 \/ length m = 3)%nat) by apply HG.
  destruct (point_acc (length m) m per h dms dm u e x D23' Hh HL eq_refl HG HD Hin He HO) as (g & E & L & V).
  destruct (point_acc (length m) m per h dms' dm' u e x D23' Hh HL eq_refl HG HD' Hin' He' HO) as (g' & E' & L' & V'). exists g. split; [exact E|]. rewrite E'. f_equal.
  apply (nth_ext _ _ dzero dzero); [congruence|]. intros d Hd. rewrite V, V' by lia. reflexivity.
Qed.
(** In a cell, up to a fraction eps of the sides: between the values at the corners, up to rounding. *)
Theorem C84_between_the_corner_values : forall h m per dms dm u e x d eps lo hi M, good_steps h -> length h = length m -> grid_ok m per -> distributes m per (length m) dms -> In dm dms ->
  in_grid_box (get_DM_bounds dm true) e -> 0 <= eps <= 1 -> in_cell eps h x -> (d < length m)%nat -> M <= 2 ^ 900 ->
  (forall k, (k < 2 ^ length m)%nat -> let v := u (wrap m per (corner e k)) d in finite v /\ lo <= dval v <= hi /\ Rabs (dval v) <= M) ->
  exists g, dinterp_surf_point (length m) h (dglobal_to_local dm u) (e, x) = Ok g /\ finite (nth d g dzero) /\
    let outside := (hi - lo) * ((1 + 2 * eps) ^ length m - 1) / 2 in
    let rounding := INR (2 ^ length m + 12) * u64 * (((1 + 2 * eps) ^ length m + 8 * / 2 ^ 700) * M) + INR (2 ^ length m + 1) * tiny64 in
    lo - outside - rounding <= dval (nth d g dzero) <= hi + outside + rounding.
Proof.
  intros h m per dms dm u e x d eps lo hi M Hh HL HG HD Hin He Heps HC Hd HM Hv. assert (D23' : (length m = 2 \/ length m = 3)%nat) by apply HG.
  pose proof (in_cell_good eps h x ltac:(lra) Hh HC) as HO. destruct (point_acc (length m) m per h dms dm u e x D23' Hh HL eq_refl HG HD Hin He HO) as (g & E & L & V). exists g. split; [exact E|].
  pose proof (point_approx True (length m) m per h dms dm u e x d (nth d g dzero)) as A. specialize (A ltac:(intros _ k Hk; apply (Hv k Hk)) D23' Hh HL eq_refl HG HD Hin He HO Hd (V d Hd)).
  destruct (small_pow _ D23') as [P8 P20]. destruct (approx_out 11 True _ _ _ _ (2 ^ length m) ltac:(lia) P20 A (Rle_refl _)) as [B1 B2].
  pose proof (abs_shape_le (length m) eps h x D23' ltac:(lra) Hh HL HC) as SA. set (rh := map dval h) in *. set (rx := map dval x) in *.
  assert (Lx : length x = length m) by (rewrite <- HL; symmetry; eapply Forall2_len; exact HC).
  pose proof (shape_sum (length m) rh rx D23' ltac:(unfold rh; rewrite map_length; exact HL) ltac:(unfold rx; rewrite map_length; exact Lx)) as S1.
  assert (PM : 0 <= M). { destruct (Hv 0%nat) as (_ & _ & K); [pose proof (Nat.pow_nonzero 2 (length m)); lia|]. eapply Rle_trans; [apply Rabs_pos|exact K]. }
  assert (SZ : size_at m per rh (absolute u) e rx d <= ((1 + 2 * eps) ^ length m + 8 * / 2 ^ 700) * M).
  { unfold size_at. apply Rle_trans with (Rsum (2 ^ length m) (fun k => M * (Rabs (shape rh rx k) + / 2 ^ 700))).
    - apply Rsum_le. intros k Hk. rewrite Rmult_comm. apply Rmult_le_compat_r; [apply Rlt_le, size_pos|]. unfold gv, absolute. apply (Hv k Hk).
    - rewrite Rsum_scal, Rmult_comm. apply Rmult_le_compat_r; [exact PM|]. assert (X : forall n (f : nat -> R) c, Rsum n (fun k => f k + c) = Rsum n f + INR n * c) by (clear; induction n; intros; cbn [Rsum]; [simpl; ring|rewrite IHn, S_INR; ring]). rewrite X. apply Rplus_le_compat; [exact SA|].
      apply Rmult_le_compat_r; [apply Rlt_le, Rinv_0_lt_compat, pow_lt; lra|]. apply Rle_trans with (INR 8); [apply le_INR, P8|rewrite INR_IZR_INZ; simpl; lra]. }
  assert (FG : finite (nth d g dzero)).
  { apply B2; [exact I|]. eapply Rle_trans; [exact SZ|]. apply Rle_trans with (2 ^ 6 * 2 ^ 900); [|rewrite <- pow_add; apply pow_le_1; lia]. assert (P1 : (1 + 2 * eps) ^ length m <= 27). { assert (Q : (1 + 2 * eps) ^ length m <= 3 ^ length m) by (apply pow_incr; lra). eapply Rle_trans; [exact Q|]. destruct D23' as [-> | ->]; simpl; lra. }
    assert (T7 : / 2 ^ 700 <= 1) by (rewrite <- Rinv_1; apply Rinv_le_contravar; [lra|apply pow_R1_Rle; lra]). assert (0 < / 2 ^ 700) by (apply Rinv_0_lt_compat, pow_lt; lra).
    apply Rmult_le_compat; [|exact PM| |exact HM]; [assert (0 <= (1 + 2 * eps) ^ length m) by (apply pow_le; lra); lra|]. replace (2 ^ 6) with 64 by (simpl; lra). lra. }
  split; [exact FG|]. specialize (B1 FG). replace (2 ^ length m + 11 + 1)%nat with (2 ^ length m + 12)%nat in B1 by lia. cbv zeta.
  pose proof (weighted_between (2 ^ length m) (shape rh rx) (fun k => gv m per (exact u) e k d) lo hi S1 (fun k Hk => proj1 (proj2 (Hv k Hk)))) as W. cbv zeta in W. change (Rsum (2 ^ length m) (fun k => shape rh rx k * gv m per (exact u) e k d)) with (field_at m per rh (exact u) e rx d) in W.
  assert (LH : lo <= hi). { destruct (Hv 0%nat) as (_ & K & _); [pose proof (Nat.pow_nonzero 2 (length m)); lia|]. lra. }
  assert (O : (hi - lo) * (Rsum (2 ^ length m) (fun k => Rabs (shape rh rx k)) - 1) / 2 <= (hi - lo) * ((1 + 2 * eps) ^ length m - 1) / 2). { unfold Rdiv. apply Rmult_le_compat_r; [lra|]. apply Rmult_le_compat_l; lra. }
  assert (RB : INR (2 ^ length m + 12) * u64 * size_at m per rh (absolute u) e rx d <= INR (2 ^ length m + 12) * u64 * (((1 + 2 * eps) ^ length m + 8 * / 2 ^ 700) * M)). { apply Rmult_le_compat_l; [|exact SZ]. apply Rmult_le_pos; [apply pos_INR|apply Rlt_le, u64_pos]. }
  apply Rabs_le_inv in B1. clear - B1 W O RB. change (Rsum (2 ^ length m) (fun k => shape rh rx k * (fun k0 => gv m per (exact u) e k0 d) k)) with (field_at m per rh (exact u) e rx d) in W. cbv beta in W.
  set (o1 := (hi - lo) * (Rsum (2 ^ length m) (fun k => Rabs (shape rh rx k)) - 1) / 2) in *. set (o2 := (hi - lo) * ((1 + 2 * eps) ^ length m - 1) / 2) in *.
  set (r1 := INR (2 ^ length m + 12) * u64 * size_at m per rh (absolute u) e rx d) in *. set (r2 := INR (2 ^ length m + 12) * u64 * (((1 + 2 * eps) ^ length m + 8 * / 2 ^ 700) * M)) in *. set (t1 := INR (2 ^ length m + 1) * tiny64) in *.
  set (f := field_at _ _ _ _ _ _ _) in *. set (v := dval _) in *. clearbody o1 o2 r1 r2 t1 f v. split; lra.
Qed.

(** ** spreading *)
Lemma size_nonneg m per h pts n d : 0 <= spread_size m per h pts n d.
Proof.
  unfold spread_size. apply Lsum_nonneg. intros [[[e x] g] gam] _. apply Rsum_nonneg. intros k _. destruct (same_node _ _); [|lra]. apply Rmult_le_pos; [|apply Rabs_pos]. pose proof (Rmult_le_pos _ _ (Rabs_pos (co d g)) (Rlt_le _ _ (size_pos h x k))). assert (0 < / 2 ^ 700) by (apply Rinv_0_lt_compat, pow_lt; lra). lra.
Qed.
Theorem C84_spreading_in_doubles : forall h m per dms gam surf g, good_steps h -> length h = length m -> grid_ok m per -> distributes m per (length m) dms -> surface_ok (length m) h dms surf g ->
  let pts := all_points dms gam surf g in
  (exists Y, dSL_to_Rhs_raw (length m) h gam surf g dms Y) /\
  forall Y, dSL_to_Rhs_raw (length m) h gam surf g dms Y -> forall n d K, (d < length m)%nat -> spread_terms m per pts n <= INR K -> INR K <= 2 ^ 20 ->
    let size := spread_size m per (map dval h) pts n d in
    (finite (Y n d) -> Rabs (dval (Y n d) - spread m per (map dval h) pts n d) <= INR (K + 13) * u64 * size + INR (K + 1) * tiny64) /\
    (finite_forces dms gam g -> size <= 2 ^ 1000 -> finite (Y n d)).
Proof.
  intros h m per dms gam surf g Hh HL HG HD HS pts. destruct (raw_ok (length m) m per h dms gam surf g HG HD eq_refl Hh HL HS) as [E H]. split; [exact E|]. intros Y HY n d K Hd HK BK. cbv zeta.
  replace (K + 13)%nat with (K + 12 + 1)%nat by lia. eapply approx_out; [lia|exact BK|apply (H Y HY n d Hd)|exact HK].
Qed.
(** Against any real field: the power of the spread forces is that of the forces at the surface points, up to rounding. *)
Lemma spread_adjoint m per rh pts (u : field) d N : enumerates N (nodes_box m) ->
  (forall p, In p pts -> forall k, (k < 2 ^ length m)%nat -> in_grid_box (nodes_box m) (wrap m per (corner (fst (fst (fst p))) k))) ->
  Lsum (fun n => spread m per rh pts n d * u n d) N = Lsum (fun p => let '(e, x, g, gam) := p in co d g * field_at m per rh u e x d * gam) pts.
Proof.
  intros [HN HN'] HP. unfold spread. rewrite (Lsum_ext _ (fun n => Lsum (fun p => let '(e, x, g, gam) := p in Rsum (2 ^ length m) (fun k => if same_node (wrap m per (corner e k)) n then co d g * shape rh x k * gam * u n d else 0)) pts)).
  2:{ intros n _. rewrite <- Lsum_scal_r. apply Lsum_ext. intros [[[e x] g] gam] _. rewrite Rmult_comm, <- Rsum_scal. apply Rsum_ext. intros k _. destruct (same_node _ _); ring. }
  rewrite Lsum_swap. apply Lsum_ext. intros [[[e x] g] gam] Hp. specialize (HP _ Hp). cbn [fst] in HP. rewrite Lsum_Rsum. unfold field_at.
  transitivity (Rsum (2 ^ length m) (fun k => co d g * gam * (shape rh x k * gv m per u e k d))); [|rewrite Rsum_scal; ring]. apply Rsum_ext. intros k Hk. unfold gv.
  rewrite <- (Lsum_pick (list_eq_dec Z.eq_dec) (wrap m per (corner e k)) (fun n => co d g * gam * (shape rh x k * u n d)) N HN (proj2 (HN' _) (HP k Hk))).
  apply Lsum_ext. intros n _. unfold same_node. destruct (list_eq_dec Z.eq_dec _ n); [ring|reflexivity].
Qed.
Lemma points_in_grid h m per dms gam surf g : grid_ok m per -> distributes m per (length m) dms -> surface_ok (length m) h dms surf g -> forall p, In p (all_points dms gam surf g) ->
  forall k, (k < 2 ^ length m)%nat -> in_grid_box (nodes_box m) (wrap m per (corner (fst (fst (fst p))) k)).
Proof.
  intros HG HD HS p Hp k Hk. unfold all_points in Hp. apply in_flat_map in Hp as (dm & Hin & Hp). apply in_flat_map in Hp as (i & _ & Hp). apply in_map_iff in Hp as ([sp gk] & <- & Hp). cbn [fst snd]. apply in_combine_l in Hp.
  destruct (HS dm Hin) as (_ & _ & S3). destruct (S3 _ sp (nth_In' _ _ _ Hp) Hp) as [He _]. eapply (wrap_node (length m)); eauto.
Qed.
Theorem C84_power_of_the_spread_forces : forall h m per dms gam surf g Y (u : field) d N K, good_steps h -> length h = length m -> grid_ok m per -> distributes m per (length m) dms -> surface_ok (length m) h dms surf g ->
  dSL_to_Rhs_raw (length m) h gam surf g dms Y -> enumerates N (nodes_box m) -> (d < length m)%nat -> INR K <= 2 ^ 20 ->
  let pts := all_points dms gam surf g in
  (forall n, In n N -> finite (Y n d) /\ spread_terms m per pts n <= INR K) ->
  Rabs (Lsum (fun n => dval (Y n d) * u n d) N - Lsum (fun p => let '(e, x, f, w) := p in co d f * field_at m per (map dval h) u e x d * w) pts) <=
    Lsum (fun n => (INR (K + 13) * u64 * spread_size m per (map dval h) pts n d + INR (K + 1) * tiny64) * Rabs (u n d)) N.
Proof.
  intros h m per dms gam surf g Y u d N K Hh HL HG HD HS HY HN Hd BK pts HF. destruct (C84_spreading_in_doubles h m per dms gam surf g Hh HL HG HD HS) as [_ H]. specialize (H Y HY).
  rewrite <- (spread_adjoint m per (map dval h) pts u d N HN (points_in_grid h m per dms gam surf g HG HD HS)).
  clear HN. induction N as [|n N IH]; [unfold Lsum; simpl; rewrite Rminus_0_r, Rabs_R0; lra|]. rewrite !Lsum_cons.
  specialize (IH (fun n Hn => HF n (or_intror Hn))). destruct (HF n (or_introl eq_refl)) as [F T]. destruct (H n d K Hd T BK) as [B _]. specialize (B F). fold pts in B.
  set (A1 := Lsum (fun n => dval (Y n d) * u n d) N) in *. set (A2 := Lsum (fun n => spread m per (map dval h) pts n d * u n d) N) in *. set (s := spread m per (map dval h) pts n d) in *. set (b := INR (K + 13) * u64 * _ + _) in *.
  replace (dval (Y n d) * u n d + A1 - (s * u n d + A2)) with ((dval (Y n d) - s) * u n d + (A1 - A2)) by ring. eapply Rle_trans; [apply Rabs_triang|]. rewrite Rabs_mult. apply Rplus_le_compat; [|exact IH]. apply Rmult_le_compat_r; [apply Rabs_pos|exact B].
Qed.
(** The total force. *)
Theorem C84_total_force : forall h m per dms gam surf g Y d N K, good_steps h -> length h = length m -> grid_ok m per -> distributes m per (length m) dms -> surface_ok (length m) h dms surf g ->
  dSL_to_Rhs_raw (length m) h gam surf g dms Y -> enumerates N (nodes_box m) -> (d < length m)%nat -> INR K <= 2 ^ 20 ->
  let pts := all_points dms gam surf g in
  (forall n, In n N -> finite (Y n d) /\ spread_terms m per pts n <= INR K) ->
  Rabs (Lsum (fun n => dval (Y n d)) N - Lsum (fun p => let '(e, x, f, w) := p in co d f * w) pts) <=
    Lsum (fun n => INR (K + 13) * u64 * spread_size m per (map dval h) pts n d + INR (K + 1) * tiny64) N.
Proof.
  intros h m per dms gam surf g Y d N K Hh HL HG HD HS HY HN Hd BK pts HF.
  assert (P : Rabs (Lsum (fun n => dval (Y n d) * 1) N - Lsum (fun p => let '(e, x, f, w) := p in co d f * field_at m per (map dval h) (fun _ _ => 1) e x d * w) pts) <=
    Lsum (fun n => (INR (K + 13) * u64 * spread_size m per (map dval h) pts n d + INR (K + 1) * tiny64) * Rabs 1) N) by exact (C84_power_of_the_spread_forces h m per dms gam surf g Y (fun _ _ => 1) d N K Hh HL HG HD HS HY HN Hd BK HF).
  assert (E1 : Lsum (fun n => dval (Y n d) * 1) N = Lsum (fun n => dval (Y n d)) N) by (apply Lsum_ext; intros; ring).
  assert (E2 : Lsum (fun n => (INR (K + 13) * u64 * spread_size m per (map dval h) pts n d + INR (K + 1) * tiny64) * Rabs 1) N = Lsum (fun n => INR (K + 13) * u64 * spread_size m per (map dval h) pts n d + INR (K + 1) * tiny64) N) by (apply Lsum_ext; intros; rewrite Rabs_R1; ring).
  assert (E3 : Lsum (fun p => let '(e, x, f, w) := p in co d f * field_at m per (map dval h) (fun _ _ => 1) e x d * w) pts = Lsum (fun p => let '(e, x, f, w) := p in co d f * w) pts); [|rewrite E1, E2, E3 in P; exact P]. apply Lsum_ext.
  intros p Hp. unfold pts in Hp.
  unfold all_points in Hp. apply in_flat_map in Hp as (dm & Hin & Hp). apply in_flat_map in Hp as (i & _ & Hp). apply in_map_iff in Hp as ([sp gk] & <- & Hp). cbn [fst snd]. apply in_combine_l in Hp.
  destruct (HS dm Hin) as (_ & _ & S3). destruct (S3 _ sp (nth_In' _ _ _ Hp) Hp) as [_ HO]. apply Forall2_len in HO.
  rewrite (field_at_const m per (map dval h) (fst sp) (map dval (snd sp)) (fun _ => 1) d); [ring|apply HG|rewrite map_length; exact HL|rewrite map_length; congruence].
Qed.
(** With the boundary conditions: zero at the constrained nodes, the spread forces elsewhere. *)
Theorem C84_spreading_with_boundary_conditions : forall h m per (bc : list dbc_row) dms gam surf g, good_steps h -> length h = length m -> grid_ok m per -> distributes m per (length m) dms -> surface_ok (length m) h dms surf g ->
  nonempty_views dms -> full_table (length m) (length m) bc ->
  let pts := all_points dms gam surf g in
  (exists Y, dSL_to_Rhs (length m) h gam surf g (map Some bc) dms Y) /\
  forall Y, dSL_to_Rhs (length m) h gam surf g (map Some bc) dms Y -> forall n d K, in_grid_box (nodes_box m) n -> (d < length m)%nat -> spread_terms m per pts n <= INR K -> INR K <= 2 ^ 20 ->
    (prescribed_by (length m) m per bc n d <> None -> Y n d = dzero) /\
    (prescribed_by (length m) m per bc n d = None ->
      let size := spread_size m per (map dval h) pts n d in
      (finite (Y n d) -> Rabs (dval (Y n d) - spread m per (map dval h) pts n d) <= INR (K + 13) * u64 * size + INR (K + 1) * tiny64) /\
      (finite_forces dms gam g -> size <= 2 ^ 1000 -> finite (Y n d))).
Proof.
  intros h m per bc dms gam surf g Hh HL HG HD HS HN HT pts. destruct (C84_spreading_in_doubles h m per dms gam surf g Hh HL HG HD HS) as [[R HR] H]. split.
  - destruct (ddirichlet_ok m per (length m) (dval_const dzero) bc dms R HG HD HN HT) as (Y & E & _). exists Y, R. split; [exact HR|exact E].
  - intros Y (R' & HR' & EY) n d K Hn Hd HK BK. destruct (ddirichlet_ok m per (length m) (dval_const dzero) bc dms R' HG HD HN HT) as (Y' & E & V).
    assert (Y' = Y). { assert (Ok Y' = Ok Y) as EE by (etransitivity; [symmetry; exact E|exact EY]). injection EE. auto. } subst Y'. specialize (V n d Hn Hd). split; intros HP.
    + destruct (prescribed_by _ _ _ _ _ _); [exact V|congruence].
    + rewrite HP in V. cbv zeta. rewrite V. exact (H R' HR' n d K Hd HK BK).
Qed.
(** The weight of a surface point: the area divided by the number of points. *)
Theorem C84_weight_of_a_surface_point : forall area nb, finite area -> (0 < nb <= 2 ^ 53)%Z -> Rabs (dval area) <= 2 ^ 1023 ->
  finite (dgamma area nb) /\ Rabs (dval (dgamma area nb) - dval area / IZR nb) <= u64 * Rabs (dval area / IZR nb) + tiny64.
Proof.
  intros area nb HF Hnb HB. destruct (dint_ok nb ltac:(lia)) as [F V]. assert (P : 1 <= IZR nb) by (apply (IZR_le 1); lia). unfold dgamma.
  destruct (ddiv_ok area (dint nb) HF) as [F2 V2]; [rewrite V; lra| |].
  - rewrite V. unfold Rdiv. rewrite Rabs_mult, Rabs_inv, (Rabs_pos_eq (IZR nb)) by lra. apply Rle_trans with (2 ^ 1023 * 1); [|lra]. apply Rmult_le_compat; [apply Rabs_pos|apply Rlt_le, Rinv_0_lt_compat; lra|exact HB|]. rewrite <- Rinv_1. apply Rinv_le_contravar; lra.
  - split; [exact F2|]. rewrite V2, V. set (q := dval area / IZR nb). destruct (rnd_err q) as (a & t & Ha & Ht & ->). replace (q * (1 + a) + t - q) with (a * q + t) by ring. eapply Rle_trans; [apply Rabs_triang|]. rewrite Rabs_mult, tiny_eta. pose proof (Rabs_pos q). pose proof (Rmult_le_compat_r (Rabs q) _ _ H Ha). lra.
Qed.
(** A case: grid of 5 x 3 nodes on two processes, two particles; the ramp u = x interpolated at the middle of a side. *)
Definition ramp2 : dfield := fun n _ => dint (nth 0 n 0%Z).
Definition half : double := ddiv (dint 1) (dint 2).
Definition two_surf (dm : dmda) : list (list (list Z * list double)) :=
  if (nth 0 (bottom_left (g_own dm)) 0 =? 0)%Z then [[([0; 1]%Z, [half; dint 0])]; []] else [[]; [([3; 1]%Z, [half; half])]].
Definition two_forces (dm : dmda) : list (list (list double)) :=
  if (nth 0 (bottom_left (g_own dm)) 0 =? 0)%Z then [[[dint 1; dint (-2)]]; []] else [[]; [[dint 3; dint 4]]].
Definition bits_of (r : outcome (list (list (list double)))) : list (list (list SpecFloat.spec_float)) := match r with Ok l => map (map (map B2SF)) l | _ => [] end.
Example C84_example : surface_ok 2 unit_steps vel_two two_surf two_forces /\ finite_forces vel_two (fun i => dint (Z.of_nat i + 1)) two_forces /\
  Forall (fun dm => Forall (Forall (fun sp => in_cell 0 unit_steps (snd sp))) (two_surf dm)) vel_two /\ length (all_points vel_two (fun i => dint (Z.of_nat i + 1)) two_surf two_forces) = 2%nat /\
  map (fun dm => bits_of (dinterp_fluid_to_surf 2 unit_steps (two_surf dm) ramp2 dm)) vel_two = [[[[B2SF half; B2SF half]]; []]; [[]; [[B2SF (dplus (dint 3) half); B2SF (dplus (dint 3) half)]]]].
Proof.
  assert (F1 : finite (dint 1) /\ dval (dint 1) = 1) by (destruct (dint_ok 1 ltac:(simpl; lia)) as [F V]; split; [exact F|exact V]).
  assert (F0 : finite (dint 0) /\ dval (dint 0) = 0) by (destruct (dint_ok 0 ltac:(simpl; lia)) as [F V]; split; [exact F|exact V]).
  assert (FH : finite half /\ dval half = / 2). { split; [reflexivity|]. assert (E : B2SF half = SpecFloat.S754_finite false 4503599627370496 (-53)) by (vm_compute; reflexivity). unfold dval. rewrite <- SF2R_B2SF, E. unfold SF2R, F2R. cbn. lra. }
  assert (IC : forall y, finite y /\ 0 <= dval y <= 1 -> finite y /\ - 0 * dval (dint 1) <= dval y <= (1 + 0) * dval (dint 1)) by (intros y [A B]; split; [exact A|]; rewrite (proj2 F1); lra).
  assert (GO : forall y, finite y /\ 0 <= dval y <= 1 -> finite y /\ Rabs (dval y) <= 2 * dval (dint 1)) by (intros y [A B]; split; [exact A|]; rewrite (proj2 F1), Rabs_pos_eq; lra).
  assert (H0 : finite (dint 0) /\ 0 <= dval (dint 0) <= 1) by (split; [apply F0|rewrite (proj2 F0); lra]). assert (HH : finite half /\ 0 <= dval half <= 1) by (split; [apply FH|rewrite (proj2 FH); lra]).

  split; [|split; [|split; [|split]]].
  - assert (O : good_offset unit_steps [half; dint 0] /\ good_offset unit_steps [half; half]) by (split; (apply Forall2_cons; [apply GO; assumption|]); (apply Forall2_cons; [apply GO; assumption|]); apply Forall2_nil). destruct O as [O1 O2].
    assert (B : forall a b c d x y : Z, (a <= x < c)%Z -> (b <= y < d)%Z -> in_grid_box (mkbox [a; b] [c; d]) [x; y]) by (intros; split; cbn; (apply Forall2_cons; [lia|]); (apply Forall2_cons; [lia|]); apply Forall2_nil).
    intros dm [<- | [<- | []]]; (split; [repeat constructor|split; [repeat constructor|]]).
    + intros spts sp [<- | [<- | []]] Hsp; [|destruct Hsp]. destruct Hsp as [<- | []]. split; [apply (B 0 0 2 2 0 1)%Z; lia|exact O1].
    + intros spts sp [<- | [<- | []]] Hsp; [destruct Hsp|]. destruct Hsp as [<- | []]. split; [apply (B 2 0 4 2 3 1)%Z; lia|exact O2].
  - assert (FI : forall z, (Z.abs z <= 10)%Z -> finite (dint z) /\ Rabs (dval (dint z)) <= 2 ^ 900).
    { intros z Hz. destruct (dint_ok z) as [F V]; [change (2 ^ 53)%Z with 9007199254740992%Z; lia|]. split; [exact F|]. rewrite V, <- abs_IZR. apply Rle_trans with (IZR 10); [apply IZR_le, Hz|]. apply Rle_trans with (2 ^ 4); [simpl; lra|apply pow_le_1; lia]. }
    set (Q := fun v : double => finite v /\ Rabs (dval v) <= 2 ^ 900). assert (Q2 : forall a b, (Z.abs a <= 10)%Z -> (Z.abs b <= 10)%Z -> Forall (Forall Q) [[dint a; dint b]]) by (intros; apply Forall_cons; [|apply Forall_nil]; apply Forall_cons; [apply FI; assumption|]; apply Forall_cons; [apply FI; assumption|]; apply Forall_nil).
    intros dm i Hdm Hi. assert (L : (i < 2)%nat) by (destruct Hdm as [<- | [<- | []]]; exact Hi). split; [apply FI; lia|]. change (Forall (Forall Q) (nth i (two_forces dm) [])).
    destruct i as [|[|]]; [| |lia]; destruct Hdm as [<- | [<- | []]]; first [apply Forall_nil | apply (Q2 1 (-2))%Z; lia | apply (Q2 3 4)%Z; lia].
  - assert (O : in_cell 0 unit_steps [half; dint 0] /\ in_cell 0 unit_steps [half; half]) by (split; (apply Forall2_cons; [apply IC; assumption|]); (apply Forall2_cons; [apply IC; assumption|]); apply Forall2_nil). destruct O as [O1 O2].
    constructor; [|constructor; [|constructor]]; (constructor; [|constructor; [|constructor]]); repeat (apply Forall_cons || apply Forall_nil); first [exact O1 | exact O2].
  - reflexivity.
  - vm_compute. reflexivity.
Qed.
Close Scope R_scope.
