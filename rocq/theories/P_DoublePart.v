(** Transfers between the grid and the surface points in doubles. *)
From Coq Require Import Permutation.
From Coquelicot Require Import Coquelicot.
From Flocq Require Import Core BinarySingleNaN.
From Verif Require Import Base M_Geometry S_Geometry P_Geometry M_Particle S_Particle P_Particle S_Fem M_Quadrature M_MatElem P_MatElem P_Energy M_Mesh M_Operator S_Operator P_Mesh P_Operator P_Operator2 P_Precond M_Bc M_ParticleOp S_ParticleOp P_ParticleOp.
From Verif Require Import M_Double S_Double P_Double P_Double2 P_Double3 P_Double4 P_Double5 P_Double6 P_Double7 P_Double8.
From Verif Require Import M_DoubleOp S_DoubleOp P_DoubleOp P_DoubleOp2 P_DoubleOp3.
From Verif Require Import M_DoubleBc.
From Verif Require Import M_DoublePart S_DoublePart.
Open Scope R_scope.

(** ** the weights *)
Lemma pow_lin c : INR c * u64 <= (1 + u64) ^ c - 1.
Proof.
  pose proof u64_pos as U. induction c as [|c IH]; [simpl; lra|]. rewrite S_INR. cbn [pow]. pose proof (pow_1u c). nra.
Qed.
Lemma tiny_700 : / 2 ^ 800 <= u64 * / 2 ^ 700.
Proof.
  unfold u64. rewrite <- Rinv_mult. rewrite <- pow_add. apply Rinv_le_contravar; [apply pow_lt; lra|]. apply pow_le_1; lia.
Qed.
Lemma size_pos h x k : 0 < size_shape h x k.
Proof. unfold size_shape. pose proof (Rabs_pos (shape h x k)). assert (0 < / 2 ^ 700) by (apply Rinv_0_lt_compat, pow_lt; lra). lra. Qed.
Lemma factor_of (c : nat) w e : (1 <= c)%nat -> Rabs (dval w - e) <= INR c * u64 * Rabs e + / 2 ^ 800 -> factor c w e (Rabs e + / 2 ^ 700).
Proof.
  intros Hc H. assert (P : 0 < / 2 ^ 700) by (apply Rinv_0_lt_compat, pow_lt; lra). split; [lra|]. eapply Rle_trans; [exact H|]. pose proof (pow_lin c) as L. pose proof tiny_700 as T. pose proof (Rabs_pos e) as E. pose proof u64_pos as U.
  assert (C1 : 1 <= INR c) by (apply (le_INR 1), Hc). apply Rle_trans with (INR c * u64 * (Rabs e + / 2 ^ 700)); [|apply Rmult_le_compat_r; lra].
  rewrite Rmult_plus_distr_l. apply Rplus_le_compat_l. eapply Rle_trans; [exact T|]. apply Rmult_le_compat_r; [lra|]. rewrite <- (Rmult_1_l u64) at 1. apply Rmult_le_compat_r; lra.
Qed.
Lemma Forall2_nth2 {A B} (P : A -> B -> Prop) l l' a b k : Forall2 P l l' -> (k < length l)%nat -> P (nth k l a) (nth k l' b).
Proof. intros H. revert k. induction H; intros [|k] Hk; simpl in *; try lia; auto. apply IHForall2. lia. Qed.
Lemma bilinear_shape h0 h1 x0 x1 : bilinear_weights (x0 / h0) (x1 / h1) = map (shape [h0; h1] [x0; x1]) (seq 0 4).
Proof.
  cbn [map seq]. unfold shape, bilinear_weights. cbn [length seq zip_with fold_right].
  repeat match goal with |- context [Nat.odd ?t] => let v := eval vm_compute in (Nat.odd t) in change (Nat.odd t) with v end. cbv iota. rewrite ?Rmult_1_r. reflexivity.
Qed.
Lemma trilinear_shape h0 h1 h2 x0 x1 x2 : trilinear_weights (x0 / h0) (x1 / h1) (x2 / h2) = map (shape [h0; h1; h2] [x0; x1; x2]) (seq 0 8).
Proof.
  cbn [map seq]. unfold shape, trilinear_weights, bilinear_weights. cbn [length seq zip_with fold_right map app].
  repeat match goal with |- context [Nat.odd ?t] => let v := eval vm_compute in (Nat.odd t) in change (Nat.odd t) with v end. cbv iota. rewrite ?Rmult_1_r, ?Rmult_assoc. reflexivity.
Qed.
Lemma weights_ok h x : good_steps h -> good_offset h x -> length (dP1_integration x h) = (2 ^ length h)%nat /\
  forall k, (k < 2 ^ length h)%nat -> finite (nth k (dP1_integration x h) dzero) /\ factor 11 (nth k (dP1_integration x h) dzero) (shape (map dval h) (map dval x) k) (size_shape (map dval h) (map dval x) k).
Proof.
  intros [HL HF] HO. destruct HL as [HL|HL].
  - destruct h as [|h0 [|h1 [|]]]; simpl in HL; try lia. inversion HO as [|? ? ? ? [F0 B0] HO1]; subst. inversion HO1 as [|? ? ? ? [F1 B1] HO2]; subst. inversion HO2; subst. inversion HF as [|? ? [G0 M0] HF1]; subst. inversion HF1 as [|? ? [G1 M1] _]; subst.
    cbn [dP1_integration]. split; [reflexivity|]. change (2 ^ length [h0; h1])%nat with 4%nat. intros k Hk.
    pose proof (weights_err y y0 h0 h1 F0 F1 G0 G1 (moderate_mid _ M0) (moderate_mid _ M1) B0 B1) as W. apply (Forall2_nth2 _ _ _ dzero 0 k) in W; [|exact Hk].
    rewrite bilinear_shape, nth_map_seq in W by exact Hk. destruct W as [W1 W2]. split; [exact W1|]. apply factor_of; [lia|]. eapply Rle_trans; [exact W2|]. apply Rplus_le_compat_r, Rmult_le_compat_r; [apply Rabs_pos|]. apply Rmult_le_compat_r; [apply Rlt_le, u64_pos|]. simpl; lra.
  - destruct h as [|h0 [|h1 [|h2 [|]]]]; simpl in HL; try lia. inversion HO as [|? ? ? ? [F0 B0] HO1]; subst. inversion HO1 as [|? ? ? ? [F1 B1] HO2]; subst. inversion HO2 as [|? ? ? ? [F2 B2] HO3]; subst. inversion HO3; subst. inversion HF as [|? ? [G0 M0] HF1]; subst. inversion HF1 as [|? ? [G1 M1] HF2]; subst. inversion HF2 as [|? ? [G2 M2] _]; subst.
    cbn [dP1_integration]. split; [reflexivity|]. change (2 ^ length [h0; h1; h2])%nat with 8%nat. intros k Hk.
    pose proof (weights_err3 y y0 y1 h0 h1 h2 F0 F1 F2 G0 G1 G2 M0 M1 M2 B0 B1 B2) as W. apply (Forall2_nth2 _ _ _ dzero 0 k) in W; [|exact Hk].
    rewrite trilinear_shape, nth_map_seq in W by exact Hk. destruct W as [W1 W2]. split; [exact W1|]. apply factor_of; [lia|]. eapply Rle_trans; [exact W2|]. apply Rplus_le_compat_r, Rmult_le_compat_r; [apply Rabs_pos|]. apply Rmult_le_compat_r; [apply Rlt_le, u64_pos|]. simpl; lra.
Qed.

(** ** interpolation at a point *)
Lemma nth_set_nth {A} k j (v a : A) (g : list A) : (j < length g)%nat -> nth k (set_nth j v g) a = if Nat.eqb k j then v else nth k g a.
Proof. revert k j. induction g as [|b g IH]; intros k j H; simpl in *; [lia|]. destruct j, k; simpl; auto. apply IH. lia. Qed.
Definition accd (w : nat -> double) (u : nat -> double) (n : nat) (a : double) : double := fold_left (fun acc j => dplus acc (dmult (u j) (w j))) (seq 0 n) a.
Lemma accd_S w u n a : accd w u (S n) a = dplus (accd w u n a) (dmult (u n) (w n)).
Proof. unfold accd. rewrite seq_S, fold_left_app. reflexivity. Qed.
Lemma dinterp_acc D nb (rd : nat -> nat -> outcome double) (U : nat -> nat -> double) (b : nat -> double) acc :
  (forall j d, (j < nb)%nat -> (d < D)%nat -> rd j d = Ok (U j d)) -> length acc = D ->
  exists g, for_ nb (fun j g => for_ D (fun d g => bind (rd j d) (fun u => Ok (set_nth d (dplus (nth d g dzero) (dmult u (b j))) g))) g) acc = Ok g /\
    length g = D /\ forall d, (d < D)%nat -> nth d g dzero = accd b (fun j => U j d) nb (nth d acc dzero).
Proof.
  intros HR HA.
  destruct (for_inv nb (fun j g => for_ D (fun d g => bind (rd j d) (fun u => Ok (set_nth d (dplus (nth d g dzero) (dmult u (b j))) g))) g)
    (fun k g => length g = D /\ forall d, (d < D)%nat -> nth d g dzero = accd b (fun j => U j d) k (nth d acc dzero)) acc) as (s & E & L & V).
  - split; [exact HA|]. reflexivity.
  - intros k g Hk [Lg Vg].
    destruct (for_inv D (fun d g => bind (rd k d) (fun u => Ok (set_nth d (dplus (nth d g dzero) (dmult u (b k))) g)))
      (fun e g' => length g' = D /\ forall d, (d < D)%nat -> nth d g' dzero = if Nat.ltb d e then dplus (nth d g dzero) (dmult (U k d) (b k)) else nth d g dzero) g) as (s & E & L & V).
    + split; [exact Lg|]. reflexivity.
    + intros e g' He [L' V']. rewrite HR by assumption. cbn [bind]. eexists. split; [reflexivity|]. split; [rewrite len_set_nth; exact L'|].
      intros d Hd. rewrite nth_set_nth by lia. destruct (Nat.eqb_spec d e) as [->|Hne].
      * rewrite V' by exact Hd. rewrite Nat.ltb_irrefl. replace (Nat.ltb e (S e)) with true by (symmetry; apply Nat.ltb_lt; lia). reflexivity.
      * rewrite V' by exact Hd. destruct (Nat.ltb_spec d e), (Nat.ltb_spec d (S e)); try reflexivity; lia.
    + exists s. split; [exact E|]. split; [exact L|]. intros d Hd. rewrite V by exact Hd. replace (Nat.ltb d D) with true by (symmetry; apply Nat.ltb_lt; lia). rewrite accd_S, <- Vg by exact Hd. reflexivity.
  - exists s. auto.
Qed.
Lemma accd_approx (fin : Prop) w u n (r s : nat -> R) : (forall k, (k < n)%nat -> factor 11 (w k) (r k) (s k) /\ (fin -> finite (u k) /\ finite (w k))) ->
  approx 11 fin (accd w u n dzero) (Rsum n (fun k => dval (u k) * r k)) (Rsum n (fun k => Rabs (dval (u k)) * s k)) (INR n).
Proof.
  induction n as [|n IH]; intros H; [apply approx_zero|]. rewrite accd_S, S_INR. cbn [Rsum]. destruct (H n ltac:(lia)) as [H1 H2].
  apply approx_plus; [lia|apply IH; intros k Hk; apply H; lia|]. apply approx_mult; [lia|exact H1|exact H2].
Qed.

Lemma point_acc D m per h dms dm (u : dfield) e x : (D = 2 \/ D = 3)%nat -> good_steps h -> length h = D -> length m = D -> grid_ok m per -> distributes m per D dms -> In dm dms -> in_grid_box (get_DM_bounds dm true) e -> good_offset h x ->
  exists g, dinterp_surf_point D h (dglobal_to_local dm u) (e, x) = Ok g /\ length g = D /\
    forall d, (d < D)%nat -> nth d g dzero = accd (fun j => nth j (dP1_integration x h) dzero) (fun j => u (wrap m per (corner e j)) d) (2 ^ D) dzero.
Proof.
  intros D23' Hh HLh HDm HG HD Hin He HO. pose proof (cell_len D m per dms HG HD HDm dm e Hin He) as Le. unfold dinterp_surf_point. cbn [fst snd].
  destruct (weights_ok h x Hh HO) as [WL _]. rewrite WL, HLh.
  destruct (dinterp_acc D (2 ^ D) (fun j d => dat_read (dglobal_to_local dm u) (nth j (get_element e) []) d) (fun j d => u (wrap m per (corner e j)) d) (fun j => nth j (dP1_integration x h) dzero) (repeat dzero D)) as (g & E & L & V).
  - intros j d Hj Hd. rewrite get_element_corner by (rewrite Le; first [exact D23' | exact Hj]). unfold dat_read. destruct (corner_in_ghost D m per dms HG HD HDm dm e j Hin He Hj) as (Hg & _).
    unfold dglobal_to_local at 1. cbn [dl_box]. rewrite (point_inside_iff m per D dms HG HD dm _ Hin Hg). unfold dglobal_to_local. cbn [dl_val]. f_equal.
    destruct HD as [HV _]. rewrite Forall_forall in HV. destruct (HV dm Hin) as (E1 & E2 & _). rewrite E1, E2. reflexivity.
  - apply repeat_length.
  - exists g. split; [exact E|]. split; [exact L|]. intros d Hd. rewrite V by exact Hd. rewrite nth_repeat. reflexivity.
Qed.
Lemma wrap_node D m per dms dm e k : grid_ok m per -> distributes m per D dms -> length m = D -> In dm dms -> in_grid_box (get_DM_bounds dm true) e -> (k < 2 ^ D)%nat -> in_grid_box (nodes_box m) (wrap m per (corner e k)).
Proof.
  intros HG HD HDm Hin He Hk. destruct (corner_in_ghost D m per dms HG HD HDm dm e k Hin He Hk) as (_ & Hn & Hc). eapply wrap_in_nodes; eauto; apply HG.
Qed.
Lemma point_approx (fin : Prop) D m per h dms dm (u : dfield) e x d g : (fin -> forall k, (k < 2 ^ D)%nat -> finite (u (wrap m per (corner e k)) d)) -> (D = 2 \/ D = 3)%nat -> good_steps h -> length h = D -> length m = D -> grid_ok m per -> distributes m per D dms -> In dm dms -> in_grid_box (get_DM_bounds dm true) e -> good_offset h x -> (d < D)%nat ->
  g = accd (fun j => nth j (dP1_integration x h) dzero) (fun j => u (wrap m per (corner e j)) d) (2 ^ D) dzero ->
  approx 11 fin g (field_at m per (map dval h) (exact u) e (map dval x) d) (size_at m per (map dval h) (absolute u) e (map dval x) d) (INR (2 ^ D)).
Proof.
  intros HF D23' Hh HLh HDm HG HD Hin He HO Hd ->. destruct (weights_ok h x Hh HO) as [_ W]. rewrite HLh in W.
  unfold field_at, size_at. rewrite HDm.
  rewrite (Rsum_ext _ _ (fun k => dval (u (wrap m per (corner e k)) d) * shape (map dval h) (map dval x) k)) by (intros; unfold gv, exact; ring).
  rewrite (Rsum_ext _ (fun k => size_shape _ _ k * _) (fun k => Rabs (dval (u (wrap m per (corner e k)) d)) * size_shape (map dval h) (map dval x) k)) by (intros; unfold gv, absolute; ring).
  apply accd_approx. intros k Hk. destruct (W k Hk) as [W1 W2]. split; [exact W2|]. intros F. split; [|exact W1]. apply HF; assumption.
Qed.

(** ** products of three factors *)
Lemma dmult_inv x y : finite (dmult x y) -> finite x /\ finite y.
Proof.
  unfold finite, dmult. destruct x as [s|s| |s m e Hb], y as [s'|s'| |s' m' e' Hb']; cbn; auto; try discriminate.
Qed.
Lemma approx_mult' c (fin : Prop) x y m am : (c <= 20)%nat -> Rabs m <= am -> (finite x -> factor c x m am) -> (fin -> am * Rabs (dval y) <= 2 ^ 1000 -> finite x) -> (fin -> finite y) ->
  approx c fin (dmult x y) (m * dval y) (am * Rabs (dval y)) 1.
Proof.
  intros Hc Hm HX HF HY. exists 1%nat. split; [reflexivity|]. pose proof (Rabs_pos (dval y)) as Py. assert (Pa : 0 <= am) by (eapply Rle_trans; [apply Rabs_pos|exact Hm]).
  split; [rewrite Rabs_mult; apply Rmult_le_compat_r; assumption|]. split; [discriminate|]. intros P.
  assert (FX : finite x). { destruct P as [P|(P1 & P2 & P3)]; [apply (dmult_inv _ _ P)|apply HF; assumption]. }
  destruct (HX FX) as [_ HM]. clear HX HF.
  assert (W4 : (1 + u64) ^ c <= 2). { apply u2n. apply Rle_trans with (INR 20); [apply le_INR, Hc|]. rewrite INR_IZR_INZ. apply Rle_trans with (2 ^ 5); [simpl; lra|apply pow_le_1; lia]. }
  pose proof (pow_1u c) as W1.
  assert (AM : Rabs (dval x) <= 2 * am). { replace (dval x) with (dval x - m + m) by ring. eapply Rle_trans; [apply Rabs_triang|]. nra. }
  assert (V : finite (dmult x y) /\ dval (dmult x y) = rnd (dval x * dval y)).
  { destruct P as [P|(P1 & P2 & P3)]; [split; [exact P|apply (dmult_fin _ _ P)]|]. apply dmult_ok; auto. rewrite Rabs_mult.
    apply Rle_trans with (2 * am * Rabs (dval y)); [apply Rmult_le_compat_r; assumption|]. apply Rle_trans with (2 * 2 ^ 1000); [lra|]. change (2 * 2 ^ 1000) with (2 ^ 1001). apply pow_le_1; lia. }
  destruct V as [F V]. split; [exact F|]. rewrite V. destruct (rnd_err (dval x * dval y)) as (e & t & He & Ht & ->).
  replace (dval x * dval y * (1 + e) + t - m * dval y) with ((dval x - m) * dval y * (1 + e) + m * dval y * e + t) by ring.
  pose proof u64_pos as U. pose proof eta_pos as Pe. assert (E1 : Rabs (1 + e) <= 1 + u64) by (apply Rabs_le_inv in He; apply Rabs_le; lra).
  eapply Rle_trans; [apply Rabs_triang|]. eapply Rle_trans; [apply Rplus_le_compat_r, Rabs_triang|]. rewrite !Rabs_mult. set (Y := Rabs (dval y)) in *.
  apply Rle_trans with (((1 + u64) ^ c - 1) * am * Y * (1 + u64) + am * Y * u64 + eta64).
  - repeat apply Rplus_le_compat; try assumption.
    + apply Rmult_le_compat; try assumption; [apply Rmult_le_pos; [apply Rabs_pos|exact Py]|apply Rabs_pos|apply Rmult_le_compat_r; assumption].
    + apply Rmult_le_compat; try assumption; [apply Rmult_le_pos; [apply Rabs_pos|exact Py]|apply Rabs_pos|apply Rmult_le_compat_r; assumption].
  - replace (1 + c)%nat with (S c) by lia. cbn [pow INR]. set (w := (1 + u64) ^ c) in *. rewrite !Rmult_1_r.
    apply Rle_trans with (((1 + u64) * w - 1) * (am * Y) + 1 * eta64); [right; ring|]. apply Rplus_le_compat_l. apply Rmult_le_compat_r; lra.
Qed.
Lemma eta_700 : (1 + u64) * eta64 <= u64 * / 2 ^ 700.
Proof.
  pose proof tiny_700. apply Rle_trans with (2 * eta64); [pose proof eta_pos; pose proof u64_small; apply Rmult_le_compat_r; lra|]. eapply Rle_trans; [|exact H].
  unfold eta64. replace (2 ^ 1075) with (2 * 2 ^ 1074) by (change (2 * 2 ^ 1074) with (2 ^ 1075); reflexivity). rewrite Rinv_mult. rewrite <- Rmult_assoc, Rinv_r, Rmult_1_l by lra. apply Rinv_le_contravar; [apply pow_lt; lra|]. apply pow_le_1; lia.
Qed.
Lemma approx_mult3 (fin : Prop) g w gam r s : factor 11 w r s -> (fin -> finite g /\ finite w /\ finite gam /\ Rabs (dval g) * s <= 2 ^ 1000) ->
  approx 12 fin (dmult (dmult g w) gam) (dval g * r * dval gam) ((Rabs (dval g) * s + / 2 ^ 700) * Rabs (dval gam)) 1.
Proof.
  intros HW HF. assert (P7 : 0 < / 2 ^ 700) by (apply Rinv_0_lt_compat, pow_lt; lra). pose proof (Rabs_pos (dval g)) as Pg.
  assert (Ps : 0 <= s) by (eapply Rle_trans; [apply Rabs_pos|apply HW]).
  assert (HM : Rabs (dval g * r) <= Rabs (dval g) * s + / 2 ^ 700). { rewrite Rabs_mult. destruct HW as [HW _]. pose proof (Rmult_le_compat_l _ _ _ Pg HW). lra. }
  pose proof (approx_mult 11 fin g w r s ltac:(lia) HW ltac:(tauto)) as (n & E1 & _ & _ & A). assert (n = 1)%nat by (apply INR_eq; rewrite <- E1; reflexivity). subst n. clear E1.
  apply approx_mult'; [lia|exact HM| | |tauto].
  - intros F. split; [exact HM|]. destruct (A (or_introl F)) as [_ B]. eapply Rle_trans; [exact B|]. change (1 + 11)%nat with 12%nat. cbn [INR]. rewrite pow_1, Rmult_1_r. rewrite Rmult_plus_distr_l. apply Rplus_le_compat_l.
    eapply Rle_trans; [apply eta_700|]. apply Rmult_le_compat_r; [lra|]. pose proof (pow_lin 12) as L. rewrite INR_IZR_INZ in L. simpl IZR in L. pose proof u64_pos. lra.
  - intros Hf _. destruct (HF Hf) as (_ & _ & _ & B). apply A. right. split; [exact Hf|]. split; [exact B|]. apply pow_R1_Rle. lra.
Qed.
Close Scope R_scope.
