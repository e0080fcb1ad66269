From Verif Require Import Base M_Geometry S_Geometry M_Shapes S_Shapes P_Geometry P_Pow P_Shapes.
From Coq Require Import Permutation.
Open Scope R_scope.

(** ** list plumbing *)
Lemma push_loop_spec {A} (idx : nat -> nat) (g : A -> A) (d : A) base is : forall extra,
  (forall i, In i is -> (idx i < length base)%nat) ->
  push_loop idx g is (base ++ extra) = Ok (base ++ extra ++ map (fun i => g (nth (idx i) base d)) is).
Proof.
  induction is as [|i is IH]; intros extra H; simpl.
  - rewrite app_nil_r; reflexivity.
  - assert (Hi : (idx i < length base)%nat) by (apply H; left; reflexivity).
    rewrite nth_error_app1 by exact Hi. rewrite (nth_error_nth' base d) by exact Hi.
    rewrite <- app_assoc. rewrite IH by (intros j Hj; apply H; right; exact Hj).
    rewrite <- !app_assoc. reflexivity.
Qed.

Lemma map_nth_seq_tl {A B} (g : A -> B) (d : A) l :
  map (fun i => g (nth i l d)) (seq 1 (length l - 1)) = map g (tl l).
Proof.
  destruct l as [|a l]; simpl; [reflexivity|]. rewrite Nat.sub_0_r.
  rewrite <- seq_shift, map_map.
  rewrite <- (map_map (fun i => nth i l d) g). f_equal. simpl.
  clear. induction l as [|b l IH]; simpl; [reflexivity|]. f_equal. rewrite <- seq_shift, map_map. exact IH.
Qed.
Lemma map_nth_seq_tl_rev {A B} (g : A -> B) (d : A) l :
  map (fun i => g (nth (length l - i - 1) l d)) (seq 1 (length l - 1)) = map g (tl (rev l)).
Proof.
  rewrite <- (map_nth_seq_tl g d (rev l)), rev_length. apply map_ext_in. intros i Hi. apply in_seq in Hi.
  rewrite rev_nth by lia. do 2 f_equal. lia.
Qed.

Ltac rpos := repeat first [apply Rdiv_lt_0_compat | apply Rmult_lt_0_compat | apply Rinv_0_lt_compat]; lra.
Lemma INR_unbounded (r : R) : exists n : nat, r < INR n.
Proof.
  exists (Z.to_nat (Z.max 0 (up r))). rewrite INR_IZR_INZ, Z2Nat.id by lia.
  destruct (archimed r) as [H _]. apply Rlt_le_trans with (IZR (up r)); [lra|]. apply IZR_le. lia.
Qed.
Lemma Rdiv_1 (x : R) : x / 1 = x.
Proof. field. Qed.
Definition quarter {A} (fa fb : R -> A) (etas : list R) : list A := map fa etas ++ map fb (rev etas).

Lemma reflect_points_spec {A} (fa fb : R -> A) mx mxy my e0 etas :
  let Q := quarter fa fb (e0 :: etas) in
  reflect_points fa fb mx mxy my (e0 :: etas)
  = Ok (tl Q ++ map mx (tl (rev Q)) ++ map mxy (tl Q) ++ map my (tl (rev Q))).
Proof.
  intros Q. unfold reflect_points. fold (quarter fa fb (e0 :: etas)). fold Q.
  set (d := fa e0).
  assert (H1 : push_loop (fun i => length Q - i - 1)%nat mx (seq 1 (length Q - 1)) Q
    = Ok (Q ++ map (fun i => mx (nth (length Q - i - 1) Q d)) (seq 1 (length Q - 1)))).
  { pose proof (push_loop_spec (fun i => length Q - i - 1)%nat mx d Q (seq 1 (length Q - 1)) []) as H.
    rewrite app_nil_r in H. cbn [app] in H. apply H. intros i Hi. apply in_seq in Hi. lia. }
  rewrite H1. cbn [bind]. rewrite (push_loop_spec _ mxy d Q).
  2:{ intros i Hi. apply in_seq in Hi. lia. }
  cbn [bind]. rewrite (push_loop_spec _ my d Q).
  2:{ intros i Hi. apply in_seq in Hi. lia. }
  cbn [bind].
  rewrite !(map_nth_seq_tl_rev _ d Q), (map_nth_seq_tl mxy d Q).
  unfold Q, quarter; cbn [map app tl]. rewrite <- !app_assoc. reflexivity.
Qed.

(** ** the walk *)
Lemma walk_mono fuel upd eta l : walk fuel upd eta = Ok l -> forall f2, (fuel <= f2)%nat -> walk f2 upd eta = Ok l.
Proof.
  revert eta l; induction fuel as [|k IH]; intros eta l H f2 Hf.
  - simpl in H. destruct f2 as [|f2]; simpl; destruct (Rltb eta (PI/4)); try discriminate; exact H.
  - destruct f2 as [|f2]; [lia|]. simpl in *. destruct (Rltb eta (PI/4)); [|exact H].
    destruct (walk k upd (upd eta)) as [l'| | |] eqn:E; simpl in H; try discriminate.
    rewrite (IH _ _ E f2) by lia. exact H.
Qed.

(** strictly increasing parameters, all in [eta, PI/4) *)
Lemma walk_increasing fuel upd : (forall x, 0 <= x < PI/4 -> x < upd x) ->
  forall eta l, 0 <= eta -> walk fuel upd eta = Ok l ->
  strictly_increasing Rlt l /\ (forall x, In x l -> eta <= x < PI/4) /\
  (eta < PI/4 -> exists t, l = eta :: t).
Proof.
  intros Hu. induction fuel as [|k IH]; intros eta l He H; simpl in H.
  - destruct (Rltb_spec eta (PI/4)); [discriminate|]. inversion H; subst. simpl. split; [exact I|]. split; [tauto|lra].
  - destruct (Rltb_spec eta (PI/4)) as [Hlt|Hge].
    + destruct (walk k upd (upd eta)) as [l'| | |] eqn:E; simpl in H; try discriminate. inversion H; subst.
      assert (Hn : eta < upd eta) by (apply Hu; lra).
      destruct (IH (upd eta) l' ltac:(lra) E) as [H1 [H2 H3]]. split; [|split].
      * simpl. split; [|exact H1]. intros x Hx. apply H2 in Hx. lra.
      * intros x [<-|Hx]; [lra|]. apply H2 in Hx; lra.
      * intros _. exists l'; reflexivity.
    + inversion H; subst. split; [exact I|]. split; [intros x []|lra].
Qed.

(** ** the step is positive *)
Lemma PI4_pos : 0 < PI / 4.
Proof. pose proof PI_RGT_0. lra. Qed.
Lemma trig_quarter x : 0 < x < PI/4 -> 0 < sin x < cos x /\ sin x < 1 /\ cos x < 1.
Proof.
  intros H. pose proof PI_RGT_0 as HP.
  assert (Hs : 0 < sin x) by (apply sin_gt_0; lra).
  assert (H1 : sin x < sin (PI/4)) by (apply sin_increasing_1; lra).
  assert (H2 : cos (PI/4) < cos x) by (apply cos_decreasing_1; lra).
  rewrite sin_cos_PI4 in H1. pose proof (sin2_cos2' x).
  repeat split; try lra; nra.
Qed.
Lemma trig_quarter_le x : 0 <= x < PI/4 -> 0 <= sin x < cos x /\ cos x <= 1.
Proof.
  intros [[H|<-] H2]; [|rewrite sin_0, cos_0; lra]. destruct (trig_quarter x) as [[A B] [C D]]; lra.
Qed.

Lemma denom_pos eps x : 0 < x < PI/4 ->
  0 < 1*1*cpow (cos x) (2*eps)*cpow (sin x) 4 + 1*1*cpow (sin x) (2*eps)*cpow (cos x) 4.
Proof.
  intros H. destruct (trig_quarter x H) as [[A B] [C D]].
  pose proof (cpow_pos (cos x) (2*eps) ltac:(lra)). pose proof (cpow_pos (sin x) (2*eps) ltac:(lra)).
  pose proof (cpow_pos (cos x) 4 ltac:(lra)). pose proof (cpow_pos (sin x) 4 ltac:(lra)). nra.
Qed.

Lemma theta_step_pos eps K tol x : 0 < eps -> 0 < K -> 0 < tol -> 0 <= x < PI/4 -> 0 < theta_step 1 1 x eps K tol.
Proof.
  intros He HK Ht Hx. unfold theta_step.
  assert (Hi : 0 < 1 / eps) by (apply Rdiv_lt_0_compat; lra).
  destruct (Rleb_spec tol x) as [H1|H1].
  - destruct (trig_quarter x) as [[A B] [C D]]; [lra|].
    apply Rdiv_lt_0_compat; [|apply sqrt_lt_R0, denom_pos; lra].
    rpos.
  - destruct (Rltb_spec x tol) as [_|]; [|lra]. destruct (Rltb_spec 0 x) as [H2|H2]; simpl.
    + rewrite Rdiv_1. pose proof (cpow_pos x eps H2).
      rewrite Rabs_right by lra.
      assert (cpow (cpow x eps) (1/eps) < cpow (K + cpow x eps) (1/eps)) by (apply cpow_lt; lra).
      rewrite cpow_root in H0 by lra. lra.
    + rewrite Rdiv_1, Rabs_right by lra. apply cpow_pos, HK.
Qed.

(** ** termination *)
Lemma cpow_le_1 x y : 0 <= x <= 1 -> 0 < y -> 0 <= cpow x y <= 1.
Proof.
  intros H Hy. split; [apply cpow_nonneg; lra|]. rewrite <- (cpow_1_l y). apply cpow_le; lra.
Qed.

Definition min_step (eps K tol : R) : R := K / eps * cos (PI/4) * sin tol / sqrt 2.

Lemma theta_step_lower eps K tol x : 0 < eps -> 0 < K -> 0 < tol -> tol <= x < PI/4 ->
  0 < min_step eps K tol <= theta_step 1 1 x eps K tol.
Proof.
  intros He HK Ht Hx. unfold theta_step, min_step. destruct (Rleb_spec tol x) as [_|]; [|lra].
  pose proof PI_RGT_0 as HP.
  destruct (trig_quarter x) as [[A B] [C D]]; [lra|]. destruct (trig_quarter tol) as [[A' B'] _]; [lra|].
  assert (Hs : sin tol <= sin x) by (apply sin_incr_1; lra).
  assert (Hc : cos (PI/4) < cos x) by (apply cos_decreasing_1; lra).
  assert (Hc4 : 0 < cos (PI/4)) by (apply cos_gt_0; lra).
  pose proof (denom_pos eps x ltac:(lra)) as Hd.
  set (den := 1*1*cpow (cos x) (2*eps)*cpow (sin x) 4 + 1*1*cpow (sin x) (2*eps)*cpow (cos x) 4) in *.
  assert (Hd2 : den <= 2).
  { unfold den. pose proof (cpow_le_1 (cos x) (2*eps) ltac:(lra) ltac:(lra)). pose proof (cpow_le_1 (sin x) (2*eps) ltac:(lra) ltac:(lra)).
    pose proof (cpow_le_1 (cos x) 4 ltac:(lra) ltac:(lra)). pose proof (cpow_le_1 (sin x) 4 ltac:(lra) ltac:(lra)). nra. }
  assert (S1 : 0 < sqrt den) by (apply sqrt_lt_R0, Hd).
  assert (S2 : sqrt den <= sqrt 2) by (apply sqrt_le_1; lra).
  assert (Hk : 0 < K / eps) by (apply Rdiv_lt_0_compat; lra).
  split.
  - apply Rdiv_lt_0_compat; [|lra]. rpos.
  - unfold Rdiv at 1 4. apply Rmult_le_compat.
    + left. rpos.
    + left; apply Rinv_0_lt_compat; lra.
    + apply Rmult_le_compat; try lra.
      * apply Rmult_le_pos; lra.
      * apply Rmult_le_compat_l; lra.
    + apply Rinv_le_contravar; lra.
Qed.

Section Termination.
  Variables eps K tol : R.
  Hypotheses (He : 0 < eps) (HK : 0 < K) (Ht : 0 < tol).
  Let upd (eta : R) : R := eta + theta_step 1 1 eta eps K tol.

  Lemma term2 : forall k x, tol <= x -> PI/4 - INR k * min_step eps K tol <= x -> exists l, walk k upd x = Ok l.
  Proof.
    induction k as [|k IH]; intros x Hx Hk.
    - simpl in *. destruct (Rltb_spec x (PI/4)); [lra|]. eexists; reflexivity.
    - cbn [walk]. destruct (Rltb_spec x (PI/4)) as [Hlt|]; [|eexists; reflexivity].
      destruct (theta_step_lower eps K tol x He HK Ht ltac:(lra)) as [H1 H2].
      destruct (IH (upd x)) as [l E].
      + unfold upd; lra.
      + unfold upd. rewrite S_INR in Hk. lra.
      + rewrite E. eexists; reflexivity.
  Qed.

  Lemma term2' x : tol <= x -> exists n l, walk n upd x = Ok l.
  Proof.
    intros Hx. destruct (Rlt_dec x (PI/4)) as [Hlt|Hge].
    - destruct (theta_step_lower eps K tol x He HK Ht ltac:(lra)) as [H1 _].
      destruct (INR_unbounded ((PI/4) / min_step eps K tol)) as [k Hk].
      exists k. apply term2; [exact Hx|].
      assert (PI / 4 < INR k * min_step eps K tol).
      { apply (Rmult_lt_compat_r (min_step eps K tol)) in Hk; [|exact H1].
        unfold Rdiv at 1 in Hk. rewrite Rmult_assoc, Rinv_l in Hk by lra. lra. }
      lra.
    - exists O, []. simpl. destruct (Rltb_spec x (PI/4)); [lra|reflexivity].
  Qed.

  Lemma upd_small x : 0 <= x < tol -> cpow (upd x) eps = K + cpow x eps.
  Proof.
    intros Hx. unfold upd, theta_step. destruct (Rleb_spec tol x); [lra|].
    destruct (Rltb_spec x tol); [|lra]. destruct (Rltb_spec 0 x) as [H0|H0]; simpl.
    - rewrite Rdiv_1. pose proof (cpow_pos x eps H0). rewrite Rabs_right by lra.
      replace (x + (cpow (K + cpow x eps) (1 / eps) - x)) with (cpow (K + cpow x eps) (1/eps)) by ring.
      apply cpow_root'; lra.
    - assert (x = 0) by lra; subst x. rewrite Rdiv_1, Rabs_right by lra. rewrite Rplus_0_l, (cpow_0_l eps) by lra.
      rewrite cpow_root' by lra. ring.
  Qed.

  Lemma term1 : forall k x, 0 <= x < tol -> cpow tol eps - INR k * K <= cpow x eps -> exists n l, walk n upd x = Ok l.
  Proof.
    induction k as [|k IH]; intros x Hx Hk.
    - simpl in Hk. assert (cpow x eps < cpow tol eps) by (apply cpow_lt; lra). lra.
    - destruct (Rlt_dec x (PI/4)) as [Hlt|Hge].
      2:{ exists O, []. simpl. destruct (Rltb_spec x (PI/4)); [lra|reflexivity]. }
      assert (Hup : 0 <= upd x) by (unfold upd; pose proof (theta_step_pos eps K tol x He HK Ht ltac:(lra)); lra).
      destruct (Rlt_dec (upd x) tol) as [H1|H1].
      + destruct (IH (upd x)) as [n [l E]]; [lra| |].
        * rewrite upd_small by exact Hx. rewrite S_INR in Hk. lra.
        * exists (S n), (x :: l). simpl. destruct (Rltb_spec x (PI/4)); [|lra]. rewrite E; reflexivity.
      + destruct (term2' (upd x)) as [n [l E]]; [lra|].
        exists (S n), (x :: l). simpl. destruct (Rltb_spec x (PI/4)); [|lra]. rewrite E; reflexivity.
  Qed.

  Lemma walk_terminates : exists n l, walk n upd 0 = Ok l.
  Proof.
    destruct (INR_unbounded (cpow tol eps / K)) as [k Hk].
    apply (term1 k); [lra|]. rewrite cpow_0_l by lra.
    assert (cpow tol eps < INR k * K); [|lra].
    apply (Rmult_lt_compat_r K) in Hk; [|exact HK].
    unfold Rdiv in Hk. rewrite Rmult_assoc, Rinv_l in Hk by lra. lra.
  Qed.
End Termination.

(** a zero step never moves *)
Lemma walk_zero_step eps tol : 0 < eps -> 0 < tol -> forall fuel,
  walk fuel (fun eta => eta + theta_step 1 1 eta eps 0 tol) 0 = OutOfFuel.
Proof.
  intros He Ht. induction fuel as [|k IH]; simpl; destruct (Rltb_spec 0 (PI/4)) as [_|H]; try (pose proof PI4_pos; lra); [reflexivity|].
  assert (E : 0 + theta_step 1 1 0 eps 0 tol = 0).
  { unfold theta_step. destruct (Rleb_spec tol 0); [lra|]. destruct (Rltb_spec 0 tol); [|lra].
    destruct (Rltb_spec 0 0); [lra|]. simpl. replace (0 / 1) with 0 by field. rewrite Rabs_R0, cpow_0_l; [ring|].
    apply Rgt_not_eq, Rdiv_lt_0_compat; lra. }
  rewrite E, IH. reflexivity.
Qed.

(** ** the sample *)
Definition qa (r : R * R) eps (eta : R) : R * R := (fst r * cpow (cos eta) eps, snd r * cpow (sin eta) eps).
Definition qb (r : R * R) eps (eta : R) : R * R := (fst r * cpow (sin eta) eps, snd r * cpow (cos eta) eps).
Definition neg_x (p : R * R) : R * R := (- fst p, snd p).
Definition neg_y (p : R * R) : R * R := (fst p, - snd p).
Definition neg_xy (p : R * R) : R * R := (- fst p, - snd p).

Lemma uniform_sampling2_form fuel r eps K tol l :
  0 < eps -> 0 < K -> 0 < tol ->
  uniform_sampling2 fuel r eps K tol = Ok l ->
  exists etas, strictly_increasing Rlt (0 :: etas) /\ (forall x, In x (0 :: etas) -> 0 <= x < PI/4) /\
    walk fuel (fun eta => eta + theta_step 1 1 eta eps K tol) 0 = Ok (0 :: etas) /\
    let Q := quarter (qa r eps) (qb r eps) (0 :: etas) in
    l = tl Q ++ map neg_x (tl (rev Q)) ++ map neg_xy (tl Q) ++ map neg_y (tl (rev Q)).
Proof.
  intros He HK Ht H. unfold uniform_sampling2 in H.
  destruct (walk fuel _ 0) as [etas| | |] eqn:E; simpl in H; try discriminate.
  destruct (walk_increasing fuel (fun eta => eta + theta_step 1 1 eta eps K tol)
    (fun x Hx => ltac:(pose proof (theta_step_pos eps K tol x He HK Ht Hx); lra)) 0 etas (Rle_refl 0) E) as [H1 [H2 H3]].
  destruct (H3 PI4_pos) as [t ->]. exists t. split; [exact H1|]. split; [exact H2|]. split; [reflexivity|].
  change (fun eta => (fst r * cpow (cos eta) eps, snd r * cpow (sin eta) eps)) with (qa r eps) in H.
  change (fun eta => (fst r * cpow (sin eta) eps, snd r * cpow (cos eta) eps)) with (qb r eps) in H.
  change (fun p : R * R => (- fst p, snd p)) with neg_x in H.
  change (fun p : R * R => (- fst p, - snd p)) with neg_xy in H.
  change (fun p : R * R => (fst p, - snd p)) with neg_y in H.
  rewrite reflect_points_spec in H. inversion H; reflexivity.
Qed.

(** the quarter arc: first point (r0,0), last (0,r1), x decreasing, y increasing *)
Definition arc_lt (p q : R * R) : Prop := fst q < fst p /\ snd p < snd q.

Lemma strictly_increasing_map {A B} (lt : A -> A -> Prop) (lt' : B -> B -> Prop) f l :
  (forall x y, In x l -> In y l -> lt x y -> lt' (f x) (f y)) ->
  strictly_increasing lt l -> strictly_increasing lt' (map f l).
Proof.
  induction l as [|a l IH]; simpl; intros H Hl; [exact I|]. destruct Hl as [H1 H2]. split.
  - intros y Hy. apply in_map_iff in Hy as [x [<- Hx]]. apply H; auto.
  - apply IH; auto.
Qed.
Lemma strictly_increasing_rev {A} (lt : A -> A -> Prop) l :
  strictly_increasing lt l -> strictly_increasing (fun x y => lt y x) (rev l).
Proof.
  induction l as [|a l IH]; simpl; intros H; [exact I|]. destruct H as [H1 H2].
  apply strictly_increasing_app; [apply IH, H2|simpl; tauto|].
  intros x y Hx [<-|[]]. apply H1, in_rev, Hx.
Qed.

Section Arc.
  Variables (r : R * R) (eps : R) (etas : list R).
  Hypotheses (Hr0 : 0 < fst r) (Hr1 : 0 < snd r) (He : 0 < eps).
  Hypothesis Hinc : strictly_increasing Rlt (0 :: etas).
  Hypothesis Hrange : forall x, In x (0 :: etas) -> 0 <= x < PI/4.
  Let Q := quarter (qa r eps) (qb r eps) (0 :: etas).

  Lemma arc_increasing : strictly_increasing arc_lt Q.
  Proof.
    pose proof PI_RGT_0 as HP. unfold Q, quarter. apply strictly_increasing_app.
    - apply strictly_increasing_map with Rlt; [|exact Hinc]. intros x y Hx Hy Hxy.
      apply Hrange in Hx, Hy. destruct (trig_quarter_le x Hx) as [A1 A2], (trig_quarter_le y Hy) as [B1 B2].
      unfold arc_lt, qa; simpl. split; (apply Rmult_lt_compat_l; [assumption|]); apply cpow_lt; try lra.
      + apply cos_decreasing_1; lra.
      + apply sin_increasing_1; lra.
    - apply strictly_increasing_map with (fun x y => Rlt y x).
      + intros x y Hx Hy Hxy. apply in_rev in Hx, Hy. apply Hrange in Hx, Hy. destruct (trig_quarter_le x Hx) as [A1 A2], (trig_quarter_le y Hy) as [B1 B2].
        unfold arc_lt, qb; simpl. split; (apply Rmult_lt_compat_l; [assumption|]); apply cpow_lt; try lra.
        * apply sin_increasing_1; lra.
        * apply cos_decreasing_1; lra.
      + apply strictly_increasing_rev, Hinc.
    - intros p q Hp Hq. apply in_map_iff in Hp as [x [<- Hx]]. apply in_map_iff in Hq as [y [<- Hy]].
      apply in_rev in Hy. apply Hrange in Hx, Hy.
      destruct (trig_quarter_le x Hx) as [A1 A2], (trig_quarter_le y Hy) as [B1 B2].
      assert (S : sin y < cos x /\ sin x < cos y).
      { assert (S4 : forall t, 0 <= t < PI/4 -> sin t < sin (PI/4)) by (intros; apply sin_increasing_1; lra).
        assert (C4 : forall t, 0 <= t < PI/4 -> cos (PI/4) < cos t) by (intros; apply cos_decreasing_1; lra).
        pose proof (S4 x Hx); pose proof (S4 y Hy); pose proof (C4 x Hx); pose proof (C4 y Hy).
        rewrite sin_cos_PI4 in *. lra. }
      unfold arc_lt, qa, qb; simpl. split; (apply Rmult_lt_compat_l; [assumption|]); apply cpow_lt; lra.
  Qed.

  Lemma arc_first : exists t, Q = (fst r, 0) :: t.
  Proof.
    unfold Q, quarter. cbn [map app]. eexists. f_equal. unfold qa. rewrite cos_0, sin_0, cpow_1_l, cpow_0_l by lra. pair_eq; ring.
  Qed.
  Lemma arc_last : exists t, rev Q = (0, snd r) :: t.
  Proof.
    unfold Q, quarter. rewrite rev_app_distr, <- map_rev, rev_involutive. cbn [map app]. eexists. f_equal.
    unfold qb. rewrite cos_0, sin_0, cpow_1_l, cpow_0_l by lra. pair_eq; ring.
  Qed.
  Lemma arc_in p : In p Q -> 0 <= fst p /\ 0 <= snd p.
  Proof.
    unfold Q, quarter. intros H. apply in_app_or in H as [H|H]; apply in_map_iff in H as [x [<- Hx]].
    - apply Hrange in Hx. destruct (trig_quarter_le x Hx) as [A1 A2]. unfold qa; simpl.
      split; apply Rmult_le_pos; try lra; apply cpow_nonneg; lra.
    - apply in_rev, Hrange in Hx. destruct (trig_quarter_le x Hx) as [A1 A2]. unfold qb; simpl.
      split; apply Rmult_le_pos; try lra; apply cpow_nonneg; lra.
  Qed.
  Lemma arc_on_curve p : In p Q ->
    cpow (Rabs (fst p / fst r)) (2 / eps) + cpow (Rabs (snd p / snd r)) (2 / eps) = 1.
  Proof.
    assert (H2e : 0 < 2 / eps) by (apply Rdiv_lt_0_compat; lra).
    assert (E2 : eps * (2 / eps) = 2) by (field; lra).
    unfold Q, quarter. intros H. apply in_app_or in H as [H|H]; apply in_map_iff in H as [x [<- Hx]];
    [apply Hrange in Hx | apply in_rev, Hrange in Hx]; destruct (trig_quarter_le x Hx) as [A1 A2]; unfold qa, qb; cbn [fst snd].
    all: pose proof (cpow_nonneg (cos x) eps ltac:(lra) He); pose proof (cpow_nonneg (sin x) eps ltac:(lra) He).
    all: pose proof (sin2_cos2' x).
    - replace (fst r * cpow (cos x) eps / fst r) with (cpow (cos x) eps) by (field; lra).
      replace (snd r * cpow (sin x) eps / snd r) with (cpow (sin x) eps) by (field; lra).
      rewrite !Rabs_right by lra. rewrite !cpow_mult by lra. rewrite E2, !cpow_2_r by lra. lra.
    - replace (fst r * cpow (sin x) eps / fst r) with (cpow (sin x) eps) by (field; lra).
      replace (snd r * cpow (cos x) eps / snd r) with (cpow (cos x) eps) by (field; lra).
      rewrite !Rabs_right by lra. rewrite !cpow_mult by lra. rewrite E2, !cpow_2_r by lra. lra.
  Qed.
  Lemma arc_tl_pos p : In p (tl Q) -> 0 <= fst p /\ 0 < snd p.
  Proof.
    destruct arc_first as [t E]. pose proof arc_increasing as Hi. pose proof arc_in as Hin.
    rewrite E in *. simpl. intros H. destruct (proj1 Hi p H) as [H1 H2]. split; [apply Hin; right; exact H|]. simpl in H2; lra.
  Qed.
  Lemma arc_tl_rev_pos p : In p (tl (rev Q)) -> 0 < fst p /\ 0 <= snd p.
  Proof.
    destruct arc_last as [t E]. pose proof (strictly_increasing_rev _ _ arc_increasing) as Hi. pose proof arc_in as Hin.
    rewrite E in *. simpl. intros H. destruct (proj1 Hi p H) as [H1 H2]. split; [simpl in *; lra|].
    apply Hin. apply in_rev. rewrite E. right; exact H.
  Qed.
  Lemma arc_split p : In p Q <-> p = (fst r, 0) \/ In p (tl Q).
  Proof. destruct arc_first as [t E]. rewrite E. simpl. split; intros [H|H]; auto. Qed.
  Lemma arc_split_rev p : In p Q <-> p = (0, snd r) \/ In p (tl (rev Q)).
  Proof. destruct arc_last as [t E]. rewrite in_rev, E. simpl. split; intros [H|H]; auto. Qed.
  (** the four corners (r0,0) and (0,r1) belong to the other trimmed list *)
  Lemma arc_corner_x : In (fst r, 0) (tl (rev Q)).
  Proof.
    destruct arc_first as [t E]. assert (H : In (fst r, 0) Q) by (rewrite E; left; reflexivity).
    apply arc_split_rev in H as [H|H]; [|exact H]. inversion H. lra.
  Qed.
  Lemma arc_corner_y : In (0, snd r) (tl Q).
  Proof.
    destruct arc_last as [t E]. assert (H : In (0, snd r) Q) by (apply in_rev; rewrite E; left; reflexivity).
    apply arc_split in H as [H|H]; [|exact H]. inversion H. lra.
  Qed.

  Let L := tl Q ++ map neg_x (tl (rev Q)) ++ map neg_xy (tl Q) ++ map neg_y (tl (rev Q)).

  Lemma sample_in p : In p L <->
    In p (tl Q) \/ In (neg_x p) (tl (rev Q)) \/ In (neg_xy p) (tl Q) \/ In (neg_y p) (tl (rev Q)).
  Proof.
    assert (I1 : forall q, neg_x (neg_x q) = q) by (intros [x y]; unfold neg_x; simpl; pair_eq; ring).
    assert (I2 : forall q, neg_y (neg_y q) = q) by (intros [x y]; unfold neg_y; simpl; pair_eq; ring).
    assert (I3 : forall q, neg_xy (neg_xy q) = q) by (intros [x y]; unfold neg_xy; simpl; pair_eq; ring).
    unfold L. rewrite !in_app_iff, !in_map_iff. split.
    - intros [H|[[q [<- H]]|[[q [<- H]]|[q [<- H]]]]]; rewrite ?I1, ?I2, ?I3; auto.
    - intros [H|[H|[H|H]]]; [left; exact H|right; left|right; right; left|right; right; right]; eexists; split; try exact H; auto.
  Qed.

  Lemma tlQ_Q p : In p (tl Q) -> In p Q.
  Proof. intros H. apply arc_split. right; exact H. Qed.
  Lemma tlrQ_Q p : In p (tl (rev Q)) -> In p Q.
  Proof. intros H. apply arc_split_rev. right; exact H. Qed.

  (** membership in a form that is manifestly symmetric *)
  Lemma sample_in_sym p : In p L <-> In (Rabs (fst p), Rabs (snd p)) Q.
  Proof.
    rewrite sample_in. destruct p as [x y]; unfold neg_x, neg_y, neg_xy; cbn [fst snd]. split.
    - intros [H|[H|[H|H]]].
      + destruct (arc_tl_pos _ H) as [H1 H2]; cbn [fst snd] in *. rewrite !Rabs_right by lra. apply tlQ_Q, H.
      + destruct (arc_tl_rev_pos _ H) as [H1 H2]; cbn [fst snd] in *. rewrite Rabs_left, Rabs_right by lra. apply tlrQ_Q, H.
      + destruct (arc_tl_pos _ H) as [H1 H2]; cbn [fst snd] in *. rewrite Rabs_left1, Rabs_left by lra. apply tlQ_Q, H.
      + destruct (arc_tl_rev_pos _ H) as [H1 H2]; cbn [fst snd] in *. rewrite Rabs_right, Rabs_left1 by lra. apply tlrQ_Q, H.
    - intros H. destruct (Rle_dec 0 x) as [Hx|Hx], (Rle_dec 0 y) as [Hy|Hy].
      + rewrite !Rabs_right in H by lra. destruct (proj1 (arc_split _) H) as [E|H'].
        * inversion E; subst. right; right; right. rewrite Ropp_0. apply arc_corner_x.
        * left; exact H'.
      + rewrite Rabs_right, Rabs_left in H by lra. destruct (proj1 (arc_split_rev _) H) as [E|H'].
        * inversion E; subst. right; right; left. rewrite Ropp_0. rewrite H2. apply arc_corner_y.
        * right; right; right; exact H'.
      + rewrite Rabs_left, Rabs_right in H by lra. destruct (proj1 (arc_split_rev _) H) as [E|H'].
        * inversion E; subst. lra.
        * right; left; exact H'.
      + rewrite Rabs_left, Rabs_left in H by lra. destruct (proj1 (arc_split _) H) as [E|H'].
        * inversion E; subst. lra.
        * right; right; left; exact H'.
  Qed.

  Lemma sample_invariant : invariant_under neg_x L /\ invariant_under neg_y L.
  Proof.
    split; intros p H; apply sample_in_sym in H; apply sample_in_sym; unfold neg_x, neg_y; cbn [fst snd]; rewrite Rabs_Ropp; exact H.
  Qed.
  Lemma sample_on_curve p : In p L ->
    cpow (Rabs (fst p / fst r)) (2 / eps) + cpow (Rabs (snd p / snd r)) (2 / eps) = 1.
  Proof.
    intros H. apply sample_in_sym, arc_on_curve in H. cbn [fst snd] in H.
    unfold Rdiv in H at 1 3. unfold Rdiv at 1 3.
    rewrite !Rabs_mult, !Rabs_Rabsolu in H. rewrite !Rabs_mult. exact H.
  Qed.

  Lemma arc_lt_irrefl p : ~ arc_lt p p.
  Proof. unfold arc_lt; lra. Qed.
  Lemma arc_NoDup : NoDup Q.
  Proof. apply strictly_increasing_NoDup with arc_lt; [apply arc_lt_irrefl|apply arc_increasing]. Qed.
  Lemma NoDup_tl {A} (l : list A) : NoDup l -> NoDup (tl l).
  Proof. intros H; inversion H; simpl; auto. constructor. Qed.
  Lemma NoDup_app2 {A} (l m : list A) : NoDup l -> NoDup m -> (forall x, In x l -> In x m -> False) -> NoDup (l ++ m).
  Proof.
    induction l as [|a l IH]; simpl; intros H1 H2 H3; auto. inversion H1; subst. constructor.
    - rewrite in_app_iff. intros [H|H]; [contradiction|]. apply (H3 a); auto.
    - apply IH; auto. intros x Hx. apply H3; auto.
  Qed.
  Lemma NoDup_map_inv {A} (f : A -> A) l : (forall x, f (f x) = x) -> NoDup l -> NoDup (map f l).
  Proof. intros Hf H. apply FinFun.Injective_map_NoDup; auto. intros x y E. rewrite <- (Hf x), <- (Hf y), E; reflexivity. Qed.

  Lemma sample_NoDup : NoDup L.
  Proof.
    pose proof (NoDup_tl _ arc_NoDup) as N1.
    assert (N2 : NoDup (tl (rev Q))) by (apply NoDup_tl, NoDup_rev, arc_NoDup).
    assert (I1 : forall q, neg_x (neg_x q) = q) by (intros [x y]; unfold neg_x; simpl; pair_eq; ring).
    assert (I2 : forall q, neg_y (neg_y q) = q) by (intros [x y]; unfold neg_y; simpl; pair_eq; ring).
    assert (I3 : forall q, neg_xy (neg_xy q) = q) by (intros [x y]; unfold neg_xy; simpl; pair_eq; ring).
    unfold L. apply NoDup_app2; [exact N1|apply NoDup_app2; [apply NoDup_map_inv; assumption|apply NoDup_app2; [apply NoDup_map_inv; assumption|apply NoDup_map_inv; assumption|]|]|].
    - intros x H1 H2. apply in_map_iff in H1 as [p [<- H1]]. apply in_map_iff in H2 as [q [E H2]].
      apply arc_tl_pos in H1. apply arc_tl_rev_pos in H2. destruct p, q; unfold neg_xy, neg_y in E; inversion E; simpl in *; lra.
    - intros x H1 H2. apply in_map_iff in H1 as [p [<- H1]]. apply arc_tl_rev_pos in H1.
      apply in_app_or in H2 as [H2|H2]; apply in_map_iff in H2 as [q [E H2]].
      + apply arc_tl_pos in H2. destruct p, q; unfold neg_xy, neg_x in E; inversion E; simpl in *; lra.
      + apply arc_tl_rev_pos in H2. destruct p, q; unfold neg_x, neg_y in E; inversion E; simpl in *; lra.
    - intros p H1 H2. apply arc_tl_pos in H1. rewrite !in_app_iff in H2.
      destruct H2 as [H2|[H2|H2]]; apply in_map_iff in H2 as [q [E H2]];
      [apply arc_tl_rev_pos in H2|apply arc_tl_pos in H2|apply arc_tl_rev_pos in H2];
      destruct p, q; unfold neg_x, neg_y, neg_xy in E; inversion E; simpl in *; lra.
  Qed.

  Lemma sample_length : length L = (8 * length (0%R :: etas) - 4)%nat.
  Proof.
    assert (HQ : length Q = (2 * length (0%R :: etas))%nat).
    { unfold Q, quarter. rewrite app_length, !map_length, rev_length. simpl; lia. }
    assert (HT : forall A (l : list A), length (tl l) = (length l - 1)%nat) by (intros A [|a l]; simpl; lia).
    unfold L. rewrite !app_length, !map_length, !HT, rev_length, HQ. simpl length. lia.
  Qed.

  Lemma sumR_app l m : sumR (l ++ m) = sumR l + sumR m.
  Proof. unfold sumR. induction l as [|a l IH]; simpl; [ring|]. rewrite IH; ring. Qed.
  Lemma sumR_map_opp {A} (f : A -> R) l : sumR (map (fun x => - f x) l) = - sumR (map f l).
  Proof. unfold sumR. induction l as [|a l IH]; simpl; [ring|]. rewrite IH; ring. Qed.

  Lemma sample_centred : sumR (map fst L) = 0 /\ sumR (map snd L) = 0.
  Proof.
    unfold L. rewrite !map_app, !sumR_app, !map_map. unfold neg_x, neg_y, neg_xy; cbn [fst snd].
    rewrite !sumR_map_opp.
    change (map (fun x : R * R => fst x)) with (map (@fst R R)). change (map (fun x : R * R => snd x)) with (map (@snd R R)).
    split; ring.
  Qed.
End Arc.

(** ** circles: the step is exactly K *)
Lemma theta_step_circle K tol x : 0 < tol -> 0 < K -> 0 <= x < PI/4 -> theta_step 1 1 x 1 K tol = K.
Proof.
  intros Ht HK Hx. unfold theta_step. destruct (Rleb_spec tol x) as [H|H].
  - destruct (trig_quarter x) as [[A B] [C D]]; [lra|].
    replace (2 * 1) with 2 by ring. rewrite !cpow_2_r by lra.
    replace 4 with (INR 4) by (simpl; ring). rewrite !cpow_nat by (try lra; lia).
    replace (1 * 1 * (cos x * cos x) * sin x ^ 4 + 1 * 1 * (sin x * sin x) * cos x ^ 4)
      with ((cos x * sin x) * (cos x * sin x) * (sin x * sin x + cos x * cos x)) by ring.
    rewrite sin2_cos2', Rmult_1_r. rewrite sqrt_square by nra. field. lra.
  - destruct (Rltb_spec x tol); [|lra]. destruct (Rltb_spec 0 x) as [H0|H0]; simpl.
    + replace (1 / 1) with 1 by field. rewrite Rdiv_1. rewrite (cpow_1_r x) by lra. rewrite Rabs_right by lra.
      rewrite cpow_1_r by lra. ring.
    + replace (1 / 1) with 1 by field. rewrite Rdiv_1, Rabs_right by lra. apply cpow_1_r; lra.
Qed.

Lemma walk_circle K tol : 0 < tol -> 0 < K -> forall fuel j l,
  walk fuel (fun eta => eta + theta_step 1 1 eta 1 K tol) (INR j * K) = Ok l ->
  l = map (fun i => INR i * K) (seq j (length l)) /\
  PI / 4 <= INR (j + length l) * K /\ ((0 < length l)%nat -> INR (j + length l - 1) * K < PI / 4).
Proof.
  intros Ht HK. induction fuel as [|k IH]; intros j l H; simpl in H.
  - destruct (Rltb_spec (INR j * K) (PI/4)); [discriminate|]. inversion H; subst. simpl. rewrite Nat.add_0_r. split; [reflexivity|]. split; [lra|lia].
  - destruct (Rltb_spec (INR j * K) (PI/4)) as [Hlt|Hge].
    + assert (E : INR j * K + theta_step 1 1 (INR j * K) 1 K tol = INR (S j) * K).
      { rewrite theta_step_circle; try assumption; [rewrite S_INR; ring|]. split; [|exact Hlt].
        apply Rmult_le_pos; [apply pos_INR|lra]. }
      rewrite E in H. destruct (walk k _ (INR (S j) * K)) as [l'| | |] eqn:W; simpl in H; try discriminate.
      inversion H; subst. destruct (IH _ _ W) as [H1 [H2 H3]]. simpl length. split; [|split].
      * simpl. f_equal. exact H1.
      * replace (j + S (length l'))%nat with (S j + length l')%nat by lia. exact H2.
      * intros _. destruct l' as [|a l']; simpl length in *.
        -- replace (j + 1 - 1)%nat with j by lia. exact Hlt.
        -- replace (j + S (S (length l')) - 1)%nat with (S j + S (length l') - 1)%nat by lia. apply H3; lia.
    + inversion H; subst. simpl. rewrite Nat.add_0_r. split; [reflexivity|]. split; [lra|lia].
Qed.

(** ** assembled statements *)
Lemma uniform_sampling2_terminates a b eps K tol :
  0 < eps -> 0 < K -> 0 < tol ->
  exists N l, forall fuel, (N <= fuel)%nat -> uniform_sampling2 fuel (a, b) eps K tol = Ok l.
Proof.
  intros He HK Ht. destruct (walk_terminates eps K tol He HK Ht) as [N [etas W]].
  destruct (walk_increasing N (fun eta => eta + theta_step 1 1 eta eps K tol)
    (fun x Hx => ltac:(pose proof (theta_step_pos eps K tol x He HK Ht Hx); lra)) 0 etas (Rle_refl 0) W) as [_ [_ H3]].
  destruct (H3 PI4_pos) as [t ->].
  eexists N, _. intros fuel Hf. unfold uniform_sampling2.
  rewrite (walk_mono _ _ _ _ W fuel Hf). cbn [bind]. apply reflect_points_spec.
Qed.

Lemma uniform_sampling2_props fuel a b eps K tol l :
  0 < a -> 0 < b -> 0 < eps -> 0 < K -> 0 < tol ->
  uniform_sampling2 fuel (a, b) eps K tol = Ok l ->
  (forall p, In p l -> cpow (Rabs (fst p / a)) (2 / eps) + cpow (Rabs (snd p / b)) (2 / eps) = 1) /\
  NoDup l /\
  invariant_under (fun p => (- fst p, snd p)) l /\ invariant_under (fun p => (fst p, - snd p)) l /\
  sumR (map fst l) = 0 /\ sumR (map snd l) = 0 /\
  (exists m, (1 <= m)%nat /\ length l = (8 * m - 4)%nat).
Proof.
  intros Ha Hb He HK Ht H.
  destruct (uniform_sampling2_form fuel (a, b) eps K tol l He HK Ht H) as [etas [H1 [H2 [_ ->]]]].
  split; [intros p Hp; apply (sample_on_curve (a, b) eps etas Ha Hb He H1 H2 p Hp)|].
  split; [apply (sample_NoDup (a, b) eps etas Ha Hb He H1 H2)|].
  split; [apply (sample_invariant (a, b) eps etas Ha Hb He H1 H2)|].
  split; [apply (sample_invariant (a, b) eps etas Ha Hb He H1 H2)|].
  split; [apply sample_centred|]. split; [apply sample_centred|].
  exists (length (0%R :: etas)). split; [simpl; lia|]. apply sample_length.
Qed.

Lemma uniform_sampling2_circle fuel r K tol l :
  0 < r -> 0 < K -> 0 < tol ->
  uniform_sampling2 fuel (r, r) 1 K tol = Ok l ->
  exists m, (1 <= m)%nat /\ length l = (8 * m - 4)%nat /\
    INR (m - 1) * K < PI / 4 <= INR m * K /\
    (forall p, In p l -> fst p * fst p + snd p * snd p = r * r) /\
    (forall i, (i < m)%nat -> In (r * cos (INR i * K), r * sin (INR i * K)) l).
Proof.
  intros Hr HK Ht H.
  pose proof (uniform_sampling2_props fuel r r 1 K tol l Hr Hr Rlt_0_1 HK Ht H) as [HP _].
  destruct (uniform_sampling2_form fuel (r, r) 1 K tol l Rlt_0_1 HK Ht H) as [etas [H1 [H2 [W ->]]]].
  exists (length (0%R :: etas)). split; [simpl; lia|]. split; [apply sample_length|].
  assert (W0 : walk fuel (fun eta => eta + theta_step 1 1 eta 1 K tol) (INR 0 * K) = Ok (0 :: etas))
    by (simpl INR; rewrite Rmult_0_l; exact W).
  destruct (walk_circle K tol Ht HK fuel 0 _ W0) as [E [B1 B2]].
  rewrite !Nat.add_0_l in *. split; [split; [apply B2; simpl; lia|exact B1]|]. split.
  - intros p Hp. apply HP in Hp. replace (2 / 1) with 2 in Hp by field. rewrite !cpow_2_r in Hp by apply Rabs_pos.
    rewrite <- !Rabs_mult in Hp. rewrite !Rabs_right in Hp by nra.
    assert (E1 : fst p / r * (fst p / r) + snd p / r * (snd p / r) = (fst p * fst p + snd p * snd p) / (r * r)) by (field; lra).
    rewrite E1 in Hp. apply (Rmult_eq_compat_r (r * r)) in Hp. unfold Rdiv in Hp. rewrite Rmult_assoc, Rinv_l in Hp by nra. lra.
  - intros i Hi. apply (sample_in_sym (r, r) 1 etas Hr Hr Rlt_0_1 H1 H2). cbn [fst snd].
    assert (Hin : In (INR i * K) (0 :: etas)).
    { rewrite E. apply in_map_iff. exists i. split; [reflexivity|]. apply in_seq. simpl length in *. lia. }
    pose proof (H2 _ Hin) as Hr1. destruct (trig_quarter_le _ Hr1) as [T1 T2].
    rewrite !Rabs_right by nra. unfold quarter. apply in_or_app. left. apply in_map_iff. exists (INR i * K). split; [|exact Hin].
    unfold qa; cbn [fst snd]. rewrite !cpow_1_r by lra. reflexivity.
Qed.

(** the full surface of a 2D particle *)
Lemma surface2_on_boundary fuel c a b n q K tol l :
  0 < a -> 0 < b -> 0 < n -> 0 < K -> 0 < tol ->
  (q = quat_default \/ exists t, q = quat_angle t) ->
  surface2 fuel (se2_make c (a, b) n q) K tol = Ok l ->
  forall p, In p l -> implicit2 (se2_make c (a, b) n q) p = 1.
Proof.
  intros Ha Hb Hn HK Ht Hq H p Hp. unfold surface2 in H. cbn [s2 n2_ q2 c2 se2_make] in H.
  destruct (uniform_sampling2 fuel (a, b) (2 / n) K tol) as [l0| | |] eqn:E; simpl in H; try discriminate.
  assert (Hm : 0 < 2 / n) by (apply Rdiv_lt_0_compat; lra).
  destruct (uniform_sampling2_props _ _ _ _ _ _ _ Ha Hb Hm HK Ht E) as [HP _].
  replace (2 / (2 / n)) with n in HP by (field; lra).
  inversion H; subst; clear H. apply in_map_iff in Hp as [p1 [<- Hp]].
  destruct Hq as [->|[t ->]].
  - rewrite is_rotate_default in Hp. apply HP in Hp. rewrite implicit2_level_default by exact Hn.
    unfold super_ellipse_level, planar_rotation, add2; cbn [fst snd]. rewrite Ropp_0, sin_0, cos_0.
    destruct p1 as [u v], c as [cx cy]; cbn [fst snd] in *.
    replace (1 * (u + cx - cx) - 0 * (v + cy - cy)) with u by ring.
    replace (0 * (u + cx - cx) + 1 * (v + cy - cy)) with v by ring. exact Hp.
  - rewrite is_rotate_angle in Hp. apply in_map_iff in Hp as [p0 [<- Hp]]. rewrite rotate2_angle.
    apply HP in Hp. rewrite implicit2_level by exact Hn. unfold super_ellipse_level, add2; cbn [fst snd].
    match goal with |- context [planar_rotation (- t) ?v] => replace v with (planar_rotation t p0) end.
    + rewrite (proj2 (planar_rotation_inv t p0)). exact Hp.
    + destruct (planar_rotation t p0) as [u v]; cbn [fst snd]; pair_eq; ring.
Qed.
Lemma surface2_terminates c a b n q K tol :
  0 < n -> 0 < K -> 0 < tol ->
  exists N l, forall fuel, (N <= fuel)%nat -> surface2 fuel (se2_make c (a, b) n q) K tol = Ok l.
Proof.
  intros Hn HK Ht. assert (Hm : 0 < 2 / n) by (apply Rdiv_lt_0_compat; lra).
  destruct (uniform_sampling2_terminates a b (2 / n) K tol Hm HK Ht) as [N [l H]].
  eexists N, _. intros fuel Hf. unfold surface2. cbn [s2 n2_ q2 c2 se2_make]. rewrite (H fuel Hf). cbn [bind]. reflexivity.
Qed.

Lemma uniform_sampling2_zero_step r eps tol : 0 < eps -> 0 < tol -> forall fuel, uniform_sampling2 fuel r eps 0 tol = OutOfFuel.
Proof. intros He Ht fuel. unfold uniform_sampling2. rewrite walk_zero_step by assumption. reflexivity. Qed.

(** ** 3D surfaces: the loop at super_ellipsoid.hpp l.243 always runs *)
Lemma reflect_points_nonempty {A} (fa fb : R -> A) mx mxy my e0 etas l :
  reflect_points fa fb mx mxy my (e0 :: etas) = Ok l -> l <> [].
Proof.
  rewrite reflect_points_spec. intros H; inversion H as [E]. unfold quarter; simpl. rewrite map_app.
  destruct etas; simpl; [destruct (map fb []) eqn:?; discriminate|discriminate].
Qed.
Lemma surface3_never_ok fuel fuel2 s k0 k1 tol l : surface3 fuel fuel2 s k0 k1 tol <> Ok l.
Proof.
  unfold surface3. destruct fuel as [|fuel]; simpl; (destruct (Rltb_spec 0 (PI/4)) as [_|H]; [|pose proof PI4_pos; lra]).
  - discriminate.
  - destruct (s3 s) as [[a b] d].
    match goal with |- context [uniform_sampling3 ?f ?x1 ?x2 ?x3 ?x4 ?x5 ?x6 ?x7] =>
      destruct (uniform_sampling3 f x1 x2 x3 x4 x5 x6 x7) as [t1| | |] eqn:E1; cbn [bind]; try discriminate end.
    match goal with |- context [uniform_sampling3 ?f ?x1 ?x2 ?x3 ?x4 ?x5 ?x6 ?x7] =>
      destruct (uniform_sampling3 f x1 x2 x3 x4 x5 x6 x7) as [t2| | |] eqn:E2; cbn [bind]; try discriminate end.
    match goal with |- context [walk3 ?a1 ?a2 ?a3 ?a4 ?a5 ?a6 ?a7 ?a8] =>
      destruct (walk3 a1 a2 a3 a4 a5 a6 a7 a8) as [rest| | |] eqn:E3; cbn [bind]; try discriminate end.
    assert (t1 <> []).
    { unfold uniform_sampling3 in E1.
      match type of E1 with bind (walk ?f ?u 0) _ = _ => destruct (walk f u 0) as [etas| | |] eqn:W; cbn [bind] in E1; try discriminate end.
      destruct etas as [|e0 etas].
      - destruct fuel2; simpl in W; destruct (Rltb_spec 0 (PI/4)) as [_|H]; try (pose proof PI4_pos; lra); try discriminate.
        all: match type of W with bind ?x _ = _ => destruct x; simpl in W; discriminate end.
      - eapply reflect_points_nonempty; exact E1. }
    destruct t1; [congruence|]. simpl. discriminate.
Qed.
Close Scope R_scope.
