From Coq Require Import Permutation FunctionalExtensionality.
From Verif Require Import Base M_Geometry S_Geometry M_Shapes S_Shapes P_Geometry P_Pow P_Shapes P_Sampling.
From Verif Require Import M_Shapes3 P_Sampling3.
Open Scope R_scope.
Lemma sumR_map_opp {A} (f : A -> R) l : sumR (map (fun x => - f x) l) = - sumR (map f l).
Proof. induction l as [|x l IH]; cbn; [ring|]. unfold sumR in IH. rewrite IH. ring. Qed.
Lemma sumR_map_shift {A} (f : A -> R) c l : sumR (map (fun x => f x + c) l) = sumR (map f l) + INR (length l) * c.
Proof. induction l as [|x l IH]; [cbn; ring|]. cbn [map sumR fold_right length]. fold (sumR (map (fun x => f x + c) l)). fold (sumR (map f l)). rewrite IH, S_INR. ring. Qed.
Section Surf.
  Variables (cx cy cz a b d e n k0 k1 tol : R) (q : quat).
  Hypotheses (Ha : 0 < a) (Hb : 0 < b) (Hd : 0 < d) (He : 0 < e) (Hn : 0 < n) (Hk0 : 0 < k0) (Hk1 : 0 < k1) (Ht : 0 < tol).
  Let s := se3_make (cx, cy, cz) (a, b, d) n e q.
  Lemma room_inv fuel fuel2 l : surface3_room fuel fuel2 s k0 k1 tol = Ok l -> exists t, walk3 fuel fuel2 s k0 k1 tol 0 0 = Ok t /\ l = map (shift3 (cx, cy, cz)) (t ++ map mirror_z t).
  Proof. unfold surface3_room. destruct (walk3 fuel fuel2 s k0 k1 tol 0 0) as [t| | |]; cbn [bind]; try discriminate. intros H. injection H as <-. exists t. split; reflexivity. Qed.
  Lemma room_terminates : exists N N2 l, forall fuel fuel2, (N <= fuel)%nat -> (N2 <= fuel2)%nat -> surface3_room fuel fuel2 s k0 k1 tol = Ok l.
  Proof.
    destruct (rings_terminate (cx, cy, cz) a b d e n k0 k1 tol q Hd He Hn Hk0 Hk1 Ht) as (N & N2 & l & H) || destruct (rings_terminate (cx, cy, cz) a b d e n k0 k1 tol q He Hn Hk0 Hk1 Ht) as (N & N2 & l & H).
    exists N, N2. eexists. intros fuel fuel2 Hf Hf2. unfold surface3_room. fold s in H. rewrite H by assumption. cbn [bind]. reflexivity.
  Qed.
  Lemma room_props fuel fuel2 l : surface3_room fuel fuel2 s k0 k1 tol = Ok l ->
    (forall p, In p l -> super_ellipsoid_level (cx, cy, cz) (a, b, d) e n p = 1) /\
    invariant_under (fun p => (2 * cx - p30 p, p31 p, p32 p)) l /\ invariant_under (fun p => (p30 p, 2 * cy - p31 p, p32 p)) l /\ invariant_under (fun p => (p30 p, p31 p, 2 * cz - p32 p)) l /\
    sumR (map p30 l) = INR (length l) * cx /\ sumR (map p31 l) = INR (length l) * cy /\ sumR (map p32 l) = INR (length l) * cz.
  Proof.
    intros H. destruct (room_inv _ _ _ H) as (t & W & ->). destruct (rings_props (cx, cy, cz) a b d e n k0 k1 tol q Ha Hb Hd He Hn Hk0 Hk1 Ht fuel fuel2 t W) as (P1 & P2 & P3 & P4 & P5 & _).
    set (u := t ++ map mirror_z t).
    assert (U1 : forall p, In p u -> cpow (cpow (Rabs (p30 p / a)) n + cpow (Rabs (p31 p / b)) n) (e / n) + cpow (Rabs (p32 p / d)) e = 1).
    { intros p Hp. apply in_app_or in Hp as [Hp|Hp]; [apply P1, Hp|]. apply in_map_iff in Hp as ([[x y] z] & <- & Hp). specialize (P1 _ Hp). unfold mirror_z, p30, p31, p32 in *; cbn [fst snd] in *. replace (- z / d) with (- (z / d)) by (field; lra). rewrite Rabs_Ropp. exact P1. }
    assert (U2 : invariant_under (fun p => (- p30 p, p31 p, p32 p)) u). { intros p Hp. apply in_app_or in Hp as [Hp|Hp]; apply in_or_app; [left; apply P2, Hp|]. right. apply in_map_iff in Hp as ([[x y] z] & <- & Hp). apply P2 in Hp. apply (in_map mirror_z) in Hp. exact Hp. }
    assert (U3 : invariant_under (fun p => (p30 p, - p31 p, p32 p)) u). { intros p Hp. apply in_app_or in Hp as [Hp|Hp]; apply in_or_app; [left; apply P3, Hp|]. right. apply in_map_iff in Hp as ([[x y] z] & <- & Hp). apply P3 in Hp. apply (in_map mirror_z) in Hp. exact Hp. }
    assert (U4 : invariant_under (fun p => (p30 p, p31 p, - p32 p)) u). { intros p Hp. apply in_app_or in Hp as [Hp|Hp]; apply in_or_app; [right; apply (in_map mirror_z) in Hp; exact Hp|left]. apply in_map_iff in Hp as ([[x y] z] & <- & Hp). unfold mirror_z, p30, p31, p32; cbn [fst snd]. rewrite Ropp_involutive. exact Hp. }
    assert (S1 : sumR (map p30 u) = 0). { unfold u. rewrite map_app, sumR_app, map_map. change (map (fun x => p30 (mirror_z x)) t) with (map p30 t). lra. }
    assert (S2 : sumR (map p31 u) = 0). { unfold u. rewrite map_app, sumR_app, map_map. change (map (fun x => p31 (mirror_z x)) t) with (map p31 t). lra. }
    assert (S3 : sumR (map p32 u) = 0). { unfold u. rewrite map_app, sumR_app, map_map. change (map (fun x => p32 (mirror_z x)) t) with (map (fun x => - p32 x) t). rewrite sumR_map_opp. lra. }
    split; [|split; [|split; [|split; [|split; [|split]]]]].
    - intros p Hp. apply in_map_iff in Hp as ([[x y] z] & <- & Hp). specialize (U1 _ Hp). unfold shift3, p30, p31, p32, super_ellipsoid_level in *; cbn [fst snd] in *. replace (x + cx - cx) with x by ring. replace (y + cy - cy) with y by ring. replace (z + cz - cz) with z by ring. exact U1.
    - intros p Hp. apply in_map_iff in Hp as ([[x y] z] & <- & Hp). apply U2 in Hp. apply (in_map (shift3 (cx, cy, cz))) in Hp. unfold shift3, p30, p31, p32 in *; cbn [fst snd] in *. replace (2 * cx - (x + cx)) with (- x + cx) by ring. exact Hp.
    - intros p Hp. apply in_map_iff in Hp as ([[x y] z] & <- & Hp). apply U3 in Hp. apply (in_map (shift3 (cx, cy, cz))) in Hp. unfold shift3, p30, p31, p32 in *; cbn [fst snd] in *. replace (2 * cy - (y + cy)) with (- y + cy) by ring. exact Hp.
    - intros p Hp. apply in_map_iff in Hp as ([[x y] z] & <- & Hp). apply U4 in Hp. apply (in_map (shift3 (cx, cy, cz))) in Hp. unfold shift3, p30, p31, p32 in *; cbn [fst snd] in *. replace (2 * cz - (z + cz)) with (- z + cz) by ring. exact Hp.
    - rewrite map_map, map_length. transitivity (sumR (map (fun x => p30 x + cx) u)); [reflexivity|]. rewrite (sumR_map_shift p30 cx u), S1. ring.
    - rewrite map_map, map_length. transitivity (sumR (map (fun x => p31 x + cy) u)); [reflexivity|]. rewrite (sumR_map_shift p31 cy u), S2. ring.
    - rewrite map_map, map_length. transitivity (sumR (map (fun x => p32 x + cz) u)); [reflexivity|]. rewrite (sumR_map_shift p32 cz u), S3. ring.
  Qed.
  Lemma room_poles fuel fuel2 l : surface3_room fuel fuel2 s k0 k1 tol = Ok l -> exists l1 l2 l3, l = l1 ++ repeat (cx, cy, cz + d) 4 ++ l2 ++ repeat (cx, cy, cz - d) 4 ++ l3.
  Proof.
    intros H. destruct (room_inv _ _ _ H) as (t & W & ->). destruct (rings_props (cx, cy, cz) a b d e n k0 k1 tol q Ha Hb Hd He Hn Hk0 Hk1 Ht fuel fuel2 t W) as (_ & _ & _ & _ & _ & t1 & rest & _ & ->).
    exists (map (shift3 (cx, cy, cz)) t1), (map (shift3 (cx, cy, cz)) (rest ++ map mirror_z t1)), (map (shift3 (cx, cy, cz)) (map mirror_z rest)).
    assert (M1 : map (shift3 (cx, cy, cz)) (repeat (0, 0, d) 4) = repeat (cx, cy, cz + d) 4). { rewrite <- map_repeat || idtac. cbn [repeat map]. unfold shift3, p30, p31, p32; cbn [fst snd]. rewrite !Rplus_0_l, (Rplus_comm d). reflexivity. }
    assert (M2 : map (shift3 (cx, cy, cz)) (map mirror_z (repeat (0, 0, d) 4)) = repeat (cx, cy, cz - d) 4). { cbn [repeat map]. unfold shift3, mirror_z, p30, p31, p32; cbn [fst snd]. rewrite !Rplus_0_l. replace (- d + cz) with (cz - d) by ring. reflexivity. }
    rewrite !map_app in *. rewrite M1, M2. rewrite <- !app_assoc. reflexivity.
  Qed.
  (** the equator ring holds a point off the axes when its first step is short enough *)
  Lemma room_equator fuel fuel2 l : cpow k0 (n / 2) < PI / 4 -> surface3_room fuel fuel2 s k0 k1 tol = Ok l ->
    exists x y, 0 < x /\ 0 < y /\ cpow x n + cpow y n = 1 /\ In (cx + a * x, cy + b * y, cz) l.
  Proof.
    intros Hs H. destruct (room_inv _ _ _ H) as (t & W & ->). destruct (rings_props (cx, cy, cz) a b d e n k0 k1 tol q Ha Hb Hd He Hn Hk0 Hk1 Ht fuel fuel2 t W) as (_ & _ & _ & _ & _ & t1 & rest & L & ->).
    assert (HE1 : 0 < 2 / n) by (apply Rdiv_lt_0_compat; lra). assert (HE2 : 0 < 2 / e) by (apply Rdiv_lt_0_compat; lra).
    unfold low in L. rewrite sin_0, cos_0, cpow_1_l, cpow_0_l, Rmult_0_r in L by lra.
    destruct (flat_of_ring _ _ _ _ _ _ _ _ _ Rlt_0_1 L) as (l2 & L2 & E). 
    rewrite Rdiv_1, !Rmult_1_r in L2. unfold uniform_sampling2 in L2. pose proof PI4_pos as HP. set (th := cpow k0 (n / 2)) in *. assert (Hth : 0 < th) by (apply cpow_pos; exact Hk0).
    assert (W2 : forall f2 : nat, exists r, walk f2 (fun eta => eta + theta_step 1 1 eta (2 / n) k0 tol) 0 = r /\ forall w, r = Ok w -> exists w', w = 0 :: th :: w').
    { intros f2. eexists. split; [reflexivity|]. intros w Hw. destruct f2 as [|f2]; cbn [walk] in Hw; (destruct (Rltb_spec 0 (PI / 4)); [|lra]); [discriminate|].
      assert (T : 0 + theta_step 1 1 0 (2 / n) k0 tol = th). { unfold theta_step. destruct (Rleb_spec tol 0); [lra|]. destruct (Rltb_spec 0 tol); [|lra]. destruct (Rltb_spec 0 0); [lra|]. cbn [andb]. rewrite Rdiv_1, Rabs_pos_eq by lra. replace (1 / (2 / n)) with (n / 2) by (field; lra). unfold th. ring. }
      rewrite T in Hw. destruct f2 as [|f2]; cbn [walk] in Hw; (destruct (Rltb_spec th (PI / 4)); [|lra]); [discriminate|]. destruct (walk f2 _ _) as [w'| | |]; cbn [bind] in Hw; try discriminate. injection Hw as <-. exists w'. reflexivity. }
    destruct (W2 fuel2) as (r & Er & Hr). rewrite Er in L2. destruct r as [w| | |]; cbn [bind] in L2; try discriminate. destruct (Hr w eq_refl) as (w' & ->).
    rewrite reflect_points_spec in L2. injection L2 as <-. destruct (trig_quarter th (conj Hth Hs)) as [[T1 T2] _].
    exists (cpow (cos th) (2 / n)), (cpow (sin th) (2 / n)). split; [apply cpow_pos; lra|]. split; [apply cpow_pos; lra|]. split.
    - rewrite !cpow_mult by lra. replace (2 / n * n) with 2 by (field; lra). rewrite !cpow_2_r by lra. pose proof (sin2_cos2' th). lra.
    - apply in_map_iff. exists (a * cpow (cos th) (2 / n), b * cpow (sin th) (2 / n), 0). split; [unfold shift3, p30, p31, p32; cbn [fst snd]; pair_eq; ring|]. apply in_or_app. left. apply in_or_app. left. subst t1. unfold quarter. cbn [map app tl]. left. unfold lift; cbn [fst snd]. reflexivity.
  Qed.
End Surf.
(** exchanged exponents: X^r + (1-X)^r <> 1 unless r = 1 *)
Lemma cpow_lt_exp x r : 0 < x < 1 -> 1 < r -> cpow x r < x.
Proof. intros Hx Hr. rewrite cpow_pos_eq by lra. rewrite <- (Rpower_1 x) at 2 by lra. unfold Rpower. apply exp_increasing. assert (ln x < 0) by (rewrite <- ln_1; apply ln_increasing; lra). nra. Qed.
Lemma cpow_gt_exp x r : 0 < x < 1 -> 0 < r < 1 -> x < cpow x r.
Proof. intros Hx Hr. rewrite cpow_pos_eq by lra. rewrite <- (Rpower_1 x) at 1 by lra. unfold Rpower. apply exp_increasing. assert (ln x < 0) by (rewrite <- ln_1; apply ln_increasing; lra). nra. Qed.
Lemma exchanged_level x y n e : 0 < x -> 0 < y -> 0 < n -> 0 < e -> cpow x n + cpow y n = 1 ->
  (n < e -> cpow (cpow x e + cpow y e) (n / e) < 1) /\ (e < n -> 1 < cpow (cpow x e + cpow y e) (n / e)).
Proof.
  intros Hx Hy Hn He H. assert (R0 : 0 < n / e) by (apply Rdiv_lt_0_compat; lra). assert (R1 : 0 < e / n) by (apply Rdiv_lt_0_compat; lra).
  assert (X0 : 0 < cpow x n) by (apply cpow_pos; lra). assert (Y0 : 0 < cpow y n) by (apply cpow_pos; lra).
  assert (EX : cpow x e = cpow (cpow x n) (e / n)) by (rewrite cpow_mult by lra; f_equal; field; lra). assert (EY : cpow y e = cpow (cpow y n) (e / n)) by (rewrite cpow_mult by lra; f_equal; field; lra).
  rewrite <- (cpow_1_l (n / e)). split; intros L.
  - assert (1 < e / n) by (apply (Rmult_lt_reg_r n); [lra|]; unfold Rdiv; rewrite Rmult_assoc, Rinv_l by lra; lra). apply cpow_lt; [rewrite EX, EY; apply Rplus_le_le_0_compat; apply Rlt_le, cpow_pos; lra| |exact R0].
    rewrite EX, EY. pose proof (cpow_lt_exp (cpow x n) (e / n) ltac:(lra) ltac:(lra)). pose proof (cpow_lt_exp (cpow y n) (e / n) ltac:(lra) ltac:(lra)). lra.
  - assert (e / n < 1) by (apply (Rmult_lt_reg_r n); [lra|]; unfold Rdiv; rewrite Rmult_assoc, Rinv_l by lra; lra). apply cpow_lt; [lra| |exact R0].
    rewrite EX, EY. pose proof (cpow_gt_exp (cpow x n) (e / n) ltac:(lra) ltac:(lra)). pose proof (cpow_gt_exp (cpow y n) (e / n) ltac:(lra) ltac:(lra)). lra.
Qed.
(** ** a sphere *)
Lemma sphere_room_points fuel fuel2 cx cy cz r k0 k1 tol q l i j : 0 < r -> 0 < k0 -> 0 < k1 -> 0 < tol -> surface3_room fuel fuel2 (sphere_make (cx, cy, cz) r q) k0 k1 tol = Ok l ->
  INR i * k1 < PI / 4 ->
  let th := INR i * k1 in
  (INR j * (k0 / cos th) < PI / 4 -> let eta := INR j * (k0 / cos th) in In (cx + r * cos th * cos eta, cy + r * cos th * sin eta, cz + r * sin th) l) /\
  ((0 < i)%nat -> INR j * (k0 / sin th) < PI / 4 -> let eta := INR j * (k0 / sin th) in In (cx + r * sin th * cos eta, cy + r * sin th * sin eta, cz + r * cos th) l).
Proof.
  intros Hr Hk0 Hk1 Ht H Hi th. destruct (room_inv _ _ _ _ _ _ _ _ _ _ _ _ _ _ _ H) as (t & W & ->).
  destruct (walk3_spec _ _ _ _ _ _ _ _ _ _ _ _ _ _ W) as (ws & rs & W1 & F & ->).
  replace (2 / 2) with 1 in W1 by field.
  assert (W0 : walk fuel (fun eta => eta + theta_step 1 1 eta 1 k1 tol) (INR 0 * k1) = Ok ws) by (simpl INR; rewrite Rmult_0_l; exact W1).
  destruct (walk_circle k1 tol Ht Hk1 fuel 0 _ W0) as [E [B1 B2]]. rewrite Nat.add_0_l in *.
  assert (Li : (i < length ws)%nat). { apply INR_lt. apply (Rmult_lt_reg_r k1); lra. }
  assert (Hin : In th ws). { rewrite E. apply in_map_iff. exists i. split; [reflexivity|]. apply in_seq. lia. }
  assert (Hth : 0 <= th < PI / 4). { split; [|exact Hi]. unfold th. apply Rmult_le_pos; [apply pos_INR|lra]. }
  destruct (trig_quarter_le th Hth) as [[T0 T1] T2].
  assert (G : exists t1 t2, low r r r 2 2 k0 tol fuel2 th = Ok t1 /\ high r r r 2 2 k0 tol fuel2 th = Ok t2 /\ forall p, In p (t1 ++ t2) -> In p (concat rs)).
  { clear - F Hin. induction F as [|w r' ws rs (t1 & t2 & L1 & L2 & ->) F IH]; [destruct Hin|]. destruct Hin as [->|Hin].
    - exists t1, t2. split; [exact L1|]. split; [exact L2|]. intros p Hp. cbn [concat]. apply in_or_app. left; exact Hp.
    - destruct (IH Hin) as (u1 & u2 & A1 & A2 & A3). exists u1, u2. split; [exact A1|]. split; [exact A2|]. intros p Hp. cbn [concat]. apply in_or_app. right; apply A3, Hp. }
  destruct G as (t1 & t2 & L1 & L2 & G). unfold low in L1. unfold high in L2. replace (2 / 2) with 1 in L1, L2 by field. rewrite !cpow_1_r in L1, L2 by lra.
  assert (K : forall x y z, In (x, y, z) (t1 ++ t2) -> In (cx + x, cy + y, cz + z) (map (shift3 (cx, cy, cz)) (concat rs ++ map mirror_z (concat rs)))).
  { intros x y z Hp. apply in_map_iff. exists (x, y, z). split; [unfold shift3, p30, p31, p32; cbn [fst snd]; pair_eq; ring|]. apply in_or_app. left. apply G, Hp. }
  assert (C : forall phi z m tt, 0 < phi -> uniform_sampling3 fuel2 r r 1 k0 z phi tol = Ok tt -> INR m * (k0 / phi) < PI / 4 -> In (r * phi * cos (INR m * (k0 / phi)), r * phi * sin (INR m * (k0 / phi)), z) tt).
  { intros phi z m tt Hphi Ls Hm. destruct (flat_of_ring _ _ _ _ _ _ _ _ _ Hphi Ls) as (f2 & L & ->). assert (Hkp : 0 < k0 / phi) by (apply Rdiv_lt_0_compat; lra).
    destruct (uniform_sampling2_circle _ _ _ _ _ (Rmult_lt_0_compat _ _ Hr Hphi) Hkp Ht L) as (mm & _ & _ & [_ M2] & _ & M4).
    assert (Lm : (m < mm)%nat). { apply INR_lt. apply (Rmult_lt_reg_r (k0 / phi)); lra. } specialize (M4 m Lm). apply (in_map (lift z)) in M4. exact M4. }
  split.
  - intros Hj eta. apply K. apply in_or_app. left. apply C; [lra|exact L1|exact Hj].
  - intros Hi0 Hj eta. assert (S0 : 0 < sin th). { apply trig_quarter. split; [|lra]. unfold th. apply Rmult_lt_0_compat; [apply lt_0_INR; exact Hi0|lra]. } apply K. apply in_or_app. right. apply C; [exact S0|exact L2|exact Hj].
Qed.
Close Scope R_scope.
