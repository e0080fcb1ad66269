From Coq Require Import Permutation FunctionalExtensionality.
From Verif Require Import Base M_Geometry S_Geometry M_Shapes S_Shapes P_Geometry P_Pow P_Shapes P_Sampling.
From Verif Require Import M_Shapes3.
Open Scope R_scope.
(** ** a ring is a flat sample *)
Lemma theta_step_scale phi th eps K tol : 0 < phi -> theta_step phi phi th eps K tol = theta_step 1 1 th eps (K / phi) tol.
Proof.
  intros Hp. unfold theta_step. rewrite Rdiv_1. destruct (Rleb tol th); [|reflexivity].
  set (A := cpow (cos th) (2 * eps) * cpow (sin th) 4). set (B := cpow (sin th) (2 * eps) * cpow (cos th) 4).
  replace (phi * phi * cpow (cos th) (2 * eps) * cpow (sin th) 4 + phi * phi * cpow (sin th) (2 * eps) * cpow (cos th) 4) with ((phi * phi) * (A + B)) by (unfold A, B; ring).
  replace (1 * 1 * cpow (cos th) (2 * eps) * cpow (sin th) 4 + 1 * 1 * cpow (sin th) (2 * eps) * cpow (cos th) 4) with (A + B) by (unfold A, B; ring).
  rewrite sqrt_mult_alt by nra. rewrite sqrt_square by lra. unfold Rdiv. rewrite !Rinv_mult. ring.
Qed.
Lemma push_loop_map {A B} (f : A -> B) idx (g : A -> A) (g' : B -> B) is : (forall a, g' (f a) = f (g a)) -> forall l,
  push_loop idx g' is (map f l) = match push_loop idx g is l with Ok m => Ok (map f m) | UB => UB | Abort => Abort | OutOfFuel => OutOfFuel end.
Proof.
  intros H. induction is as [|i is IH]; intros l; cbn [push_loop]; [reflexivity|]. rewrite nth_error_map. destruct (nth_error l (idx i)) as [a|]; cbn [option_map]; [|reflexivity].
  rewrite H. change [f (g a)] with (map f [g a]). rewrite <- map_app. apply IH.
Qed.
Lemma reflect_points_map {A B} (f : A -> B) (fa fb : R -> A) (fa' fb' : R -> B) mx mxy my mx' mxy' my' etas :
  (forall e, fa' e = f (fa e)) -> (forall e, fb' e = f (fb e)) -> (forall a, mx' (f a) = f (mx a)) -> (forall a, mxy' (f a) = f (mxy a)) -> (forall a, my' (f a) = f (my a)) ->
  forall l, reflect_points fa fb mx mxy my etas = Ok l -> reflect_points fa' fb' mx' mxy' my' etas = Ok (map f l).
Proof.
  intros H1 H2 H3 H4 H5 l H. unfold reflect_points in *.
  assert (E : map fa' etas ++ map fb' (rev etas) = map f (map fa etas ++ map fb (rev etas))) by (rewrite map_app, !map_map; f_equal; apply map_ext; assumption). rewrite E, map_length.
  set (t := map fa etas ++ map fb (rev etas)) in *. rewrite (push_loop_map f _ mx mx' _ H3).
  destruct (push_loop _ mx _ t) as [t1| | |]; cbn [bind] in *; try discriminate. rewrite (push_loop_map f _ mxy mxy' _ H4).
  destruct (push_loop _ mxy _ t1) as [t2| | |]; cbn [bind] in *; try discriminate. rewrite (push_loop_map f _ my my' _ H5).
  destruct (push_loop _ my _ t2) as [t3| | |]; cbn [bind] in *; try discriminate. destruct t3 as [|x t3]; cbn [map]; [discriminate|]. injection H as ->. reflexivity.
Qed.
Definition lift (z : R) (p : R * R) : R * R * R := (fst p, snd p, z).
Definition unlift (p : R * R * R) : R * R := fst p.
Lemma ring_of_flat fuel r0 r1 eps k z phi tol l : 0 < phi -> uniform_sampling2 fuel (r0 * phi, r1 * phi) eps (k / phi) tol = Ok l ->
  uniform_sampling3 fuel r0 r1 eps k z phi tol = Ok (map (lift z) l).
Proof.
  intros Hp H. unfold uniform_sampling2, uniform_sampling3 in *.
  assert (E : (fun eta => if Reqb phi 0 then PI / 4 else eta + theta_step phi phi eta eps k tol) = (fun eta => eta + theta_step 1 1 eta eps (k / phi) tol)).
  { apply functional_extensionality. intros eta. destruct (Reqb_spec phi 0); [lra|]. rewrite theta_step_scale by exact Hp. reflexivity. }
  rewrite E. destruct (walk fuel _ 0) as [etas| | |]; cbn [bind] in *; try discriminate.
  eapply reflect_points_map; [..|exact H]; try (intros [x y]; reflexivity); intros eta; unfold lift; cbn [fst snd]; pair_eq; try reflexivity; ring.
Qed.
Lemma flat_of_ring fuel r0 r1 eps k z phi tol l : 0 < phi -> uniform_sampling3 fuel r0 r1 eps k z phi tol = Ok l ->
  exists l2, uniform_sampling2 fuel (r0 * phi, r1 * phi) eps (k / phi) tol = Ok l2 /\ l = map (lift z) l2.
Proof.
  intros Hp H. unfold uniform_sampling2, uniform_sampling3 in *.
  assert (E : (fun eta => if Reqb phi 0 then PI / 4 else eta + theta_step phi phi eta eps k tol) = (fun eta => eta + theta_step 1 1 eta eps (k / phi) tol)).
  { apply functional_extensionality. intros eta. destruct (Reqb_spec phi 0); [lra|]. rewrite theta_step_scale by exact Hp. reflexivity. }
  rewrite E in H. destruct (walk fuel _ 0) as [etas| | |]; cbn [bind] in *; try discriminate.
  assert (K : reflect_points (fun eta => (r0 * phi * cpow (cos eta) eps, r1 * phi * cpow (sin eta) eps)) (fun eta => (r0 * phi * cpow (sin eta) eps, r1 * phi * cpow (cos eta) eps)) (fun p => (- fst p, snd p)) (fun p => (- fst p, - snd p)) (fun p => (fst p, - snd p)) etas = Ok (map unlift l)).
  { eapply reflect_points_map; [..|exact H]; try (intros [[x y] w]; reflexivity); intros eta; unfold unlift; cbn [fst snd]; pair_eq; ring. }
  exists (map unlift l). split; [exact K|].
  assert (K2 : reflect_points (fun eta => (r0 * cpow (cos eta) eps * phi, r1 * cpow (sin eta) eps * phi, z)) (fun eta => (r0 * cpow (sin eta) eps * phi, r1 * cpow (cos eta) eps * phi, z)) (fun p => (- p30 p, p31 p, p32 p)) (fun p => (- p30 p, - p31 p, p32 p)) (fun p => (p30 p, - p31 p, p32 p)) etas = Ok (map (lift z) (map unlift l))).
  { eapply reflect_points_map; [..|exact K]; try (intros [x y]; reflexivity); intros eta; unfold lift; cbn [fst snd]; pair_eq; try reflexivity; ring. }
  rewrite H in K2. injection K2 as K2. exact K2.
Qed.
(** the poles *)
Lemma pole fuel r0 r1 eps k z tol : (1 <= fuel)%nat -> uniform_sampling3 fuel r0 r1 eps k z 0 tol = Ok (repeat (0, 0, z) 4).
Proof.
  intros Hf. unfold uniform_sampling3. destruct fuel as [|f]; [lia|]. cbn [walk]. pose proof PI4_pos. destruct (Rltb_spec 0 (PI / 4)); [|lra]. destruct (Reqb_spec 0 0); [|lra].
  assert (W : forall u, walk f u (PI / 4) = Ok []) by (intros u; destruct f; cbn [walk]; (destruct (Rltb_spec (PI / 4) (PI / 4)); [lra|reflexivity])).
  rewrite W. cbn [bind]. rewrite reflect_points_spec. unfold quarter. cbn [map rev app tl]. f_equal. cbn [repeat]. rewrite !Rmult_0_r. unfold p30, p31, p32; cbn [fst snd]. rewrite !Ropp_0. reflexivity.
Qed.
Lemma ring_props fuel a b eps k z phi tol l : 0 < a -> 0 < b -> 0 < eps -> 0 < k -> 0 < tol -> 0 < phi -> uniform_sampling3 fuel a b eps k z phi tol = Ok l ->
  (forall p, In p l -> cpow (Rabs (p30 p / a)) (2 / eps) + cpow (Rabs (p31 p / b)) (2 / eps) = cpow phi (2 / eps) /\ p32 p = z) /\ NoDup l /\
  invariant_under (fun p => (- p30 p, p31 p, p32 p)) l /\ invariant_under (fun p => (p30 p, - p31 p, p32 p)) l /\
  sumR (map p30 l) = 0 /\ sumR (map p31 l) = 0 /\ (exists m, (1 <= m)%nat /\ length l = (8 * m - 4)%nat).
Proof.
  intros Ha Hb He Hk Ht Hp H. destruct (flat_of_ring _ _ _ _ _ _ _ _ _ Hp H) as (l2 & H2 & ->).
  assert (Hk' : 0 < k / phi) by (apply Rdiv_lt_0_compat; lra). assert (H2e : 0 < 2 / eps) by (apply Rdiv_lt_0_compat; lra).
  destruct (uniform_sampling2_props fuel (a * phi) (b * phi) eps (k / phi) tol l2 ltac:(nra) ltac:(nra) He Hk' Ht H2) as (P1 & P2 & P3 & P4 & P5 & P6 & P7).
  assert (EX : map p30 (map (lift z) l2) = map fst l2) by (rewrite map_map; reflexivity). assert (EY : map p31 (map (lift z) l2) = map snd l2) by (rewrite map_map; reflexivity).
  rewrite EX, EY, map_length. split; [|split; [|split; [|split; [|auto]]]].
  - intros p Hp'. apply in_map_iff in Hp' as (q & <- & Hq). split; [|reflexivity]. specialize (P1 q Hq). unfold lift, p30, p31; cbn [fst snd].
    assert (E : forall x r, 0 < r -> cpow (Rabs (x / r)) (2 / eps) = cpow phi (2 / eps) * cpow (Rabs (x / (r * phi))) (2 / eps)).
    { intros x r Hr. rewrite <- cpow_mul_base by (try apply Rabs_pos; lra). f_equal. rewrite <- (Rabs_pos_eq phi) at 1 by lra. rewrite <- Rabs_mult. f_equal. field. lra. }
    rewrite (E (fst q) a Ha), (E (snd q) b Hb). rewrite <- Rmult_plus_distr_l, P1. ring.
  - apply FinFun.Injective_map_NoDup; [|exact P2]. intros [x y] [x' y'] E. inversion E. reflexivity.
  - intros p Hp'. apply in_map_iff in Hp' as (q & <- & Hq). apply P3 in Hq. apply (in_map (lift z)) in Hq. exact Hq.
  - intros p Hp'. apply in_map_iff in Hp' as (q & <- & Hq). apply P4 in Hq. apply (in_map (lift z)) in Hq. exact Hq.
Qed.
Lemma ring_terminates a b eps k z phi tol : 0 < eps -> 0 < k -> 0 < tol -> 0 <= phi ->
  exists N l, forall fuel, (N <= fuel)%nat -> uniform_sampling3 fuel a b eps k z phi tol = Ok l.
Proof.
  intros He Hk Ht [Hp|<-].
  - assert (Hk' : 0 < k / phi) by (apply Rdiv_lt_0_compat; lra). destruct (uniform_sampling2_terminates (a * phi) (b * phi) eps (k / phi) tol He Hk' Ht) as (N & l & H). exists N, (map (lift z) l). intros fuel Hf. apply ring_of_flat; auto.
  - exists 1%nat, (repeat (0, 0, z) 4). intros fuel Hf. apply pole, Hf.
Qed.
(** ** the rings of a surface *)
Section Rings.
  Variables (c : R * R * R) (a b d e n k0 k1 tol : R) (q : quat).
  Hypotheses (Ha : 0 < a) (Hb : 0 < b) (Hd : 0 < d) (He : 0 < e) (Hn : 0 < n) (Hk0 : 0 < k0) (Hk1 : 0 < k1) (Ht : 0 < tol).
  (** stored exponents: e_ = 2/e, n_ = 2/n *)
  Let s := se3_make c (a, b, d) n e q.
  Let E2 := 2 / e.
  Let E1 := 2 / n.
  Let upd (w : R) := w + theta_step 1 1 w E2 k1 tol.
  Definition low (fuel2 : nat) (w : R) := uniform_sampling3 fuel2 a b E1 k0 (d * cpow (sin w) E2) (cpow (cos w) E2) tol.
  Definition high (fuel2 : nat) (w : R) := uniform_sampling3 fuel2 a b E1 k0 (d * cpow (cos w) E2) (cpow (sin w) E2) tol.
  Lemma walk3_spec fuel fuel2 : forall w l, walk3 fuel fuel2 s k0 k1 tol w w = Ok l ->
    exists ws rs, walk fuel upd w = Ok ws /\ Forall2 (fun w r => exists t1 t2, low fuel2 w = Ok t1 /\ high fuel2 w = Ok t2 /\ r = t1 ++ t2) ws rs /\ l = concat rs.
  Proof.
    induction fuel as [|f IH]; intros w l H; cbn [walk3] in H.
    - cbn [walk]. destruct (Rltb w (PI / 4)); [discriminate|]. injection H as <-. exists [], []. split; [reflexivity|]. split; [constructor|reflexivity].
    - cbn [walk]. destruct (Rltb w (PI / 4)); [|injection H as <-; exists [], []; split; [reflexivity|]; split; [constructor|reflexivity]].
      unfold s, se3_make in H; cbn [s3 n3_ e3_] in H. fold E1 E2 in H. fold (low fuel2 w) in H. fold (high fuel2 w) in H. destruct (low fuel2 w) as [t1| | |] eqn:L; cbn [bind] in H; try discriminate. destruct (high fuel2 w) as [t2| | |] eqn:Hh; cbn [bind] in H; try discriminate.
      fold (upd w) in H. fold s in H.
      match type of H with bind ?x _ = _ => destruct x as [rest| | |] eqn:W; cbn [bind] in H; try discriminate end. injection H as <-.
      destruct (IH _ _ W) as (ws & rs & W1 & F & ->). exists (w :: ws), ((t1 ++ t2) :: rs). rewrite W1. split; [reflexivity|]. split; [constructor; [exists t1, t2; auto|exact F]|]. cbn [concat]. rewrite app_assoc. reflexivity.
  Qed.
  Lemma walk3_run fuel fuel2 : forall w ws, walk fuel upd w = Ok ws -> Forall (fun w => (exists t, low fuel2 w = Ok t) /\ exists t, high fuel2 w = Ok t) ws -> exists l, walk3 fuel fuel2 s k0 k1 tol w w = Ok l.
  Proof.
    induction fuel as [|f IH]; intros w ws H F; cbn [walk walk3] in *; (destruct (Rltb w (PI / 4)); [|eexists; reflexivity]); [discriminate|].
    destruct (walk f upd (upd w)) as [ws'| | |] eqn:W; cbn [bind] in H; try discriminate. injection H as <-. inversion F as [|? ? [[t1 L] [t2 Hh]] F']; subst.
    unfold s, se3_make; cbn [s3 n3_ e3_]. fold E1 E2. fold (low fuel2 w). fold (high fuel2 w). rewrite L, Hh. cbn [bind]. destruct (IH _ _ W F') as [l R]. change (exists l, bind (walk3 f fuel2 s k0 k1 tol (upd w) (upd w)) (fun rest => Ok (t1 ++ t2 ++ rest)) = Ok l). rewrite R. cbn [bind]. eexists; reflexivity.
  Qed.
  Lemma E1_pos : 0 < E1. Proof. apply Rdiv_lt_0_compat; lra. Qed.
  Lemma E2_pos : 0 < E2. Proof. apply Rdiv_lt_0_compat; lra. Qed.
  Lemma walk_in fuel ws : walk fuel upd 0 = Ok ws -> (forall w, In w ws -> 0 <= w < PI / 4) /\ exists t, ws = 0 :: t.
  Proof.
    intros W. destruct (walk_increasing fuel upd (fun x Hx => ltac:(unfold upd; pose proof (theta_step_pos E2 k1 tol x E2_pos Hk1 Ht Hx); lra)) 0 ws (Rle_refl 0) W) as [_ [H2 H3]]. split; [exact H2|apply H3, PI4_pos].
  Qed.
  Lemma phis w : 0 <= w < PI / 4 -> 0 < cpow (cos w) E2 /\ 0 <= cpow (sin w) E2 /\ (w = 0 \/ 0 < cpow (sin w) E2).
  Proof.
    intros Hw. destruct (trig_quarter_le w Hw) as [[S0 S1] C1]. split; [apply cpow_pos; lra|]. split; [apply cpow_nonneg; [lra|apply E2_pos]|]. destruct (Req_dec w 0) as [|N]; [left; assumption|right]. apply cpow_pos. apply (trig_quarter w). lra.
  Qed.
  Lemma rings_terminate : exists N N2 l, forall fuel fuel2, (N <= fuel)%nat -> (N2 <= fuel2)%nat -> walk3 fuel fuel2 s k0 k1 tol 0 0 = Ok l.
  Proof.
    destruct (walk_terminates E2 k1 tol E2_pos Hk1 Ht) as (N & ws & W). fold upd in W. destruct (walk_in N ws W) as [Hin _].
    assert (R : exists N2 (L : R -> list (R * R * R)), forall w, In w ws -> forall fuel2, (N2 <= fuel2)%nat -> exists t1 t2, low fuel2 w = Ok t1 /\ high fuel2 w = Ok t2 /\ L w = t1 ++ t2).
    { clear W. induction ws as [|w ws IH]; [exists 0%nat, (fun _ => []); intros w []|]. destruct IH as (N2 & L & IH); [intros; apply Hin; right; assumption|].
      destruct (phis w (Hin w (or_introl eq_refl))) as (P1 & P2 & _).
      destruct (ring_terminates a b E1 k0 (d * cpow (sin w) E2) (cpow (cos w) E2) tol E1_pos Hk0 Ht ltac:(lra)) as (M1 & l1 & R1). destruct (ring_terminates a b E1 k0 (d * cpow (cos w) E2) (cpow (sin w) E2) tol E1_pos Hk0 Ht P2) as (M2 & l2 & R2).
      exists (Nat.max N2 (Nat.max M1 M2)), (fun v => if Req_EM_T v w then l1 ++ l2 else L v). intros v Hv fuel2 Hf. destruct (Req_EM_T v w) as [->|Nv].
      - exists l1, l2. split; [apply R1; lia|]. split; [apply R2; lia|reflexivity].
      - apply IH; [destruct Hv; [congruence|assumption]|lia]. }
    destruct R as (N2 & L & R). exists N, N2, (concat (map L ws)). intros fuel fuel2 Hf Hf2.
    pose proof (walk_mono _ _ _ _ W fuel Hf) as W'. destruct (walk3_run fuel fuel2 0 ws W') as [l K]. { apply Forall_forall. intros w Hw. destruct (R w Hw fuel2 Hf2) as (t1 & t2 & L1 & L2 & _). split; eexists; eassumption. }
    destruct (walk3_spec fuel fuel2 0 l K) as (ws' & rs & W'' & F & ->). rewrite W' in W''. injection W'' as <-. rewrite K. do 2 f_equal.
    clear W W' K Hin. induction F as [|w r ws rs (t1 & t2 & L1 & L2 & ->) F IH]; [reflexivity|]. cbn [map]. rewrite IH by (intros; apply R; [right|]; assumption). f_equal.
    destruct (R w (or_introl eq_refl) fuel2 Hf2) as (t1' & t2' & L1' & L2' & ->). congruence.
  Qed.
  (** every point of the rings *)
  Lemma ring_point fuel2 w t1 t2 : 0 <= w < PI / 4 -> low fuel2 w = Ok t1 -> high fuel2 w = Ok t2 -> 
    (forall p, In p (t1 ++ t2) -> cpow (cpow (Rabs (p30 p / a)) n + cpow (Rabs (p31 p / b)) n) (e / n) + cpow (Rabs (p32 p / d)) e = 1) /\
    invariant_under (fun p => (- p30 p, p31 p, p32 p)) (t1 ++ t2) /\ invariant_under (fun p => (p30 p, - p31 p, p32 p)) (t1 ++ t2) /\
    sumR (map p30 (t1 ++ t2)) = 0 /\ sumR (map p31 (t1 ++ t2)) = 0.
  Proof.
    intros Hw L H. destruct (phis w Hw) as (P1 & P2 & P3). destruct (trig_quarter_le w Hw) as [[S0 S1] C1]. pose proof E1_pos. pose proof E2_pos. assert (EN : 2 / E1 = n) by (unfold E1; field; lra). assert (EE : 2 / E2 = e) by (unfold E2; field; lra).
    assert (EN0 : 0 < e / n) by (apply Rdiv_lt_0_compat; lra).
    assert (X : forall x, 0 <= x -> cpow (cpow (cpow x E2) n) (e / n) = x * x). { intros x Hx. rewrite !cpow_mult; try assumption; try (apply Rmult_lt_0_compat; assumption); [|apply cpow_nonneg; assumption]. replace (E2 * (n * (e / n))) with 2 by (unfold E2; field; lra). apply cpow_2_r, Hx. }
    assert (Y : forall x, 0 <= x -> cpow (Rabs (d * cpow x E2 / d)) e = x * x). { intros x Hx. replace (d * cpow x E2 / d) with (cpow x E2) by (field; lra). rewrite Rabs_pos_eq by (apply cpow_nonneg; assumption). rewrite cpow_mult by assumption. replace (E2 * e) with 2 by (unfold E2; field; lra). apply cpow_2_r, Hx. }
    pose proof (sin2_cos2' w) as SC.
    destruct (ring_props _ _ _ _ _ _ _ _ _ Ha Hb E1_pos Hk0 Ht P1 L) as (A1 & _ & A3 & A4 & A5 & A6 & _).
    assert (B : (forall p, In p t2 -> cpow (cpow (Rabs (p30 p / a)) n + cpow (Rabs (p31 p / b)) n) (e / n) + cpow (Rabs (p32 p / d)) e = 1) /\ invariant_under (fun p => (- p30 p, p31 p, p32 p)) t2 /\ invariant_under (fun p => (p30 p, - p31 p, p32 p)) t2 /\ sumR (map p30 t2) = 0 /\ sumR (map p31 t2) = 0).
    { destruct P3 as [->|P3].
      - unfold high in H. rewrite sin_0, cos_0, cpow_1_l, cpow_0_l, Rmult_1_r in H by lra. destruct fuel2 as [|f2]; [unfold uniform_sampling3 in H; cbn [walk] in H; pose proof PI4_pos; destruct (Rltb_spec 0 (PI / 4)); [discriminate|lra]|]. rewrite pole in H by lia. assert (Et : t2 = repeat (0, 0, d) 4) by congruence. subst t2. clear H.
        split; [|split; [|split; [|split]]].
        + intros p Hp. apply repeat_spec in Hp as ->. unfold p30, p31, p32; cbn [fst snd]. replace (0 / a) with 0 by (field; lra). replace (0 / b) with 0 by (field; lra). replace (d / d) with 1 by (field; lra). rewrite Rabs_R0, Rabs_R1, cpow_1_l, !(cpow_0_l n) by lra. rewrite Rplus_0_l, cpow_0_l by lra. lra.
        + intros p Hp. apply repeat_spec in Hp as ->. unfold p30, p31, p32; cbn [fst snd]. rewrite Ropp_0. left; reflexivity.
        + intros p Hp. apply repeat_spec in Hp as ->. unfold p30, p31, p32; cbn [fst snd]. rewrite Ropp_0. left; reflexivity.
        + cbn. unfold p30; cbn [fst snd]. lra.
        + cbn. unfold p31; cbn [fst snd]. lra.
      - destruct (ring_props _ _ _ _ _ _ _ _ _ Ha Hb E1_pos Hk0 Ht P3 H) as (B1 & _ & B3 & B4 & B5 & B6 & _). split; [|auto]. intros p Hp. destruct (B1 p Hp) as [Bx Bz]. rewrite EN in Bx. rewrite Bx, Bz, X, Y by lra. lra. }
    destruct B as (B1 & B3 & B4 & B5 & B6). split; [|split; [|split; [|split]]].
    - intros p Hp. apply in_app_or in Hp as [Hp|Hp]; [|apply B1, Hp]. destruct (A1 p Hp) as [Ax Az]. rewrite EN in Ax. rewrite Ax, Az, X, Y by lra. lra.
    - intros p Hp. apply in_app_or in Hp as [Hp|Hp]; apply in_or_app; [left; apply A3, Hp|right; apply B3, Hp].
    - intros p Hp. apply in_app_or in Hp as [Hp|Hp]; apply in_or_app; [left; apply A4, Hp|right; apply B4, Hp].
    - rewrite map_app, sumR_app. lra.
    - rewrite map_app, sumR_app. lra.
  Qed.
  Lemma rings_props fuel fuel2 l : walk3 fuel fuel2 s k0 k1 tol 0 0 = Ok l ->
    (forall p, In p l -> cpow (cpow (Rabs (p30 p / a)) n + cpow (Rabs (p31 p / b)) n) (e / n) + cpow (Rabs (p32 p / d)) e = 1) /\
    invariant_under (fun p => (- p30 p, p31 p, p32 p)) l /\ invariant_under (fun p => (p30 p, - p31 p, p32 p)) l /\
    sumR (map p30 l) = 0 /\ sumR (map p31 l) = 0 /\
    exists t rest, low fuel2 0 = Ok t /\ l = t ++ repeat (0, 0, d) 4 ++ rest.
  Proof.
    intros W3. destruct (walk3_spec _ _ _ _ W3) as (ws & rs & W & F & ->). destruct (walk_in _ _ W) as [Hin (t & ->)].
    assert (G : forall r, In r rs -> (forall p, In p r -> cpow (cpow (Rabs (p30 p / a)) n + cpow (Rabs (p31 p / b)) n) (e / n) + cpow (Rabs (p32 p / d)) e = 1) /\ invariant_under (fun p => (- p30 p, p31 p, p32 p)) r /\ invariant_under (fun p => (p30 p, - p31 p, p32 p)) r /\ sumR (map p30 r) = 0 /\ sumR (map p31 r) = 0).
    { clear W W3. revert Hin. generalize (0 :: t) F. clear F. intros ws F'. induction F' as [|w r ws rs (t1 & t2 & L1 & L2 & ->) F' IH]; intros Hin r0 Hr; [destruct Hr|]. destruct Hr as [<-|Hr]; [apply ring_point with fuel2 w; auto; apply Hin; left; reflexivity|apply IH; [intros; apply Hin; right; assumption|exact Hr]]. }
    split; [|split; [|split; [|split; [|split]]]].
    - intros p Hp. apply in_concat in Hp as (r & Hr & Hp). apply (G r Hr), Hp.
    - intros p Hp. apply in_concat in Hp as (r & Hr & Hp). apply in_concat. exists r. split; [exact Hr|]. apply (G r Hr), Hp.
    - intros p Hp. apply in_concat in Hp as (r & Hr & Hp). apply in_concat. exists r. split; [exact Hr|]. apply (G r Hr), Hp.
    - clear F W Hin W3. induction rs as [|r rs IH]; [reflexivity|]. cbn [concat]. rewrite map_app, sumR_app, IH by (intros; apply G; right; assumption). destruct (G r (or_introl eq_refl)) as (_ & _ & _ & G4 & _). lra.
    - clear F W Hin W3. induction rs as [|r rs IH]; [reflexivity|]. cbn [concat]. rewrite map_app, sumR_app, IH by (intros; apply G; right; assumption). destruct (G r (or_introl eq_refl)) as (_ & _ & _ & _ & G5). lra.
    - inversion F as [|? r ? rs' (t1 & t2 & L1 & L2 & ->) F']; subst. exists t1, (concat rs'). split; [exact L1|]. cbn [concat]. rewrite <- app_assoc. f_equal. f_equal.
      unfold high in L2. rewrite sin_0, cos_0, cpow_1_l, cpow_0_l, Rmult_1_r in L2 by (apply Rgt_not_eq, E2_pos). destruct fuel2 as [|f2]; [unfold uniform_sampling3 in L2; cbn [walk] in L2; pose proof PI4_pos; destruct (Rltb_spec 0 (PI / 4)); [discriminate|lra]|]. rewrite pole in L2 by lia. congruence.
  Qed.
End Rings.
Close Scope R_scope.
