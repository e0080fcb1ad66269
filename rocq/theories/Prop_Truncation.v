(** C35: the cut-off function. *)
From Coquelicot Require Import Coquelicot.
From Verif Require Import Base M_Geometry M_Truncation.
Open Scope R_scope.

(** ** the polynomial alpha and its successive derivatives *)
Theorem C35_alpha_derivatives : forall y,
  is_derive alphaTrunc y (dalphaTrunc y) /\ is_derive dalphaTrunc y (d2alphaTrunc y) /\
  is_derive d2alphaTrunc y (d3alphaTrunc y) /\ is_derive d3alphaTrunc y (y * d4alphaTrunc y).
Proof.
  intros y. unfold alphaTrunc, dalphaTrunc, d2alphaTrunc, d3alphaTrunc, d4alphaTrunc. cbv zeta.
  split; [|split; [|split]]; auto_derive; auto; field.
Qed.
(** the fourth one lacks a factor X: the derivative of the third is X times it *)
Theorem C35_d4alpha_refuted : exists y, ~ is_derive d3alphaTrunc y (d4alphaTrunc y).
Proof.
  exists 0. intros D. apply is_derive_unique in D. pose proof (is_derive_unique _ _ _ (proj2 (proj2 (proj2 (C35_alpha_derivatives 0))))) as E.
  assert (D' : 0 * d4alphaTrunc 0 = d4alphaTrunc 0) by (rewrite <- E; exact D). unfold d4alphaTrunc in D'. cbv zeta in D'. lra.
Qed.
Theorem C35_alpha_step : alphaTrunc 0 = 0 /\ alphaTrunc 1 = 1 /\ alphaTrunc (-1) = -1 /\ (forall y, alphaTrunc (- y) = - alphaTrunc y) /\
  (forall y, 0 <= dalphaTrunc y) /\ (forall x y, x <= y -> alphaTrunc x <= alphaTrunc y).
Proof.
  assert (P : forall y, 0 <= dalphaTrunc y).
  { intros y. unfold dalphaTrunc. cbv zeta. pose proof (Rle_0_sqr ((y * y - 1) * (y * y - 1))) as Q. unfold Rsqr in Q. lra. }
  split; [unfold alphaTrunc; cbv zeta; field|]. split; [unfold alphaTrunc; cbv zeta; field|]. split; [unfold alphaTrunc; cbv zeta; field|]. split; [intros; unfold alphaTrunc; cbv zeta; field|]. split; [exact P|].
  intros x y Hxy. destruct (MVT_gen alphaTrunc x y dalphaTrunc) as (c & Hc & E).
  - intros z _. apply C35_alpha_derivatives.
  - intros z _. apply derivable_continuous_pt. exists (dalphaTrunc z). apply is_derive_Reals, C35_alpha_derivatives.
  - assert (0 <= dalphaTrunc c * (y - x)) by (apply Rmult_le_pos; [apply P|lra]). lra.
Qed.

(** ** the call with l = eps, the only one the library makes (singularity.hpp passes param_ twice) *)
(** a function of x restricted to x^2 < 2 l *)
Definition inside (l : R) (P : R -> R) (x : R) : R := if Rltb (x * x) (2 * l) then P x else 0.
Lemma chained_00 x l : chained x (l - l) = false.
Proof. unfold chained. destruct (Rltb_spec (if Rleb 0 x then 1 else 0) (l - l)); [|reflexivity]. exfalso. destruct (Rleb 0 x); lra. Qed.
Lemma select_inside l first x v : 0 < l -> trunc_select first (x * x) l l (v x) = inside l v x.
Proof.
  intros Hl. unfold trunc_select, inside. rewrite chained_00. assert (0 <= x * x) by apply Rle_0_sqr.
  destruct (Rleb_spec (l - l) (x * x)); [|lra]. cbn [andb]. destruct (Rltb_spec (x * x) (l + l)), (Rltb_spec (x * x) (2 * l)); auto; lra.
Qed.
Definition chiP l x := 1 / 2 * (1 - alphaTrunc ((x * x - l) / l)).
Definition chiP1 l x := - dalphaTrunc ((x * x - l) / l) / l / 2.
Definition chiP2 l x := - d2alphaTrunc ((x * x - l) / l) / l / l / 2.
Definition chiP3 l x := - d3alphaTrunc ((x * x - l) / l) / l / l / l / 2.
Definition chiP4 l x := - d4alphaTrunc ((x * x - l) / l) / l / l / l / l / 2.
Lemma chi_inside l x : 0 < l -> chiTrunc x l l = inside l (chiP l) x /\ dchiTrunc x l l = inside l (chiP1 l) x /\ d2chiTrunc x l l = inside l (chiP2 l) x
  /\ d3chiTrunc x l l = inside l (chiP3 l) x /\ d4chiTrunc x l l = inside l (chiP4 l) x.
Proof.
  intros Hl. unfold chiTrunc, dchiTrunc, d2chiTrunc, d3chiTrunc, d4chiTrunc. cbv zeta. pose proof (fun f v => select_inside l f x v Hl) as E.
  repeat split; [apply (E _ (chiP l))|apply (E _ (chiP1 l))|apply (E _ (chiP2 l))|apply (E _ (chiP3 l))|apply (E _ (chiP4 l))].
Qed.
(** gluing with zero is smooth when the value and the derivative vanish at the junction *)
Lemma inside_derive l (P dP : R -> R) : (forall x, is_derive P x (dP x)) -> (forall x, x * x = 2 * l -> P x = 0 /\ dP x = 0) -> forall x, is_derive (inside l P) x (inside l dP x).
Proof.
  intros HP HJ x. unfold inside at 2. destruct (Rtotal_order (x * x) (2 * l)) as [Lt|[Eq|Gt]].
  - destruct (Rltb_spec (x * x) (2 * l)); [|lra]. apply (is_derive_ext_loc P); [|apply HP].
    assert (O : open (fun y : R => y * y < 2 * l)).
    { apply (open_comp (fun y : R => y * y) (fun u => u < 2 * l)); [|apply open_lt]. intros y _. apply (ex_derive_continuous (fun y : R => y * y) y). auto_derive. auto. }
    apply (filter_imp (fun y : R => y * y < 2 * l)); [|apply O, Lt]. intros y Hy. unfold inside. destruct (Rltb_spec (y * y) (2 * l)); [reflexivity|lra].
  - destruct (Rltb_spec (x * x) (2 * l)); [lra|]. destruct (HJ x Eq) as [J0 J1]. apply is_derive_Reals. pose proof (proj1 (is_derive_Reals _ _ _) (HP x)) as D. rewrite J1 in D.
    intros eps He. destruct (D eps He) as (del & Hd). exists del. intros h Hh Hdel. specialize (Hd h Hh Hdel). rewrite J0 in Hd. unfold inside at 2. destruct (Rltb_spec (x * x) (2 * l)); [lra|].
    unfold inside. destruct (Rltb_spec ((x + h) * (x + h)) (2 * l)); [exact Hd|]. replace ((0 - 0) / h - 0) with 0 by (field; auto). rewrite Rabs_R0. exact He.
  - destruct (Rltb_spec (x * x) (2 * l)); [lra|]. apply (is_derive_ext_loc (fun _ : R => 0)); [|apply (is_derive_const (V:=R_NormedModule) 0 x)].
    assert (O : open (fun y : R => 2 * l < y * y)).
    { apply (open_comp (fun y : R => y * y) (fun u => 2 * l < u)); [|apply open_gt]. intros y _. apply (ex_derive_continuous (fun y : R => y * y) y). auto_derive. auto. }
    apply (filter_imp (fun y : R => 2 * l < y * y)); [|apply O, Gt]. intros y Hy. unfold inside. destruct (Rltb_spec (y * y) (2 * l)); [lra|reflexivity].
Qed.
Lemma chiP_derive l : 0 < l -> forall x,
  is_derive (chiP l) x (2 * x * chiP1 l x) /\ is_derive (chiP1 l) x (2 * x * chiP2 l x) /\ is_derive (chiP2 l) x (2 * x * chiP3 l x).
Proof.
  intros Hl x. unfold chiP, chiP1, chiP2, chiP3, chiP4, alphaTrunc, dalphaTrunc, d2alphaTrunc, d3alphaTrunc, d4alphaTrunc. cbv zeta.
  split; [|split]; auto_derive; auto; field; lra.
Qed.
Lemma chiP_junction l x : 0 < l -> x * x = 2 * l -> chiP l x = 0 /\ chiP1 l x = 0 /\ chiP2 l x = 0 /\ chiP3 l x = 0 /\ chiP4 l x = 0.
Proof.
  intros Hl E. unfold chiP, chiP1, chiP2, chiP3, chiP4. rewrite E. replace ((2 * l - l) / l) with 1 by (field; lra).
  unfold alphaTrunc, dalphaTrunc, d2alphaTrunc, d3alphaTrunc, d4alphaTrunc. cbv zeta. repeat split; field; lra.
Qed.
(** the cut-off is three times differentiable everywhere and the other functions are its successive derivatives with respect to X^2 *)
Theorem C35_derivatives : forall l, 0 < l -> forall X,
  is_derive (fun x => chiTrunc x l l) X (2 * X * dchiTrunc X l l) /\ is_derive (fun x => dchiTrunc x l l) X (2 * X * d2chiTrunc X l l) /\
  is_derive (fun x => d2chiTrunc x l l) X (2 * X * d3chiTrunc X l l).
Proof.
  intros l Hl X. destruct (chi_inside l X Hl) as (E0 & E1 & E2 & E3 & E4).
  assert (K : forall P P1 : R -> R, (forall x, is_derive P x (2 * x * P1 x)) -> (forall x, x * x = 2 * l -> P x = 0 /\ P1 x = 0) -> is_derive (inside l P) X (2 * X * inside l P1 X)).
  { intros P P1 HP HJ. replace (2 * X * inside l P1 X) with (inside l (fun x => 2 * x * P1 x) X) by (unfold inside; destruct (Rltb (X * X) (2 * l)); ring).
    apply inside_derive; [exact HP|]. intros x Ex. destruct (HJ x Ex) as [J0 J1]. split; [exact J0|]. rewrite J1. ring. }
  rewrite E1, E2, E3. split; [|split].
  - apply (is_derive_ext (inside l (chiP l))); [intros t; symmetry; apply (chi_inside l t Hl)|]. apply K; [apply chiP_derive, Hl|]. intros x Ex. pose proof (chiP_junction l x Hl Ex). tauto.
  - apply (is_derive_ext (inside l (chiP1 l))); [intros t; symmetry; apply (chi_inside l t Hl)|]. apply K; [apply chiP_derive, Hl|]. intros x Ex. pose proof (chiP_junction l x Hl Ex). tauto.
  - apply (is_derive_ext (inside l (chiP2 l))); [intros t; symmetry; apply (chi_inside l t Hl)|]. apply K; [apply chiP_derive, Hl|]. intros x Ex. pose proof (chiP_junction l x Hl Ex). tauto.
Qed.
(** 1 at contact, 0 beyond the support, between 0 and 1, non-increasing with the distance *)
Theorem C35_cutoff : forall l, 0 < l ->
  chiTrunc 0 l l = 1 /\ dchiTrunc 0 l l = 0 /\ d2chiTrunc 0 l l = 0 /\
  (forall X, 2 * l <= X * X -> chiTrunc X l l = 0 /\ dchiTrunc X l l = 0 /\ d2chiTrunc X l l = 0 /\ d3chiTrunc X l l = 0) /\
  (forall X, 0 <= chiTrunc X l l <= 1) /\
  (forall X Y, X * X <= Y * Y -> chiTrunc Y l l <= chiTrunc X l l).
Proof.
  intros l Hl. destruct C35_alpha_step as (A0 & A1 & Am & Ao & Ap & Ai).
  assert (S : forall x y, x <= y -> (x - l) / l <= (y - l) / l).
  { intros x y Hxy. unfold Rdiv. apply Rmult_le_compat_r; [left; apply Rinv_0_lt_compat, Hl|lra]. }
  assert (B : forall X, 0 <= X * X -> X * X < 2 * l -> 0 <= chiP l X <= 1).
  { intros X H1 H2. unfold chiP. assert (-1 <= (X * X - l) / l <= 1).
    { replace (-1) with ((0 - l) / l) by (field; lra). replace 1 with ((2 * l - l) / l) by (field; lra). split; apply S; lra. }
    pose proof (Ai (-1) _ (proj1 H)). pose proof (Ai _ 1 (proj2 H)). lra. }
  assert (V0 : forall P, inside l P 0 = P 0) by (intros P; unfold inside; destruct (Rltb_spec (0 * 0) (2 * l)); [reflexivity|lra]).
  destruct (chi_inside l 0 Hl) as (E0 & E1 & E2 & _). split; [|split; [|split]].
  - rewrite E0, V0. unfold chiP. replace ((0 * 0 - l) / l) with (-1) by (field; lra). rewrite Am. field.
  - rewrite E1, V0. unfold chiP1. replace ((0 * 0 - l) / l) with (-1) by (field; lra). unfold dalphaTrunc. cbv zeta. field. lra.
  - rewrite E2, V0. unfold chiP2. replace ((0 * 0 - l) / l) with (-1) by (field; lra). unfold d2alphaTrunc. cbv zeta. field. lra.
  - split; [|split].
    + intros X HX. destruct (chi_inside l X Hl) as (F0 & F1 & F2 & F3 & _). rewrite F0, F1, F2, F3. unfold inside. destruct (Rltb_spec (X * X) (2 * l)); [lra|auto].
    + intros X. rewrite (proj1 (chi_inside l X Hl)). unfold inside. destruct (Rltb_spec (X * X) (2 * l)); [apply B; auto; apply Rle_0_sqr|lra].
    + intros X Y HXY. rewrite (proj1 (chi_inside l X Hl)), (proj1 (chi_inside l Y Hl)). unfold inside. assert (0 <= X * X) by apply Rle_0_sqr.
      destruct (Rltb_spec (X * X) (2 * l)), (Rltb_spec (Y * Y) (2 * l)); try lra; [|apply B; auto].
      unfold chiP. pose proof (Ai _ _ (S _ _ HXY)). lra.
Qed.
(** ** with l > eps the chained comparison gives the wrong branch *)
(** for l - eps <= 1 the cut-off vanishes at contact instead of being 1 *)
Theorem C35_inner_zone_refuted : forall X l eps, 0 < eps -> l - eps <= 1 -> X * X < l - eps -> chiTrunc X l eps = 0.
Proof.
  intros X l eps He Hl HX. unfold chiTrunc, trunc_select, chained. cbv zeta. assert (0 <= X * X) by apply Rle_0_sqr.
  destruct (Rleb_spec 0 (X * X)); [|lra]. destruct (Rltb_spec 1 (l - eps)); [lra|]. destruct (Rleb_spec (l - eps) (X * X)); [lra|]. reflexivity.
Qed.
(** for l - eps > 1 it is 1 everywhere, however far, and so is its "derivative" *)
Theorem C35_no_cutoff_refuted : forall X l eps, 1 < l - eps -> chiTrunc X l eps = 1 /\ dchiTrunc X l eps = 1.
Proof.
  intros X l eps Hl. unfold chiTrunc, dchiTrunc, trunc_select, chained. cbv zeta. assert (0 <= X * X) by apply Rle_0_sqr.
  destruct (Rleb_spec 0 (X * X)); [|lra]. destruct (Rltb_spec 1 (l - eps)); [auto|lra].
Qed.
Example C35_example : chiTrunc 1 1 1 = 1 / 2 /\ dchiTrunc 1 1 1 <> 0.
Proof.
  destruct (chi_inside 1 1 ltac:(lra)) as (E0 & E1 & _). rewrite E0, E1. unfold inside. destruct (Rltb_spec (1 * 1) (2 * 1)); [|lra].
  unfold chiP, chiP1. replace ((1 * 1 - 1) / 1) with 0 by field. rewrite (proj1 C35_alpha_step). split; [field|]. unfold dalphaTrunc. cbv zeta. lra.
Qed.
