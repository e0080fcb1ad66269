(** Rows of the strain-tensor operator for the values of smooth functions. *)
From Coq Require Import FunctionalExtensionality.
From Coquelicot Require Import Coquelicot.
From Verif Require Import Base M_Geometry S_Geometry P_Geometry M_Particle S_Particle P_Particle M_Quadrature S_Fem P_Energy P_Precond M_MatElem P_MatElem M_Mesh M_Operator S_Operator P_Mesh P_Operator P_Operator2 P_Operator3 P_Global P_Stokes M_Bc S_Bc P_Flux Prop_Flux P_Gather P_Exact M_ParticleOp S_ParticleOp S_Accuracy P_Accuracy S_Consistency S_Consistency2 P_Consistency P_Stencil P_Stencil4 P_Stencil6 P_Consistency2.
Open Scope R_scope.
Lemma moved_swap X i j s t : i <> j -> (i < length X)%nat -> (j < length X)%nat -> moved (moved X i s) j t = moved (moved X j t) i s.
Proof.
  revert i j. induction X as [|x X IH]; intros [|i] [|j] N Hi Hj; cbn [length] in *; try lia; unfold moved in *; cbn [firstn skipn app]; try reflexivity. f_equal. apply IH; lia.
Qed.
Lemma first_line f X j : (j < length X)%nat -> line (first f j) X j = Derive (line f X j).
Proof. intros H. apply functional_extensionality. intros t. unfold line at 1, first. rewrite co_moved by exact H. change (fun t0 : R => f (moved (moved X j t) j t0)) with (line f (moved X j t) j). rewrite line_moved by exact H. reflexivity. Qed.
Lemma first_first f X j : (j < length X)%nat -> first (first f j) j X = second f j X.
Proof. intros H. unfold first at 1, second. change (fun t => first f j (moved X j t)) with (line (first f j) X j). rewrite first_line by exact H. reflexivity. Qed.
(** crossed difference with the steps s along i, t along j *)
Definition cross (f : vec -> R) (X : vec) (i j : nat) (s t : R) : R :=
  let F a b := f (moved (moved X i (co i X + a)) j (co j X + b)) in (F s t - F s (- t) - F (- s) t + F (- s) (- t)) / 4.
Lemma cross_err f h X Y i j N : (forall k, (k < length h)%nat -> 0 < co k h) -> smooth_mixed f h X i j N -> within 1 h X Y -> (i < length h)%nat -> (j < length h)%nat -> i <> j ->
  co i Y = co i X -> co j Y = co j X ->
  Rabs (cross f Y i j (co i h) (co j h) / (co i h * co j h) - first (first f i) j Y) <= co i h ^ 2 / 2 * N i + co j h ^ 2 / 2 * N j.
Proof.
  intros Hp HS HY Hi Hj Ne Ei Ej. assert (L : length Y = length h) by apply HY. pose proof (Hp i Hi) as Pi. pose proof (Hp j Hj) as Pj.
  set (p := fun a b : R => moved (moved Y i (co i Y + a)) j (co j Y + b)).
  assert (W : forall a b, Rabs a <= co i h -> Rabs b <= co j h -> within 1 h X (p a b)).
  { intros a b Ha Hb. unfold p. apply within_moved; [apply within_moved; auto| |]; auto; [rewrite Ei; replace (co i X + a - co i X) with a by ring|rewrite Ej; replace (co j X + b - co j X) with b by ring]; assumption. }
  assert (LP : forall a b, length (p a b) = length h) by (intros; unfold p; rewrite length_moved; rewrite length_moved; lia).
  assert (PI : forall a b, co i (p a b) = co i Y + a) by (intros; unfold p; rewrite co_moved_other, co_moved; auto; try lia; rewrite length_moved; lia).
  assert (PJ : forall a b, co j (p a b) = co j Y + b) by (intros; unfold p; rewrite co_moved; auto; rewrite length_moved; lia).
  assert (MJ : forall a b t, moved (p a b) j t = p a (t - co j Y)) by (intros; unfold p; rewrite moved_moved; [f_equal; ring|rewrite length_moved; lia]).
  assert (MI : forall a b t, moved (p a b) i t = p (t - co i Y) b). { intros; unfold p. rewrite (moved_swap (moved Y i _) j i) by (try rewrite length_moved; lia). rewrite moved_moved by lia. f_equal. f_equal. ring. }
  set (F := fun a b => f (p a b)). set (G := fun a b => first f i (p a b)). set (K := fun a b => first (first f i) j (p a b)).
  assert (DF : forall a b, Rabs a <= co i h -> Rabs b <= co j h -> is_derive (fun s => F s b) a (G a b)).
  { intros a b Ha Hb. destruct (HS _ (W a b Ha Hb)) as (D & _). unfold G, first. apply Derive_correct in D. rewrite PI in D |- *. 
    apply (is_derive_ext (fun s => (fun t => f (moved (p a b) i t)) (co i Y + s))); [intros t; unfold F; rewrite MI; f_equal; f_equal; ring|].
    replace (Derive (fun t : R => f (moved (p a b) i t)) (co i Y + a)) with (scal 1 (Derive (fun t : R => f (moved (p a b) i t)) (co i Y + a))) by apply Rmult_1_l.
    apply (is_derive_comp (fun t => f (moved (p a b) i t)) (fun s => co i Y + s)); [exact D|]. auto_derive; [exact I|ring]. }
  assert (DG : forall a b, Rabs a <= co i h -> Rabs b <= co j h -> is_derive (fun s => G a s) b (K a b)).
  { intros a b Ha Hb. destruct (HS _ (W a b Ha Hb)) as (_ & D & _). unfold K. unfold first at 1. apply Derive_correct in D. rewrite PJ in D |- *.
    apply (is_derive_ext (fun s => (fun t => first f i (moved (p a b) j t)) (co j Y + s))); [intros t; unfold G; rewrite MJ; f_equal; f_equal; ring|].
    replace (Derive (fun t : R => first f i (moved (p a b) j t)) (co j Y + b)) with (scal 1 (Derive (fun t : R => first f i (moved (p a b) j t)) (co j Y + b))) by apply Rmult_1_l.
    apply (is_derive_comp (fun t => first f i (moved (p a b) j t)) (fun s => co j Y + s)); [exact D|]. auto_derive; [exact I|ring]. }
  (* first axis *)
  assert (AB : forall x y, 0 <= y <= x -> Rabs y <= x /\ Rabs (- y) <= x) by (intros; split; [|rewrite Rabs_Ropp]; rewrite Rabs_pos_eq; lra).
  assert (OPP : forall (q : R -> R) s l, is_derive q (- s) l -> is_derive (fun s => q (- s)) s (- l)).
  { intros q s l D. replace (- l) with (scal (-1) l) by (unfold scal; cbn; unfold mult; cbn; ring). apply (is_derive_comp q (fun s => - s)); [exact D|]. auto_derive; [exact I|ring]. }
  destruct (mvt (fun s => F s (co j h) - F s (- co j h) - F (- s) (co j h) + F (- s) (- co j h)) (fun s => G s (co j h) - G s (- co j h) + G (- s) (co j h) - G (- s) (- co j h)) 0 (co i h) Pi) as (s & E1 & Hs).
  { intros t Ht. destruct (AB (co i h) t Ht) as [A1 A2]. destruct (AB (co j h) (co j h) ltac:(lra)) as [B1 B2].
    replace (G t (co j h) - G t (- co j h) + G (- t) (co j h) - G (- t) (- co j h)) with (G t (co j h) - G t (- co j h) - - G (- t) (co j h) + - G (- t) (- co j h)) by ring.
    apply @is_derive_plus; [apply @is_derive_minus; [apply @is_derive_minus; apply DF; auto|]|]; apply (OPP (fun s => F s _)); apply DF; auto. }
  rewrite Ropp_0 in E1. destruct (AB (co i h) s ltac:(lra)) as [A1 A2].
  destruct (mvt (fun t => G s t - G s (- t) + G (- s) t - G (- s) (- t)) (fun t => K s t + K s (- t) + K (- s) t + K (- s) (- t)) 0 (co j h) Pj) as (t & E2 & Ht).
  { intros t Ht. destruct (AB (co j h) t Ht) as [B1 B2].
    replace (K s t + K s (- t) + K (- s) t + K (- s) (- t)) with (K s t - - K s (- t) + K (- s) t - - K (- s) (- t)) by ring.
    apply @is_derive_minus; [apply @is_derive_plus; [apply @is_derive_minus|]|]; try (apply DG; auto); apply (OPP (fun t => G _ t)); apply DG; auto. }
  rewrite Ropp_0 in E2. destruct (AB (co j h) t ltac:(lra)) as [B1 B2].
  assert (V : cross f Y i j (co i h) (co j h) / (co i h * co j h) = (K s t + K s (- t) + K (- s) t + K (- s) (- t)) / 4).
  { unfold cross. cbv zeta. change (f (moved (moved Y i (co i Y + co i h)) j (co j Y + co j h))) with (F (co i h) (co j h)). change (f (moved (moved Y i (co i Y + co i h)) j (co j Y + - co j h))) with (F (co i h) (- co j h)).
    change (f (moved (moved Y i (co i Y + - co i h)) j (co j Y + co j h))) with (F (- co i h) (co j h)). change (f (moved (moved Y i (co i Y + - co i h)) j (co j Y + - co j h))) with (F (- co i h) (- co j h)).
    replace (F (co i h) (co j h) - F (co i h) (- co j h) - F (- co i h) (co j h) + F (- co i h) (- co j h)) with ((K s t + K s (- t) + K (- s) t + K (- s) (- t)) * (co j h - 0) * (co i h - 0)) by (rewrite <- E2; lra). field. lra. }
  rewrite V.
  assert (BI : forall b, Rabs b <= co j h -> Rabs (K s b - 2 * K 0 b + K (- s) b) <= N i * s ^ 2).
  { intros b Hb. pose proof (diff2 (fun a => K (a - co i Y) b) (co i Y) s (N i) ltac:(lra)) as Q. cbv beta in Q. replace (co i Y + s - co i Y) with s in Q by ring. replace (co i Y - co i Y) with 0 in Q by ring. replace (co i Y - s - co i Y) with (- s) in Q by ring. apply Q.
    intros x Hx. assert (Hx' : Rabs (x - co i Y) <= co i h) by (apply Rabs_le; lra). destruct (HS _ (W _ b Hx' Hb)) as (_ & _ & B). specialize (B i Hi). unfold bends in B. rewrite PI in B.
    replace (fun t0 : R => first (first f i) j (moved (p (x - co i Y) b) i t0)) with (fun a => K (a - co i Y) b) in B by (apply functional_extensionality; intros u; unfold K; rewrite MI; reflexivity). replace (co i Y + (x - co i Y)) with x in B by ring. exact B. }
  assert (BJ : Rabs (K 0 t - 2 * K 0 0 + K 0 (- t)) <= N j * t ^ 2).
  { pose proof (diff2 (fun b => K 0 (b - co j Y)) (co j Y) t (N j) ltac:(lra)) as Q. cbv beta in Q. replace (co j Y + t - co j Y) with t in Q by ring. replace (co j Y - co j Y) with 0 in Q by ring. replace (co j Y - t - co j Y) with (- t) in Q by ring. apply Q.
    intros x Hx. assert (Hx' : Rabs (x - co j Y) <= co j h) by (apply Rabs_le; lra). assert (H0 : Rabs 0 <= co i h) by (rewrite Rabs_R0; lra). destruct (HS _ (W 0 _ H0 Hx')) as (_ & _ & B). specialize (B j Hj). unfold bends in B. rewrite PJ in B.
    replace (fun t0 : R => first (first f i) j (moved (p 0 (x - co j Y)) j t0)) with (fun b => K 0 (b - co j Y)) in B by (apply functional_extensionality; intros u; unfold K; rewrite MJ; reflexivity). replace (co j Y + (x - co j Y)) with x in B by ring. exact B. }
  assert (K0 : K 0 0 = first (first f i) j Y) by (unfold K, p; rewrite !Rplus_0_r, moved_co by lia; rewrite moved_co by lia; reflexivity). rewrite <- K0.
  pose proof (BI t B1) as C1. pose proof (BI (- t) B2) as C2.
  destruct (HS Y HY) as (_ & _ & BN). assert (Ni : 0 <= N i) by (destruct (BN i Hi) as (_ & _ & B); eapply Rle_trans; [apply Rabs_pos|exact B]). assert (Nj : 0 <= N j) by (destruct (BN j Hj) as (_ & _ & B); eapply Rle_trans; [apply Rabs_pos|exact B]).
  assert (S2 : N i * s ^ 2 <= N i * co i h ^ 2) by (apply Rmult_le_compat_l; [exact Ni|apply pow_incr; lra]). assert (T2 : N j * t ^ 2 <= N j * co j h ^ 2) by (apply Rmult_le_compat_l; [exact Nj|apply pow_incr; lra]).
  apply Rabs_le_between in C1. apply Rabs_le_between in C2. apply Rabs_le_between in BJ. apply Rabs_le. lra.
Qed.
(** averaged along a third axis *)
Lemma cross_err3 f h X Y i j k N : (forall k, (k < length h)%nat -> 0 < co k h) -> smooth_mixed f h X i j N -> within 1 h X Y -> (i < length h)%nat -> (j < length h)%nat -> (k < length h)%nat -> i <> j -> k <> i -> k <> j ->
  co i Y = co i X -> co j Y = co j X -> co k Y = co k X ->
  Rabs (AV (fun b => cross f (moved Y k (co k Y + IZR b * co k h)) i j (co i h) (co j h) / (co i h * co j h)) - first (first f i) j Y) <= co i h ^ 2 / 2 * N i + co j h ^ 2 / 2 * N j + co k h ^ 2 / 6 * N k.
Proof.
  intros Hp HS HY Hi Hj Hk N1 N2 N3 Ei Ej Ek. assert (L : length Y = length h) by apply HY.
  assert (A : Rabs (AV (fun b => cross f (moved Y k (co k Y + IZR b * co k h)) i j (co i h) (co j h) / (co i h * co j h)) - AV (fun b => first (first f i) j (moved Y k (co k Y + IZR b * co k h)))) <= co i h ^ 2 / 2 * N i + co j h ^ 2 / 2 * N j).
  { apply AV_close. intros b Hb. apply (cross_err f h X); auto; try (rewrite co_moved_other; auto; lia). apply within_moved; auto. rewrite Ek. replace (co k X + IZR b * co k h - co k X) with (IZR b * co k h) by ring. apply steps_b; auto. }
  rewrite (AV_avg (first (first f i) j)) in A by lia.
  assert (B : Rabs (avg (first (first f i) j) Y k (co k h) - first (first f i) j Y) <= co k h ^ 2 / 6 * N k).
  { apply avg_err; [lia|auto|]. intros t Ht. apply HS; auto. apply within_moved; auto. apply Rabs_le. lra. }
  apply Rabs_le_between in A. apply Rabs_le_between in B. apply Rabs_le. lra.
Qed.
