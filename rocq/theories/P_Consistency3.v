(** Gradient and divergence rows for the values of a smooth function. *)
From Coq Require Import FunctionalExtensionality.
From Coquelicot Require Import Coquelicot.
From Verif Require Import Base M_Geometry S_Geometry P_Geometry M_Particle S_Particle P_Particle M_Quadrature S_Fem P_Energy P_Precond M_MatElem P_MatElem M_Mesh M_Operator S_Operator P_Mesh P_Operator P_Operator2 P_Operator3 P_Global P_Stokes M_Bc S_Bc P_Flux Prop_Flux P_Gather P_Exact M_ParticleOp S_ParticleOp S_Accuracy P_Accuracy S_Consistency P_Consistency P_Stencil P_Stencil5 P_Consistency2.
Open Scope R_scope.
Lemma diff3 g c h N : 0 < h -> (forall t, c - h <= t <= c + h -> ex_derive g t) -> smooth1 (Derive g) (c - h) (c + h) N ->
  Rabs (g (c + h) - g (c - h) - 2 * h * Derive g c) <= N * h ^ 3 / 3.
Proof.
  intros Hh T S. set (g1 := Derive g) in *.
  assert (SG : forall s, 0 <= s <= h -> Rabs (g1 (c + s) - 2 * g1 c + g1 (c - s)) <= N * s ^ 2).
  { intros s Hs. destruct (Req_dec s 0) as [->|Ne]; [|apply diff2; [lra|intros t Ht; apply S; lra]]. rewrite Rplus_0_r, Rminus_0_r. replace (g1 c - 2 * g1 c + g1 c) with 0 by ring. rewrite Rabs_R0. lra. }
  apply (grow (fun s => g (c + s) - g (c - s) - 2 * s * g1 c) (fun s => g1 (c + s) - 2 * g1 c + g1 (c - s)) (fun s => N * s ^ 3 / 3) (fun s => N * s ^ 2) h); [lra|rewrite Rplus_0_r, Rminus_0_r; ring|field| |intros; auto_derive; [exact I|field]|exact SG|lra].
  intros s Hs. pose proof (T (c + s) ltac:(lra)) as E. pose proof (T (c - s) ltac:(lra)) as E'. auto_derive; [split; [exact E|split; [exact E'|exact I]]|]. change (Derive (fun x : R => g x)) with g1. unfold Rminus. ring.
Qed.
Definition near2 (b : Z) : Prop := (-2 <= b <= 2)%Z.
(** an average: close on close values, and close to the middle value of a smooth function *)
Definition averages (W : (Z -> R) -> R) (k : R) : Prop :=
  (forall f g e, (forall b, near2 b -> Rabs (f b - g b) <= e) -> Rabs (W f - W g) <= e) /\
  (forall g c s N, 0 < s -> smooth1 g (c - 2 * s) (c + 2 * s) N -> Rabs (W (fun b => g (c + IZR b * s)) - g c) <= k * s ^ 2 * N).
(** a difference *)
Definition differs (V : (Z -> R) -> R) (k : R) : Prop :=
  forall g c s N, 0 < s -> (forall t, c - 2 * s <= t <= c + 2 * s -> ex_derive g t) -> smooth1 (Derive g) (c - 2 * s) (c + 2 * s) N ->
    Rabs (V (fun a => g (c + IZR a * s)) / s - Derive g c) <= k * s ^ 2 * N.
Lemma smooth1_sub g a b a' b' N : a <= a' -> b' <= b -> smooth1 g a b N -> smooth1 g a' b' N.
Proof. intros H1 H2 S t Ht. apply S. lra. Qed.
Lemma d2_12 g c s N : 0 < s -> smooth1 g (c - 2 * s) (c + 2 * s) N -> Rabs (g (c + 1 * s) - 2 * g c + g (c + -1 * s)) <= N * s ^ 2 /\ Rabs (g (c + 2 * s) - 2 * g c + g (c + -2 * s)) <= 4 * N * s ^ 2.
Proof.
  intros Hs S. split.
  - replace (c + 1 * s) with (c + s) by ring. replace (c + -1 * s) with (c - s) by ring. apply diff2; [exact Hs|]. eapply smooth1_sub; [| |exact S]; lra.
  - replace (c + -2 * s) with (c - 2 * s) by ring. replace (4 * N * s ^ 2) with (N * (2 * s) ^ 2) by ring. apply diff2; [lra|exact S].
Qed.
Lemma d3_12 g c s N : 0 < s -> (forall t, c - 2 * s <= t <= c + 2 * s -> ex_derive g t) -> smooth1 (Derive g) (c - 2 * s) (c + 2 * s) N ->
  Rabs (g (c + 1 * s) - g (c + -1 * s) - 2 * s * Derive g c) <= N * s ^ 3 / 3 /\ Rabs (g (c + 2 * s) - g (c + -2 * s) - 4 * s * Derive g c) <= 8 * N * s ^ 3 / 3.
Proof.
  intros Hs T S. split.
  - replace (c + 1 * s) with (c + s) by ring. replace (c + -1 * s) with (c - s) by ring. apply diff3; [exact Hs|intros; apply T; lra|]. eapply smooth1_sub; [| |exact S]; lra.
  - replace (c + -2 * s) with (c - 2 * s) by ring. replace (8 * N * s ^ 3 / 3) with (N * (2 * s) ^ 3 / 3) by field. replace (4 * s * Derive g c) with (2 * (2 * s) * Derive g c) by ring. apply diff3; [lra|exact T|exact S].
Qed.
Ltac inside_le := repeat match goal with H : Rabs _ <= _ |- _ => apply Rabs_le_between in H end; apply Rabs_le; try lra.
Lemma near2_cases (P : Z -> Prop) : (forall b, near2 b -> P b) -> P (-2)%Z /\ P (-1)%Z /\ P 0%Z /\ P 1%Z /\ P 2%Z.
Proof. intros H. repeat split; apply H; unfold near2; lia. Qed.
Lemma nonneg_N g c s N : 0 < s -> smooth1 g (c - 2 * s) (c + 2 * s) N -> 0 <= N.
Proof. intros Hs S. apply (smooth1_nonneg g (c - 2 * s) (c + 2 * s)); [lra|exact S]. Qed.
Lemma CV_averages e : averages (CV e) (1 / 2).
Proof.
  split.
  - intros f g d H. apply near2_cases in H as (A & B & C & D & E). unfold CV. destruct e; inside_le.
  - intros g c s N Hs S. destruct (d2_12 g c s N Hs S) as [A B]. pose proof (nonneg_N g c s N Hs S) as PN. assert (0 <= N * s ^ 2) by (apply Rmult_le_pos; [exact PN|nra]). unfold CV. rewrite Rmult_0_l, Rplus_0_r. destruct e; inside_le.
Qed.
Lemma FV_averages : averages FV (5 / 12).
Proof.
  split.
  - intros f g d H. apply near2_cases in H as (A & B & C & D & E). unfold FV. inside_le.
  - intros g c s N Hs S. destruct (d2_12 g c s N Hs S) as [A B]. unfold FV. rewrite Rmult_0_l, Rplus_0_r. inside_le.
Qed.
Lemma scaled_err v g1 s k e : 0 < s -> Rabs (v - s * g1) <= s * e -> k = e -> Rabs (v / s - g1) <= k.
Proof. intros Hs H ->. replace (v / s - g1) with ((v - s * g1) / s) by (field; lra). unfold Rdiv. rewrite Rabs_mult, (Rabs_pos_eq (/ s)) by (apply Rlt_le, Rinv_0_lt_compat, Hs). apply (Rmult_le_reg_r s); [exact Hs|]. rewrite Rmult_assoc, Rinv_l, Rmult_1_r by lra. lra. Qed.
Lemma DV_differs e : differs (DV e) (2 / 3).
Proof.
  intros g c s N Hs T S. destruct (d3_12 g c s N Hs T S) as [A B]. pose proof (nonneg_N _ c s N Hs S) as PN. assert (0 <= N * s ^ 3) by (apply Rmult_le_pos; [exact PN|apply pow_le; lra]).
  apply (scaled_err _ _ s _ (2 / 3 * s ^ 2 * N)); [exact Hs| |reflexivity]. set (x := s * Derive g c) in *. replace (2 * s * Derive g c) with (2 * x) in A by (unfold x; ring). replace (4 * s * Derive g c) with (4 * x) in B by (unfold x; ring).
  replace (s * (2 / 3 * s ^ 2 * N)) with (2 / 3 * (N * s ^ 3)) by ring. unfold DV. destruct e; inside_le.
Qed.
Lemma EV_differs : differs EV (5 / 12).
Proof.
  intros g c s N Hs T S. destruct (d3_12 g c s N Hs T S) as [A B].
  apply (scaled_err _ _ s _ (5 / 12 * s ^ 2 * N)); [exact Hs| |reflexivity]. set (x := s * Derive g c) in *. replace (2 * s * Derive g c) with (2 * x) in A by (unfold x; ring). replace (4 * s * Derive g c) with (4 * x) in B by (unfold x; ring).
  replace (s * (5 / 12 * s ^ 2 * N)) with (5 / 12 * (N * s ^ 3)) by ring. unfold EV. inside_le.
Qed.
Lemma within2_moved h X Y i t : within 2 h X Y -> (i < length h)%nat -> Rabs (t - co i X) <= 2 * co i h -> within 2 h X (moved Y i t).
Proof.
  intros [L W] Hi Ht. split; [rewrite length_moved; lia|]. intros j Hj. destruct (Nat.eq_dec j i) as [->|N]; [rewrite co_moved by lia; lra|rewrite co_moved_other by (auto; lia); apply W, Hj].
Qed.
Lemma steps2 b s : near2 b -> 0 < s -> Rabs (IZR b * s) <= 2 * s.
Proof. intros [H1 H2] Hs. apply IZR_le in H1, H2. apply Rabs_le. nra. Qed.
Lemma first_line f X j : (j < length X)%nat -> line (first f j) X j = Derive (line f X j).
Proof. intros H. apply functional_extensionality. intros t. unfold line at 1, first. rewrite co_moved by exact H. change (fun t0 : R => f (moved (moved X j t) j t0)) with (line f (moved X j t) j). rewrite line_moved by exact H. reflexivity. Qed.
Section Terms.
  Variables (f : vec -> R) (h X : vec) (N : nat -> nat -> R) (V : (Z -> R) -> R) (kv : R).
  Hypothesis Hp : forall i, (i < length h)%nat -> 0 < co i h.
  Hypothesis HS : smooth3 f h X N.
  Hypothesis HV : differs V kv.
  Definition slope (Y : vec) (j : nat) : R := V (fun a => f (moved Y j (co j Y + IZR a * co j h))) / co j h.
  Lemma slope1 Y j : within 2 h X Y -> (j < length h)%nat -> co j Y = co j X -> Rabs (slope Y j - first f j Y) <= kv * co j h ^ 2 * N j j.
  Proof.
    intros HY Hj E. assert (L : length Y = length h) by apply HY. unfold slope. change (fun a : Z => f (moved Y j (co j Y + IZR a * co j h))) with (fun a : Z => line f Y j (co j Y + IZR a * co j h)).
    unfold first. change (fun t : R => f (moved Y j t)) with (line f Y j). apply HV; [auto| |].
    - intros t Ht. assert (WM : within 2 h X (moved Y j t)) by (apply within2_moved; auto; apply Rabs_le; lra). destruct (HS _ j j WM Hj Hj) as [T _]. rewrite co_moved in T by lia. assert (T2 : ex_derive (line f (moved Y j t) j) t) by exact T. rewrite line_moved in T2 by lia. exact T2.
    - intros t Ht. assert (WM : within 2 h X (moved Y j t)) by (apply within2_moved; auto; apply Rabs_le; lra). destruct (HS _ j j WM Hj Hj) as [_ T]. apply bends_line in T; [|lia]. rewrite first_line in T by lia. exact T.
  Qed.
  Variables (W : (Z -> R) -> R) (kw : R).
  Hypothesis HW : averages W kw.
  Lemma average1 Y i j : within 2 h X Y -> (i < length h)%nat -> (j < length h)%nat -> co i Y = co i X -> Rabs (W (fun b => first f j (moved Y i (co i Y + IZR b * co i h))) - first f j Y) <= kw * co i h ^ 2 * N j i.
  Proof.
    intros HY Hi Hj E. assert (L : length Y = length h) by apply HY. replace (first f j Y) with (line (first f j) Y i (co i Y)) by (unfold line; rewrite moved_co by lia; reflexivity). apply (proj2 HW (line (first f j) Y i)); [auto|].
    intros t Ht. assert (WM : within 2 h X (moved Y i t)) by (apply within2_moved; auto; apply Rabs_le; lra). destruct (HS _ i j WM Hi Hj) as [_ T]. apply bends_line in T; [|lia]. exact T.
  Qed.
  Lemma slope2 Y i j : within 2 h X Y -> (i < length h)%nat -> (j < length h)%nat -> i <> j -> co j Y = co j X -> co i Y = co i X ->
    Rabs (W (fun b => slope (moved Y i (co i Y + IZR b * co i h)) j) - first f j Y) <= kv * co j h ^ 2 * N j j + kw * co i h ^ 2 * N j i.
  Proof.
    intros HY Hi Hj Ne Ej Ei. assert (L : length Y = length h) by apply HY.
    assert (A : Rabs (W (fun b => slope (moved Y i (co i Y + IZR b * co i h)) j) - W (fun b => first f j (moved Y i (co i Y + IZR b * co i h)))) <= kv * co j h ^ 2 * N j j).
    { apply (proj1 HW). intros b Hb. apply slope1; auto; [|rewrite co_moved_other; auto; lia]. apply within2_moved; auto. rewrite Ei. replace (co i X + IZR b * co i h - co i X) with (IZR b * co i h) by ring. apply steps2; auto. }
    pose proof (average1 Y i j HY Hi Hj Ei) as B. inside_le.
  Qed.
  Variables (U : (Z -> R) -> R) (ku : R).
  Hypothesis HU : averages U ku.
  Lemma slope3 Y i j k : within 2 h X Y -> (i < length h)%nat -> (j < length h)%nat -> (k < length h)%nat -> i <> j -> k <> j -> k <> i -> co j Y = co j X -> co i Y = co i X -> co k Y = co k X ->
    (forall Y, within 2 h X Y -> co k Y = co k X -> Rabs (U (fun b => first f j (moved Y k (co k Y + IZR b * co k h))) - first f j Y) <= ku * co k h ^ 2 * N j k) ->
    Rabs (U (fun c => W (fun b => slope (moved (moved Y k (co k Y + IZR c * co k h)) i (co i Y + IZR b * co i h)) j)) - first f j Y) <= kv * co j h ^ 2 * N j j + kw * co i h ^ 2 * N j i + ku * co k h ^ 2 * N j k.
  Proof.
    intros HY Hi Hj Hk N1 N2 N3 Ej Ei Ek HB. assert (L : length Y = length h) by apply HY.
    assert (A : Rabs (U (fun c => W (fun b => slope (moved (moved Y k (co k Y + IZR c * co k h)) i (co i Y + IZR b * co i h)) j)) - U (fun c => first f j (moved Y k (co k Y + IZR c * co k h)))) <= kv * co j h ^ 2 * N j j + kw * co i h ^ 2 * N j i).
    { apply (proj1 HU). intros c Hc. set (Z := moved Y k (co k Y + IZR c * co k h)). assert (EZ : co i Z = co i Y) by (apply co_moved_other; [auto|lia]). rewrite <- EZ. apply slope2; auto; try (rewrite EZ; exact Ei); [|unfold Z; rewrite co_moved_other by (auto; lia); exact Ej].
      apply within2_moved; auto. rewrite Ek. replace (co k X + IZR c * co k h - co k X) with (IZR c * co k h) by ring. apply steps2; auto. }
    pose proof (HB Y HY Ek) as B. inside_le.
  Qed.
End Terms.
Lemma within2_refl h X : (forall i, (i < length h)%nat -> 0 < co i h) -> length X = length h -> within 2 h X X.
Proof. intros Hp L. split; [exact L|]. intros i Hi. rewrite Rminus_eq_0, Rabs_R0. specialize (Hp i Hi). lra. Qed.
