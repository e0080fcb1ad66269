(** Spreading of the forces of the surface points in doubles. *)
From Coq Require Import Permutation.
From Coquelicot Require Import Coquelicot.
From Flocq Require Import Core BinarySingleNaN.
From Verif Require Import Base M_Geometry S_Geometry P_Geometry M_Particle S_Particle P_Particle S_Fem M_Quadrature M_MatElem P_MatElem P_Energy M_Mesh M_Operator S_Operator P_Mesh P_Operator P_Operator2 P_Precond M_Bc M_ParticleOp S_ParticleOp P_ParticleOp.
From Verif Require Import M_Double S_Double P_Double P_Double2 P_Double3 P_Double4 P_Double5 P_Double6 P_Double7 P_Double8.
From Verif Require Import M_DoubleOp S_DoubleOp P_DoubleOp P_DoubleOp2 P_DoubleOp3.
From Verif Require Import M_DoubleBc.
From Verif Require Import M_DoublePart S_DoublePart P_DoublePart.
Open Scope R_scope.

(** ** the weights *)

(** ** the size of the weights *)
Lemma shape_bound (h x : vec) k : Forall2 (fun s y => 0 < s /\ Rabs y <= 2 * s) h x -> Rabs (shape h x k) <= 3 ^ length x.
Proof.
  intros H. unfold shape. replace (length x) with (length (zip_with Rdiv x h)) at 1 2 by (clear k; induction H; simpl; auto).
  assert (HQ : Forall (fun q => Rabs q <= 2) (zip_with Rdiv x h)). { induction H as [|s y h x [P B] H IH]; simpl; constructor; auto. unfold Rdiv. rewrite Rabs_mult, Rabs_inv, (Rabs_pos_eq s) by lra. apply Rmult_le_reg_r with s; [lra|]. rewrite Rmult_assoc, Rinv_l by lra. lra. }
  replace (length x) with (length (zip_with Rdiv x h)) by (clear HQ; induction H; simpl; auto). generalize (zip_with Rdiv x h), HQ. clear. intros q HQ. set (f := fun (i : nat) (s : R) => if Nat.odd (k / 2 ^ i) then s else 1 - s). assert (Hf : forall i s, Rabs s <= 2 -> Rabs (f i s) <= 3) by (intros i s Hs; unfold f; destruct (Nat.odd _); [lra|]; apply Rabs_le_inv in Hs; apply Rabs_le; lra). clearbody f. generalize 0%nat as i. induction HQ as [|a q Ha HQ IH]; intros i; cbn [length seq zip_with fold_right pow].
  - rewrite Rabs_R1. lra.
  - rewrite Rabs_mult. apply Rmult_le_compat; [apply Rabs_pos|apply Rabs_pos|apply Hf, Ha|apply IH].
Qed.
Lemma offset_bound h x : good_steps h -> good_offset h x -> Forall2 (fun s y => 0 < s /\ Rabs y <= 2 * s) (map dval h) (map dval x).
Proof.
  intros [_ HF] HO. induction HO as [|s y h x [F B] HO IH]; [constructor|]. inversion HF as [|? ? [G M] HF']; subst. cbn [map]. constructor; [|apply IH; exact HF']. split; [|exact B]. unfold moderate in M. assert (0 < / 2 ^ 200) by (apply Rinv_0_lt_compat, pow_lt; lra). lra.
Qed.
Lemma size_bound h x k : good_steps h -> good_offset h x -> size_shape (map dval h) (map dval x) k <= 2 ^ 5.
Proof.
  intros Hh HO. unfold size_shape. pose proof (shape_bound _ _ k (offset_bound h x Hh HO)) as B. rewrite map_length in B. assert (L : length x = length h) by (symmetry; eapply Forall2_len; exact HO).
  assert (T : / 2 ^ 700 <= 1) by (rewrite <- Rinv_1; apply Rinv_le_contravar; [lra|apply pow_R1_Rle; lra]). assert (3 ^ length x <= 27). { rewrite L. destruct Hh as [[-> | ->] _]; simpl; lra. } replace (2 ^ 5) with 32 by (simpl; lra). lra.
Qed.

(** ** contributions: node, component, double, exact value, size *)
Definition dcontrib := (list Z * nat * (double * R * R))%type.
Definition dstep (y : dlvec) (c : dcontrib) : outcome dlvec := dat_upd y (fst (fst c)) (snd (fst c)) (fun u => dplus u (fst (fst (snd c)))).
Definition cr (c : dcontrib) : contrib := (fst c, snd (fst (snd c))).
Definition ca (c : dcontrib) : contrib := (fst c, snd (snd c)).
Definition ck (c : dcontrib) : contrib := (fst c, 1).
Section Spread.
  Variables (c : nat) (fin : Prop).
  Hypothesis Hc : (c <= 20)%nat.
  Definition cok (ct : dcontrib) : Prop := approx c fin (fst (fst (snd ct))) (snd (fst (snd ct))) (snd (snd ct)) 1.
  Lemma runs_rel l : forall y yr ya yk, Forall cok l -> vrel c fin y yr ya yk -> orel (vrel c fin) (runs dstep y l) (runs step1 yr (map cr l)) (runs step1 ya (map ca l)) (runs step1 yk (map ck l)).
  Proof.
    induction l as [|ct l IH]; intros y yr ya yk HF HV.
    - exact HV.
    - inversion HF as [|? ? H1 H2]; subst. cbn [map]. rewrite !runs_cons. eapply orel_bind.
      + unfold dstep, step1. cbn [cr ca ck fst snd]. apply upd_rel; [exact HV|]. intros v r' a' k' HA. apply approx_plus; auto.
      + intros z0 z1 z2 z3 HZ. apply IH; assumption.
  Qed.
  Variables (m : list Z) (per : list bool) (D : nat) (dms : list dmda).
  Hypothesis HG : grid_ok m per.
  Hypothesis HD : distributes m per D dms.
  Lemma local_sum (DC : list dcontrib) (dm : dmda) : In dm dms -> Forall cok DC -> Forall (fun ct : dcontrib => in_grid_box (g_ghost dm) (fst (fst ct))) DC ->
    exists y yr ya yk, runs dstep (dfill0 dm) DC = Ok y /\ vrel c fin y yr ya yk /\
      (lv_box yr = g_ghost dm /\ forall q d, lv_val yr q d = Lsum (hits q d) (map cr DC)) /\ (lv_box ya = g_ghost dm /\ forall q d, lv_val ya q d = Lsum (hits q d) (map ca DC)) /\
      (lv_box yk = g_ghost dm /\ forall q d, lv_val yk q d = Lsum (hits q d) (map ck DC)).
  Proof.
    intros Hin HC HB.
    assert (R : forall f : dcontrib -> contrib, (forall ct, fst (f ct) = fst ct) -> exists y, runs step1 (fill0 dm) (map f DC) = Ok y /\ lv_box y = g_ghost dm /\ forall q d, lv_val y q d = Lsum (hits q d) (map f DC)).
    { intros f Hf. destruct (runs1_ok (map f DC) (fill0 dm)) as (y & R1 & R2 & _ & R4).
      - rewrite Forall_forall in *. intros ct Hct. apply in_map_iff in Hct as (c0 & <- & Hc0). rewrite Hf. cbn [lv_box fill0]. apply (point_inside_iff m per D dms HG HD dm _ Hin). apply HB, Hc0.
      - exists y. split; [exact R1|]. split; [exact R2|]. intros q d. rewrite R4. cbn [fill0 lv_val]. unfold zeros. ring. }
    destruct (R cr ltac:(reflexivity)) as (yr & R1 & R2). destruct (R ca ltac:(reflexivity)) as (ya & A1 & A2). destruct (R ck ltac:(reflexivity)) as (yk & K1 & K2).
    pose proof (runs_rel DC (dfill0 dm) (fill0 dm) (fill0 dm) (fill0 dm) HC (fill_rel c fin dm)) as O. rewrite R1, A1, K1 in O. destruct (runs dstep (dfill0 dm) DC) as [y| | |]; cbn in O; try contradiction. exists y, yr, ya, yk. auto.
  Qed.
  Lemma global_sum (f : dmda -> outcome dlvec) (DC : dmda -> list dcontrib) :
    (forall dm, In dm dms -> f dm = runs dstep (dfill0 dm) (DC dm)) ->
    (forall dm, In dm dms -> Forall cok (DC dm) /\ Forall (fun ct : dcontrib => in_grid_box (g_ghost dm) (fst (fst ct))) (DC dm)) ->
    exists ys, on_all f dms = Ok ys /\ forall n d v, dlocal_to_global dms ys n d v ->
      approx c fin v (Lsum (fun dm => Lsum (fun ct => hitsw m per n d (cr ct)) (DC dm)) dms) (Lsum (fun dm => Lsum (fun ct => hitsw m per n d (ca ct)) (DC dm)) dms) (Lsum (fun dm => Lsum (fun ct => hitsw m per n d (ck ct)) (DC dm)) dms).
  Proof.
    intros Hf HC.
    destruct (on_all_ok f (fun dm y => exists yr ya yk, vrel c fin y yr ya yk /\
      (lv_box yr = g_ghost dm /\ forall q d, lv_val yr q d = Lsum (hits q d) (map cr (DC dm))) /\ (lv_box ya = g_ghost dm /\ forall q d, lv_val ya q d = Lsum (hits q d) (map ca (DC dm))) /\
      (lv_box yk = g_ghost dm /\ forall q d, lv_val yk q d = Lsum (hits q d) (map ck (DC dm)))) dms) as (ys & Ey & Hy).
    { intros dm Hin. destruct (HC dm Hin) as [C1 C2]. destruct (local_sum (DC dm) dm Hin C1 C2) as (y & yr & ya & yk & E & H). exists y. split; [rewrite Hf by exact Hin; exact E|]. exists yr, ya, yk. exact H. }
    exists ys. split; [exact Ey|]. intros n d v HV.
    assert (X : exists yr ya yk, length ys = length dms /\ length yr = length dms /\ length ya = length dms /\ length yk = length dms /\
      (forall i dm b0 b1 b2 b3, nth_error dms i = Some dm -> nth_error ys i = Some b0 -> nth_error yr i = Some b1 -> nth_error ya i = Some b2 -> nth_error yk i = Some b3 -> vrel c fin b0 b1 b2 b3) /\
      Forall2 (fun dm y => lv_box y = g_ghost dm /\ forall q d, lv_val y q d = Lsum (hits q d) (map cr (DC dm))) dms yr /\
      Forall2 (fun dm y => lv_box y = g_ghost dm /\ forall q d, lv_val y q d = Lsum (hits q d) (map ca (DC dm))) dms ya /\
      Forall2 (fun dm y => lv_box y = g_ghost dm /\ forall q d, lv_val y q d = Lsum (hits q d) (map ck (DC dm))) dms yk).
    { clear - Hy. induction Hy as [|dm y l ys (r & a & k & V & R & A & K) Hy (yr & ya & yk & L0 & L1 & L2 & L3 & HV & F1 & F2 & F3)].
      - exists [], [], []. repeat (split; [reflexivity|]). split; [intros [|i]; discriminate|]. repeat split; constructor.
      - exists (r :: yr), (a :: ya), (k :: yk). cbn [length]. repeat (split; [lia|]). split; [|repeat split; constructor; assumption].
        intros [|i] dm' b0 b1 b2 b3; cbn [nth_error]; [intros; congruence|apply HV]. }
    destruct X as (yr & ya & yk & L0 & L1 & L2 & L3 & HR & F1 & F2 & F3).
    pose proof (l2g_rel c fin Hc dms ys yr ya yk n d v L0 L1 L2 L3 HR HV) as A.
    assert (S : forall (fc : dcontrib -> contrib) zs, (forall ct, fst (fc ct) = fst ct) -> Forall2 (fun dm y => lv_box y = g_ghost dm /\ forall q d, lv_val y q d = Lsum (hits q d) (map fc (DC dm))) dms zs ->
      local_to_global_add dms zs zeros n d = Lsum (fun dm => Lsum (fun ct => hitsw m per n d (fc ct)) (DC dm)) dms).
    { intros fc zs Hfc HF. rewrite (l2g_strong m per D dms HG HD (fun dm => map fc (DC dm)) zs); [|intros dm Hin; destruct (HC dm Hin) as [_ C2]; rewrite Forall_forall in *; intros ct Hct; apply in_map_iff in Hct as (c0 & <- & Hc0); rewrite Hfc; apply C2, Hc0|exact HF].
      apply Lsum_ext. intros dm _. apply Lsum_map. }
    rewrite (S cr yr), (S ca ya), (S ck yk) in A by (try reflexivity; assumption). exact A.
  Qed.
End Spread.
Close Scope R_scope.
