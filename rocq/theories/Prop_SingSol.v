(** C60: what [add_singularity_to_last_sol] adds to the solution. *)
From Coq Require Import Permutation.
From Coquelicot Require Import Coquelicot.
From Verif Require Import Base M_Geometry S_Geometry P_Geometry M_Particle S_Particle P_Particle M_Quadrature S_Fem M_MatElem P_MatElem P_Energy M_Mesh M_Operator S_Operator P_Mesh P_Operator P_Operator3 P_Global Prop_Operator Prop_Operator2 M_Bc M_Shapes S_Shapes P_Shapes M_ParticleOp S_ParticleOp P_ParticleOp P_Forces Prop_ParticleOp M_Vec Prop_Vec M_Truncation Prop_Truncation M_SingNormal M_SingTang M_SingWrap M_Singularity Prop_Singularity M_AddSing S_AddSing P_AddSing Prop_AddSing Prop_SingNormal Prop_SingBox.
Open Scope R_scope.

(** Value at the offset x of the cell e of the hat function of the node n: the shape function of the corner of e that is n, 0 when e does not touch n. *)
Definition hat (h : vec) (n e : list Z) (x : vec) : R := Rsum (2 ^ length n) (fun k => when (same_node (corner e k) n) (shape h x k)).

Lemma owner_unique m per dof dms dm dm' n : distributes m per dof dms -> In dm dms -> In dm' dms -> in_grid_box (g_own dm) n -> in_grid_box (g_own dm') n -> dm' = dm.
Proof.
  intros [HV HT] Hin Hin' Hn Hn'. apply In_nth_error in Hin as [k Hk]. apply In_nth_error in Hin' as [k' Hk'].
  assert (Lk : (k < length dms)%nat) by (apply nth_error_Some; congruence). assert (Lk' : (k' < length dms)%nat) by (apply nth_error_Some; congruence).
  assert (E : nth k (map g_own dms) (nodes_box m) = g_own dm). { rewrite (nth_indep _ _ (g_own dm)) by (rewrite map_length; exact Lk). rewrite map_nth, (nth_error_nth _ _ _ Hk). reflexivity. }
  assert (E' : nth k' (map g_own dms) (nodes_box m) = g_own dm'). { rewrite (nth_indep _ _ (g_own dm')) by (rewrite map_length; exact Lk'). rewrite map_nth, (nth_error_nth _ _ _ Hk'). reflexivity. }
  destruct (HT n) as [H1 H2]. assert (Hin : in_grid_box (nodes_box m) n) by (apply (H2 k); [rewrite map_length; exact Lk|rewrite E; exact Hn]).
  destruct (H1 Hin) as (j & _ & _ & U). assert (k = j) by (apply U; [rewrite map_length; exact Lk|rewrite E; exact Hn]). assert (k' = j) by (apply U; [rewrite map_length; exact Lk'|rewrite E'; exact Hn']). congruence.
Qed.
Lemma own_dim m per dof dm : view_ok m per dof dm -> has_dim (length m) (g_own dm).
Proof. intros (V1 & V2 & V3 & V4 & V5 & V6 & _). assert (L1 := Forall2_len _ _ _ V4). assert (L2 := Forall2_len _ _ _ V6). rewrite map_length in L1. split; lia. Qed.
Lemma point_inside_own m per dof dm n : view_ok m per dof dm -> length n = length m -> (point_inside Z.ltb (g_own dm) n = true <-> in_grid_box (g_own dm) n).
Proof. intros V Hn. apply (point_inside_grid (length m)); [apply (own_dim m per dof), V|exact Hn]. Qed.
Lemma insert_value m per dof dms ys sol dm n d (V : dmda -> R) : distributes m per dof dms -> In dm dms -> in_grid_box (g_own dm) n ->
  Forall2 (fun dm y => lv_val y n d = V dm) dms ys -> local_to_global_insert dms ys sol n d = V dm.
Proof.
  intros HD Hin Hn HF. unfold local_to_global_insert.
  assert (Ln : forall dm', In dm' dms -> length n = length m). { intros dm' Hi. destruct HD as [HV _]. rewrite Forall_forall in HV. destruct (own_dim _ _ _ _ (HV dm Hin)) as [L _]. destruct Hn as [Q _]. apply Forall2_len in Q. lia. }
  assert (K : forall l ys acc, (forall x, In x l -> In x dms) -> Forall2 (fun dm y => lv_val y n d = V dm) l ys -> (acc = V dm \/ In dm l) ->
    fold_left (fun acc (dl : dmda * lvec) => if point_inside Z.ltb (g_own (fst dl)) n then lv_val (snd dl) n d else acc) (combine l ys) acc = V dm).
  { induction l as [|a l IH]; intros ys' acc HI HF' Ha; inversion HF'; subst; cbn [combine fold_left fst snd]; [destruct Ha as [Ha|[]]; exact Ha|].
    apply IH; [intros; apply HI; right; assumption|assumption|]. assert (Hia : In a dms) by (apply HI; left; reflexivity).
    destruct HD as [HV HT]. pose proof HV as HV'. rewrite Forall_forall in HV'. destruct (point_inside Z.ltb (g_own a) n) eqn:E.
    - left. apply (point_inside_own m per dof a n (HV' a Hia) (Ln a Hia)) in E. rewrite H1. f_equal. apply (owner_unique m per dof dms dm a n (conj HV HT)); assumption.
    - destruct Ha as [Ha|[->|Ha]]; [left; exact Ha| |right; exact Ha]. apply (point_inside_own m per dof dm n (HV' dm Hin) (Ln dm Hin)) in Hn. congruence. }
  apply K; auto.
Qed.
Lemma adc_hits h e x n d u p : length n = 2%nat -> length h = 2%nat -> length x = 2%nat -> length e = 2%nat -> Forall (fun s => 0 < s) h -> (d < 2)%nat ->
  Lsum (hits n d) (adc sing_scale u h e x p) = 1 / 100 * hat h n e x * co d (u p).
Proof.
  intros Hn Hh Hx He HP Hd. unfold adc, hat. rewrite Hn. rewrite (P1_shape 2) by auto. rewrite map_length, seq_length, Lsum_flat_map, Lsum_seq. rewrite Rmult_assoc, (Rmult_comm (Rsum _ _)), <- Rmult_assoc, <- Rsum_scal. apply Rsum_ext. intros k Hk.
  rewrite Lsum_map, Lsum_seq. unfold hits. cbn [fst snd]. rewrite (get_element_corner e k) by (rewrite He; auto). rewrite nth_map_seq by exact Hk. replace (IZR (sing_scale ^ 2)) with 100 by reflexivity. fold (co d (u p)).
  destruct (same_node (corner e k) n); cbn [andb when].
  - rewrite <- (Rsum_pick 2 d (fun c => 1 / 100 * co d (u p) * shape h x k) Hd). apply Rsum_ext. intros c _. rewrite (Nat.eqb_sym c d). destruct (Nat.eqb_spec d c) as [->|]; [reflexivity|ring].
  - rewrite Rmult_0_r. apply Rsum_zero.
Qed.

(** The call succeeds; at a node n of a process, the solution gains the average, over the points kept of the cells of that process, of the singular velocity weighted with the hat function of n. *)
Theorem C60_added : forall m per h dms parts sol, grid_ok m per -> length m = 2%nat -> distributes m per 2 dms -> steps_ok h m -> parts <> [] ->
  exists sol', add_singularity_to_last_sol h parts dms sol = Ok sol' /\
  forall dm n d E S, In dm dms -> in_grid_box (g_own dm) n -> (d < 2)%nat -> enumerates E (get_DM_bounds dm true) -> enumerates S (sub_box 2 sing_scale) ->
    sol' n d = sol n d + singular_sum 2 h parts E S (fun s e x X => 1 / 100 * hat h n e x * co d (get_u_sing s X)).
Proof.
  intros m per h dms parts sol HG Hm HD HS Hne. assert (Hh : length h = 2%nat) by (rewrite <- Hm; apply HS).
  set (C := fun p1 p2 => let s := sing_of 2 h p1 p2 in cellc 2 sing_scale (kept 2 s p1 p2) h (adc sing_scale (get_u_sing s) h)).
  set (CS := fun dm => flat_map (fun p : spart * spart => pairc 2 h C dm (fst p) (snd p)) (couples parts)).
  destruct (on_all_ok (fun dm => over_pairs 2 h parts dm (fun s p1 p2 b y => addsingularity sing_scale (kept 2 s p1 p2) (get_u_sing s) b h y) (global_to_local dm sol))
    (fun dm y => forall q d, lv_val y q d = lv_val (global_to_local dm sol) q d + Lsum (hits q d) (CS dm)) dms) as (ys & Ey & Hy).
  { intros dm Hin. rewrite (over_pairs_runs 2 m per h dms parts HG HD Hm C dm); [|exact Hin|exact Hne|intros p1 p2 b y Hb; apply addsingularity_runs, Hb].
    destruct (runs1_ok (CS dm) (global_to_local dm sol)) as (y' & R1 & _ & _ & R4).
    { rewrite Forall_forall. intros ct Hct. cbn [global_to_local lv_box]. apply (point_inside_iff m per 2 dms HG HD dm); [exact Hin|]. destruct (pairs_cells 2 m per h dms parts HG HD Hm C dm ct Hin Hct) as (p1 & p2 & e & He & H).
      apply (near_ghost 2 m per dms HG HD dm e); [exact Hin|exact He|]. unfold C, cellc in H. apply in_flat_map in H as [sub [Hs H]]. destruct (kept _ _ _ _ _); [|destruct H]. apply in_sub_len in Hs. rewrite loc_offset in H by lia.
      eapply adc_near; [exact Hh| | |exact H]; [rewrite sub_offset_len; lia|]. destruct (bounds_dim 2 m per dms HG HD Hm dm Hin) as [Hb _]. destruct He as [He _]. apply Forall2_len in He. lia. }
    exists y'. split; [exact R1|exact R4]. }
  eexists. split. { unfold add_singularity_to_last_sol. rewrite Ey. reflexivity. }
  intros dm n d E S Hin Hn Hd HE HSS.
  assert (Ln : length n = 2%nat). { destruct HD as [HV _]. rewrite Forall_forall in HV. destruct (own_dim _ _ _ _ (HV dm Hin)) as [L _]. destruct Hn as [Q _]. apply Forall2_len in Q. lia. }
  rewrite (insert_value m per 2 dms ys sol dm n d (fun dm => lv_val (global_to_local dm sol) n d + Lsum (hits n d) (CS dm)) HD Hin Hn).
  2: { clear - Hy. induction Hy; constructor; auto. }
  assert (HN : in_grid_box (nodes_box m) n). { destruct HD as [HV HT]. destruct (HT n) as [_ H2]. apply In_nth_error in Hin as [k Hk]. assert (Lk : (k < length dms)%nat) by (apply nth_error_Some; congruence).
    apply (H2 k); [rewrite map_length; exact Lk|]. rewrite (nth_indep _ _ (g_own dm)) by (rewrite map_length; exact Lk). rewrite map_nth, (nth_error_nth _ _ _ Hk). exact Hn. }
  f_equal.
  - cbn [global_to_local lv_val]. destruct HD as [HV _]. rewrite Forall_forall in HV. destruct (HV dm Hin) as (V1 & V2 & _). rewrite V1, V2, wrap_id; auto. apply HG.
  - unfold CS, singular_sum. rewrite Lsum_flat_map. apply Lsum_ext. intros [p1 p2] _. cbn [fst snd]. cbv zeta. unfold pairc. set (s := sing_of 2 h p1 p2). unfold when at 1. destruct (s_is s); [|reflexivity].
    pose proof (bounds_dim 2 m per dms HG HD Hm dm Hin) as HB. rewrite Lsum_flat_map, (Lsum_cut 2) by (exact HB || apply get_box_dim). rewrite (Lsum_perm _ _ _ (enum_perm _ _ _ (grid_pts_enum 2 _ HB) HE)). apply Lsum_ext. intros e He. unfold when at 1 2. destruct (in_box (get_box 2 s h) e); [|reflexivity].
    assert (Le : length e = 2%nat). { apply HE in He as [He _]. apply Forall2_len in He. destruct HB as [HB _]. lia. }
    unfold C, cellc. rewrite Lsum_flat_map. assert (HB2 : has_dim 2 (sub_box 2 sing_scale)) by (split; reflexivity). rewrite (Lsum_perm _ _ _ (enum_perm _ _ _ (grid_pts_enum 2 _ HB2) HSS)). apply Lsum_ext. intros sub Hsub.
    assert (Ls : length sub = 2%nat). { apply HSS in Hsub as [Hsub _]. apply Forall2_len in Hsub. cbn [sub_box bottom_left] in Hsub. rewrite repeat_length in Hsub. lia. }
    rewrite pnt_position, loc_offset by lia. fold s. unfold when. destruct (kept 2 s p1 p2 _); [|reflexivity]. apply adc_hits; auto; [rewrite sub_offset_len; lia|apply HS].
Qed.

(** The weights of a node sum to 1 over the four cells that touch it: where all the points are kept the mean is that of the singular velocity. *)
Theorem C60_weights : forall h0 h1 i j E S, 0 < h0 -> 0 < h1 -> NoDup E -> (forall a b, In [i + a; j + b]%Z E <-> (-1 <= a <= 0 /\ -1 <= b <= 0)%Z) -> (forall e, In e E -> length e = 2%nat) -> enumerates S (sub_box 2 sing_scale) ->
  Lsum (fun e => Lsum (fun sub => 1 / 100 * hat [h0; h1] [i; j] e (sub_offset [h0; h1] sing_scale sub)) S) E = 1.
Proof.
  intros h0 h1 i j E S Hh0 Hh1 HN HE HL HS.
  assert (PE : Permutation E [[i + -1; j + -1]; [i + 0; j + -1]; [i + -1; j + 0]; [i + 0; j + 0]]%Z).
  { apply NoDup_Permutation; [exact HN| |].
    - repeat constructor; cbn [In]; intros H; repeat (destruct H as [H|H]; [injection H; lia|]); exact H.
    - intros e. split.
      + intros H. pose proof (HL e H) as Le. destruct e as [|a [|b [|]]]; try discriminate. replace a with (i + (a - i))%Z in * by lia. replace b with (j + (b - j))%Z in * by lia. apply HE in H as [H1 H2].
        assert (A : (a - i = -1 \/ a - i = 0)%Z) by lia. assert (B : (b - j = -1 \/ b - j = 0)%Z) by lia. cbn [In]. destruct A as [-> | ->], B as [-> | ->]; auto.
      + cbn [In]. intros [<-|[<-|[<-|[<-|[]]]]]; apply HE; lia. }
  rewrite (Lsum_perm _ _ _ PE). unfold Lsum at 1. cbn [map fold_right].
  assert (HB : has_dim 2 (sub_box 2 sing_scale)) by (split; reflexivity). pose proof (enum_perm _ _ _ HS (grid_pts_enum 2 _ HB)) as PS. rewrite !(Lsum_perm _ _ _ PS).
  assert (HH : forall (a b : Z) k, (a = -1 \/ a = 0)%Z -> (b = -1 \/ b = 0)%Z -> k = ((if (a =? 0)%Z then 0 else 1) + (if (b =? 0)%Z then 0 else 2))%nat ->
    forall sub, hat [h0; h1] [i; j] [i + a; j + b]%Z (sub_offset [h0; h1] sing_scale sub) = shape [h0; h1] (sub_offset [h0; h1] sing_scale sub) k).
  { intros a b k Ha Hb -> sub. unfold hat. cbn [length Nat.pow Nat.mul Nat.add]. cbn [Rsum]. unfold same_node, corner. cbn [length seq zip_with].
    destruct Ha as [-> | ->], Hb as [-> | ->]; repeat match goal with |- context [Z.of_nat ?t] => let v := eval vm_compute in (Z.of_nat t) in change (Z.of_nat t) with v end;
      repeat match goal with |- context [list_eq_dec Z.eq_dec ?p ?q] => let Q := fresh in destruct (list_eq_dec Z.eq_dec p q) as [Q|Q]; [try (exfalso; injection Q; intros; lia)|try (exfalso; apply Q; apply f_equal2; [lia|apply f_equal2; [lia|reflexivity]])] end; unfold when; cbn [Z.eqb Nat.add]; ring. }
  rewrite <- !Lsum_scal || idtac.
  transitivity (Lsum (fun sub => 1 / 100 * Rsum 4 (shape [h0; h1] (sub_offset [h0; h1] sing_scale sub))) (grid_pts (sub_box 2 sing_scale))).
  - cbn [Rsum]. rewrite Rplus_0_r. rewrite <- !Lsum_plus. apply Lsum_ext. intros sub _.
    rewrite (HH (-1)%Z (-1)%Z 3%nat), (HH 0%Z (-1)%Z 2%nat), (HH (-1)%Z 0%Z 1%nat), (HH 0%Z 0%Z 0%nat) by (auto; reflexivity). ring.
  - rewrite (Lsum_ext _ (fun _ => 1 / 100)).
    + rewrite Lsum_const. rewrite (sub_count 2) by (auto; apply (grid_pts_enum 2 _ HB)). field.
    + intros sub Hs. change 4%nat with (2 ^ 2)%nat. rewrite (shape_sum 2); [ring|auto|reflexivity|rewrite sub_offset_len; [reflexivity|apply (in_sub_len 2 sing_scale), Hs]].
Qed.

(** ** Several processes: the part of the average that comes from the cells of another process is lost *)
Definition far_disc (x : R) (v : vec) : spart := mkspart [x; 0] v 100 (fun p => contains2 (circle_make (x, 0) 100 quat_default) (nth 0 p 0, nth 1 p 0)).
Definition left_disc : spart := far_disc (3 / 2 - 1 / 2000 - 100) [1; 0].
Definition right_disc : spart := far_disc (3 / 2 + 1 / 2000 + 100) [0; 0].
Definition far_sing : sing := sing_of 2 [1; 1] left_disc right_disc.
Lemma far_facts : s_is far_sing = true /\ s_base far_sing = [[1; 0]; [0; 1]] /\ s_origin far_sing = [3 / 2 - 1 / 2000; 0] /\ s_contact far_sing = 1 / 1000 /\ s_UN far_sing = -1 /\ s_H1 far_sing = 1 / 100 /\ s_H2 far_sing = 1 / 100 /\
  sqrt 2 <= s_cutoff far_sing /\ 1 <= s_param far_sing.
Proof.
  assert (Dd : distance [3 / 2 - 1 / 2000 - 100; 0] [3 / 2 + 1 / 2000 + 100; 0] = 200 + 1 / 1000).
  { unfold distance, position_diff. cbn [zip_with fold_left]. replace (_ + _) with ((200 + 1 / 1000) * (200 + 1 / 1000)) by field. apply sqrt_square. lra. }
  pose proof (base2 (3 / 2 - 1 / 2000 - 100) 0 (3 / 2 + 1 / 2000 + 100) 0 1 0 0 0 100 100 1 4) as (B & O & C & U & _). rewrite Dd in *.
  destruct (C36_cutoff 2 [3 / 2 - 1 / 2000 - 100; 0] [3 / 2 + 1 / 2000 + 100; 0] [1; 0] [0; 0] 100 100 1 4) as (Cu1 & _ & _ & Cu2 & _); [lra..|].
  change (make_sing 2 [3 / 2 - 1 / 2000 - 100; 0] [3 / 2 + 1 / 2000 + 100; 0] [1; 0] [0; 0] 100 100 1 4) with far_sing in *.
  assert (Q : sqrt 2 * sqrt 2 = 2) by (apply sqrt_sqrt; lra). pose proof (sqrt_pos 2) as Q0.
  split; [|split; [rewrite B|split; [rewrite O|split; [rewrite C|split; [rewrite U|split; [reflexivity|split; [reflexivity|]]]]]]].
  - change (s_is far_sing) with (Rltb (s_contact far_sing) 1). rewrite C. destruct (Rltb_spec (200 + 1 / 1000 - 100 - 100) 1); [reflexivity|lra].
  - apply f_equal2; [|apply f_equal2; [|reflexivity]]; (apply f_equal2; [|apply f_equal2; [|reflexivity]]; field).
  - apply f_equal2; [|apply f_equal2; [|reflexivity]]; field.
  - field.
  - field.
  - split; [lra|]. assert (sqrt 2 * sqrt 2 <= s_cutoff far_sing * s_cutoff far_sing) by (apply Rmult_le_compat; lra). lra.
Qed.
Lemma far_u a b : let X := [3 / 2; b] in a = 1 / 1000 -> 0 <= b <= 1 -> co 1 (get_u_sing far_sing X) = 12 * ((b * b / 100 + a) * (b * b / 100 + a)) * b / ((2 * a + b * b / 50) * (2 * a + b * b / 50) * (2 * a + b * b / 50)) * chiTrunc b (s_param far_sing) (s_param far_sing).
Proof.
  intros X Ha Hb. destruct far_facts as (_ & B & O & C & U & H1 & H2 & _). unfold get_u_sing, get_u_sing_ref, get_pos_in_part_ref. rewrite B, O. unfold co, X. cbn [length Nat.eqb seq map fold_left nth zip_with inner_product combine fst snd].
  unfold inner_product. cbn [combine fold_left fst snd].
  unfold uz_sing_normalMvt2D, ux_sing_normalMvt2D. cbn [nth]. set (ux := ux_sing_normalMvt2D_body _ _ _ _ _ _ _ _ _). unfold uz_sing_normalMvt2D_body. cbv zeta. rewrite C, U, H1, H2.
  replace (0 + (3 / 2 - (3 / 2 - 1 / 2000)) * 0 + (b - 0) * 1) with b by ring. replace (0 + (3 / 2 - (3 / 2 - 1 / 2000)) * 1 + (b - 0) * 0) with (a / 2) by (rewrite Ha; field). rewrite <- Ha. set (c := chiTrunc b _ _).
  assert (0 < 2 * a + b * b / 50) by (pose proof (sq_nn b); lra). field. split; lra.
Qed.
Lemma far_inside i j : (0 <= i < 10)%Z -> (0 <= j < 10)%Z -> i <> 5%Z -> kept 2 far_sing left_disc right_disc (position_in [1; 1] [1; 0]%Z (sub_offset [1; 1] sing_scale [i; j])) = false.
Proof.
  intros Hi Hj Hne. apply not_true_iff_false. rewrite C51_points_kept. intros (K1 & K2 & _). unfold left_disc, right_disc, far_disc in K1, K2. cbn [sp_contains] in K1, K2. unfold position_in, sub_offset, grid_point, sing_scale in K1, K2. cbn [zip_with nth] in K1, K2.
  apply not_true_iff_false in K1. apply not_true_iff_false in K2. rewrite circle_contains in K1, K2 by lra. cbn [fst snd] in K1, K2.
  assert (Bj : 0 <= IZR j <= 9) by (split; apply IZR_le; lia).
  destruct (Z.lt_ge_cases i 5) as [L|L].
  - apply K1. assert (Bi : 0 <= IZR i <= 4) by (split; apply IZR_le; lia). nra.
  - apply K2. assert (Bi : 6 <= IZR i <= 9) by (split; apply IZR_le; lia). nra.
Qed.
Lemma far_mid j : (0 <= j < 10)%Z -> position_in [1; 1] [1; 0]%Z (sub_offset [1; 1] sing_scale [5; j]%Z) = [3 / 2; IZR j / 10].
Proof. intros Hj. unfold position_in, sub_offset, grid_point, sing_scale. cbn [zip_with]. apply f_equal2; [field|apply f_equal2; [field|reflexivity]]. Qed.
Definition far_term (e sub : list Z) : R := let x := sub_offset [1; 1] sing_scale sub in
  when (kept 2 far_sing left_disc right_disc (position_in [1; 1] e x)) (1 / 100 * hat [1; 1] [2; 0]%Z e x * co 1 (get_u_sing far_sing (position_in [1; 1] e x))).
Lemma far_hat x y e : In e [[0; 0]; [1; 0]; [0; 1]; [1; 1]]%Z -> hat [1; 1] [2; 0]%Z e [x; y] = if list_eq_dec Z.eq_dec e [1; 0]%Z then x * (1 - y) else 0.
Proof.
  intros H. unfold hat, shape. cbn [length Nat.pow Nat.mul Nat.add Rsum seq zip_with fold_right].
  repeat match goal with |- context [Nat.odd ?t] => let v := eval vm_compute in (Nat.odd t) in change (Nat.odd t) with v end; cbv iota.
  destruct H as [<-|[<-|[<-|[<-|[]]]]]; repeat match goal with |- context [same_node ?p ?q] => let v := eval vm_compute in (same_node p q) in change (same_node p q) with v end; cbn [when]; match goal with |- context [list_eq_dec Z.eq_dec ?p ?q] => destruct (list_eq_dec Z.eq_dec p q) as [Q|Q]; try discriminate; try congruence end; unfold when; field.
Qed.
Lemma far_nonneg e sub : In e [[0; 0]; [1; 0]; [0; 1]; [1; 1]]%Z -> in_grid_box (sub_box 2 sing_scale) sub -> 0 <= far_term e sub.
Proof.
  intros He Hs. unfold far_term. cbv zeta. destruct (Forall2_len _ _ _ (proj1 Hs)). destruct sub as [|i [|j [|? ?]]]; try (apply proj1, Forall2_len in Hs; discriminate Hs).
  assert (Hi : (0 <= i < 10)%Z /\ (0 <= j < 10)%Z). { destruct Hs as [S1 S2]. inversion S1 as [|? ? ? ? A1 S1']; subst. inversion S1' as [|? ? ? ? A2 _]; subst. inversion S2 as [|? ? ? ? A3 S2']; subst. inversion S2' as [|? ? ? ? A4 _]; subst. unfold sing_scale in *. lia. }
  destruct Hi as [Hi Hj]. change (sub_offset [1; 1] sing_scale [i; j]) with [IZR i * (1 / IZR sing_scale); IZR j * (1 / IZR sing_scale)] at 2. rewrite far_hat by exact He.
  destruct (list_eq_dec Z.eq_dec e [1; 0]%Z) as [->|]; [|unfold when; destruct (kept _ _ _ _ _); [lra|lra]].
  destruct (Z.eq_dec i 5) as [->|Hne]; [|rewrite far_inside by assumption; cbn [when]; lra].
  rewrite far_mid by exact Hj. unfold when. destruct (kept _ _ _ _ _); [|lra]. assert (Bj : 0 <= IZR j <= 9) by (split; apply IZR_le; lia).
  rewrite (far_u (1 / 1000) (IZR j / 10) eq_refl) by lra. set (b := IZR j / 10). assert (Bb : 0 <= b <= 9 / 10) by (unfold b; lra).
  destruct far_facts as (_ & _ & _ & _ & _ & _ & _ & _ & HP). destruct (C35_cutoff (s_param far_sing)) as (_ & _ & _ & _ & Chi & _); [lra|]. specialize (Chi b).
  assert (P : 0 < 2 * (1 / 1000) + b * b / 50) by (pose proof (sq_nn b); lra).
  assert (P3 : 0 < (2 * (1 / 1000) + b * b / 50) * (2 * (1 / 1000) + b * b / 50) * (2 * (1 / 1000) + b * b / 50)) by (repeat apply Rmult_lt_0_compat; exact P).
  apply Rmult_le_pos.
  - apply Rmult_le_pos; [lra|]. apply Rmult_le_pos; [unfold sing_scale; lra|]. unfold b in Bb. unfold sing_scale. lra.
  - apply Rmult_le_pos; [|apply Chi]. apply Rmult_le_pos; [|left; apply Rinv_0_lt_compat, P3]. apply Rmult_le_pos; [|lra]. apply Rmult_le_pos; [lra|apply sq_nn].
Qed.
Lemma far_positive : 0 < far_term [1; 0]%Z [5; 1]%Z.
Proof.
  unfold far_term. cbv zeta. change (sub_offset [1; 1] sing_scale [5; 1]%Z) with [5 * (1 / IZR sing_scale); 1 * (1 / IZR sing_scale)] at 2. rewrite far_hat by (cbn; auto). destruct (list_eq_dec Z.eq_dec [1; 0]%Z [1; 0]%Z) as [_|Q]; [|congruence]. rewrite far_mid by lia.
  destruct far_facts as (_ & B & O & _ & _ & _ & _ & HC & HP). assert (HK : kept 2 far_sing left_disc right_disc [3 / 2; 1 / 10] = true).
  { apply C51_points_kept. unfold left_disc, right_disc, far_disc. cbn [sp_contains nth]. split; [|split].
    - apply not_true_iff_false. rewrite circle_contains by lra. cbn [fst snd]. lra.
    - apply not_true_iff_false. rewrite circle_contains by lra. cbn [fst snd]. lra.
    - intros _. match goal with |- Rabs ?t <= _ => replace t with (1 / 10) end; [rewrite Rabs_pos_eq by lra; assert (1 < sqrt 2) by (rewrite <- sqrt_1 at 1; apply sqrt_lt_1; lra); lra|].
      unfold get_pos_in_part_ref. rewrite B, O. unfold inner_product. cbn [map nth zip_with combine fold_left fst snd]. ring. }
  rewrite HK. cbn [when]. rewrite (far_u (1 / 1000) (1 / 10) eq_refl) by lra.
  assert (Chi : 1 / 2 <= chiTrunc (1 / 10) (s_param far_sing) (s_param far_sing)).
  { destruct (C35_cutoff (s_param far_sing)) as (_ & _ & _ & _ & _ & Mono); [lra|]. set (l := s_param far_sing) in *.
    apply Rle_trans with (chiTrunc (sqrt l) l l); [|apply Mono; rewrite sqrt_sqrt; lra]. unfold chiTrunc, trunc_select. rewrite sqrt_sqrt by lra. replace ((l - l) / l) with 0 by (field; lra). rewrite (proj1 C35_alpha_step).
    destruct (Rltb_spec 0 0); [lra|]. unfold chained. replace (l - l) with 0 by ring. repeat match goal with |- context [Rleb ?a ?b] => destruct (Rleb_spec a b); try lra | |- context [Rltb ?a ?b] => destruct (Rltb_spec a b); try lra end; cbn [andb]; lra. }
  apply Rmult_lt_0_compat; [unfold sing_scale; lra|]. apply Rmult_lt_0_compat; lra.
Qed.
Definition one_dms : list dmda := map fst (createMesh [2; 2]%Z [false; false] [[2]; [2]]%Z).
Definition two_dms : list dmda := map fst (createMesh [2; 2]%Z [false; false] [[1; 1]; [2]]%Z).
Example far_grid : grid_ok [3; 3]%Z [false; false] /\ distributes [3; 3]%Z [false; false] 2 one_dms /\ distributes [3; 3]%Z [false; false] 2 two_dms /\ steps_ok [1; 1] [3; 3]%Z /\ length one_dms = 1%nat /\ length two_dms = 2%nat.
Proof.
  split; [repeat split; simpl; auto; repeat constructor; lia|].
  assert (RO : ranges_ok (mesh_pres [2; 2]%Z [false; false]) [[2]; [2]]%Z) by (repeat constructor; simpl; try lia; try discriminate).
  assert (RO2 : ranges_ok (mesh_pres [2; 2]%Z [false; false]) [[1; 1]; [2]]%Z) by (repeat constructor; simpl; try lia; try discriminate).
  split; [apply (C28_createMesh_layout [2; 2]%Z [false; false] [[2]; [2]]%Z eq_refl RO)|]. split; [apply (C28_createMesh_layout [2; 2]%Z [false; false] [[1; 1]; [2]]%Z eq_refl RO2)|].
  split; [|split; reflexivity]. split; [reflexivity|]. repeat (constructor; [lra|]). constructor.
Qed.
(** Same grid, same particles, same solution: cut in two processes, the node [2; 0] does not get the average it gets on one. *)
Theorem C60_several_processes_refuted : forall sol, exists s1 s2,
  add_singularity_to_last_sol [1; 1] [left_disc; right_disc] one_dms sol = Ok s1 /\ add_singularity_to_last_sol [1; 1] [left_disc; right_disc] two_dms sol = Ok s2 /\
  s2 [2; 0]%Z 1%nat = sol [2; 0]%Z 1%nat /\ sol [2; 0]%Z 1%nat < s1 [2; 0]%Z 1%nat.
Proof.
  intros sol. destruct far_grid as (HG & HD1 & HD2 & HS & _).
  destruct (C60_added [3; 3]%Z [false; false] [1; 1] one_dms [left_disc; right_disc] sol HG eq_refl HD1 HS) as (s1 & E1 & V1); [discriminate|].
  destruct (C60_added [3; 3]%Z [false; false] [1; 1] two_dms [left_disc; right_disc] sol HG eq_refl HD2 HS) as (s2 & E2 & V2); [discriminate|].
  exists s1, s2. split; [exact E1|]. split; [exact E2|].
  assert (HB : has_dim 2 (sub_box 2 sing_scale)) by (split; reflexivity). pose proof (grid_pts_enum 2 _ HB) as HSS.
  assert (GB : forall b, has_dim 2 b -> forall x y, (nth 0 (bottom_left b) 0 <= x < nth 0 (upper_right b) 0)%Z -> (nth 1 (bottom_left b) 0 <= y < nth 1 (upper_right b) 0)%Z -> in_grid_box b [x; y]).
  { intros [lo up] [L1 L2] x y Hx Hy. cbn [bottom_left upper_right] in *. destruct lo as [|a [|b [|]]]; try discriminate. destruct up as [|c [|d [|]]]; try discriminate. cbn [nth] in *. split; repeat constructor; cbn; lia. }
  split.
  - set (dm := nth 1 two_dms (mkdmda [] [] (mkbox [] []) (mkbox [] []) 0)).
    assert (EB : get_DM_bounds dm true = mkbox [2; 0]%Z [2; 2]%Z) by (vm_compute; reflexivity).
    rewrite (V2 dm [2; 0]%Z 1%nat [] (grid_pts (sub_box 2 sing_scale))); [| | | |rewrite EB|exact HSS].
    + unfold singular_sum. match goal with |- _ + ?t = _ => replace t with 0; [ring|] end. symmetry. apply Lsum_all_zero. intros p _. cbv zeta. unfold when. destruct (s_is _); reflexivity.
    + unfold dm, two_dms. vm_compute. auto.
    + apply GB; [split; reflexivity|vm_compute; split; congruence|vm_compute; split; congruence].
    + lia.
    + split; [constructor|]. intros p. split; [intros []|]. intros [A B]. cbn [bottom_left upper_right] in A, B. inversion A; subst. inversion B; subst. lia.
  - set (dm := nth 0 one_dms (mkdmda [] [] (mkbox [] []) (mkbox [] []) 0)). set (E := [[0; 0]; [1; 0]; [0; 1]; [1; 1]]%Z).
    assert (EB : get_DM_bounds dm true = mkbox [0; 0]%Z [2; 2]%Z) by (vm_compute; reflexivity).
    rewrite (V1 dm [2; 0]%Z 1%nat E (grid_pts (sub_box 2 sing_scale))); [| | | |rewrite EB|exact HSS].
    + assert (EQ : singular_sum 2 [1; 1] [left_disc; right_disc] E (grid_pts (sub_box 2 sing_scale)) (fun s e x X => 1 / 100 * hat [1; 1] [2; 0]%Z e x * co 1 (get_u_sing s X))
        = Lsum (fun e => when (in_box (get_box 2 far_sing [1; 1]) e) (Lsum (far_term e) (grid_pts (sub_box 2 sing_scale)))) E).
      { unfold singular_sum. cbn [couples map app]. rewrite Lsum_cons. cbn [fst snd]. cbv zeta. fold far_sing. rewrite (proj1 far_facts). cbn [when]. change (Lsum _ []) with 0. rewrite Rplus_0_r. reflexivity. }
      rewrite EQ. apply Rminus_lt_0. match goal with |- 0 < ?t => ring_simplify t end.
      assert (NN : forall e, In e E -> 0 <= when (in_box (get_box 2 far_sing [1; 1]) e) (Lsum (far_term e) (grid_pts (sub_box 2 sing_scale)))).
      { intros e He. unfold when. destruct (in_box _ e); [|lra]. apply Lsum_nonneg. intros sub Hsub. apply far_nonneg; [exact He|]. apply HSS, Hsub. }
      destruct (Rle_lt_or_eq_dec _ _ (Lsum_nonneg _ _ NN)) as [L|Z0]; [exact L|exfalso].
      pose proof (Lsum_nonneg_0 _ _ NN (eq_sym Z0) [1; 0]%Z) as Q. 
      assert (IB : in_box (get_box 2 far_sing [1; 1]) [1; 0]%Z = true).
      { apply in_box_iff. destruct far_facts as (_ & _ & _ & _ & _ & _ & _ & HC & _).
        refine (C62_box_covers_gap_2d (3 / 2 - 1 / 2000 - 100) 0 (3 / 2 + 1 / 2000 + 100) 0 [1; 0] [0; 0] 100 100 1 1 _ _ 1 0 (3 / 2, 1 / 2) _ eq_refl eq_refl _ _ _ _ _ _ _); try lra.
        - intros H. injection H. lra.
        - rewrite Rmin_left by lra. pose proof (sqrt_pos 2). assert (sqrt 2 <= sqrt (2 * 2)) by (apply sqrt_le_1; lra). rewrite sqrt_square in H0 by lra. lra.
        - unfold in_gap. cbn [fst snd]. cbv zeta. replace ((_ - _) * (_ - _) + (0 - 0) * (0 - 0)) with ((200 + 1 / 1000) * (200 + 1 / 1000)) by field. rewrite sqrt_square by lra.
          assert (1 <= sqrt 2) by (rewrite <- sqrt_1 at 1; apply sqrt_le_1; lra). split; [lra|]. split; [|lra]. rewrite Rabs_pos_eq by lra. 
          replace (_ - _) with (1 / 2 * (200 + 1 / 1000)) by field. apply Rmult_le_compat_r; [lra|]. change (1 / 2 <= s_cutoff far_sing). lra.
        - unfold cell_interior. cbn [fst snd]. lra. }
      cbv beta in Q. rewrite IB in Q. cbn [when] in Q. assert (Q' : Lsum (far_term [1; 0]%Z) (grid_pts (sub_box 2 sing_scale)) = 0) by (apply Q; unfold E; cbn; auto).
      assert (Q2 : far_term [1; 0]%Z [5; 1]%Z = 0). { apply (Lsum_nonneg_0 _ _ (fun sub Hs => far_nonneg [1; 0]%Z sub (or_intror (or_introl eq_refl)) (proj1 (proj2 HSS sub) Hs)) Q'). apply HSS. apply GB; [exact HB|vm_compute; split; congruence|vm_compute; split; congruence]. }
      pose proof far_positive. lra.
    + unfold dm, one_dms. vm_compute. auto.
    + apply GB; [split; reflexivity|vm_compute; split; congruence|vm_compute; split; congruence].
    + lia.
    + split.
      * repeat constructor; cbn; intros H; repeat (destruct H as [H|H]; [discriminate H|]); exact H.
      * intros p. split; [intros [<-|[<-|[<-|[<-|[]]]]]; apply GB; try (split; reflexivity); cbn; lia|]. intros [A B]. cbn [bottom_left upper_right] in A, B.
        inversion A as [|? a ? ? A1 A2]; subst. inversion A2 as [|? b ? ? A3 A4]; subst. inversion A4; subst. inversion B as [|? ? ? ? B1 B2]; subst. inversion B2 as [|? ? ? ? B3 _]; subst.
        assert (a = 0 \/ a = 1)%Z as [-> | ->] by lia; assert (b = 0 \/ b = 1)%Z as [-> | ->] by lia; unfold E; cbn; auto.
Qed.
