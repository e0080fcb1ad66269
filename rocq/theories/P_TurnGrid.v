(** The grids under the similarities of S_Turn. *)
From Coq Require Import Permutation.
From Coquelicot Require Import Coquelicot.
From Verif Require Import Base M_Geometry S_Geometry P_Geometry M_Particle S_Particle P_Particle M_Quadrature S_Fem P_Energy M_MatElem P_MatElem M_Mesh M_Operator M_Bc S_Operator S_Bc P_Mesh P_Operator P_Operator2 P_Global P_Stokes P_Operator3.
From Verif Require Import P_Precond P_QuadTab P_Div.
From Verif Require Import S_Turn P_TurnTab.
Local Open Scope Z_scope.

(** ** one axis *)
Definition cnt (p : bool) (m : Z) : Z := if p then m else m - 1.
Definition cell1 (p f : bool) (m t e : Z) : Z := if p then (if f then (t - e - 1) mod m else (e + t) mod m) else if f then m - 2 - e else e.
Definition wrap1 (p : bool) (m a : Z) : Z := if p then a mod m else a.
Definition refine1 (p : bool) (m : Z) : Z := if p then 2 * m else 2 * m - 1.
Lemma turn1_in p f m t n : 0 <= n < m -> 0 <= turn1 p f m t n < m.
Proof. intros H. unfold turn1. destruct p, f; try lia; apply Z.mod_pos_bound; lia. Qed.
Lemma cell1_in p f m t n : 0 <= n < cnt p m -> 0 <= cell1 p f m t n < cnt p m.
Proof. unfold cnt, cell1. intros H. destruct p, f; try lia; apply Z.mod_pos_bound; lia. Qed.
Lemma mod_inj a b c m : 0 <= a < m -> 0 <= b < m -> (c + a) mod m = (c + b) mod m -> a = b.
Proof.
  intros Ha Hb E. assert (K : (a - b) mod m = 0). { replace (a - b) with ((c + a) - (c + b)) by lia. rewrite Zminus_mod, E, Z.sub_diag. apply Z.mod_0_l. lia. }
  apply Z.mod_divide in K; [|lia]. destruct K as [k K]. assert (k = 0) by nia. lia.
Qed.
Lemma mod_inj' a b c m : 0 <= a < m -> 0 <= b < m -> (c - a) mod m = (c - b) mod m -> a = b.
Proof.
  intros Ha Hb E. assert (K : (a - b) mod m = 0). { replace (a - b) with ((c - b) - (c - a)) by lia. rewrite Zminus_mod, E, Z.sub_diag. apply Z.mod_0_l. lia. }
  apply Z.mod_divide in K; [|lia]. destruct K as [k K]. assert (k = 0) by nia. lia.
Qed.
Lemma turn1_inj p f m t a b : 0 <= a < m -> 0 <= b < m -> turn1 p f m t a = turn1 p f m t b -> a = b.
Proof. unfold turn1. intros Ha Hb. destruct p, f; try lia; intros E; [eapply mod_inj'; eauto|]. rewrite !(Z.add_comm _ t) in E. eapply mod_inj; eauto. Qed.
Lemma cell1_inj p f m t a b : 0 <= a < cnt p m -> 0 <= b < cnt p m -> cell1 p f m t a = cell1 p f m t b -> a = b.
Proof.
  unfold cell1, cnt. intros Ha Hb. destruct p, f; try lia; intros E.
  - replace (t - a - 1) with (t - 1 - a) in E by lia. replace (t - b - 1) with (t - 1 - b) in E by lia. eapply mod_inj'; eauto.
  - rewrite !(Z.add_comm _ t) in E. eapply mod_inj; eauto.
Qed.
Lemma turn1_surj p f m t n' : 0 <= n' < m -> exists n, 0 <= n < m /\ turn1 p f m t n = n'.
Proof.
  intros H. unfold turn1. destruct p, f.
  - exists ((t - n') mod m). split; [apply Z.mod_pos_bound; lia|]. rewrite Zminus_mod_idemp_r. replace (t - (t - n')) with n' by lia. apply Z.mod_small, H.
  - exists ((n' - t) mod m). split; [apply Z.mod_pos_bound; lia|]. rewrite Zplus_mod_idemp_l. replace (n' - t + t) with n' by lia. apply Z.mod_small, H.
  - exists (m - 1 - n'). lia.
  - exists n'. lia.
Qed.
Lemma cell1_surj p f m t n' : 0 <= n' < cnt p m -> exists n, 0 <= n < cnt p m /\ cell1 p f m t n = n'.
Proof.
  intros H. unfold cell1, cnt in *. destruct p, f.
  - exists ((t - n' - 1) mod m). split; [apply Z.mod_pos_bound; lia|]. replace (t - (t - n' - 1) mod m - 1) with (t - 1 - (t - n' - 1) mod m) by lia. rewrite Zminus_mod_idemp_r. replace (t - 1 - (t - n' - 1)) with n' by lia. apply Z.mod_small, H.
  - exists ((n' - t) mod m). split; [apply Z.mod_pos_bound; lia|]. rewrite Zplus_mod_idemp_l. replace (n' - t + t) with n' by lia. apply Z.mod_small, H.
  - exists (m - 2 - n'). lia.
  - exists n'. lia.
Qed.
Lemma corner1 p f m t e b : (b < 2)%nat -> wrap1 p m (cell1 p f m t e + Z.of_nat (if f then 2 - 1 - b else b)) = turn1 p f m t (wrap1 p m (e + Z.of_nat b)).
Proof.
  intros Hb. unfold wrap1, cell1, turn1. destruct p, f; try lia.
  - rewrite Zplus_mod_idemp_l, Zminus_mod_idemp_r. f_equal. lia.
  - rewrite !Zplus_mod_idemp_l. f_equal. lia.
Qed.
Lemma corner31 p f m t e b : 1 <= m -> (b < 3)%nat -> wrap1 p (refine1 p m) (2 * cell1 p f m t e + Z.of_nat (if f then 3 - 1 - b else b)) = turn1 p f (refine1 p m) (2 * t) (wrap1 p (refine1 p m) (2 * e + Z.of_nat b)).
Proof.
  intros Hm Hb. unfold wrap1, cell1, turn1, refine1. destruct p, f; try lia.
  - rewrite <- Z.mul_mod_distr_l by lia. rewrite Zplus_mod_idemp_l, Zminus_mod_idemp_r. f_equal. lia.
  - rewrite <- Z.mul_mod_distr_l by lia. rewrite !Zplus_mod_idemp_l. f_equal. lia.
Qed.

(** ** the grid *)
Definition cturn (s : similarity) (m : list Z) (per : list bool) (e : list Z) : list Z :=
  map (fun i => cell1 (nth (nth i (ax s) 0%nat) per false) (nth i (fl s) false) (nth (nth i (ax s) 0%nat) m 0) (nth i (sh s) 0) (nth (nth i (ax s) 0%nat) e 0)) (seq 0 (length (ax s))).
Lemma box2 u v n : in_grid_box (mkbox [0; 0] [u; v]) n <-> exists x y, n = [x; y] /\ 0 <= x < u /\ 0 <= y < v.
Proof.
  unfold in_grid_box. cbn [bottom_left upper_right]. split.
  - intros [H1 H2]. destruct n as [|x [|y [|]]]; try (apply Forall2_len in H1; discriminate). apply fc2 in H1, H2. destruct H1 as [A H1], H2 as [B H2]. apply fc2 in H1, H2. destruct H1 as [C _], H2 as [E _]. exists x, y. auto.
  - intros (x & y & -> & A & B). split; repeat apply Forall2_cons; try apply Forall2_nil; lia.
Qed.
Lemma box3 u v w n : in_grid_box (mkbox [0; 0; 0] [u; v; w]) n <-> exists x y z, n = [x; y; z] /\ 0 <= x < u /\ 0 <= y < v /\ 0 <= z < w.
Proof.
  unfold in_grid_box. cbn [bottom_left upper_right]. split.
  - intros [H1 H2]. destruct n as [|x [|y [|z [|]]]]; try (apply Forall2_len in H1; discriminate). apply fc2 in H1, H2. destruct H1 as [A H1], H2 as [B H2]. apply fc2 in H1, H2. destruct H1 as [C H1], H2 as [E H2]. apply fc2 in H1, H2. destruct H1 as [F _], H2 as [G _]. exists x, y, z. auto.
  - intros (x & y & z & -> & A & B & C). split; repeat apply Forall2_cons; try apply Forall2_nil; lia.
Qed.
(** the two-dimensional and three-dimensional cases *)
Ltac dim_cases s m per HG HS :=
  let HD := fresh "HD" in let Lp := fresh "Lp" in let FM := fresh "FM" in let P := fresh "P" in let LF := fresh "LF" in let LS := fresh "LS" in let LP := fresh "LP" in
  destruct HG as (HD & Lp & FM); destruct HS as (P & LF & LS & LP); apply (perms_in _ _ HD) in P; destruct HD as [HD|HD];
  [ destruct m as [|m0 [|m1 [|]]]; try discriminate HD; destruct per as [|p0 [|p1 [|]]]; try discriminate Lp;
    destruct s as [a f t l]; cbn [ax fl sh lam] in *; destruct f as [|f0 [|f1 [|]]]; try discriminate LF; destruct t as [|t0 [|t1 [|]]]; try discriminate LS;
    cbn [length perms In] in P; destruct P as [P|[P|[]]]; subst a
  | destruct m as [|m0 [|m1 [|m2 [|]]]]; try discriminate HD; destruct per as [|p0 [|p1 [|p2 [|]]]]; try discriminate Lp;
    destruct s as [a f t l]; cbn [ax fl sh lam] in *; destruct f as [|f0 [|f1 [|f2 [|]]]]; try discriminate LF; destruct t as [|t0 [|t1 [|t2 [|]]]]; try discriminate LS;
    cbn [length perms In] in P; destruct P as [P|[P|[P|[P|[P|[P|[]]]]]]]; subst a ].
Ltac flat := unfold turn, cturn, img, refined_size in *; cbn [ax fl sh lam map nth seq length zip_with] in *.
Lemma turn_in s m per n : grid_ok m per -> sim_ok (length m) s -> in_grid_box (nodes_box m) n -> in_grid_box (nodes_box (img 0 s m)) (turn s m per n).
Proof.
  intros HG HS. dim_cases s m per HG HS; flat; unfold nodes_box; cbn [map]; rewrite ?box2, ?box3.
  all: try (intros (x & y & -> & A & B); eexists _, _; split; [reflexivity|]; cbn [nth]; split; apply turn1_in; assumption).
  all: intros (x & y & z & -> & A & B & C); eexists _, _, _; split; [reflexivity|]; cbn [nth]; split; [|split]; apply turn1_in; assumption.
Qed.
Lemma cturn_in s m per n : grid_ok m per -> sim_ok (length m) s -> in_grid_box (cells_box m per) n -> in_grid_box (cells_box (img 0 s m) (img false s per)) (cturn s m per n).
Proof.
  intros HG HS. dim_cases s m per HG HS; flat; unfold cells_box; cbn [map zip_with]; rewrite ?box2, ?box3.
  all: try (intros (x & y & -> & A & B); eexists _, _; split; [reflexivity|]; cbn [nth]; split; apply cell1_in; assumption).
  all: intros (x & y & z & -> & A & B & C); eexists _, _, _; split; [reflexivity|]; cbn [nth]; split; [|split]; apply cell1_in; assumption.
Qed.
Lemma turn_inj s m per n n' : grid_ok m per -> sim_ok (length m) s -> in_grid_box (nodes_box m) n -> in_grid_box (nodes_box m) n' -> turn s m per n = turn s m per n' -> n = n'.
Proof.
  intros HG HS. dim_cases s m per HG HS; flat; unfold nodes_box; cbn [map]; rewrite ?box2, ?box3.
  all: try (intros (x & y & -> & A & B) (x' & y' & -> & A' & B') E; cbn [nth] in E; pose proof (f_equal (fun l => nth 0 l 0) E) as E0; pose proof (f_equal (fun l => nth 1 l 0) E) as E1; cbn [nth] in E0, E1; apply turn1_inj in E0, E1; try assumption; subst; reflexivity).
  all: intros (x & y & z & -> & A & B & C) (x' & y' & z' & -> & A' & B' & C') E; cbn [nth] in E; pose proof (f_equal (fun l => nth 0 l 0) E) as E0; pose proof (f_equal (fun l => nth 1 l 0) E) as E1; pose proof (f_equal (fun l => nth 2 l 0) E) as E2; cbn [nth] in E0, E1, E2; apply turn1_inj in E0, E1, E2; try assumption; subst; reflexivity.
Qed.
Lemma cturn_inj s m per n n' : grid_ok m per -> sim_ok (length m) s -> in_grid_box (cells_box m per) n -> in_grid_box (cells_box m per) n' -> cturn s m per n = cturn s m per n' -> n = n'.
Proof.
  intros HG HS. dim_cases s m per HG HS; flat; unfold cells_box; cbn [map zip_with]; rewrite ?box2, ?box3.
  all: try (intros (x & y & -> & A & B) (x' & y' & -> & A' & B') E; cbn [nth] in E; pose proof (f_equal (fun l => nth 0 l 0) E) as E0; pose proof (f_equal (fun l => nth 1 l 0) E) as E1; cbn [nth] in E0, E1; apply cell1_inj in E0, E1; try assumption; subst; reflexivity).
  all: intros (x & y & z & -> & A & B & C) (x' & y' & z' & -> & A' & B' & C') E; cbn [nth] in E; pose proof (f_equal (fun l => nth 0 l 0) E) as E0; pose proof (f_equal (fun l => nth 1 l 0) E) as E1; pose proof (f_equal (fun l => nth 2 l 0) E) as E2; cbn [nth] in E0, E1, E2; apply cell1_inj in E0, E1, E2; try assumption; subst; reflexivity.
Qed.
Ltac pull lem := match goal with
  | H : 0 <= ?x < ?u |- _ => idtac end.
Lemma turn_surj s m per n' : grid_ok m per -> sim_ok (length m) s -> in_grid_box (nodes_box (img 0 s m)) n' -> exists n, in_grid_box (nodes_box m) n /\ turn s m per n = n'.
Proof.
  intros HG HS. dim_cases s m per HG HS; flat; unfold nodes_box; cbn [map]; rewrite ?box2, ?box3.
  Local Ltac go2 := intros (x & y & -> & A & B).
  Local Ltac go3 := intros (x & y & z & -> & A & B & C).
  - go2. destruct (turn1_surj p0 f0 m0 t0 x A) as (u & U & <-). destruct (turn1_surj p1 f1 m1 t1 y B) as (v & V & <-). exists [u; v]. rewrite box2. split; [exists u, v; auto|reflexivity].
  - go2. destruct (turn1_surj p1 f0 m1 t0 x A) as (u & U & <-). destruct (turn1_surj p0 f1 m0 t1 y B) as (v & V & <-). exists [v; u]. rewrite box2. split; [exists v, u; auto|reflexivity].
  - go3. destruct (turn1_surj p0 f0 m0 t0 x A) as (u & U & <-). destruct (turn1_surj p1 f1 m1 t1 y B) as (v & V & <-). destruct (turn1_surj p2 f2 m2 t2 z C) as (w & W & <-). exists [u; v; w]. rewrite box3. split; [exists u, v, w; auto|reflexivity].
  - go3. destruct (turn1_surj p0 f0 m0 t0 x A) as (u & U & <-). destruct (turn1_surj p2 f1 m2 t1 y B) as (v & V & <-). destruct (turn1_surj p1 f2 m1 t2 z C) as (w & W & <-). exists [u; w; v]. rewrite box3. split; [exists u, w, v; auto|reflexivity].
  - go3. destruct (turn1_surj p1 f0 m1 t0 x A) as (u & U & <-). destruct (turn1_surj p0 f1 m0 t1 y B) as (v & V & <-). destruct (turn1_surj p2 f2 m2 t2 z C) as (w & W & <-). exists [v; u; w]. rewrite box3. split; [exists v, u, w; auto|reflexivity].
  - go3. destruct (turn1_surj p1 f0 m1 t0 x A) as (u & U & <-). destruct (turn1_surj p2 f1 m2 t1 y B) as (v & V & <-). destruct (turn1_surj p0 f2 m0 t2 z C) as (w & W & <-). exists [w; u; v]. rewrite box3. split; [exists w, u, v; auto|reflexivity].
  - go3. destruct (turn1_surj p2 f0 m2 t0 x A) as (u & U & <-). destruct (turn1_surj p0 f1 m0 t1 y B) as (v & V & <-). destruct (turn1_surj p1 f2 m1 t2 z C) as (w & W & <-). exists [v; w; u]. rewrite box3. split; [exists v, w, u; auto|reflexivity].
  - go3. destruct (turn1_surj p2 f0 m2 t0 x A) as (u & U & <-). destruct (turn1_surj p1 f1 m1 t1 y B) as (v & V & <-). destruct (turn1_surj p0 f2 m0 t2 z C) as (w & W & <-). exists [w; v; u]. rewrite box3. split; [exists w, v, u; auto|reflexivity].
Qed.
Lemma cturn_surj s m per n' : grid_ok m per -> sim_ok (length m) s -> in_grid_box (cells_box (img 0 s m) (img false s per)) n' -> exists n, in_grid_box (cells_box m per) n /\ cturn s m per n = n'.
Proof.
  intros HG HS. dim_cases s m per HG HS; flat; unfold cells_box; cbn [map zip_with]; rewrite ?box2, ?box3.
  - go2. destruct (cell1_surj p0 f0 m0 t0 x A) as (u & U & <-). destruct (cell1_surj p1 f1 m1 t1 y B) as (v & V & <-). exists [u; v]. rewrite box2. split; [exists u, v; auto|reflexivity].
  - go2. destruct (cell1_surj p1 f0 m1 t0 x A) as (u & U & <-). destruct (cell1_surj p0 f1 m0 t1 y B) as (v & V & <-). exists [v; u]. rewrite box2. split; [exists v, u; auto|reflexivity].
  - go3. destruct (cell1_surj p0 f0 m0 t0 x A) as (u & U & <-). destruct (cell1_surj p1 f1 m1 t1 y B) as (v & V & <-). destruct (cell1_surj p2 f2 m2 t2 z C) as (w & W & <-). exists [u; v; w]. rewrite box3. split; [exists u, v, w; auto|reflexivity].
  - go3. destruct (cell1_surj p0 f0 m0 t0 x A) as (u & U & <-). destruct (cell1_surj p2 f1 m2 t1 y B) as (v & V & <-). destruct (cell1_surj p1 f2 m1 t2 z C) as (w & W & <-). exists [u; w; v]. rewrite box3. split; [exists u, w, v; auto|reflexivity].
  - go3. destruct (cell1_surj p1 f0 m1 t0 x A) as (u & U & <-). destruct (cell1_surj p0 f1 m0 t1 y B) as (v & V & <-). destruct (cell1_surj p2 f2 m2 t2 z C) as (w & W & <-). exists [v; u; w]. rewrite box3. split; [exists v, u, w; auto|reflexivity].
  - go3. destruct (cell1_surj p1 f0 m1 t0 x A) as (u & U & <-). destruct (cell1_surj p2 f1 m2 t1 y B) as (v & V & <-). destruct (cell1_surj p0 f2 m0 t2 z C) as (w & W & <-). exists [w; u; v]. rewrite box3. split; [exists w, u, v; auto|reflexivity].
  - go3. destruct (cell1_surj p2 f0 m2 t0 x A) as (u & U & <-). destruct (cell1_surj p0 f1 m0 t1 y B) as (v & V & <-). destruct (cell1_surj p1 f2 m1 t2 z C) as (w & W & <-). exists [v; w; u]. rewrite box3. split; [exists v, w, u; auto|reflexivity].
  - go3. destruct (cell1_surj p2 f0 m2 t0 x A) as (u & U & <-). destruct (cell1_surj p1 f1 m1 t1 y B) as (v & V & <-). destruct (cell1_surj p0 f2 m0 t2 z C) as (w & W & <-). exists [w; v; u]. rewrite box3. split; [exists w, v, u; auto|reflexivity].
Qed.
Lemma img_grid s m per : grid_ok m per -> sim_ok (length m) s -> grid_ok (img 0 s m) (img false s per).
Proof.
  intros HG HS. dim_cases s m per HG HS; flat; unfold grid_ok; cbn [length]; (split; [lia|]); (split; [reflexivity|]); rewrite Forall_forall in *; intros k Hk; apply FM; cbn [In] in *; tauto.
Qed.
Lemma img_refined s m per : grid_ok m per -> sim_ok (length m) s -> refined_size (img 0 s m) (img false s per) = img 0 s (refined_size m per).
Proof. intros HG HS. dim_cases s m per HG HS; flat; reflexivity. Qed.
Lemma fine_ok D s : sim_ok D s -> sim_ok D (fine_sim s).
Proof. intros (A & B & C & E). repeat split; auto. cbn. rewrite map_length. exact C. Qed.
(** the digits of the image of a local index *)
Lemma dig2 b p q : (b = 2 \/ b = 3)%nat -> (p < b)%nat -> (q < b)%nat -> ((p * b ^ 0 + (q * b ^ 1 + 0)) / b ^ 0 mod b)%nat = p /\ ((p * b ^ 0 + (q * b ^ 1 + 0)) / b ^ 1 mod b)%nat = q.
Proof. intros [-> | ->] Hp Hq; destruct p as [|[|[|]]]; try lia; destruct q as [|[|[|]]]; try lia; split; reflexivity. Qed.
Lemma dig3 b p q r : (b = 2 \/ b = 3)%nat -> (p < b)%nat -> (q < b)%nat -> (r < b)%nat -> ((p * b ^ 0 + (q * b ^ 1 + (r * b ^ 2 + 0))) / b ^ 0 mod b)%nat = p /\ ((p * b ^ 0 + (q * b ^ 1 + (r * b ^ 2 + 0))) / b ^ 1 mod b)%nat = q /\ ((p * b ^ 0 + (q * b ^ 1 + (r * b ^ 2 + 0))) / b ^ 2 mod b)%nat = r.
Proof. intros [-> | ->] Hp Hq Hr; destruct p as [|[|[|]]]; try lia; destruct q as [|[|[|]]]; try lia; destruct r as [|[|[|]]]; try lia; repeat split; reflexivity. Qed.
Lemma dig_lt b k i : (b = 2 \/ b = 3)%nat -> (dig b k i < b)%nat.
Proof. intros H. apply Nat.mod_upper_bound. lia. Qed.
Lemma flip_lt b k i (f : bool) : (b = 2 \/ b = 3)%nat -> ((if f then b - 1 - dig b k i else dig b k i) < b)%nat.
Proof. intros H. pose proof (dig_lt b k i H). destruct f; lia. Qed.
Lemma corner_turn s m per e k : grid_ok m per -> sim_ok (length m) s -> length e = length m ->
  wrap (img 0 s m) (img false s per) (corner (cturn s m per e) (loc (ax s) (fl s) 2 k)) = turn s m per (wrap m per (corner e k)).
Proof.
  intros HG HS Le. dim_cases s m per HG HS; [destruct e as [|x [|y [|]]]; try discriminate Le|destruct e as [|x [|y [|]]]; try discriminate Le|destruct e as [|x [|y [|z [|]]]]; try discriminate Le..].
  all: flat; unfold corner, loc; cbn [zip_with seq length map nth fold_right wrap].
  1, 2: match goal with |- context [((?p * 2 ^ 0 + (?q * 2 ^ 1 + 0)) / 2 ^ 0 mod 2)%nat] => destruct (dig2 2 p q ltac:(auto) ltac:(apply flip_lt; auto) ltac:(apply flip_lt; auto)) as [-> ->] end.
  1, 2: apply (f_equal2 cons); [refine (corner1 _ _ _ _ _ _ (dig_lt 2 _ _ ltac:(auto)))|apply (f_equal2 cons); [refine (corner1 _ _ _ _ _ _ (dig_lt 2 _ _ ltac:(auto)))|reflexivity]].
  all: match goal with |- context [((?p * 2 ^ 0 + (?q * 2 ^ 1 + (?r * 2 ^ 2 + 0))) / 2 ^ 0 mod 2)%nat] => destruct (dig3 2 p q r ltac:(auto) ltac:(apply flip_lt; auto) ltac:(apply flip_lt; auto) ltac:(apply flip_lt; auto)) as (-> & -> & ->) end.
  all: apply (f_equal2 cons); [refine (corner1 _ _ _ _ _ _ (dig_lt 2 _ _ ltac:(auto)))|apply (f_equal2 cons); [refine (corner1 _ _ _ _ _ _ (dig_lt 2 _ _ ltac:(auto)))|apply (f_equal2 cons); [refine (corner1 _ _ _ _ _ _ (dig_lt 2 _ _ ltac:(auto)))|reflexivity]]].
Qed.
Lemma corner3_turn s m per e k : grid_ok m per -> sim_ok (length m) s -> length e = length m ->
  wrap (img 0 s (refined_size m per)) (img false s per) (corner3 (cturn s m per e) (loc (ax s) (fl s) 3 k)) = turn (fine_sim s) (refined_size m per) per (wrap (refined_size m per) per (corner3 e k)).
Proof.
  intros HG HS Le. pose proof (proj2 (proj2 HG)) as FM1. dim_cases s m per HG HS; [destruct e as [|x [|y [|]]]; try discriminate Le|destruct e as [|x [|y [|]]]; try discriminate Le|destruct e as [|x [|y [|z [|]]]]; try discriminate Le..].
  all: rewrite Forall_forall in FM1; flat; unfold fine_sim, corner3, loc; cbn [ax fl sh lam zip_with seq length map nth fold_right wrap].
  all: pose proof (FM1 m0 ltac:(cbn; auto)) as M0; pose proof (FM1 m1 ltac:(cbn; auto)) as M1.
  1, 2: match goal with |- context [((?p * 3 ^ 0 + (?q * 3 ^ 1 + 0)) / 3 ^ 0 mod 3)%nat] => destruct (dig2 3 p q ltac:(auto) ltac:(apply flip_lt; auto) ltac:(apply flip_lt; auto)) as [-> ->] end.
  1, 2: apply (f_equal2 cons); [refine (corner31 _ _ _ _ _ _ _ (dig_lt 3 _ _ ltac:(auto))); assumption|apply (f_equal2 cons); [refine (corner31 _ _ _ _ _ _ _ (dig_lt 3 _ _ ltac:(auto))); assumption|reflexivity]].
  all: pose proof (FM1 m2 ltac:(cbn; auto)) as M2.
  all: match goal with |- context [((?p * 3 ^ 0 + (?q * 3 ^ 1 + (?r * 3 ^ 2 + 0))) / 3 ^ 0 mod 3)%nat] => destruct (dig3 3 p q r ltac:(auto) ltac:(apply flip_lt; auto) ltac:(apply flip_lt; auto) ltac:(apply flip_lt; auto)) as (-> & -> & ->) end.
  all: apply (f_equal2 cons); [refine (corner31 _ _ _ _ _ _ _ (dig_lt 3 _ _ ltac:(auto))); assumption|apply (f_equal2 cons); [refine (corner31 _ _ _ _ _ _ _ (dig_lt 3 _ _ ltac:(auto))); assumption|apply (f_equal2 cons); [refine (corner31 _ _ _ _ _ _ _ (dig_lt 3 _ _ ltac:(auto))); assumption|reflexivity]]].
Qed.
Lemma turn_enum s m per N : grid_ok m per -> sim_ok (length m) s -> enumerates N (nodes_box m) -> enumerates (map (turn s m per) N) (nodes_box (img 0 s m)).
Proof.
  intros HG HS [ND HN]. split.
  - apply nodup_map; auto. intros a b Ha Hb. apply (turn_inj s m per); auto; apply HN; assumption.
  - intros p. rewrite in_map_iff. split.
    + intros (n & <- & Hn). apply turn_in; auto. apply HN, Hn.
    + intros Hp. destruct (turn_surj s m per p HG HS Hp) as (n & Hn & E). exists n. split; [exact E|]. apply HN, Hn.
Qed.
Lemma cturn_enum s m per N : grid_ok m per -> sim_ok (length m) s -> enumerates N (cells_box m per) -> enumerates (map (cturn s m per) N) (cells_box (img 0 s m) (img false s per)).
Proof.
  intros HG HS [ND HN]. split.
  - apply nodup_map; auto. intros a b Ha Hb. apply (cturn_inj s m per); auto; apply HN; assumption.
  - intros p. rewrite in_map_iff. split.
    + intros (n & <- & Hn). apply cturn_in; auto. apply HN, Hn.
    + intros Hp. destruct (cturn_surj s m per p HG HS Hp) as (n & Hn & E). exists n. split; [exact E|]. apply HN, Hn.
Qed.
