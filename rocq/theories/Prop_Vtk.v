(** C63, C64: the VTK files. *)
From Verif Require Import Base M_Geometry S_Geometry P_Geometry M_Shapes M_Particle S_Particle P_Particle M_Quadrature S_Fem M_MatElem M_Mesh M_Operator S_Operator P_Mesh P_Operator P_AssemblyBc M_Prealloc P_Prealloc M_Vtk Prop_Operator Prop_Operator2.
Local Open Scope Z_scope.

(** ** specification *)
(** three coordinates: the missing ones are 0 *)
Definition three {A} (zero : A) (l : list A) : list A := l ++ repeat zero (3 - length l).
(** the extent lo..hi (inclusive) contains the node p *)
Definition in_extent (lo hi p : list Z) : Prop := Forall2 Z.le lo p /\ Forall2 Z.le p hi.
(** VTK's numbering of the points of a structured grid: first axis fastest *)
Fixpoint vtk_index (lo hi p : list Z) : Z :=
  match lo, hi, p with
  | a :: lo', b :: hi', i :: p' => (i - a) + (b - a + 1) * vtk_index lo' hi' p'
  | _, _, _ => 0
  end.
Definition extent_size (lo hi : list Z) : Z := fold_right Z.mul 1 (zip_with (fun a b => b - a + 1) lo hi).
(** a piece shows the field [value] (three-component nodes to tuples) on a grid of steps c*h: as many points and tuples as nodes in the extent, and at the number
    VTK gives to each node, its coordinates and its value *)
Definition shows (c : Z) (h : list R) (value : list Z -> list R) (f : vts) : Prop :=
  Z.of_nat (length (vts_points f)) = extent_size (vts_lo f) (vts_hi f) /\ length (vts_data f) = length (vts_points f) /\
  forall p, in_extent (vts_lo f) (vts_hi f) p ->
    nth_error (vts_points f) (Z.to_nat (vtk_index (vts_lo f) (vts_hi f) p)) = Some (zip_with (fun i s => IZR (c * i) * s)%R p (three 0%R h)) /\
    nth_error (vts_data f) (Z.to_nat (vtk_index (vts_lo f) (vts_hi f) p)) = Some (value p).
(** a nodal field with [dof] components: the tuple of the values at the grid node that [p] stands for *)
Definition node_values (D : nat) (m : list Z) (per : list bool) (x : field) (dof : nat) (p : list Z) : list R := map (x (wrap m per (firstn D p))) (seq 0 dof).

(** ** loops that only append *)
Definition appends (F : list (list R) * list (list R) -> outcome (list (list R) * list (list R))) (P : list (list Z)) (pt tp : list Z -> list R) : Prop :=
  forall s, F s = Ok (fst s ++ map pt P, snd s ++ map tp P).
Lemma zrange_nil a b : b <= a -> zrange a b = []. Proof. intros H. unfold zrange. replace (Z.to_nat (b - a)) with 0%nat by lia. reflexivity. Qed.
Lemma zrange_snoc a n : zrange a (a + Z.of_nat (S n)) = zrange a (a + Z.of_nat n) ++ [a + Z.of_nat n].
Proof. unfold zrange. replace (Z.to_nat (a + Z.of_nat (S n) - a)) with (S n) by lia. replace (Z.to_nat (a + Z.of_nat n - a)) with n by lia. rewrite seq_S, map_app. reflexivity. Qed.
Lemma appends_for n a body (Q : Z -> list (list Z)) pt tp : (forall k, (k < n)%nat -> appends (body k) (Q (a + Z.of_nat k)) pt tp) ->
  appends (for_ n body) (flat_map Q (zrange a (a + Z.of_nat n))) pt tp.
Proof.
  induction n as [|n IH]; intros H s.
  - rewrite zrange_nil by lia. cbn. rewrite !app_nil_r. destruct s; reflexivity.
  - rewrite for_snoc, (IH (fun k Hk => H k ltac:(lia))). cbn [bind]. rewrite (H n ltac:(lia)). rewrite zrange_snoc, flat_map_app, !map_app. cbn [fst snd flat_map]. rewrite app_nil_r, !app_assoc. reflexivity.
Qed.
Lemma appends_loop a b body (Q : Z -> list (list Z)) pt tp : (forall k, a <= k < b -> appends (body k) (Q k) pt tp) -> appends (loop a b body) (flat_map Q (zrange a b)) pt tp.
Proof.
  intros H. destruct (Z.le_gt_cases b a) as [L|L].
  - rewrite zrange_nil by lia. unfold loop. replace (Z.to_nat (b - a)) with 0%nat by lia. intros s. cbn. rewrite !app_nil_r. destruct s; reflexivity.
  - unfold loop. pose proof (appends_for (Z.to_nat (b - a)) a (fun k => body (a + Z.of_nat k)) Q pt tp) as K. rewrite Z2Nat.id in K by lia. replace (a + (b - a)) with b in K by lia. apply K. intros k Hk. apply H. lia.
Qed.
Lemma flat_map_single {A B} (f : A -> B) l : flat_map (fun a => [f a]) l = map f l.
Proof. induction l as [|a l IH]; [reflexivity|]. cbn. rewrite IH. reflexivity. Qed.

(** ** VTK's order *)
Fixpoint vpoints (lo hi : list Z) : list (list Z) :=
  match lo, hi with
  | a :: lo', b :: hi' => flat_map (fun t => map (fun i => i :: t) (zrange a (b + 1))) (vpoints lo' hi')
  | _, _ => [[]]
  end.
Lemma nth_zrange a b i : a <= i < b -> nth_error (zrange a b) (Z.to_nat (i - a)) = Some i.
Proof. intros H. unfold zrange. rewrite nth_error_map, (nth_error_nth' _ 0%nat) by (rewrite seq_length; lia). rewrite seq_nth by lia. cbn. f_equal. lia. Qed.
Lemma nth_rows {A} a b i (L : list (list A)) q t (f : Z -> list A -> list A) : a <= i < b -> nth_error L q = Some t ->
  nth_error (flat_map (fun t => map (fun i => f i t) (zrange a b)) L) (Z.to_nat (i - a) + Z.to_nat (b - a) * q) = Some (f i t).
Proof.
  intros Hi. revert q. induction L as [|t' L IH]; intros q Hq; [destruct q; discriminate|]. cbn [flat_map]. destruct q as [|q]; cbn in Hq.
  - injection Hq as ->. rewrite nth_error_app1 by (rewrite map_length, zrange_length; lia). rewrite Nat.mul_0_r, Nat.add_0_r, nth_error_map, nth_zrange by lia. reflexivity.
  - rewrite Nat.mul_succ_r. generalize (Z.to_nat (b - a) * q)%nat (IH q Hq). intros w K. rewrite nth_error_app2 by (rewrite map_length, zrange_length; lia). rewrite map_length, zrange_length.
    replace (Z.to_nat (i - a) + (w + Z.to_nat (b - a)) - Z.to_nat (b - a))%nat with (Z.to_nat (i - a) + w)%nat by lia. exact K.
Qed.
Lemma vtk_index_nonneg lo hi p : in_extent lo hi p -> 0 <= vtk_index lo hi p.
Proof.
  intros [A B]. revert hi B. induction A as [|a i lo p Hai A IH]; intros hi B; [cbn; lia|]. inversion B as [|? b ? hi' Hib B']; subst. cbn [vtk_index]. specialize (IH hi' B'). apply Z.add_nonneg_nonneg; [lia|apply Z.mul_nonneg_nonneg; lia].
Qed.
Lemma vpoints_nth lo hi p : in_extent lo hi p -> nth_error (vpoints lo hi) (Z.to_nat (vtk_index lo hi p)) = Some p.
Proof.
  intros [A B]. revert hi B. induction A as [|a i lo p Hai A IH]; intros hi B; [inversion B; reflexivity|]. inversion B as [|? b ? hi' Hib B']; subst. cbn [vpoints vtk_index].
  pose proof (vtk_index_nonneg lo hi' p (conj A B')) as N. rewrite Z2Nat.inj_add by (try apply Z.mul_nonneg_nonneg; lia). rewrite Z2Nat.inj_mul by lia. replace (b - a + 1) with (b + 1 - a) by lia.
  apply (nth_rows a (b + 1) i (vpoints lo hi') _ p (fun i t => i :: t)); [lia|apply IH, B'].
Qed.
Lemma vpoints_length lo hi : Forall2 (fun a b => a <= b + 1) lo hi -> Z.of_nat (length (vpoints lo hi)) = extent_size lo hi.
Proof.
  induction 1 as [|a b lo hi Hab H IH]; [reflexivity|]. cbn [vpoints]. unfold extent_size in *. cbn [zip_with fold_right]. rewrite <- IH.
  assert (K : forall L : list (list Z), Z.of_nat (length (flat_map (fun t => map (fun i => i :: t) (zrange a (b + 1))) L)) = (b - a + 1) * Z.of_nat (length L)).
  { induction L as [|t L IHL]; [cbn; lia|]. cbn [flat_map length]. rewrite app_length, map_length, zrange_length. lia. }
  apply K.
Qed.
Lemma flat_map_flat_map {A B C} (f : A -> list B) (g : B -> list C) l : flat_map g (flat_map f l) = flat_map (fun a => flat_map g (f a)) l.
Proof. induction l as [|a l IH]; [reflexivity|]. cbn [flat_map]. rewrite flat_map_app, IH. reflexivity. Qed.
Lemma flat_map_map {A B C} (f : A -> B) (g : B -> list C) l : flat_map g (map f l) = flat_map (fun a => g (f a)) l.
Proof. induction l as [|a l IH]; [reflexivity|]. cbn [flat_map map]. rewrite IH. reflexivity. Qed.
Lemma vpoints3 a0 a1 a2 b0 b1 b2 : vpoints [a0; a1; a2] [b0; b1; b2] = flat_map (fun k => flat_map (fun j => map (fun i => [i; j; k]) (zrange a0 (b0 + 1))) (zrange a1 (b1 + 1))) (zrange a2 (b2 + 1)).
Proof.
  cbn [vpoints]. cbn [flat_map]. rewrite app_nil_r, flat_map_flat_map, flat_map_map. apply flat_map_ext. intros k. rewrite flat_map_map. reflexivity.
Qed.
Lemma shows_map c h value lo hi pt : Forall2 (fun a b => a <= b + 1) lo hi -> (forall p, in_extent lo hi p -> pt p = zip_with (fun i s => IZR (c * i) * s)%R p (three 0%R h)) ->
  shows c h value (mkvts lo hi (map pt (vpoints lo hi)) (map value (vpoints lo hi))).
Proof.
  intros HE HP. unfold shows. cbn [vts_lo vts_hi vts_points vts_data]. rewrite !map_length. split; [apply vpoints_length, HE|]. split; [reflexivity|]. intros p Hp.
  rewrite !nth_error_map, (vpoints_nth lo hi p Hp). cbn. rewrite (HP p Hp). split; reflexivity.
Qed.
Lemma dataset2_ok c h0 h1 dm tuple value : length (bottom_left (g_ghost dm)) = 2%nat -> Forall2 Z.le (bottom_left (g_ghost dm)) (upper_right (g_ghost dm)) ->
  (forall i j, in_grid_box (g_ghost dm) [i; j] -> tuple [i; j] = Ok (value [i; j; 0])) ->
  exists f, dataset2 c h0 h1 dm tuple = Ok f /\ shows c [h0; h1] value f /\ vts_lo f = three 0 (bottom_left (g_ghost dm)) /\ vts_hi f = three 0 (map (fun b => b - 1) (upper_right (g_ghost dm))).
Proof.
  intros HL HE HT. unfold dataset2, gm, gs. destruct (g_ghost dm) as [lo up] eqn:EG. cbn [bottom_left upper_right] in *. destruct lo as [|x0 [|y0 [|]]]; try discriminate HL.
  inversion HE as [|? x1 ? up' Hx HE']; subst. inversion HE' as [|? y1 ? up'' Hy HE'']; subst. inversion HE''; subst. cbn [nth].
  replace (x0 + (x1 - x0)) with x1 by lia. replace (y0 + (y1 - y0)) with y1 by lia.
  set (pt := fun p : list Z => [IZR (c * nth 0 p 0%Z) * h0; IZR (c * nth 1 p 0%Z) * h1; 0]%R).
  assert (A : appends (loop y0 y1 (fun j s => loop x0 x1 (fun i s => bind (tuple [i; j]) (fun t => Ok (insert_next [IZR (c * i) * h0; IZR (c * j) * h1; 0]%R t s))) s)) (flat_map (fun j => flat_map (fun i => [[i; j; 0]]) (zrange x0 x1)) (zrange y0 y1)) pt value).
  { apply (appends_loop y0 y1 _ (fun j => flat_map (fun i => [[i; j; 0]]) (zrange x0 x1))). intros j Hj. apply (appends_loop x0 x1 _ (fun i => [[i; j; 0]])). intros i Hi s. rewrite HT by (apply inb2; lia). reflexivity. }
  rewrite A. cbn [bind fst snd app]. eexists. split; [reflexivity|]. cbn [vts_lo vts_hi]. split; [|split; reflexivity].
  assert (E : flat_map (fun j => flat_map (fun i => [[i; j; 0]]) (zrange x0 x1)) (zrange y0 y1) = vpoints [x0; y0; 0] [x1 - 1; y1 - 1; 0]).
  { rewrite vpoints3. change (zrange 0 (0 + 1)) with [0]. cbn [flat_map]. rewrite app_nil_r. replace (x1 - 1 + 1) with x1 by lia. replace (y1 - 1 + 1) with y1 by lia. apply flat_map_ext. intros j. apply flat_map_single. }
  rewrite E. apply shows_map; [repeat apply Forall2_cons; try apply Forall2_nil; lia|]. intros p [P1 P2]. inversion P1 as [|? i ? p1 Hi P1']; subst. inversion P1' as [|? j ? p2 Hj P1'']; subst. inversion P1'' as [|? k ? p3 Hk P1''']; subst. inversion P1'''; subst.
  unfold pt. cbn. rewrite Rmult_0_r. reflexivity.
Qed.
Lemma inb3 lo0 lo1 lo2 up0 up1 up2 x y z : lo0 <= x < up0 -> lo1 <= y < up1 -> lo2 <= z < up2 -> in_grid_box (mkbox [lo0; lo1; lo2] [up0; up1; up2]) [x; y; z].
Proof. intros A B C. unfold in_grid_box. cbn [bottom_left upper_right]. split; repeat apply Forall2_cons; try apply Forall2_nil; lia. Qed.
Lemma dataset3_ok c h0 h1 h2 dm tuple value : length (bottom_left (g_ghost dm)) = 3%nat -> Forall2 Z.le (bottom_left (g_ghost dm)) (upper_right (g_ghost dm)) ->
  (forall i j k, in_grid_box (g_ghost dm) [i; j; k] -> tuple [i; j; k] = Ok (value [i; j; k])) ->
  exists f, dataset3 c h0 h1 h2 dm tuple = Ok f /\ shows c [h0; h1; h2] value f /\ vts_lo f = three 0 (bottom_left (g_ghost dm)) /\ vts_hi f = three 0 (map (fun b => b - 1) (upper_right (g_ghost dm))).
Proof.
  intros HL HE HT. unfold dataset3, gm, gs. destruct (g_ghost dm) as [lo up] eqn:EG. cbn [bottom_left upper_right] in *. destruct lo as [|x0 [|y0 [|z0 [|]]]]; try discriminate HL.
  inversion HE as [|? x1 ? up' Hx HE']; subst. inversion HE' as [|? y1 ? up'' Hy HE'']; subst. inversion HE'' as [|? z1 ? up3 Hz HE3]; subst. inversion HE3; subst. cbn [nth].
  replace (x0 + (x1 - x0)) with x1 by lia. replace (y0 + (y1 - y0)) with y1 by lia. replace (z0 + (z1 - z0)) with z1 by lia.
  set (pt := fun p : list Z => [IZR (c * nth 0 p 0%Z) * h0; IZR (c * nth 1 p 0%Z) * h1; IZR (c * nth 2 p 0%Z) * h2]%R).
  assert (A : appends (loop z0 z1 (fun k s => loop y0 y1 (fun j s => loop x0 x1 (fun i s => bind (tuple [i; j; k]) (fun t => Ok (insert_next [IZR (c * i) * h0; IZR (c * j) * h1; IZR (c * k) * h2]%R t s))) s) s))
    (flat_map (fun k => flat_map (fun j => flat_map (fun i => [[i; j; k]]) (zrange x0 x1)) (zrange y0 y1)) (zrange z0 z1)) pt value).
  { apply (appends_loop z0 z1 _ (fun k => flat_map (fun j => flat_map (fun i => [[i; j; k]]) (zrange x0 x1)) (zrange y0 y1))). intros k Hk.
    apply (appends_loop y0 y1 _ (fun j => flat_map (fun i => [[i; j; k]]) (zrange x0 x1))). intros j Hj. apply (appends_loop x0 x1 _ (fun i => [[i; j; k]])). intros i Hi s. rewrite HT by (apply inb3; lia). reflexivity. }
  rewrite A. cbn [bind fst snd app]. eexists. split; [reflexivity|]. cbn [vts_lo vts_hi]. split; [|split; reflexivity].
  assert (E : flat_map (fun k => flat_map (fun j => flat_map (fun i => [[i; j; k]]) (zrange x0 x1)) (zrange y0 y1)) (zrange z0 z1) = vpoints [x0; y0; z0] [x1 - 1; y1 - 1; z1 - 1]).
  { rewrite vpoints3. replace (x1 - 1 + 1) with x1 by lia. replace (y1 - 1 + 1) with y1 by lia. replace (z1 - 1 + 1) with z1 by lia. apply flat_map_ext. intros k. apply flat_map_ext. intros j. apply flat_map_single. }
  rewrite E. apply shows_map; [repeat apply Forall2_cons; try apply Forall2_nil; lia|]. intros p [P1 P2]. inversion P1 as [|? i ? p1 Hi P1']; subst. inversion P1' as [|? j ? p2 Hj P1'']; subst. inversion P1'' as [|? k ? p3 Hk P1''']; subst. inversion P1'''; subst.
  reflexivity.
Qed.
(** ** views *)
Lemma view_shape2 m0 m1 b0 b1 dof dm : view_ok [m0; m1] [b0; b1] dof dm -> exists a0 a1 c0 c1, g_own dm = mkbox [a0; a1] [c0; c1] /\ (0 <= a0 /\ a0 <= c0 /\ c0 <= m0) /\ (0 <= a1 /\ a1 <= c1 /\ c1 <= m1) /\
  g_ghost dm = mkbox [glo b0 a0; glo b1 a1] [gup b0 c0 m0; gup b1 c1 m1].
Proof.
  intros (_ & _ & _ & A & B & C & ->). destruct (g_own dm) as [lo up]. cbn [bottom_left upper_right map] in *.
  inversion A as [|? a0 ? lo1 A0 A']; subst. inversion A' as [|? a1 ? lo2 A1 A'']; subst. inversion A''; subst.
  inversion B as [|? c0 ? up1 B0 B']; subst. inversion B' as [|? c1 ? up2 B1 B'']; subst. inversion B''; subst.
  inversion C as [|? ? ? ? C0 C']; subst. inversion C' as [|? ? ? ? C1 C'']; subst. exists a0, a1, c0, c1. repeat split; auto.
Qed.
Lemma view_shape3 m0 m1 m2 b0 b1 b2 dof dm : view_ok [m0; m1; m2] [b0; b1; b2] dof dm -> exists a0 a1 a2 c0 c1 c2, g_own dm = mkbox [a0; a1; a2] [c0; c1; c2] /\ (0 <= a0 /\ a0 <= c0 /\ c0 <= m0) /\ (0 <= a1 /\ a1 <= c1 /\ c1 <= m1) /\ (0 <= a2 /\ a2 <= c2 /\ c2 <= m2) /\
  g_ghost dm = mkbox [glo b0 a0; glo b1 a1; glo b2 a2] [gup b0 c0 m0; gup b1 c1 m1; gup b2 c2 m2].
Proof.
  intros (_ & _ & _ & A & B & C & ->). destruct (g_own dm) as [lo up]. cbn [bottom_left upper_right map] in *.
  inversion A as [|? a0 ? lo1 A0 A']; subst. inversion A' as [|? a1 ? lo2 A1 A'']; subst. inversion A'' as [|? a2 ? lo3 A2 A3]; subst. inversion A3; subst.
  inversion B as [|? c0 ? up1 B0 B']; subst. inversion B' as [|? c1 ? up2 B1 B'']; subst. inversion B'' as [|? c2 ? up3 B2 B3]; subst. inversion B3; subst.
  inversion C as [|? ? ? ? C0 C']; subst. inversion C' as [|? ? ? ? C1 C'']; subst. inversion C'' as [|? ? ? ? C2 C3]; subst. exists a0, a1, a2, c0, c1, c2. repeat split; auto.
Qed.
Lemma glo_gup b a c m : 0 <= a -> a <= c -> c <= m -> glo b a <= gup b c m. Proof. unfold glo, gup. destruct b; lia. Qed.
Lemma own_ext b a c m i : 0 <= a -> c <= m -> a <= i < c -> glo b a <= i /\ i <= gup b c m - 1. Proof. unfold glo, gup. destruct b; lia. Qed.
Lemma view_read m per dof dm x p d : view_ok m per dof dm -> length per = length m -> in_grid_box (g_ghost dm) p -> at_read (global_to_local dm x) p d = Ok (x (wrap m per p) d).
Proof.
  intros V L I. unfold at_read, global_to_local. cbn [lv_box lv_val]. assert (K : point_inside Z.ltb (g_ghost dm) p = true).
  { destruct (view_dims m per dof dm V L) as (_ & _ & Hg). apply (point_inside_grid (length m)); auto. destruct I as [H1 _]. apply Forall2_len in H1. destruct Hg as [H2 _]. lia. }
  rewrite K. destruct V as (-> & -> & _). reflexivity.
Qed.
Definition good_piece (c : Z) (h : list R) (value : list Z -> list R) (dm : dmda) (f : vts) : Prop :=
  shows c h value f /\ vts_lo f = three 0 (bottom_left (g_ghost dm)) /\ vts_hi f = three 0 (map (fun b => b - 1) (upper_right (g_ghost dm))).
Lemma piece2 c h0 h1 m per dof dm tuple value : length m = 2%nat -> length per = 2%nat -> view_ok m per dof dm ->
  (forall i j, in_grid_box (g_ghost dm) [i; j] -> tuple [i; j] = Ok (value [i; j; 0])) -> exists f, dataset2 c h0 h1 dm tuple = Ok f /\ good_piece c [h0; h1] value dm f.
Proof.
  intros Lm Lp V HT. destruct m as [|m0 [|m1 [|]]]; try discriminate Lm. destruct per as [|b0 [|b1 [|]]]; try discriminate Lp.
  destruct (view_shape2 _ _ _ _ _ _ V) as (a0 & a1 & c0 & c1 & EO & A0 & A1 & EG). apply (dataset2_ok c h0 h1 dm tuple value); [rewrite EG; reflexivity| |exact HT].
  rewrite EG. cbn [bottom_left upper_right]. repeat apply Forall2_cons; try apply Forall2_nil; apply glo_gup; lia.
Qed.
Lemma piece3 c h0 h1 h2 m per dof dm tuple value : length m = 3%nat -> length per = 3%nat -> view_ok m per dof dm ->
  (forall i j k, in_grid_box (g_ghost dm) [i; j; k] -> tuple [i; j; k] = Ok (value [i; j; k])) -> exists f, dataset3 c h0 h1 h2 dm tuple = Ok f /\ good_piece c [h0; h1; h2] value dm f.
Proof.
  intros Lm Lp V HT. destruct m as [|m0 [|m1 [|m2 [|]]]]; try discriminate Lm. destruct per as [|b0 [|b1 [|b2 [|]]]]; try discriminate Lp.
  destruct (view_shape3 _ _ _ _ _ _ _ _ V) as (a0 & a1 & a2 & c0 & c1 & c2 & EO & A0 & A1 & A2 & EG). apply (dataset3_ok c h0 h1 h2 dm tuple value); [rewrite EG; reflexivity| |exact HT].
  rewrite EG. cbn [bottom_left upper_right]. repeat apply Forall2_cons; try apply Forall2_nil; apply glo_gup; lia.
Qed.
Lemma own_in_piece m per dof dm n : length m = 2%nat \/ length m = 3%nat -> length per = length m -> view_ok m per dof dm -> in_grid_box (g_own dm) n ->
  in_extent (three 0 (bottom_left (g_ghost dm))) (three 0 (map (fun b => b - 1) (upper_right (g_ghost dm)))) (three 0 n).
Proof.
  intros Lm Lp V I. destruct Lm as [Lm|Lm]; rewrite Lm in Lp.
  - destruct m as [|m0 [|m1 [|]]]; try discriminate Lm. destruct per as [|b0 [|b1 [|]]]; try discriminate Lp. destruct (view_shape2 _ _ _ _ _ _ V) as (a0 & a1 & c0 & c1 & EO & A0 & A1 & EG).
    rewrite EO in I. rewrite EG. destruct I as [I J]. cbn [bottom_left upper_right] in *. inversion I as [|? x ? n1 X I']; subst. inversion I' as [|? y ? n2 Y I'']; subst. inversion I''; subst. inversion J as [|? ? ? ? X' J']; subst. inversion J' as [|? ? ? ? Y' J'']; subst.
    pose proof (own_ext b0 a0 c0 m0 x ltac:(lia) ltac:(lia) ltac:(lia)). pose proof (own_ext b1 a1 c1 m1 y ltac:(lia) ltac:(lia) ltac:(lia)). split; cbn; repeat apply Forall2_cons; try apply Forall2_nil; lia.
  - destruct m as [|m0 [|m1 [|m2 [|]]]]; try discriminate Lm. destruct per as [|b0 [|b1 [|b2 [|]]]]; try discriminate Lp. destruct (view_shape3 _ _ _ _ _ _ _ _ V) as (a0 & a1 & a2 & c0 & c1 & c2 & EO & A0 & A1 & A2 & EG).
    rewrite EO in I. rewrite EG. destruct I as [I J]. cbn [bottom_left upper_right] in *. inversion I as [|? x ? n1 X I']; subst. inversion I' as [|? y ? n2 Y I'']; subst. inversion I'' as [|? z ? n3 W I3]; subst. inversion I3; subst. inversion J as [|? ? ? ? X' J']; subst. inversion J' as [|? ? ? ? Y' J'']; subst. inversion J'' as [|? ? ? ? Z' J3]; subst.
    pose proof (own_ext b0 a0 c0 m0 x ltac:(lia) ltac:(lia) ltac:(lia)). pose proof (own_ext b1 a1 c1 m1 y ltac:(lia) ltac:(lia) ltac:(lia)). pose proof (own_ext b2 a2 c2 m2 z ltac:(lia) ltac:(lia) ltac:(lia)). split; cbn; repeat apply Forall2_cons; try apply Forall2_nil; lia.
Qed.
Lemma forall2_nth {A B} (P : A -> B -> Prop) l l' k a : Forall2 P l l' -> nth_error l k = Some a -> exists b, nth_error l' k = Some b /\ P a b.
Proof. intros H. revert k. induction H as [|x y l l' Hxy H IH]; intros [|k] E; try discriminate; cbn in *; [injection E as <-; eauto|eauto]. Qed.
(** the run and its pieces *)
Lemma save_VTK_runs h mp per dms u p : length h = length mp -> grid_ok mp per -> stokes_layout mp per (length mp) dms ->
  exists out, save_VTK h dms u p = Ok out /\
    Forall2 (fun dm f => good_piece 2 h (node_values (length mp) mp per p 1) (snd dm) f) dms (out_pressure out) /\
    Forall2 (fun dm f => good_piece 1 h (fun q => three 0%R (node_values (length mp) (refined_size mp per) per u (length mp) q)) (fst dm) f) dms (out_velocity out) /\
    out_pvts_pressure out = (match h with [_; _] => pvts2 | _ => pvts3 end) (map snd dms) (rank0_size (map snd dms)) /\
    out_pvts_velocity out = (match h with [_; _] => pvts2 | _ => pvts3 end) (map fst dms) (rank0_size (map fst dms)).
Proof.
  intros Lh HG (DV & DP & _). set (mv := refined_size mp per) in *. destruct HG as (D23 & Lp & _).
  assert (Lv : length mv = length mp). { unfold mv, refined_size. clear - Lp. revert per Lp. induction mp as [|a l IH]; intros [|b per] L; try discriminate; [reflexivity|]. cbn in *. rewrite IH by lia. reflexivity. }
  destruct DV as [FV _]. destruct DP as [FP _]. rewrite Forall_forall in FV, FP.
  assert (VV : forall dm, In dm dms -> view_ok mv per (length mp) (fst dm)) by (intros dm Hd; apply FV, in_map, Hd).
  assert (VP : forall dm, In dm dms -> view_ok mp per 1 (snd dm)) by (intros dm Hd; apply FP, in_map, Hd).
  unfold save_VTK. destruct D23 as [D|D]; rewrite D in *.
  - destruct h as [|h0 [|h1 [|]]]; try discriminate Lh.
    destruct (on_all_ok (fun dm : dmda * dmda => dataset2 2 h0 h1 (snd dm) (pressure_tuple (global_to_local (snd dm) p))) (fun dm f => good_piece 2 [h0; h1] (node_values 2 mp per p 1) (snd dm) f) dms) as (fp & E1 & F1).
    { intros dm Hd. apply (piece2 2 h0 h1 mp per 1); auto. intros i j I. unfold pressure_tuple. rewrite (view_read mp per 1) by (auto; lia). reflexivity. }
    destruct (on_all_ok (fun dm : dmda * dmda => dataset2 1 h0 h1 (fst dm) (velocity_tuple2 (global_to_local (fst dm) u))) (fun dm f => good_piece 1 [h0; h1] (fun q => three 0%R (node_values 2 mv per u 2 q)) (fst dm) f) dms) as (fu & E2 & F2).
    { intros dm Hd. apply (piece2 1 h0 h1 mv per 2); auto. intros i j I. unfold velocity_tuple2. rewrite !(view_read mv per 2) by (auto; lia). reflexivity. }
    rewrite E1. cbn [bind]. rewrite E2. cbn [bind]. eexists. split; [reflexivity|]. cbn. auto.
  - destruct h as [|h0 [|h1 [|h2 [|]]]]; try discriminate Lh.
    destruct (on_all_ok (fun dm : dmda * dmda => dataset3 2 h0 h1 h2 (snd dm) (pressure_tuple (global_to_local (snd dm) p))) (fun dm f => good_piece 2 [h0; h1; h2] (node_values 3 mp per p 1) (snd dm) f) dms) as (fp & E1 & F1).
    { intros dm Hd. apply (piece3 2 h0 h1 h2 mp per 1); auto. intros i j k I. unfold pressure_tuple. rewrite (view_read mp per 1) by (auto; lia). reflexivity. }
    destruct (on_all_ok (fun dm : dmda * dmda => dataset3 1 h0 h1 h2 (fst dm) (velocity_tuple3 (global_to_local (fst dm) u))) (fun dm f => good_piece 1 [h0; h1; h2] (fun q => three 0%R (node_values 3 mv per u 3 q)) (fst dm) f) dms) as (fu & E2 & F2).
    { intros dm Hd. apply (piece3 1 h0 h1 h2 mv per 3); auto. intros i j k I. unfold velocity_tuple3. rewrite !(view_read mv per 3) by (auto; lia). reflexivity. }
    rewrite E1. cbn [bind]. rewrite E2. cbn [bind]. eexists. split; [reflexivity|]. cbn. auto.
Qed.

(** every process writes a pressure and a velocity file; each shows the solution at every node of its extent, with the coordinates of the node (the pressure grid has
    the double steps); the extent contains the nodes the process owns *)
Theorem C63_pieces_show_the_solution : forall h mp per dms u p, length h = length mp -> grid_ok mp per -> stokes_layout mp per (length mp) dms ->
  exists out, save_VTK h dms u p = Ok out /\ length (out_pressure out) = length dms /\ length (out_velocity out) = length dms /\
  forall rank dm, nth_error dms rank = Some dm -> exists fp fu, nth_error (out_pressure out) rank = Some fp /\ nth_error (out_velocity out) rank = Some fu /\
    shows 2 h (node_values (length mp) mp per p 1) fp /\
    shows 1 h (fun q => three 0%R (node_values (length mp) (refined_size mp per) per u (length mp) q)) fu /\
    (forall n, in_grid_box (g_own (snd dm)) n -> in_extent (vts_lo fp) (vts_hi fp) (three 0 n)) /\
    (forall n, in_grid_box (g_own (fst dm)) n -> in_extent (vts_lo fu) (vts_hi fu) (three 0 n)).
Proof.
  intros h mp per dms u p Lh HG HS. destruct (save_VTK_runs h mp per dms u p Lh HG HS) as (out & E & F1 & F2 & _). exists out. split; [exact E|].
  split; [symmetry; eapply Forall2_len, F1|]. split; [symmetry; eapply Forall2_len, F2|]. intros rank dm Hr.
  destruct (forall2_nth _ _ _ _ _ F1 Hr) as (fp & Ep & Gp & Lp & Hp). destruct (forall2_nth _ _ _ _ _ F2 Hr) as (fu & Eu & Gu & Lu & Hu).
  exists fp, fu. split; [exact Ep|]. split; [exact Eu|]. split; [exact Gp|]. split; [exact Gu|]. destruct HS as ([FV _] & [FP _] & _). rewrite Forall_forall in FV, FP. apply nth_error_In in Hr.
  assert (Lv : length (refined_size mp per) = length mp). { destruct HG as (_ & L & _). unfold refined_size. clear - L. revert per L. induction mp as [|a l IH]; intros [|b per] L; try discriminate; [reflexivity|]. cbn in *. rewrite IH by lia. reflexivity. }
  destruct HG as (D & L & _). split; intros n I.
  - rewrite Lp, Hp. eapply own_in_piece; eauto. apply FP, in_map, Hr.
  - rewrite Lu, Hu. apply (own_in_piece (refined_size mp per) per (length mp)); rewrite ?Lv; auto. apply FV, in_map, Hr.
Qed.

(** ** the .pvts files *)
(** the .pvts file [pv] describes the grid of [m] points per axis cut in the files [fs]: the whole extent is the grid; piece number r is the file of rank r, with its
    extent; every node of the grid is in a piece *)
Definition describes (m : list Z) (fs : list vts) (pv : pvts) : Prop :=
  pv_whole pv = three (0, 0) (map (fun n => (0, n - 1)) m) /\
  length (pv_pieces pv) = length fs /\
  (forall rank f, nth_error fs rank = Some f -> nth_error (pv_pieces pv) rank = Some (combine (vts_lo f) (vts_hi f), rank)) /\
  (forall n, in_grid_box (nodes_box m) n -> exists piece, In piece (pv_pieces pv) /\ in_extent (map fst (fst piece)) (map snd (fst piece)) (three 0 n)).
(** every piece lies in the whole extent *)
Definition pieces_inside (pv : pvts) : Prop :=
  forall piece, In piece (pv_pieces pv) -> Forall2 (fun e w => fst w <= fst e /\ snd e <= snd w) (fst piece) (pv_whole pv).

Definition ext_of (dm : dmda) : list (Z * Z) := combine (three 0 (bottom_left (g_ghost dm))) (three 0 (map (fun b => b - 1) (upper_right (g_ghost dm)))).
Definition numbered (ds : list dmda) : list (list (Z * Z) * nat) := map (fun p : nat * dmda => (ext_of (snd p), fst p)) (combine (seq 0 (length ds)) ds).
Lemma nth_combine_seq {A} (l : list A) : forall s k a, nth_error l k = Some a -> nth_error (combine (seq s (length l)) l) k = Some ((s + k)%nat, a).
Proof. induction l as [|x l IH]; intros s [|k] a E; try discriminate; cbn in *; [injection E as ->; f_equal; f_equal; lia|]. rewrite (IH (S s) k a E). f_equal. f_equal. lia. Qed.
Lemma in_combine_seq {A} (l : list A) k a s : In (k, a) (combine (seq s (length l)) l) -> In a l.
Proof. apply in_combine_r. Qed.
Lemma pv2_eq m per dof ds m' : length m = 2%nat -> length per = 2%nat -> Forall (view_ok m per dof) ds -> length m' = 2%nat -> pvts2 ds m' = mkpvts (three (0, 0) (map (fun n => (0, n - 1)) m')) (numbered ds).
Proof.
  intros Lm Lp V L'. destruct m' as [|x [|y [|]]]; try discriminate L'. unfold pvts2, numbered. cbn [nth]. f_equal. apply map_ext_in. intros [k dm] H. cbn [fst snd]. f_equal. apply in_combine_r in H. rewrite Forall_forall in V. specialize (V _ H).
  destruct m as [|m0 [|m1 [|]]]; try discriminate Lm. destruct per as [|b0 [|b1 [|]]]; try discriminate Lp. destruct (view_shape2 _ _ _ _ _ _ V) as (a0 & a1 & c0 & c1 & EO & A0 & A1 & EG).
  unfold ext_of, gs, gm, gs. rewrite EG. cbn. repeat f_equal; lia.
Qed.
Lemma pv3_eq m per dof ds m' : length m = 3%nat -> length per = 3%nat -> Forall (view_ok m per dof) ds -> length m' = 3%nat -> pvts3 ds m' = mkpvts (three (0, 0) (map (fun n => (0, n - 1)) m')) (numbered ds).
Proof.
  intros Lm Lp V L'. destruct m' as [|x [|y [|z [|]]]]; try discriminate L'. unfold pvts3, numbered. cbn [nth]. f_equal. apply map_ext_in. intros [k dm] H. cbn [fst snd]. f_equal. apply in_combine_r in H. rewrite Forall_forall in V. specialize (V _ H).
  destruct m as [|m0 [|m1 [|m2 [|]]]]; try discriminate Lm. destruct per as [|b0 [|b1 [|b2 [|]]]]; try discriminate Lp. destruct (view_shape3 _ _ _ _ _ _ _ _ V) as (a0 & a1 & a2 & c0 & c1 & c2 & EO & A0 & A1 & A2 & EG).
  unfold ext_of, gs, gm, gs. rewrite EG. cbn. repeat f_equal; lia.
Qed.
Lemma map_fst_combine {A B} (l : list A) (l' : list B) : length l = length l' -> map fst (combine l l') = l.
Proof. revert l'. induction l as [|a l IH]; intros [|b l'] E; try discriminate; [reflexivity|]. cbn in *. rewrite IH by lia. reflexivity. Qed.
Lemma map_snd_combine {A B} (l : list A) (l' : list B) : length l = length l' -> map snd (combine l l') = l'.
Proof. revert l'. induction l as [|a l IH]; intros [|b l'] E; try discriminate; [reflexivity|]. cbn in *. rewrite IH by lia. reflexivity. Qed.
Lemma three_length {A} (z : A) l l' : length l = length l' -> length (three z l) = length (three z l').
Proof. intros E. unfold three. rewrite !app_length, !repeat_length, E. reflexivity. Qed.
Lemma numbered_nth ds k dm : nth_error ds k = Some dm -> nth_error (numbered ds) k = Some (ext_of dm, k).
Proof. intros E. unfold numbered. rewrite nth_error_map, (nth_combine_seq ds 0 k dm E). reflexivity. Qed.
Lemma numbered_in ds pc : In pc (numbered ds) -> exists dm, In dm ds /\ fst pc = ext_of dm.
Proof. unfold numbered. rewrite in_map_iff. intros ([k dm] & <- & H). exists dm. split; [eapply in_combine_r, H|reflexivity]. Qed.
Lemma numbered_length ds : length (numbered ds) = length ds.
Proof. unfold numbered. rewrite map_length, combine_length, seq_length. lia. Qed.
Lemma origin_in m : Forall (fun n => 1 <= n) m -> in_grid_box (nodes_box m) (map (fun _ => 0) m).
Proof. intros H. split; cbn [nodes_box bottom_left upper_right]; induction H; constructor; auto; lia. Qed.
Lemma owner m per dof ds n : distributes m per dof ds -> in_grid_box (nodes_box m) n -> exists k dm, nth_error ds k = Some dm /\ in_grid_box (g_own dm) n.
Proof.
  intros [_ T] I. destruct (T n) as [T1 _]. destruct (T1 I) as (k & Hk & Ik & _). rewrite map_length in Hk. destruct (nth_error ds k) as [dm|] eqn:E; [|apply nth_error_None in E; lia].
  exists k, dm. split; [exact E|]. rewrite (nth_error_nth (map g_own ds) k (nodes_box m) (x := g_own dm)) in Ik by (rewrite nth_error_map, E; reflexivity). exact Ik.
Qed.
Lemma ghost_len m per dof dm : length per = length m -> view_ok m per dof dm -> length (bottom_left (g_ghost dm)) = length m /\ length (upper_right (g_ghost dm)) = length m.
Proof. intros L V. destruct (view_dims m per dof dm V L) as (_ & _ & Hg). exact Hg. Qed.
Lemma numbered_describes m per dof ds fs : length m = 2%nat \/ length m = 3%nat -> length per = length m -> distributes m per dof ds ->
  Forall2 (fun dm f => vts_lo f = three 0 (bottom_left (g_ghost dm)) /\ vts_hi f = three 0 (map (fun b => b - 1) (upper_right (g_ghost dm)))) ds fs ->
  describes m fs (mkpvts (three (0, 0) (map (fun n => (0, n - 1)) m)) (numbered ds)).
Proof.
  intros Lm Lp DS F. split; [reflexivity|]. cbn [pv_pieces]. split; [rewrite numbered_length; apply (Forall2_len _ _ _ F)|]. split.
  - intros k f E. pose proof (Forall2_len _ _ _ F) as L. destruct (nth_error ds k) as [dm|] eqn:E2; [|apply nth_error_None in E2; assert (k < length fs)%nat by (apply nth_error_Some; congruence); lia].
    destruct (forall2_nth _ _ _ _ _ F E2) as (f' & E3 & G1 & G2). rewrite E in E3. injection E3 as <-. rewrite (numbered_nth _ _ _ E2), G1, G2. reflexivity.
  - intros n I. destruct (owner _ _ _ _ _ DS I) as (k & dm & E & O). exists (ext_of dm, k). split; [apply (nth_error_In _ k), numbered_nth, E|]. cbn [fst]. destruct DS as [V _]. rewrite Forall_forall in V. specialize (V dm (nth_error_In _ _ E)).
    destruct (ghost_len m per dof dm Lp V) as [G1 G2]. unfold ext_of. rewrite map_fst_combine, map_snd_combine by (apply three_length; rewrite map_length; lia). eapply own_in_piece; eauto.
Qed.
Lemma numbered_inside m per dof ds : grid_ok m per -> distributes m per dof ds ->
  (pieces_inside (mkpvts (three (0, 0) (map (fun n => (0, n - 1)) m)) (numbered ds)) <-> Forall (fun b => b = false) per).
Proof.
  intros (Lm & Lp & Hm) DS. split.
  - intros H. destruct (owner _ _ _ _ _ DS (origin_in m Hm)) as (k & dm & E & O). specialize (H (ext_of dm, k) (nth_error_In _ k (numbered_nth _ _ _ E))). cbn [fst pv_whole] in H.
    destruct DS as [V _]. rewrite Forall_forall in V. specialize (V dm (nth_error_In _ _ E)). destruct Lm as [Lm|Lm]; rewrite Lm in Lp.
    + destruct m as [|m0 [|m1 [|]]]; try discriminate Lm. destruct per as [|b0 [|b1 [|]]]; try discriminate Lp. destruct (view_shape2 _ _ _ _ _ _ V) as (a0 & a1 & c0 & c1 & EO & A0 & A1 & EG).
      rewrite EO in O. destruct O as [O _]. cbn in O. inversion O as [|? ? ? ? X0 O1]; subst. inversion O1 as [|? ? ? ? X1 O2]; subst. unfold ext_of in H. rewrite EG in H. cbn in H.
      inversion H as [|? ? ? ? H0 H']; subst. inversion H' as [|? ? ? ? H1 _]; subst. cbn in H0, H1. unfold glo in H0, H1. constructor; [destruct b0; [lia|reflexivity]|constructor; [destruct b1; [lia|reflexivity]|constructor]].
    + destruct m as [|m0 [|m1 [|m2 [|]]]]; try discriminate Lm. destruct per as [|b0 [|b1 [|b2 [|]]]]; try discriminate Lp. destruct (view_shape3 _ _ _ _ _ _ _ _ V) as (a0 & a1 & a2 & c0 & c1 & c2 & EO & A0 & A1 & A2 & EG).
      rewrite EO in O. destruct O as [O _]. cbn in O. inversion O as [|? ? ? ? X0 O1]; subst. inversion O1 as [|? ? ? ? X1 O2]; subst. inversion O2 as [|? ? ? ? X2 O3]; subst. unfold ext_of in H. rewrite EG in H. cbn in H.
      inversion H as [|? ? ? ? H0 H']; subst. inversion H' as [|? ? ? ? H1 H'']; subst. inversion H'' as [|? ? ? ? H2 _]; subst. cbn in H0, H1, H2. unfold glo in H0, H1, H2.
      constructor; [destruct b0; [lia|reflexivity]|constructor; [destruct b1; [lia|reflexivity]|constructor; [destruct b2; [lia|reflexivity]|constructor]]].
  - intros HF pc Hin. destruct (numbered_in _ _ Hin) as (dm & Hd & ->). cbn [pv_whole]. destruct DS as [V _]. rewrite Forall_forall in V. specialize (V dm Hd). destruct Lm as [Lm|Lm]; rewrite Lm in Lp.
    + destruct m as [|m0 [|m1 [|]]]; try discriminate Lm. destruct per as [|b0 [|b1 [|]]]; try discriminate Lp. destruct (view_shape2 _ _ _ _ _ _ V) as (a0 & a1 & c0 & c1 & EO & A0 & A1 & EG).
      inversion HF as [|? ? Q0 HF']; subst. inversion HF' as [|? ? Q1 _]; subst. unfold ext_of. rewrite EG. cbn. unfold glo, gup. repeat apply Forall2_cons; try apply Forall2_nil; cbn; lia.
    + destruct m as [|m0 [|m1 [|m2 [|]]]]; try discriminate Lm. destruct per as [|b0 [|b1 [|b2 [|]]]]; try discriminate Lp. destruct (view_shape3 _ _ _ _ _ _ _ _ V) as (a0 & a1 & a2 & c0 & c1 & c2 & EO & A0 & A1 & A2 & EG).
      inversion HF as [|? ? Q0 HF']; subst. inversion HF' as [|? ? Q1 HF'']; subst. inversion HF'' as [|? ? Q2 _]; subst. unfold ext_of. rewrite EG. cbn. unfold glo, gup. repeat apply Forall2_cons; try apply Forall2_nil; cbn; lia.
Qed.
Lemma rank0_distributes m per dof ds : Forall (fun n => 1 <= n) m -> distributes m per dof ds -> rank0_size ds = m.
Proof.
  intros Hm DS. destruct (owner _ _ _ _ _ DS (origin_in m Hm)) as (k & dm & E & _). destruct ds as [|d ds]; [destruct k; discriminate|]. destruct DS as [V _]. inversion V as [|? ? (S & _) _]; subst. reflexivity.
Qed.
Lemma refined_length mp per : length per = length mp -> length (refined_size mp per) = length mp.
Proof. unfold refined_size. revert per. induction mp as [|a l IH]; intros [|b per] L; try discriminate; [reflexivity|]. cbn in *. rewrite IH by lia. reflexivity. Qed.
Lemma refined_pos mp per : length per = length mp -> Forall (fun n => 1 <= n) mp -> Forall (fun n => 1 <= n) (refined_size mp per).
Proof. unfold refined_size. revert per. induction mp as [|a l IH]; intros [|b per] L H; try discriminate; [constructor|]. inversion H; subst. cbn [zip_with]. constructor; [destruct b; lia|apply IH; auto]. Qed.

(** the two .pvts files describe the pressure and the velocity grid cut in the files of the processes; their pieces lie in the whole extent exactly when
    no axis is periodic (the ghost layer of a periodic axis is written outside the grid) *)
Theorem C63_parallel_files : forall h mp per dms u p out, length h = length mp -> grid_ok mp per -> stokes_layout mp per (length mp) dms ->
  save_VTK h dms u p = Ok out ->
  describes mp (out_pressure out) (out_pvts_pressure out) /\ describes (refined_size mp per) (out_velocity out) (out_pvts_velocity out) /\
  (pieces_inside (out_pvts_pressure out) <-> Forall (fun b => b = false) per) /\ (pieces_inside (out_pvts_velocity out) <-> Forall (fun b => b = false) per).
Proof.
  intros h mp per dms u p out Lh HG HS E. destruct (save_VTK_runs h mp per dms u p Lh HG HS) as (out' & E' & F1 & F2 & P1 & P2). rewrite E in E'. injection E' as <-.
  destruct HS as (DV & DP & _). pose proof HG as (D23 & Lp & Hm). pose proof (refined_length mp per Lp) as Lv. pose proof (refined_pos mp per Lp Hm) as Hv.
  rewrite (rank0_distributes _ _ _ _ Hm DP) in P1. rewrite (rank0_distributes _ _ _ _ Hv DV) in P2.
  assert (Q1 : out_pvts_pressure out = mkpvts (three (0, 0) (map (fun n => (0, n - 1)) mp)) (numbered (map snd dms))).
  { rewrite P1. destruct D23 as [D|D]; rewrite D in *. - destruct h as [|? [|? [|]]]; try discriminate Lh. apply (pv2_eq mp per 1); auto; apply DP. - destruct h as [|? [|? [|? [|]]]]; try discriminate Lh. apply (pv3_eq mp per 1); auto; apply DP. }
  assert (Q2 : out_pvts_velocity out = mkpvts (three (0, 0) (map (fun n => (0, n - 1)) (refined_size mp per))) (numbered (map fst dms))).
  { rewrite P2. destruct D23 as [D|D]; rewrite D in *. - destruct h as [|? [|? [|]]]; try discriminate Lh. apply (pv2_eq (refined_size mp per) per 2); auto; apply DV. - destruct h as [|? [|? [|? [|]]]]; try discriminate Lh. apply (pv3_eq (refined_size mp per) per 3); auto; apply DV. }
  rewrite Q1, Q2. split; [|split; [|split]].
  - apply (numbered_describes mp per 1); auto. clear - F1. induction F1 as [|a b l l' (_ & X & Y) F IH]; constructor; auto.
  - apply (numbered_describes (refined_size mp per) per (length mp)); auto; try lia. clear - F2. induction F2 as [|a b l l' (_ & X & Y) F IH]; constructor; auto.
  - apply (numbered_inside mp per 1); auto.
  - apply (numbered_inside (refined_size mp per) per (length mp)); auto. split; [lia|]. split; [lia|]. exact Hv.
Qed.

(** four processes on a grid periodic in y *)
Example ex_vtk : length [1; 1]%R = length ex_mp /\ grid_ok ex_mp ex_per /\ stokes_layout ex_mp ex_per 2 ex_dms.
Proof. split; [reflexivity|]. split; [apply ex_grid|apply ex_layout]. Qed.

(** ** C64: saveParticles *)
(** what the file must say about one particle: its center, its first shape factor, its force and its torque *)
Definition particle_rows (ps : list (list R * list R)) (fs ts : list (list R)) (f : vtp) : Prop :=
  vtp_points f = map (fun p => three 0%R (fst p)) ps /\ vtp_radius f = map (fun p => nth 0 (snd p) 0%R) ps /\
  vtp_forces f = map (three 0%R) (firstn (length ps) fs) /\ vtp_torques f = firstn (length ps) ts.
(** every center has D coordinates, every particle a shape factor *)
Definition particles_ok (D : nat) (ps : list (list R * list R)) : Prop := Forall (fun p => length (fst p) = D /\ (1 <= length (snd p))%nat) ps.

Lemma vget_ok {A} (l : list A) i a : nth_error l i = Some a -> vget l i = Ok a. Proof. unfold vget. intros ->. reflexivity. Qed.
Lemma nth_lt {A} (l : list A) i : (i < length l)%nat -> exists a, nth_error l i = Some a.
Proof. intros H. destruct (nth_error l i) eqn:E; [eauto|]. apply nth_error_None in E. lia. Qed.
Lemma firstn_snoc {A} (l : list A) n a : nth_error l n = Some a -> firstn (S n) l = firstn n l ++ [a].
Proof. revert n. induction l as [|x l IH]; intros [|n] E; try discriminate; cbn in *; [injection E as ->; reflexivity|]. rewrite <- IH by exact E. reflexivity. Qed.
Lemma for_inv {S} (I : nat -> S -> Prop) n body s : (forall k s, (k < n)%nat -> I k s -> exists s', body k s = Ok s' /\ I (k + 1)%nat s') -> I 0%nat s -> exists s', for_ n body s = Ok s' /\ I n s'.
Proof.
  induction n as [|n IH]; intros H H0; [exists s; split; [reflexivity|exact H0]|]. destruct (IH (fun k s Hk => H k s ltac:(lia)) H0) as (s1 & E & I1). rewrite for_snoc, E. cbn [bind].
  destruct (H n s1 ltac:(lia) I1) as (s2 & E2 & I2). exists s2. rewrite E2. split; [reflexivity|]. replace (Datatypes.S n) with (n + 1)%nat by lia. exact I2.
Qed.

Definition saved (k : nat) (ps : list (list R * list R)) (fs ts : list (list R)) (s : vtp) : Prop :=
  s = mkvtp (map (fun p => three 0%R (fst p)) (firstn k ps)) (map (fun p => nth 0 (snd p) 0%R) (firstn k ps)) (map (three 0%R) (firstn k fs)) (firstn k ts).
Lemma saved_rows ps fs ts s : saved (length ps) ps fs ts s -> particle_rows ps fs ts s.
Proof. unfold saved, particle_rows. rewrite firstn_all. intros ->. cbn. auto. Qed.
Lemma firstn_snoc' {A} (l : list A) n a : nth_error l n = Some a -> firstn (n + 1) l = firstn n l ++ [a].
Proof. rewrite Nat.add_1_r. apply firstn_snoc. Qed.

(** in 2D and in 3D: one row per particle, in the order of the particles: its center (completed by 0), its first shape factor, its force, its torque *)
Theorem C64_particles_with_forces : forall ps fs,
  (forall ts, particles_ok 2 ps -> Forall (fun f => length f = 2%nat) fs -> (length ps <= length fs)%nat -> (length ps <= length ts)%nat ->
     exists f, saveParticles2 ps fs ts = Ok f /\ particle_rows ps fs (map (fun t => [t]) ts) f) /\
  (forall ts, particles_ok 3 ps -> Forall (fun f => length f = 3%nat) fs -> Forall (fun t => length t = 3%nat) ts -> (length ps <= length fs)%nat -> (length ps <= length ts)%nat ->
     exists f, saveParticles3 ps fs ts = Ok f /\ particle_rows ps fs ts f).
Proof.
  intros ps fs. split.
  - intros ts HP HF L1 L2. destruct (for_inv (fun k => saved k ps fs (map (fun t => [t]) ts)) (length ps) (fun i s =>
    bind (vget ps i) (fun p =>
    bind (vget (fst p) 0) (fun x => bind (vget (fst p) 1) (fun y =>
    bind (vget fs i) (fun f => bind (vget f 0) (fun fx => bind (vget f 1) (fun fy =>
    bind (vget ts i) (fun t => bind (vget (snd p) 0) (fun r =>
    Ok (mkvtp (vtp_points s ++ [[x; y; 0%R]]) (vtp_radius s ++ [r]) (vtp_forces s ++ [[fx; fy; 0%R]]) (vtp_torques s ++ [[t]]))))))))))) (mkvtp [] [] [] [])) as (f & E & I); [|reflexivity|exists f; split; [exact E|apply saved_rows, I]].
    intros k s Hk ->. destruct (nth_lt ps k Hk) as ([c sf] & Ep). destruct (nth_lt fs k ltac:(lia)) as (f & Ef). destruct (nth_lt ts k ltac:(lia)) as (t & Et).
    pose proof (nth_error_In _ _ Ep) as Ip. pose proof (nth_error_In _ _ Ef) as If. unfold particles_ok in HP. rewrite Forall_forall in HP, HF. specialize (HP _ Ip). specialize (HF _ If). cbn [fst snd] in HP. destruct HP as [Lc Ls].
    destruct c as [|x [|y [|]]]; try discriminate Lc. destruct f as [|fx [|fy [|]]]; try discriminate HF. destruct sf as [|r sf]; [cbn in Ls; lia|].
    rewrite (vget_ok _ _ _ Ep). cbn [bind fst snd]. rewrite (vget_ok _ _ _ Ef), (vget_ok _ _ _ Et). cbn. eexists. split; [reflexivity|]. unfold saved.
    rewrite (firstn_snoc' ps k _ Ep), (firstn_snoc' fs k _ Ef), (firstn_snoc' (map (fun t => [t]) ts) k [t]) by (rewrite nth_error_map, Et; reflexivity). rewrite !map_app. reflexivity.
  - intros ts HP HF HT L1 L2. destruct (for_inv (fun k => saved k ps fs ts) (length ps) (fun i s =>
    bind (vget ps i) (fun p =>
    bind (vget (fst p) 0) (fun x => bind (vget (fst p) 1) (fun y => bind (vget (fst p) 2) (fun z =>
    bind (vget fs i) (fun f => bind (vget f 0) (fun fx => bind (vget f 1) (fun fy => bind (vget f 2) (fun fz =>
    bind (vget ts i) (fun t => bind (vget t 0) (fun tx => bind (vget t 1) (fun ty => bind (vget t 2) (fun tz =>
    bind (vget (snd p) 0) (fun r =>
    Ok (mkvtp (vtp_points s ++ [[x; y; z]]) (vtp_radius s ++ [r]) (vtp_forces s ++ [[fx; fy; fz]]) (vtp_torques s ++ [[tx; ty; tz]])))))))))))))))) (mkvtp [] [] [] [])) as (f & E & I); [|reflexivity|exists f; split; [exact E|apply saved_rows, I]].
    intros k s Hk ->. destruct (nth_lt ps k Hk) as ([c sf] & Ep). destruct (nth_lt fs k ltac:(lia)) as (f & Ef). destruct (nth_lt ts k ltac:(lia)) as (t & Et).
    pose proof (nth_error_In _ _ Ep) as Ip. pose proof (nth_error_In _ _ Ef) as If. pose proof (nth_error_In _ _ Et) as It. unfold particles_ok in HP. rewrite Forall_forall in HP, HF, HT. specialize (HP _ Ip). specialize (HF _ If). specialize (HT _ It). cbn [fst snd] in HP. destruct HP as [Lc Ls].
    destruct c as [|x [|y [|z [|]]]]; try discriminate Lc. destruct f as [|fx [|fy [|fz [|]]]]; try discriminate HF. destruct t as [|tx [|ty [|tz [|]]]]; try discriminate HT. destruct sf as [|r sf]; [cbn in Ls; lia|].
    rewrite (vget_ok _ _ _ Ep). cbn [bind fst snd]. rewrite (vget_ok _ _ _ Ef), (vget_ok _ _ _ Et). cbn. eexists. split; [reflexivity|]. unfold saved.
    rewrite (firstn_snoc' ps k _ Ep), (firstn_snoc' fs k _ Ef), (firstn_snoc' ts k _ Et). rewrite !map_app. reflexivity.
Qed.
(** without forces: the first two coordinates of the center and the first shape factor: the whole center in 2D *)
Lemma saveParticles_spec ps : Forall (fun p => (2 <= length (fst p))%nat /\ (1 <= length (snd p))%nat) ps ->
  saveParticles ps = Ok (mkvtp (map (fun p => three 0%R (firstn 2 (fst p))) ps) (map (fun p => nth 0 (snd p) 0%R) ps) [] []).
Proof.
  intros HP. destruct (for_inv (fun k s => s = mkvtp (map (fun p => three 0%R (firstn 2 (fst p))) (firstn k ps)) (map (fun p => nth 0 (snd p) 0%R) (firstn k ps)) [] []) (length ps) (fun i s =>
    bind (vget ps i) (fun p =>
    bind (vget (fst p) 0) (fun x => bind (vget (fst p) 1) (fun y => bind (vget (snd p) 0) (fun r =>
    Ok (mkvtp (vtp_points s ++ [[x; y; 0%R]]) (vtp_radius s ++ [r]) [] [])))))) (mkvtp [] [] [] [])) as (f & E & I); [|reflexivity|].
  - intros k s Hk ->. destruct (nth_lt ps k Hk) as ([c sf] & Ep). pose proof (nth_error_In _ _ Ep) as Ip. rewrite Forall_forall in HP. specialize (HP _ Ip). cbn [fst snd] in HP. destruct HP as [Lc Ls].
    destruct c as [|x [|y c]]; try (cbn in Lc; lia). destruct sf as [|r sf]; [cbn in Ls; lia|]. rewrite (vget_ok _ _ _ Ep). cbn. eexists. split; [reflexivity|]. rewrite (firstn_snoc' ps k _ Ep), !map_app. reflexivity.
  - unfold saveParticles. rewrite E, I, firstn_all. reflexivity.
Qed.
Theorem C64_particles_2d : forall ps, particles_ok 2 ps ->
  saveParticles ps = Ok (mkvtp (map (fun p => three 0%R (fst p)) ps) (map (fun p => nth 0 (snd p) 0%R) ps) [] []).
Proof.
  intros ps HP. rewrite saveParticles_spec; [|revert HP; apply Forall_impl; intros p [A B]; lia]. do 2 f_equal. apply map_ext_in. intros p Hp. unfold particles_ok in HP. rewrite Forall_forall in HP. destruct (HP p Hp) as [L _].
  rewrite <- L, firstn_all. reflexivity.
Qed.
(** in 3D this overload writes every particle in the plane z = 0: two different configurations give the same file *)
Theorem C64_particles_3d_refuted : 
  (forall ps, particles_ok 3 ps -> exists f, saveParticles ps = Ok f /\ forall q, In q (vtp_points f) -> nth 2 q 0%R = 0%R) /\
  (exists ps ps', particles_ok 3 ps /\ particles_ok 3 ps' /\ map fst ps <> map fst ps' /\ saveParticles ps = saveParticles ps').
Proof.
  split.
  - intros ps HP. eexists. split; [apply saveParticles_spec; revert HP; apply Forall_impl; intros p [A B]; lia|]. cbn [vtp_points]. intros q Hq. apply in_map_iff in Hq. destruct Hq as (p & <- & Hp). unfold particles_ok in HP. rewrite Forall_forall in HP. destruct (HP p Hp) as [L _].
    destruct (fst p) as [|x [|y c]]; try discriminate L. reflexivity.
  - exists [([0; 0; 0]%R, [1%R])], [([0; 0; 1]%R, [1%R])]. split; [repeat constructor|]. split; [repeat constructor|]. split; [|reflexivity]. cbn. intros E. injection E. intros E'. symmetry in E'. revert E'. apply R1_neq_R0.
Qed.
(** a missing force or torque is read all the same *)
Theorem C64_short_lists_refuted : forall ps fs ts, particles_ok 2 ps -> Forall (fun f => length f = 2%nat) fs -> (length fs < length ps)%nat \/ (length ts < length ps)%nat -> saveParticles2 ps fs ts = UB.
Proof.
  intros ps fs ts HP HF HL. unfold saveParticles2. set (body := fun (i : nat) (s : vtp) => _).
  assert (K : forall n, (n <= length ps)%nat -> (exists s, for_ n body (mkvtp [] [] [] []) = Ok s /\ (n <= length fs)%nat /\ (n <= length ts)%nat) \/ for_ n body (mkvtp [] [] [] []) = UB).
  { induction n as [|n IH]; intros Hn; [left; exists (mkvtp [] [] [] []); split; [reflexivity|lia]|]. rewrite for_snoc. destruct (IH ltac:(lia)) as [(s & E & A & B)|E]; rewrite E; cbn [bind]; [|right; reflexivity].
    destruct (nth_lt ps n ltac:(lia)) as ([c sf] & Ep). pose proof (nth_error_In _ _ Ep) as Ip. unfold particles_ok in HP. rewrite Forall_forall in HP. destruct (HP _ Ip) as [Lc Ls]. cbn [fst snd] in *. destruct c as [|x [|y [|]]]; try discriminate Lc. destruct sf as [|r sf]; [cbn in Ls; lia|].
    unfold body. rewrite (vget_ok _ _ _ Ep). cbn [bind fst snd]. unfold vget. cbn [nth_error bind]. destruct (nth_error fs n) as [f|] eqn:Ef; cbn [bind]; [|right; reflexivity].
    pose proof (nth_error_In _ _ Ef) as If. rewrite Forall_forall in HF. specialize (HF _ If). destruct f as [|fx [|fy [|]]]; try discriminate HF. cbn [nth_error bind]. destruct (nth_error ts n) as [t|] eqn:Et; cbn [bind]; [|right; reflexivity].
    left. eexists. split; [reflexivity|]. split; apply nth_error_Some; congruence. }
  destruct (K (length ps) (le_n _)) as [(s & _ & A & B)|E]; [lia|exact E].
Qed.
Example ex_particles_vtk : particles_ok 2 [([0; 1]%R, [2%R]); ([3; 4]%R, [5%R; 6%R])] /\ Forall (fun f => length f = 2%nat) [[1; 1]; [2; 2]]%R.
Proof. split; repeat constructor. Qed.
Print Assumptions C63_parallel_files.
Print Assumptions C64_particles_with_forces.
