(** C83: triangulation of a set of points. *)
From Verif Require Import Base M_Geometry M_Particle M_Quadrature M_MatElem M_Mesh M_Operator P_Operator P_ParticleOp P_Problem P_Prealloc.
From Verif Require Import M_Triang.

Lemma vec_set_app {A} (l1 l2 : list A) x v : vec_set (l1 ++ x :: l2) (length l1) v = Ok (l1 ++ v :: l2).
Proof. unfold vec_set. rewrite (proj2 (Nat.ltb_lt _ _)) by (rewrite app_length; cbn; lia). rewrite set_nth_app. reflexivity. Qed.

Section Coords.
  Context {A : Type} (z : A) (D : nat).
  Lemma coords_row (p : list A) (l1 l2 : list A) : length p = D -> forall k, (k <= D)%nat ->
    for_ k (fun c coords => vec_set coords (length l1 + c) (nth c p z)) (l1 ++ repeat z D ++ l2) = Ok (l1 ++ firstn k p ++ repeat z (D - k) ++ l2).
  Proof.
    intros Hp. induction k as [|k IH]; intros Hk; [rewrite Nat.sub_0_r; reflexivity|].
    rewrite for_snoc, IH by lia. cbn [bind]. replace (D - k)%nat with (S (D - S k)) by lia. cbn [repeat app].
    assert (L : length (l1 ++ firstn k p) = (length l1 + k)%nat) by (rewrite app_length, firstn_length; lia).
    rewrite (app_assoc l1 (firstn k p)), <- L, vec_set_app, <- app_assoc. f_equal. f_equal.
    rewrite (app_assoc (firstn k p) [nth k p z] (repeat z (D - S k) ++ l2)) at 1 || idtac.
    assert (E : firstn (S k) p = firstn k p ++ [nth k p z]).
    { clear - Hp Hk. revert k p Hp Hk. induction D as [|d IH]; intros k p Hp Hk; [lia|]. destruct p as [|a p]; [discriminate|]. destruct k as [|k]; [reflexivity|]. cbn. f_equal. apply IH; cbn in Hp; lia. }
    rewrite E, <- app_assoc. reflexivity.
  Qed.
  Lemma coords_ok points : Forall (fun p => length p = D) points -> coords_of z D points = Ok (concat points).
  Proof.
    intros HF. unfold coords_of.
    assert (G : forall k, (k <= length points)%nat -> for_ k (fun i coords => for_ D (fun c coords => vec_set coords (D * i + c) (nth c (nth i points []) z)) coords) (repeat z (length points * D))
      = Ok (concat (firstn k points) ++ repeat z ((length points - k) * D))).
    { induction k as [|k IH]; intros Hk; [rewrite Nat.sub_0_r; reflexivity|]. rewrite for_snoc, IH by lia. cbn [bind].
      replace (length points - k)%nat with (S (length points - S k)) by lia. cbn [Nat.mul]. rewrite repeat_app.
      assert (LC : length (concat (firstn k points)) = (D * k)%nat).
      { clear IH. assert (Hk' : (k <= length points)%nat) by lia. clear Hk. revert k Hk'. induction HF as [|p ps Hp _ IHF]; intros [|k] Hk'; cbn in *; try lia. rewrite app_length, IHF by lia. lia. }
      assert (Hp : length (nth k points []) = D) by (rewrite Forall_forall in HF; apply HF, nth_In; lia).
      pose proof (coords_row (nth k points []) (concat (firstn k points)) (repeat z ((length points - S k) * D)) Hp D (le_n D)) as C. rewrite LC in C. rewrite C.
      rewrite Nat.sub_diag. cbn [repeat app]. rewrite <- Hp at 1. rewrite firstn_all.
      assert (E : concat (firstn (S k) points) = concat (firstn k points) ++ nth k points []).
      { clear - Hk. revert k Hk. induction points as [|a l IH]; intros k Hk; [cbn in Hk; lia|]. destruct k as [|k]; [cbn; rewrite app_nil_r; reflexivity|]. change (a ++ concat (firstn (S k) l) = (a ++ concat (firstn k l)) ++ nth k l []). rewrite IH by (cbn in Hk; lia). apply app_assoc. }
      rewrite E, <- app_assoc. reflexivity. }
    rewrite G by lia. rewrite firstn_all, Nat.sub_diag, app_nil_r. reflexivity.
  Qed.
End Coords.

Lemma set3 v t : length v = 3%nat -> length t = 3%nat -> set_vertices v 0 t = Ok v.
Proof. destruct v as [|a [|b [|c [|]]]]; cbn; try discriminate. destruct t as [|x [|y [|w [|]]]]; cbn; try discriminate. reflexivity. Qed.
Lemma set_too_many vs : forall ns t, length t = 3%nat -> (ns <= 3)%nat -> (3 < ns + length vs)%nat -> set_vertices vs ns t = UB.
Proof.
  induction vs as [|v vs IH]; intros ns t Ht Hn Hl; cbn in Hl; [lia|]. cbn. unfold vec_set. destruct (Nat.ltb_spec ns (length t)) as [L|L]; cbn [bind]; [|reflexivity].
  apply IH; [rewrite len_set_nth; exact Ht|lia|lia].
Qed.
Section Loop.
  Variable keep : facet -> bool.
  Definition tri_step (f : facet) (s : nat * list (list Z)) : outcome (nat * list (list Z)) :=
    if keep f then bind (store_facet f (fst s) (snd s)) (fun ts => Ok (S (fst s), ts)) else Ok s.
  Lemma tri_loop fs : (forall f, In f fs -> keep f = true -> length (f_vertices f) = 3%nat) -> forall done rest, (length (filter keep fs) <= length rest)%nat -> Forall (fun t : list Z => length t = 3%nat) rest ->
    fold_left (fun o f => bind o (tri_step f)) fs (Ok (length done, done ++ rest)) =
    Ok (length done + length (filter keep fs), done ++ map f_vertices (filter keep fs) ++ skipn (length (filter keep fs)) rest)%nat.
  Proof.
    induction fs as [|f fs IH]; intros H3 done rest HL HR; cbn [fold_left filter map length].
    - cbn. rewrite Nat.add_0_r. reflexivity.
    - cbn [bind]. unfold tri_step at 2. cbn [filter] in HL. pose proof (H3 f (or_introl eq_refl)) as Hf. destruct (keep f) eqn:Ek.
      + cbn [length] in HL. destruct rest as [|t rest]; [cbn in HL; lia|]. inversion HR as [|? ? Ht HR']; subst. cbn [fst snd]. specialize (Hf eq_refl).
        assert (E : store_facet f (length done) (done ++ t :: rest) = Ok (done ++ f_vertices f :: rest)).
        { unfold store_facet. destruct (f_vertices f) as [|v vs] eqn:Ev; [discriminate|]. rewrite <- Ev in *. rewrite (proj2 (Nat.ltb_lt _ _)) by (rewrite app_length; cbn; lia).
          rewrite app_nth2, Nat.sub_diag by lia. cbn [nth]. rewrite set3 by (rewrite ?Ev in Hf |- *; assumption). cbn [bind]. apply vec_set_app. }
        rewrite E. cbn [bind]. replace (S (length done)) with (length (done ++ [f_vertices f])) by (rewrite app_length; cbn; lia).
        replace (done ++ f_vertices f :: rest) with ((done ++ [f_vertices f]) ++ rest) by (rewrite <- app_assoc; reflexivity).
        rewrite IH; [|intros; apply H3; [right|]; assumption|cbn in HL; lia|exact HR']. cbn [length map app skipn]. rewrite app_length, <- app_assoc. cbn. f_equal. f_equal. lia.
      + apply IH; [intros; apply H3; [right|]; assumption|exact HL|exact HR].
  Qed.
  Lemma tri_fail fs : forall s, Forall (fun t : list Z => length t = 3%nat) (snd s) -> (exists f, In f fs /\ keep f = true /\ (3 < length (f_vertices f))%nat) -> 
    fold_left (fun o f => bind o (tri_step f)) fs (Ok s) = UB.
  Proof.
    induction fs as [|f fs IH]; intros s HS (g & Hg & Kg & Lg); [destruct Hg|]. cbn [fold_left bind].
    assert (Hub : forall l, fold_left (fun o f => bind o (tri_step f)) l UB = UB) by (induction l; [reflexivity|assumption]).
    assert (ST : forall s', tri_step f s = Ok s' -> Forall (fun t : list Z => length t = 3%nat) (snd s')).
    { intros s'. unfold tri_step. destruct (keep f); [|intros E; injection E as <-; exact HS]. unfold store_facet. destruct (f_vertices f) as [|v vs]; [intros E; injection E as <-; exact HS|].
      destruct (Nat.ltb_spec (fst s) (length (snd s))) as [L|L]; [|discriminate]. assert (SL : forall vs ns t t', set_vertices vs ns t = Ok t' -> length t' = length t).
      { clear. induction vs as [|v vs IH]; intros ns t t'; cbn; [intros E; injection E as <-; reflexivity|]. unfold vec_set. destruct (Nat.ltb _ _); cbn [bind]; [|discriminate]. intros E. rewrite (IH _ _ _ E). apply len_set_nth. }
      destruct (set_vertices (v :: vs) 0 (nth (fst s) (snd s) [])) as [t| | |] eqn:E; cbn [bind]; try discriminate. apply SL in E. unfold vec_set. destruct (Nat.ltb _ _); cbn [bind]; [|discriminate]. intros E'. injection E' as <-. cbn [snd].
      rewrite Forall_forall in HS |- *. intros x Hx. apply (In_nth _ _ []) in Hx as (i & Hi & <-). rewrite len_set_nth in Hi. destruct (Nat.eq_dec (fst s) i) as [<-|N].
      - rewrite nth_set_nth_eq by exact L. rewrite E. apply HS, nth_In, L.
      - rewrite nth_set_nth_neq by exact N. apply HS, nth_In, Hi. }
    assert (NA : forall vs ns t, set_vertices vs ns t = UB \/ exists t', set_vertices vs ns t = Ok t').
    { clear. induction vs as [|v vs IH]; intros ns t; cbn; [eauto|]. unfold vec_set. destruct (Nat.ltb _ _); cbn [bind]; [apply IH|left; reflexivity]. }
    assert (SN : tri_step f s = UB \/ exists s', tri_step f s = Ok s').
    { unfold tri_step. destruct (keep f); [|eauto]. unfold store_facet. destruct (f_vertices f) as [|v vs]; [cbn; eauto|]. destruct (Nat.ltb _ _); [|left; reflexivity]. destruct (NA (v :: vs) 0%nat (nth (fst s) (snd s) [])) as [->|[t' ->]]; [left; reflexivity|]. cbn [bind]. unfold vec_set. destruct (Nat.ltb _ _); cbn [bind]; eauto. }
    destruct Hg as [<-|Hg].
    - assert (E : tri_step f s = UB).
      { unfold tri_step. rewrite Kg. unfold store_facet. destruct (f_vertices f) as [|v vs] eqn:Ev; [cbn in Lg; lia|]. destruct (Nat.ltb_spec (fst s) (length (snd s))) as [L|L]; [|reflexivity].
        rewrite set_too_many; [reflexivity| |lia|exact Lg]. rewrite Forall_forall in HS. apply HS, nth_In, L. }
      rewrite E. apply Hub.
    - destruct SN as [E|[s' E]]; rewrite E; [apply Hub|]. apply IH; [apply ST, E|eauto].
  Qed.
End Loop.
Lemma tri3_loop fs : forall o : outcome (nat * list (list Z)), fold_left (fun o f => bind o (fun s : nat * list (list Z) => bind (store_facet f (fst s) (snd s)) (fun ts => Ok (S (fst s), ts)))) fs o = fold_left (fun o f => bind o (tri_step (fun _ => true) f)) fs o.
Proof. induction fs as [|f fs IH]; intros o; [reflexivity|]. cbn [fold_left]. apply IH. Qed.
Lemma filter_true {A} (l : list A) : filter (fun _ => true) l = l.
Proof. induction l as [|a l IH]; cbn; congruence. Qed.
Lemma zeros_ok n : Forall (fun t : list Z => length t = 3%nat) (repeat [0; 0; 0]%Z n).
Proof. apply Forall_forall. intros t Ht. apply repeat_spec in Ht. subst. reflexivity. Qed.
Lemma filter_len {A} (f : A -> bool) l : (length (filter f l) + length (filter (fun x => negb (f x)) l) = length l)%nat.
Proof. induction l as [|a l IH]; [reflexivity|]. cbn. destruct (f a); cbn; lia. Qed.
Lemma skipn_repeat {A} (x : A) k n : skipn k (repeat x n) = repeat x (n - k).
Proof. revert n. induction k as [|k IH]; intros [|n]; cbn; auto. Qed.

(** In 3D the triangles are the facets of the hull of the points, in Qhull's order, each with its three vertices; Qhull gets the coordinates
    point after point. *)
Theorem C83_surface_3d : forall {A} (z : A) (qhull : qhull_fn A) points, Forall (fun p => length p = 3%nat) points ->
  let facets := qhull 3%nat (length points) (concat points) in
  (forall f, In f facets -> length (f_vertices f) = 3%nat) -> triangulation z qhull 3 points = Ok (map f_vertices facets).
Proof.
  intros A z qhull points HP facets H3. cbn. unfold triangulation3. rewrite (coords_ok z 3 points HP). cbn [bind]. fold facets. rewrite tri3_loop.
  pose proof (tri_loop (fun _ => true) facets (fun f Hf _ => H3 f Hf) [] (repeat [0; 0; 0]%Z (length facets))) as T. rewrite filter_true in T. cbn [length app] in T. rewrite T; [|rewrite repeat_length; lia|apply zeros_ok]. cbn [bind snd].
  rewrite skipn_repeat, Nat.sub_diag, app_nil_r. reflexivity.
Qed.
(** In 2D the triangles are the facets marked tri-coplanar, in Qhull's order, followed by one triangle (0,0,0) for every other facet. *)
Theorem C83_delaunay_2d : forall {A} (z : A) (qhull : qhull_fn A) points, Forall (fun p => length p = 2%nat) points ->
  let facets := qhull 2%nat (length points) (concat points) in
  (forall f, In f facets -> f_tricoplanar f = true -> length (f_vertices f) = 3%nat) ->
  triangulation z qhull 2 points = Ok (map f_vertices (filter f_tricoplanar facets) ++ repeat [0; 0; 0]%Z (length (filter (fun f => negb (f_tricoplanar f)) facets))).
Proof.
  intros A z qhull points HP facets H3. cbn. unfold triangulation2. rewrite (coords_ok z 2 points HP). cbn [bind]. fold facets.
  change (fun o f => bind o (fun s : nat * list (list Z) => if f_tricoplanar f then bind (store_facet f (fst s) (snd s)) (fun ts => Ok (S (fst s), ts)) else Ok s)) with (fun o f => bind o (tri_step f_tricoplanar f)).
  pose proof (filter_len f_tricoplanar facets) as FL. pose proof (tri_loop f_tricoplanar facets H3 [] (repeat [0; 0; 0]%Z (length facets))) as T. cbn [length app] in T. rewrite T; [|rewrite repeat_length; lia|apply zeros_ok]. cbn [bind snd].
  rewrite skipn_repeat. do 2 f_equal. f_equal. lia.
Qed.
(** So a single ordinary facet (points in general position) is enough for the 2D result to contain a triangle that is no facet. *)
Theorem C83_delaunay_2d_refuted : forall {A} (z : A) (qhull : qhull_fn A) points, Forall (fun p => length p = 2%nat) points ->
  let facets := qhull 2%nat (length points) (concat points) in
  (forall f, In f facets -> length (f_vertices f) = 3%nat /\ NoDup (f_vertices f)) -> (exists f, In f facets /\ f_tricoplanar f = false) ->
  exists ts, triangulation z qhull 2 points = Ok ts /\ length ts = length facets /\ (exists t, In t ts /\ ~ In t (map f_vertices facets)) /\
    ((forall f, In f facets -> f_tricoplanar f = false) -> forall t, In t ts -> t = [0; 0; 0]%Z).
Proof.
  intros A z qhull points HP facets H3 (f & Hf & Ef). eexists. split; [apply (C83_delaunay_2d z qhull points HP); intros; apply H3; assumption|]. fold facets. split; [|split].
  - rewrite app_length, map_length, repeat_length. apply filter_len.
  - exists [0; 0; 0]%Z. split.
    + apply in_or_app. right. assert (I : In f (filter (fun f => negb (f_tricoplanar f)) facets)) by (apply filter_In; rewrite Ef; split; auto). destruct (filter _ _) as [|a l]; [destruct I|]. cbn. left. reflexivity.
    + intros Hi. apply in_map_iff in Hi as (g & Eg & Hg). destruct (H3 g Hg) as [_ ND]. rewrite Eg in ND. inversion ND as [|? ? N _]. apply N. left. reflexivity.
  - intros H t Ht. assert (E : filter f_tricoplanar facets = []). { clear - H. induction facets as [|a l IH]; [reflexivity|]. cbn. rewrite (H a) by (left; reflexivity). apply IH. intros; apply H; right; assumption. }
    rewrite E in Ht. cbn in Ht. apply repeat_spec in Ht. exact Ht.
Qed.
(** A facet with more than three vertices is written past the end of its triangle. *)
Theorem C83_larger_facets : forall {A} (z : A) (qhull : qhull_fn A) points D, D = 2%nat \/ D = 3%nat -> Forall (fun p => length p = D) points ->
  (exists f, In f (qhull D (length points) (concat points)) /\ (D = 3%nat \/ f_tricoplanar f = true) /\ (3 < length (f_vertices f))%nat) -> triangulation z qhull D points = UB.
Proof.
  intros A z qhull points D HD HP (f & Hf & Hk & HL). destruct HD as [->| ->]; cbn.
  - unfold triangulation2. rewrite (coords_ok z 2 points HP). cbn [bind].
    change (fun o f => bind o (fun s : nat * list (list Z) => if f_tricoplanar f then bind (store_facet f (fst s) (snd s)) (fun ts => Ok (S (fst s), ts)) else Ok s)) with (fun o f => bind o (tri_step f_tricoplanar f)).
    rewrite (tri_fail f_tricoplanar _ (0%nat, _)); [reflexivity|apply zeros_ok|]. exists f. destruct Hk as [Hk|Hk]; [discriminate|]. auto.
  - unfold triangulation3. rewrite (coords_ok z 3 points HP). cbn [bind]. rewrite tri3_loop. rewrite (tri_fail (fun _ => true) _ (0%nat, _)); [reflexivity|apply zeros_ok|]. exists f. auto.
Qed.
(** Cases: a tetrahedron in 3D; in 2D a square (Qhull splits its coplanar facet in two tri-coplanar ones) beside a point in general position. *)
Definition tetra_hull : qhull_fn Z := fun _ _ _ => [mkfacet false [0; 1; 2]; mkfacet false [0; 1; 3]; mkfacet false [0; 2; 3]; mkfacet false [1; 2; 3]]%Z.
Example C83_example_3d : triangulation 0%Z tetra_hull 3 [[0; 0; 0]; [1; 0; 0]; [0; 1; 0]; [0; 0; 1]]%Z = Ok [[0; 1; 2]; [0; 1; 3]; [0; 2; 3]; [1; 2; 3]]%Z.
Proof. apply (C83_surface_3d 0%Z tetra_hull); [repeat constructor|]. cbn. intros f H. repeat (destruct H as [<-|H]; [reflexivity|]). destruct H. Qed.
Definition square_hull : qhull_fn Z := fun _ _ _ => [mkfacet false [1; 2; 4]; mkfacet true [0; 1; 2]; mkfacet true [1; 2; 3]]%Z.
Example C83_example_2d : triangulation 0%Z square_hull 2 [[0; 0]; [2; 0]; [0; 2]; [2; 2]; [9; 7]]%Z = Ok [[0; 1; 2]; [1; 2; 3]; [0; 0; 0]]%Z.
Proof. reflexivity. Qed.
Example C83_example_refuted : (forall f, In f (square_hull 2%nat 5%nat []) -> length (f_vertices f) = 3%nat /\ NoDup (f_vertices f)) /\ exists f, In f (square_hull 2%nat 5%nat []) /\ f_tricoplanar f = false.
Proof.
  split; [|eexists; split; [left; reflexivity|reflexivity]]. cbn. intros f H. repeat (destruct H as [<-|H]; [split; [reflexivity|repeat constructor; cbn; lia]|]). destruct H.
Qed.
Definition quad_hull : qhull_fn Z := fun _ _ _ => [mkfacet false [0; 1; 2; 3]]%Z.
Example C83_example_larger : triangulation 0%Z quad_hull 3 [[0; 0; 0]; [1; 0; 0]; [0; 1; 0]; [1; 1; 0]]%Z = UB.
Proof. apply (C83_larger_facets 0%Z quad_hull); [right; reflexivity|repeat constructor|]. eexists. split; [left; reflexivity|]. split; [left; reflexivity|cbn; lia]. Qed.
