(** Property C79: the sample of the surface of a 3D particle. *)
From Verif Require Import Base M_Geometry S_Geometry M_Shapes S_Shapes P_Geometry P_Pow P_Shapes P_Sampling.
From Verif Require Import M_Shapes3 P_Sampling3 P_Surface3.
Open Scope R_scope.

(** one horizontal ring: phi > 0 *)
Theorem C79_ring_sample : forall fuel a b n k z phi tol l, 0 < a -> 0 < b -> 0 < n -> 0 < k -> 0 < tol -> 0 < phi ->
  uniform_sampling3 fuel a b (2 / n) k z phi tol = Ok l ->
  (forall p, In p l -> cpow (Rabs (p30 p / a)) n + cpow (Rabs (p31 p / b)) n = cpow phi n /\ p32 p = z) /\ NoDup l /\
  invariant_under (fun p => (- p30 p, p31 p, p32 p)) l /\ invariant_under (fun p => (p30 p, - p31 p, p32 p)) l /\
  sumR (map p30 l) = 0 /\ sumR (map p31 l) = 0 /\ (exists m, (1 <= m)%nat /\ length l = (8 * m - 4)%nat).
Proof.
  intros fuel a b n k z phi tol l Ha Hb Hn Hk Ht Hp H. assert (Hm : 0 < 2 / n) by (apply Rdiv_lt_0_compat; lra).
  pose proof (ring_props fuel a b (2 / n) k z phi tol l Ha Hb Hm Hk Ht Hp H) as P. replace (2 / (2 / n)) with n in P by (field; lra). exact P.
Qed.
Print Assumptions C79_ring_sample.
(** the ring of zero width is the same point four times; every ring terminates *)
Theorem C79_ring_terminates : forall a b n k z phi tol, 0 < n -> 0 < k -> 0 < tol -> 0 <= phi ->
  exists N l, (phi = 0 -> l = [(0, 0, z); (0, 0, z); (0, 0, z); (0, 0, z)]) /\ forall fuel, (N <= fuel)%nat -> uniform_sampling3 fuel a b (2 / n) k z phi tol = Ok l.
Proof.
  intros a b n k z phi tol Hn Hk Ht Hp. assert (Hm : 0 < 2 / n) by (apply Rdiv_lt_0_compat; lra). destruct (ring_terminates a b (2 / n) k z phi tol Hm Hk Ht Hp) as (N & l & H).
  exists (Nat.max 1 N), l. split; [|intros fuel Hf; apply H; lia]. intros ->. specialize (H (Nat.max 1 N) ltac:(lia)). rewrite pole in H by lia. injection H as <-. reflexivity.
Qed.
Print Assumptions C79_ring_terminates.
(** the whole surface: returns for enough fuel; its points lie on the super-ellipsoid with the two exponents exchanged, symmetric about the three planes
    through the centre, with centroid the centre *)
Theorem C79_surface_3d_sample : forall cx cy cz a b d n e q k0 k1 tol, 0 < a -> 0 < b -> 0 < d -> 0 < n -> 0 < e -> 0 < k0 -> 0 < k1 -> 0 < tol ->
  let s := se3_make (cx, cy, cz) (a, b, d) n e q in
  exists N N2 l, (forall fuel fuel2, (N <= fuel)%nat -> (N2 <= fuel2)%nat -> surface3_room fuel fuel2 s k0 k1 tol = Ok l) /\
    (forall p, In p l -> super_ellipsoid_level (cx, cy, cz) (a, b, d) e n p = 1) /\
    (n = e -> forall p, In p l -> implicit3 s p = 1 /\ contains3 s p = false) /\
    invariant_under (fun p => (2 * cx - p30 p, p31 p, p32 p)) l /\ invariant_under (fun p => (p30 p, 2 * cy - p31 p, p32 p)) l /\ invariant_under (fun p => (p30 p, p31 p, 2 * cz - p32 p)) l /\
    sumR (map p30 l) = INR (length l) * cx /\ sumR (map p31 l) = INR (length l) * cy /\ sumR (map p32 l) = INR (length l) * cz.
Proof.
  intros cx cy cz a b d n e q k0 k1 tol Ha Hb Hd Hn He Hk0 Hk1 Ht s.
  destruct (room_terminates cx cy cz a b d e n k0 k1 tol q) as (N & N2 & l & H); try assumption. exists N, N2, l. split; [exact H|].
  specialize (H N N2 ltac:(lia) ltac:(lia)). destruct (room_props cx cy cz a b d e n k0 k1 tol q Ha Hb Hd He Hn Hk0 Hk1 Ht _ _ _ H) as (P1 & P2). split; [exact P1|]. split; [|exact P2].
  intros E p Hp. assert (I : implicit3 s p = 1). { unfold s. rewrite implicit3_level by lra. rewrite <- (P1 p Hp), E. reflexivity. } split; [exact I|]. unfold contains3. rewrite I. destruct (Rltb_spec 1 1); [lra|reflexivity].
Qed.
Print Assumptions C79_surface_3d_sample.
(** for a sphere the rings are the parallels at the latitudes i k1 and pi/2 - i k1, each cut at equal arcs of length r k0 *)
Theorem C79_sphere_rings : forall fuel fuel2 cx cy cz r k0 k1 tol q l i j, 0 < r -> 0 < k0 -> 0 < k1 -> 0 < tol ->
  surface3_room fuel fuel2 (sphere_make (cx, cy, cz) r q) k0 k1 tol = Ok l -> INR i * k1 < PI / 4 ->
  let th := INR i * k1 in
  (INR j * (k0 / cos th) < PI / 4 -> let eta := INR j * (k0 / cos th) in In (cx + r * cos th * cos eta, cy + r * cos th * sin eta, cz + r * sin th) l) /\
  ((0 < i)%nat -> INR j * (k0 / sin th) < PI / 4 -> let eta := INR j * (k0 / sin th) in In (cx + r * sin th * cos eta, cy + r * sin th * sin eta, cz + r * cos th) l).
Proof. exact sphere_room_points. Qed.
Print Assumptions C79_sphere_rings.
(** exponents that differ: the equator ring leaves the surface of the particle itself, inside it when n < e and outside when e < n *)
Theorem C79_exchanged_exponents_refuted : forall fuel fuel2 cx cy cz a b d n e q k0 k1 tol l,
  0 < a -> 0 < b -> 0 < d -> 0 < n -> 0 < e -> 0 < k0 -> 0 < k1 -> 0 < tol -> cpow k0 (n / 2) < PI / 4 -> n <> e ->
  let s := se3_make (cx, cy, cz) (a, b, d) n e q in
  surface3_room fuel fuel2 s k0 k1 tol = Ok l ->
  exists p, In p l /\ (n < e -> contains3 s p = true) /\ (e < n -> 1 < implicit3 s p).
Proof.
  intros fuel fuel2 cx cy cz a b d n e q k0 k1 tol l Ha Hb Hd Hn He Hk0 Hk1 Ht Hs Hne s H.
  destruct (room_equator cx cy cz a b d e n k0 k1 tol q Ha Hb Hd He Hn Hk0 Hk1 Ht _ _ _ Hs H) as (x & y & Hx & Hy & E & Hin). exists (cx + a * x, cy + b * y, cz). split; [exact Hin|].
  destruct (exchanged_level x y n e Hx Hy Hn He E) as [X1 X2].
  assert (I : implicit3 s (cx + a * x, cy + b * y, cz) = cpow (cpow x e + cpow y e) (n / e)).
  { unfold s. rewrite implicit3_level by lra. unfold super_ellipsoid_level. replace ((cx + a * x - cx) / a) with x by (field; lra). replace ((cy + b * y - cy) / b) with y by (field; lra). replace ((cz - cz) / d) with 0 by (field; lra). rewrite Rabs_R0, !Rabs_pos_eq, (cpow_0_l n) by lra. ring. }
  split; intros L; [unfold contains3; rewrite I; destruct (Rltb_spec (cpow (cpow x e + cpow y e) (n / e)) 1) as [|K]; [reflexivity|specialize (X1 L); lra]|rewrite I; apply X2, L].
Qed.
Print Assumptions C79_exchanged_exponents_refuted.
(** the poles are returned four times each *)
Theorem C79_points_repeated_refuted : forall fuel fuel2 cx cy cz a b d n e q k0 k1 tol l,
  0 < a -> 0 < b -> 0 < d -> 0 < n -> 0 < e -> 0 < k0 -> 0 < k1 -> 0 < tol ->
  surface3_room fuel fuel2 (se3_make (cx, cy, cz) (a, b, d) n e q) k0 k1 tol = Ok l ->
  (exists l1 l2 l3, l = l1 ++ repeat (cx, cy, cz + d) 4 ++ l2 ++ repeat (cx, cy, cz - d) 4 ++ l3) /\ ~ NoDup l.
Proof.
  intros fuel fuel2 cx cy cz a b d n e q k0 k1 tol l Ha Hb Hd Hn He Hk0 Hk1 Ht H.
  pose proof (room_poles cx cy cz a b d e n k0 k1 tol q Ha Hb Hd He Hn Hk0 Hk1 Ht _ _ _ H) as P. split; [exact P|]. destruct P as (l1 & l2 & l3 & ->). intros N. apply NoDup_remove_2 with (l := l1) (a := (cx, cy, cz + d)) in N. apply N. apply in_or_app. right. left. reflexivity.
Qed.
Print Assumptions C79_points_repeated_refuted.
Close Scope R_scope.
