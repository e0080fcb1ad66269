From Flocq Require Import Core BinarySingleNaN Plus_error Relative.
From Verif Require Import Base M_Geometry S_Geometry P_Geometry M_Particle S_Particle P_Particle.
From Verif Require Import M_Double S_Double P_Double P_Double2 P_Double3 P_Double4 P_Double5.
Open Scope R_scope.
Definition cells_of (h p : list double) : list Z := zip_with (fun x hh => match dcell x hh with Ok i => i | _ => 0%Z end) p h.
Lemma dcells_ok h p : length p = length h -> (forall a, (a < length h)%nat -> surface_coordinate (nth a h dzero) (nth a p dzero)) -> dcells p h = Ok (cells_of h p).
Proof.
  unfold dcells, cells_of. revert h. induction p as [|x p IH]; intros [|hh h] L HC; simpl in L; try discriminate; [reflexivity|]. simpl.
  destruct (HC 0%nat ltac:(simpl; lia)) as (F1 & F2 & H1 & H2 & H3 & H4). simpl in *. assert (P0 : 0 < / 2 ^ 1022) by (apply Rinv_0_lt_compat, pow_lt; lra).
  destruct (dcell_ok x hh F2 F1 ltac:(lra) H3 H4) as (i & E & _). rewrite E. simpl. rewrite (IH h); [reflexivity|lia|]. intros a Ha. apply (HC (S a)). simpl; lia.
Qed.
Lemma cells_of_nth h p : length p = length h -> forall a, (a < length h)%nat -> nth a (cells_of h p) 0%Z = match dcell (nth a p dzero) (nth a h dzero) with Ok i => i | _ => 0%Z end.
Proof. unfold cells_of. revert h. induction p as [|x p IH]; intros [|hh h] L a Ha; simpl in *; try lia. destruct a as [|a]; [reflexivity|]. apply IH; lia. Qed.
Lemma cells_of_length h p : length p = length h -> length (cells_of h p) = length h.
Proof. intros L. unfold cells_of. rewrite length_zip_with; lia. Qed.
Lemma dfind_surf_ok D h b surf : has_dim D b -> length h = D -> Forall (fun p => length p = D /\ forall a, (a < D)%nat -> surface_coordinate (nth a h dzero) (nth a p dzero)) surf ->
  dfind_surf_points_insides surf b h = Ok (map (fun p => (cells_of h p, zip_with (fun xh i => doffset (fst xh) (snd xh) i) (combine p h) (cells_of h p))) (filter (fun p => point_inside Z.ltb b (cells_of h p)) surf)).
Proof.
  intros Hb Hh HF. induction HF as [|p surf [L C] _ IH]; [reflexivity|]. cbn [dfind_surf_points_insides]. subst D. rewrite dcells_ok by assumption. cbn [bind]. rewrite IH. cbn [bind filter]. destruct (point_inside Z.ltb b (cells_of h p)); reflexivity.
Qed.
Close Scope R_scope.
