(** Model of [set_materials] (cafes/particle/particle.hpp l.230-298) in IEEE doubles: one rounding per operation, as in M_Double. *)
From Coq Require Import ZArith List Bool.
From Flocq Require Import BinarySingleNaN.
From Verif Require Import Base M_Geometry M_Particle M_Double.
Import ListNotations.
(** What [set_materials] uses of a particle; [bounding_box(h)] converts doubles to int, which can be undefined. *)
Record dparticle := mkdparticle {
  dp_contains : list double -> bool;
  dp_bbox : list double -> outcome (box Z);
  dp_surface : double -> list (list double);
  dp_center : list double }.
(** particle.hpp l.163-179 [find_radial_surf_points_insides] *)
Fixpoint dfind_radial_surf_points_insides (surf_p : list (list double)) (b : box Z) (h center : list double) : outcome (list (list double)) :=
  match surf_p with
  | [] => Ok []
  | p :: t =>
      bind (dcells p h) (fun surf_pi =>
      bind (dfind_radial_surf_points_insides t b h center) (fun l =>
      if point_inside Z.ltb b surf_pi then Ok (zip_with dminus p center :: l) else Ok l))
  end.
(** l.235 [pos*h + pos_scale*hs] *)
Definition dsub_point (h hs : list double) (pos pos_scale : list Z) : list double :=
  zip_with dplus (zip_with (fun i x => dmult (dint i) x) pos h) (zip_with (fun s x => dmult (dint s) x) pos_scale hs).
(** l.230-243 [kernel_num_count] *)
Definition dkernel_num_count (D : nat) (contains : list double -> bool) (h hs : list double) (scale : Z) (pos : list Z) (num : Z) : Z :=
  run_iterate (mkbox (repeat 0%Z D) (repeat scale D)) (fun pos_scale num => if contains (dsub_point h hs pos pos_scale) then (num + 1)%Z else num) num.
Record dmat := mkdmat {
  dm_surf : list (list Z * list double);
  dm_radial : list (list double);
  dm_nb : Z;
  dm_num : Z }.
Definition dmat0 : dmat := mkdmat [] [] 0 0.
(** l.264-266: [hs[d] = h[d]/scale], the size_t is converted to double *)
Definition dsub_step (h : list double) (scale : Z) : list double := map (fun x => ddiv x (dint scale)) h.
(** l.273-292: one iteration of the loop on the particles, before the Allreduce: size added and new state of the particle *)
Definition dset_material (D : nat) (p : dparticle) (b : box Z) (h : list double) (dpart : double) (scale : Z) (old : dmat) : outcome (nat * dmat) :=
  bind (dp_bbox p h) (fun pbox =>
  if intersect Z.ltb b pbox then
    let new_box := box_inside Z.ltb b pbox in
    let pts := dfind_fluid_points D (dp_contains p) new_box h in
    let spts := dp_surface p dpart in
    bind (dfind_surf_points_insides spts new_box h) (fun sv =>
    bind (dfind_radial_surf_points_insides spts new_box h (dp_center p)) (fun rv =>
    Ok (length pts, mkdmat sv rv (Z.of_nat (length sv))
      (run_iterate new_box (fun pos num => dkernel_num_count D (dp_contains p) h (dsub_step h scale) scale pos num) (dm_num old)))))
  else Ok (0%nat, old)).
(** l.252-298: the loop over the particles on one process *)
Fixpoint dset_materials_local (D : nat) (parts : list dparticle) (b : box Z) (h : list double) (dpart : double) (scale : Z) (olds : list dmat) : outcome (nat * list dmat) :=
  match parts, olds with
  | p :: ps, o :: os =>
      bind (dset_material D p b h dpart scale o) (fun nm =>
      bind (dset_materials_local D ps b h dpart scale os) (fun nms =>
      Ok ((fst nm + fst nms)%nat, snd nm :: snd nms)))
  | _, _ => Ok (0%nat, [])
  end.
(** l.294-295: the sums over the processes; undefined if a process does not reach the call *)
Definition dallreduce (field : dmat -> Z) (locals : list (nat * list dmat)) (i : nat) : Z :=
  fold_left Z.add (map (fun r => field (nth i (snd r) dmat0)) locals) 0%Z.
(** set_materials on all the processes, each with its box *)
Fixpoint dset_materials_all (D : nat) (parts : list dparticle) (bs : list (box Z)) (h : list double) (dpart : double) (scale : Z) : outcome (list (nat * list dmat)) :=
  match bs with
  | [] => Ok []
  | b :: t => bind (dset_materials_local D parts b h dpart scale (repeat dmat0 (length parts))) (fun r => bind (dset_materials_all D parts t h dpart scale) (fun rs => Ok (r :: rs)))
  end.
