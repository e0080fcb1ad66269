(** Independent specification for the particle/grid search. *)
From Verif Require Import Base M_Geometry S_Geometry.

(** Physical position of the grid index [p] for steps [h]. *)
Definition grid_point (h : vec) (p : list Z) : vec := zip_with (fun i hi => (IZR i * hi)%R) p h.

(** C++ int range *)
Definition is_int (z : Z) : Prop := (- 2 ^ 31 <= z < 2 ^ 31)%Z.

(** [bs] tile [B]: every index of B is in exactly one of them, and they contain nothing else. *)
Definition tiling (bs : list (box Z)) (B : box Z) : Prop :=
  forall p,
    (in_grid_box B p -> exists k, k < length bs /\ in_grid_box (nth k bs B) p /\
        forall j, j < length bs -> in_grid_box (nth j bs B) p -> j = k) /\
    (forall k, k < length bs -> in_grid_box (nth k bs B) p -> in_grid_box B p).
