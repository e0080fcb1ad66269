(** Model of cafes/particle/geometry/triangulation.hpp. Qhull (not in /repo) is a parameter: a function from the
    dimension, the number of points and the array of coordinates to the list of facets, each with the flag
    [isTriCoplanar()] and the ids of its vertices in the order of [vertices()]. *)
From Verif Require Import Base M_Geometry M_Particle M_Quadrature M_MatElem M_Mesh M_Operator.

Record facet := mkfacet { f_tricoplanar : bool; f_vertices : list Z }.
Definition qhull_fn (A : Type) := nat -> nat -> list A -> list facet.

(** [a[k] = v] on a vector: out of range is undefined *)
Definition vec_set {A} (l : list A) (k : nat) (v : A) : outcome (list A) :=
  if Nat.ltb k (length l) then Ok (set_nth k v l) else UB.
(** l.50-56 and l.85-92: [coords.resize(points.size()*D)], then [coords[D*i + c] = points[i][c]];
    [z] is the value of the elements [resize] adds (0) *)
Definition coords_of {A} (z : A) (D : nat) (points : list (list A)) : outcome (list A) :=
  for_ (length points) (fun i coords =>
  for_ D (fun c coords => vec_set coords (D * i + c) (nth c (nth i points []) z)) coords) (repeat z (length points * D)).
(** l.66-73: [ns = 0; while (i.hasNext()) triangles[ind][ns++] = p.id()]; a [std::array<int,3>] has three elements *)
Fixpoint set_vertices (vs : list Z) (ns : nat) (t : list Z) : outcome (list Z) :=
  match vs with
  | [] => Ok t
  | v :: vs' => bind (vec_set t ns v) (fun t' => set_vertices vs' (S ns) t')
  end.
(** the same on element [ind] of [triangles] *)
Definition store_facet (f : facet) (ind : nat) (ts : list (list Z)) : outcome (list (list Z)) :=
  match f_vertices f with
  | [] => Ok ts
  | vs => if Nat.ltb ind (length ts) then bind (set_vertices vs 0 (nth ind ts [])) (fun t => vec_set ts ind t) else UB
  end.
(** l.58-78 [triangulation_], 2D: only the facets with [isTriCoplanar()] are stored and counted *)
Definition triangulation2 {A} (z : A) (qhull : qhull_fn A) (points : list (list A)) : outcome (list (list Z)) :=
  bind (coords_of z 2 points) (fun coords =>
  let facets := qhull 2%nat (length points) coords in
  bind (fold_left (fun o f => bind o (fun s : nat * list (list Z) =>
      if f_tricoplanar f then bind (store_facet f (fst s) (snd s)) (fun ts => Ok (S (fst s), ts)) else Ok s))
    facets (Ok (0%nat, repeat [0; 0; 0]%Z (length facets)))) (fun s => Ok (snd s))).
(** l.94-112 [triangulation_], 3D: every facet is stored *)
Definition triangulation3 {A} (z : A) (qhull : qhull_fn A) (points : list (list A)) : outcome (list (list Z)) :=
  bind (coords_of z 3 points) (fun coords =>
  let facets := qhull 3%nat (length points) coords in
  bind (fold_left (fun o f => bind o (fun s : nat * list (list Z) =>
      bind (store_facet f (fst s) (snd s)) (fun ts => Ok (S (fst s), ts))))
    facets (Ok (0%nat, repeat [0; 0; 0]%Z (length facets)))) (fun s => Ok (snd s))).
(** l.115-118 [triangulation]: overload on the dimension *)
Definition triangulation {A} (z : A) (qhull : qhull_fn A) (D : nat) (points : list (list A)) : outcome (list (list Z)) :=
  match D with 2%nat => triangulation2 z qhull points | 3%nat => triangulation3 z qhull points | _ => UB end.
