(** Model of the transfers between the grid and the surface points of the particles, cafes/problem/particle_operator.hpp
    l.155-186 and 241-279, in the arithmetic of IEEE doubles.  The definitions follow those of M_ParticleOp with
    [double] for [R]; what they use of the particles and of their surface is a parameter. *)
From Flocq Require Import BinarySingleNaN.
From Verif Require Import Base M_Geometry M_Particle M_Quadrature M_MatElem M_Mesh M_Operator.
From Verif Require Import M_Double M_DoubleOp M_DoubleBc.

(** quadrature.hpp l.39-79, overloads of [P1_integration] *)
Definition dP1_integration (x h : list double) : list double :=
  match x, h with
  | [x0; x1], [h0; h1] => dP1_integration2 (x0, x1) (h0, h1)
  | [x0; x1; x2], [h0; h1; h2] => dP1_integration3 (x0, x1, x2) (h0, h1, h2)
  | _, _ => []
  end.
(** l.170-181: one surface point; [g[d] += u[d]*bfunc[j]] from 0 *)
Definition dinterp_surf_point (D : nat) (h : list double) (sol : dlvec) (sp : list Z * list double) : outcome (list double) :=
  let bfunc := dP1_integration (snd sp) h in
  let ielem := get_element (fst sp) in
  for_ (length bfunc) (fun j g =>
  for_ D (fun d g =>
    bind (dat_read sol (nth j ielem []) d) (fun u => Ok (set_nth d (dplus (nth d g dzero) (dmult u (nth j bfunc dzero))) g))) g) (repeat dzero D).
(** l.155-186 [interp_fluid_to_surf] without the rigid motion, on one process; [surf]: its surface points, by particle *)
Definition dinterp_fluid_to_surf (D : nat) (h : list double) (surf : list (list (list Z * list double))) (sol : dfield) (dm : dmda) : outcome (list (list (list double))) :=
  on_all (on_all (dinterp_surf_point D h (dglobal_to_local dm sol))) surf.
(** l.251: [gammak = surface_area()/nb_surf_points]: the int is converted *)
Definition dgamma (area : double) (nb : Z) : double := ddiv area (dint nb).
(** l.252-259: [u[d] += g[d]*bfunc[j]*gammak] *)
Definition dSL_point (D : nat) (h : list double) (gammak : double) (sp : list Z * list double) (g : list double) (y : dlvec) : outcome dlvec :=
  let bfunc := dP1_integration (snd sp) h in
  let ielem := get_element (fst sp) in
  for_ (length bfunc) (fun j y =>
  for_ D (fun d y => dat_upd y (nth j ielem []) d (fun u => dplus u (dmult (dmult (nth d g dzero) (nth j bfunc dzero)) gammak))) y) y.
(** l.241-261 on one process; [gam i]: the weight of particle i *)
Definition dSL_local (D : nat) (h : list double) (gam : nat -> double) (surf : list (list (list Z * list double))) (g : list (list (list double))) (dm : dmda) : outcome dlvec :=
  for_ (length g) (fun i y =>
    for_ (length (nth i surf [])) (fun k y =>
      match nth_error (nth i surf []) k, nth_error (nth i g []) k with
      | Some sp, Some gk => dSL_point D h (gam i) sp gk y
      | _, _ => UB
      end) y) (dfill0 dm).
(** l.241-269: all the processes, then the ADD_VALUES scatter (into a vector of zeros) *)
Definition dSL_to_Rhs_raw (D : nat) (h : list double) (gam : nat -> double) (surf : dmda -> list (list (list Z * list double))) (g : dmda -> list (list (list double)))
    (dms : list dmda) (Y : dfield) : Prop :=
  exists ys, on_all (fun dm => dSL_local D h gam (surf dm) (g dm) dm) dms = Ok ys /\ forall n d, dlocal_to_global dms ys n d (Y n d).
(** l.271-272: with the boundary conditions *)
Definition dSL_to_Rhs (D : nat) (h : list double) (gam : nat -> double) (surf : dmda -> list (list (list Z * list double))) (g : dmda -> list (list (list double)))
    (bc : list (option dbc_row)) (dms : list dmda) (Y : dfield) : Prop :=
  exists R : dfield, dSL_to_Rhs_raw D h gam surf g dms R /\ dSetNullDirichletOnRHS D dms R bc = Ok Y.
