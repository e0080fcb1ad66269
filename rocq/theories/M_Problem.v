(** Model of init_problem (cafes/problem/particle_operator.hpp l.275-303) and of the SEM and
    DtoN drivers (cafes/problem/sem.hpp l.54-206, cafes/problem/dton.hpp l.56-340).
    The state shared by all the applications is the pair of Stokes vectors [problem.rhs],
    [problem.sol] (velocity parts: the pressure part of rhs is only ever set to 0 here).
    [problem.solve()] (stokes.hpp, KSPSolve(ksp, rhs, sol) from a zero initial guess) is a function of
    the right-hand side.  Not modelled: sol_rhs and sol_tmp (dton.hpp l.80, 256: written or added, then
    overwritten before use), printing. *)
From Verif Require Import Base M_Geometry M_Particle M_Quadrature M_MatElem M_Mesh M_Operator M_Bc M_ParticleOp.
Open Scope R_scope.

(** particle_context l.98-100 *)
Record flags := mkflags { f_rhs : bool; f_rigid : bool; f_sing : bool }.
(** what the fluid problem brings: the load (rhs_conditions), problem.solve() and the field that
    add_singularity_in_fluid (add_singularity.hpp l.521-590) adds to rhs, which depends on the
    particles and the mesh only *)
Record fluid := mkfluid { fl_conds : bc_row; fl_solve : field -> field; fl_sing : field }.
(** problem.rhs, problem.sol *)
Record pstate := mkpstate { s_rhs : field; s_sol : field }.
(** a control vector: the doubles of each process *)
Definition control := dmda -> list R.

(** particle_operator.hpp l.275-303 [init_problem] *)
Definition init_problem (c : pctx) (pb : fluid) (fl : flags) (x : control) (apply_forces : bool) (rhs : field) : outcome field :=
  bind (if f_rhs fl then setup_RHS (x_D c) (fl_conds pb) (x_bc c) (x_h c) (x_dms c) rhs else Ok rhs) (fun rhs =>
  bind (Ok (if f_sing fl then (fun n d => rhs n d + fl_sing pb n d) else rhs)) (fun rhs =>
  bind (set_rhs_problem c x apply_forces rhs) (fun rhs =>
  if f_rhs fl then SetDirichletOnRHS (x_D c) (x_dms c) rhs (x_bc c) (x_h c)
  else SetNullDirichletOnRHS (x_D c) (x_dms c) rhs (x_bc c)))).

(** every process fills its part of y; [y0]: what y held before *)
Definition on_control (c : pctx) (f : dmda -> list R -> outcome (list R)) (y0 : control) : outcome control :=
  bind (on_all (fun dm => f dm (y0 dm)) (x_dms c)) (fun _ =>
  Ok (fun dm => match f dm (y0 dm) with Ok l => l | _ => [] end)).
(** particle_operator.hpp l.391-416 [projection], all the particles *)
Definition projection_all (c : pctx) (sol : field) : outcome ((nat -> vec) * (nat -> vec)) :=
  bind (on_all (projection c sol) (seq 0 (length (x_parts c)))) (fun l =>
  Ok (fun i => fst (nth i l ([], [])), fun i => snd (nth i l ([], [])))).

(** sem.hpp l.54-93 [sem_matrix]: y = A x *)
Definition sem_matrix (c : pctx) (pb : fluid) (compute_rhs : bool) (x y0 : control) (st : pstate) : outcome (control * pstate) :=
  bind (init_problem c pb (mkflags compute_rhs false false) x compute_rhs zeros) (fun rhs =>
  let sol := fl_solve pb rhs in
  bind (interp_all c false sol) (fun g =>
  let g := fst (fst (simple_layer c g)) in
  bind (SL_to_Rhs c g) (fun rhs =>
  let sol := fl_solve pb rhs in
  bind (projection_all c sol) (fun mc =>
  bind (on_control c (compute_y_rigid c sol (fst mc) (snd mc)) y0) (fun y =>
  Ok (y, mkpstate rhs sol)))))).
(** l.155-168 [setup_RHS]: rhs = - A sol with compute_rhs *)
Definition sem_setup_RHS (c : pctx) (pb : fluid) (sol rhs0 : control) (st : pstate) : outcome (control * pstate) :=
  bind (sem_matrix c pb true sol rhs0 st) (fun r => Ok (fun dm => map Ropp (fst r dm), snd r)).
(** KSPSolve (l.196) applies the operator to the vectors [xs], in turn; each time y is some
    vector of the right size *)
Definition sem_krylov (c : pctx) (pb : fluid) (xs : list (control * control)) (st : pstate) : outcome pstate :=
  fold_left (fun o x => bind o (fun st => bind (sem_matrix c pb false (fst x) (snd x) st) (fun r => Ok (snd r)))) xs (Ok st).
(** l.190-206 [solve] after the applications [xs], with the control [sol] KSPSolve returned: init_problem is
    called on rhs as it is *)
Definition sem_solve (c : pctx) (pb : fluid) (xs : list (control * control)) (sol : control) (st : pstate) : outcome pstate :=
  bind (sem_krylov c pb xs st) (fun st =>
  bind (init_problem c pb (mkflags true false false) sol true (s_rhs st)) (fun rhs => Ok (mkpstate rhs (fl_solve pb rhs)))).

(** dton.hpp l.56-100 [DtoN_matrix] *)
Definition DtoN_matrix (c : pctx) (pb : fluid) (fl : flags) (x y0 : control) (st : pstate) : outcome (control * pstate) :=
  bind (init_problem c pb fl x false zeros) (fun rhs =>
  let sol := fl_solve pb rhs in
  bind (interp_all c (f_rigid fl) sol) (fun g =>
  bind (SL_to_Rhs c g) (fun rhs =>
  let sol := fl_solve pb rhs in
  bind (on_control c (compute_y c sol) y0) (fun y =>
  Ok (y, mkpstate rhs sol))))).
(** l.184-196 [setup_RHS] (default_flags_) *)
Definition dton_setup_RHS (c : pctx) (pb : fluid) (use_sing : bool) (sol rhs0 : control) (st : pstate) : outcome (control * pstate) :=
  bind (DtoN_matrix c pb (mkflags true true use_sing) sol rhs0 st) (fun r => Ok (fun dm => map Ropp (fst r dm), snd r)).
(** l.319-326: the flags during KSPSolve *)
Definition dton_flags (use_sing : bool) : flags := mkflags false false use_sing.
Definition dton_krylov (c : pctx) (pb : fluid) (use_sing : bool) (xs : list (control * control)) (st : pstate) : outcome pstate :=
  fold_left (fun o x => bind o (fun st => bind (DtoN_matrix c pb (dton_flags use_sing) (fst x) (snd x) st) (fun r => Ok (snd r)))) xs (Ok st).
(** l.236-312 [solve_last_problem] (default_flags_): two problems, the second overwrites the
    first; up to l.298, before the singular field is added to sol *)
Definition solve_last_problem (c : pctx) (pb : fluid) (use_sing : bool) (sol : control) (st : pstate) : outcome pstate :=
  bind (init_problem c pb (mkflags false false false) sol false zeros) (fun rhs0 =>
  bind (init_problem c pb (mkflags true true use_sing) sol false zeros) (fun rhs =>
  Ok (mkpstate rhs (fl_solve pb rhs)))).
(** l.316-340 [solve] *)
Definition dton_solve (c : pctx) (pb : fluid) (use_sing : bool) (xs : list (control * control)) (sol : control) (st : pstate) : outcome pstate :=
  bind (dton_krylov c pb use_sing xs st) (fun st => solve_last_problem c pb use_sing sol st).
