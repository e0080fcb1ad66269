(** Model of cafes/io/vtk.hpp: [save_VTK] (l.78-264 in 2D, l.439-620 in 3D) and [saveParticles] (l.634-820).  The VTK
    objects are what is put in them: a structured-grid file is its extent, its points and its tuples, in the order they were
    inserted; a .pvts file is its WholeExtent and its list of pieces (extent, rank in the name of the source).  Names, paths, XML
    syntax, the kind of attribute (SetScalars / SetVectors) and the deletion of the objects are left out. *)
From Verif Require Import Base M_Geometry M_Shapes M_Particle M_Quadrature M_MatElem M_Mesh M_Operator M_Prealloc.
Local Open Scope Z_scope.

(** SetExtent(x0, x1, y0, y1, z0, z1), inclusive; points and tuples *)
Record vts := mkvts { vts_lo : list Z; vts_hi : list Z; vts_points : list (list R); vts_data : list (list R) }.
Record pvts := mkpvts { pv_whole : list (Z * Z); pv_pieces : list (list (Z * Z) * nat) }.

(** gxs, gxm, ... of DMDALocalInfo *)
Definition gs (dm : dmda) (d : nat) : Z := nth d (bottom_left (g_ghost dm)) 0.
Definition gm (dm : dmda) (d : nat) : Z := nth d (upper_right (g_ghost dm)) 0 - gs dm d.
(** InsertNextPoint and InsertNextValue / InsertNextTuple3 *)
Definition insert_next (pt tuple : list R) (s : list (list R) * list (list R)) : list (list R) * list (list R) := (fst s ++ [pt], snd s ++ [tuple]).

(** 2D, l.104-141: [c] is the factor of the coordinates ([2*i*h\[0\]] for the pressure, [i*h\[0\]] for the velocity); [tuple] reads the
    local vector at a node *)
Definition dataset2 (c : Z) (h0 h1 : R) (dm : dmda) (tuple : list Z -> outcome (list R)) : outcome vts :=
  bind (loop (gs dm 1) (gs dm 1 + gm dm 1) (fun j s =>
        loop (gs dm 0) (gs dm 0 + gm dm 0) (fun i s =>
          bind (tuple [i; j]) (fun t => Ok (insert_next [IZR (c * i) * h0; IZR (c * j) * h1; 0]%R t s))) s) ([], [])) (fun s =>
  Ok (mkvts [gs dm 0; gs dm 1; 0] [gs dm 0 + gm dm 0 - 1; gs dm 1 + gm dm 1 - 1; 0] (fst s) (snd s))).
(** 3D, l.465-502 *)
Definition dataset3 (c : Z) (h0 h1 h2 : R) (dm : dmda) (tuple : list Z -> outcome (list R)) : outcome vts :=
  bind (loop (gs dm 2) (gs dm 2 + gm dm 2) (fun k s =>
        loop (gs dm 1) (gs dm 1 + gm dm 1) (fun j s =>
        loop (gs dm 0) (gs dm 0 + gm dm 0) (fun i s =>
          bind (tuple [i; j; k]) (fun t => Ok (insert_next [IZR (c * i) * h0; IZR (c * j) * h1; IZR (c * k) * h2]%R t s))) s) s) ([], [])) (fun s =>
  Ok (mkvts [gs dm 0; gs dm 1; gs dm 2] [gs dm 0 + gm dm 0 - 1; gs dm 1 + gm dm 1 - 1; gs dm 2 + gm dm 2 - 1] (fst s) (snd s))).
Definition pressure_tuple (x : lvec) (p : list Z) : outcome (list R) := bind (at_read x p 0) (fun v => Ok [v]).
Definition velocity_tuple2 (x : lvec) (p : list Z) : outcome (list R) := bind (at_read x p 0) (fun u => bind (at_read x p 1) (fun v => Ok [u; v; 0%R])).
Definition velocity_tuple3 (x : lvec) (p : list Z) : outcome (list R) := bind (at_read x p 0) (fun u => bind (at_read x p 1) (fun v => bind (at_read x p 2) (fun w => Ok [u; v; w]))).

(** l.198-202, 237-241, 560-561, 594-595: rank 0, from the gathered gxs, gxm, ... of every process *)
Definition pvts2 (dms : list dmda) (m : list Z) : pvts :=
  mkpvts [(0, nth 0 m 0 - 1); (0, nth 1 m 0 - 1); (0, 0)]
    (map (fun p => let dm := snd p in ([(gs dm 0, gs dm 0 + gm dm 0 - 1); (gs dm 1, gs dm 1 + gm dm 1 - 1); (0, 0)], fst p)) (combine (seq 0 (length dms)) dms)).
Definition pvts3 (dms : list dmda) (m : list Z) : pvts :=
  mkpvts [(0, nth 0 m 0 - 1); (0, nth 1 m 0 - 1); (0, nth 2 m 0 - 1)]
    (map (fun p => let dm := snd p in ([(gs dm 0, gs dm 0 + gm dm 0 - 1); (gs dm 1, gs dm 1 + gm dm 1 - 1); (gs dm 2, gs dm 2 + gm dm 2 - 1)], fst p)) (combine (seq 0 (length dms)) dms)).

(** what is on disk after the call: by rank, the pressure and the velocity file; then the two .pvts files.  The global sizes are
    those rank 0 reads. *)
Record vtk_output := mkvtk { out_pressure : list vts; out_velocity : list vts; out_pvts_pressure : pvts; out_pvts_velocity : pvts }.
Definition rank0_size (dms : list dmda) : list Z := match dms with dm :: _ => g_size dm | [] => [] end.
Definition save_VTK (h : list R) (dms : list (dmda * dmda)) (solu solp : field) : outcome vtk_output :=
  let dsp dm x := match h with
    | [h0; h1] => dataset2 2 h0 h1 dm (pressure_tuple x)
    | [h0; h1; h2] => dataset3 2 h0 h1 h2 dm (pressure_tuple x)
    | _ => UB end in
  let dsu dm x := match h with
    | [h0; h1] => dataset2 1 h0 h1 dm (velocity_tuple2 x)
    | [h0; h1; h2] => dataset3 1 h0 h1 h2 dm (velocity_tuple3 x)
    | _ => UB end in
  let pv ds := match h with [_; _] => pvts2 ds (rank0_size ds) | _ => pvts3 ds (rank0_size ds) end in
  bind (on_all (fun dm : dmda * dmda => dsp (snd dm) (global_to_local (snd dm) solp)) dms) (fun fp =>
  bind (on_all (fun dm : dmda * dmda => dsu (fst dm) (global_to_local (fst dm) solu)) dms) (fun fu =>
  Ok (mkvtk fp fu (pv (map snd dms)) (pv (map fst dms))))).

(** ** saveParticles *)
(** a .vtp file: point, radius, force, torque of each particle (the arrays that exist) *)
Record vtp := mkvtp { vtp_points : list (list R); vtp_radius : list R; vtp_forces : list (list R); vtp_torques : list (list R) }.
(** [forces\[i\]\[d\]] *)
Definition vget {A} (l : list A) (i : nat) : outcome A := match nth_error l i with Some a => Ok a | None => UB end.
(** l.634-699: 2D with forces and (scalar) torques.  A particle is given by its center and its shape factors. *)
Definition saveParticles2 (particles : list (list R * list R)) (forces : list (list R)) (torques : list R) : outcome vtp :=
  for_ (length particles) (fun i s =>
    bind (vget particles i) (fun p =>
    bind (vget (fst p) 0) (fun x => bind (vget (fst p) 1) (fun y =>
    bind (vget forces i) (fun f => bind (vget f 0) (fun fx => bind (vget f 1) (fun fy =>
    bind (vget torques i) (fun t => bind (vget (snd p) 0) (fun r =>
    Ok (mkvtp (vtp_points s ++ [[x; y; 0%R]]) (vtp_radius s ++ [r]) (vtp_forces s ++ [[fx; fy; 0%R]]) (vtp_torques s ++ [[t]])))))))))))
    (mkvtp [] [] [] []).
(** l.701-750: without forces, whatever the dimension *)
Definition saveParticles (particles : list (list R * list R)) : outcome vtp :=
  for_ (length particles) (fun i s =>
    bind (vget particles i) (fun p =>
    bind (vget (fst p) 0) (fun x => bind (vget (fst p) 1) (fun y => bind (vget (snd p) 0) (fun r =>
    Ok (mkvtp (vtp_points s ++ [[x; y; 0%R]]) (vtp_radius s ++ [r]) [] []))))))
    (mkvtp [] [] [] []).
(** l.752-818: 3D with forces and torques *)
Definition saveParticles3 (particles : list (list R * list R)) (forces torques : list (list R)) : outcome vtp :=
  for_ (length particles) (fun i s =>
    bind (vget particles i) (fun p =>
    bind (vget (fst p) 0) (fun x => bind (vget (fst p) 1) (fun y => bind (vget (fst p) 2) (fun z =>
    bind (vget forces i) (fun f => bind (vget f 0) (fun fx => bind (vget f 1) (fun fy => bind (vget f 2) (fun fz =>
    bind (vget torques i) (fun t => bind (vget t 0) (fun tx => bind (vget t 1) (fun ty => bind (vget t 2) (fun tz =>
    bind (vget (snd p) 0) (fun r =>
    Ok (mkvtp (vtp_points s ++ [[x; y; z]]) (vtp_radius s ++ [r]) (vtp_forces s ++ [[fx; fy; fz]]) (vtp_torques s ++ [[tx; ty; tz]]))))))))))))))))
    (mkvtp [] [] [] []).
