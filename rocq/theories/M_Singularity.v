(** Model of cafes/particle/singularity/singularity.hpp: the contact frame of two particles and
    the singular velocity, its gradient and the singular pressure in physical coordinates.
    Real arithmetic stands for double; printing is dropped; a position or velocity is the list
    of its coordinates.  [get_box] (l.112-200) is in M_AddSing.v. *)
From Verif Require Import Base M_Geometry M_Particle M_Truncation M_SingNormal M_SingTang M_SingWrap.
Open Scope R_scope.

(** std::inner_product with initial value 0. *)
Definition inner_product (a b : list R) : R := fold_left (fun acc p => acc + fst p * snd p) (combine a b) 0.
(** l.48-50 *)
Definition sign (v : R) : R := (if Rleb 0 v then 1 else 0) - (if Rltb v 0 then 1 else 0).

(** the fields of the struct, l.55-70 *)
Record sing := mksing {
  s_H1 : R; s_H2 : R; s_K : R; s_contact : R; s_cutoff : R; s_param : R; s_UN : R; s_UT : R;
  s_is : bool; s_base : list (list R); s_origin : list R }.

(** l.202-217 [construct_base], 2D: base_, UN_, UT_ *)
Definition construct_base2 (c1 c2 v1 v2 : list R) : list (list R) * R * R :=
  let b0 := map (fun x => x / distance c1 c2) (position_diff c2 c1) in
  let b1 := [- nth 1 b0 0; nth 0 b0 0] in
  let vel_diff := velocity_diff v2 v1 in
  ([b0; b1], inner_product vel_diff b0, inner_product vel_diff b1).

(** l.219-257 [construct_base], 3D; the two assignments of l.231-233 use base_[0][0] as already overwritten *)
Definition construct_base3 (c1 c2 v1 v2 : list R) : list (list R) * R * R :=
  let n := map (fun x => x / distance c1 c2) (position_diff c2 c1) in
  let n0 := nth 0 n 0 in let n1 := nth 1 n 0 in let n2 := nth 2 n 0 in
  let vel_diff := velocity_diff v1 v2 in
  let vs2 := inner_product vel_diff n in
  let vel_norm := inner_product vel_diff vel_diff in
  let t0 :=
    if Reqb (vs2 * vs2) vel_norm then
      let b00 := - sign n2 * n2 - sign n1 * n1 in [b00; sign n1 * n0; sign n2 * b00]
    else zip_with (fun v m => v * (1 - m)) vel_diff n in
  let norm := inner_product t0 t0 in
  let b0 := map (fun x => x / sqrt norm) t0 in
  let '(k0, k1, k2) := cross33 (n0, n1, n2) (nth 0 b0 0, nth 1 b0 0, nth 2 b0 0) in
  ([b0; [k0; k1; k2]; n], vs2, inner_product vel_diff b0).

(** l.72-110, the constructor, for [dim] = 2 or 3; when the gap is 1 or more the frame is left
    uninitialised: [s_is] is false and callers test it *)
Definition make_sing (dim : nat) (c1 c2 v1 v2 : list R) (r1 r2 h alpha : R) : sing :=
  let dist := distance c1 c2 in
  let contact := dist - r1 - r2 in
  let K := 1 / 2 * (1 / r1 + 1 / r2) in
  let minr := if Rltb r1 r2 then r1 else r2 in
  let tmp := alpha * sqrt (contact / K) in
  let cut0 := if Rltb tmp minr then tmp else minr in
  let cutoff := if Rleb cut0 (sqrt 2 * h) then sqrt 2 * h else cut0 in
  let param := 1 / 2 * cutoff * cutoff in
  let '(base, UN, UT) := if (dim =? 2)%nat then construct_base2 c1 c2 v1 v2 else construct_base3 c1 c2 v1 v2 in
  let origin := zip_with (fun x y => x + r1 * y) c1 (nth (2 * dim - 4) base []) in
  mksing (1 / r1) (1 / r2) K contact cutoff param UN UT (Rltb contact 1) base origin.

(** l.264-275 *)
Definition get_pos_in_part_ref (s : sing) (pos : list R) : list R :=
  map (inner_product (zip_with Rminus pos (s_origin s))) (s_base s).
(** l.277-291; the accumulation of l.283-285 over d2 *)
Definition get_pos_from_part_ref (s : sing) (pos_ref : list R) : list R :=
  let D := length (s_base s) in
  zip_with Rplus (map (fun d1 => fold_left (fun acc d2 => acc + nth d2 pos_ref 0 * nth d1 (nth d2 (s_base s) []) 0) (seq 0 D) 0) (seq 0 D)) (s_origin s).

Section Fields.
Variable s : sing.
Notation at2 f := (fun X => f X (s_H1 s) (s_H2 s) (s_contact s) (s_UN s) (s_param s) (s_param s)).
(** l.298-326; the tangential terms are commented out in the code *)
Definition get_u_sing_ref (X : list R) : list R :=
  if (length (s_base s) =? 2)%nat then [at2 ux_sing_normalMvt2D X; at2 uz_sing_normalMvt2D X]
  else [at2 ux_sing_normalMvt3D X; at2 uy_sing_normalMvt3D X; at2 uz_sing_normalMvt3D X].
(** l.328-372: a sum over k of base_[k][d] times the component k *)
Definition get_u_sing (pos : list R) : list R :=
  let u := get_u_sing_ref (get_pos_in_part_ref s pos) in
  map (fun d => fold_left (fun acc k => acc + nth d (nth k (s_base s) []) 0 * nth k u 0) (seq 0 (length (s_base s))) 0) (seq 0 (length (s_base s))).
(** l.417-446 *)
Definition get_grad_u_sing_ref (X : list R) : list (list R) :=
  if (length (s_base s) =? 2)%nat then
    [[at2 dxux_sing_normalMvt2D X; at2 dzux_sing_normalMvt2D X]; [at2 dxuz_sing_normalMvt2D X; at2 dzuz_sing_normalMvt2D X]]
  else
    [[at2 dxux_sing_normalMvt3D X; at2 dyux_sing_normalMvt3D X; at2 dzux_sing_normalMvt3D X];
     [at2 dxuy_sing_normalMvt3D X; at2 dyuy_sing_normalMvt3D X; at2 dzuy_sing_normalMvt3D X];
     [at2 dxuz_sing_normalMvt3D X; at2 dyuz_sing_normalMvt3D X; at2 dzuz_sing_normalMvt3D X]].
(** l.448-462 *)
Definition get_grad_u_sing (pos : list R) : list (list R) :=
  let g := get_grad_u_sing_ref (get_pos_in_part_ref s pos) in
  let D := length (s_base s) in
  map (fun k => map (fun l =>
    fold_left (fun acc m => fold_left (fun acc n => acc + nth k (nth m (s_base s) []) 0 * nth l (nth n (s_base s) []) 0 * nth n (nth m g []) 0) (seq 0 D) acc) (seq 0 D) 0)
    (seq 0 D)) (seq 0 D).
(** l.474-509 *)
Definition get_p_sing (pos : list R) : R :=
  let X := get_pos_in_part_ref s pos in
  if (length (s_base s) =? 2)%nat then at2 p_sing_withT_normalMvt2D X else at2 p_sing_withT_normalMvt3D X.
End Fields.
