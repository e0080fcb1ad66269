(** Differentiability of the 2D normal velocity across the gap; the list of the intermediate functions follows ux_sing_normalMvt2D_body. *)
From Coquelicot Require Import Coquelicot.
From Verif Require Import Base M_Truncation M_SingNormal M_SingTang M_SingWrap P_Sing P_SingCart Prop_Truncation Prop_SingNormal.
Open Scope R_scope.
Lemma ex_let (A : R -> R) (B : R -> R -> R) x : ex_derive A x -> (forall g, (forall t, g t = A t) -> ex_derive g x -> ex_derive (fun t => B t (g t)) x) -> ex_derive (fun t => let u := A t in B t u) x.
Proof. intros HA HB. apply (HB A); auto. Qed.
Lemma edm (f g : R -> R) x : ex_derive f x -> ex_derive g x -> ex_derive (fun t => f t * g t) x.
Proof. intros A B. exact (ex_derive_mult f g x A B). Qed.
Lemma edp (f g : R -> R) x : ex_derive f x -> ex_derive g x -> ex_derive (fun t => f t + g t) x.
Proof. intros A B. exact (ex_derive_plus f g x A B). Qed.
Lemma eds (f g : R -> R) x : ex_derive f x -> ex_derive g x -> ex_derive (fun t => f t - g t) x.
Proof. intros A B. exact (ex_derive_minus f g x A B). Qed.
Lemma edo (f : R -> R) x : ex_derive f x -> ex_derive (fun t => - f t) x.
Proof. intros A. exact (ex_derive_opp f x A). Qed.
Lemma edd (f g : R -> R) x : ex_derive f x -> ex_derive g x -> g x <> 0 -> ex_derive (fun t => f t / g t) x.
Proof. intros A B C. exact (ex_derive_div f g x A B C). Qed.
Lemma edc (c : R) x : ex_derive (fun _ => c) x. Proof. exact (ex_derive_const c x). Qed.
Lemma edq (f : R -> R) x : ex_derive f x -> ex_derive (fun t => f t ^ 2) x.
Proof. intros A. apply (ex_derive_ext (fun t => f t * f t)); [intros t; change (f t * f t = f t ^ 2); ring|]. apply edm; exact A. Qed.
Lemma edi x : ex_derive (fun t : R => t) x. Proof. exact (ex_derive_id x). Qed.
Ltac ed := lazymatch goal with
  | H : ex_derive ?g ?x |- ex_derive (fun t => ?g t) ?x => exact H
  | |- ex_derive (fun t => t) _ => apply edi
  | |- ex_derive (fun _ => ?c) _ => apply edc
  | |- ex_derive (fun t => @?f t + @?g t) _ => refine (edp f g _ _ _); cbv beta; ed
  | |- ex_derive (fun t => @?f t - @?g t) _ => refine (eds f g _ _ _); cbv beta; ed
  | |- ex_derive (fun t => @?f t * @?g t) _ => refine (edm f g _ _ _); cbv beta; ed
  | |- ex_derive (fun t => - @?f t) _ => refine (edo f _ _); cbv beta; ed
  | |- ex_derive (fun t => (@?f t) ^ 2) _ => refine (edq f _ _); cbv beta; ed
  | |- ex_derive (fun t => @?f t / @?g t) _ => refine (edd f g _ _ _ _); cbv beta; [ed|ed|]
  | H : ex_derive ?g ?x |- ex_derive ?g ?x => exact H
  | _ => first [eassumption | idtac] end.
Lemma ux2_ex (c0 c1 c2 : R -> R) H M a U x z : ex_derive c0 z -> ex_derive c1 z -> ex_derive c2 z -> H + M <> 0 -> 2 * a + M * (z * z) + H * (z * z) <> 0 ->
  ex_derive (fun t => ux_sing_normalMvt2D_body t x H M a U (c0 t) (c1 t) (c2 t)) z.
Proof.
  intros D0 D1 D2 Hs Hq.
  pose (f1 := fun t : R => t * t). assert (h1 : ex_derive f1 z) by (unfold f1; ed).
  pose (f2 := fun t : R => H * (f1 t)). assert (h2 : ex_derive f2 z) by (unfold f2; ed).
  pose (f3 := fun t : R => M * a). assert (h3 : ex_derive f3 z) by (unfold f3; ed).
  pose (f4 := fun t : R => x * x). assert (h4 : ex_derive f4 z) by (unfold f4; ed).
  pose (f5 := fun t : R => (f3 t) * (f4 t)). assert (h5 : ex_derive f5 z) by (unfold f5; ed).
  pose (f8 := fun t : R => a * a). assert (h8 : ex_derive f8 z) by (unfold f8; ed).
  pose (f9 := fun t : R => (f8 t) * M). assert (h9 : ex_derive f9 z) by (unfold f9; ed).
  pose (f10 := fun t : R => (f9 t) * x). assert (h10 : ex_derive f10 z) by (unfold f10; ed).
  pose (f13 := fun t : R => (f1 t) * (f1 t)). assert (h13 : ex_derive f13 z) by (unfold f13; ed).
  pose (f14 := fun t : R => H * (f13 t)). assert (h14 : ex_derive f14 z) by (unfold f14; ed).
  pose (f15 := fun t : R => M * M). assert (h15 : ex_derive f15 z) by (unfold f15; ed).
  pose (f16 := fun t : R => (f15 t) * a). assert (h16 : ex_derive f16 z) by (unfold f16; ed).
  pose (f17 := fun t : R => (f16 t) * x). assert (h17 : ex_derive f17 z) by (unfold f17; ed).
  pose (f20 := fun t : R => H * H). assert (h20 : ex_derive f20 z) by (unfold f20; ed).
  pose (f21 := fun t : R => (f20 t) * (f13 t)). assert (h21 : ex_derive f21 z) by (unfold f21; ed).
  pose (f22 := fun t : R => (f3 t) * x). assert (h22 : ex_derive f22 z) by (unfold f22; ed).
  pose (f31 := fun t : R => (f15 t) * (f1 t)). assert (h31 : ex_derive f31 z) by (unfold f31; ed).
  pose (f32 := fun t : R => a * (f4 t)). assert (h32 : ex_derive f32 z) by (unfold f32; ed).
  pose (f35 := fun t : R => (f13 t) * (f1 t)). assert (h35 : ex_derive f35 z) by (unfold f35; ed).
  pose (f36 := fun t : R => H * (f35 t)). assert (h36 : ex_derive f36 z) by (unfold f36; ed).
  pose (f37 := fun t : R => (f15 t) * M). assert (h37 : ex_derive f37 z) by (unfold f37; ed).
  pose (f41 := fun t : R => (f20 t) * (f1 t)). assert (h41 : ex_derive f41 z) by (unfold f41; ed).
  pose (f45 := fun t : R => (f20 t) * H). assert (h45 : ex_derive f45 z) by (unfold f45; ed).
  pose (f46 := fun t : R => (f45 t) * (f13 t)). assert (h46 : ex_derive f46 z) by (unfold f46; ed).
  pose (f51 := fun t : R => (f45 t) * (f35 t)). assert (h51 : ex_derive f51 z) by (unfold f51; ed).
  pose (f55 := fun t : R => (f20 t) * (f35 t)). assert (h55 : ex_derive f55 z) by (unfold f55; ed).
  pose (f59 := fun t : R => (f15 t) * (f15 t)). assert (h59 : ex_derive f59 z) by (unfold f59; ed).
  pose (f61 := fun t : R => (f13 t) * (f13 t)). assert (h61 : ex_derive f61 z) by (unfold f61; ed).
  pose (f64 := fun t : R => (f8 t) * (f45 t)). assert (h64 : ex_derive f64 z) by (unfold f64; ed).
  pose (f67 := fun t : R => (f20 t) * (f20 t)). assert (h67 : ex_derive f67 z) by (unfold f67; ed).
  pose (f68 := fun t : R => a * (f67 t)). assert (h68 : ex_derive f68 z) by (unfold f68; ed).
  pose (f71 := fun t : R => (f8 t) * a). assert (h71 : ex_derive f71 z) by (unfold f71; ed).
  pose (f74 := fun t : R => (f15 t) * (f61 t)). assert (h74 : ex_derive f74 z) by (unfold f74; ed).
  pose (f89 := fun t : R => -24 * (f51 t) * M * x - 48 * (f55 t) * (f15 t) * x - 5 * H * (f59 t) * (f61 t) + 96 * (f64 t) * (f13 t) + 8 * (f68 t) * (f35 t) - 32 * (f41 t) * (f71 t) + 4 * (f74 t) * (f45 t) - 4 * (f37 t) * (f61 t) * (f20 t) + 5 * M * (f61 t) * (f67 t) - 32 * (f71 t) * (f15 t) * (f1 t) - 24 * (f8 t) * (f37 t) * (f13 t)). assert (h89 : ex_derive f89 z) by (unfold f89; ed).
  pose (f94 := fun t : R => (f4 t) * x). assert (h94 : ex_derive f94 z) by (unfold f94; ed).
  pose (f99 := fun t : R => H * a). assert (h99 : ex_derive f99 z) by (unfold f99; ed).
  pose (f100 := fun t : R => (f99 t) * (f94 t)). assert (h100 : ex_derive f100 z) by (unfold f100; ed).
  pose (f102 := fun t : R => (f3 t) * (f94 t)). assert (h102 : ex_derive f102 z) by (unfold f102; ed).
  pose (f109 := fun t : R => H * (f8 t)). assert (h109 : ex_derive f109 z) by (unfold f109; ed).
  pose (f110 := fun t : R => (f109 t) * (f4 t)). assert (h110 : ex_derive f110 z) by (unfold f110; ed).
  pose (f112 := fun t : R => (f9 t) * (f4 t)). assert (h112 : ex_derive f112 z) by (unfold f112; ed).
  pose (f114 := fun t : R => (f8 t) * (f8 t)). assert (h114 : ex_derive f114 z) by (unfold f114; ed).
  pose (f118 := fun t : R => (f67 t) * H). assert (h118 : ex_derive f118 z) by (unfold f118; ed).
  pose (f126 := fun t : R => a * (f20 t)). assert (h126 : ex_derive f126 z) by (unfold f126; ed).
  pose (f133 := fun t : R => M * (f1 t)). assert (h133 : ex_derive f133 z) by (unfold f133; ed).
  pose (f136 := fun t : R => (f15 t) * (f13 t)). assert (h136 : ex_derive f136 z) by (unfold f136; ed).
  pose (f139 := fun t : R => (f37 t) * (f35 t)). assert (h139 : ex_derive f139 z) by (unfold f139; ed).
  pose (f147 := fun t : R => (f118 t) * (f61 t) - 16 * M * (f114 t) - (f59 t) * M * (f61 t) + 56 * (f3 t) * (f51 t) + 24 * (f126 t) * (f35 t) * (f15 t) + 48 * (f21 t) * (f9 t) - 64 * H * (f71 t) * (f133 t) - 72 * (f109 t) * (f136 t) - 32 * (f99 t) * (f139 t) + 320 * (f2 t) * M * (f94 t) - 384 * (f41 t) * (f32 t)). assert (h147 : ex_derive f147 z) by (unfold f147; ed).
  pose (f155 := fun t : R => ((2 * a + (f133 t) + (f2 t)))^2). assert (h155 : ex_derive f155 z) by (unfold f155; ed).
  pose (f156 := fun t : R => (f155 t) * (f155 t)). assert (h156 : ex_derive f156 z) by (unfold f156; ed).
  assert (nz : f156 z <> 0) by (change (f156 z) with ((2 * a + M * (z * z) + H * (z * z)) ^ 2 * (2 * a + M * (z * z) + H * (z * z)) ^ 2); intros E; apply Rmult_integral in E; destruct E as [E|E]; revert E; apply pow_nonzero, Hq).
  pose (f158 := fun t : R => 1 / (H + M) / (f156 t)). assert (h158 : ex_derive f158 z) by (unfold f158; ed; assumption).
  pose (f159 := fun t : R => (c0 t)). assert (h159 : ex_derive f159 z) by (unfold f159; ed).
  pose (f162 := fun t : R => (c2 t)). assert (h162 : ex_derive f162 z) by (unfold f162; ed).
  pose (f163 := fun t : R => (f162 t) * (f13 t)). assert (h163 : ex_derive f163 z) by (unfold f163; ed).
  pose (f166 := fun t : R => (f61 t) * (f1 t)). assert (h166 : ex_derive f166 z) by (unfold f166; ed).
  pose (f167 := fun t : R => (f162 t) * (f166 t)). assert (h167 : ex_derive f167 z) by (unfold f167; ed).
  pose (f168 := fun t : R => (f3 t) * (f45 t)). assert (h168 : ex_derive f168 z) by (unfold f168; ed).
  pose (f173 := fun t : R => (f162 t) * (f35 t)). assert (h173 : ex_derive f173 z) by (unfold f173; ed).
  pose (f174 := fun t : R => H * M). assert (h174 : ex_derive f174 z) by (unfold f174; ed).
  pose (f175 := fun t : R => (f174 t) * (f94 t)). assert (h175 : ex_derive f175 z) by (unfold f175; ed).
  pose (f186 := fun t : R => (f162 t) * (f61 t)). assert (h186 : ex_derive f186 z) by (unfold f186; ed).
  pose (f212 := fun t : R => (f45 t) * (f61 t)). assert (h212 : ex_derive f212 z) by (unfold f212; ed).
  pose (f226 := fun t : R => 128 * (f163 t) * (f102 t) - 56 * (f167 t) * (f168 t) + 128 * (f163 t) * (f100 t) + 64 * (f173 t) * (f175 t) - 144 * (f173 t) * (f16 t) * (f4 t) - 36 * (f167 t) * (f16 t) * (f20 t) - 288 * (f163 t) * (f112 t) - 72 * (f186 t) * (f9 t) * (f20 t) + 48 * (f173 t) * (f126 t) * (f4 t) - 96 * (f163 t) * (f110 t) + 24 * (f186 t) * (f20 t) * M * (f4 t) - 24 * (f186 t) * H * (f15 t) * (f4 t) - 192 * (f14 t) * (f162 t) * (f71 t) * x - 24 * H * (f166 t) * (f162 t) * (f37 t) * x - 48 * (f212 t) * (f162 t) * a * x - 192 * (f55 t) * (f162 t) * (f8 t) * x - 24 * (f45 t) * (f166 t) * (f162 t) * M * x). assert (h226 : ex_derive f226 z) by (unfold f226; ed).
  pose (f232 := fun t : R => (c1 t)). assert (h232 : ex_derive f232 z) by (unfold f232; ed).
  pose (f233 := fun t : R => (f232 t) * (f1 t)). assert (h233 : ex_derive f233 z) by (unfold f233; ed).
  pose (f236 := fun t : R => (f232 t) * (f13 t)). assert (h236 : ex_derive f236 z) by (unfold f236; ed).
  pose (f241 := fun t : R => (f232 t) * (f61 t)). assert (h241 : ex_derive f241 z) by (unfold f241; ed).
  pose (f244 := fun t : R => (f232 t) * (f8 t)). assert (h244 : ex_derive f244 z) by (unfold f244; ed).
  pose (f245 := fun t : R => (f244 t) * (f4 t)). assert (h245 : ex_derive f245 z) by (unfold f245; ed).
  pose (f250 := fun t : R => (f232 t) * (f166 t)). assert (h250 : ex_derive f250 z) by (unfold f250; ed).
  pose (f251 := fun t : R => (f67 t) * M). assert (h251 : ex_derive f251 z) by (unfold f251; ed).
  pose (f256 := fun t : R => (f20 t) * (f94 t)). assert (h256 : ex_derive f256 z) by (unfold f256; ed).
  pose (f259 := fun t : R => (f15 t) * (f94 t)). assert (h259 : ex_derive f259 z) by (unfold f259; ed).
  pose (f262 := fun t : R => (f15 t) * (f45 t)). assert (h262 : ex_derive f262 z) by (unfold f262; ed).
  pose (f265 := fun t : R => (f232 t) * (f4 t)). assert (h265 : ex_derive f265 z) by (unfold f265; ed).
  pose (f274 := fun t : R => (f232 t) * (f71 t)). assert (h274 : ex_derive f274 z) by (unfold f274; ed).
  pose (f280 := fun t : R => (f162 t) * (f61 t) * (f13 t)). assert (h280 : ex_derive f280 z) by (unfold f280; ed).
  pose (f283 := fun t : R => -48 * (f20 t) * (f166 t) * (f162 t) * (f15 t) * x - 192 * (f233 t) * (f100 t) - 224 * (f236 t) * (f175 t) - 192 * (f233 t) * (f102 t) - 12 * (f241 t) * (f168 t) + 432 * (f2 t) * (f245 t) + 6 * (f241 t) * (f68 t) + 5 * (f250 t) * (f251 t) - 52 * (f244 t) * (f51 t) - 112 * (f236 t) * (f256 t) - 112 * (f236 t) * (f259 t) + 7 * (f250 t) * (f262 t) - 60 * (f51 t) * (f265 t) + 60 * (f139 t) * (f265 t) + 3 * (f37 t) * (f166 t) * (f232 t) * (f20 t) - 120 * (f274 t) * (f21 t) - 20 * (f167 t) * (f68 t) - 10 * (f280 t) * (f251 t)). assert (h283 : ex_derive f283 z) by (unfold f283; ed).
  pose (f285 := fun t : R => (f162 t) * (f1 t)). assert (h285 : ex_derive f285 z) by (unfold f285; ed).
  pose (f323 := fun t : R => H * (f61 t)). assert (h323 : ex_derive f323 z) by (unfold f323; ed).
  pose (f330 := fun t : R => 128 * (f285 t) * (f8 t) * (f94 t) - 56 * (f186 t) * (f64 t) + 32 * (f173 t) * (f259 t) - 14 * (f280 t) * (f262 t) + 32 * (f173 t) * (f256 t) - 192 * (f285 t) * (f71 t) * (f4 t) - 48 * (f173 t) * (f71 t) * (f20 t) - 24 * (f186 t) * (f37 t) * (f4 t) - 6 * (f280 t) * (f37 t) * (f20 t) + 24 * (f186 t) * (f45 t) * (f4 t) + 64 * (f244 t) * (f94 t) - 96 * (f274 t) * (f4 t) + (f250 t) * (f118 t) - 2 * (f280 t) * (f118 t) - 96 * (f173 t) * a * (f174 t) * (f4 t) - 144 * (f323 t) * (f162 t) * (f17 t) - 288 * (f36 t) * (f162 t) * (f10 t)). assert (h330 : ex_derive f330 z) by (unfold f330; ed).
  pose (f331 := fun t : R => (f20 t) * (f61 t)). assert (h331 : ex_derive f331 z) by (unfold f331; ed).
  pose (f339 := fun t : R => (f244 t) * x). assert (h339 : ex_derive f339 z) by (unfold f339; ed).
  pose (f343 := fun t : R => (f232 t) * a). assert (h343 : ex_derive f343 z) by (unfold f343; ed).
  pose (f344 := fun t : R => (f343 t) * x). assert (h344 : ex_derive f344 z) by (unfold f344; ed).
  pose (f350 := fun t : R => (f343 t) * (f4 t)). assert (h350 : ex_derive f350 z) by (unfold f350; ed).
  pose (f353 := fun t : R => (f232 t) * (f15 t)). assert (h353 : ex_derive f353 z) by (unfold f353; ed).
  pose (f357 := fun t : R => (f232 t) * M). assert (h357 : ex_derive f357 z) by (unfold f357; ed).
  pose (f389 := fun t : R => -192 * (f331 t) * (f162 t) * (f22 t) + 336 * (f14 t) * (f232 t) * (f5 t) - 144 * (f14 t) * M * (f339 t) + 72 * (f36 t) * (f15 t) * (f344 t) + 192 * (f55 t) * (f232 t) * (f22 t) + 120 * (f21 t) * (f350 t) + 60 * (f36 t) * (f353 t) * (f4 t) - 60 * (f55 t) * (f357 t) * (f4 t) + 144 * (f133 t) * (f245 t) - 108 * M * (f35 t) * (f244 t) * (f20 t) + 216 * (f136 t) * (f350 t) - 18 * (f74 t) * (f343 t) * (f20 t) + 36 * (f323 t) * (f37 t) * (f232 t) * x + 96 * (f21 t) * (f339 t) + 120 * (f51 t) * (f344 t) + 72 * (f331 t) * (f353 t) * x + 36 * (f212 t) * (f357 t) * x - 288 * (f2 t) * (f274 t) * x). assert (h389 : ex_derive f389 z) by (unfold f389; ed).
  apply (ex_derive_ext (fun t => U * (-480 * (f2 t) * (f5 t) + 288 * (f2 t) * (f10 t) + 96 * (f14 t) * (f17 t) - 48 * (f21 t) * (f22 t) + 72 * (f21 t) * M * (f4 t) - 72 * (f14 t) * (f15 t) * (f4 t) - 96 * (f31 t) * (f32 t) - 24 * (f36 t) * (f37 t) * x + 288 * (f41 t) * (f8 t) * x - 144 * (f46 t) * a * x + (f89 t) - 8 * a * (f59 t) * (f35 t) + 160 * (f41 t) * (f94 t) + 160 * (f31 t) * (f94 t) - 64 * (f100 t) - 64 * (f102 t) + 72 * (f46 t) * (f4 t) - 72 * (f37 t) * (f13 t) * (f4 t) + 96 * (f110 t) + 96 * (f112 t) - 16 * H * (f114 t) + (f147 t)) * (f158 t) * (f159 t) / 2 + U * ((f226 t) + (f283 t) + (f330 t) + (f389 t)) * (f158 t) / 2)); [intros t; reflexivity|]. ed. all: try lra.
Qed.
Lemma ux2_even t x H M a U c0 c1 c2 : ux_sing_normalMvt2D_body (- t) x H M a U c0 c1 c2 = ux_sing_normalMvt2D_body t x H M a U c0 c1 c2.
Proof. unfold ux_sing_normalMvt2D_body. replace (- t * - t) with (t * t) by ring. reflexivity. Qed.
Lemma dzux2_axis x H M a U c0 c1 c2 : dzux_sing_normalMvt2D_body 0 x H M a U c0 c1 c2 = 0.
Proof. unfold dzux_sing_normalMvt2D_body. cbv zeta. unfold Rdiv. ring. Qed.
Lemma dzux2_zero t x H M a U : dzux_sing_normalMvt2D_body t x H M a U 0 0 0 = 0.
Proof. unfold dzux_sing_normalMvt2D_body. cbv zeta. unfold Rdiv. ring. Qed.
Lemma ux2_lin t x H M a U c0 c1 c2 : ux_sing_normalMvt2D_body t x H M a U c0 c1 c2 =
  c0 * ux_sing_normalMvt2D_body t x H M a U 1 0 0 + c1 * ux_sing_normalMvt2D_body t x H M a U 0 1 0 + c2 * ux_sing_normalMvt2D_body t x H M a U 0 0 1.
Proof. unfold ux_sing_normalMvt2D_body. cbv zeta. unfold Rdiv. ring. Qed.
Lemma chi_even l t : chiTrunc (- t) l l = chiTrunc t l l /\ dchiTrunc (- t) l l = dchiTrunc t l l /\ d2chiTrunc (- t) l l = d2chiTrunc t l l.
Proof.
  assert (Q : - t * - t = t * t) by ring. assert (F : forall y, chained y (l - l) = false) by (intros y; unfold chained; destruct (Rleb_spec 0 y); match goal with |- Rltb ?u ?v = _ => destruct (Rltb_spec u v) end; [lra|reflexivity|lra|reflexivity]).
  unfold chiTrunc, dchiTrunc, d2chiTrunc, trunc_select. rewrite Q, !F. auto.
Qed.
Lemma even_derive (f : R -> R) : (forall t, f (- t) = f t) -> ex_derive f 0 -> is_derive f 0 0.
Proof.
  intros E [d D]. assert (D2 : is_derive (fun t => f (- t)) 0 (- d)).
  { replace (- d) with (scal (-1) d) by (unfold scal; cbn; unfold mult; cbn; ring). apply (is_derive_comp f (fun t => - t)); [rewrite Ropp_0; exact D|]. auto_derive; auto; ring. }
  assert (D3 : is_derive f 0 (- d)) by (apply (is_derive_ext (fun t => f (- t))); [exact E|exact D2]).
  assert (X : (d : R) = - d) by (apply is_derive_unique in D; apply is_derive_unique in D3; rewrite D in D3; exact D3). replace (0 : R) with (d : R) at 2 by (cbn in *; lra). exact D.
Qed.
Lemma flat_mult (c A : R -> R) z : c z = 0 -> is_derive c z 0 -> ex_derive A z -> is_derive (fun t => c t * A t) z 0.
Proof. intros E D [d DA]. replace 0 with (0 * A z + c z * d) by (rewrite E; ring). apply (is_derive_mult c A z 0 d D DA). intros; apply Rmult_comm. Qed.
