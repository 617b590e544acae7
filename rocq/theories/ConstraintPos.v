(** The position solve of joints and of the mouse constraint (C82), exact
    arithmetic. *)
From Coq Require Import ZArith List Bool Reals Lra Psatz Lia Arith FunctionalExtensionality.
From Verif Require Import Num Outcome Box Mat MatFacts MatSolve Geom GeomClosest Transform TransformFacts Body BodyFacts Constraint ConstraintFacts Contact ConstraintMomentum ConstraintMotor ContactSolve ConstraintThm ContactPos.
Import ListNotations.
Local Open Scope R_scope.

(** ** a point of a body that is moved by [d] and turned by [a] about its centroid *)
(** to first order *)
Definition carried (p : @position RNum) (d : Rv) (a : R) (x : Rv) : Rv :=
  rv (vx x + vx d - a * (vy x - vy (p_centroid p))) (vy x + vy d + a * (vx x - vx (p_centroid p))).
(** the distance along the axes between a point and the centroid *)
Definition reach (p : @position RNum) (x : Rv) : R := Rabs (vx x - vx (p_centroid p)) + Rabs (vy x - vy (p_centroid p)).
Definition near (e : R) (x y : Rv) : Prop := Rabs (vx x - vx y) <= e /\ Rabs (vy x - vy y) <= e.

Lemma one_cos a : Rabs (cos a - 1) <= Rabs a /\ Rabs (cos a - 1) <= a * a.
Proof.
  assert (E : cos a - 1 = - (2 * (sin (a / 2) * sin (a / 2)))).
  { replace a with (2 * (a / 2)) at 1 by field. rewrite cos_2a_sin. ring. }
  assert (S : Rabs (sin (a / 2)) <= Rabs (a / 2)).
  { destruct (Rle_dec 0 a) as [P|P].
    - rewrite (Rabs_pos_eq (a / 2)) by lra. destruct (Req_dec a 0) as [->|NZ]; [replace (0 / 2) with 0 by field; rewrite sin_0, Rabs_R0; lra|].
      apply Rabs_le. pose proof (SIN_bound (a / 2)) as SB. pose proof (sin_lt_x (a / 2) ltac:(lra)) as L. split; [|lra].
      destruct (Rle_dec (a / 2) PI) as [Q|Q]; [pose proof (sin_ge_0 (a / 2) ltac:(lra) Q); lra|pose proof PI2_1; pose proof PI_RGT_0; unfold PI in *; fold PI in *; pose proof PI2_3_2; lra].
    - rewrite <- Rabs_Ropp, <- sin_neg, <- (Rabs_Ropp (a / 2)). rewrite (Rabs_pos_eq (- (a / 2))) by lra.
      apply Rabs_le. pose proof (SIN_bound (- (a / 2))) as SB. pose proof (sin_lt_x (- (a / 2)) ltac:(lra)) as L. split; [|lra].
      destruct (Rle_dec (- (a / 2)) PI) as [Q|Q]; [pose proof (sin_ge_0 (- (a / 2)) ltac:(lra) Q); lra|pose proof PI2_3_2; lra]. }
  pose proof (Rabs_pos (sin (a / 2))) as S0.
  assert (S1 : Rabs (sin (a / 2)) <= 1) by (apply Rabs_le; pose proof (SIN_bound (a / 2)); lra).
  assert (H2 : Rabs (a / 2) = Rabs a / 2) by (unfold Rdiv; rewrite Rabs_mult, (Rabs_pos_eq (/ 2)) by lra; ring).
  rewrite H2 in S. rewrite E, Rabs_Ropp, Rabs_mult, (Rabs_pos_eq 2), Rabs_mult by lra.
  assert (A2 : Rabs a * Rabs a = a * a) by (rewrite <- Rabs_mult; apply Rabs_pos_eq; apply Rle_0_sqr).
  split; [nra|]. rewrite <- A2. pose proof (Rabs_pos a). nra.
Qed.
Lemma sin_close a : Rabs (sin a - a) <= a * a.
Proof.
  assert (D : forall x, derivable_pt_lim (fun y => sin y - y) x (cos x - 1)).
  { intros x. apply derivable_pt_lim_minus; [apply derivable_pt_lim_sin|apply derivable_pt_lim_id]. }
  assert (pr : derivable (fun y => sin y - y)) by (intros x; exists (cos x - 1); apply D).
  assert (DV : forall x, derive_pt (fun y => sin y - y) x (pr x) = cos x - 1) by (intros x; apply derive_pt_eq_0, D).
  destruct (Rtotal_order 0 a) as [L|[<-|L]].
  - destruct (MVT_cor1 _ 0 a pr L) as (c & E & C0 & C1). rewrite DV, sin_0 in E. destruct (one_cos c) as [B _].
    replace (sin a - a) with ((cos c - 1) * a) by lra. rewrite Rabs_mult, (Rabs_pos_eq a) by lra. rewrite (Rabs_pos_eq c) in B by lra. nra.
  - rewrite sin_0, Rminus_0_r, Rabs_R0. lra.
  - destruct (MVT_cor1 _ a 0 pr L) as (c & E & C0 & C1). rewrite DV, sin_0 in E. destruct (one_cos c) as [B _].
    replace (sin a - a) with ((cos c - 1) * a) by lra. rewrite Rabs_mult, (Rabs_left a) by lra. rewrite (Rabs_left c) in B by lra. nra.
Qed.
Lemma world_centroid (p : @position RNum) (l : Rv) : let x := tf_apply (to_world p) l in
  rot_apply (p_rot p) (vsub l (p_lc p)) = rv (vx x - vx (p_centroid p)) (vy x - vy (p_centroid p)).
Proof.
  cbv zeta. unfold p_centroid, to_world, mul_Tt, mul_tr, tra_mul, tra_inverse, tf_apply, rot_apply, vadd, vsub, vopp, rv. cbn [t_rot t_tra vx vy].
  apply (f_equal2 (@V2 RNum)); rcbn; rring.
Qed.
Lemma advance_point (p : @position RNum) (d : Rv) (a : R) (l : Rv) : is_rotation (p_rot p) ->
  near (a * a * reach p (tf_apply (to_world p) l)) (tf_apply (to_world (pos_advance p d a)) l) (carried p d a (tf_apply (to_world p) l)).
Proof.
  intros IR. pose proof (world_centroid p l) as W. cbv zeta in W. set (x := tf_apply (to_world p) l) in *.
  assert (E : tf_apply (to_world (pos_advance p d a)) l =
    rv (vx (p_centroid p) + vx d + (cos a * (vx x - vx (p_centroid p)) - sin a * (vy x - vy (p_centroid p))))
       (vy (p_centroid p) + vy d + (sin a * (vx x - vx (p_centroid p)) + cos a * (vy x - vy (p_centroid p))))).
  { assert (W0 := f_equal (@vx RNum) W). assert (W1 := f_equal (@vy RNum) W). unfold rv, rot_apply, vsub in W0, W1. cbn [vx vy] in W0, W1.
    rewrite <- W0, <- W1.
    destruct (rotation_trig _ IR) as [RC RS].
    unfold to_world, pos_advance, p_centroid, to_world, mul_Tt, mul_tr, tra_mul, tra_inverse, rot_mul, mk_rot, tf_apply, rot_apply, vadd, vsub, vopp, rv.
    cbn [t_rot t_tra vx vy p_rot p_off p_lc r_cos r_sin r_theta]. rewrite RC, RS. set (t := r_theta (p_rot p)). clearbody t. cbn [kcos ksin RTrig kadd RNum]. rewrite cos_plus, sin_plus.
    apply (f_equal2 (@V2 RNum)); rcbn; rring. }
  rewrite E. unfold near, carried, reach, rv. cbn [vx vy]. set (u := vx x - vx (p_centroid p)). set (v := vy x - vy (p_centroid p)).
  destruct (one_cos a) as [_ C]. pose proof (sin_close a) as S. pose proof (Rabs_pos u) as U0. pose proof (Rabs_pos v) as V0.
  assert (B : forall p q y z : R, Rabs p <= a * a -> Rabs q <= a * a -> Rabs (p * y + q * z) <= a * a * (Rabs y + Rabs z)).
  { intros p0 q y z Hp Hq. eapply Rle_trans; [apply Rabs_triang|]. rewrite !Rabs_mult. pose proof (Rabs_pos y). pose proof (Rabs_pos z). nra. }
  split.
  - replace (_ - _) with ((cos a - 1) * u + (- (sin a - a)) * v) by (unfold u, v; rcbn; ring). apply B; [exact C|rewrite Rabs_Ropp; exact S].
  - replace (_ - _) with ((sin a - a) * u + (cos a - 1) * v) by (unfold u, v; rcbn; ring). apply B; assumption.
Qed.

(** ** the position solve *)
(** a row of the jacobian times the displacement *)
Definition rowd (J : Rmat) (D : displ) (i : nat) : R :=
  J i 0%nat * vx (sh_d0 D) + J i 1%nat * vy (sh_d0 D) + J i 2%nat * sh_a0 D + J i 3%nat * vx (sh_d1 D) + J i 4%nat * vy (sh_d1 D) + J i 5%nat * sh_a1 D.
Definition displ_of (px : Rprox) (P : Rvec) : displ :=
  Displ (rv (P 0%nat * px_m0 px) (P 1%nat * px_m0 px)) (px_I0 px * P 2%nat) (rv (P 3%nat * px_m1 px) (P 4%nat * px_m1 px)) (px_I1 px * P 5%nat).
Lemma rowd_impulse n (J : Rmat) px (l : Rvec) i : rowd J (displ_of px (impulse n J l)) i = sum n (fun j => eff J px i j * l j).
Proof.
  set (P := impulse n J l).
  assert (EP : sum n (fun j => eff J px i j * l j) =
     px_m0 px * (J i 0%nat * P 0%nat + J i 1%nat * P 1%nat) + px_I0 px * (J i 2%nat * P 2%nat) +
     px_m1 px * (J i 3%nat * P 3%nat + J i 4%nat * P 4%nat) + px_I1 px * (J i 5%nat * P 5%nat)).
  { subst P. unfold impulse, mvmul, mtrans, eff. clear. induction n as [|n IH]; [cbn [ksum]; rring|]. cbn [ksum]. rewrite IH. rring. }
  rewrite EP. unfold rowd, displ_of, rv. cbn [sh_d0 sh_a0 sh_d1 sh_a1 vx vy]. rcbn. rring.
Qed.
(** the kinetic energy of an impulse: the quadratic form of the effective mass *)
Lemma eff_energy n (J : Rmat) px (x : Rvec) : let P := impulse n J x in
  sum n (fun i => x i * sum n (fun j => eff J px i j * x j)) =
  px_m0 px * (P 0%nat * P 0%nat + P 1%nat * P 1%nat) + px_I0 px * (P 2%nat * P 2%nat) + px_m1 px * (P 3%nat * P 3%nat + P 4%nat * P 4%nat) + px_I1 px * (P 5%nat * P 5%nat).
Proof.
  cbv zeta. set (P := impulse n J x).
  assert (E : forall m, sum m (fun i => x i * sum n (fun j => eff J px i j * x j)) =
    px_m0 px * (impulse m J x 0%nat * P 0%nat + impulse m J x 1%nat * P 1%nat) + px_I0 px * (impulse m J x 2%nat * P 2%nat) +
    px_m1 px * (impulse m J x 3%nat * P 3%nat + impulse m J x 4%nat * P 4%nat) + px_I1 px * (impulse m J x 5%nat * P 5%nat)).
  { induction m as [|m IH]; [unfold impulse, mvmul; cbn [ksum]; unfold k0; rcbn; rring|]. cbn [ksum]. rewrite IH, <- rowd_impulse. fold P.
    unfold impulse, mvmul, mtrans at 1. cbn [ksum]. unfold rowd, displ_of, rv. cbn [sh_d0 sh_a0 sh_d1 sh_a1 vx vy]. unfold mtrans. rcbn. rring. }
  apply E.
Qed.

Lemma eff_fun (J : Rmat) px : eff_mass J px = eff J px.
Proof. apply functional_extensionality. intros i. apply functional_extensionality. intros j. apply eff_eq. Qed.
(** the position solve of an equality constraint *)
Lemma eq_position_spec (e : Reqs) f (px : Rprox) s : (forall l, cf_clampPos f l = l) -> independent (cf_dim f) (eff (cf_jac f px s) px) ->
  exists e' l, eq_position e f px s = (let* s' := apply_C px (impulse (cf_dim f) (cf_jac f px s) l) s in Ret (e', s'))%out /\
    forall i, (i < cf_dim f)%nat -> cf_eval f px s i + rowd (cf_jac f px s) (displ_of px (impulse (cf_dim f) (cf_jac f px s) l)) i = 0.
Proof.
  intros CL IND. unfold eq_position. cbn [compute_K]. rewrite eff_fun.
  apply ks_valid_iff in IND. destruct (ks_spec _ _ (fun i => kopp (cf_eval f px s i)) IND) as (l & E & H). rewrite E. cbn [obind]. rewrite CL.
  eexists _, l. split; [reflexivity|]. intros i Hi. rewrite rowd_impulse. specialize (H i Hi). unfold mvmul in H. change (sum (cf_dim f) (fun j => eff (cf_jac f px s) px i j * l j) = - cf_eval f px s i) in H. rewrite H. rcbn. rring.
Qed.
Lemma eq_position_two (e : Reqs) f (px : Rprox) s : (forall l, cf_clampPos f l = l) -> independent (cf_dim f) (eff (cf_jac f px s) px) -> px_i0 px <> px_i1 px ->
  exists e' D, eq_position e f px s = Ret (e', shifted px D s) /\ forall i, (i < cf_dim f)%nat -> cf_eval f px s i + rowd (cf_jac f px s) D i = 0.
Proof.
  intros CL IND NE. destruct (eq_position_spec e f px s CL IND) as (e' & l & E & H). rewrite apply_C_shift in E by exact NE. cbn [obind] in E.
  exists e'. eexists. split; [exact E|exact H].
Qed.
(** solvable: no impulse leaves all the masses at rest *)
Lemma energy_independent n (J : Rmat) (px : Rprox) : 0 <= px_m0 px -> 0 <= px_m1 px -> 0 <= px_I0 px -> 0 <= px_I1 px ->
  (forall x : Rvec, let P := impulse n J x in px_m0 px * (P 0%nat * P 0%nat + P 1%nat * P 1%nat) = 0 -> px_I0 px * (P 2%nat * P 2%nat) = 0 ->
     px_m1 px * (P 3%nat * P 3%nat + P 4%nat * P 4%nat) = 0 -> px_I1 px * (P 5%nat * P 5%nat) = 0 -> forall i, (i < n)%nat -> x i = 0) ->
  independent n (eff J px).
Proof.
  intros A B C D H x HX. pose proof (eff_energy n J px x) as E. cbv zeta in E. rewrite sum_zero in E.
  2:{ intros i Hi. specialize (HX i Hi). unfold mvmul in HX. change (sum n (fun j => eff J px i j * x j) = 0) in HX. rewrite HX. rcbn. rring. }
  specialize (H x). cbv zeta in H. set (P := impulse n J x) in *.
  assert (SQ : forall z : R, 0 <= z * z) by (intros z; pose proof (Rle_0_sqr z) as Z; exact Z).
  pose proof (Rmult_le_pos _ _ A (Rplus_le_le_0_compat _ _ (SQ (P 0%nat)) (SQ (P 1%nat)))).
  pose proof (Rmult_le_pos _ _ B (Rplus_le_le_0_compat _ _ (SQ (P 3%nat)) (SQ (P 4%nat)))).
  pose proof (Rmult_le_pos _ _ C (SQ (P 2%nat))). pose proof (Rmult_le_pos _ _ D (SQ (P 5%nat))).
  change (@K RNum) with R in *. apply H; lra.
Qed.
Definition massive (px : Rprox) : Prop := 0 <= px_m0 px /\ 0 <= px_m1 px /\ 0 <= px_I0 px /\ 0 <= px_I1 px /\ 0 < px_m0 px + px_m1 px /\ 0 < px_I0 px + px_I1 px.
Lemma both_zero (a b x y : R) : 0 < a + b -> a * (x * x + y * y) = 0 -> b * (x * x + y * y) = 0 -> x = 0 /\ y = 0.
Proof.
  intros AB H1 H2. assert (Z : x * x + y * y = 0) by nra.
  pose proof (Rle_0_sqr x) as X. pose proof (Rle_0_sqr y) as Y. unfold Rsqr in *.
  split; [assert (Q : x * x = 0) by lra|assert (Q : y * y = 0) by lra]; apply Rmult_integral in Q; tauto.
Qed.
Lemma hinge_independent l0 l1 (px : Rprox) s : massive px -> independent 2 (eff (cf_jac (hinge_fun l0 l1) px s) px).
Proof.
  intros (A & B & C & D & M & _). apply energy_independent; try assumption. intros x P H0 _ H1 _.
  assert (P0 : P 0%nat = - x 0%nat) by (unfold P, impulse, mvmul, mtrans, hinge_fun; cbn [ksum cf_jac rows2 row6]; unfold k0; rcbn; rring).
  assert (P1 : P 1%nat = - x 1%nat) by (unfold P, impulse, mvmul, mtrans, hinge_fun; cbn [ksum cf_jac rows2 row6]; unfold k0; rcbn; rring).
  assert (P3 : P 3%nat = x 0%nat) by (unfold P, impulse, mvmul, mtrans, hinge_fun; cbn [ksum cf_jac rows2 row6]; unfold k0, k1; rcbn; rring).
  assert (P4 : P 4%nat = x 1%nat) by (unfold P, impulse, mvmul, mtrans, hinge_fun; cbn [ksum cf_jac rows2 row6]; unfold k0, k1; rcbn; rring).
  change (@K RNum) with R in *. rewrite P0, P1 in H0. rewrite P3, P4 in H1. clear P0 P1 P3 P4.
  replace (- x 0%nat * - x 0%nat + - x 1%nat * - x 1%nat) with (x 0%nat * x 0%nat + x 1%nat * x 1%nat) in H0 by ring.
  destruct (both_zero _ _ _ _ M H0 H1) as [X0 X1]. intros [|[|i]] Hi; [assumption|assumption|lia].
Qed.
Lemma weld_independent l0 l1 q (px : Rprox) s : massive px -> independent 3 (eff (cf_jac (weld_fun l0 l1 q) px s) px).
Proof.
  intros (A & B & C & D & M & MI). apply energy_independent; try assumption. intros x P H0 H2 H1 H3.
  assert (P0 : P 0%nat = - x 0%nat) by (unfold P, impulse, mvmul, mtrans, weld_fun, cfun_pair, hinge_fun, rotation_fun, stack; cbn [ksum cf_dim cf_jac rows2 rows1 row6 Nat.ltb Nat.leb Nat.sub]; unfold k0; rcbn; rring).
  assert (P1 : P 1%nat = - x 1%nat) by (unfold P, impulse, mvmul, mtrans, weld_fun, cfun_pair, hinge_fun, rotation_fun, stack; cbn [ksum cf_dim cf_jac rows2 rows1 row6 Nat.ltb Nat.leb Nat.sub]; unfold k0; rcbn; rring).
  assert (P3 : P 3%nat = x 0%nat) by (unfold P, impulse, mvmul, mtrans, weld_fun, cfun_pair, hinge_fun, rotation_fun, stack; cbn [ksum cf_dim cf_jac rows2 rows1 row6 Nat.ltb Nat.leb Nat.sub]; unfold k0, k1; rcbn; rring).
  assert (P4 : P 4%nat = x 1%nat) by (unfold P, impulse, mvmul, mtrans, weld_fun, cfun_pair, hinge_fun, rotation_fun, stack; cbn [ksum cf_dim cf_jac rows2 rows1 row6 Nat.ltb Nat.leb Nat.sub]; unfold k0, k1; rcbn; rring).
  change (@K RNum) with R in *. rewrite P0, P1 in H0. rewrite P3, P4 in H1. clear P0 P1 P3 P4.
  replace (- x 0%nat * - x 0%nat + - x 1%nat * - x 1%nat) with (x 0%nat * x 0%nat + x 1%nat * x 1%nat) in H0 by ring.
  destruct (both_zero _ _ _ _ M H0 H1) as [X0 X1].
  assert (P2 : P 2%nat = - x 2%nat) by (unfold P, impulse, mvmul, mtrans, weld_fun, cfun_pair, hinge_fun, rotation_fun, stack; cbn [ksum cf_dim cf_jac rows2 rows1 row6 Nat.ltb Nat.leb Nat.sub]; rewrite X0, X1; unfold k0; rcbn; rring).
  assert (P5 : P 5%nat = x 2%nat) by (unfold P, impulse, mvmul, mtrans, weld_fun, cfun_pair, hinge_fun, rotation_fun, stack; cbn [ksum cf_dim cf_jac rows2 rows1 row6 Nat.ltb Nat.leb Nat.sub]; rewrite X0, X1; unfold k0, k1; rcbn; rring).
  change (@K RNum) with R in *. rewrite P2 in H2. rewrite P5 in H3.
  destruct (both_zero (px_I0 px) (px_I1 px) (x 2%nat) 0 MI) as [X2 _]; [rewrite Rmult_0_l, Rplus_0_r, <- (Rmult_opp_opp (x 2%nat)); exact H2|rewrite Rmult_0_l, Rplus_0_r; exact H3|].
  intros [|[|[|i]]] Hi; [assumption|assumption|assumption|lia].
Qed.
Lemma near_trans e f x y z : near e x y -> near f y z -> near (e + f) x z.
Proof.
  unfold near. intros [A B] [C D]. split.
  - replace (vx x - vx z) with ((vx x - vx y) + (vx y - vx z)) by (rcbn; ring). eapply Rle_trans; [apply Rabs_triang|]. apply Rplus_le_compat; assumption.
  - replace (vy x - vy z) with ((vy x - vy y) + (vy y - vy z)) by (rcbn; ring). eapply Rle_trans; [apply Rabs_triang|]. apply Rplus_le_compat; assumption.
Qed.
Lemma near_sym e x y : near e x y -> near e y x.
Proof. unfold near. rewrite (Rabs_minus_sym (vx y)), (Rabs_minus_sym (vy y)). auto. Qed.
(** the angle by which a body turned between two states *)
Definition turned (i : nat) (s s' : Rstore) : R := r_theta (p_rot (s_pos s' i)) - r_theta (p_rot (s_pos s i)).
Lemma shifted_0 px D s : px_i0 px <> px_i1 px -> s_pos (shifted px D s) (px_i0 px) = pos_advance (s_pos s (px_i0 px)) (sh_d0 D) (sh_a0 D).
Proof. intros NE. unfold shifted. cbn [s_pos]. rewrite Nat.eqb_refl. destruct (Nat.eqb_spec (px_i0 px) (px_i1 px)); [contradiction|reflexivity]. Qed.
Lemma shifted_1 px D s : s_pos (shifted px D s) (px_i1 px) = pos_advance (s_pos s (px_i1 px)) (sh_d1 D) (sh_a1 D).
Proof. unfold shifted. cbn [s_pos]. rewrite Nat.eqb_refl. reflexivity. Qed.
Lemma shifted_turned_0 px D s : px_i0 px <> px_i1 px -> turned (px_i0 px) s (shifted px D s) = sh_a0 D.
Proof. intros NE. unfold turned. rewrite shifted_0 by exact NE. cbn [pos_advance p_rot rot_mul mk_rot r_theta]. rcbn. rring. Qed.
Lemma shifted_turned_1 px D s : turned (px_i1 px) s (shifted px D s) = sh_a1 D.
Proof. unfold turned. rewrite shifted_1. cbn [pos_advance p_rot rot_mul mk_rot r_theta]. rcbn. rring. Qed.
Lemma shifted_others px D s i : i <> px_i0 px -> i <> px_i1 px -> s_pos (shifted px D s) i = s_pos s i.
Proof. intros H0 H1. unfold shifted. cbn [s_pos]. destruct (Nat.eqb_spec i (px_i1 px)); [contradiction|]. destruct (Nat.eqb_spec i (px_i0 px)); [contradiction|reflexivity]. Qed.

(** how far from each other the anchors may end: quadratic in the angles turned *)
Definition slack (px : Rprox) (s s' : Rstore) (l0 l1 : Rv) : R :=
  let a0 := turned (px_i0 px) s s' in let a1 := turned (px_i1 px) s s' in
  a0 * a0 * reach (s_pos s (px_i0 px)) (world0 px s l0) + a1 * a1 * reach (s_pos s (px_i1 px)) (world1 px s l1).
Lemma hinge_rows_close l0 l1 (px : Rprox) s D : px_i0 px <> px_i1 px -> is_rotation (p_rot (s_pos s (px_i0 px))) -> is_rotation (p_rot (s_pos s (px_i1 px))) ->
  (forall i, (i < 2)%nat -> cf_eval (hinge_fun l0 l1) px s i + rowd (cf_jac (hinge_fun l0 l1) px s) D i = 0) ->
  near (slack px s (shifted px D s) l0 l1) (world0 px (shifted px D s) l0) (world1 px (shifted px D s) l1).
Proof.
  intros NE R0 R1 H. pose proof (H 0%nat ltac:(lia)) as H0. pose proof (H 1%nat ltac:(lia)) as H1. clear H.
  unfold slack. rewrite shifted_turned_0, shifted_turned_1 by exact NE. unfold world0, world1. rewrite shifted_0, shifted_1 by exact NE.
  eapply near_trans; [apply advance_point; exact R0|].
  replace (carried (s_pos s (px_i0 px)) _ _ _) with (carried (s_pos s (px_i1 px)) (sh_d1 D) (sh_a1 D) (tf_apply (to_world (s_pos s (px_i1 px))) l1)); [apply near_sym, advance_point; exact R1|].
  unfold hinge_fun, rowd in H0, H1. cbn [cf_eval cf_jac rows2 row6 vec_of2] in H0, H1. unfold centroid_of, to_world_of, vperp, vsub, k0, k1 in H0, H1. cbn [vx vy kofZ RNum] in H0, H1.
  unfold carried, rv. rcbn. change (@K RNum) with R in *. f_equal; lra.
Qed.
Lemma hinge_position (e : Reqs) l0 l1 (px : Rprox) s : massive px -> px_i0 px <> px_i1 px -> is_rotation (p_rot (s_pos s (px_i0 px))) -> is_rotation (p_rot (s_pos s (px_i1 px))) ->
  exists e' s', eq_position e (hinge_fun l0 l1) px s = Ret (e', s') /\ near (slack px s s' l0 l1) (world0 px s' l0) (world1 px s' l1) /\
    s_vel s' = s_vel s /\ forall i, i <> px_i0 px -> i <> px_i1 px -> s_pos s' i = s_pos s i.
Proof.
  intros M NE R0 R1. destruct (eq_position_two e (hinge_fun l0 l1) px s (fun _ => eq_refl) (hinge_independent l0 l1 px s M) NE) as (e' & D & E & H).
  exists e', (shifted px D s). split; [exact E|]. split; [apply hinge_rows_close; assumption|]. split; [reflexivity|]. intros; apply shifted_others; assumption.
Qed.
Lemma weld_position (e : Reqs) l0 l1 q (px : Rprox) s : massive px -> px_i0 px <> px_i1 px -> is_rotation (p_rot (s_pos s (px_i0 px))) -> is_rotation (p_rot (s_pos s (px_i1 px))) ->
  exists e' s', eq_position e (weld_fun l0 l1 q) px s = Ret (e', s') /\ near (slack px s s' l0 l1) (world0 px s' l0) (world1 px s' l1) /\
    r_theta (p_rot (s_pos s' (px_i1 px))) - r_theta (p_rot (s_pos s' (px_i0 px))) = q /\
    s_vel s' = s_vel s /\ forall i, i <> px_i0 px -> i <> px_i1 px -> s_pos s' i = s_pos s i.
Proof.
  intros M NE R0 R1.
  assert (CL : forall l, cf_clampPos (weld_fun l0 l1 q) l = l).
  { intros l. apply functional_extensionality. intros i. unfold weld_fun, cfun_pair. cbn [cf_clampPos]. unfold stack, Constraint.shift. cbn [hinge_fun rotation_fun cf_dim cf_clampPos].
    destruct (Nat.ltb_spec i 2); [reflexivity|]. f_equal. lia. }
  destruct (eq_position_two e (weld_fun l0 l1 q) px s CL (weld_independent l0 l1 q px s M) NE) as (e' & D & E & H).
  exists e', (shifted px D s). split; [exact E|]. split; [apply hinge_rows_close; try assumption; intros i Hi; specialize (H i ltac:(cbn; lia));
    unfold weld_fun, cfun_pair in H; cbn [cf_eval cf_jac] in H; unfold rowd, stack in H; cbn [hinge_fun cf_dim] in H; rewrite (proj2 (Nat.ltb_lt i 2) Hi) in H; exact H|].
  split; [|split; [reflexivity|intros; apply shifted_others; assumption]].
  specialize (H 2%nat ltac:(cbn; lia)). unfold weld_fun, cfun_pair in H. cbn [cf_eval cf_jac] in H. unfold rowd, stack in H. cbn [hinge_fun cf_dim Nat.ltb Nat.leb Nat.sub rotation_fun cf_eval cf_jac vec1 rows1 row6] in H.
  rewrite shifted_0, shifted_1 by exact NE. cbn [pos_advance p_rot rot_mul mk_rot r_theta]. unfold k0, k1 in H. rcbn. cbn [kofZ] in H. rlra.
Qed.
(** ** the mouse constraint: one body, whose point [l] is to follow the mouse *)
Lemma mouse_independent l q (px : Rprox) s : 0 < px_m0 px -> 0 <= px_m1 px -> 0 <= px_I0 px -> 0 <= px_I1 px -> independent 2 (eff (cf_jac (mouse_fun l q) px s) px).
Proof.
  intros A B C D. apply energy_independent; try assumption; [lra|]. intros x P H0 _ _ _.
  assert (P0 : P 0%nat = x 0%nat) by (unfold P, impulse, mvmul, mtrans, mouse_fun; cbn [ksum cf_jac rows2 row6]; unfold k0, k1; rcbn; rring).
  assert (P1 : P 1%nat = x 1%nat) by (unfold P, impulse, mvmul, mtrans, mouse_fun; cbn [ksum cf_jac rows2 row6]; unfold k0, k1; rcbn; rring).
  change (@K RNum) with R in *. rewrite P0, P1 in H0.
  destruct (both_zero (px_m0 px) 0 (x 0%nat) (x 1%nat) ltac:(lra) H0 ltac:(ring)) as [X0 X1]. intros [|[|i]] Hi; [assumption|assumption|lia].
Qed.
Lemma advance_zero (p : @position RNum) (l : Rv) : is_rotation (p_rot p) -> tf_apply (to_world (pos_advance p (rv 0 0) 0)) l = tf_apply (to_world p) l.
Proof.
  intros IR. pose proof (advance_point p (rv 0 0) 0 l IR) as [A B]. rewrite !Rmult_0_l in A, B. unfold carried, rv in A, B. cbn [vx vy] in A, B.
  assert (Z : forall u v : R, Rabs (u - v) <= 0 -> u = v).
  { intros u v H. pose proof (Rle_abs (u - v)). pose proof (Rle_abs (- (u - v))) as L. rewrite Rabs_Ropp in L. lra. }
  apply Z in A. apply Z in B. destruct (tf_apply (to_world (pos_advance _ _ _)) l) as [u v]. cbn [vx vy] in A, B. rewrite A, B.
  destruct (tf_apply (to_world p) l) as [u' v']. cbn [vx vy]. apply (f_equal2 (@V2 RNum)); rcbn; rring.
Qed.
Lemma advance_rotation (p : @position RNum) d a : is_rotation (p_rot (pos_advance p d a)).
Proof. cbn [pos_advance p_rot]. constructor. Qed.
Lemma mouse_position (e : Reqs) l q (px : Rprox) s : 0 < px_m0 px -> 0 <= px_m1 px -> 0 <= px_I0 px -> 0 <= px_I1 px ->
  is_rotation (p_rot (s_pos s (px_i0 px))) -> px_i0 px = px_i1 px ->
  exists e' s', eq_position e (mouse_fun l q) px s = Ret (e', s') /\
    (let a := turned (px_i0 px) s s' in near (a * a * reach (s_pos s (px_i0 px)) (world0 px s l)) (world0 px s' l) q) /\
    s_vel s' = s_vel s /\ forall i, i <> px_i0 px -> s_pos s' i = s_pos s i.
Proof.
  intros A B C D IR SAME. destruct (eq_position_spec e (mouse_fun l q) px s (fun _ => eq_refl) (mouse_independent l q px s A B C D)) as (e' & x & E & H).
  change (cf_dim (mouse_fun l q)) with 2%nat in *. set (P := impulse 2 _ x) in *.
  assert (Z : P 3%nat = 0 /\ P 4%nat = 0 /\ P 5%nat = 0) by (unfold P, impulse, mvmul, mtrans, mouse_fun; cbn [ksum cf_jac rows2 row6]; unfold k0, k1; rcbn; repeat split; rring).
  destruct Z as (Z3 & Z4 & Z5). unfold apply_C in E. rewrite adv_R in E. cbn [obind] in E. rewrite adv_R in E. cbn [obind s_pos s_vel] in E.
  rewrite Z3, Z4, Z5, <- SAME in E.
  exists e'. eexists. split; [exact E|]. unfold world0, turned. cbn [s_pos s_vel]. rewrite !set_at_eq.
  set (d := vscale (px_m0 px) _). set (a := kmul (px_I0 px) (P 2%nat)). set (p := s_pos s (px_i0 px)) in *.
  assert (D1 : vscale (N := RNum) (px_m1 px) (V2 (N := RNum) 0 0) = rv 0 0) by (unfold vscale, rv; cbn [vx vy]; apply (f_equal2 (@V2 RNum)); rcbn; rring).
  assert (A1 : @kmul RNum (px_I1 px) 0 = 0) by (rcbn; rring). rewrite D1, A1, advance_zero by apply advance_rotation.
  split; [|split; [reflexivity|intros i Hi; rewrite !set_at_ne by exact Hi; reflexivity]].
  cbv zeta.
  match goal with |- context [?t - r_theta (p_rot p)] => replace (t - r_theta (p_rot p)) with a by (cbn [pos_advance p_rot rot_mul mk_rot r_theta]; rcbn; rring) end.
  replace q with (carried p d a (tf_apply (to_world p) l)); [apply advance_point; exact IR|].
  pose proof (H 0%nat ltac:(lia)) as H0. pose proof (H 1%nat ltac:(lia)) as H1. unfold mouse_fun, rowd, displ_of in H0, H1. fold P in H0, H1.
  cbn [cf_eval cf_jac rows2 row6 vec_of2 sh_d0 sh_a0 sh_d1 sh_a1] in H0, H1. unfold centroid_of, to_world_of, vsub, k0, k1, rv in H0, H1. cbn [vx vy kofZ RNum] in H0, H1. fold p in H0, H1.
  unfold carried, d, a, vscale, rv. cbn [vx vy]. destruct q as [q0 q1]. cbn [vx vy] in H0, H1. rcbn. change (@K RNum) with R in *. apply (f_equal2 (@V2 RNum)); lra.
Qed.
(** the velocity solve of the mouse constraint *)
Lemma mouse_velocity l q (px : Rprox) s0 (e0 e : Reqs) lam s dt :
  eq_init e0 (mouse_fun l q) px s0 = Ret e -> s_pos s = s_pos s0 ->
  exists e' s', eq_velocity (eq_at e lam) (mouse_fun l q) px s dt = Ret (e', s') /\ s_pos s' = s_pos s /\
    let v := pvel (s_pos s' (px_i0 px)) (s_vel s' (px_i0 px)) (world0 px s' l) in
    vx v = - (sb_rest (es_base e0) 0%nat * (vx (world0 px s l) - vx q) / dt) - sb_damp (es_base e0) 0%nat * sb_lambda (es_base e') 0%nat /\
    vy v = - (sb_rest (es_base e0) 1%nat * (vy (world0 px s l) - vy q) / dt) - sb_damp (es_base e0) 1%nat * sb_lambda (es_base e') 1%nat.
Proof.
  intros HI HP.
  destruct (eq_velocity_spec e0 e (mouse_fun l q) px s0 lam s dt (fun _ _ => eq_refl) HI) as (l' & E & H).
  { right. intros [|[|i]] Hi; [repeat split| |cbn in Hi; lia]; repeat split; reflexivity. }
  eexists _, _. split; [exact E|]. split; [reflexivity|]. cbv zeta.
  pose proof (H 0%nat ltac:(cbn; lia)) as H0. pose proof (H 1%nat ltac:(cbn; lia)) as H1.
  set (s' := pushed px _ s) in *. assert (P' : s_pos s' = s_pos s0) by (unfold s'; rewrite pushed_pos; exact HP).
  unfold rowv in H0, H1. cbn [mouse_fun cf_jac cf_bias cf_eval rows2 row6 vec_of2] in H0, H1. unfold vzero, k0, k1 in H0, H1. cbn [kofZ RNum] in H0, H1.
  unfold pvel, world0. rewrite !P', HP. unfold to_world_of, centroid_of, vsub in H0, H1. cbn [vx vy] in H0, H1. rewrite HP in H0, H1.
  cbn [eq_at es_base sb_lambda set_lambda]. unfold rv. cbn [vx vy]. rcbn. change (@K RNum) with R in *. split; lra.
Qed.
Lemma mouse_solvable l q (px : Rprox) s (e0 : Reqs) : 0 < px_m0 px -> 0 <= px_m1 px -> 0 <= px_I0 px -> 0 <= px_I1 px -> (forall i, sb_damp (es_base e0) i = 0) ->
  exists e, eq_init e0 (mouse_fun l q) px s = Ret e.
Proof.
  intros A B C D Z. apply eq_init_ret. change (cf_dim (mouse_fun l q)) with 2%nat.
  replace (fun i j => eff (cf_jac (mouse_fun l q) px s) px i j + _) with (eff (cf_jac (mouse_fun l q) px s) px); [apply mouse_independent; assumption|].
  apply functional_extensionality. intros i. apply functional_extensionality. intros j. rewrite Z. destruct (Nat.eqb i j); ring.
Qed.
(** ** the rotation constraint *)
Lemma rotation_position (e : Reqs) q (px : Rprox) s : 0 <= px_I0 px -> 0 <= px_I1 px -> 0 < px_I0 px + px_I1 px -> px_i0 px <> px_i1 px ->
  exists e' s', eq_position e (rotation_fun q) px s = Ret (e', s') /\
    r_theta (p_rot (s_pos s' (px_i1 px))) - r_theta (p_rot (s_pos s' (px_i0 px))) = q /\
    (forall i, p_off (s_pos s' i) = p_off (s_pos s i)) /\ s_vel s' = s_vel s /\ forall i, i <> px_i0 px -> i <> px_i1 px -> s_pos s' i = s_pos s i.
Proof.
  intros C D M NE.
  assert (IND : independent 1 (eff (cf_jac (rotation_fun q) px s) px)).
  { intros x HX [|i] Hi; [|lia]. specialize (HX 0%nat ltac:(lia)). unfold mvmul, eff, rotation_fun in HX. cbn [ksum cf_jac rows1 row6] in HX. unfold k0, k1 in HX. cbn [kofZ kadd kmul kopp RNum] in HX. change (@K RNum) with R in *. nra. }
  destruct (eq_position_spec e (rotation_fun q) px s (fun _ => eq_refl) IND) as (e' & x & E & H). change (cf_dim (rotation_fun q)) with 1%nat in *.
  rewrite apply_C_shift in E by exact NE. cbn [obind] in E. set (P := impulse 1 _ x) in *. fold (displ_of px P) in E.
  assert (Z : P 0%nat = 0 /\ P 1%nat = 0 /\ P 3%nat = 0 /\ P 4%nat = 0) by (unfold P, impulse, mvmul, mtrans, rotation_fun; cbn [ksum cf_jac rows1 row6]; unfold k0, k1; rcbn; repeat split; rring).
  destruct Z as (Z0 & Z1 & Z3 & Z4).
  exists e'. eexists. split; [exact E|]. split; [|split; [|split; [reflexivity|intros; apply shifted_others; assumption]]].
  - specialize (H 0%nat ltac:(lia)). unfold rowd in H. cbn [rotation_fun cf_eval cf_jac vec1 rows1 row6] in H. fold P in H. rewrite shifted_0, shifted_1 by exact NE. cbn [pos_advance p_rot rot_mul mk_rot r_theta]. unfold k0, k1 in H. rcbn. cbn [kofZ] in H. rlra.
  - assert (V : forall (v : Rv) (z : R), z = 0 -> vadd v (rv (z * px_m0 px) (z * px_m0 px)) = v /\ vadd v (rv (z * px_m1 px) (z * px_m1 px)) = v).
    { intros [a b] z ->. unfold vadd, rv. cbn [vx vy]. split; apply (f_equal2 (@V2 RNum)); rcbn; rring. }
    intros i. unfold shifted, displ_of. cbn [s_pos sh_d0 sh_d1 sh_a0 sh_a1]. rewrite Z0, Z1, Z3, Z4.
    destruct (Nat.eqb i (px_i1 px)); [cbn [pos_advance p_off]; apply (V _ 0 eq_refl)|]. destruct (Nat.eqb i (px_i0 px)); [cbn [pos_advance p_off]; apply (V _ 0 eq_refl)|reflexivity].
Qed.
(** ** the inequality solver *)
Lemma in_position_singular (e : @insolver RNum) f (px : Rprox) s : ~ independent (cf_dim f) (eff (cf_jac f px s) px) -> exists e', in_position e f px s = Ret (e', s).
Proof.
  intros H. unfold in_position. cbv zeta. rewrite eff_fun. destruct (ks_valid _) eqn:V; [apply ks_valid_iff in V; contradiction|]. cbn [negb]. eexists. reflexivity.
Qed.
Lemma in_position_regular (e : @insolver RNum) f (px : Rprox) s : independent (cf_dim f) (eff (cf_jac f px s) px) -> px_i0 px <> px_i1 px ->
  exists e' l, in_position e f px s = Ret (e', shifted px (displ_of px (impulse (cf_dim f) (cf_jac f px s) (cf_clampPos f l))) s) /\
    forall i, (i < cf_dim f)%nat -> cf_eval f px s i + rowd (cf_jac f px s) (displ_of px (impulse (cf_dim f) (cf_jac f px s) l)) i = 0.
Proof.
  intros IND NE. unfold in_position. cbv zeta. rewrite eff_fun. apply ks_valid_iff in IND. rewrite IND. cbn [negb].
  destruct (ks_spec _ _ (fun i => kopp (cf_eval f px s i)) IND) as (l & E & H). rewrite E. cbn [obind]. rewrite apply_C_shift by exact NE. cbn [obind].
  eexists _, l. split; [reflexivity|]. intros i Hi. rewrite rowd_impulse. specialize (H i Hi). unfold mvmul in H. change (sum (cf_dim f) (fun j => eff (cf_jac f px s) px i j * l j) = - cf_eval f px s i) in H. rewrite H. rcbn. rring.
Qed.

(** ** motors made by fromAccel with a target mass or inertia *)
Lemma target_bound maxV a (t mass : R) m (px : Rprox) dt e dv dw : motor_hist 2 maxV (@specs_maxForce RNum (@specs_fromAccel RNum a (Some t)) mass) m -> 0 <= dt -> 0 <= t -> px_m0 px * mass = 1 ->
  motor_step (translation_motor m) px dt e dv dw ->
  let F := Rabs a * t * mo_throttle m * dt in (mass * vx dv) * (mass * vx dv) + (mass * vy dv) * (mass * vy dv) <= F * F.
Proof.
  intros H HD HT HM S. pose proof (translation_bound _ _ _ _ _ _ _ _ _ H HD HM S) as (A & _).
  cbn [specs_fromAccel specs_maxForce kmul RNum] in A. rewrite Rabs_mult, (Rabs_pos_eq t) in A by lra. exact A.
Qed.
Lemma target_torque maxV a (t I : R) m (px : Rprox) dt e dv dw : motor_hist 1 maxV (@specs_maxForce RNum (@specs_fromAccel RNum a (Some t)) I) m -> 0 <= dt -> 0 <= t -> px_I0 px * I = 1 ->
  motor_step (rotation_motor m) px dt e dv dw -> Rabs (I * dw) <= Rabs a * t * mo_throttle m * dt.
Proof.
  intros H HD HT HM S. pose proof (rotation_bound _ _ _ _ _ _ _ _ _ H HD HM S) as (A & _).
  cbn [specs_fromAccel specs_maxForce kmul RNum] in A. rewrite (Rabs_mult a t), (Rabs_pos_eq t) in A by lra. exact A.
Qed.

(** ** concrete cases *)
Definition ex_hold : Rstore := @Store RNum (fun i => Pos (rv (match i with O => 0 | _ => 1 end) 0) (@mk_rot RNum RTrig 0) (rv 0 0)) (fun _ => @Vel RNum (rv 0 0) 0).
Lemma ex_hold_world (i : nat) (p : Rv) : tf_apply (to_world (s_pos ex_hold i)) p = rv (vx p + match i with O => 0 | _ => 1 end) (vy p).
Proof.
  unfold ex_hold, mk_rot, to_world, mul_Tt, mul_tr, tra_mul, tra_inverse, tf_apply, rot_apply, vadd, vopp, rv. cbn. rewrite cos_0, sin_0.
  f_equal; ring.
Qed.
Lemma ex_hold_rot (i : nat) (v : Rv) : rot_apply (t_rot (to_world (s_pos ex_hold i))) v = v.
Proof.
  unfold ex_hold, mk_rot, to_world, mul_Tt, mul_tr, rot_apply. cbn [t_rot s_pos p_rot r_cos r_sin kcos ksin RTrig]. rewrite cos_0, sin_0.
  destruct v as [x y]. cbn [vx vy]. apply (f_equal2 (@V2 RNum)); rcbn; rring.
Qed.
Lemma ex_massive : massive ex_px.
Proof. unfold massive, ex_px. cbn. lra. Qed.
Lemma ex_apart : massive ex_px /\ px_i0 ex_px <> px_i1 ex_px /\ is_rotation (p_rot (s_pos ex_hold 0)) /\ is_rotation (p_rot (s_pos ex_hold 1)) /\
  world0 ex_px ex_hold (rv 1 0) = rv 1 0 /\ world1 ex_px ex_hold (rv 3 1) = rv 4 1.
Proof.
  split; [exact ex_massive|]. split; [discriminate|]. split; [constructor|]. split; [constructor|].
  unfold world0, world1. rewrite !ex_hold_world. unfold rv. cbn [vx vy ex_px px_i0 px_i1]. split; f_equal; ring.
Qed.
(** the bodies of [ex_man] overlap by 1 at one point, or at two *)
Lemma ex_deep rest fric : gap (ex_ct rest fric) ex_px ex_hold 0 = -1 /\ mf_minPen (ct_man (ex_ct rest fric)) = 1 / 100 /\
  mf_n (ct_man (ex_ct rest fric)) = 1%nat /\ 0 < nK (placed (ex_ct rest fric) ex_px ex_hold) ex_px ex_hold 0 0 /\ asked (1 / 100) (-1) = 99 / 500.
Proof.
  assert (F : frame_at (ct_man (ex_ct rest fric)) ex_px ex_hold = frame_at ex_man ex_px ex_hold) by reflexivity.
  assert (NN : fr_normal (frame_at ex_man ex_px ex_hold) = rv (-1) 0).
  { unfold frame_at, frame_of. cbn [fr_normal mf_ref0 ex_man negb mf_normal]. unfold to_world_of. apply ex_hold_rot. }
  split; [|split; [reflexivity|split; [reflexivity|split]]].
  - unfold gap. rewrite F, NN. unfold frame_at, frame_of. cbn [fr_c mf_c ex_man]. unfold to_world_of. rewrite !ex_hold_world. unfold rv. cbn. lra.
  - apply nK_pos; cbn [ex_px px_m0 px_m1 px_I0 px_I1]; try lra. change (ct_fr (placed (ex_ct rest fric) ex_px ex_hold)) with (frame_at ex_man ex_px ex_hold). rewrite NN. intros H. injection H as H. lra.
  - unfold asked, Rmax, Rmin. repeat destruct (Rle_dec _ _); lra.
Qed.
Definition ex_man2 : @manifold RNum := @Mf RNum 2 (fun b i => let y := match i with O => 1 | _ => -1 end in if b then rv (-1) y else rv 1 y) (rv (-1) 0) false (1 / 100).
Definition ex_ct2 (rest fric : R) : Rcontact := @new_contact RNum ex_man2 (to_world (s_pos ex_hold 0)) (to_world (s_pos ex_hold 1)) rest fric.
Lemma ex_deep2 rest fric : let c := placed (ex_ct2 rest fric) ex_px ex_hold in
  (forall i, gap (ex_ct2 rest fric) ex_px ex_hold i = -1) /\ mf_n (ct_man (ex_ct2 rest fric)) = 2%nat /\
  nK c ex_px ex_hold 0 0 * nK c ex_px ex_hold 1 1 - nK c ex_px ex_hold 0 1 * nK c ex_px ex_hold 0 1 = 16.
Proof.
  intros c. assert (F : frame_at (ct_man (ex_ct2 rest fric)) ex_px ex_hold = frame_at ex_man2 ex_px ex_hold) by reflexivity.
  assert (NN : fr_normal (frame_at ex_man2 ex_px ex_hold) = rv (-1) 0).
  { unfold frame_at, frame_of. cbn [fr_normal mf_ref0 ex_man2 negb mf_normal]. unfold to_world_of. apply ex_hold_rot. }
  assert (P : forall b i, fr_c (frame_at ex_man2 ex_px ex_hold) b i = rv (if b then 0 else 1) (match i with O => 1 | _ => -1 end)).
  { intros b i. unfold frame_at, frame_of. cbn [fr_c mf_c ex_man2]. unfold to_world_of. destruct b; rewrite ex_hold_world; unfold rv; cbn [vx vy ex_px px_i0 px_i1]; f_equal; ring. }
  assert (C : forall i, p_centroid (s_pos ex_hold i) = rv (match i with O => 0 | _ => 1 end) 0).
  { intros i. unfold p_centroid. rewrite ex_hold_world. unfold rv. cbn. f_equal; ring. }
  split; [|split; [reflexivity|]].
  - intros i. unfold gap. rewrite F, NN, !P. unfold rv. cbn [vx vy]. lra.
  - unfold nK, pt0, pt1, cen0, cen1. change (ct_fr c) with (frame_at ex_man2 ex_px ex_hold). rewrite NN, !P, !C. unfold cr, vsub, rv. cbn [vx vy ex_px px_m0 px_m1 px_I0 px_I1 px_i0 px_i1]. rcbn. ring.
Qed.
