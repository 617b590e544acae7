(** Motors and the distance constraint's constructor (C51, C52). *)
From Coq Require Import ZArith List Bool Reals Lra Psatz Lia Arith FunctionalExtensionality.
From Verif Require Import Num Outcome Box Mat MatFacts MatSolve Geom GeomClosest Transform TransformFacts Body BodyFacts Constraint ConstraintFacts.
Import ListNotations.
Local Open Scope R_scope.

(** ** C51 *)
Notation Rmotor := (@motor RNum).
(** a motor after any sequence of throttle(t) and direction(d) calls *)
Inductive motor_hist (n : nat) (maxV maxF : R) : Rmotor -> Prop :=
| MH_new : motor_hist n maxV maxF (@new_motor RNum maxV maxF)
| MH_throttle m (t : R) : motor_hist n maxV maxF m -> motor_hist n maxV maxF (motor_throttle m t)
| MH_direction m (d : Rvec) : motor_hist n maxV maxF m -> motor_hist n maxV maxF (motor_direction n m d).
Lemma clamp_between (v lo hi : R) : lo <= hi -> lo <= kclamp (N := RNum) v lo hi <= hi.
Proof. intros H. unfold kclamp, kmin, kmax. cbn [kltb RNum]. change (@K RNum) with R in *. rcmp; lra. Qed.
Lemma clamp_id (v lo hi : R) : lo <= v <= hi -> kclamp (N := RNum) v lo hi = v.
Proof. intros H. unfold kclamp, kmin, kmax. cbn [kltb RNum]. change (@K RNum) with R in *. rcmp; lra. Qed.
Definition direction_ok (n : nat) (d : Rvec) : Prop :=
  (forall i, (i < n)%nat -> d i = 0) \/ sum n (fun i => d i * d i) = 1.
Lemma motor_hist_ok n maxV maxF m : motor_hist n maxV maxF m ->
  0 <= mo_throttle m <= 1 /\ direction_ok n (mo_dir m) /\ mo_maxVel m = Rabs maxV /\ mo_maxForce m = Rabs maxF.
Proof.
  induction 1 as [|m t H (A & B & C & D)|m d H (A & B & C & D)].
  - cbn [new_motor mo_throttle mo_dir mo_maxVel mo_maxForce]. unfold k1. cbn [kofZ RNum kabs]. split; [lra|]. split; [left; reflexivity|]. auto.
  - cbn [motor_throttle mo_throttle mo_dir mo_maxVel mo_maxForce]. split; [|auto].
    pose proof (clamp_between t 0 1). unfold k0, k1. cbn [kofZ RNum]. lra.
  - cbn [motor_direction mo_throttle mo_dir mo_maxVel mo_maxForce]. split; [exact A|]. split; [|auto].
    cbn [keqb RNum]. unfold k0. cbn [kofZ RNum].
    pose proof (dot_nonneg n d) as P. change (@K RNum) with R in *.
    destruct (Reqb_spec (dot n d d) 0) as [E|E].
    + left. intros i Hi. apply (dot_zero n d E i Hi).
    + right. unfold nnorm. cbn [ksqrt kdiv RNum].
      assert (S : sqrt (dot n d d) <> 0) by (intros Z; apply sqrt_eq_0 in Z; [exact (E Z)|exact P]).
      transitivity (sum n (fun i => (d i * d i) * / dot n d d)).
      * apply sum_ext. intros i Hi. transitivity (d i * d i * / (sqrt (dot n d d) * sqrt (dot n d d))); [|rewrite sqrt_def by exact P; reflexivity].
        unfold Rdiv. rewrite Rinv_mult. rring.
      * rewrite sum_scal_r. fold (dot n d d). change (@ndot RNum n d d) with (sum n (fun i => d i * d i)) in E |- *. rcbn. apply Rinv_r. exact E.
Qed.
(** what clampLambda does *)
Definition within (b l : R) : Prop := Rmin 0 b <= l <= Rmax 0 b.
Lemma motor_clamp_within (m : Rmotor) (l : Rvec) (dt : R) i :
  within (mo_dir m i * (mo_throttle m * mo_maxForce m * dt)) (motor_clamp m l dt i).
Proof.
  unfold motor_clamp, motor_bound, within, k0. cbn [kmul kltb kofZ RNum].
  replace (mo_dir m i * (mo_throttle m * mo_maxForce m * dt)) with (mo_dir m i * mo_throttle m * mo_maxForce m * dt) by (rcbn; ring).
  set (b := mo_dir m i * mo_throttle m * mo_maxForce m * dt). unfold Rmin, Rmax.
  destruct (Rltb_spec b 0) as [B|B].
  - pose proof (clamp_between (l i) b 0). destruct (Rle_dec 0 b); lra.
  - pose proof (clamp_between (l i) 0 b). destruct (Rle_dec 0 b); lra.
Qed.
(** one time step of a motor: initSolve, then any number of warmstart and
    velocity solves, between which other constraints may change the store;
    [dv], [dw]: total change the motor made to the velocity of its body *)
Inductive motor_step (f : Rcfun) (px : Rprox) (dt : R) : Reqs -> Rv -> R -> Prop :=
| MS_init e0 e s : eq_init e0 f px s = Ret e -> motor_step f px dt e (rv 0 0) 0
| MS_warm e dv dw s e' s' : motor_step f px dt e dv dw -> eq_warmstart e f px s dt = Ret (e', s') ->
    motor_step f px dt e' (vadd dv (vsub (v_lin (s_vel s' (px_i0 px))) (v_lin (s_vel s (px_i0 px)))))
      (dw + (v_ang (s_vel s' (px_i0 px)) - v_ang (s_vel s (px_i0 px))))
| MS_vel e dv dw s e' s' : motor_step f px dt e dv dw -> eq_velocity e f px s dt = Ret (e', s') ->
    motor_step f px dt e' (vadd dv (vsub (v_lin (s_vel s' (px_i0 px))) (v_lin (s_vel s (px_i0 px)))))
      (dw + (v_ang (s_vel s' (px_i0 px)) - v_ang (s_vel s (px_i0 px)))).
Lemma pushed_body0 (px : Rprox) P s : P 3%nat = 0 -> P 4%nat = 0 -> P 5%nat = 0 ->
  s_vel (pushed px P s) (px_i0 px) = bump (s_vel s (px_i0 px)) (px_m0 px) (px_I0 px) (P 0%nat) (P 1%nat) (P 2%nat).
Proof.
  intros A B C. destruct (Nat.eq_dec (px_i0 px) (px_i1 px)) as [E|E]; [apply pushed_same; assumption|apply pushed_0; exact E].
Qed.
Lemma motor_step_lambda (f : Rcfun) px dt (J : Rmat) : (forall px s, cf_jac f px s = J) ->
  (forall i, (i < cf_dim f)%nat -> J i 3%nat = 0 /\ J i 4%nat = 0 /\ J i 5%nat = 0) ->
  forall e dv dw, motor_step f px dt e dv dw -> sb_J (es_base e) = J /\
  vx dv = px_m0 px * impulse (cf_dim f) J (sb_lambda (es_base e)) 0%nat /\
  vy dv = px_m0 px * impulse (cf_dim f) J (sb_lambda (es_base e)) 1%nat /\
  dw = px_I0 px * impulse (cf_dim f) J (sb_lambda (es_base e)) 2%nat /\
  (sb_lambda (es_base e) = vzero \/ exists l, sb_lambda (es_base e) = cf_clamp f l dt).
Proof.
  intros HJ HZ.
  assert (IZ : forall l k, (3 <= k < 6)%nat -> impulse (cf_dim f) J l k = 0).
  { intros l k Hk. apply impulse_zero. intros i Hi. destruct (HZ i Hi) as (A & B & C).
    assert (X : k = 3%nat \/ k = 4%nat \/ k = 5%nat) by lia. destruct X as [-> | [-> | ->]]; assumption. }
  assert (IS : forall l l' k, impulse (cf_dim f) J (fun i => l' i - l i) k = impulse (cf_dim f) J l' k - impulse (cf_dim f) J l k).
  { intros l l' k. unfold impulse, mvmul. rewrite <- sum_minus. apply sum_ext. intros. rring. }
  induction 1 as [e0 e s H|e dv dw s e' s' H (A & B & C & D & F) E|e dv dw s e' s' H (A & B & C & D & F) E].
  - apply eq_init_inv in H. destruct H as (A & _ & _ & B & _). rewrite A, B, HJ. split; [reflexivity|].
    assert (Z : forall k, impulse (cf_dim f) J vzero k = 0).
    { intros k. unfold impulse, mvmul. apply sum_zero. intros i Hi. unfold vzero, k0. cbn. ring. }
    rewrite !Z. cbn. split; [rring|split; [rring|split; [rring|]]]. left. reflexivity.
  - unfold eq_warmstart, warmstart_default in E. ret_inv E. destruct a as [b1 s1]. injection E as <- <-. apply update_lambda_R in E0. destruct E0 as [-> ->].
    cbn [fst snd es_base set_lambda sb_J sb_lambda]. rewrite A. split; [reflexivity|].
    rewrite pushed_body0 by (apply IZ; lia). rewrite !IS. unfold bump, rv. cbn [v_lin v_ang vadd vsub vx vy]. rcbn. rewrite B, C, D. split; [rring|split; [rring|split; [rring|]]]. right. eexists. reflexivity.
  - unfold eq_velocity in E. ret_inv E. destruct a0 as [b1 s1]. injection E as <- <-. apply update_lambda_R in E1. destruct E1 as [-> ->].
    cbn [fst snd es_base set_lambda sb_J sb_lambda]. rewrite A. split; [reflexivity|].
    rewrite pushed_body0 by (apply IZ; lia). rewrite !IS. unfold bump, rv. cbn [v_lin v_ang vadd vsub vx vy]. rcbn. rewrite B, C, D. split; [rring|split; [rring|split; [rring|]]]. right. eexists. reflexivity.
Qed.
Lemma within_0 b : within b 0.
Proof. unfold within, Rmin, Rmax. destruct (Rle_dec 0 b); lra. Qed.
Lemma translation_step (m : Rmotor) (px : Rprox) dt M e dv dw : px_m0 px * M = 1 -> motor_step (translation_motor m) px dt e dv dw ->
  within (mo_dir m 0%nat * (mo_throttle m * mo_maxForce m * dt)) (M * vx dv) /\
  within (mo_dir m 1%nat * (mo_throttle m * mo_maxForce m * dt)) (M * vy dv) /\ dw = 0.
Proof.
  intros HM H. apply (motor_step_lambda _ _ _ (@rows2 RNum (row6 k1 k0 k0 k0 k0 k0) (row6 k0 k1 k0 k0 k0 k0))) in H; [|intros; reflexivity|intros [|[|i]] Hi; try (cbn in Hi; lia); repeat split; reflexivity].
  destruct H as (_ & A & B & C & F). rewrite A, B, C.
  assert (X : forall l : Rvec, impulse 2 (@rows2 RNum (row6 k1 k0 k0 k0 k0 k0) (row6 k0 k1 k0 k0 k0 k0)) l 0%nat = l 0%nat /\
    impulse 2 (@rows2 RNum (row6 k1 k0 k0 k0 k0 k0) (row6 k0 k1 k0 k0 k0 k0)) l 1%nat = l 1%nat /\
    impulse 2 (@rows2 RNum (row6 k1 k0 k0 k0 k0 k0) (row6 k0 k1 k0 k0 k0 k0)) l 2%nat = 0).
  { intros l. unfold impulse, mvmul, mtrans, rows2, row6, k0, k1. cbn [ksum]. unfold k0. rcbn. repeat split; ring. }
  destruct (X (sb_lambda (es_base e))) as (X0 & X1 & X2).
  cbn [translation_motor cf_dim]. change (cf_dim (translation_motor m)) with 2%nat in *. rewrite X0, X1, X2.
  assert (Q : forall z, M * (px_m0 px * z) = z) by (intros z; rewrite <- Rmult_assoc, (Rmult_comm M), HM; ring).
  rewrite !Q. split; [|split; [|ring]].
  - destruct F as [-> | [l ->]]; [apply within_0|apply motor_clamp_within].
  - destruct F as [-> | [l ->]]; [apply within_0|apply motor_clamp_within].
Qed.
Lemma rotation_step (m : Rmotor) (px : Rprox) dt I e dv dw : px_I0 px * I = 1 -> motor_step (rotation_motor m) px dt e dv dw ->
  within (mo_dir m 0%nat * (mo_throttle m * mo_maxForce m * dt)) (I * dw) /\ dv = rv 0 0.
Proof.
  intros HM H. apply (motor_step_lambda _ _ _ (@rows1 RNum (row6 k0 k0 k1 k0 k0 k0))) in H; [|intros; reflexivity|intros [|i] Hi; try (cbn in Hi; lia); repeat split; reflexivity].
  destruct H as (_ & A & B & C & F). rewrite C.
  assert (X : forall l : Rvec, impulse 1 (@rows1 RNum (row6 k0 k0 k1 k0 k0 k0)) l 0%nat = 0 /\
    impulse 1 (@rows1 RNum (row6 k0 k0 k1 k0 k0 k0)) l 1%nat = 0 /\ impulse 1 (@rows1 RNum (row6 k0 k0 k1 k0 k0 k0)) l 2%nat = l 0%nat).
  { intros l. unfold impulse, mvmul, mtrans, rows1, row6, k0, k1. cbn [ksum]. unfold k0. rcbn. repeat split; ring. }
  destruct (X (sb_lambda (es_base e))) as (X0 & X1 & X2). change (cf_dim (rotation_motor m)) with 1%nat in *. rewrite X2. rewrite X0 in A. rewrite X1 in B.
  assert (Q : forall z, I * (px_I0 px * z) = z) by (intros z; rewrite <- Rmult_assoc, (Rmult_comm I), HM; ring).
  rewrite Q. split.
  - destruct F as [-> | [l ->]]; [apply within_0|apply motor_clamp_within].
  - destruct dv as [x y]. cbn [vx vy] in A, B. unfold rv. f_equal; [rewrite A|rewrite B]; rring.
Qed.
Lemma within_scaled d b l : 0 <= b -> within (d * b) l -> l * l <= (d * d) * (b * b) /\ 0 <= l * d.
Proof.
  intros HB. unfold within, Rmin, Rmax. destruct (Rle_dec 0 (d * b)) as [P|P]; intros [A B].
  - destruct (Rle_lt_dec 0 d) as [D|D]; [split; nra|]. assert (d * b <= 0) by nra. assert (l = 0) by lra. subst. split; nra.
  - assert (d < 0) by nra. split; nra.
Qed.
(** the user's view *)
Lemma translation_bound maxV maxF m (px : Rprox) dt M e dv dw : motor_hist 2 maxV maxF m -> 0 <= dt -> px_m0 px * M = 1 ->
  motor_step (translation_motor m) px dt e dv dw ->
  let F := Rabs maxF * mo_throttle m * dt in
  (M * vx dv) * (M * vx dv) + (M * vy dv) * (M * vy dv) <= F * F /\
  0 <= M * vx dv * mo_dir m 0%nat /\ 0 <= M * vy dv * mo_dir m 1%nat /\ dw = 0.
Proof.
  intros H HD HM S F. apply motor_hist_ok in H. destruct H as (T & D & _ & MF).
  apply (translation_step m px dt M) in S; [|exact HM]. destruct S as (W0 & W1 & W2).
  assert (FE : mo_throttle m * mo_maxForce m * dt = F) by (unfold F; rewrite MF; ring).
  rewrite FE in W0, W1. assert (FP : 0 <= F) by (unfold F; pose proof (Rabs_pos maxF); apply Rmult_le_pos; [apply Rmult_le_pos|]; lra).
  apply within_scaled in W0; [|exact FP]. apply within_scaled in W1; [|exact FP]. destruct W0 as [W0 S0], W1 as [W1 S1].
  split; [|auto].
  assert (N1 : mo_dir m 0%nat * mo_dir m 0%nat + mo_dir m 1%nat * mo_dir m 1%nat <= 1).
  { destruct D as [D|D]; [rewrite !D by lia; lra|]. cbn [ksum] in D. unfold k0 in D. cbn [kofZ RNum kadd] in D. rcbn. lra. }
  assert (0 <= F * F) by nra. nra.
Qed.
Lemma rotation_bound maxV maxF m (px : Rprox) dt I e dv dw : motor_hist 1 maxV maxF m -> 0 <= dt -> px_I0 px * I = 1 ->
  motor_step (rotation_motor m) px dt e dv dw ->
  Rabs (I * dw) <= Rabs maxF * mo_throttle m * dt /\ 0 <= I * dw * mo_dir m 0%nat /\ dv = rv 0 0.
Proof.
  intros H HD HM S. apply motor_hist_ok in H. destruct H as (T & D & _ & MF).
  apply (rotation_step m px dt I) in S; [|exact HM]. destruct S as (W0 & W2).
  set (F := Rabs maxF * mo_throttle m * dt).
  assert (FE : mo_throttle m * mo_maxForce m * dt = F) by (unfold F; rewrite MF; ring).
  rewrite FE in W0. assert (FP : 0 <= F) by (unfold F; pose proof (Rabs_pos maxF); apply Rmult_le_pos; [apply Rmult_le_pos|]; lra).
  apply within_scaled in W0; [|exact FP]. destruct W0 as [W0 S0]. split; [|auto].
  assert (N1 : mo_dir m 0%nat * mo_dir m 0%nat <= 1).
  { destruct D as [D|D]; [rewrite !D by lia; lra|]. cbn [ksum] in D. unfold k0 in D. cbn [kofZ RNum kadd] in D. rcbn. lra. }
  rewrite <- (Rabs_pos_eq F FP). apply Rsqr_le_abs_0. unfold Rsqr. nra.
Qed.
Lemma motor_off (m : Rmotor) (px : Rprox) dt M e dv dw : mo_throttle m = 0 \/ (mo_dir m 0%nat = 0 /\ mo_dir m 1%nat = 0) -> px_m0 px * M = 1 ->
  motor_step (translation_motor m) px dt e dv dw -> dv = rv 0 0 /\ dw = 0.
Proof.
  intros H HM S. apply (translation_step m px dt M) in S; [|exact HM]. destruct S as (W0 & W1 & W2). split; [|exact W2].
  assert (M <> 0) by (intros ->; lra).
  assert (Z : forall d v, d * (mo_throttle m * mo_maxForce m * dt) = 0 -> within (d * (mo_throttle m * mo_maxForce m * dt)) (M * v) -> v = 0).
  { intros d v E W. rewrite E in W. unfold within in W. rewrite Rmin_left, Rmax_left in W by lra. assert (M * v = 0) by lra. nra. }
  destruct dv as [x y]. unfold rv. cbn [vx vy] in *.
  f_equal; [apply (Z (mo_dir m 0%nat))|apply (Z (mo_dir m 1%nat))]; try assumption; destruct H as [H|[H1 H2]]; rewrite ?H, ?H1, ?H2; ring.
Qed.
(** fromAccel: the force is the acceleration times the mass *)
Lemma accel_bound maxV a (mass : R) m (px : Rprox) dt e dv dw : motor_hist 2 maxV (@specs_maxForce RNum (specs_fromAccel a None) mass) m -> 0 <= dt -> 0 < mass -> px_m0 px * mass = 1 ->
  motor_step (translation_motor m) px dt e dv dw ->
  vx dv * vx dv + vy dv * vy dv <= (Rabs a * mo_throttle m * dt) * (Rabs a * mo_throttle m * dt).
Proof.
  intros H HD HP HM S. pose proof (translation_bound _ _ _ _ _ _ _ _ _ H HD HM S) as (A & _).
  cbn [specs_fromAccel specs_maxForce kmul RNum] in A. rewrite Rabs_mult, (Rabs_pos_eq mass) in A by lra.
  set (t := mo_throttle m * dt) in *.
  replace (Rabs a * mass * mo_throttle m * dt * (Rabs a * mass * mo_throttle m * dt)) with (mass * mass * ((Rabs a * t) * (Rabs a * t))) in A by (unfold t; ring).
  replace (Rabs a * mo_throttle m * dt * (Rabs a * mo_throttle m * dt)) with ((Rabs a * t) * (Rabs a * t)) by (unfold t; ring).
  replace (mass * vx dv * (mass * vx dv) + mass * vy dv * (mass * vy dv)) with (mass * mass * (vx dv * vx dv + vy dv * vy dv)) in A by ring.
  apply Rmult_le_reg_l in A; [exact A|nra].
Qed.

(** ** C52 *)
Lemma distance_min_only {N : Num} (d : option K) : distance_ctor d None = Throw.
Proof. unfold distance_ctor. destruct d as [m|]; cbn [has negb orb opt_gt]; [|reflexivity]. destruct (kltb k0 m); reflexivity. Qed.
Definition built (minD maxD : option R) (e : @lisolver RNum) : Prop :=
  (match minD with Some m => exists L, ls_L e = Some L /\ L 0%nat = m * m | None => ls_L e = None end) /\
  (match maxD with Some m => exists U, ls_U e = Some U /\ U 0%nat = m * m | None => ls_U e = None end) /\
  ls_func e = FOff /\ forall i, sb_lambda (ls_base e) i = 0.
Definition sensible (minD maxD : option R) : Prop :=
  match minD, maxD with
  | _, None => False
  | None, Some M => 0 < M
  | Some m, Some M => 0 < m <= M
  end.
Lemma distance_ctor_R (minD maxD : option R) :
  (sensible minD maxD -> exists e, @distance_ctor RNum minD maxD = Ret e /\ built minD maxD e) /\
  (~ sensible minD maxD -> @distance_ctor RNum minD maxD = Throw).
Proof.
  destruct maxD as [M|]; [|split; [destruct minD; intros []|intros _; apply distance_min_only]].
  unfold distance_ctor. destruct minD as [m|]; cbn [has negb orb opt_gt sensible].
  - unfold li_setL, li_setU, limits_ok. cbn [ls_L ls_U new_lisolver all_le vec1 andb negb]. unfold k0. cbn [kltb kmul kofZ RNum]. change (@K RNum) with R in *.
    rcmp; cbn [negb]; split; intros H; try reflexivity; try (exfalso; lra).
    all: try (eexists; split; [reflexivity|]; repeat split; try (eexists; split; reflexivity); fail).
    all: exfalso; nra.
  - unfold li_setU, limits_ok. cbn [ls_L ls_U new_lisolver negb]. unfold k0. cbn [kltb kofZ RNum]. change (@K RNum) with R in *.
    rcmp; cbn [negb]; split; intros H; try reflexivity; try (exfalso; lra).
    eexists. split; [reflexivity|]. repeat split; try (eexists; split; reflexivity).
Qed.
Lemma distance_exact_R (d : R) :
  (0 < d -> exists e, @distance_ctor_exact RNum d = Ret e /\ built (Some d) (Some d) e) /\ (d <= 0 -> @distance_ctor_exact RNum d = Throw).
Proof.
  unfold distance_ctor_exact. destruct (distance_ctor_R (Some d) (Some d)) as [A B]. split; intros H; [apply A|apply B]; cbn; lra.
Qed.
Lemma distance_current_R (p0 p1 : Rv) :
  (p0 <> p1 -> exists e, @distance_ctor_current RNum p0 p1 = Ret e /\
     built (Some (sqrt ((vx p1 - vx p0) * (vx p1 - vx p0) + (vy p1 - vy p0) * (vy p1 - vy p0))))
           (Some (sqrt ((vx p1 - vx p0) * (vx p1 - vx p0) + (vy p1 - vy p0) * (vy p1 - vy p0)))) e) /\
  (p0 = p1 -> @distance_ctor_current RNum p0 p1 = Throw).
Proof.
  unfold distance_ctor_current.
  assert (E : vnorm (N := RNum) (vsub p1 p0) = sqrt ((vx p1 - vx p0) * (vx p1 - vx p0) + (vy p1 - vy p0) * (vy p1 - vy p0))).
  { unfold vnorm, vnormsq, vdot, vsub. cbn [vx vy ksqrt RNum]. rcbn. f_equal; rring. }
  rewrite E. destruct (distance_exact_R (sqrt ((vx p1 - vx p0) * (vx p1 - vx p0) + (vy p1 - vy p0) * (vy p1 - vy p0)))) as [A B]. split; intros H.
  - apply A. apply sqrt_lt_R0. destruct p0 as [a b], p1 as [c d]. cbn [vx vy] in *. rcbn. change (@K RNum) with R in *.
    destruct (Req_EM_T c a) as [->|N1]; [|pose proof (Rsqr_pos_lt (c - a)) as P; unfold Rsqr in P; pose proof (Rle_0_sqr (d - b)) as Q; unfold Rsqr in Q; lra].
    destruct (Req_EM_T d b) as [->|N1]; [congruence|]. pose proof (Rsqr_pos_lt (d - b)) as P; unfold Rsqr in P. lra.
  - apply B. subst. rcbn. replace ((vx p1 - vx p1) * (vx p1 - vx p1) + (vy p1 - vy p1) * (vy p1 - vy p1)) with 0 by ring. rewrite sqrt_0. lra.
Qed.
