(** Properties C47-C52, C62, C63: constraint and contact solvers, limits,
    motors, distance constraints.  C49 and C63 hold in any arithmetic with the
    sign laws of Sign.v (instances: the reals and binary32), the others in exact
    arithmetic.

    A constraint function [f] has [cf_dim f] rows; [rowv J px s i] is row i of
    its jacobian times the velocities of the two bodies in the store [s];
    [eff J px i j] is the effective mass J M^-1 J^T, written out.  [eq_at e l] is
    the solver [e] left by initSolve with the accumulated impulse [l], i.e. any
    moment of the velocity iterations; the store is arbitrary too, since other
    constraints act in between.  [pushed px P s] adds the impulse P (6 numbers)
    to the velocities of the two bodies; [impulse n J l] is J^T l. *)
From Coq Require Import ZArith List Bool Reals.
From Flocq Require Import IEEE754.BinarySingleNaN.
From Verif Require Import Num Sign Outcome Box Mat MatFacts MatSolve Geom GeomClosest Transform TransformFacts Body BodyFacts Constraint ConstraintFacts Contact ConstraintMomentum ConstraintLimits ConstraintMotor ContactFacts ContactSolve ConstraintThm.
Import ListNotations.
Local Open Scope R_scope.

(** C47.  [uses]: two different bodies, or a constraint of one body. *)
Theorem C47_velocity : forall (e0 e : Reqs) (f : Rcfun) (px : Rprox) s0 l s dt,
  (forall l dt, cf_clamp f l dt = l) -> eq_init e0 f px s0 = Ret e -> uses (cf_dim f) (cf_jac f px s0) px ->
  (forall i, sb_rest (es_base e0) i = 0) -> (forall i, sb_damp (es_base e0) i = 0) ->
  exists e' s', eq_velocity (eq_at e l) f px s dt = Ret (e', s') /\
    forall i, (i < cf_dim f)%nat -> rowv (cf_jac f px s0) px s' i + cf_bias f px s i = 0.
Proof. exact eq_velocity_exact. Qed.
Print Assumptions C47_velocity.
(** with restitution and damping: the residual the user asked for *)
Theorem C47_soft : forall (e0 e : Reqs) (f : Rcfun) (px : Rprox) s0 l s dt,
  (forall l dt, cf_clamp f l dt = l) -> eq_init e0 f px s0 = Ret e -> uses (cf_dim f) (cf_jac f px s0) px ->
  exists e' s', eq_velocity (eq_at e l) f px s dt = Ret (e', s') /\
    forall i, (i < cf_dim f)%nat -> rowv (cf_jac f px s0) px s' i + cf_bias f px s i =
      - (sb_rest (es_base e0) i * cf_eval f px s i / dt) - sb_damp (es_base e0) i * sb_lambda (es_base e') i.
Proof. exact eq_velocity_soft. Qed.
Print Assumptions C47_soft.
(** initSolve succeeds exactly when the effective mass (with damping) is invertible *)
Theorem C47_solvable : forall (e0 : Reqs) (f : Rcfun) (px : Rprox) s,
  (exists e, eq_init e0 f px s = Ret e) <->
  independent (cf_dim f) (fun i j => eff (cf_jac f px s) px i j + if Nat.eqb i j then sb_damp (es_base e0) i else 0).
Proof. exact eq_init_ret. Qed.
Print Assumptions C47_solvable.
(** hinges: always solvable when one body has mass, and the two anchor points
    move with the same velocity after a solve ([pvel]: velocity of a point) *)
Theorem C47_hinge_solvable : forall l0 l1 (px : Rprox) s (e0 : Reqs),
  0 < px_m0 px + px_m1 px -> 0 <= px_I0 px -> 0 <= px_I1 px -> (forall i, sb_damp (es_base e0) i = 0) ->
  exists e, eq_init e0 (hinge_fun l0 l1) px s = Ret e.
Proof. exact hinge_solvable. Qed.
Print Assumptions C47_hinge_solvable.
Theorem C47_hinge : forall l0 l1 (px : Rprox) s0 (e0 e : Reqs) l s dt, px_i0 px <> px_i1 px ->
  eq_init e0 (hinge_fun l0 l1) px s0 = Ret e -> s_pos s = s_pos s0 ->
  (forall i, sb_rest (es_base e0) i = 0) -> (forall i, sb_damp (es_base e0) i = 0) ->
  exists e' s', eq_velocity (eq_at e l) (hinge_fun l0 l1) px s dt = Ret (e', s') /\ s_pos s' = s_pos s /\
    pvel (s_pos s' (px_i0 px)) (s_vel s' (px_i0 px)) (world0 px s' l0) = pvel (s_pos s' (px_i1 px)) (s_vel s' (px_i1 px)) (world1 px s' l1).
Proof. exact hinge_together. Qed.
Print Assumptions C47_hinge.
(** dominance 0 gives inverse masses 0, and such a body keeps its velocity in
    every warmstart or velocity solve ([vcall]) of every solver *)
Theorem C47_dominance : forall (b0 b1 : Rbody) (d0 d1 : R), let '(m0, J0, m1, J1) := bodies_masses b0 b1 (Some (d0, d1)) in
  (d0 = 0 -> m0 = 0 /\ J0 = 0) /\ (d1 = 0 -> m1 = 0 /\ J1 = 0).
Proof. exact massless_iff. Qed.
Print Assumptions C47_dominance.
Theorem C47_dominance_keeps : forall (f : Rcfun) (px : Rprox) dt J s s', vcall f px dt J s s' -> px_i0 px <> px_i1 px ->
  (px_m0 px = 0 -> px_I0 px = 0 -> s_vel s' (px_i0 px) = s_vel s (px_i0 px)) /\
  (px_m1 px = 0 -> px_I1 px = 0 -> s_vel s' (px_i1 px) = s_vel s (px_i1 px)) /\
  (forall i, i <> px_i0 px -> i <> px_i1 px -> s_vel s' i = s_vel s i) /\ s_pos s' = s_pos s.
Proof. exact dominance_keeps. Qed.
Print Assumptions C47_dominance_keeps.
Example C47_example : exists e,
  eq_init (new_eqsolver (hinge_fun (rv 1 0) (rv (-1) 0)) vzero vzero) (hinge_fun (rv 1 0) (rv (-1) 0)) ex_px ex_store = Ret e.
Proof. exact ex_hinge. Qed.

(** C48.  [inverse_of m px]: different bodies, [px] holds the inverses of the
    masses and inertias in [m].  [mom_x], [mom_y], [mom_a o]: total linear
    momentum and total angular momentum about o.  [joins f px s p0 p1]: f is a
    hinge, weld, rotation or distance constraint whose anchors in the world are
    p0 and p1.  [got]: the impulse received by body 0. *)
Theorem C48_momentum : forall f px dt s s' p0 p1 m o, joins f px s p0 p1 -> inverse_of m px -> vcall f px dt (cf_jac f px s) s s' ->
  mom_x m px s' = mom_x m px s /\ mom_y m px s' = mom_y m px s /\
  mom_a m px o s' = mom_a m px o s + cr (vsub p0 p1) (got m px s s').
Proof. exact vcall_momentum. Qed.
Print Assumptions C48_momentum.
Theorem C48_coincide : forall f px dt s s' p m o, joins f px s p p -> inverse_of m px -> vcall f px dt (cf_jac f px s) s s' ->
  mom_x m px s' = mom_x m px s /\ mom_y m px s' = mom_y m px s /\ mom_a m px o s' = mom_a m px o s.
Proof. exact coincide_momentum. Qed.
Print Assumptions C48_coincide.
Theorem C48_distance : forall l0 l1 px dt s s' m o, inverse_of m px ->
  vcall (distance_fun l0 l1) px dt (cf_jac (distance_fun l0 l1) px s) s s' ->
  mom_x m px s' = mom_x m px s /\ mom_y m px s' = mom_y m px s /\ mom_a m px o s' = mom_a m px o s.
Proof. exact distance_momentum. Qed.
Print Assumptions C48_distance.
(** contacts: initSolve at [s0], any accumulated impulses, then a velocity solve
    or a warmstart; unused impulse slots are zero *)
Theorem C48_contact : forall (c0 c' : Rcontact) (px : Rprox) s0 t n s s' m o, inverse_of m px -> (fr_n (ct_fr c0) <= 2)%nat -> s_pos s = s_pos s0 ->
  ct_velocities (solving c0 px s0 t n) px s = Ret (c', s') \/
  ct_warmstart (solving c0 px s0 t n) px s = Ret (c', s') /\ (forall i, (fr_n (ct_fr c0) <= i)%nat -> ct_tl c0 i = 0 /\ ct_nl c0 i = 0) ->
  mom_x m px s' = mom_x m px s /\ mom_y m px s' = mom_y m px s /\
  ((forall i, (i < fr_n (ct_fr c0))%nat -> pt0 c0 i = pt1 c0 i) -> mom_a m px o s' = mom_a m px o s).
Proof. exact contact_vel_momentum. Qed.
Print Assumptions C48_contact.
Example C48_example : exists s', vcall (hinge_fun (rv 1 0) (rv (-1) 0)) ex_px 1 (cf_jac (hinge_fun (rv 1 0) (rv (-1) 0)) ex_px ex_store) ex_store s' /\
  joins (hinge_fun (rv 1 0) (rv (-1) 0)) ex_px ex_store (rv 1 0) (rv 1 0) /\ s_vel s' 0%nat <> s_vel ex_store 0%nat.
Proof. exact ex_momentum. Qed.

(** C49.  [ct_run os c]: any history of preStep, isActive, initSolve, warmstart,
    solveVelocities and solvePositions.  [nn x]: x is not less than 0. *)
Theorem C49_cone : forall (N : Num) (TR : Trig N) (SL : SignLaws N) (m : @manifold N) T0 T1 (rest fric : K) os c px s c' s',
  nn fric -> ct_run os (new_contact m T0 T1 rest fric) = Ret c -> ct_velocities c px s = Ret (c', s') ->
  (forall i, nn (ct_nl c i)) /\ (forall i, nn (ct_nl c' i)) /\
  forall i, (i < fr_n (ct_fr c))%nat ->
    kltb (ct_tl c' i) (kopp (kmul fric (ct_nl c i))) = false /\ kltb (kmul fric (ct_nl c i)) (ct_tl c' i) = false.
Proof. exact @contact_cone. Qed.
Print Assumptions C49_cone.
Theorem C49_exact : forall (m : @manifold RNum) T0 T1 (rest fric : R) os c px s c' s', 0 <= fric ->
  ct_run os (@new_contact RNum m T0 T1 rest fric) = Ret c -> ct_velocities c px s = Ret (c', s') ->
  (forall i, 0 <= ct_nl c i) /\ (forall i, 0 <= ct_nl c' i) /\
  forall i, (i < fr_n (ct_fr c))%nat -> Rabs (ct_tl c' i) <= fric * ct_nl c i.
Proof. exact cone_R. Qed.
Print Assumptions C49_exact.
Theorem C49_binary32 : forall (TR : Trig F32) (m : @manifold F32) T0 T1 (rest fric : f32) os c px s c' s',
  Bltb fric (fofZ 0) = false -> ct_run os (new_contact m T0 T1 rest fric) = Ret c -> ct_velocities c px s = Ret (c', s') ->
  (forall i, Bltb (@ct_nl F32 c i) (fofZ 0) = false) /\ (forall i, Bltb (@ct_nl F32 c' i) (fofZ 0) = false) /\
  forall i, (i < fr_n (ct_fr c))%nat ->
    Bltb (@ct_tl F32 c' i) (fopp (fmul fric (@ct_nl F32 c i))) = false /\ Bltb (fmul fric (@ct_nl F32 c i)) (@ct_tl F32 c' i) = false.
Proof. exact (fun TR => @contact_cone F32 TR F32_sign). Qed.
Print Assumptions C49_binary32.
Example C49_example : forall rest fric : R, exists c,
  ct_run (TR := RTrig) [CActive ex_px ex_store; CInit ex_px ex_store; CVel ex_px ex_store] (ex_ct rest fric) = Ret c.
Proof. exact ex_ct_run. Qed.
(** in binary32: a push and an active friction impulse *)
Example C49_example_f32 : match ct_run (TR := FT0) fops fct with
  | Ret c => match ct_velocities c fpx fstore with
             | Ret (c', s') => Bltb (fofZ 0) (@ct_nl F32 c 0%nat) && Bltb (@ct_tl F32 c' 0%nat) (fofZ 0)
             | _ => false end
  | _ => false end = true.
Proof. exact ex_f32_contact. Qed.

(** C50.  [reached L U C]: which limit a one-dimensional value C has reached.
    [started e f px s0 l]: the solver after initSolve with accumulated impulse l. *)
Theorem C50_reached : forall (e : Rlis) f px s0, cf_dim f = 1%nat ->
  ls_func (li_init e f px s0) = reached (at0 (ls_L e)) (at0 (ls_U e)) (cf_eval f px s0 0%nat).
Proof. exact limit_reached. Qed.
Print Assumptions C50_reached.
Theorem C50_inactive : forall (e : Rlis) f px s0 s dt fuel l,
  li_next e f px s0 = FOff -> let e1 := li_set_base (li_init e f px s0) l in
  li_warmstart e1 f px s dt = Ret (e1, s) /\ li_velocity fuel e1 f px s dt = Ret (e1, s).
Proof. exact li_off. Qed.
Print Assumptions C50_inactive.
Theorem C50_switch : forall (e : Rlis) f px s0 s dt, li_next e f px s0 <> ls_func e -> let e1 := li_init e f px s0 in
  ls_func e1 = li_next e f px s0 /\ (forall i, sb_lambda (ls_base e1) i = 0) /\ li_warmstart e1 f px s dt = Ret (e1, s).
Proof. exact li_switch. Qed.
Print Assumptions C50_switch.
Theorem C50_keep : forall (e : Rlis) f px s0 s dt, (forall l dt, cf_clamp f l dt = l) ->
  li_next e f px s0 = ls_func e -> ls_func e = FLower \/ ls_func e = FUpper -> let e1 := li_init e f px s0 in
  exists e2, li_warmstart e1 f px s dt =
    Ret (e2, pushed px (impulse (cf_dim f) (cf_jac f px s0) (fun i => (if lfunc_eqb (ls_func e) FUpper then -1 else 1) * sb_lambda (ls_base e) i)) s) /\
    forall i, sb_lambda (ls_base e2) i = sb_lambda (ls_base e) i.
Proof. exact li_keep. Qed.
Print Assumptions C50_keep.
(** the accumulated impulse is non-negative in every history, any dimension; at
    the upper limit it is applied negated *)
Theorem C50_sign : forall (f : Rcfun) rest damp os e, (forall l dt, cf_clamp f l dt = l) -> li_run f os (@new_lisolver RNum rest damp) = Ret e ->
  ls_func e = FLower \/ ls_func e = FUpper -> forall i, (i < cf_dim f)%nat -> 0 <= sb_lambda (ls_base e) i.
Proof. exact limit_sign. Qed.
Print Assumptions C50_sign.
(** a velocity solve at a limit: complementarity between the impulse and the
    velocity leaving the limit *)
Theorem C50_lower : forall (e0 : Rlis) f px s0 l s dt fuel (L : Rvec), (forall l dt, cf_clamp f l dt = l) -> cf_dim f = 1%nat ->
  ls_L e0 = Some L -> li_next e0 f px s0 = FLower -> uses 1 (cf_jac f px s0) px -> sb_damp (ls_base e0) 0%nat = 0 ->
  0 < eff (cf_jac f px s0) px 0 0 -> (2 <= fuel)%nat ->
  exists e' s', li_velocity fuel (started e0 f px s0 l) f px s dt = Ret (e', s') /\
    let gap := rowv (cf_jac f px s0) px s' 0 + cf_bias f px s 0%nat + sb_rest (ls_base e0) 0%nat / dt * (cf_eval f px s 0%nat - L 0%nat) in
    let l' := sb_lambda (ls_base e') 0%nat in
    0 <= l' /\ 0 <= gap /\ l' * gap = 0 /\ s' = pushed px (fun k => cf_jac f px s0 0%nat k * (l' - l 0%nat)) s.
Proof. exact limit_lower. Qed.
Print Assumptions C50_lower.
Theorem C50_upper : forall (e0 : Rlis) f px s0 l s dt fuel (U0 : Rvec), (forall l dt, cf_clamp f l dt = l) -> cf_dim f = 1%nat ->
  ls_U e0 = Some U0 -> li_next e0 f px s0 = FUpper -> uses 1 (cf_jac f px s0) px -> sb_damp (ls_base e0) 0%nat = 0 ->
  0 < eff (cf_jac f px s0) px 0 0 -> (2 <= fuel)%nat ->
  exists e' s', li_velocity fuel (started e0 f px s0 l) f px s dt = Ret (e', s') /\
    let gap := - (rowv (cf_jac f px s0) px s' 0 + cf_bias f px s 0%nat + sb_rest (ls_base e0) 0%nat / dt * (cf_eval f px s 0%nat - U0 0%nat)) in
    let l' := sb_lambda (ls_base e') 0%nat in
    0 <= l' /\ 0 <= gap /\ l' * gap = 0 /\ s' = pushed px (fun k => - (cf_jac f px s0 0%nat k * (l' - l 0%nat))) s.
Proof. exact limit_upper. Qed.
Print Assumptions C50_upper.
(** two bodies at distance 2 with the limits 3 and 5 *)
Example C50_example : cf_eval ex_dist ex_px ex_store 0%nat = 4 /\ li_next ex_lis ex_dist ex_px ex_store = FLower /\
  0 < eff (cf_jac ex_dist ex_px ex_store) ex_px 0 0 /\ uses 1 (cf_jac ex_dist ex_px ex_store) ex_px.
Proof. exact (conj ex_eval (conj ex_below (conj ex_eff ex_uses))). Qed.

(** C51.  [motor_hist n maxV maxF m]: m after any sequence of throttle and
    direction settings.  [motor_step f px dt e dv dw]: one step of dt, any number
    of warmstarts and velocity solves at arbitrary stores; [dv], [dw] is the total
    change of the velocity of the motor's body made by the motor. *)
Theorem C51_settings : forall n maxV maxF m, motor_hist n maxV maxF m ->
  0 <= mo_throttle m <= 1 /\ direction_ok n (mo_dir m) /\ mo_maxVel m = Rabs maxV /\ mo_maxForce m = Rabs maxF.
Proof. exact motor_hist_ok. Qed.
Print Assumptions C51_settings.
Theorem C51_translation : forall maxV maxF m (px : Rprox) dt M e dv dw, motor_hist 2 maxV maxF m -> 0 <= dt -> px_m0 px * M = 1 ->
  motor_step (translation_motor m) px dt e dv dw ->
  let F := Rabs maxF * mo_throttle m * dt in
  (M * vx dv) * (M * vx dv) + (M * vy dv) * (M * vy dv) <= F * F /\
  0 <= M * vx dv * mo_dir m 0%nat /\ 0 <= M * vy dv * mo_dir m 1%nat /\ dw = 0.
Proof. exact translation_bound. Qed.
Print Assumptions C51_translation.
(** and each component is between 0 and the bound times the direction *)
Theorem C51_components : forall (m : Rmotor) (px : Rprox) dt M e dv dw, px_m0 px * M = 1 -> motor_step (translation_motor m) px dt e dv dw ->
  within (mo_dir m 0%nat * (mo_throttle m * mo_maxForce m * dt)) (M * vx dv) /\
  within (mo_dir m 1%nat * (mo_throttle m * mo_maxForce m * dt)) (M * vy dv) /\ dw = 0.
Proof. exact translation_step. Qed.
Print Assumptions C51_components.
Theorem C51_rotation : forall maxV maxF m (px : Rprox) dt I e dv dw, motor_hist 1 maxV maxF m -> 0 <= dt -> px_I0 px * I = 1 ->
  motor_step (rotation_motor m) px dt e dv dw ->
  Rabs (I * dw) <= Rabs maxF * mo_throttle m * dt /\ 0 <= I * dw * mo_dir m 0%nat /\ dv = rv 0 0.
Proof. exact rotation_bound. Qed.
Print Assumptions C51_rotation.
Theorem C51_off : forall (m : Rmotor) (px : Rprox) dt M e dv dw, mo_throttle m = 0 \/ (mo_dir m 0%nat = 0 /\ mo_dir m 1%nat = 0) -> px_m0 px * M = 1 ->
  motor_step (translation_motor m) px dt e dv dw -> dv = rv 0 0 /\ dw = 0.
Proof. exact motor_off. Qed.
Print Assumptions C51_off.
(** a motor specified by its acceleration *)
Theorem C51_accel : forall maxV a (mass : R) m (px : Rprox) dt e dv dw,
  motor_hist 2 maxV (@specs_maxForce RNum (specs_fromAccel a None) mass) m -> 0 <= dt -> 0 < mass -> px_m0 px * mass = 1 ->
  motor_step (translation_motor m) px dt e dv dw ->
  vx dv * vx dv + vy dv * vy dv <= (Rabs a * mo_throttle m * dt) * (Rabs a * mo_throttle m * dt).
Proof. exact accel_bound. Qed.
Print Assumptions C51_accel.
Example C51_example : motor_hist 2 10 2 ex_motor /\ exists e dv, motor_step (translation_motor ex_motor) ex_px 1 e dv 0 /\ vx dv = 1 /\ vy dv = 0.
Proof. exact (conj ex_motor_hist ex_motor_step). Qed.

(** C52.  [sensible]: 0 < min <= max, or only a positive maximum; [built]: the
    solver's limits are the squares, inactive and without impulse. *)
Theorem C52_construct : forall minD maxD : option R,
  (sensible minD maxD -> exists e, @distance_ctor RNum minD maxD = Ret e /\ built minD maxD e) /\
  (~ sensible minD maxD -> @distance_ctor RNum minD maxD = Throw).
Proof. exact distance_ctor_R. Qed.
Print Assumptions C52_construct.
Theorem C52_exact : forall d : R,
  (0 < d -> exists e, @distance_ctor_exact RNum d = Ret e /\ built (Some d) (Some d) e) /\ (d <= 0 -> @distance_ctor_exact RNum d = Throw).
Proof. exact distance_exact_R. Qed.
Print Assumptions C52_exact.
Theorem C52_current : forall p0 p1 : Rv,
  (p0 <> p1 -> exists e, @distance_ctor_current RNum p0 p1 = Ret e /\
     built (Some (sqrt ((vx p1 - vx p0) * (vx p1 - vx p0) + (vy p1 - vy p0) * (vy p1 - vy p0))))
           (Some (sqrt ((vx p1 - vx p0) * (vx p1 - vx p0) + (vy p1 - vy p0) * (vy p1 - vy p0)))) e) /\
  (p0 = p1 -> @distance_ctor_current RNum p0 p1 = Throw).
Proof. exact distance_current_R. Qed.
Print Assumptions C52_current.
(** any arithmetic, hence binary32 *)
Theorem C52_min_only : forall (N : Num) (minD : option K), distance_ctor minD None = Throw.
Proof. exact @distance_min_only. Qed.
Print Assumptions C52_min_only.
Example C52_example : sensible (Some 3) (Some 5) /\ sensible None (Some 5) /\ ~ sensible (Some 3) None.
Proof. exact ex_sensible. Qed.

(** C62.  [opening c px s i]: velocity at which contact point i of body 0 leaves
    that of body 1 along the normal; [bounce_of e v]: 0 when v > -1, otherwise
    e v; [nK]: the effective mass of the normal rows. *)
Theorem C62_one : forall c0 px s0 t n s, px_i0 px <> px_i1 px -> s_pos s = s_pos s0 -> mf_n (ct_man c0) = 1%nat -> fr_n (ct_fr c0) = 1%nat ->
  0 < nK c0 px s0 0 0 ->
  exists c' s', ct_velocities (solving c0 px s0 t n) px s = Ret (c', s') /\ s_pos s' = s_pos s /\
    0 <= ct_nl c' 0%nat /\ 0 <= opening c0 px s' 0 + bounce_of (ct_rest c0) (opening c0 px s0 0) /\
    ct_nl c' 0%nat * (opening c0 px s' 0 + bounce_of (ct_rest c0) (opening c0 px s0 0)) = 0.
Proof. exact contact_one. Qed.
Print Assumptions C62_one.
Theorem C62_two : forall c0 (px : Rprox) s0 t n s, px_i0 px <> px_i1 px -> s_pos s = s_pos s0 -> mf_n (ct_man c0) = 2%nat -> fr_n (ct_fr c0) = 2%nat ->
  0 <= px_m0 px + px_m1 px -> 0 <= px_I0 px -> 0 <= px_I1 px ->
  nK c0 px s0 0 0 * nK c0 px s0 1 1 - nK c0 px s0 0 1 * nK c0 px s0 0 1 <> 0 ->
  exists c' s', ct_velocities (solving c0 px s0 t n) px s = Ret (c', s') /\ s_pos s' = s_pos s /\
    forall i, (i < 2)%nat -> 0 <= ct_nl c' i /\ 0 <= opening c0 px s' i + bounce_of (ct_rest c0) (opening c0 px s0 i) /\
    ct_nl c' i * (opening c0 px s' i + bounce_of (ct_rest c0) (opening c0 px s0 i)) = 0.
Proof. exact contact_two. Qed.
Print Assumptions C62_two.
Theorem C62_mass : forall (c : Rcontact) (px : Rprox) s, 0 < px_m0 px + px_m1 px -> 0 <= px_I0 px -> 0 <= px_I1 px ->
  fr_normal (ct_fr c) <> rv 0 0 -> 0 < nK c px s 0 0.
Proof. exact nK_pos. Qed.
Print Assumptions C62_mass.
Example C62_example : forall rest fric, mf_n (ct_man (ex_ct rest fric)) = 1%nat /\ fr_n (ct_fr (ex_ct rest fric)) = 1%nat /\
  0 < nK (ex_ct rest fric) ex_px ex_store 0 0.
Proof. exact ex_ct_ready. Qed.

(** C63.  [velocity_call], [position_call]: the solver calls of all constraints
    and contacts that return. *)
Theorem C63_velocities : forall (N : Num) f px dt s s', velocity_call f px dt s s' -> store_finite s -> store_finite s' /\ s_pos s' = s_pos s.
Proof. exact @velocity_call_finite. Qed.
Print Assumptions C63_velocities.
Theorem C63_positions : forall (N : Num) (TR : Trig N) f px s s', position_call f px s s' -> places_finite s -> places_finite s' /\ s_vel s' = s_vel s.
Proof. exact @position_call_finite. Qed.
Print Assumptions C63_positions.
Example C63_example : forall i, vel_finite (s_vel fstore i).
Proof. exact ex_finite. Qed.
