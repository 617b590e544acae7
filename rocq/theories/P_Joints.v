(** Properties C81-C83, C85, C86, C93 and one theorem of C51: position correction of contacts
    and joints, the mouse constraint, linear fields, energy; exact arithmetic. *)
From Coq Require Import ZArith List Bool Reals Lra Permutation.
From Verif Require Import Num Outcome Box Mat MatFacts MatSolve Geom GeomClosest Transform TransformFacts Body BodyFacts BodyMore Constraint ConstraintFacts Contact ConstraintMomentum ConstraintMotor ContactSolve ConstraintThm ContactPos ConstraintPos DistancePos BodyField ConstraintEnergy.
Import ListNotations.
Local Open Scope R_scope.

(** C81.  [gap c px s i]: distance of the points of contact i along the normal,
    negative when the bodies overlap; [shifted px D s]: the bodies moved by the
    displacement D; [push c px s x]: the displacement pushing the bodies apart
    along the normal at the contact points with the strengths x; [widened c px s
    D i]: change of [gap] to first order; [asked tol g]: a fifth of the depth
    beyond the tolerance, between 0 and 1/5. *)
Theorem C81_rest : forall (c : Rcontact) (px : Rprox) s, 0 < mf_minPen (ct_man c) ->
  (forall i, (i < mf_n (ct_man c))%nat -> - 3 * mf_minPen (ct_man c) < gap c px s i) ->
  exists c', ct_positions c px s = Ret (c', s).
Proof. exact positions_rest. Qed.
Print Assumptions C81_rest.
Theorem C81_one : forall (c : Rcontact) (px : Rprox) s, px_i0 px <> px_i1 px -> mf_n (ct_man c) = 1%nat -> 0 < mf_minPen (ct_man c) ->
  0 < nK (placed c px s) px s 0 0 -> gap c px s 0 <= - 3 * mf_minPen (ct_man c) ->
  exists c' x, ct_positions c px s = Ret (c', shifted px (push c px s x) s) /\ 0 <= x 0%nat /\
    widened c px s (push c px s x) 0 = asked (mf_minPen (ct_man c)) (gap c px s 0).
Proof. exact positions_one. Qed.
Print Assumptions C81_one.
Theorem C81_two : forall (c : Rcontact) (px : Rprox) s, px_i0 px <> px_i1 px -> mf_n (ct_man c) = 2%nat ->
  0 <= px_m0 px + px_m1 px -> 0 <= px_I0 px -> 0 <= px_I1 px ->
  nK (placed c px s) px s 0 0 * nK (placed c px s) px s 1 1 - nK (placed c px s) px s 0 1 * nK (placed c px s) px s 0 1 <> 0 ->
  gap c px s 0 <= - 3 * mf_minPen (ct_man c) \/ gap c px s 1 <= - 3 * mf_minPen (ct_man c) ->
  exists c' x, ct_positions c px s = Ret (c', shifted px (push c px s x) s) /\
    forall i, (i < 2)%nat -> let a := asked (mf_minPen (ct_man c)) (gap c px s i) in
      0 <= x i /\ a <= widened c px s (push c px s x) i /\ x i * (widened c px s (push c px s x) i - a) = 0.
Proof. exact positions_two. Qed.
Print Assumptions C81_two.
(** what is asked: never a pull, never more than 1/5, never past the tolerance *)
Theorem C81_asked : forall tol g, 0 <= asked tol g <= 1 / 5 /\ (g <= - tol -> g + asked tol g <= - tol) /\ (- tol <= g -> asked tol g = 0).
Proof. exact asked_facts. Qed.
Print Assumptions C81_asked.
(** one overlap of depth 1 at one point, or at two, with the tolerance 1/100 *)
Example C81_example : forall rest fric, (gap (ex_ct rest fric) ex_px ex_hold 0 = -1 /\ mf_minPen (ct_man (ex_ct rest fric)) = 1 / 100 /\
  mf_n (ct_man (ex_ct rest fric)) = 1%nat /\ 0 < nK (placed (ex_ct rest fric) ex_px ex_hold) ex_px ex_hold 0 0 /\ asked (1 / 100) (-1) = 99 / 500) /\
  let c := placed (ex_ct2 rest fric) ex_px ex_hold in
  (forall i, gap (ex_ct2 rest fric) ex_px ex_hold i = -1) /\ mf_n (ct_man (ex_ct2 rest fric)) = 2%nat /\
  nK c ex_px ex_hold 0 0 * nK c ex_px ex_hold 1 1 - nK c ex_px ex_hold 0 1 * nK c ex_px ex_hold 0 1 = 16.
Proof. exact (fun rest fric => conj (ex_deep rest fric) (ex_deep2 rest fric)). Qed.

(** C82.  [near e x y]: within e along both axes; [turned i s s']: the angle by
    which body i turned; [reach p x]: |dx| + |dy| from the centroid to the point
    x; [slack]: turned^2 * reach, summed over the two bodies; [massive]: no
    negative inverse mass, not both infinite masses and not both infinite
    inertias. *)
Theorem C82_hinge : forall (e : Reqs) l0 l1 (px : Rprox) s, massive px -> px_i0 px <> px_i1 px ->
  is_rotation (p_rot (s_pos s (px_i0 px))) -> is_rotation (p_rot (s_pos s (px_i1 px))) ->
  exists e' s', eq_position e (hinge_fun l0 l1) px s = Ret (e', s') /\ near (slack px s s' l0 l1) (world0 px s' l0) (world1 px s' l1) /\
    s_vel s' = s_vel s /\ forall i, i <> px_i0 px -> i <> px_i1 px -> s_pos s' i = s_pos s i.
Proof. exact hinge_position. Qed.
Print Assumptions C82_hinge.
Theorem C82_weld : forall (e : Reqs) l0 l1 q (px : Rprox) s, massive px -> px_i0 px <> px_i1 px ->
  is_rotation (p_rot (s_pos s (px_i0 px))) -> is_rotation (p_rot (s_pos s (px_i1 px))) ->
  exists e' s', eq_position e (weld_fun l0 l1 q) px s = Ret (e', s') /\ near (slack px s s' l0 l1) (world0 px s' l0) (world1 px s' l1) /\
    r_theta (p_rot (s_pos s' (px_i1 px))) - r_theta (p_rot (s_pos s' (px_i0 px))) = q /\
    s_vel s' = s_vel s /\ forall i, i <> px_i0 px -> i <> px_i1 px -> s_pos s' i = s_pos s i.
Proof. exact weld_position. Qed.
Print Assumptions C82_weld.
Theorem C82_rotation : forall (e : Reqs) q (px : Rprox) s, 0 <= px_I0 px -> 0 <= px_I1 px -> 0 < px_I0 px + px_I1 px -> px_i0 px <> px_i1 px ->
  exists e' s', eq_position e (rotation_fun q) px s = Ret (e', s') /\
    r_theta (p_rot (s_pos s' (px_i1 px))) - r_theta (p_rot (s_pos s' (px_i0 px))) = q /\
    (forall i, p_off (s_pos s' i) = p_off (s_pos s i)) /\ s_vel s' = s_vel s /\ forall i, i <> px_i0 px -> i <> px_i1 px -> s_pos s' i = s_pos s i.
Proof. exact rotation_position. Qed.
Print Assumptions C82_rotation.
(** the mouse constraint (one body): the grabbed point goes to the mouse *)
Theorem C82_mouse : forall (e : Reqs) l q (px : Rprox) s, 0 < px_m0 px -> 0 <= px_m1 px -> 0 <= px_I0 px -> 0 <= px_I1 px ->
  is_rotation (p_rot (s_pos s (px_i0 px))) -> px_i0 px = px_i1 px ->
  exists e' s', eq_position e (mouse_fun l q) px s = Ret (e', s') /\
    (let a := turned (px_i0 px) s s' in near (a * a * reach (s_pos s (px_i0 px)) (world0 px s l)) (world0 px s' l) q) /\
    s_vel s' = s_vel s /\ forall i, i <> px_i0 px -> s_pos s' i = s_pos s i.
Proof. exact mouse_position. Qed.
Print Assumptions C82_mouse.
(** its velocity solve: the point moves towards the mouse at the rate given by
    the restitution, less the damping; [e] is a solver after initSolve *)
Theorem C82_mouse_velocity : forall l q (px : Rprox) s0 (e0 e : Reqs) lam s dt,
  eq_init e0 (mouse_fun l q) px s0 = Ret e -> s_pos s = s_pos s0 ->
  exists e' s', eq_velocity (eq_at e lam) (mouse_fun l q) px s dt = Ret (e', s') /\ s_pos s' = s_pos s /\
    let v := pvel (s_pos s' (px_i0 px)) (s_vel s' (px_i0 px)) (world0 px s' l) in
    vx v = - (sb_rest (es_base e0) 0%nat * (vx (world0 px s l) - vx q) / dt) - sb_damp (es_base e0) 0%nat * sb_lambda (es_base e') 0%nat /\
    vy v = - (sb_rest (es_base e0) 1%nat * (vy (world0 px s l) - vy q) / dt) - sb_damp (es_base e0) 1%nat * sb_lambda (es_base e') 1%nat.
Proof. exact mouse_velocity. Qed.
Print Assumptions C82_mouse_velocity.
Theorem C82_mouse_solvable : forall l q (px : Rprox) s (e0 : Reqs), 0 < px_m0 px -> 0 <= px_m1 px -> 0 <= px_I0 px -> 0 <= px_I1 px ->
  (forall i, sb_damp (es_base e0) i = 0) -> exists e, eq_init e0 (mouse_fun l q) px s = Ret e.
Proof. exact mouse_solvable. Qed.
Print Assumptions C82_mouse_solvable.
(** any equality constraint, in terms of its rows *)
Theorem C82_rows : forall (e : Reqs) f (px : Rprox) s, (forall l, cf_clampPos f l = l) -> independent (cf_dim f) (eff (cf_jac f px s) px) -> px_i0 px <> px_i1 px ->
  exists e' D, eq_position e f px s = Ret (e', shifted px D s) /\ forall i, (i < cf_dim f)%nat -> cf_eval f px s i + rowd (cf_jac f px s) D i = 0.
Proof. exact eq_position_two. Qed.
Print Assumptions C82_rows.
(** the inequality solver corrects in the same way, and skips singular systems *)
Theorem C82_singular : forall (e : @insolver RNum) f (px : Rprox) s, ~ independent (cf_dim f) (eff (cf_jac f px s) px) -> exists e', in_position e f px s = Ret (e', s).
Proof. exact in_position_singular. Qed.
Print Assumptions C82_singular.
Theorem C82_inequality : forall (e : @insolver RNum) f (px : Rprox) s, independent (cf_dim f) (eff (cf_jac f px s) px) -> px_i0 px <> px_i1 px ->
  exists e' l, in_position e f px s = Ret (e', shifted px (displ_of px (impulse (cf_dim f) (cf_jac f px s) (cf_clampPos f l))) s) /\
    forall i, (i < cf_dim f)%nat -> cf_eval f px s i + rowd (cf_jac f px s) (displ_of px (impulse (cf_dim f) (cf_jac f px s) l)) i = 0.
Proof. exact in_position_regular. Qed.
Print Assumptions C82_inequality.
(** two anchors 3 apart along x and 1 along y *)
Example C82_example : massive ex_px /\ px_i0 ex_px <> px_i1 ex_px /\ is_rotation (p_rot (s_pos ex_hold 0)) /\ is_rotation (p_rot (s_pos ex_hold 1)) /\
  world0 ex_px ex_hold (rv 1 0) = rv 1 0 /\ world1 ex_px ex_hold (rv 3 1) = rv 4 1.
Proof. exact ex_apart. Qed.

(** C83: [cs] lists the colliders visited by the field, with the index of their
    body; [touched k cs]: the mass of those of body k. *)
Theorem C83_global : forall (f : Rv) (dt : R) (bs : nat -> Rbody) (cs : list (nat * Rcoll)),
  (forall k, body_inv (bs k)) ->
  (forall k, Permutation (own k cs) (b_colliders (bs k))) ->
  (forall k, active (bs k) = true -> b_colliders (bs k) <> [] -> b_inertia (bs k) <> 0) ->
  exists bs', apply_field (linear_apply f dt) cs bs = Ret bs' /\
  forall k, (active (bs k) = false -> bs' k = bs k) /\
    (active (bs k) = true -> b_colliders (bs k) <> [] ->
       b_mass (bs k) * (vx (b_vel (bs' k)) - vx (b_vel (bs k))) = vx f * dt /\
       b_mass (bs k) * (vy (b_vel (bs' k)) - vy (b_vel (bs k))) = vy f * dt /\
       b_ang (bs' k) = b_ang (bs k) /\ b_pos (bs' k) = b_pos (bs k)).
Proof. exact linear_step. Qed.
Print Assumptions C83_global.
Theorem C83_region : forall (f : Rv) (dt : R) (bs : nat -> Rbody) (cs : list (nat * Rcoll)),
  (forall k, body_inv (bs k)) -> (forall i c, In (i, c) cs -> In c (b_colliders (bs i))) ->
  (forall k, active (bs k) = true -> b_colliders (bs k) <> [] -> b_inertia (bs k) <> 0) ->
  exists bs', apply_field (linear_apply f dt) cs bs = Ret bs' /\
  forall k, (active (bs k) = false -> bs' k = bs k) /\
    (active (bs k) = true -> b_colliders (bs k) <> [] ->
       let m := b_mass (bs k) in
       m * (vx (b_vel (bs' k)) - vx (b_vel (bs k))) = vx f * dt * (touched k cs / m) /\
       m * (vy (b_vel (bs' k)) - vy (b_vel (bs k))) = vy f * dt * (touched k cs / m) /\ b_pos (bs' k) = b_pos (bs k)).
Proof. exact linear_region. Qed.
Print Assumptions C83_region.
Example C83_example : exists (bs : nat -> Rbody) (cs : list (nat * Rcoll)),
  (forall k, body_inv (bs k)) /\ (forall k, Permutation (own k cs) (b_colliders (bs k))) /\
  (forall k, active (bs k) = true -> b_colliders (bs k) <> [] -> b_inertia (bs k) <> 0) /\
  active (bs 0%nat) = true /\ length (b_colliders (bs 0%nat)) = 1%nat.
Proof. exact ex_gravity. Qed.

(** C51: a motor specified by an acceleration of a target mass or inertia *)
Theorem C51_target : forall maxV a (t mass : R) m (px : Rprox) dt e dv dw,
  motor_hist 2 maxV (@specs_maxForce RNum (@specs_fromAccel RNum a (Some t)) mass) m -> 0 <= dt -> 0 <= t -> px_m0 px * mass = 1 ->
  motor_step (translation_motor m) px dt e dv dw ->
  let F := Rabs a * t * mo_throttle m * dt in (mass * vx dv) * (mass * vx dv) + (mass * vy dv) * (mass * vy dv) <= F * F.
Proof. exact target_bound. Qed.
Print Assumptions C51_target.
Theorem C51_target_torque : forall maxV a (t I : R) m (px : Rprox) dt e dv dw,
  motor_hist 1 maxV (@specs_maxForce RNum (@specs_fromAccel RNum a (Some t)) I) m -> 0 <= dt -> 0 <= t -> px_I0 px * I = 1 ->
  motor_step (rotation_motor m) px dt e dv dw -> Rabs (I * dw) <= Rabs a * t * mo_throttle m * dt.
Proof. exact target_torque. Qed.
Print Assumptions C51_target_torque.

(** C85.  [sqdist]: squared distance of the anchors; [allowed lo up x]: x if it
    is within the limits, otherwise the limit it exceeds; [sq]: the square of a
    given limit; [within minD maxD e]: the solver holds the squared limits;
    [bend]: terms of second order in the angles turned and in the change of the
    vector between the anchors. *)
Theorem C85_distance : forall fuel (e : @lisolver RNum) minD maxD l0 l1 (px : Rprox) s, within minD maxD e -> sensible minD maxD -> massive px -> px_i0 px <> px_i1 px ->
  is_rotation (p_rot (s_pos s (px_i0 px))) -> is_rotation (p_rot (s_pos s (px_i1 px))) -> between px s l0 l1 <> rv 0 0 -> (2 <= fuel)%nat ->
  exists e' s', li_position fuel e (distance_fun l0 l1) px s = Ret (e', s') /\
    Rabs (sqdist px s' l0 l1 - allowed (sq minD) (sq maxD) (sqdist px s l0 l1)) <= bend px s s' l0 l1 /\
    (allowed (sq minD) (sq maxD) (sqdist px s l0 l1) = sqdist px s l0 l1 -> forall i, s_pos s' i = s_pos s i) /\
    s_vel s' = s_vel s /\ forall i, i <> px_i0 px -> i <> px_i1 px -> s_pos s' i = s_pos s i.
Proof. exact distance_position. Qed.
Print Assumptions C85_distance.
Example C85_example : exists e, @distance_ctor RNum (Some 1) (Some 2) = Ret e /\ within (Some 1) (Some 2) e /\ sensible (Some 1) (Some 2) /\ massive ex_px /\
  between ex_px ex_hold (rv 1 0) (rv 3 1) <> rv 0 0 /\ sqdist ex_px ex_hold (rv 1 0) (rv 3 1) = 10 /\ allowed (sq (Some 1)) (sq (Some 2)) 10 = 4.
Proof. exact ex_far. Qed.

(** C86.  [in_at e l]: the solver e with the accumulated lambda l; [rowv J px s
    i]: row i of J times the velocities; [gap]: how fast the constraint opens. *)
Theorem C86_one_sided : forall fuel (e0 : @insolver RNum) (f : Rcfun) (px : Rprox) s0 (l : Rvec) s dt, cf_dim f = 1%nat ->
  (forall (l : Rvec) (dt : R), cf_clamp f l dt 0%nat = Rmax 0 (l 0%nat)) ->
  uses 1 (cf_jac f px s0) px -> sb_damp (is_base e0) 0%nat = 0 -> 0 < eff (cf_jac f px s0) px 0 0 -> (2 <= fuel)%nat ->
  exists e' s', in_velocity fuel (in_at (in_init e0 f px s0) l) f px s dt = Ret (e', s') /\
    let gap := rowv (cf_jac f px s0) px s' 0 + cf_bias f px s 0%nat + sb_rest (is_base e0) 0%nat * cf_eval f px s 0%nat / dt in
    let l' := sb_lambda (is_base e') 0%nat in
    0 <= l' /\ 0 <= gap /\ l' * gap = 0 /\ s' = pushed px (fun k => cf_jac f px s0 0%nat k * (l' - l 0%nat)) s.
Proof. exact in_velocity_one. Qed.
Print Assumptions C86_one_sided.
Example C86_example : cf_dim ex_floor = 1%nat /\ (forall (l : Rvec) (dt : R), cf_clamp ex_floor l dt 0%nat = Rmax 0 (l 0%nat)) /\
  uses 1 (cf_jac ex_floor ex_px ex_hold) ex_px /\ eff (cf_jac ex_floor ex_px ex_hold) ex_px 0 0 = 1.
Proof. exact ex_floor_ok. Qed.

(** C93.  [energy m px s]: kinetic energy of the two bodies; [change m px s t]:
    kinetic energy of the difference of their velocities in s and t; [weighed m
    px]: different bodies, m holds their masses and inertias, an immovable one
    (inverse 0) counts nothing; [respects px s t]: t leaves what is immovable its
    velocity in s; [grounded px s]: what is immovable is at rest. *)
Theorem C93_least : forall (e0 e : Reqs) (f : Rcfun) (px : Rprox) s0 l s dt m,
  (forall l dt, cf_clamp f l dt = l) -> eq_init e0 f px s0 = Ret e ->
  (forall i, sb_rest (es_base e0) i = 0) -> (forall i, sb_damp (es_base e0) i = 0) -> weighed m px ->
  exists e' s', eq_velocity (eq_at e l) f px s dt = Ret (e', s') /\
    forall t, respects px s t -> (forall i, (i < cf_dim f)%nat -> rowv (cf_jac f px s0) px t i + cf_bias f px s i = 0) ->
      change m px s s' <= change m px s t /\ (change m px s t = change m px s s' -> vel0 px t = vel0 px s' /\ vel1 px t = vel1 px s').
Proof. exact eq_least. Qed.
Print Assumptions C93_least.
(** the energy lost is that of the change, so none is added *)
Theorem C93_energy : forall (e0 e : Reqs) (f : Rcfun) (px : Rprox) s0 l s dt m,
  (forall l dt, cf_clamp f l dt = l) -> eq_init e0 f px s0 = Ret e ->
  (forall i, sb_rest (es_base e0) i = 0) -> (forall i, sb_damp (es_base e0) i = 0) -> (forall i, (i < cf_dim f)%nat -> cf_bias f px s i = 0) -> weighed m px -> grounded px s ->
  exists e' s', eq_velocity (eq_at e l) f px s dt = Ret (e', s') /\ energy m px s' + change m px s s' = energy m px s.
Proof. exact eq_energy. Qed.
Print Assumptions C93_energy.
(** one-sided constraints, also when the solve takes back accumulated impulse *)
Theorem C93_one_sided : forall fuel (e0 : @insolver RNum) (f : Rcfun) (px : Rprox) s0 (l : Rvec) s dt m, cf_dim f = 1%nat ->
  (forall (l : Rvec) (dt : R), cf_clamp f l dt 0%nat = Rmax 0 (l 0%nat)) ->
  sb_damp (is_base e0) 0%nat = 0 -> sb_rest (is_base e0) 0%nat = 0 -> cf_bias f px s 0%nat = 0 -> 0 < eff (cf_jac f px s0) px 0 0 -> (2 <= fuel)%nat ->
  0 <= l 0%nat -> weighed m px -> grounded px s ->
  exists e' s', in_velocity fuel (in_at (in_init e0 f px s0) l) f px s dt = Ret (e', s') /\ energy m px s' + change m px s s' <= energy m px s.
Proof. exact one_energy. Qed.
Print Assumptions C93_one_sided.
Theorem C93_nonneg : forall m px s t, weighed m px -> 0 <= change m px s t.
Proof. exact change_nonneg. Qed.
Print Assumptions C93_nonneg.
Example C93_example : weighed (Masses 1 1 1 1) ex_px /\ (forall s, grounded ex_px s) /\
  exists e, eq_init (new_eqsolver (hinge_fun (rv 1 0) (rv (-1) 0)) vzero vzero) (hinge_fun (rv 1 0) (rv (-1) 0)) ex_px ex_store = Ret e /\
  exists e' s', eq_velocity (eq_at e vzero) (hinge_fun (rv 1 0) (rv (-1) 0)) ex_px ex_store 1 = Ret (e', s') /\
    energy (Masses 1 1 1 1) ex_px s' < energy (Masses 1 1 1 1) ex_px ex_store.
Proof. exact (conj ex_weighed (conj ex_grounded ex_loses)). Qed.
