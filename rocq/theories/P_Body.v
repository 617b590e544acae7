(** Properties C37-C39, C43, C53, C54, C57-C59, C73: mass properties, impulses,
    gravity, sleeping, materials, profiler, adding colliders; exact arithmetic.
    [mp_wf p]: positive mass, or the zero element.  [coll_ok c]: the collider's
    mass properties exist and its mass is positive.  [body_run] applies a history
    of addCollider, removeCollider, applyImpulse, setVelocity and
    setAngularVelocity; [ops_ok] asks added colliders to be [coll_ok]. *)
From Coq Require Import ZArith List Bool Reals Permutation.
From Verif Require Import Num Outcome Box Mat MatFacts MatSolve Geom GeomClosest Transform TransformFacts Body BodyFacts BodyMore.
Import ListNotations.
Local Open Scope R_scope.

(** C37 *)
Theorem C37_sum : forall (a b : Rmp) (q : Rv), mp_wf a -> mp_wf b -> let c := mp_add a b in
  mp_m c = mp_m a + mp_m b /\
  mp_m c * vx (mp_c c) = mp_m a * vx (mp_c a) + mp_m b * vx (mp_c b) /\
  mp_m c * vy (mp_c c) = mp_m a * vy (mp_c a) + mp_m b * vy (mp_c b) /\
  inertia_about c q = inertia_about a q + inertia_about b q.
Proof. exact mp_add_spec. Qed.
Print Assumptions C37_sum.
Theorem C37_monoid : forall a b c : Rmp, mp_wf a -> mp_wf b -> mp_wf c ->
  mp_add a b = mp_add b a /\ mp_add (mp_add a b) c = mp_add a (mp_add b c) /\
  mp_add a mp_zero = a /\ mp_add mp_zero a = a.
Proof. exact (fun a b c A B C => conj (mp_comm a b A B) (conj (mp_assoc a b c A B C) (mp_neutral a A))). Qed.
Print Assumptions C37_monoid.
Theorem C37_total : forall (os : list body_op) (pos : Rv) (theta dom : R), Forall ops_ok os ->
  exists b, body_run os (@new_body RNum pos (@mk_rot RNum RTrig theta) dom) = Ret b.
Proof. exact (fun os pos theta dom F => body_run_total os F _ (new_body_inv pos theta dom)). Qed.
Print Assumptions C37_total.
Theorem C37_history : forall (pos : Rv) (theta dom : R) os b,
  Forall ops_ok os -> body_run os (@new_body RNum pos (@mk_rot RNum RTrig theta) dom) = Ret b ->
  b_props b = mp_sum (props_list (b_colliders b)) /\
  (b_colliders b <> [] -> p_lc (b_pos b) = mp_c (b_props b)).
Proof. exact body_props_history. Qed.
Print Assumptions C37_history.
Theorem C37_order : forall (pos : Rv) (theta dom : R) (pos' : Rv) (theta' dom' : R) os os' b b',
  Forall ops_ok os -> Forall ops_ok os' ->
  body_run os (@new_body RNum pos (@mk_rot RNum RTrig theta) dom) = Ret b ->
  body_run os' (@new_body RNum pos' (@mk_rot RNum RTrig theta') dom') = Ret b' ->
  Permutation (map (fun c => (c_local c, c_density c)) (b_colliders b))
              (map (fun c => (c_local c, c_density c)) (b_colliders b')) ->
  b_props b = b_props b'.
Proof. exact body_props_order. Qed.
Print Assumptions C37_order.
(** polygons accepted by the library make such colliders *)
Theorem C37_polygon : forall id (vs : list Rv) P (w : list Rv) (d : R),
  make_polygon vs = Ret P -> gp_degenerate (pg_props P) = false -> 0 < d ->
  exists p : Rmp, c_props (@Coll RNum id (pg_vertices P) d w) = Ret p /\ mp_m p = gp_area (pg_props P) * d /\
    0 < mp_m p /\ mp_c p = gp_centroid (pg_props P).
Proof. exact coll_ok_polygon. Qed.
Print Assumptions C37_polygon.
Example C37_example : exists b,
  body_run [BAdd (sqc 0 0 0 1 1); BAdd (sqc 1 1 0 1 2); BRemove 0; BAng 2] (@new_body RNum (rv 0 0) (@mk_rot RNum RTrig 1) 1) = Ret b /\
  Forall ops_ok [BAdd (sqc 0 0 0 1 1); BAdd (sqc 1 1 0 1 2); BRemove 0; BAng 2] /\
  b_mass b = 2 /\ b_inertia b = 1 / 3 /\ b_ang b = 2.
Proof. exact ex_body. Qed.

(** C38: [lin_x], [lin_y], [ang_mom o]: total momenta of a body, about o *)
Theorem C38_impulse : forall (b : Rbody) (J r : Rv), b_mass b <> 0 -> b_inertia b <> 0 ->
  let b' := apply_impulse b J r in
  b_mass b' * vx (b_vel b') = b_mass b * vx (b_vel b) + vx J /\
  b_mass b' * vy (b_vel b') = b_mass b * vy (b_vel b) + vy J /\
  b_inertia b' * b_ang b' = b_inertia b * b_ang b + (vx r * vy J - vy r * vx J) /\
  b_pos b' = b_pos b /\ b_mass b' = b_mass b /\ b_inertia b' = b_inertia b.
Proof. exact impulse_momentum. Qed.
Print Assumptions C38_impulse.
Theorem C38_pair : forall (a b : Rbody) (J p o : Rv),
  b_mass a <> 0 -> b_inertia a <> 0 -> b_mass b <> 0 -> b_inertia b <> 0 ->
  let a' := apply_impulse a J (vsub p (b_centroid a)) in
  let b' := apply_impulse b (vopp J) (vsub p (b_centroid b)) in
  lin_x a' + lin_x b' = lin_x a + lin_x b /\ lin_y a' + lin_y b' = lin_y a + lin_y b /\
  ang_mom o a' + ang_mom o b' = ang_mom o a + ang_mom o b.
Proof. exact impulse_pair. Qed.
Print Assumptions C38_pair.
Example C38_example : exists b,
  body_run turned (@new_body RNum (rv 0 0) (@mk_rot RNum RTrig PI) 1) = Ret b /\
  b_ang b = 3 /\ b_vel b = rv 0 0 /\ p_off (b_pos b) = rv 0 0 /\ p_rot (b_pos b) = @mk_rot RNum RTrig PI /\
  p_lc (b_pos b) = rv (1 / 2) (1 / 2) /\ b_props b = @MP RNum 1 (1 / 6) (rv (1 / 2) (1 / 2)).
Proof. exact turned_run. Qed.

(** C39: [cs] is the list of colliders visited by the field, with the index of
    their body; every body has all its colliders visited once, in any order and
    interleaving.  [active]: neither asleep nor structural. *)
Theorem C39_gravity : forall (g : Rv) (dt : R) (bs : nat -> Rbody) (cs : list (nat * Rcoll)),
  (forall k, body_inv (bs k)) ->
  (forall k, Permutation (own k cs) (b_colliders (bs k))) ->
  (forall k, active (bs k) = true -> b_colliders (bs k) <> [] -> b_inertia (bs k) <> 0) ->
  exists bs', apply_field (gravity_apply g dt) cs bs = Ret bs' /\
  forall k, (active (bs k) = false -> bs' k = bs k) /\
    (active (bs k) = true -> b_colliders (bs k) <> [] ->
       vx (b_vel (bs' k)) = vx (b_vel (bs k)) + vx g * dt /\ vy (b_vel (bs' k)) = vy (b_vel (bs k)) + vy g * dt /\
       b_ang (bs' k) = b_ang (bs k) /\ b_pos (bs' k) = b_pos (bs k)).
Proof. exact gravity_step. Qed.
Print Assumptions C39_gravity.
Example C39_example : exists (bs : nat -> Rbody) (cs : list (nat * Rcoll)),
  (forall k, body_inv (bs k)) /\ (forall k, Permutation (own k cs) (b_colliders (bs k))) /\
  (forall k, active (bs k) = true -> b_colliders (bs k) <> [] -> b_inertia (bs k) <> 0) /\
  active (bs 0%nat) = true /\ length (b_colliders (bs 0%nat)) = 1%nat.
Proof. exact ex_gravity. Qed.

(** C43 *)
Theorem C43_immobile : forall (b : Rbody) (vt at_ : R), is_immobile b vt at_ = true <->
  vx (b_vel b) * vx (b_vel b) + vy (b_vel b) * vy (b_vel b) < vt * vt /\ b_ang b < at_.
Proof. exact immobile_iff. Qed.
Print Assumptions C43_immobile.
(** a slow body spinning clockwise, however fast, falls asleep while spinning *)
Theorem C43_clockwise_refuted : forall n (b : Rbody) (dt vt at_ delay : R), 0 < dt -> 0 < at_ ->
  vx (b_vel b) * vx (b_vel b) + vy (b_vel b) * vy (b_vel b) < vt * vt -> b_ang b < 0 ->
  (0 < n)%nat -> delay <= b_immobile b + INR n * dt ->
  b_asleep (sleep_steps n b dt vt at_ delay) = true /\ b_ang (sleep_steps n b dt vt at_ delay) = b_ang b.
Proof. exact sleep_steps_clockwise. Qed.
Print Assumptions C43_clockwise_refuted.
(** a body spinning counter-clockwise above the threshold does not *)
Theorem C43_counterclockwise : forall n (b : Rbody) (dt vt at_ delay : R), 0 < delay -> at_ <= b_ang b ->
  b_asleep b = false -> b_asleep (sleep_steps n b dt vt at_ delay) = false.
Proof. exact sleep_steps_counterclockwise. Qed.
Print Assumptions C43_counterclockwise.
Example C43_example : b_asleep (sleep_steps 60 spinner (1 / 60) (1 / 10) (1 / 10) 1) = true /\
  b_ang (sleep_steps 60 spinner (1 / 60) (1 / 10) (1 / 10) 1) = -1000.
Proof. exact ex_spinner. Qed.

(** C53 *)
Theorem C53_symmetric : forall a b : Rcomb, comb_combine a b = comb_combine b a.
Proof. exact comb_sym. Qed.
Print Assumptions C53_symmetric.
Theorem C53_priority : forall a b : Rcomb,
  mode_rank (cb_mode (comb_combine a b)) = Nat.max (mode_rank (cb_mode a)) (mode_rank (cb_mode b)).
Proof. exact comb_priority. Qed.
Print Assumptions C53_priority.
Theorem C53_value : forall a b : Rcomb, let x := cb_value a in let y := cb_value b in cb_value (comb_combine a b) =
  match cb_mode (comb_combine a b) with
  | MAverage => (x + y) / 2 | MMinimum => Rmin x y | MMultiply => x * y | MMaximum => Rmax x y
  end.
Proof. exact comb_value_spec. Qed.
Print Assumptions C53_value.
Theorem C53_between : forall a b : Rcomb, cb_mode (comb_combine a b) <> MMultiply ->
  Rmin (cb_value a) (cb_value b) <= cb_value (comb_combine a b) <= Rmax (cb_value a) (cb_value b).
Proof. exact comb_between. Qed.
Print Assumptions C53_between.
Theorem C53_unit : forall a b : Rcomb, 0 <= cb_value a <= 1 -> 0 <= cb_value b <= 1 ->
  0 <= cb_value (comb_combine a b) <= 1.
Proof. exact comb_unit. Qed.
Print Assumptions C53_unit.
Example C53_example : comb_combine (@Comb RNum MAverage 1) (@Comb RNum MMultiply (1 / 2)) = @Comb RNum MMultiply (1 / 2).
Proof. exact ex_comb. Qed.

(** C54 *)
Theorem C54_statistics : forall xs : list R, xs <> [] -> (forall x, In x xs -> 0 <= x) ->
  let e := te_run xs te_new in
  te_n e = length xs /\ (exists l, xs = l ++ [te_last e]) /\
  (In (te_max e) xs /\ forall x, In x xs -> x <= te_max e) /\
  te_avg e = rsum xs / INR (length xs).
Proof. exact te_stats. Qed.
Print Assumptions C54_statistics.
Theorem C54_partial_measures : forall (e : Rte) (xs : list R),
  te_commitPartial (fold_left (@te_addPartial RNum) xs (te_startPartial e)) = @te_add RNum e (rsum xs).
Proof. exact te_partial. Qed.
Print Assumptions C54_partial_measures.
Theorem C54_moved_timer : forall (t : timer) (es : nat -> Rte) (dt : R), let '(t', src) := timer_move t in
  timer_destroy t' es dt = es /\ timer_destroy src es dt = es.
Proof. exact (@timer_moved RNum). Qed.
Print Assumptions C54_moved_timer.
Example C54_example : let e := te_run [1; 3; 2] te_new in te_last e = 2 /\ te_max e = 3 /\ te_avg e = 2 /\
  @timer_destroy RNum (Timer (Some 0%nat) false) (fun _ => te_new) 5 0%nat <> (te_new : Rte).
Proof. exact ex_times. Qed.

(** C57: addCollider displaces the existing geometry of a rotated body *)
Theorem C57_displacement : forall (b b' : Rbody) c p v, c_props c = Ret p -> add_collider b c = Ret b' ->
  let d := vsub (p_lc (b_pos b')) (p_lc (b_pos b)) in
  tf_apply (to_world (b_pos b')) v = vadd (tf_apply (to_world (b_pos b)) v) (vsub d (rot_apply (p_rot (b_pos b)) d)).
Proof. exact add_collider_shift. Qed.
Print Assumptions C57_displacement.
Theorem C57_upright : forall (b b' : Rbody) c p v, c_props c = Ret p -> add_collider b c = Ret b' ->
  r_cos (p_rot (b_pos b)) = 1 -> r_sin (p_rot (b_pos b)) = 0 ->
  tf_apply (to_world (b_pos b')) v = tf_apply (to_world (b_pos b)) v.
Proof. exact add_collider_upright. Qed.
Print Assumptions C57_upright.
(** C58: addCollider leaves velocity unchanged, so the velocity field of a
    spinning body changes whenever its centroid does *)
Theorem C58_velocity_field : forall (b b' : Rbody) c p x, c_props c = Ret p -> add_collider b c = Ret b' ->
  point_vel b' x = vadd (point_vel b x) (vscale (b_ang b) (vperp (vsub (b_centroid b) (b_centroid b')))).
Proof. exact add_collider_field. Qed.
Print Assumptions C58_velocity_field.
Theorem C57_C58_refuted : exists b b' c,
  body_run turned (@new_body RNum (rv 0 0) (@mk_rot RNum RTrig PI) 1) = Ret b /\ coll_ok c /\ add_collider b c = Ret b' /\
  (forall v, tf_apply (to_world (b_pos b')) v = vadd (tf_apply (to_world (b_pos b)) v) (rv 1 0)) /\
  (forall x, point_vel b' x = vadd (point_vel b x) (rv 0 (- (3 / 2)))).
Proof. exact add_moves. Qed.
Print Assumptions C57_C58_refuted.
Example C57_C58_example : exists b, body_run turned (@new_body RNum (rv 0 0) (@mk_rot RNum RTrig PI) 1) = Ret b /\
  b_ang b = 3 /\ b_vel b = rv 0 0 /\ p_off (b_pos b) = rv 0 0 /\ p_rot (b_pos b) = @mk_rot RNum RTrig PI /\
  p_lc (b_pos b) = rv (1 / 2) (1 / 2) /\ b_props b = @MP RNum 1 (1 / 6) (rv (1 / 2) (1 / 2)).
Proof. exact turned_run. Qed.

(** C59: a rejected collider *)
Theorem C59_rejected_stays : forall (b : Rbody) (c : Rcoll), c_props c = Throw -> add_collider b c = Throw /\
  let b' := fst (add_collider_full b c) in
  b_colliders b' = b_colliders b ++ [c] /\ b_props b' = b_props b /\ b_pos b' = b_pos b.
Proof. exact add_rejected. Qed.
Print Assumptions C59_rejected_stays.
Theorem C59_later_removals_throw : forall (b : Rbody) (c : Rcoll) d,
  body_inv b -> c_props c = Throw -> In d (b_colliders b) ->
  remove_collider (fst (add_collider_full b c)) (c_id d) = Throw.
Proof. exact remove_after_rejected. Qed.
Print Assumptions C59_later_removals_throw.
Example C59_example : c_props (sqc 7 0 0 1 (-1)) = Throw.
Proof. exact ex_rejected. Qed.

(** C73: no call puts a body to sleep, and calls which change its velocity wake it *)
Theorem C73_wakes : forall os (b b' : Rbody), body_run os b = Ret b' ->
  (b_asleep b = false -> b_asleep b' = false) /\ (b_vel b' <> b_vel b \/ b_ang b' <> b_ang b -> b_asleep b' = false).
Proof. exact body_run_wakes. Qed.
Print Assumptions C73_wakes.
(** ... but the time spent immobile is kept, so after a weak impulse the next
    step puts the body to sleep again with its new velocity *)
Theorem C73_stays_awake_refuted : forall (b : Rbody) (J r : Rv) (dt vt at_ delay : R), 0 <= dt -> delay <= b_immobile b ->
  is_immobile (apply_impulse b J r) vt at_ = true ->
  let b' := sleep_step (apply_impulse b J r) dt vt at_ delay in b_asleep b' = true /\ b_vel b' = b_vel (apply_impulse b J r).
Proof. exact wake_short. Qed.
Print Assumptions C73_stays_awake_refuted.
Example C73_example : b_asleep dozer = true /\ b_asleep (apply_impulse dozer (rv (1 / 100) 0) (rv 0 0)) = false /\
  is_immobile (apply_impulse dozer (rv (1 / 100) 0) (rv 0 0)) (1 / 10) (1 / 10) = true /\ 1 <= b_immobile dozer.
Proof. exact ex_dozer. Qed.
