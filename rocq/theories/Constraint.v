(** Model of the constraint solving code: include/Simu/physics/{Bodies,
    Bodies.inl, ConstraintSolver, ConstraintFunction, DistanceConstraint,
    Motors, Constraint}.hpp and include/Simu/app/MouseConstraint.hpp.

    Solver proxies point into the arrays of positions and velocities of an
    island; the model keeps the arrays as functions of the index.  Vectors of
    dimension n and 6 are index functions, entries outside are meaningless. *)
From Coq Require Import ZArith List Bool.
From Verif Require Import Num Outcome Box Mat Geom Transform Body.
Import ListNotations.
Local Open Scope num_scope.

Section Model.
Context {N : Num} {TR : Trig N}.

(** Velocity, Body.hpp:118-147 *)
Record velocity := Vel { v_lin : vec2; v_ang : K }.
(** Island::positions_ and velocities_ *)
Record store := Store { s_pos : nat -> position; s_vel : nat -> velocity }.
(** Proxies, Bodies.hpp:104-168: the indices of the two solver proxies and the
    inverse masses *)
Record proxies := Prox { px_i0 : nat; px_i1 : nat; px_m0 : K; px_I0 : K; px_m1 : K; px_I1 : K }.

(** std::isfinite *)
Definition kfinite (x : K) : bool := kltInf (kabs x).
Definition set_at {A} (f : nat -> A) (i : nat) (x : A) : nat -> A := fun j => if Nat.eqb j i then x else f j.

(** SolverProxy::setVelocity, Bodies.hpp:76-83; the assertions come after the writes *)
Definition proxy_setVelocity (i : nat) (v : vec2) (w : K) (s : store) : outcome store :=
  if kfinite (vx v) && kfinite (vy v) && kfinite w
  then Ret (Store (s_pos s) (set_at (s_vel s) i (Vel v w))) else Throw.
(** incrementVel, lines 71-74 *)
Definition proxy_incrementVel (i : nat) (dv : vec2) (dw : K) (s : store) : outcome store :=
  proxy_setVelocity i (vadd (v_lin (s_vel s i)) dv) (v_ang (s_vel s i) + dw) s.
(** Position::advance, Body.hpp:172-176, and SolverProxy::advancePos, Bodies.hpp:63-69 *)
Definition pos_advance (p : position) (dPos : vec2) (dTheta : K) : position :=
  Pos (tra_mul (p_off p) dPos) (rot_mul (p_rot p) (mk_rot dTheta)) (p_lc p).
Definition proxy_advancePos (i : nat) (dPos : vec2) (dTheta : K) (s : store) : outcome store :=
  let p := pos_advance (s_pos s i) dPos dTheta in
  if kfinite (vx (p_off p)) && kfinite (vy (p_off p)) && kfinite (r_theta (p_rot p))
  then Ret (Store (set_at (s_pos s) i p) (s_vel s)) else Throw.

Definition vec1 (x : K) : vec := fun i => match i with O => x | S _ => k0 end.
Definition vec_of2 (v : vec2) : vec := fun i => match i with 0 => vx v | 1 => vy v | _ => k0 end%nat.
Definition row6 (a b c d e f : K) : vec :=
  fun j => match j with 0 => a | 1 => b | 2 => c | 3 => d | 4 => e | 5 => f | _ => k0 end%nat.
Definition rows1 (r : vec) : mat := fun i => match i with O => r | S _ => fun _ => k0 end.
Definition rows2 (r r' : vec) : mat := fun i => match i with O => r | S O => r' | S (S _) => fun _ => k0 end.

(** Proxies::applyImpulse, Bodies.inl.hpp:40-46 *)
Definition apply_P (px : proxies) (P : vec) (s : store) : outcome store :=
  (let* s1 := proxy_incrementVel (px_i0 px) (vscale (px_m0 px) (V2 (P 0%nat) (P 1%nat))) (px_I0 px * P 2%nat) s in
   proxy_incrementVel (px_i1 px) (vscale (px_m1 px) (V2 (P 3%nat) (P 4%nat))) (px_I1 px * P 5%nat) s1)%out.
(** applyPositionCorrection, lines 49-55 *)
Definition apply_C (px : proxies) (S : vec) (s : store) : outcome store :=
  (let* s1 := proxy_advancePos (px_i0 px) (vscale (px_m0 px) (V2 (S 0%nat) (S 1%nat))) (px_I0 px * S 2%nat) s in
   proxy_advancePos (px_i1 px) (vscale (px_m1 px) (V2 (S 3%nat) (S 4%nat))) (px_I1 px * S 5%nat) s1)%out.
(** velocity, lines 58-70 *)
Definition px_velocity (px : proxies) (s : store) : vec :=
  let v0 := s_vel s (px_i0 px) in let v1 := s_vel s (px_i1 px) in
  row6 (vx (v_lin v0)) (vy (v_lin v0)) (v_ang v0) (vx (v_lin v1)) (vy (v_lin v1)) (v_ang v1).
(** invMassVec and inverseMass, Bodies.hpp:154-159 *)
Definition px_invMassVec (px : proxies) : vec :=
  row6 (px_m0 px) (px_m0 px) (px_I0 px) (px_m1 px) (px_m1 px) (px_I1 px).

(** the inverse masses computed by the Bodies constructor, Bodies.inl.hpp:74-95 *)
Definition bodies_masses (b0 b1 : body) (dominances : option (K * K)) : K * K * K * K :=
  let d := match dominances with Some d => d | None => (b_dominance b0, b_dominance b1) end in
  (fst d * b_invMass b0, fst d * b_invInertia b0, snd d * b_invMass b1, snd d * b_invInertia b1).

(** ** Solver<float, dimension>: the 2x2 solver or the QR solver *)
Inductive ksolver := KS2 (s : solver2) | KSn (s : option qr).
Definition ks_make (n : nat) (A : mat) : ksolver :=
  if Nat.eqb n 2 then KS2 (make_solver2 (M2 (A 0 0) (A 0 1) (A 1 0) (A 1 1))%nat) else KSn (qr_solver n A).
Definition ks_valid (s : ksolver) : bool := match s with KS2 s => s2_valid s | KSn s => qr_valid s end.
Definition ks_solve (n : nat) (s : ksolver) (b : vec) : outcome vec :=
  match s with
  | KS2 s => (let* x := solve2 s (V2 (b 0%nat) (b 1%nat)) in
              Ret (vec_of2 x))%out
  | KSn s => qr_solve n s b
  end.

(** ** Constraint functions (the ConstraintFunction concept, ConstraintInterfaces.hpp:120-144) *)
Record cfun := CF {
  cf_dim : nat;
  cf_eval : proxies -> store -> vec;
  cf_bias : proxies -> store -> vec;
  cf_jac : proxies -> store -> mat;
  cf_clamp : vec -> K -> vec;
  cf_clampPos : vec -> vec }.

Definition vzero : vec := fun _ => k0.
Definition to_world_of (px_i : nat) (s : store) : transform := to_world (s_pos s px_i).
Definition centroid_of (px_i : nat) (s : store) : vec2 := p_centroid (s_pos s px_i).

(** RotationConstraintFunction, ConstraintFunction.hpp:308-337 *)
Definition rotation_fun (initialAngle : K) : cfun := CF 1
  (fun px s => vec1 (r_theta (p_rot (s_pos s (px_i1 px))) - r_theta (p_rot (s_pos s (px_i0 px))) - initialAngle))
  (fun _ _ => vzero)
  (fun _ _ => rows1 (row6 k0 k0 (kofZ (-1)) k0 k0 k1))
  (fun l _ => l) (fun l => l).

(** HingeConstraintFunction, lines 340-394; [l0], [l1] are the local shared points *)
Definition hinge_fun (l0 l1 : vec2) : cfun := CF 2
  (fun px s => vec_of2 (vsub (tf_apply (to_world_of (px_i1 px) s) l1) (tf_apply (to_world_of (px_i0 px) s) l0)))
  (fun _ _ => vzero)
  (fun px s =>
     let r0 := vperp (vsub (tf_apply (to_world_of (px_i0 px) s) l0) (centroid_of (px_i0 px) s)) in
     let r1 := vperp (vsub (tf_apply (to_world_of (px_i1 px) s) l1) (centroid_of (px_i1 px) s)) in
     rows2 (row6 (kofZ (-1)) k0 (- vx r0) k1 k0 (vx r1))
           (row6 k0 (kofZ (-1)) (- vy r0) k0 k1 (vy r1)))
  (fun l _ => l) (fun l => l).

(** ConstraintFunctions<F1, F2>, lines 92-260: the rows of F1, then those of F2 *)
Definition stack {A} (n : nat) (a b : nat -> A) : nat -> A := fun i => if Nat.ltb i n then a i else b (i - n)%nat.
Definition shift (n : nat) (v : vec) : vec := fun i => v (n + i)%nat.
Definition cfun_pair (f g : cfun) : cfun :=
  let n := cf_dim f in
  CF (n + cf_dim g)
    (fun px s => stack n (cf_eval f px s) (cf_eval g px s))
    (fun px s => stack n (cf_bias f px s) (cf_bias g px s))
    (fun px s => stack n (cf_jac f px s) (cf_jac g px s))
    (fun l dt => stack n (cf_clamp f l dt) (cf_clamp g (shift n l) dt))
    (fun l => stack n (cf_clampPos f l) (cf_clampPos g (shift n l))).
(** WeldConstraint, Constraint.hpp:125-157 *)
Definition weld_fun (l0 l1 : vec2) (initialAngle : K) : cfun := cfun_pair (hinge_fun l0 l1) (rotation_fun initialAngle).

(** DistanceConstraintFunction, DistanceConstraint.hpp:35-94 *)
Definition distance_fun (l0 l1 : vec2) : cfun := CF 1
  (fun px s => vec1 (vnormsq (vsub (tf_apply (to_world_of (px_i0 px) s) l0) (tf_apply (to_world_of (px_i1 px) s) l1))))
  (fun _ _ => vzero)
  (fun px s =>
     let p0 := tf_apply (to_world_of (px_i0 px) s) l0 in
     let p1 := tf_apply (to_world_of (px_i1 px) s) l1 in
     let d := vsub p0 p1 in
     let c0 := vsub p0 (centroid_of (px_i0 px) s) in
     let c1 := vsub p1 (centroid_of (px_i1 px) s) in
     rows1 (row6 (vx d * k2) (vy d * k2) (vcross c0 d * k2) (- vx d * k2) (- vy d * k2) (- vcross c1 d * k2)))
  (fun l _ => l) (fun l => l).

(** MouseConstraintFunction, MouseConstraint.hpp:32-79 *)
Definition mouse_fun (local mouse : vec2) : cfun := CF 2
  (fun px s => vec_of2 (vsub (tf_apply (to_world_of (px_i0 px) s) local) mouse))
  (fun _ _ => vzero)
  (fun px s =>
     let r := vsub (tf_apply (to_world_of (px_i0 px) s) local) (centroid_of (px_i0 px) s) in
     rows2 (row6 k1 k0 (- vy r) k0 k0 k0) (row6 k0 k1 (vx r) k0 k0 k0))
  (fun l _ => l) (fun l => l).

(** ** MotorFunctionBase, Motors.hpp:34-91 *)
Record motor := Motor { mo_throttle : K; mo_dir : vec; mo_maxVel : K; mo_maxForce : K }.
Definition new_motor (maxVelocity maxForce : K) : motor := Motor k1 vzero (kabs maxVelocity) (kabs maxForce).
(** throttle(float), line 73 *)
Definition motor_throttle (m : motor) (t : K) : motor :=
  Motor (kclamp t k0 k1) (mo_dir m) (mo_maxVel m) (mo_maxForce m).
(** direction(Value), lines 76-82 *)
Definition motor_direction (n : nat) (m : motor) (d : vec) : motor :=
  Motor (mo_throttle m)
    (if ndot n d d =? k0 then d else (fun i => d i / nnorm n d)) (mo_maxVel m) (mo_maxForce m).
(** clampLambda, lines 56-68 *)
Definition motor_bound (m : motor) (dt : K) : vec := fun i => mo_dir m i * mo_throttle m * mo_maxForce m * dt.
Definition motor_clamp (m : motor) (l : vec) (dt : K) : vec := fun i =>
  let b := motor_bound m dt i in
  if b <? k0 then kclamp (l i) b k0 else kclamp (l i) k0 b.
(** bias, lines 51-54 *)
Definition motor_bias (m : motor) : vec := fun i => mo_dir m i * - mo_maxVel m.
Definition rotation_motor (m : motor) : cfun := CF 1
  (fun _ _ => vzero) (fun _ _ => motor_bias m)
  (fun _ _ => rows1 (row6 k0 k0 k1 k0 k0 k0))
  (motor_clamp m) (fun _ => vzero).
Definition translation_motor (m : motor) : cfun := CF 2
  (fun _ _ => vzero) (fun _ _ => motor_bias m)
  (fun _ _ => rows2 (row6 k1 k0 k0 k0 k0 k0) (row6 k0 k1 k0 k0 k0 k0))
  (motor_clamp m) (fun _ => vzero).
(** the maximum force given by the Specs, Motors.hpp:140-193 and 230-271: the
    given force, or an acceleration times the mass or inertia *)
Inductive motor_specs := SForce (f : K) | SAccel (a : K).
Definition specs_fromAccel (a : K) (target : option K) : motor_specs :=
  match target with Some m => SForce (a * m) | None => SAccel a end.
Definition specs_maxForce (sp : motor_specs) (mass : K) : K :=
  match sp with SForce f => f | SAccel a => a * mass end.

(** ** ConstraintSolverBase, ConstraintSolver.hpp:40-132 *)
Record sbase := SB { sb_lambda : vec; sb_prev : vec; sb_J : mat; sb_rest : vec; sb_damp : vec }.
Definition new_sbase (rest damp : vec) : sbase := SB vzero vzero (fun _ _ => k0) rest damp.
(** initBase, lines 68-72 *)
Definition init_base (b : sbase) : sbase := SB vzero (sb_lambda b) (sb_J b) (sb_rest b) (sb_damp b).
(** computeEffectiveMass, lines 79-89: J * invM * J^T (+ diagonal damping); it
    stores the jacobian *)
Definition eff_mass (J : mat) (px : proxies) : mat :=
  mmul 6 (mmul 6 J (mdiagonal (px_invMassVec px))) (mtrans J).
Definition compute_K (b : sbase) (f : cfun) (px : proxies) (s : store) (addDamping : bool) : sbase * mat :=
  let J := cf_jac f px s in
  let Km := eff_mass J px in
  (SB (sb_lambda b) (sb_prev b) J (sb_rest b) (sb_damp b),
   if addDamping then madd Km (mdiagonal (sb_damp b)) else Km).
(** computeRhs, lines 91-103 *)
Definition compute_rhs (b : sbase) (f : cfun) (px : proxies) (s : store) (dt : K) (addDamping : bool) : vec :=
  let n := cf_dim f in
  fun i =>
  let error := mvmul 6 (sb_J b) (px_velocity px s) i in
  let bias := cf_bias f px s i in
  let baumgarte := mvmul n (mdiagonal (sb_rest b)) (cf_eval f px s) i / dt in
  let prevDamp := if addDamping then mvmul n (mdiagonal (sb_damp b)) (sb_lambda b) i else k0 in
  - (error + bias + baumgarte + prevDamp).
(** impulse, lines 114-117 *)
Definition impulse (n : nat) (J : mat) (l : vec) : vec := mvmul n (mtrans J) l.
Definition set_lambda (b : sbase) (l : vec) : sbase := SB l (sb_prev b) (sb_J b) (sb_rest b) (sb_damp b).
(** updateLambda, lines 105-112 *)
Definition update_lambda (b : sbase) (f : cfun) (px : proxies) (s : store) (dt : K) (d : vec) : outcome (sbase * store) :=
  let old := sb_lambda b in
  let l := cf_clamp f (fun i => old i + d i) dt in
  (let* s' := apply_P px (impulse (cf_dim f) (sb_J b) (fun i => l i - old i)) s in
   Ret (set_lambda b l, s'))%out.
(** warmstartDefault, lines 74-77 *)
Definition warmstart_default (b : sbase) (f : cfun) (px : proxies) (s : store) (dt : K) : outcome (sbase * store) :=
  update_lambda b f px s dt (sb_prev b).

(** ** EqualitySolver, lines 135-194 *)
Record eqsolver := EqS { es_base : sbase; es_solver : ksolver }.
Definition new_eqsolver (f : cfun) (rest damp : vec) : eqsolver :=
  EqS (new_sbase rest damp) (ks_make (cf_dim f) (fun _ _ => k0)).
Definition eq_init (e : eqsolver) (f : cfun) (px : proxies) (s : store) : outcome eqsolver :=
  let '(b, Km) := compute_K (init_base (es_base e)) f px s true in
  let ks := ks_make (cf_dim f) Km in
  if ks_valid ks then Ret (EqS b ks) else Throw.
Definition eq_warmstart (e : eqsolver) (f : cfun) (px : proxies) (s : store) (dt : K) : outcome (eqsolver * store) :=
  (let* r := warmstart_default (es_base e) f px s dt in Ret (EqS (fst r) (es_solver e), snd r))%out.
Definition eq_velocity (e : eqsolver) (f : cfun) (px : proxies) (s : store) (dt : K) : outcome (eqsolver * store) :=
  (let* d := ks_solve (cf_dim f) (es_solver e) (compute_rhs (es_base e) f px s dt true) in
   let* r := update_lambda (es_base e) f px s dt d in
   Ret (EqS (fst r) (es_solver e), snd r))%out.
(** solvePosition, lines 177-188 *)
Definition eq_position (e : eqsolver) (f : cfun) (px : proxies) (s : store) : outcome (eqsolver * store) :=
  let error := cf_eval f px s in
  let J := cf_jac f px s in
  let '(b, Km) := compute_K (es_base e) f px s false in
  let ks := ks_make (cf_dim f) Km in
  (let* l := ks_solve (cf_dim f) ks (fun i => - error i) in
   let* s' := apply_C px (impulse (cf_dim f) J (cf_clampPos f l)) s in
   Ret (EqS b ks, s'))%out.

(** ** InequalitySolver, lines 197-275; [fuel] bounds the sweeps of solveInequalities *)
Record insolver := InS { is_base : sbase; is_K : mat }.
Definition in_init (e : insolver) (f : cfun) (px : proxies) (s : store) : insolver :=
  let '(b, Km) := compute_K (init_base (is_base e)) f px s true in InS b Km.
Definition in_velocity (fuel : nat) (e : insolver) (f : cfun) (px : proxies) (s : store) (dt : K) : outcome (insolver * store) :=
  let b := is_base e in
  let rhs := fun i => compute_rhs b f px s dt false i + mvmul (cf_dim f) (is_K e) (sb_lambda b) i in
  (let* l := solveInequalities fuel (cf_dim f) (is_K e) rhs (fun x i => cf_clamp f x dt i) (sb_lambda b) keps in
   let* r := update_lambda b f px s dt (fun i => l i - sb_lambda b i) in
   Ret (InS (fst r) (is_K e), snd r))%out.

(** solvePosition, lines 243-269: nothing is corrected when the effective mass is singular *)
Definition in_position (e : insolver) (f : cfun) (px : proxies) (s : store) : outcome (insolver * store) :=
  let error := cf_eval f px s in
  let J := cf_jac f px s in
  let Km := eff_mass J px in
  let ks := ks_make (cf_dim f) Km in
  let e' := InS (is_base e) Km in
  if negb (ks_valid ks) then Ret (e', s)
  else
    (let* l := ks_solve (cf_dim f) ks (fun i => - error i) in
     let* s' := apply_C px (impulse (cf_dim f) J (cf_clampPos f l)) s in
     Ret (e', s'))%out.

(** ** LimitsSolver, lines 294-546 *)
Inductive lfunc := FLower | FUpper | FEquality | FOff.
Definition lfunc_eqb (a b : lfunc) : bool :=
  match a, b with FLower, FLower | FUpper, FUpper | FEquality, FEquality | FOff, FOff => true | _, _ => false end.
(** the union of effectiveMass_ and solver_: only the member written last may be read *)
Inductive lunion := LNone | LMass (A : mat) | LSolver (s : ksolver).
Record lisolver := LiS {
  ls_base : sbase; ls_func : lfunc; ls_L : option vec; ls_U : option vec; ls_mem : lunion; ls_canWarm : bool }.
Definition new_lisolver (rest damp : vec) : lisolver := LiS (new_sbase rest damp) FOff None None LNone false.
(** all(a <= b): the matrix operator, [!(a > b)] *)
Fixpoint all_le (n : nat) (a b : vec) : bool :=
  match n with O => true | S n => all_le n a b && negb (b n <? a n) end.
Fixpoint all_eq (n : nat) (a b : vec) : bool :=
  match n with O => true | S n => all_eq n a b && (a n =? b n) end.
(** assertLimits, lines 463-467 *)
Definition limits_ok (n : nat) (L U : option vec) : bool :=
  match L, U with Some L, Some U => all_le n L U | _, _ => true end.
(** setLowerLimit and setUpperLimit, lines 313-322; the assertion comes after the write *)
Definition li_setL (n : nat) (e : lisolver) (L : option vec) : lisolver * bool :=
  (LiS (ls_base e) (ls_func e) L (ls_U e) (ls_mem e) (ls_canWarm e), limits_ok n L (ls_U e)).
Definition li_setU (n : nat) (e : lisolver) (U : option vec) : lisolver * bool :=
  (LiS (ls_base e) (ls_func e) (ls_L e) U (ls_mem e) (ls_canWarm e), limits_ok n (ls_L e) U).
(** nextFunc, lines 477-492 *)
Definition next_func (n : nat) (L U : option vec) (C : vec) : lfunc :=
  match L, U with
  | None, None => FEquality
  | Some L', Some U' =>
      if all_eq n L' U' then FEquality
      else if all_le n (fun i => C i - L' i) vzero then FLower
      else if all_le n (fun i => - C i + U' i) vzero then FUpper
      else FOff
  | Some L', None => if all_le n (fun i => C i - L' i) vzero then FLower else FOff
  | None, Some U' => if all_le n (fun i => - C i + U' i) vzero then FUpper else FOff
  end.
Definition li_next (e : lisolver) (f : cfun) (px : proxies) (s : store) : lfunc :=
  next_func (cf_dim f) (ls_L e) (ls_U e) (cf_eval f px s).
(** isActive, lines 324-327 *)
Definition li_active (e : lisolver) (f : cfun) (px : proxies) (s : store) : bool :=
  negb (lfunc_eqb (li_next e f px s) FOff).
(** initSolve, lines 330-344 *)
Definition li_init (e : lisolver) (f : cfun) (px : proxies) (s : store) : lisolver :=
  let b := init_base (ls_base e) in
  let fn := li_next e f px s in
  let warm := lfunc_eqb fn (ls_func e) && negb (lfunc_eqb fn FOff) in
  let '(b, Km) := compute_K b f px s true in
  LiS b fn (ls_L e) (ls_U e)
    (match fn with FEquality => LSolver (ks_make (cf_dim f) Km) | FLower | FUpper => LMass Km | FOff => ls_mem e end) warm.
Definition li_set_base (e : lisolver) (b : sbase) : lisolver :=
  LiS b (ls_func e) (ls_L e) (ls_U e) (ls_mem e) (ls_canWarm e).
(** warmstart, lines 346-362 *)
Definition li_warmstart (e : lisolver) (f : cfun) (px : proxies) (s : store) (dt : K) : outcome (lisolver * store) :=
  if ls_canWarm e then
    match ls_func e with
    | FUpper =>
        (let* s' := apply_P px (impulse (cf_dim f) (sb_J (ls_base e)) (fun i => - sb_prev (ls_base e) i)) s in
         Ret (li_set_base e (set_lambda (ls_base e) (sb_prev (ls_base e))), s'))%out
    | _ => (let* r := warmstart_default (ls_base e) f px s dt in Ret (li_set_base e (fst r), snd r))%out
    end
  else Ret (e, s).
(** rhs, lines 494-532; [KMatrix::diagonal(restitution()) / dt] is assigned to a
    Value, so the model needs dimension one here (LimitsSolver is documented as
    not used beyond it, and that conversion only exists for 1x1 matrices).  A
    disengaged optional's value() throws. *)
Definition opt_value {A} (o : option A) : outcome A := match o with Some a => Ret a | None => Throw end.
Definition li_rhs (e : lisolver) (f : cfun) (px : proxies) (s : store) (dt : K) : outcome vec :=
  let b := ls_base e in
  let n := cf_dim f in
  let J := sb_J b in
  let error := mvmul 6 J (px_velocity px s) in
  let bias := cf_bias f px s in
  let coeff := sb_rest b 0%nat / dt in
  let C := cf_eval f px s in
  match ls_func e with
  | FEquality =>
      let C := match ls_L e with Some L => (fun i => C i - L i) | None => C end in
      Ret (fun i => - (error i + bias i + coeff * C i + mvmul n (mdiagonal (sb_damp b)) (sb_lambda b) i))
  | FLower =>
      (let* L := opt_value (ls_L e) in
       let already := mvmul n (eff_mass J px) (sb_lambda b) in
       Ret (fun i => - (error i - already i + bias i + coeff * (C i - L i))))%out
  | FUpper =>
      (let* U := opt_value (ls_U e) in
       let already := mvmul n (eff_mass J px) (fun i => - sb_lambda b i) in
       Ret (fun i => error i - already i + bias i + coeff * (C i - U i)))%out
  | FOff => Ret vzero
  end.
(** solveVelocity, lines 364-414 *)
Definition li_velocity (fuel : nat) (e : lisolver) (f : cfun) (px : proxies) (s : store) (dt : K) : outcome (lisolver * store) :=
  let b := ls_base e in
  let n := cf_dim f in
  (let* err := li_rhs e f px s dt in
   match ls_func e with
   | FEquality =>
       match ls_mem e with
       | LSolver ks =>
           let* d := ks_solve n ks err in
           let* r := update_lambda b f px s dt d in
           Ret (li_set_base e (fst r), snd r)
       | _ => UB
       end
   | FLower =>
       match ls_mem e with
       | LMass A =>
           let* l := solveInequalities fuel n A err (fun x i => kmax (cf_clamp f x dt i) k0) (sb_lambda b) keps in
           let* r := update_lambda b f px s dt (fun i => l i - sb_lambda b i) in
           Ret (li_set_base e (fst r), snd r)
       | _ => UB
       end
   | FUpper =>
       match ls_mem e with
       | LMass A =>
           let* l := solveInequalities fuel n A err
             (fun x i => kmax (- cf_clamp f (fun i => - x i) dt i) k0) (sb_lambda b) keps in
           let* s' := apply_P px (impulse n (sb_J b) (fun i => - (l i - sb_lambda b i))) s in
           Ret (li_set_base e (set_lambda b l), s')
       | _ => UB
       end
   | FOff => Ret (e, s)
   end)%out.

(** solvePosition, lines 416-459; a disengaged optional's value() throws *)
Definition li_position (fuel : nat) (e : lisolver) (f : cfun) (px : proxies) (s : store) : outcome (lisolver * store) :=
  let n := cf_dim f in
  let C := cf_eval f px s in
  let '(b, Km) := compute_K (ls_base e) f px s false in
  (let* l :=
     match li_next e f px s with
     | FEquality =>
         let* L := opt_value (ls_L e) in
         let* x := ks_solve n (ks_make n Km) (fun i => - (C i - L i)) in
         Ret (cf_clampPos f x)
     | FLower =>
         let* L := opt_value (ls_L e) in
         solveInequalities fuel n Km (fun i => - (C i - L i)) (fun x i => kmax (cf_clampPos f x i) k0) vzero keps
     | FUpper =>
         let* U := opt_value (ls_U e) in
         let* x := solveInequalities fuel n Km (fun i => C i - U i)
           (fun x i => kmax (- cf_clampPos f (fun i => - x i) i) k0) vzero keps in
         Ret (fun i => - x i)
     | FOff => Ret vzero
     end in
   let* s' := apply_C px (impulse n (sb_J b) l) s in
   Ret (li_set_base e b, s'))%out.

(** ** DistanceConstraint's constructor, DistanceConstraint.hpp:130-167.
    [maxDistance > 0.f] compares an optional with a value: false when absent. *)
Definition opt_gt (o : option K) (x : K) : bool := match o with Some y => y >? x | None => false end.
Definition has {A} (o : option A) : bool := match o with Some _ => true | None => false end.
Definition distance_ctor (minD maxD : option K) : outcome lisolver :=
  let e := new_lisolver vzero vzero in
  if negb (has minD || has maxD) then Throw
  else if negb (negb (has minD) || match minD with Some m => m >? k0 | None => false end) then Throw
  else if negb (opt_gt maxD k0) then Throw
  else
    let '(e, ok) := match minD with Some m => li_setL 1 e (Some (vec1 (m * m))) | None => (e, true) end in
    if negb ok then Throw else
    let '(e, ok) := match maxD with Some m => li_setU 1 e (Some (vec1 (m * m))) | None => (e, true) end in
    if negb ok then Throw else Ret e.
(** the other two constructors, lines 107-128 *)
Definition distance_ctor_exact (d : K) : outcome lisolver := distance_ctor (Some d) (Some d).
Definition distance_ctor_current (p0 p1 : vec2) : outcome lisolver := distance_ctor_exact (vnorm (vsub p1 p0)).

End Model.
