(** Model of mass properties, colliders, bodies, force fields, materials and the
    profiler: include/Simu/physics/{Collider, Body, ForceField,
    CombinableProperty, Profiler}.hpp, src/Simu/physics/Body.cpp and
    World::applyForces / World::updateBodies (src/Simu/physics/World.cpp). *)
From Coq Require Import ZArith List Bool.
From Verif Require Import Num Outcome Box Mat Geom Transform.
Import ListNotations.
Local Open Scope num_scope.

Section Model.
Context {N : Num}.

(** ** MassProperties, Collider.hpp:38-82 *)
Record mass_props := MP { mp_m : K; mp_I : K; mp_c : vec2 }.
Definition mp_zero : mass_props := MP k0 k0 (V2 k0 k0).
(** the constructor; a failed SIMU_ASSERT throws *)
Definition mp_of (vs : list vec2) (density : K) : outcome mass_props :=
  if density >? k0 then
    (let* p := geo_properties vs in
     if gp_degenerate p then Throw
     else Ret (MP (gp_area p * density) (gp_moment p * density) (gp_centroid p)))%out
  else Throw.
(** operator+ *)
Definition mp_add (a b : mass_props) : mass_props :=
  let m := mp_m a + mp_m b in
  if m =? k0 then MP m k0 (V2 k0 k0)
  else
    let c := vdivs (vadd (vscale (mp_m a) (mp_c a)) (vscale (mp_m b) (mp_c b))) m in
    let io := mp_I a + mp_m a * vnormsq (mp_c a) in
    let io := io + (mp_I b + mp_m b * vnormsq (mp_c b)) in
    MP m (io - m * vnormsq c) c.

(** ** CombinableProperty, CombinableProperty.hpp:31-80 *)
Inductive comb_mode := MAverage | MMinimum | MMultiply | MMaximum.
Definition mode_rank (m : comb_mode) : nat :=
  match m with MAverage => 0 | MMinimum => 1 | MMultiply => 2 | MMaximum => 3 end.
Record comb := Comb { cb_mode : comb_mode; cb_value : K }.
Definition combine_values (m : comb_mode) (a b : K) : K :=
  match m with
  | MAverage => (a + b) / k2
  | MMinimum => kmin a b
  | MMultiply => a * b
  | MMaximum => kmax a b
  end.
(** std::max(first.mode, second.mode) *)
Definition mode_max (a b : comb_mode) : comb_mode := if Nat.ltb (mode_rank a) (mode_rank b) then b else a.
Definition comb_combine (a b : comb) : comb :=
  let m := mode_max (cb_mode a) (cb_mode b) in Comb m (combine_values m (cb_value a) (cb_value b)).

(** ** Collider, Collider.hpp:95-192, without its allocator and tree location.
    [c_id] stands for its address, [c_world] for transformed_. *)
Record collider := Coll { c_id : nat; c_local : list vec2; c_density : K; c_world : list vec2 }.
Definition c_props (c : collider) : outcome mass_props := mp_of (c_local c) (c_density c).
Definition c_update (T : transform) (c : collider) : collider :=
  Coll (c_id c) (c_local c) (c_density c) (map (tf_apply T) (c_local c)).

(** ** Position, Body.hpp:118-170 *)
Record position := Pos { p_off : vec2; p_rot : rotation; p_lc : vec2 }.
(** pos_ * localCentroid_ * orientation_ * localCentroid_.inverse() *)
Definition to_world (p : position) : transform :=
  mul_Tt (mul_tr (tra_mul (p_off p) (p_lc p)) (p_rot p)) (tra_inverse (p_lc p)).
Definition to_local (p : position) : transform := tf_inverse (to_world p).
Definition p_centroid (p : position) : vec2 := tf_apply (to_world p) (p_lc p).

(** ** Body, Body.hpp:173-431 *)
Record body := Body {
  b_pos : position; b_vel : vec2; b_ang : K;
  b_colliders : list collider; b_props : mass_props; b_dominance : K;
  b_asleep : bool; b_immobile : K }.
Definition b_mass (b : body) : K := mp_m (b_props b).
Definition b_inertia (b : body) : K := mp_I (b_props b).
Definition b_invMass (b : body) : K := k1 / b_mass b.
Definition b_invInertia (b : body) : K := k1 / b_inertia b.
Definition b_structural (b : body) : bool := b_dominance b =? k0.
Definition b_centroid (b : body) : vec2 := p_centroid (b_pos b).
(** setVelocity and setAngularVelocity wake the body *)
Definition set_vel (b : body) (v : vec2) : body :=
  Body (b_pos b) v (b_ang b) (b_colliders b) (b_props b) (b_dominance b) false (b_immobile b).
Definition set_ang (b : body) (w : K) : body :=
  Body (b_pos b) (b_vel b) w (b_colliders b) (b_props b) (b_dominance b) false (b_immobile b).
(** applyImpulse, Body.hpp:245-251 *)
Definition apply_impulse (b : body) (J r : vec2) : body :=
  let b' := set_vel b (vadd (b_vel b) (vscale (b_invMass b) J)) in
  set_ang b' (b_ang b' + vcross r J * b_invInertia b').
(** applyForce, Body.hpp:240-243 *)
Definition apply_force (b : body) (f : vec2) (dt : K) (r : vec2) : body := apply_impulse b (vscale dt f) r.

(** Colliders::add and remove, Collider.hpp:217-241.  An exception thrown by
    properties() leaves the new collider in the list: [CAdd] returns the list
    and the properties in both cases. *)
Definition colliders_add (cs : list collider) (p : mass_props) (c : collider)
    : list collider * mass_props * bool :=
  match c_props c with
  | Ret q => (cs ++ [c], mp_add p q, true)
  | _ => (cs ++ [c], p, false)
  end.
Fixpoint erase_first (f : collider -> bool) (cs : list collider) : list collider :=
  match cs with
  | [] => []
  | c :: cs => if f c then cs else c :: erase_first f cs
  end.
Fixpoint sum_props (cs : list collider) (acc : mass_props) : outcome mass_props :=
  match cs with
  | [] => Ret acc
  | c :: cs => (let* q := c_props c in sum_props cs (mp_add acc q))%out
  end.

Definition set_colliders (b : body) (cs : list collider) (p : mass_props) : body :=
  Body (b_pos b) (b_vel b) (b_ang b) cs p (b_dominance b) (b_asleep b) (b_immobile b).
Definition set_pos (b : body) (p : position) : body :=
  Body p (b_vel b) (b_ang b) (b_colliders b) (b_props b) (b_dominance b) (b_asleep b) (b_immobile b).
Definition set_lc (b : body) (c : vec2) : body := set_pos b (Pos (p_off (b_pos b)) (p_rot (b_pos b)) c).
(** Body::update, Body.hpp:384 *)
Definition b_update (b : body) : body :=
  set_colliders b (map (c_update (to_world (b_pos b))) (b_colliders b)) (b_props b).
(** the part common to addCollider and removeCollider: centroid() is evaluated
    before setLocalCentroid, Body.cpp:56-60 and 78-82 *)
Definition recentre (b : body) (oldCentroid : vec2) : body :=
  let dv := vscale (b_ang b) (vperp (vsub (b_centroid b) oldCentroid)) in
  let b := set_vel b (vadd (b_vel b) dv) in
  b_update (set_lc b (mp_c (b_props b))).
(** Body::addCollider, Body.cpp:45-66, without the tree insertion.  [c] is the
    new collider before transformation; the flag is false when an exception is
    thrown, and the body is then the one left behind. *)
Definition add_collider_full (b : body) (c : collider) : body * bool :=
  let old := b_centroid b in
  match colliders_add (b_colliders b) (b_props b) c with
  | (cs, p, true) => (recentre (set_colliders b cs p) old, true)
  | (cs, p, false) => (set_colliders b cs p, false)
  end.
Definition add_collider (b : body) (c : collider) : outcome body :=
  match add_collider_full b c with (b', true) => Ret b' | (_, false) => Throw end.
(** Body::removeCollider, Body.cpp:68-87, without the tree removal *)
Definition remove_collider (b : body) (id : nat) : outcome body :=
  let old := b_centroid b in
  let cs := erase_first (fun c => Nat.eqb (c_id c) id) (b_colliders b) in
  (let* p := sum_props cs mp_zero in
   let b' := set_colliders b cs p in
   match cs with
   | [] => Ret b'
   | _ => Ret (recentre b' old)
   end)%out.
(** a new body, Body.hpp:184-189; [mk] is the rotation of the descriptor *)
Definition new_body (pos : vec2) (rot : rotation) (dominance : K) : body :=
  Body (Pos pos rot (V2 k0 k0)) (V2 k0 k0) k0 [] mp_zero dominance false k0.

(** ** ForceField, ForceField.hpp:82-137 *)
Definition lever (b : body) (p : mass_props) : vec2 :=
  rot_apply (t_rot (to_world (b_pos b))) (vsub (mp_c p) (p_lc (b_pos b))).
Definition gravity_apply (g : vec2) (dt : K) (b : body) (c : collider) : outcome body :=
  (let* p := c_props c in Ret (apply_force b (vscale (mp_m p) g) dt (lever b p)))%out.
Definition linear_apply (f : vec2) (dt : K) (b : body) (c : collider) : outcome body :=
  (let* p := c_props c in
   Ret (apply_force b (vscale (b_invMass b) (vscale (mp_m p) f)) dt (lever b p)))%out.

(** World::applyForces for one field, World.cpp:99-135: [cs] lists the visited
    colliders with the index of their body *)
Definition upd (bs : nat -> body) (i : nat) (b : body) : nat -> body := fun j => if Nat.eqb j i then b else bs j.
Fixpoint apply_field (field : body -> collider -> outcome body) (cs : list (nat * collider)) (bs : nat -> body)
    : outcome (nat -> body) :=
  match cs with
  | [] => Ret bs
  | (i, c) :: cs =>
      let b := bs i in
      if negb (b_asleep b) && negb (b_structural b) then
        (let* b' := field b c in apply_field field cs (upd bs i b'))%out
      else apply_field field cs bs
  end.

(** ** Sleeping, Body.hpp:386-412 and World.cpp:230-244 *)
Definition is_immobile (b : body) (vt at_ : K) : bool :=
  (vnormsq (b_vel b) <? vt * vt) && (b_ang b <? at_).
Definition update_immobile (b : body) (dt vt at_ : K) : body :=
  Body (b_pos b) (b_vel b) (b_ang b) (b_colliders b) (b_props b) (b_dominance b) (b_asleep b)
    (if is_immobile b vt at_ then b_immobile b + dt else k0).
Definition can_sleep (b : body) (delay : K) : bool := b_immobile b >=? delay.
Definition go_sleep (b : body) : body :=
  Body (b_pos b) (b_vel b) (b_ang b) (b_colliders b) (b_props b) (b_dominance b) true (b_immobile b).
Definition sleep_step (b : body) (dt vt at_ delay : K) : body :=
  let b := update_immobile b dt vt at_ in
  if can_sleep b delay then go_sleep b else b.

(** ** TimeEntry, Profiler.hpp:41-86.  Times are reals or floats of type K;
    counts are naturals. *)
Record time_entry := TE { te_last : K; te_avg : K; te_max : K; te_n : nat }.
Definition te_new : time_entry := TE k0 k0 k0 0.
Definition te_add (e : time_entry) (s : K) : time_entry :=
  let total := te_avg e * kofZ (Z.of_nat (te_n e)) in
  TE s ((total + s) / kofZ (Z.of_nat (S (te_n e)))) (kmax (te_max e) s) (S (te_n e)).
Definition te_startPartial (e : time_entry) : time_entry := TE k0 (te_avg e) (te_max e) (te_n e).
Definition te_addPartial (e : time_entry) (s : K) : time_entry := TE (te_last e + s) (te_avg e) (te_max e) (te_n e).
Definition te_commitPartial (e : time_entry) : time_entry := te_add e (te_last e).
(** ScopedTimer: whether it holds an entry, lines 88-128; moving swaps the new
    timer's null entry_ with the source's and then copies the source's back *)
Record timer := Timer { tm_entry : option nat; tm_partial : bool }.
Definition timer_move (other : timer) : timer * timer :=
  let self_entry := tm_entry other in       (* after the swap *)
  let other_entry := @None nat in
  let _ := self_entry in
  (Timer other_entry (tm_partial other), Timer other_entry (tm_partial other)).
(** destructor *)
Definition timer_destroy (t : timer) (es : nat -> time_entry) (dt : K) : nat -> time_entry :=
  match tm_entry t with
  | None => es
  | Some i => fun j => if Nat.eqb j i then (if tm_partial t then te_addPartial (es i) dt else te_add (es i) dt) else es j
  end.

End Model.
