(** Model of ContactConstraint (include/Simu/physics/Constraint.hpp:170-596) and
    of the frame part of ContactManifold (ContactManifold.hpp:108-183).

    ContactManifold::update (lines 54-105, the search for contact points with
    GJK) is a parameter: any function giving a new manifold (Manifold.v models it).  The collider
    vertex nearest to the reference body, used by updateContacts, is a
    parameter too. *)
From Coq Require Import ZArith List Bool.
From Verif Require Import Num Outcome Box Mat Geom Transform Body Constraint.
Local Open Scope num_scope.

Section Model.
Context {N : Num} {TR : Trig N}.

(** contacts_, nContacts_, contactNormal_, referenceIndex_ (true for body 0) and minPen_ *)
Record manifold := Mf { mf_n : nat; mf_c : bool -> nat -> vec2; mf_normal : vec2; mf_ref0 : bool; mf_minPen : K }.
(** FrameManifold, lines 108-114; bodies are [false] (index 0, inc) and [true] (index 1, ref) *)
Record frame := Fr { fr_n : nat; fr_c : bool -> nat -> vec2; fr_normal : vec2; fr_tangent : vec2 }.
(** frameManifold, lines 146-183 *)
Definition frame_of (m : manifold) (T0 T1 : transform) : frame :=
  let T (b : bool) := if b then T1 else T0 in
  let n := rot_apply (t_rot (T (negb (mf_ref0 m)))) (mf_normal m) in
  let t := vperp n in
  Fr (mf_n m) (fun b c => tf_apply (T b) (mf_c m b c))
     (if mf_ref0 m then vopp n else n) (if mf_ref0 m then vopp t else t).
Definition frame_at (m : manifold) (px : proxies) (s : store) : frame :=
  frame_of m (to_world_of (px_i0 px) s) (to_world_of (px_i1 px) s).

(** the union of invNormalK11_ and normalKSolver_ *)
Inductive cunion := CNone | CK11 (k : K) | CLcp (l : lcp).
Record contact := Ct {
  ct_man : manifold; ct_fr : frame;
  ct_Jf : nat -> vec; ct_Jn : nat -> vec; ct_invT : vec; ct_mem : cunion;
  ct_tl : vec; ct_ptl : vec; ct_nl : vec; ct_pnl : vec; ct_bounce : vec;
  ct_rest : K; ct_fric : K }.

(** the constructor, Constraint.hpp:178-187; Jf, Jn and invTangentKs_ are
    indeterminate until initSolve, here zero *)
Definition new_contact (m : manifold) (T0 T1 : transform) (rest fric : K) : contact :=
  Ct m (frame_of m T0 T1) (fun _ => vzero) (fun _ => vzero) vzero CNone vzero vzero vzero vzero vzero rest fric.
Definition ct_set_frame (c : contact) (m : manifold) (f : frame) : contact :=
  Ct m f (ct_Jf c) (ct_Jn c) (ct_invT c) (ct_mem c) (ct_tl c) (ct_ptl c) (ct_nl c) (ct_pnl c) (ct_bounce c) (ct_rest c) (ct_fric c).
Definition ct_set_lambda (c : contact) (t n : vec) : contact :=
  Ct (ct_man c) (ct_fr c) (ct_Jf c) (ct_Jn c) (ct_invT c) (ct_mem c) t (ct_ptl c) n (ct_pnl c) (ct_bounce c) (ct_rest c) (ct_fric c).

(** isActive, lines 211-215 *)
Definition ct_isActive (c : contact) (px : proxies) (s : store) : contact * bool :=
  let f := frame_at (ct_man c) px s in
  (ct_set_frame c (ct_man c) f, negb (Nat.eqb (fr_n f) 0)).

(** computeJacobians, lines 501-540 *)
Definition jac_row (f : frame) (px : proxies) (s : store) (d : vec2) (c : nat) : vec :=
  if Nat.ltb c (fr_n f) then
    let r0 := vsub (fr_c f false c) (centroid_of (px_i0 px) s) in
    let r1 := vsub (fr_c f true c) (centroid_of (px_i1 px) s) in
    row6 (vx d) (vy d) (vcross r0 d) (- vx d) (- vy d) (- vcross r1 d)
  else vzero.
Definition ct_jacobians (c : contact) (px : proxies) (s : store) (friction : bool) : contact :=
  let f := ct_fr c in
  Ct (ct_man c) f (if friction then jac_row f px s (fr_tangent f) else fun _ => vzero)
     (jac_row f px s (fr_normal f))
     (ct_invT c) (ct_mem c) (ct_tl c) (ct_ptl c) (ct_nl c) (ct_pnl c) (ct_bounce c) (ct_rest c) (ct_fric c).

(** computeKs, lines 438-483 *)
Definition squared (x : K) : K := x * x.
Definition ct_Ks (c : contact) (px : proxies) (friction : bool) : contact :=
  let f := ct_fr c in
  let linearMass := px_m1 px + px_m0 px in
  let normalMass := linearMass * vnormsq (fr_normal f) in
  let refI := px_I1 px in let incI := px_I0 px in
  let invT i := if friction && Nat.ltb i (fr_n f) then
      k1 / (linearMass * vnormsq (fr_tangent f) + refI * squared (ct_Jf c i 5%nat) + incI * squared (ct_Jf c i 2%nat))
    else ct_invT c i in
  let Kd i := normalMass + refI * squared (ct_Jn c i 5%nat) + incI * squared (ct_Jn c i 2%nat) in
  let K01 := normalMass + refI * ct_Jn c 0 5%nat * ct_Jn c 1 5%nat + incI * ct_Jn c 0 2%nat * ct_Jn c 1 2%nat in
  let mem := if Nat.eqb (mf_n (ct_man c)) 1 then CK11 (k1 / Kd 0%nat)
             else if Nat.eqb (mf_n (ct_man c)) 2 then CLcp (make_lcp (M2 (Kd 0%nat) K01 K01 (Kd 1%nat)))
             else ct_mem c in
  Ct (ct_man c) f (ct_Jf c) (ct_Jn c) invT mem (ct_tl c) (ct_ptl c) (ct_nl c) (ct_pnl c) (ct_bounce c) (ct_rest c) (ct_fric c).

(** a row of the jacobian times the velocities; [transpose(J) * x] for one row;
    transpose(Jn) * x *)
Definition row_vel (J : vec) (v : vec) : K := ksum 6 (fun k => J k * v k).
Definition row_imp (J : vec) (x : K) : vec := fun k => J k * x.
Definition rows_imp (J : nat -> vec) (x : vec) : vec := fun k => ksum 2 (fun i => J i k * x i).

(** computeBounce, lines 485-496; restitutionTreshold is 1 *)
Definition ct_computeBounce (c : contact) (px : proxies) (s : store) : contact :=
  let v := px_velocity px s in
  let bounce i :=
    let b := row_vel (ct_Jn c i) v in
    (if Nat.ltb i (mf_n (ct_man c)) && (b >? kofZ (-1)) then k0 else b) * ct_rest c in
  Ct (ct_man c) (ct_fr c) (ct_Jf c) (ct_Jn c) (ct_invT c) (ct_mem c) (ct_tl c) (ct_ptl c) (ct_nl c) (ct_pnl c) bounce (ct_rest c) (ct_fric c).

(** initSolve, lines 217-233 *)
Definition ct_init (c : contact) (px : proxies) (s : store) : contact :=
  let c := ct_computeBounce (ct_Ks (ct_jacobians c px s true) px true) px s in
  Ct (ct_man c) (ct_fr c) (ct_Jf c) (ct_Jn c) (ct_invT c) (ct_mem c) vzero (ct_tl c) vzero (ct_nl c) (ct_bounce c) (ct_rest c) (ct_fric c).

(** warmstart, lines 235-244 *)
Definition ct_warmstart (c : contact) (px : proxies) (s : store) : outcome (contact * store) :=
  let P k := row_imp (ct_Jf c 0%nat) (ct_ptl c 0%nat) k + row_imp (ct_Jf c 1%nat) (ct_ptl c 1%nat) k
             + rows_imp (ct_Jn c) (ct_pnl c) k in
  (let* s' := apply_P px P s in Ret (ct_set_lambda c (ct_ptl c) (ct_pnl c), s'))%out.

(** elementWiseMul(invMassVec, P), added to the velocities *)
Definition add_impulse (px : proxies) (v P : vec) : vec := fun k => v k + px_invMassVec px k * P k.
(** the friction part of one contact, lines 251-265 *)
Definition friction_one (c : contact) (px : proxies) (i : nat) (tl : vec) (v : vec) : vec * vec :=
  let J := ct_Jf c i in
  let d := - row_vel J v * ct_invT c i in
  let bound := ct_fric c * ct_nl c i in
  let t := kclamp (tl i + d) (- bound) bound in
  let d := t - tl i in
  (vset tl i t, add_impulse px v (row_imp J d)).
Fixpoint friction_all (c : contact) (px : proxies) (n i : nat) (tl v : vec) : vec * vec :=
  match n with
  | O => (tl, v)
  | S n => let '(tl, v) := friction_one c px i tl v in friction_all c px n (S i) tl v
  end.
(** solveVelocities, lines 246-312 *)
Definition ct_velocities (c : contact) (px : proxies) (s : store) : outcome (contact * store) :=
  let '(tl, v) := friction_all c px (fr_n (ct_fr c)) 0 (ct_tl c) (px_velocity px s) in
  (let* r :=
     if Nat.eqb (fr_n (ct_fr c)) 1 then
       match ct_mem c with
       | CK11 k =>
           let J := ct_Jn c 0%nat in
           let d := - (row_vel J v + ct_bounce c 0%nat) * k in
           let l := kmax k0 (ct_nl c 0%nat + d) in
           Ret (vset (ct_nl c) 0 l, add_impulse px v (row_imp J (l - ct_nl c 0%nat)))
       | _ => UB
       end
     else if Nat.eqb (fr_n (ct_fr c)) 2 then
       match ct_mem c with
       | CLcp l =>
           let A := s2_A (lcp_s l) in
           let old := V2 (ct_nl c 0%nat) (ct_nl c 1%nat) in
           let err := V2 (row_vel (ct_Jn c 0%nat) v) (row_vel (ct_Jn c 1%nat) v) in
           let b := vopp (vadd (vsub err (m2_mulv A old)) (V2 (ct_bounce c 0%nat) (ct_bounce c 1%nat))) in
           let* x := lcp_solve l b in
           Ret (vec_of2 x, add_impulse px v (rows_imp (ct_Jn c) (vec_of2 (vsub x old))))
       | _ => UB
       end
     else Ret (ct_nl c, v) in
   let '(nl, v) := (r : vec * vec) in
   let* s1 := proxy_setVelocity (px_i0 px) (V2 (v 0%nat) (v 1%nat)) (v 2%nat) s in
   let* s2 := proxy_setVelocity (px_i1 px) (V2 (v 3%nat) (v 4%nat)) (v 5%nat) s1 in
   Ret (ct_set_lambda c tl nl, s2))%out.

(** relativePosition, lines 547-556; only the first nContacts are written *)
Definition rel_pos (f : frame) (i : nat) : vec2 := vsub (fr_c f false i) (fr_c f true i).
(** solvePositions, lines 314-368: posCorrectionFactor and maxCorrection are
    the literal 0.2f, sinkTolerance is 3 *)
Definition kfifth : K := k1 / kofZ 5.
Definition ct_positions (c : contact) (px : proxies) (s : store) : outcome (contact * store) :=
  let c := ct_Ks (ct_jacobians (ct_set_frame c (ct_man c) (frame_at (ct_man c) px s)) px s false) px false in
  let f := ct_fr c in
  let C i := if Nat.ltb i (fr_n f) then vdot (fr_normal f) (rel_pos f i) else k0 in
  let pen := mf_minPen (ct_man c) in
  let acceptable := pen * - kofZ 3 in
  if (acceptable <? C 0%nat) && (acceptable <? C 1%nat) then Ret (c, s)
  else
    let error i := kclamp ((C i + pen) * kfifth) (- kfifth) k0 in
    if Nat.eqb (fr_n f) 1 then
      match ct_mem c with
      | CK11 k =>
          let l := kmax (- error 0%nat * k) k0 in
          (let* s' := apply_C px (row_imp (ct_Jn c 0%nat) l) s in Ret (c, s'))%out
      | _ => UB
      end
    else if Nat.eqb (fr_n f) 2 then
      match ct_mem c with
      | CLcp l =>
          (let* x := lcp_solve l (V2 (- error 0%nat) (- error 1%nat)) in
           let* s' := apply_C px (rows_imp (ct_Jn c) (vec_of2 x)) s in Ret (c, s'))%out
      | _ => UB
      end
    else Ret (c, s).

(** updateContacts, lines 374-436.  [nearest d] is the vertex of the incident
    collider furthest in direction d, [upd] is ContactManifold::update. *)
Definition vany_ne (a b : vec2) : bool := negb (vall_eq a b).
Fixpoint existsb_below (n : nat) (p : nat -> bool) : bool :=
  match n with O => false | S n => existsb_below n p || p n end.
Definition ct_update (c : contact) (T0 T1 : transform) (nearest : vec2 -> vec2) (upd : manifold -> manifold) : contact :=
  let f := frame_of (ct_man c) T0 T1 in
  let tol := mf_minPen (ct_man c) in
  let tangentExceeded := existsb_below (fr_n f) (fun i =>
    squared tol <? squared (vdot (rel_pos f i) (fr_tangent f))) in
  let roseTooHigh := existsb_below (fr_n f) (fun i => tol <? vdot (rel_pos f i) (fr_normal f)) in
  let incident := mf_ref0 (ct_man c) in
  let refN := if incident then vopp (fr_normal f) else fr_normal f in
  let near := nearest (vopp refN) in
  let newCandidate := vany_ne (fr_c f incident 0%nat) near
                      && (negb (Nat.eqb (fr_n f) 2) || vany_ne (fr_c f incident 1%nat) near) in
  let needsNew := Nat.eqb (fr_n f) 0 || tangentExceeded || roseTooHigh || newCandidate in
  if needsNew then
    let m := upd (ct_man c) in
    let f' := frame_of m T0 T1 in
    let nl := ct_nl c in
    let nl' :=
      if Nat.eqb (fr_n f) 0 then vzero
      else if Nat.eqb (fr_n f) 1 && Nat.eqb (fr_n f') 2 then (fun i => if Nat.ltb i 2 then nl 0%nat / k2 else nl i)
      else if Nat.eqb (fr_n f) 2 && Nat.eqb (fr_n f') 1 then vset (vset nl 0 (nl 0%nat + nl 1%nat)) 1 k0
      else nl in
    ct_set_lambda (ct_set_frame c m f') vzero nl'
  else ct_set_frame c (ct_man c) f.

End Model.
