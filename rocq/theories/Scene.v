(** Scene, the mouse position and the orientation slider of BoxSpawner:
    Scene.hpp:79-105, Scene.cpp:32-108, Application.cpp:457-472 and 582-609,
    Tool.cpp:95-113.
    Simplifications: the scene belongs to an application (app() is not null), no
    virtual function is overridden, the current tool leaves the keys to the scene;
    drawing, close(), reset() and the GUI library are left out.  World::step is
    represented by its argument: [sc_given] lists the times given to it so far. *)
From Coq Require Import ZArith List Bool.
From Flocq Require Import BinarySingleNaN.
From Verif Require Import Num Outcome Box Mat Geom Transform.
Import ListNotations.
Local Open Scope num_scope.

Section Model.
Context {N : Num}.

(** playSpeed_ = 1, isPaused_ = false, camera_; Scene.hpp:187-200 *)
Record scene := Sc { sc_speed : K; sc_paused : bool; sc_cam : camera; sc_given : list K }.
Definition new_scene : scene := Sc k1 false mk_camera [].

(** setPlaySpeed, resume and pause, Scene.hpp:72-81 *)
Definition set_speed (s : scene) (v : K) : scene :=
  if v >? k0 then Sc v (sc_paused s) (sc_cam s) (sc_given s) else s.
Definition set_paused (b : bool) (s : scene) : scene := Sc (sc_speed s) b (sc_cam s) (sc_given s).

(** the arrow keys held, Application::isKeyPressed *)
Record arrows := Ar { a_left : bool; a_right : bool; a_up : bool; a_down : bool }.
(** Scene::moveCamera, Scene.cpp:32-52 *)
Definition pan_dir (h : arrows) : vec2 :=
  let d := V2 k0 k0 in
  let d := if a_left h then vadd d (V2 (- k1) k0) else d in
  let d := if a_right h then vadd d (V2 k1 k0) else d in
  let d := if a_up h then vadd d (V2 k0 k1) else d in
  if a_down h then vadd d (V2 k0 (- k1)) else d.
Definition move_camera (h : arrows) (dt : K) (c : camera) : camera :=
  let panSpeed := kofZ 500 * cam_pixel c / cam_zoom c in
  let d := pan_dir h in
  if negb (vx d =? k0) || negb (vy d =? k0)
  then cam_pan c (vscale dt (vscale panSpeed (vnormalized d))) else c.

(** Scene::step, Scene.hpp:87-105 *)
Definition sixtieth : K := k1 / kofZ 60.
Definition given (s : scene) (dt : K) : K := kmin dt sixtieth * (sc_speed s * (if sc_paused s then k0 else k1)).
Definition scene_step (h : arrows) (dt : K) (s : scene) : scene :=
  Sc (sc_speed s) (sc_paused s) (move_camera h (kmin dt sixtieth) (sc_cam s)) (sc_given s ++ [given s dt]).

(** Scene::onKeypress, Scene.cpp:54-108, with its result *)
Inductive action := Press | Release | Repeat.
Inductive key := KeyS | KeyEscape | KeyP | KeyMinus | KeyEqual | KeyR | KeyOther.
Definition on_key (h : arrows) (k : key) (a : action) (s : scene) : scene * bool :=
  match a, k with
  | Release, _ => (s, false)
  | _, KeyS => (if sc_paused s then set_paused true (scene_step h sixtieth (set_paused false s)) else scene_step h sixtieth s, true)
  | Press, KeyP => (set_paused (negb (sc_paused s)) s, true)
  | Press, KeyMinus => (set_speed s (sc_speed s / k2), true)
  | Press, KeyEqual => (set_speed s (sc_speed s * k2), true)
  | Press, KeyOther => (s, false)
  | _, _ => (s, true)
  end.

(** what happens to a scene between two looks at it *)
Inductive event :=
| EFrame (h : arrows) (dt : K) | EKey (h : arrows) (k : key) (a : action) | ESpeed (v : K) | EPause | EResume | ECam (o : @cam_op N).
Definition on_event (s : scene) (e : event) : scene :=
  match e with
  | EFrame h dt => scene_step h dt s
  | EKey h k a => fst (on_key h k a s)
  | ESpeed v => set_speed s v
  | EPause => set_paused true s
  | EResume => set_paused false s
  | ECam o => Sc (sc_speed s) (sc_paused s) (cam_step (sc_cam s) o) (sc_given s)
  end.
Definition play (es : list event) (s : scene) : scene := fold_left on_event es s.

(** The play/pause button of the "Scene Controls" window, Application.cpp:457-465
    ([m] is menu.pauseToggle, false at the start).  The label is "Play (P)" when
    [m] is true and "Pause (P)" otherwise. *)
Definition button (m : bool) (s : scene) : bool * scene := let m' := negb m in (m', set_paused m' s).

(** windowToScene, Application.cpp:582-609; [wz]: the size of the window; then
    Transform.hpp's Mat3 * Vec2 *)
Definition flip_y (wz : vec2) : mat := fun i j =>
  match i, j with
  | O, O => k1
  | S O, S O => - k1 | S O, S (S O) => vy wz
  | S (S O), S (S O) => k1 | _, _ => k0 end.
Definition screen_to_ndc (wz : vec2) : mat := fun i j =>
  match i, j with
  | O, O => k2 / vx wz | O, S (S O) => - k1
  | S O, S O => k2 / vy wz | S O, S (S O) => - k1
  | S (S O), S (S O) => k1 | _, _ => k0 end.
Definition window_to_scene (wz : vec2) (c : camera) (p : vec2) : vec2 :=
  mat_apply (mmul 3 (mmul 3 (cam_invTransform c) (screen_to_ndc wz)) (flip_y wz)) p.

(** std::floor, static_cast<int> (undefined when the truncated value is no int)
    and std::numbers::pi_v<float> *)
Class Rounding := { kfloor : K -> K; ktrunc : K -> outcome Z; kpi : K }.
Context {RD : Rounding}.
(** BoxSpawner::doGui, the orientation slider, Tool.cpp:103-108.  [sel]: what the
    user does with the slider in this frame.  Result: the degrees shown at first
    and the new orientation. *)
Definition slider (o : K) (sel : option Z) : outcome (Z * K) :=
  let ratio := o / (k2 * kpi) in
  let o := o - kfloor ratio * kpi in
  (let* degrees := ktrunc (kofZ 180 * o / kpi) in
   let shown := degrees in
   let degrees := match sel with Some d => d | None => degrees end in
   Ret (shown, kofZ degrees * kpi / kofZ 180))%out.
(** The colour, Tool.cpp:110-112, one of its 8-bit components when the user leaves
    it alone *)
Definition colour (c : Z) : outcome Z := ktrunc (kofZ c / kofZ 255 * kofZ 255).

End Model.
Arguments Rounding : clear implicits.

Definition int_outcome (z : Z) : outcome Z :=
  if (Z.leb (- 2147483648) z && Z.leb z 2147483647)%bool then Ret z else UB.
(** exact arithmetic *)
Definition Rtrunc (x : Rdefinitions.R) : Z :=
  if Rltb x (Rdefinitions.IZR 0) then (- R_Ifp.Int_part (Rdefinitions.Ropp x))%Z else R_Ifp.Int_part x.
Global Instance RRound : Rounding RNum := {
  kfloor := (fun x => Rdefinitions.IZR (R_Ifp.Int_part x)) : @K RNum -> @K RNum;
  ktrunc := (fun x => int_outcome (Rtrunc x)) : @K RNum -> outcome Z;
  kpi := Rtrigo1.PI : @K RNum }.
(** binary32: a finite value is (-1)^s m 2^e; the integers rounded to are exact or
    unchanged, and 13176795 / 2^22 is the float nearest to pi *)
Definition f_floorZ (x : f32) : Z :=
  match x with B754_finite s m e _ => (Z.shiftl (if s then Z.neg m else Z.pos m) e)%Z | _ => 0%Z end.
Definition f_floor (x : f32) : f32 :=
  match x with B754_finite s m e _ => if Z.ltb e 0 then fofZ (f_floorZ x) else x | _ => x end.
Definition f_trunc (x : f32) : outcome Z :=
  match x with
  | B754_finite s m e _ => let z := Z.shiftl (Z.pos m) e in int_outcome (if s then (- z)%Z else z)
  | B754_zero _ => Ret 0%Z
  | _ => UB
  end.
Global Instance FRound : Rounding F32 := { kfloor := f_floor : @K F32 -> @K F32; ktrunc := f_trunc : @K F32 -> outcome Z;
  kpi := fdiv (fofZ 13176795) (fofZ 4194304) : @K F32 }.
