(** Model of include/Simu/physics/Transform.hpp, src/Simu/app/Camera.cpp,
    include/Simu/app/Camera.hpp and Scene::onMouseScroll (src/Simu/app/Scene.cpp). *)
From Coq Require Import ZArith List Bool Reals.
From Verif Require Import Num Outcome Box Mat Geom.
Local Open Scope num_scope.

(** std::cos and std::sin on the number type *)
Class Trig (N : Num) := { kcos : K -> K; ksin : K -> K }.
Global Instance RTrig : Trig RNum := { kcos := cos : @K RNum -> @K RNum; ksin := sin : @K RNum -> @K RNum }.

Section Model.
Context {N : Num}.

(** ** Rotation, Transform.hpp:36-101 *)
Record rotation := Rot { r_theta : K; r_cos : K; r_sin : K }.
(** Rotation::inverse, line 56 *)
Definition rot_inverse (r : rotation) : rotation := Rot (- r_theta r) (r_cos r) (- r_sin r).
(** operator*(Vec2), lines 71-74 *)
Definition rot_apply (r : rotation) (v : vec2) : vec2 :=
  V2 (r_cos r * vx v - r_sin r * vy v) (r_sin r * vx v + r_cos r * vy v).
(** operator Mat3, lines 41-51; other entries of the index functions are not used *)
Definition rot_mat (r : rotation) : mat := fun i j =>
  match i, j with
  | 0, 0 => r_cos r | 0, 1 => - r_sin r
  | 1, 0 => r_sin r | 1, 1 => r_cos r
  | 2, 2 => k1
  | _, _ => k0
  end%nat.

(** ** Translation, lines 103-141: the offset *)
Definition translation := vec2.
Definition tra_inverse (t : translation) : translation := vopp t.
Definition tra_apply (t : translation) (v : vec2) : vec2 := vadd v t.
Definition tra_mul (a b : translation) : translation := vadd a b.
Definition tra_mat (t : translation) : mat := fun i j =>
  match i, j with
  | 0, 0 => k1 | 1, 1 => k1 | 2, 2 => k1
  | 0, 2 => vx t | 1, 2 => vy t
  | _, _ => k0
  end%nat.

(** ** Transform, lines 143-215 *)
Record transform := Tf { t_rot : rotation; t_tra : translation }.
Definition tf_apply (T : transform) (v : vec2) : vec2 := vadd (rot_apply (t_rot T) v) (t_tra T).
Definition tf_mat (T : transform) : mat :=
  mset (mset (rot_mat (t_rot T)) 0 2 (vx (t_tra T))) 1 2 (vy (t_tra T)).
(** products, lines 217-256 *)
Definition mul_rt (r : rotation) (t : translation) : transform := Tf r (rot_apply r t).
Definition mul_tr (t : translation) (r : rotation) : transform := Tf r t.
Definition mul_Tt (T : transform) (t : translation) : transform :=
  Tf (t_rot T) (vadd (t_tra T) (rot_apply (t_rot T) t)).
Definition mul_tT (t : translation) (T : transform) : transform := Tf (t_rot T) (tra_mul (t_tra T) t).
(** Transform::inverse, line 258 *)
Definition tf_inverse (T : transform) : transform := mul_rt (rot_inverse (t_rot T)) (tra_inverse (t_tra T)).
(** operator*(Mat3, Vec2), lines 267-272 *)
Definition mat_apply (A : mat) (v : vec2) : vec2 :=
  let x := fun i => match i with 0 => vx v | 1 => vy v | _ => k1 end%nat in
  V2 (mvmul 3 A x 0%nat) (mvmul 3 A x 1%nat).

Context {TR : Trig N}.
(** Rotation::set, lines 60-69 *)
Definition mk_rot (theta : K) : rotation := Rot theta (kcos theta) (ksin theta).
(** operator*= and operator*, lines 76-95 *)
Definition rot_mul (a b : rotation) : rotation := mk_rot (r_theta a + r_theta b).
Definition tf_identity : transform := Tf (mk_rot k0) (V2 k0 k0).
Definition mul_Tr (T : transform) (r : rotation) : transform := Tf (rot_mul (t_rot T) r) (t_tra T).
Definition mul_rT (r : rotation) (T : transform) : transform := Tf (rot_mul (t_rot T) r) (rot_apply r (t_tra T)).
Definition mul_TT (T1 T2 : transform) : transform :=
  let T := mul_rT (t_rot T1) T2 in Tf (t_rot T) (tra_mul (t_tra T) (t_tra T1)).
(** transformAround, lines 260-265 *)
Definition tf_around (theta : K) (offset origin : vec2) : transform :=
  mul_Tt (mul_tr (vadd offset origin) (mk_rot theta)) (vopp origin).

End Model.

Section CameraModel.
Context {N : Num}.
(** ** Camera, Camera.hpp:72-77 and Camera.cpp:32-82 *)
Record camera := Cam { cam_center : vec2; cam_dim : vec2; cam_zoom : K; cam_pixel : K }.
Definition mk_camera : camera := Cam (V2 k0 k0) (V2 k2 k2) k1 (k1 / kofZ 10).
Definition cam_setZoom (c : camera) (ratio : K) : camera :=
  if ratio >? k0 then Cam (cam_center c) (cam_dim c) ratio (cam_pixel c) else c.
Definition cam_zoomIn (c : camera) : camera := cam_setZoom c (cam_zoom c * kofZ 5 / kofZ 4).
Definition cam_zoomOut (c : camera) : camera := cam_setZoom c (cam_zoom c * kofZ 4 / kofZ 5).
Definition cam_pan (c : camera) (o : vec2) : camera := Cam (vadd (cam_center c) o) (cam_dim c) (cam_zoom c) (cam_pixel c).
Definition cam_panTo (c : camera) (p : vec2) : camera := cam_pan c (vsub p (cam_center c)).
Definition cam_setPixelSize (c : camera) (s : K) : camera := Cam (cam_center c) (cam_dim c) (cam_zoom c) s.
Definition cam_setViewDimensions (c : camera) (d : vec2) : camera :=
  if (vx d >? k0) && (vy d >? k0) then Cam (cam_center c) d (cam_zoom c) (cam_pixel c) else c.
Definition cam_setDimensionsFromScreen (c : camera) (p : vec2) : camera := cam_setViewDimensions c (vscale (cam_pixel c) p).
Definition vec3 (a b c : K) : vec := fun i => match i with 0 => a | 1 => b | _ => c end%nat.
Definition cam_transform (c : camera) : mat :=
  let d := vdivs (cam_dim c) (cam_zoom c) in
  mmul 3 (mdiagonal (vec3 (k2 / vx d) (k2 / vy d) k1)) (tra_mat (vopp (cam_center c))).
Definition cam_invTransform (c : camera) : mat :=
  let d := vdivs (cam_dim c) (cam_zoom c) in
  mmul 3 (tra_mat (cam_center c)) (mdiagonal (vec3 (vx d / k2) (vy d / k2) k1)).

(** Scene::onMouseScroll, Scene.cpp:110-115 *)
Definition scroll_zoom (c : camera) (scrollY : K) : camera :=
  let zoomRatio := if scrollY <? k0 then kofZ 4 / kofZ 5 else kofZ 5 / kofZ 4 in
  cam_setZoom c (cam_zoom c * kabs scrollY * zoomRatio).

(** the public mutators, Scene's scrolling included *)
Inductive cam_op :=
| CZoom (ratio : K) | CZoomIn | CZoomOut | CPan (o : vec2) | CPanTo (p : vec2) | CPixel (s : K)
| CDim (d : vec2) | CScreen (p : vec2) | CScroll (y : K).
Definition cam_step (c : camera) (o : cam_op) : camera :=
  match o with
  | CZoom r => cam_setZoom c r
  | CZoomIn => cam_zoomIn c
  | CZoomOut => cam_zoomOut c
  | CPan o => cam_pan c o
  | CPanTo p => cam_panTo c p
  | CPixel s => cam_setPixelSize c s
  | CDim d => cam_setViewDimensions c d
  | CScreen p => cam_setDimensionsFromScreen c p
  | CScroll y => scroll_zoom c y
  end.
Definition cam_run (os : list cam_op) (c : camera) : camera := fold_left cam_step os c.
End CameraModel.
