(** Properties C34-C36: rigid transforms, camera, scroll zoom; exact arithmetic
    unless stated.  [is_rotation] and [is_transform] (TransformFacts.v) hold of
    the values the public constructors and operators can build; the translation
    type is its offset. *)
From Coq Require Import ZArith List Bool Reals.
From Verif Require Import Num Outcome Box Mat MatFacts MatSolve Geom GeomClosest Transform TransformFacts.
Import ListNotations.
Local Open Scope R_scope.

(** C34: products act as compositions *)
Theorem C34_products_compose : forall (a b r : Rrot) (t t' : Rv) (T T1 T2 : Rtf) (v : Rv),
  is_rotation a -> is_rotation b -> is_rotation r -> is_transform T -> is_transform T1 -> is_transform T2 ->
  rot_apply (rot_mul a b) v = rot_apply a (rot_apply b v) /\
  tra_apply (tra_mul t t') v = tra_apply t (tra_apply t' v) /\
  tf_apply (mul_rt r t) v = rot_apply r (tra_apply t v) /\
  tf_apply (mul_tr t r) v = tra_apply t (rot_apply r v) /\
  tf_apply (mul_Tt T t) v = tf_apply T (tra_apply t v) /\
  tf_apply (mul_Tr T r) v = tf_apply T (rot_apply r v) /\
  tf_apply (mul_tT t T) v = tra_apply t (tf_apply T v) /\
  tf_apply (mul_rT r T) v = rot_apply r (tf_apply T v) /\
  tf_apply (mul_TT T1 T2) v = tf_apply T1 (tf_apply T2 v).
Proof.
  exact (fun a b r t t' T T1 T2 v A B HR HT H1 H2 =>
    conj (rot_mul_apply a b v A B) (conj (act_tt t t' v) (conj (act_rt r t v) (conj (act_tr t r v) (conj (act_Tt T t v)
    (conj (act_Tr T r v HT HR) (conj (act_tT t T v) (conj (act_rT r T v HR HT) (act_TT T1 T2 v H1 H2))))))))).
Qed.
Print Assumptions C34_products_compose.

(** and convert to matrix products *)
Theorem C34_products_matrix : forall (a b r : Rrot) (t t' : Rv) (T T1 T2 : Rtf) i j,
  is_rotation a -> is_rotation b -> is_rotation r -> is_transform T -> is_transform T1 -> is_transform T2 ->
  (i < 3)%nat -> (j < 3)%nat ->
  rot_mat (rot_mul a b) i j = mmul 3 (rot_mat a) (rot_mat b) i j /\
  tra_mat (tra_mul t t') i j = mmul 3 (tra_mat t) (tra_mat t') i j /\
  tf_mat (mul_rt r t) i j = mmul 3 (rot_mat r) (tra_mat t) i j /\
  tf_mat (mul_tr t r) i j = mmul 3 (tra_mat t) (rot_mat r) i j /\
  tf_mat (mul_Tt T t) i j = mmul 3 (tf_mat T) (tra_mat t) i j /\
  tf_mat (mul_Tr T r) i j = mmul 3 (tf_mat T) (rot_mat r) i j /\
  tf_mat (mul_tT t T) i j = mmul 3 (tra_mat t) (tf_mat T) i j /\
  tf_mat (mul_rT r T) i j = mmul 3 (rot_mat r) (tf_mat T) i j /\
  tf_mat (mul_TT T1 T2) i j = mmul 3 (tf_mat T1) (tf_mat T2) i j.
Proof.
  exact (fun a b r t t' T T1 T2 i j A B HR HT H1 H2 I J =>
    conj (rot_mul_mat a b i j A B I J) (conj (mat_tt t t' i j I J) (conj (mat_rt r t i j I J) (conj (mat_tr t r i j I J) (conj (mat_Tt T t i j I J)
    (conj (mat_Tr T r i j HT HR I J) (conj (mat_tT t T i j I J) (conj (mat_rT r T i j HR HT I J) (mat_TT T1 T2 i j H1 H2 I J))))))))).
Qed.
Print Assumptions C34_products_matrix.
Theorem C34_matrix_acts : forall (T : Rtf) (r : Rrot) (t v : Rv),
  mat_apply (tf_mat T) v = tf_apply T v /\ mat_apply (rot_mat r) v = rot_apply r v /\ mat_apply (tra_mat t) v = tra_apply t v.
Proof. exact (fun T r t v => conj (mat_act T v) (conj (mat_act_r r v) (mat_act_t t v))). Qed.
Print Assumptions C34_matrix_acts.
Theorem C34_inverse : forall T v, is_transform T ->
  tf_apply (tf_inverse T) (tf_apply T v) = v /\ tf_apply T (tf_apply (tf_inverse T) v) = v.
Proof. exact inv_tf. Qed.
Print Assumptions C34_inverse.
Theorem C34_inverse_rotation : forall r v, is_rotation r ->
  rot_apply (rot_inverse r) (rot_apply r v) = v /\ rot_apply r (rot_apply (rot_inverse r) v) = v.
Proof. exact inv_rot. Qed.
Print Assumptions C34_inverse_rotation.
Theorem C34_inverse_translation : forall t v : Rv,
  tra_apply (tra_inverse t) (tra_apply t v) = v /\ tra_apply t (tra_apply (tra_inverse t) v) = v.
Proof. exact inv_tra. Qed.
Print Assumptions C34_inverse_translation.
Theorem C34_inverse_matrix : forall T i j, is_transform T -> (i < 3)%nat -> (j < 3)%nat ->
  mmul 3 (tf_mat T) (tf_mat (tf_inverse T)) i j = midentity (N := RNum) i j /\
  mmul 3 (tf_mat (tf_inverse T)) (tf_mat T) i j = midentity (N := RNum) i j.
Proof. exact inv_mat. Qed.
Print Assumptions C34_inverse_matrix.
Theorem C34_isometry : forall T p q, is_transform T -> dist2 (tf_apply T p) (tf_apply T q) = dist2 p q.
Proof. exact isometry. Qed.
Print Assumptions C34_isometry.
Theorem C34_around : forall theta (o c v : Rv),
  tf_apply (tf_around theta o c) c = vadd c o /\
  tf_apply (tf_around theta o c) v = vadd (vadd c o) (rot_apply (mk_rot theta) (vsub v c)).
Proof. exact (fun theta o c v => conj (around_center theta o c) (around_rotates theta o c v)). Qed.
Print Assumptions C34_around.
Theorem C34_identity : forall v : Rv, tf_apply tf_identity v = v.
Proof. exact identity_acts. Qed.
Print Assumptions C34_identity.
Example C34_example : is_transform (@tf_around RNum RTrig PI (rv 1 0) (rv 2 0)) /\
  tf_apply (@tf_around RNum RTrig PI (rv 1 0) (rv 2 0)) (rv 3 0) = rv 2 0.
Proof. exact (conj (it_around _ _ _) ex_transform). Qed.

(** C35: [cam_run os mk_camera] is the camera after the calls [os] *)
Theorem C35_positive : forall os : list (@cam_op RNum), let c := cam_run os mk_camera in
  0 < cam_zoom c /\ 0 < vx (cam_dim c) /\ 0 < vy (cam_dim c).
Proof. exact cam_positive. Qed.
Print Assumptions C35_positive.
(** in binary32 too, whatever the arguments (NaN and infinities included) *)
Theorem C35_positive_float : forall os : list (@cam_op F32), cam_ok (cam_run os mk_camera).
Proof. exact (fun os => cam_ok_run os _ cam_ok_init_F). Qed.
Print Assumptions C35_positive_float.
Theorem C35_inverse : forall (os : list (@cam_op RNum)) (v : Rv), let c := cam_run os mk_camera in
  mat_apply (cam_invTransform c) (mat_apply (cam_transform c) v) = v /\
  mat_apply (cam_transform c) (mat_apply (cam_invTransform c) v) = v.
Proof. exact cam_inverse. Qed.
Print Assumptions C35_inverse.
Theorem C35_visible : forall (os : list (@cam_op RNum)) (v : Rv), let c := cam_run os mk_camera in
  visible c v <-> in_screen (mat_apply (cam_transform c) v).
Proof. exact cam_visible. Qed.
Print Assumptions C35_visible.
Theorem C35_onto : forall (os : list (@cam_op RNum)) (w : Rv), in_screen w -> let c := cam_run os mk_camera in
  exists v, visible c v /\ mat_apply (cam_transform c) v = w.
Proof. exact cam_onto. Qed.
Print Assumptions C35_onto.
Example C35_example : let c := cam_run [@CZoom RNum 2; @CZoom RNum (-3); CDim (rv 8 4); CPanTo (rv 1 1)] (@mk_camera RNum) in
  cam_zoom c = 2 /\ cam_dim c = rv 8 4 /\ cam_center c = rv 1 1.
Proof. exact ex_camera. Qed.

(** C36 *)
Theorem C36_scroll : forall (c : Rcam) (y : R), 0 < cam_zoom c ->
  let z := cam_zoom c in let z' := cam_zoom (scroll_zoom c y) in
  (y = 1 -> z' = z * (5 / 4)) /\ (y = -1 -> z' = z * (4 / 5)) /\ (y = 0 -> z' = z) /\
  (0 < y -> z' = z * y * (5 / 4)) /\ (y < 0 -> z' = z * - y * (4 / 5)) /\
  (0 < y -> (z' < z <-> y < 4 / 5)) /\ (y < 0 -> (z < z' <-> y < - (5 / 4))).
Proof. exact scroll_cases. Qed.
Print Assumptions C36_scroll.
Example C36_example : 0 < cam_zoom (cam_run [] (@mk_camera RNum)).
Proof. exact (proj1 (cam_positive [])). Qed.
