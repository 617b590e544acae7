(** Rigid transforms and camera (C34-C36). *)
From Coq Require Import ZArith List Bool Reals Lra Psatz Lia Arith.
From Verif Require Import Num Outcome Box Mat MatFacts MatSolve Geom GeomClosest Transform.
Import ListNotations.
Local Open Scope R_scope.

Lemma Rltb_iff x y : Rltb x y = true <-> x < y.
Proof. destruct (Rltb_spec x y); split; auto; try discriminate; lra. Qed.
Notation Rrot := (@rotation RNum).
Notation Rtf := (@transform RNum).

(** what the public interface can build *)
Inductive is_rotation : Rrot -> Prop :=
| ir_mk theta : is_rotation (mk_rot theta)
| ir_inv r : is_rotation r -> is_rotation (rot_inverse r)
| ir_mul a b : is_rotation a -> is_rotation b -> is_rotation (rot_mul a b).
Inductive is_transform : Rtf -> Prop :=
| it_id : is_transform tf_identity
| it_mk r t : is_rotation r -> is_transform (Tf r t)
| it_rt r t : is_rotation r -> is_transform (mul_rt r t)
| it_tr t r : is_rotation r -> is_transform (mul_tr t r)
| it_Tt T t : is_transform T -> is_transform (mul_Tt T t)
| it_Tr T r : is_transform T -> is_rotation r -> is_transform (mul_Tr T r)
| it_tT t T : is_transform T -> is_transform (mul_tT t T)
| it_rT r T : is_rotation r -> is_transform T -> is_transform (mul_rT r T)
| it_TT T1 T2 : is_transform T1 -> is_transform T2 -> is_transform (mul_TT T1 T2)
| it_inv T : is_transform T -> is_transform (tf_inverse T)
| it_around theta o p : is_transform (tf_around theta o p).

Lemma rotation_trig r : is_rotation r -> r_cos r = cos (r_theta r) /\ r_sin r = sin (r_theta r).
Proof.
  induction 1; cbn.
  - split; reflexivity.
  - destruct IHis_rotation as [-> ->]. rewrite cos_neg, sin_neg. split; reflexivity.
  - split; reflexivity.
Qed.
Lemma transform_rot T : is_transform T -> is_rotation (t_rot T).
Proof. induction 1; cbn; try assumption; try constructor; assumption. Qed.

Ltac mtx i j := destruct i as [|[|[|i]]]; [| | |lia]; (destruct j as [|[|[|j]]]; [| | |lia]).
Ltac und := unfold mul_TT, mul_rT, mul_Tr, mul_Tt, mul_tT, mul_rt, mul_tr, tra_mul, tra_apply, tra_inverse in *;
  unfold tf_apply, rot_apply, tf_mat, rot_mat, tra_mat, mat_apply, mset, mmul, mvmul, ksum in *;
  cbn [t_rot t_tra r_theta r_cos r_sin Nat.eqb andb] in *; ung.

Lemma rot_mul_apply a b (v : Rv) : is_rotation a -> is_rotation b -> rot_apply (rot_mul a b) v = rot_apply a (rot_apply b v).
Proof.
  intros A B. apply rotation_trig in A as [CA SA], B as [CB SB]. unfold rot_mul, mk_rot, rot_apply. cbn [r_cos r_sin kcos ksin RTrig vx vy].
  cbn [K kadd ksub kmul RNum]. rewrite cos_plus, sin_plus, <- CA, <- SA, <- CB, <- SB. f_equal; rring.
Qed.
Lemma rot_mul_mat a b i j : is_rotation a -> is_rotation b -> (i < 3)%nat -> (j < 3)%nat ->
  rot_mat (rot_mul a b) i j = mmul 3 (rot_mat a) (rot_mat b) i j.
Proof.
  intros A B I J. apply rotation_trig in A as [CA SA], B as [CB SB].
  mtx i j; unfold rot_mul, mk_rot; und; cbn [kcos ksin RTrig]; cbn [K kadd ksub kmul RNum];
    rewrite ?cos_plus, ?sin_plus, <- ?CA, <- ?SA, <- ?CB, <- ?SB; rring.
Qed.
Lemma rot_comm a b : is_rotation a -> is_rotation b -> rot_mul a b = rot_mul b a.
Proof. intros _ _. unfold rot_mul. f_equal. apply Rplus_comm. Qed.
Lemma rot_linear (r : Rrot) (a b : Rv) : rot_apply r (vadd a b) = vadd (rot_apply r a) (rot_apply r b).
Proof. und. f_equal; rring. Qed.
Lemma vadd_assoc (a b c : Rv) : vadd a (vadd b c) = vadd (vadd a b) c.
Proof. ung. f_equal; rring. Qed.
Lemma vadd_comm (a b : Rv) : vadd a b = vadd b a.
Proof. ung. f_equal; rring. Qed.

(** every product acts as the composition *)
Lemma act_tt (a b : Rv) v : tra_apply (tra_mul a b) v = tra_apply a (tra_apply b v).
Proof. und. f_equal; rring. Qed.
Lemma act_rt (r : Rrot) t v : tf_apply (mul_rt r t) v = rot_apply r (tra_apply t v).
Proof. unfold tf_apply, mul_rt, tra_apply. cbn [t_rot t_tra]. rewrite rot_linear. reflexivity. Qed.
Lemma act_tr t (r : Rrot) v : tf_apply (mul_tr t r) v = tra_apply t (rot_apply r v).
Proof. reflexivity. Qed.
Lemma act_Tt (T : Rtf) t v : tf_apply (mul_Tt T t) v = tf_apply T (tra_apply t v).
Proof.
  unfold tf_apply, mul_Tt, tra_apply. cbn [t_rot t_tra]. rewrite rot_linear, <- vadd_assoc. f_equal. apply vadd_comm.
Qed.
Lemma act_tT t (T : Rtf) v : tf_apply (mul_tT t T) v = tra_apply t (tf_apply T v).
Proof. unfold tf_apply, mul_tT, tra_apply, tra_mul. cbn [t_rot t_tra]. apply vadd_assoc. Qed.
Lemma act_Tr T r v : is_transform T -> is_rotation r -> tf_apply (mul_Tr T r) v = tf_apply T (rot_apply r v).
Proof. intros HT HR. unfold tf_apply, mul_Tr. cbn [t_rot t_tra]. rewrite rot_mul_apply; auto using transform_rot. Qed.
Lemma act_rT r T v : is_rotation r -> is_transform T -> tf_apply (mul_rT r T) v = rot_apply r (tf_apply T v).
Proof.
  intros HR HT. pose proof (transform_rot T HT) as HO. unfold tf_apply, mul_rT. cbn [t_rot t_tra].
  rewrite rot_comm, rot_mul_apply, rot_linear; auto.
Qed.
Lemma act_TT T1 T2 v : is_transform T1 -> is_transform T2 -> tf_apply (mul_TT T1 T2) v = tf_apply T1 (tf_apply T2 v).
Proof.
  intros H1 H2. transitivity (tra_apply (t_tra T1) (tf_apply (mul_rT (t_rot T1) T2) v)).
  - unfold tf_apply, mul_TT, tra_apply, tra_mul. cbn [t_rot t_tra]. apply vadd_assoc.
  - rewrite act_rT by auto using transform_rot. reflexivity.
Qed.

(** and converts to the product matrix *)
Lemma mat_tt (a b : Rv) i j : (i < 3)%nat -> (j < 3)%nat -> tra_mat (tra_mul a b) i j = mmul 3 (tra_mat a) (tra_mat b) i j.
Proof. intros I J. mtx i j; und; rring. Qed.
Lemma mat_rt (r : Rrot) t i j : (i < 3)%nat -> (j < 3)%nat -> tf_mat (mul_rt r t) i j = mmul 3 (rot_mat r) (tra_mat t) i j.
Proof. intros I J. mtx i j; und; rring. Qed.
Lemma mat_tr t (r : Rrot) i j : (i < 3)%nat -> (j < 3)%nat -> tf_mat (mul_tr t r) i j = mmul 3 (tra_mat t) (rot_mat r) i j.
Proof. intros I J. mtx i j; und; rring. Qed.
Lemma mat_Tt (T : Rtf) t i j : (i < 3)%nat -> (j < 3)%nat -> tf_mat (mul_Tt T t) i j = mmul 3 (tf_mat T) (tra_mat t) i j.
Proof. intros I J. mtx i j; und; rring. Qed.
Lemma mat_tT t (T : Rtf) i j : (i < 3)%nat -> (j < 3)%nat -> tf_mat (mul_tT t T) i j = mmul 3 (tra_mat t) (tf_mat T) i j.
Proof. intros I J. mtx i j; und; rring. Qed.
Lemma mat_Tr T r i j : is_transform T -> is_rotation r -> (i < 3)%nat -> (j < 3)%nat ->
  tf_mat (mul_Tr T r) i j = mmul 3 (tf_mat T) (rot_mat r) i j.
Proof.
  intros HT HR I J. apply transform_rot, rotation_trig in HT as [CA SA]. apply rotation_trig in HR as [CB SB].
  mtx i j; unfold rot_mul, mk_rot, mul_Tr; und; cbn [kcos ksin RTrig rot_mul mk_rot r_cos r_sin]; unfold rot_mul, mk_rot; cbn [kcos ksin RTrig r_cos r_sin]; cbn [K kadd ksub kmul RNum];
    rewrite ?cos_plus, ?sin_plus, <- ?CA, <- ?SA, <- ?CB, <- ?SB; rring.
Qed.
Lemma mat_rT r T i j : is_rotation r -> is_transform T -> (i < 3)%nat -> (j < 3)%nat ->
  tf_mat (mul_rT r T) i j = mmul 3 (rot_mat r) (tf_mat T) i j.
Proof.
  intros HR HT I J. apply transform_rot, rotation_trig in HT as [CA SA]. apply rotation_trig in HR as [CB SB].
  mtx i j; unfold rot_mul, mk_rot, mul_rT; und; cbn [kcos ksin RTrig rot_mul mk_rot r_cos r_sin]; unfold rot_mul, mk_rot; cbn [kcos ksin RTrig r_cos r_sin]; cbn [K kadd ksub kmul RNum];
    rewrite ?cos_plus, ?sin_plus, <- ?CA, <- ?SA, <- ?CB, <- ?SB; rring.
Qed.
Lemma mat_TT T1 T2 i j : is_transform T1 -> is_transform T2 -> (i < 3)%nat -> (j < 3)%nat ->
  tf_mat (mul_TT T1 T2) i j = mmul 3 (tf_mat T1) (tf_mat T2) i j.
Proof.
  intros HT HR I J. apply transform_rot, rotation_trig in HT as [CA SA]. apply transform_rot, rotation_trig in HR as [CB SB].
  mtx i j; unfold rot_mul, mk_rot, mul_rT; und; cbn [kcos ksin RTrig rot_mul mk_rot r_cos r_sin]; unfold rot_mul, mk_rot; cbn [kcos ksin RTrig r_cos r_sin]; cbn [K kadd ksub kmul RNum];
    rewrite ?cos_plus, ?sin_plus, <- ?CA, <- ?SA, <- ?CB, <- ?SB; rring.
Qed.
(** the matrix acts like the transform *)
Lemma mat_act (T : Rtf) v : mat_apply (tf_mat T) v = tf_apply T v.
Proof. und. f_equal; rring. Qed.
Lemma mat_act_r (r : Rrot) v : mat_apply (rot_mat r) v = rot_apply r v.
Proof. und. f_equal; rring. Qed.
Lemma mat_act_t (t : Rv) v : mat_apply (tra_mat t) v = tra_apply t v.
Proof. und. f_equal; rring. Qed.

Lemma trig1 x : cos x * cos x + sin x * sin x = 1.
Proof. pose proof (sin2_cos2 x) as H. unfold Rsqr in H. lra. Qed.
Lemma rotation_unit r : is_rotation r -> r_cos r * r_cos r + r_sin r * r_sin r = 1.
Proof. intros H. apply rotation_trig in H as [-> ->]. apply trig1. Qed.

Lemma inv_rot r v : is_rotation r -> rot_apply (rot_inverse r) (rot_apply r v) = v /\ rot_apply r (rot_apply (rot_inverse r) v) = v.
Proof.
  intros H. apply rotation_unit in H. destruct r as [th c s], v as [x y]. unfold rot_apply, rot_inverse. cbn in *. change (@K RNum) with R in *.
  assert (C2 : c * c = 1 - s * s) by lra. split; f_equal; rcbn.
  - replace (c * (c * x - s * y) - - s * (s * x + c * y)) with ((c * c + s * s) * x) by ring. rewrite H. ring.
  - replace (- s * (c * x - s * y) + c * (s * x + c * y)) with ((c * c + s * s) * y) by ring. rewrite H. ring.
  - replace (c * (c * x - - s * y) - s * (- s * x + c * y)) with ((c * c + s * s) * x) by ring. rewrite H. ring.
  - replace (s * (c * x - - s * y) + c * (- s * x + c * y)) with ((c * c + s * s) * y) by ring. rewrite H. ring.
Qed.
Lemma inv_tra (t v : Rv) : tra_apply (tra_inverse t) (tra_apply t v) = v /\ tra_apply t (tra_apply (tra_inverse t) v) = v.
Proof. destruct v. und. split; f_equal; rring. Qed.
Lemma inv_tf T v : is_transform T -> tf_apply (tf_inverse T) (tf_apply T v) = v /\ tf_apply T (tf_apply (tf_inverse T) v) = v.
Proof.
  intros H. apply transform_rot in H. unfold tf_inverse. rewrite !act_rt.
  change (tf_apply T) with (fun v => tra_apply (t_tra T) (rot_apply (t_rot T) v)). cbv beta.
  destruct (inv_tra (t_tra T) (rot_apply (t_rot T) v)) as [-> _]. destruct (inv_rot (t_rot T) v H) as [-> _]. split; [reflexivity|].
  destruct (inv_rot (t_rot T) (tra_apply (tra_inverse (t_tra T)) v) H) as [_ ->]. destruct (inv_tra (t_tra T) v) as [_ ->]. reflexivity.
Qed.
(** on records: the matrix of the inverse is the inverse matrix *)
Lemma inv_mat T i j : is_transform T -> (i < 3)%nat -> (j < 3)%nat ->
  mmul 3 (tf_mat T) (tf_mat (tf_inverse T)) i j = midentity (N := RNum) i j /\ mmul 3 (tf_mat (tf_inverse T)) (tf_mat T) i j = midentity (N := RNum) i j.
Proof.
  intros H I J. apply transform_rot, rotation_unit in H. destruct T as [[th c s] [x y]]. unfold midentity, tf_inverse, rot_inverse.
  cbn [t_rot r_cos r_sin] in H.
  assert (HC : c * c = 1 - s * s) by (rcbn; lra).
  mtx i j; und; split; rcbn; (ring [HC] || (apply Rminus_diag_uniq; ring [HC])).
Qed.

Lemma isometry T p q : is_transform T -> dist2 (tf_apply T p) (tf_apply T q) = dist2 p q.
Proof.
  intros H. apply transform_rot, rotation_unit in H. destruct T as [[th c s] t]. cbn [t_rot r_cos r_sin] in H.
  transitivity ((c * c + s * s) * dist2 p q); [|rewrite H; ring].
  unfold dist2. und. ring.
Qed.
Lemma around_center theta (o p : Rv) : tf_apply (tf_around theta o p) p = vadd p o.
Proof.
  unfold tf_around. rewrite act_Tt, act_tr. und. destruct p, o. f_equal; rring.
Qed.
Lemma around_rotates theta (o p v : Rv) : tf_apply (tf_around theta o p) v = vadd (vadd p o) (rot_apply (mk_rot theta) (vsub v p)).
Proof. unfold tf_around. rewrite act_Tt, act_tr. und. f_equal; rring. Qed.
Lemma identity_acts (v : Rv) : tf_apply tf_identity v = v.
Proof.
  unfold tf_identity, mk_rot. und. cbn [kcos ksin RTrig]. rewrite cos_0, sin_0. destruct v as [x y]. cbn [vx vy]. f_equal; rring.
Qed.

(** ** camera *)
Notation Rcam := (@camera RNum).
Definition cam_ok {N : Num} (c : camera) : Prop :=
  kltb k0 (cam_zoom c) = true /\ kltb k0 (vx (cam_dim c)) = true /\ kltb k0 (vy (cam_dim c)) = true.
Lemma cam_ok_step {N : Num} c o : cam_ok c -> cam_ok (cam_step c o).
Proof.
  intros H. assert (Z : forall r, cam_ok (cam_setZoom c r)).
  { intros r. unfold cam_setZoom. destruct (kltb k0 r) eqn:E; [|exact H]. destruct H as (_ & A & B). split; [exact E|split; assumption]. }
  assert (D : forall d, cam_ok (cam_setViewDimensions c d)).
  { intros d. unfold cam_setViewDimensions. destruct (kltb k0 (vx d)) eqn:E1; [|exact H]. destruct (kltb k0 (vy d)) eqn:E2; [|exact H].
    destruct H as (A & _). cbn [andb]. split; [exact A|split; assumption]. }
  destruct o; cbn [cam_step]; unfold cam_zoomIn, cam_zoomOut, cam_panTo, cam_setDimensionsFromScreen, scroll_zoom; auto.
Qed.
Lemma cam_ok_run {N : Num} os : forall c, cam_ok c -> cam_ok (cam_run os c).
Proof. induction os as [|o os IH]; intros c H; [exact H|]. apply (IH (cam_step c o)). apply cam_ok_step. exact H. Qed.
Lemma cam_ok_init_R : cam_ok (N := RNum) mk_camera.
Proof. unfold cam_ok, mk_camera. cbn. repeat split; apply Rltb_iff; lra. Qed.
Lemma cam_ok_init_F : cam_ok (N := F32) mk_camera.
Proof. unfold cam_ok, mk_camera. repeat split; vm_compute; reflexivity. Qed.

Lemma cam_transform_at (c : Rcam) v : cam_ok c -> mat_apply (cam_transform c) v =
  rv ((vx v - vx (cam_center c)) * (2 * cam_zoom c / vx (cam_dim c))) ((vy v - vy (cam_center c)) * (2 * cam_zoom c / vy (cam_dim c))).
Proof.
  intros (Z & X & Y). cbn [kltb RNum] in *. change (@k0 RNum) with 0 in *.
  apply Rltb_iff in Z, X, Y. unfold cam_transform, mdiagonal, vec3, mat_apply. und. destruct c as [ce d z p]. cbn [cam_zoom cam_dim cam_center] in *. rcbn.
  f_equal; rfield; lra.
Qed.
Lemma cam_inv_at (c : Rcam) v : cam_ok c -> mat_apply (cam_invTransform c) v =
  rv (vx v * (vx (cam_dim c) / (2 * cam_zoom c)) + vx (cam_center c)) (vy v * (vy (cam_dim c) / (2 * cam_zoom c)) + vy (cam_center c)).
Proof.
  intros (Z & X & Y). cbn [kltb RNum] in *. change (@k0 RNum) with 0 in *.
  apply Rltb_iff in Z, X, Y. unfold cam_invTransform, mdiagonal, vec3, mat_apply. und. destruct c as [ce d z p]. cbn [cam_zoom cam_dim cam_center] in *. rcbn.
  f_equal; rfield; lra.
Qed.
Lemma cam_positive (os : list (@cam_op RNum)) : let c := cam_run os mk_camera in
  0 < cam_zoom c /\ 0 < vx (cam_dim c) /\ 0 < vy (cam_dim c).
Proof.
  destruct (cam_ok_run os _ cam_ok_init_R) as (Z & X & Y). cbn [kltb RNum] in *. change (@k0 RNum) with 0 in *.
  apply Rltb_iff in Z, X, Y. auto.
Qed.
Lemma cam_inverse (os : list (@cam_op RNum)) (v : Rv) : let c := cam_run os mk_camera in
  mat_apply (cam_invTransform c) (mat_apply (cam_transform c) v) = v /\
  mat_apply (cam_transform c) (mat_apply (cam_invTransform c) v) = v.
Proof.
  cbv zeta. pose proof (cam_ok_run os _ cam_ok_init_R) as OK. pose proof (cam_positive os) as (Z & X & Y). cbv zeta in *.
  set (c := cam_run os mk_camera) in *. clearbody c. rewrite !cam_transform_at, !cam_inv_at by exact OK.
  destruct v as [x y]. unfold rv. cbn [vx vy]. split; f_equal; rfield; lra.
Qed.
(** the visible rectangle: centre plus or minus half the view dimensions over the zoom *)
Definition visible (c : Rcam) (v : Rv) : Prop :=
  Rabs (vx v - vx (cam_center c)) <= vx (cam_dim c) / cam_zoom c / 2 /\ Rabs (vy v - vy (cam_center c)) <= vy (cam_dim c) / cam_zoom c / 2.
Definition in_screen (v : Rv) : Prop := -1 <= vx v <= 1 /\ -1 <= vy v <= 1.
Lemma scale_abs d z x : 0 < d -> 0 < z -> (Rabs x <= d / z / 2 <-> -1 <= x * (2 * z / d) <= 1).
Proof.
  intros D Z. assert (P : 0 < 2 * z / d) by (apply Rdiv_lt_0_compat; lra).
  assert (E : d / z / 2 * (2 * z / d) = 1) by (field; lra).
  set (k := 2 * z / d) in *. set (h := d / z / 2) in *. clearbody k h. split.
  - intros A. assert (B : - h <= x <= h) by (revert A; unfold Rabs; destruct (Rcase_abs x); intros; lra). nra.
  - intros [L U]. apply Rabs_le. split; apply (Rmult_le_reg_r k); try assumption; nra.
Qed.
Lemma cam_visible (os : list (@cam_op RNum)) (v : Rv) : let c := cam_run os mk_camera in
  visible c v <-> in_screen (mat_apply (cam_transform c) v).
Proof.
  cbv zeta. pose proof (cam_ok_run os _ cam_ok_init_R) as OK. pose proof (cam_positive os) as (Z & X & Y). cbv zeta in *.
  set (c := cam_run os mk_camera) in *. clearbody c. rewrite !cam_transform_at by exact OK. unfold visible, in_screen, rv. cbn [vx vy].
  rewrite !scale_abs by assumption. tauto.
Qed.
Lemma cam_onto (os : list (@cam_op RNum)) (w : Rv) : in_screen w -> let c := cam_run os mk_camera in
  exists v, visible c v /\ mat_apply (cam_transform c) v = w.
Proof.
  intros H c. exists (mat_apply (cam_invTransform c) w). destruct (cam_inverse os w) as [_ E]. split; [|exact E].
  apply (cam_visible os). unfold c in *. rewrite E. exact H.
Qed.

(** ** scrolling *)
Lemma scroll_spec (c : Rcam) (y : R) : 0 < cam_zoom c ->
  cam_zoom (scroll_zoom c y) = (if Rlt_dec y 0 then cam_zoom c * - y * (4 / 5) else if Rlt_dec 0 y then cam_zoom c * y * (5 / 4) else cam_zoom c).
Proof.
  intros Z. unfold scroll_zoom, cam_setZoom. cbn [kltb kabs kmul kdiv kofZ RNum]. change (@k0 RNum) with 0.
  destruct (Rltb_spec y 0) as [L|L].
  - destruct (Rlt_dec y 0); [|lra]. rewrite Rabs_left by exact L. rcbn.
    destruct (Rltb_spec 0 (cam_zoom c * - y * (4 / 5))) as [P|P]; [reflexivity|]. exfalso. apply P. apply Rmult_lt_0_compat; [|lra]. apply Rmult_lt_0_compat; lra.
  - destruct (Rlt_dec y 0); [contradiction|]. rewrite Rabs_right by lra. rcbn.
    destruct (Rlt_dec 0 y).
    + destruct (Rltb_spec 0 (cam_zoom c * y * (5 / 4))) as [P|P]; [reflexivity|]. exfalso. apply P. apply Rmult_lt_0_compat; [|lra]. apply Rmult_lt_0_compat; lra.
    + assert (y = 0) by lra. subst y. destruct (Rltb_spec 0 (cam_zoom c * 0 * (5 / 4))) as [P|P]; [exfalso; rewrite Rmult_0_r in P; lra|reflexivity].
Qed.
Lemma scroll_cases (c : Rcam) (y : R) : 0 < cam_zoom c -> let z := cam_zoom c in let z' := cam_zoom (scroll_zoom c y) in
  (y = 1 -> z' = z * (5 / 4)) /\ (y = -1 -> z' = z * (4 / 5)) /\ (y = 0 -> z' = z) /\
  (0 < y -> z' = z * y * (5 / 4)) /\ (y < 0 -> z' = z * - y * (4 / 5)) /\
  (0 < y -> (z' < z <-> y < 4 / 5)) /\ (y < 0 -> (z < z' <-> y < - (5 / 4))).
Proof.
  intros Z z z'. subst z'. rewrite scroll_spec by exact Z. subst z. set (z := cam_zoom c) in *. clearbody z. change (@K RNum) with R in *.
  destruct (Rlt_dec y 0); [|destruct (Rlt_dec 0 y)]; repeat split; intros; try lra; try (subst; lra); nra.
Qed.

Lemma ex_transform : tf_apply (@tf_around RNum RTrig PI (rv 1 0) (rv 2 0)) (rv 3 0) = rv 2 0.
Proof.
  rewrite around_rotates. unfold mk_rot, rot_apply. cbn [kcos ksin RTrig r_cos r_sin]. rewrite cos_PI, sin_PI. ung. f_equal; rring.
Qed.
Lemma ex_camera : let c := cam_run [@CZoom RNum 2; @CZoom RNum (-3); CDim (rv 8 4); CPanTo (rv 1 1)] (@mk_camera RNum) in
  cam_zoom c = 2 /\ cam_dim c = rv 8 4 /\ cam_center c = rv 1 1.
Proof.
  unfold cam_run. cbn [fold_left cam_step]. unfold cam_setZoom at 2. cbn [kltb RNum]. change (@k0 RNum) with 0.
  destruct (Rltb_spec 0 2); [|lra]. unfold cam_setZoom. cbn [kltb RNum]. change (@k0 RNum) with 0. destruct (Rltb_spec 0 (-3)); [lra|].
  unfold cam_setViewDimensions, rv. cbn [vx vy kltb RNum]. change (@k0 RNum) with 0. destruct (Rltb_spec 0 8); [|lra]. destruct (Rltb_spec 0 4); [|lra].
  cbn. destruct (Rltb_spec 0 2); [|lra]. unfold rv. split; [reflexivity|]. split; [reflexivity|]. ung. cbn [cam_center vx vy]. f_equal; rring.
Qed.
