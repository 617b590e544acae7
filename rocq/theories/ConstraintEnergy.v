(** Kinetic energy of the two bodies of a constraint: a velocity solve of an
    equality constraint makes the smallest change that satisfies the constraint
    and adds no energy (C93). *)
From Coq Require Import ZArith List Bool Reals Lra Psatz Lia Arith.
From Verif Require Import Num Outcome Box Mat MatFacts MatSolve Geom GeomClosest Transform TransformFacts Body BodyFacts Constraint ConstraintFacts Contact ConstraintMomentum ConstraintMotor ContactSolve ConstraintThm ConstraintPos DistancePos.
Import ListNotations.
Local Open Scope R_scope.

(** ** Specification *)
(** kinetic energy of one body; distance of two velocities measured by it *)
Definition kinetic (M I : R) (v : Rvel) : R := (M * (vx (v_lin v) * vx (v_lin v) + vy (v_lin v) * vy (v_lin v)) + I * (v_ang v * v_ang v)) / 2.
Definition vdiff (v w : Rvel) : Rvel := Vel (rv (vx (v_lin w) - vx (v_lin v)) (vy (v_lin w) - vy (v_lin v))) (v_ang w - v_ang v).
Definition energy (m : masses) (px : Rprox) (s : Rstore) : R := kinetic (M0 m) (I0 m) (vel0 px s) + kinetic (M1 m) (I1 m) (vel1 px s).
Definition change (m : masses) (px : Rprox) (s t : Rstore) : R :=
  kinetic (M0 m) (I0 m) (vdiff (vel0 px s) (vel0 px t)) + kinetic (M1 m) (I1 m) (vdiff (vel1 px s) (vel1 px t)).
(** a body is weighed by its mass and inertia, an immovable one is not counted *)
Definition weight (i M : R) : Prop := i * M = 1 /\ 0 < M \/ i = 0 /\ M = 0.
Definition weighed (m : masses) (px : Rprox) : Prop :=
  px_i0 px <> px_i1 px /\ weight (px_m0 px) (M0 m) /\ weight (px_I0 px) (I0 m) /\ weight (px_m1 px) (M1 m) /\ weight (px_I1 px) (I1 m).
(** t gives what cannot be changed the velocity it has in s *)
Definition respects (px : Rprox) (s t : Rstore) : Prop :=
  (px_m0 px = 0 -> v_lin (vel0 px t) = v_lin (vel0 px s)) /\ (px_I0 px = 0 -> v_ang (vel0 px t) = v_ang (vel0 px s)) /\
  (px_m1 px = 0 -> v_lin (vel1 px t) = v_lin (vel1 px s)) /\ (px_I1 px = 0 -> v_ang (vel1 px t) = v_ang (vel1 px s)).
(** nothing immovable moves *)
Definition grounded (px : Rprox) (s : Rstore) : Prop :=
  (px_m0 px = 0 -> v_lin (vel0 px s) = rv 0 0) /\ (px_I0 px = 0 -> v_ang (vel0 px s) = 0) /\
  (px_m1 px = 0 -> v_lin (vel1 px s) = rv 0 0) /\ (px_I1 px = 0 -> v_ang (vel1 px s) = 0).

(** ** Proofs *)
(** the work of the impulse J^T l on the velocity difference from a to b *)
Definition work (P : Rvec) (px : Rprox) (a b : Rstore) : R :=
  P 0%nat * (vx (v_lin (vel0 px b)) - vx (v_lin (vel0 px a))) + P 1%nat * (vy (v_lin (vel0 px b)) - vy (v_lin (vel0 px a))) + P 2%nat * (v_ang (vel0 px b) - v_ang (vel0 px a)) +
  P 3%nat * (vx (v_lin (vel1 px b)) - vx (v_lin (vel1 px a))) + P 4%nat * (vy (v_lin (vel1 px b)) - vy (v_lin (vel1 px a))) + P 5%nat * (v_ang (vel1 px b) - v_ang (vel1 px a)).
Lemma work_rows n (J : Rmat) (l : Rvec) px a b : work (impulse n J l) px a b = sum n (fun i => l i * (rowv J px b i - rowv J px a i)).
Proof.
  unfold work, impulse, mvmul, mtrans, rowv, vel0, vel1. set (va0 := s_vel a _). set (va1 := s_vel a _). set (vb0 := s_vel b _). set (vb1 := s_vel b _). clearbody va0 va1 vb0 vb1.
  induction n as [|n IH]; [cbn [ksum]; rring|]. cbn [ksum]. rewrite <- IH. rring.
Qed.
Lemma weight_cross i M P x z : weight i M -> (i = 0 -> z = x) -> M * (P * i) * (z - (x + P * i)) = P * (z - (x + P * i)).
Proof. intros [[H _]|[H1 H2]] Z; [replace (M * (P * i)) with (P * (i * M)) by ring; rewrite H; ring|]. rewrite (Z H1), H1. ring. Qed.
Lemma change_pushed m px P s t : weighed m px -> respects px s t ->
  change m px s t = change m px s (pushed px P s) + change m px (pushed px P s) t + work P px (pushed px P s) t.
Proof.
  intros (HD & W0 & WI0 & W1 & WI1) (R0 & RI0 & R1 & RI1).
  assert (E0 : vel0 px (pushed px P s) = bump (vel0 px s) (px_m0 px) (px_I0 px) (P 0%nat) (P 1%nat) (P 2%nat)) by (apply pushed_0; exact HD).
  assert (E1 : vel1 px (pushed px P s) = bump (vel1 px s) (px_m1 px) (px_I1 px) (P 3%nat) (P 4%nat) (P 5%nat)) by (apply pushed_1; exact HD).
  unfold change, work. rewrite E0, E1. clear E0 E1.
  destruct (vel0 px s) as [[x0 y0] w0], (vel1 px s) as [[x1 y1] w1], (vel0 px t) as [[a0 b0] c0], (vel1 px t) as [[a1 b1] c1].
  unfold kinetic, vdiff, bump, rv. cbn [v_lin v_ang vx vy] in *. change (@K RNum) with R in *.
  pose proof (weight_cross _ _ (P 0%nat) x0 a0 W0 ltac:(intros Z; specialize (R0 Z); congruence)).
  pose proof (weight_cross _ _ (P 1%nat) y0 b0 W0 ltac:(intros Z; specialize (R0 Z); congruence)).
  pose proof (weight_cross _ _ (P 2%nat) w0 c0 WI0 RI0).
  pose proof (weight_cross _ _ (P 3%nat) x1 a1 W1 ltac:(intros Z; specialize (R1 Z); congruence)).
  pose proof (weight_cross _ _ (P 4%nat) y1 b1 W1 ltac:(intros Z; specialize (R1 Z); congruence)).
  pose proof (weight_cross _ _ (P 5%nat) w1 c1 WI1 RI1).
  nra.
Qed.
Lemma weight_nonneg i M : weight i M -> 0 <= M.
Proof. intros [[_ H]|[_ H]]; lra. Qed.
Lemma kinetic_nonneg M I v : 0 <= M -> 0 <= I -> 0 <= kinetic M I v.
Proof.
  intros HM HI. unfold kinetic. pose proof (Rle_0_sqr (vx (v_lin v))). pose proof (Rle_0_sqr (vy (v_lin v))). pose proof (Rle_0_sqr (v_ang v)). unfold Rsqr in *.
  pose proof (Rmult_le_pos M (vx (v_lin v) * vx (v_lin v) + vy (v_lin v) * vy (v_lin v)) HM ltac:(lra)). pose proof (Rmult_le_pos I (v_ang v * v_ang v) HI ltac:(lra)). lra.
Qed.
Lemma change_nonneg m px s t : weighed m px -> 0 <= change m px s t.
Proof.
  intros (_ & W0 & WI0 & W1 & WI1). unfold change. apply Rplus_le_le_0_compat; apply kinetic_nonneg; eapply weight_nonneg; eassumption.
Qed.
(** the change is zero only between equal velocities of what can be changed *)
Lemma kinetic_zero M I v : 0 <= M -> 0 <= I -> kinetic M I v = 0 -> (0 < M -> vx (v_lin v) = 0 /\ vy (v_lin v) = 0) /\ (0 < I -> v_ang v = 0).
Proof.
  intros HM HI. unfold kinetic. set (x := vx (v_lin v)). set (y := vy (v_lin v)). set (w := v_ang v). clearbody x y w. change (@K RNum) with R in *. intros E.
  pose proof (Rle_0_sqr x). pose proof (Rle_0_sqr y). pose proof (Rle_0_sqr w). unfold Rsqr in *.
  pose proof (Rmult_le_pos M (x * x + y * y) HM ltac:(lra)). pose proof (Rmult_le_pos I (w * w) HI ltac:(lra)).
  assert (A : M * (x * x + y * y) = 0) by lra. assert (B : I * (w * w) = 0) by lra. split; intros P.
  - apply Rmult_integral in A. destruct A as [A|A]; [lra|]. split; nra.
  - apply Rmult_integral in B. destruct B as [B|B]; [lra|]. nra.
Qed.
Lemma weight_pos i M : weight i M -> i <> 0 -> 0 < M.
Proof. intros [[_ H]|[H _]] N; [exact H|contradiction]. Qed.
Lemma change_zero m px s t : weighed m px -> respects px s t -> change m px s t = 0 -> vel0 px t = vel0 px s /\ vel1 px t = vel1 px s.
Proof.
  intros (_ & W0 & WI0 & W1 & WI1) (R0 & RI0 & R1 & RI1) E. unfold change in E.
  pose proof (weight_nonneg _ _ W0) as N0. pose proof (weight_nonneg _ _ WI0) as NI0. pose proof (weight_nonneg _ _ W1) as N1. pose proof (weight_nonneg _ _ WI1) as NI1.
  pose proof (kinetic_nonneg _ _ (vdiff (vel0 px s) (vel0 px t)) N0 NI0). pose proof (kinetic_nonneg _ _ (vdiff (vel1 px s) (vel1 px t)) N1 NI1).
  destruct (kinetic_zero _ _ (vdiff (vel0 px s) (vel0 px t)) N0 NI0 ltac:(lra)) as [A0 B0]. destruct (kinetic_zero _ _ (vdiff (vel1 px s) (vel1 px t)) N1 NI1 ltac:(lra)) as [A1 B1].
  destruct (vel0 px s) as [[x0 y0] w0], (vel1 px s) as [[x1 y1] w1], (vel0 px t) as [[a0 b0] c0], (vel1 px t) as [[a1 b1] c1].
  unfold vdiff, rv in *. cbn [v_lin v_ang vx vy] in *. change (@K RNum) with R in *. clear E H H0.
  split; f_equal.
  - destruct (Req_dec (px_m0 px) 0) as [Z|Z]; [exact (R0 Z)|]. destruct (A0 (weight_pos _ _ W0 Z)). f_equal; lra.
  - destruct (Req_dec (px_I0 px) 0) as [Z|Z]; [exact (RI0 Z)|]. pose proof (B0 (weight_pos _ _ WI0 Z)). lra.
  - destruct (Req_dec (px_m1 px) 0) as [Z|Z]; [exact (R1 Z)|]. destruct (A1 (weight_pos _ _ W1 Z)). f_equal; lra.
  - destruct (Req_dec (px_I1 px) 0) as [Z|Z]; [exact (RI1 Z)|]. pose proof (B1 (weight_pos _ _ WI1 Z)). lra.
Qed.
Lemma respects_pushed px P s t : px_i0 px <> px_i1 px -> respects px s t -> respects px (pushed px P s) t.
Proof.
  intros HD (R0 & RI0 & R1 & RI1).
  assert (E0 : vel0 px (pushed px P s) = bump (vel0 px s) (px_m0 px) (px_I0 px) (P 0%nat) (P 1%nat) (P 2%nat)) by (apply pushed_0; exact HD).
  assert (E1 : vel1 px (pushed px P s) = bump (vel1 px s) (px_m1 px) (px_I1 px) (P 3%nat) (P 4%nat) (P 5%nat)) by (apply pushed_1; exact HD).
  unfold respects. rewrite E0, E1. unfold bump. cbn [v_lin v_ang]. change (@K RNum) with R in *.
  split; [|split; [|split]]; intros Z.
  - rewrite (R0 Z), Z. destruct (v_lin (vel0 px s)) as [x y]. unfold rv. cbn [vx vy]. change (@K RNum) with R in *. f_equal; ring.
  - rewrite (RI0 Z), Z. rring.
  - rewrite (R1 Z), Z. destruct (v_lin (vel1 px s)) as [x y]. unfold rv. cbn [vx vy]. change (@K RNum) with R in *. f_equal; ring.
  - rewrite (RI1 Z), Z. rring.
Qed.

(** a velocity solve makes the smallest change *)
Lemma eq_least (e0 e : Reqs) (f : Rcfun) (px : Rprox) s0 l s dt m :
  (forall l dt, cf_clamp f l dt = l) -> eq_init e0 f px s0 = Ret e ->
  (forall i, sb_rest (es_base e0) i = 0) -> (forall i, sb_damp (es_base e0) i = 0) -> weighed m px ->
  exists e' s', eq_velocity (eq_at e l) f px s dt = Ret (e', s') /\
    forall t, respects px s t -> (forall i, (i < cf_dim f)%nat -> rowv (cf_jac f px s0) px t i + cf_bias f px s i = 0) ->
      change m px s s' <= change m px s t /\ (change m px s t = change m px s s' -> vel0 px t = vel0 px s' /\ vel1 px t = vel1 px s').
Proof.
  intros CL HI RZ DZ W. destruct (eq_velocity_spec e0 e f px s0 l s dt CL HI (or_introl (proj1 W))) as (l' & E & H).
  eexists _, _. split; [exact E|]. set (s' := pushed px _ s) in *. intros t R C.
  assert (P : change m px s t = change m px s s' + change m px s' t).
  { unfold s'. rewrite (change_pushed m px (impulse (cf_dim f) (cf_jac f px s0) (fun i => l' i - l i)) s t W R), work_rows, sum_zero; [ring|]. intros i Hi. fold s'. specialize (H i Hi). specialize (C i Hi). rewrite RZ, DZ in H. unfold Rdiv in H.
    replace (rowv (cf_jac f px s0) px t i) with (rowv (cf_jac f px s0) px s' i) by lra. ring. }
  pose proof (change_nonneg m px s' t W) as NN. split; [lra|]. intros Q. apply (change_zero m px s' t W); [apply respects_pushed; [exact (proj1 W)|exact R]|lra].
Qed.

(** at rest *)
Definition rest_store (s : Rstore) : Rstore := Store (s_pos s) (fun _ => Vel (rv 0 0) 0).
Lemma change_rest m px s : change m px s (rest_store s) = energy m px s.
Proof. unfold change, energy, kinetic, vdiff, rest_store, vel0, vel1, rv. cbn [s_vel v_lin v_ang vx vy]. change (@K RNum) with R. lra. Qed.
Lemma change_rest' m px s s' : change m px s' (rest_store s) = energy m px s'.
Proof. unfold change, energy, kinetic, vdiff, rest_store, vel0, vel1, rv. cbn [s_vel v_lin v_ang vx vy]. change (@K RNum) with R. lra. Qed.
Lemma grounded_respects px s : grounded px s -> respects px s (rest_store s).
Proof. intros (G0 & GI0 & G1 & GI1). split; [|split; [|split]]; intros Z; cbn; symmetry; auto. Qed.
Lemma rowv_rest J px s i : rowv J px (rest_store s) i = 0.
Proof. unfold rowv, rest_store, rv. cbn [s_vel v_lin v_ang vx vy]. change (@K RNum) with R. ring. Qed.

Lemma eq_energy (e0 e : Reqs) (f : Rcfun) (px : Rprox) s0 l s dt m :
  (forall l dt, cf_clamp f l dt = l) -> eq_init e0 f px s0 = Ret e ->
  (forall i, sb_rest (es_base e0) i = 0) -> (forall i, sb_damp (es_base e0) i = 0) -> (forall i, (i < cf_dim f)%nat -> cf_bias f px s i = 0) -> weighed m px -> grounded px s ->
  exists e' s', eq_velocity (eq_at e l) f px s dt = Ret (e', s') /\ energy m px s' + change m px s s' = energy m px s.
Proof.
  intros CL HI RZ DZ BZ W G. destruct (eq_velocity_spec e0 e f px s0 l s dt CL HI (or_introl (proj1 W))) as (l' & E & H).
  eexists _, _. split; [exact E|]. rewrite <- (change_rest m px s), (change_pushed m px (impulse (cf_dim f) (cf_jac f px s0) (fun i => l' i - l i)) s (rest_store s) W (grounded_respects _ _ G)), change_rest', work_rows, sum_zero; [ring|].
  intros i Hi. rewrite rowv_rest. specialize (H i Hi). rewrite RZ, DZ, (BZ i Hi) in H. unfold Rdiv in H. replace (rowv (cf_jac f px s0) px _ i) with 0 by lra. ring.
Qed.
Lemma one_energy fuel (e0 : @insolver RNum) (f : Rcfun) (px : Rprox) s0 (l : Rvec) s dt m : cf_dim f = 1%nat ->
  (forall (l : Rvec) (dt : R), cf_clamp f l dt 0%nat = Rmax 0 (l 0%nat)) ->
  sb_damp (is_base e0) 0%nat = 0 -> sb_rest (is_base e0) 0%nat = 0 -> cf_bias f px s 0%nat = 0 -> 0 < eff (cf_jac f px s0) px 0 0 -> (2 <= fuel)%nat ->
  0 <= l 0%nat -> weighed m px -> grounded px s ->
  exists e' s', in_velocity fuel (in_at (in_init e0 f px s0) l) f px s dt = Ret (e', s') /\ energy m px s' + change m px s s' <= energy m px s.
Proof.
  intros D CL DZ RZ BZ EF F L W G. destruct (in_velocity_one fuel e0 f px s0 l s dt D CL (or_introl (proj1 W)) DZ EF F) as (e' & s' & E & H). cbv zeta in H. destruct H as (H1 & H2 & H3 & H4).
  exists e', s'. split; [exact E|]. rewrite BZ, RZ in H2, H3. unfold Rdiv in H2, H3. set (l' := sb_lambda (is_base e') 0%nat) in *. set (g := rowv (cf_jac f px s0) px s' 0) in *.
  pose proof (change_pushed m px (fun k => cf_jac f px s0 0%nat k * (l' - l 0%nat)) s (rest_store s) W (grounded_respects _ _ G)) as Q. rewrite <- H4, change_rest, change_rest' in Q.
  assert (WK : work (fun k => cf_jac f px s0 0%nat k * (l' - l 0%nat)) px s' (rest_store s) = - (l' - l 0%nat) * g).
  { unfold work, g, rowv, rest_store, vel0, vel1, rv. cbn [s_vel v_lin v_ang vx vy]. change (@K RNum) with R. ring. }
  rewrite WK in Q. change (@K RNum) with R in *. assert (0 <= g) by lra. assert (l' * g = 0) by nra. pose proof (Rmult_le_pos (l 0%nat) g L ltac:(assumption)). nra.
Qed.

(** ** concrete cases *)
Lemma ex_weighed : weighed (Masses 1 1 1 1) ex_px.
Proof. unfold weighed, weight, ex_px. cbn. repeat split; try (left; split; lra). discriminate. Qed.
Lemma ex_grounded s : grounded ex_px s.
Proof. unfold grounded, ex_px. cbn [px_m0 px_m1 px_I0 px_I1]. split; [|split; [|split]]; intros Z; exfalso; lra. Qed.
Lemma ex_loses : exists e, eq_init (new_eqsolver (hinge_fun (rv 1 0) (rv (-1) 0)) vzero vzero) (hinge_fun (rv 1 0) (rv (-1) 0)) ex_px ex_store = Ret e /\
  exists e' s', eq_velocity (eq_at e vzero) (hinge_fun (rv 1 0) (rv (-1) 0)) ex_px ex_store 1 = Ret (e', s') /\
    energy (Masses 1 1 1 1) ex_px s' < energy (Masses 1 1 1 1) ex_px ex_store.
Proof.
  destruct ex_hinge as [e HE]. exists e. split; [exact HE|].
  destruct (eq_energy _ e (hinge_fun (rv 1 0) (rv (-1) 0)) ex_px ex_store vzero ex_store 1 (Masses 1 1 1 1) (fun _ _ => eq_refl) HE ltac:(reflexivity) ltac:(reflexivity) ltac:(reflexivity) ex_weighed (ex_grounded _)) as (e' & s' & E & Q).
  exists e', s'. split; [exact E|]. pose proof (change_nonneg _ _ ex_store s' ex_weighed) as NN. destruct NN as [P|Z]; [lra|exfalso].
  destruct (hinge_together _ _ ex_px ex_store _ e vzero ex_store 1 ltac:(cbn; discriminate) HE eq_refl ltac:(reflexivity) ltac:(reflexivity)) as (e2 & s2 & EV & HP & HV).
  rewrite E in EV. injection EV as <- <-.
  assert (RS : respects ex_px ex_store s') by (unfold respects, ex_px; cbn [px_m0 px_m1 px_I0 px_I1]; split; [|split; [|split]]; intros; exfalso; lra).
  destruct (change_zero _ _ _ _ ex_weighed RS (eq_sym Z)) as [V0 V1]. unfold vel0, vel1 in V0, V1. cbn [ex_px px_i0 px_i1] in V0, V1, HV. rewrite V0, V1, HP in HV. unfold world0, world1 in HV. cbn [ex_px px_i0 px_i1] in HV. rewrite HP, !ex_world in HV.
  unfold pvel, p_centroid in HV. rewrite !ex_world in HV. cbn [ex_store s_vel s_pos v_lin v_ang vx vy rv p_lc] in HV. injection HV as HX HY. change (@K RNum) with R in *. lra.
Qed.
