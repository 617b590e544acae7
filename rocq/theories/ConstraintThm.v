(** Hinges, and concrete cases for the theorems of P_Constraint.v. *)
From Coq Require Import ZArith List Bool Reals Lra Psatz Lia Arith FunctionalExtensionality.
From Flocq Require Import IEEE754.BinarySingleNaN.
From Verif Require Import Num Sign Outcome Box Mat MatFacts MatSolve Geom GeomClosest Transform TransformFacts Body BodyFacts Constraint ConstraintFacts Contact ConstraintMomentum ConstraintLimits ConstraintMotor ContactFacts ContactSolve.
Import ListNotations.
Local Open Scope R_scope.

(** ** Hinges *)

Lemma hinge_solvable l0 l1 (px : Rprox) s (e0 : Reqs) : 0 < px_m0 px + px_m1 px -> 0 <= px_I0 px -> 0 <= px_I1 px ->
  (forall i, sb_damp (es_base e0) i = 0) -> exists e, eq_init e0 (hinge_fun l0 l1) px s = Ret e.
Proof.
  intros M A B DZ. unfold eq_init. cbn [compute_K init_base sb_damp]. change (cf_dim (hinge_fun l0 l1)) with 2%nat.
  unfold ks_make. cbn [Nat.eqb ks_valid make_solver2 s2_valid m00 m01 m10 m11]. unfold madd, mdiagonal. cbn [Nat.eqb]. rewrite !DZ, !eff_eq.
  assert (X : forall d, d <> 0 -> negb (@keqb RNum d k0) = true).
  { intros d D. unfold k0. cbn [keqb kofZ RNum]. destruct (Reqb_spec d 0); [contradiction|reflexivity]. }
  rewrite X; [eexists; reflexivity|]. unfold eff, hinge_fun. cbn [cf_jac rows2 row6]. unfold k0, k1. cbn [kofZ RNum].
  set (a := vx (vperp (vsub (tf_apply (to_world_of (px_i0 px) s) l0) _))). set (b := vy (vperp (vsub (tf_apply (to_world_of (px_i0 px) s) l0) _))).
  set (c := vx (vperp (vsub (tf_apply (to_world_of (px_i1 px) s) l1) _))). set (d := vy (vperp (vsub (tf_apply (to_world_of (px_i1 px) s) l1) _))).
  set (m := px_m0 px + px_m1 px) in *.
  match goal with |- ?g <> 0 => replace g with (m * m + m * (px_I0 px * (a * a + b * b) + px_I1 px * (c * c + d * d)) + px_I0 px * px_I1 px * ((a * d - b * c) * (a * d - b * c))) by (unfold m; rcbn; ring) end.
  assert (SQ : forall z : R, 0 <= z * z) by (intros z; pose proof (Rle_0_sqr z) as Z; exact Z).
  assert (0 < m * m) by (apply Rmult_lt_0_compat; assumption).
  assert (0 <= m * (px_I0 px * (a * a + b * b) + px_I1 px * (c * c + d * d))).
  { apply Rmult_le_pos; [lra|]. apply Rplus_le_le_0_compat; (apply Rmult_le_pos; [assumption|apply Rplus_le_le_0_compat; apply SQ]). }
  assert (0 <= px_I0 px * px_I1 px * ((a * d - b * c) * (a * d - b * c))) by (apply Rmult_le_pos; [apply Rmult_le_pos; assumption|apply SQ]).
  lra.
Qed.
(** after a velocity solve the two halves of the hinge move together *)
Lemma hinge_together l0 l1 (px : Rprox) s0 (e0 e : Reqs) l s dt : px_i0 px <> px_i1 px ->
  eq_init e0 (hinge_fun l0 l1) px s0 = Ret e -> s_pos s = s_pos s0 ->
  (forall i, sb_rest (es_base e0) i = 0) -> (forall i, sb_damp (es_base e0) i = 0) ->
  exists e' s', eq_velocity (eq_at e l) (hinge_fun l0 l1) px s dt = Ret (e', s') /\ s_pos s' = s_pos s /\
    pvel (s_pos s' (px_i0 px)) (s_vel s' (px_i0 px)) (world0 px s' l0) = pvel (s_pos s' (px_i1 px)) (s_vel s' (px_i1 px)) (world1 px s' l1).
Proof.
  intros HD HI HP RZ DZ.
  destruct (eq_velocity_spec e0 e (hinge_fun l0 l1) px s0 l s dt (fun _ _ => eq_refl) HI (or_introl HD)) as (l' & E & H).
  eexists _, _. split; [exact E|]. split; [reflexivity|].
  pose proof (H 0%nat ltac:(cbn; lia)) as H0. pose proof (H 1%nat ltac:(cbn; lia)) as H1.
  rewrite RZ, DZ in H0, H1. set (s' := pushed px _ s) in *.
  assert (P' : s_pos s' = s_pos s0) by (unfold s'; rewrite pushed_pos; exact HP).
  unfold rowv in H0, H1. cbn [hinge_fun cf_jac cf_bias rows2 row6] in H0, H1. unfold vzero, k0, k1 in H0, H1. cbn [kofZ RNum] in H0, H1.
  unfold pvel, world0, world1. rewrite !P'. unfold to_world_of, centroid_of, vperp, vsub in H0, H1. cbn [vx vy] in H0, H1. rcbn. unfold rv. f_equal; lra.
Qed.
(** a body with dominance 0 has no inverse mass *)
Lemma dominance_0 (b0 b1 : Rbody) (d1 : R) : fst (fst (fst (bodies_masses b0 b1 (Some (0, d1))))) = 0 /\ snd (fst (fst (bodies_masses b0 b1 (Some (0, d1))))) = 0.
Proof. cbn [bodies_masses fst snd]. rcbn. split; ring. Qed.

(** ** concrete cases *)
Definition still : Rrot := @Rot RNum 0 1 0.
Definition ex_px : Rprox := @Prox RNum 0 1 1 1 1 1.
(** two bodies at (0,0) and (2,0); the second moves up and spins *)
Definition ex_store : Rstore :=
  @Store RNum (fun i => Pos (rv (match i with O => 0 | _ => 2 end) 0) still (rv 0 0))
    (fun i => match i with O => @Vel RNum (rv 1 0) 0 | _ => @Vel RNum (rv 0 1) 1 end).
Lemma ex_world (i : nat) (p : Rv) : tf_apply (to_world (s_pos ex_store i)) p = rv (vx p + match i with O => 0 | _ => 2 end) (vy p).
Proof.
  unfold ex_store, still, to_world, mul_Tt, mul_tr, tra_mul, tra_inverse, tf_apply, rot_apply, vadd, vopp, rv. cbn.
  f_equal; ring.
Qed.
Lemma ex_hinge : exists e, eq_init (new_eqsolver (hinge_fun (rv 1 0) (rv (-1) 0)) vzero vzero) (hinge_fun (rv 1 0) (rv (-1) 0)) ex_px ex_store = Ret e.
Proof. apply hinge_solvable; cbn; try lra. intros; reflexivity. Qed.
Lemma ex_masses : inverse_of (Masses 1 1 1 1) ex_px.
Proof. unfold inverse_of, ex_px. cbn. repeat split; try lra. discriminate. Qed.

(** limits: the bodies are at distance 2, closer than the minimum 3 *)
Definition ex_dist : Rcfun := distance_fun (rv 0 0) (rv 0 0).
Definition ex_lis : Rlis := LiS (new_sbase vzero vzero) FOff (Some (vec1 (N := RNum) 9)) (Some (vec1 (N := RNum) 25)) LNone false.
Lemma ex_eval : cf_eval ex_dist ex_px ex_store 0%nat = 4.
Proof.
  unfold ex_dist, distance_fun. cbn [cf_eval vec1]. unfold to_world_of. rewrite !ex_world. unfold vnormsq, vdot, vsub, rv. cbn. ring.
Qed.
Lemma ex_below : li_next ex_lis ex_dist ex_px ex_store = FLower.
Proof.
  change (li_next ex_lis ex_dist ex_px ex_store) with (next_func 1 (Some (vec1 (N := RNum) 9)) (Some (vec1 (N := RNum) 25)) (cf_eval ex_dist ex_px ex_store)).
  rewrite next_func_reached, ex_eval. cbn [at0 vec1 reached]. destruct (Req_EM_T 9 25); [lra|]. destruct (Rle_dec 4 9); [reflexivity|lra].
Qed.
Lemma ex_eff : 0 < eff (cf_jac ex_dist ex_px ex_store) ex_px 0 0.
Proof.
  unfold eff, ex_dist, distance_fun. cbn [cf_jac rows1 row6]. unfold to_world_of. rewrite !ex_world. unfold centroid_of, p_centroid. rewrite !ex_world.
  unfold vcross, vsub, rv, ex_store, k2. cbn. lra.
Qed.
Lemma ex_uses : uses 1 (cf_jac ex_dist ex_px ex_store) ex_px.
Proof. left. cbn. discriminate. Qed.

(** a motor with half throttle *)
Definition ex_motor : Rmotor := motor_throttle (motor_direction 2 (@new_motor RNum 10 2) (vec_of2 (rv 3 0))) (1 / 2).
Lemma ex_motor_hist : motor_hist 2 10 2 ex_motor.
Proof. repeat constructor. Qed.
Lemma ex_motor_dir : mo_dir ex_motor 0%nat = 1 /\ mo_dir ex_motor 1%nat = 0 /\ mo_throttle ex_motor = 1 / 2 /\ mo_maxForce ex_motor = 2 /\ mo_maxVel ex_motor = 10.
Proof.
  unfold ex_motor, motor_throttle, motor_direction. cbn [mo_dir mo_throttle mo_maxForce mo_maxVel new_motor].
  assert (D : dot 2 (vec_of2 (rv 3 0)) (vec_of2 (rv 3 0)) = 9) by (unfold ndot; cbn; ring).
  unfold nnorm. rewrite D. unfold k0. cbn [keqb kofZ RNum ksqrt kabs kdiv]. destruct (Reqb_spec 9 0) as [X|X]; [lra|].
  assert (S9 : sqrt 9 = 3) by (replace 9 with (3 * 3) by ring; apply sqrt_square; lra). rewrite S9.
  split; [cbn; lra|]. split; [cbn; lra|]. split; [rewrite clamp_id; [reflexivity|unfold k1; cbn; lra]|]. split; apply Rabs_pos_eq; lra.
Qed.
Lemma ex_motor_step : exists e dv, motor_step (translation_motor ex_motor) ex_px 1 e dv 0 /\ vx dv = 1 /\ vy dv = 0.
Proof.
  destruct ex_motor_dir as (D0 & D1 & DT & DF & DV).
  set (f := translation_motor ex_motor).
  destruct (eq_init (new_eqsolver f vzero vzero) f ex_px (@Store RNum (s_pos ex_store) (fun _ => @Vel RNum (rv 0 0) 0))) as [e| | |] eqn:EI.
  2-4: exfalso; unfold eq_init in EI; cbn [compute_K init_base] in EI; change (cf_dim f) with 2%nat in EI; unfold ks_make in EI;
    cbn [Nat.eqb ks_valid make_solver2 s2_valid m00 m01 m10 m11] in EI; unfold madd, mdiagonal in EI; cbn [Nat.eqb] in EI; rewrite !eff_eq in EI; unfold eff in EI;
    cbn [f translation_motor cf_jac rows2 row6 new_eqsolver es_base new_sbase sb_damp ex_px px_m0 px_m1 px_I0 px_I1] in EI; unfold vzero, k0, k1 in EI; cbn in EI;
    match type of EI with context [Reqb ?a 0] => destruct (Reqb_spec a 0); [lra|discriminate EI] end.
  set (s := @Store RNum (s_pos ex_store) (fun _ => @Vel RNum (rv 0 0) 0)) in *.
  pose proof (eq_init_inv _ _ _ _ _ EI) as (HJ & HR & HDm & HL & _ & HS & HV).
  destruct (eq_velocity e f ex_px s 1) as [[e' s']| | |] eqn:EV.
  2-4: exfalso; unfold eq_velocity in EV; rewrite HS in EV, HV; destruct (ks_spec _ _ (compute_rhs (es_base e) f ex_px s 1 true) HV) as (d & HD & _); rewrite HD in EV; discriminate EV.
  pose proof (MS_init f ex_px 1 _ _ _ EI) as M0. pose proof (MS_vel f ex_px 1 _ _ _ _ _ _ M0 EV) as M1.
  pose proof (translation_step ex_motor ex_px 1 1 _ _ _ ltac:(cbn; lra) M1) as (W0 & W1 & W2). change (@K RNum) with R in *. rewrite W2 in M1.
  eexists _, _. split; [exact M1|].
  rewrite D1 in W1. unfold within in W1. rewrite Rmult_0_l, Rmin_left, Rmax_left in W1 by lra. split; [|rcbn; lra].
  (* the impulse is clamped at its bound *)
  pose proof EV as EV2. unfold eq_velocity in EV. rewrite HS in EV, HV. destruct (ks_spec _ _ (compute_rhs (es_base e) f ex_px s 1 true) HV) as (d & HD & HX). rewrite HD in EV. cbn [obind] in EV.
  pose proof (HX 0%nat ltac:(cbn; lia)) as X0. clear HX.
  assert (Dd : d 0%nat = 10).
  { unfold mvmul, madd, mdiagonal in X0. change (cf_dim f) with 2%nat in X0. cbn [ksum Nat.eqb] in X0. rewrite !eff_eq in X0. unfold eff in X0. unfold compute_rhs in X0. change (cf_dim f) with 2%nat in X0. rewrite HJ, HL, HR, HDm in X0.
    rewrite rowv_eq in X0. unfold rowv, mvmul, mdiagonal in X0.
    cbn [f translation_motor cf_jac cf_bias cf_eval rows2 row6 ksum Nat.eqb new_eqsolver es_base new_sbase sb_rest sb_damp ex_px px_i0 px_i1 px_m0 px_m1 px_I0 px_I1 s s_vel v_lin v_ang vx vy rv] in X0.
    unfold motor_bias, vzero, k0, k1 in X0. rewrite D0, DV in X0. cbn [kofZ kadd kmul kdiv kopp RNum vx vy] in X0. change (@K RNum) with R in *. lra. }
  destruct (update_lambda _ _ _ _ _ _) as [[b1 s1]| | |] eqn:EU; cbn [obind fst snd] in EV; try discriminate EV. injection EV as <- <-.
  apply update_lambda_R in EU. destruct EU as [_ ->]. rewrite HJ, HL.
  rewrite pushed_body0 by (unfold impulse, mvmul, mtrans; change (cf_dim f) with 2%nat; cbn; ring).
  unfold bump, rv, impulse, mvmul, mtrans. change (cf_dim f) with 2%nat.
  assert (CL : cf_clamp f (fun i => kadd (vzero i) (d i)) 1 0%nat = 1).
  { unfold f, translation_motor. cbn [cf_clamp]. unfold motor_clamp, motor_bound, kclamp, kmin, kmax. rewrite D0, DT, DF. unfold vzero, k0. rewrite Dd. cbn [kltb kadd kmul kofZ RNum]. change (@K RNum) with R in *.
    rcmp; lra. }
  cbn [ksum]. match goal with |- context [cf_clamp f ?l 1 0%nat] => replace (cf_clamp f l 1 0%nat) with 1 by (symmetry; exact CL) end. unfold vzero, vadd, vsub, k0. cbn. lra.
Qed.

(** the two bodies touch at (1,0); the normal points to body 0 *)
Definition ex_man : @manifold RNum := @Mf RNum 1 (fun b _ => if b then rv (-1) 0 else rv 1 0) (rv (-1) 0) false (1 / 100).
Definition ex_ct (rest fric : R) : Rcontact :=
  @new_contact RNum ex_man (to_world (s_pos ex_store 0)) (to_world (s_pos ex_store 1)) rest fric.
Lemma ex_ct_ready rest fric : mf_n (ct_man (ex_ct rest fric)) = 1%nat /\ fr_n (ct_fr (ex_ct rest fric)) = 1%nat /\
  0 < nK (ex_ct rest fric) ex_px ex_store 0 0.
Proof.
  split; [reflexivity|]. split; [reflexivity|]. apply nK_pos; cbn; try lra. intros H. injection H as H _. lra.
Qed.
Lemma ex_ct_run rest fric : exists c, ct_run (TR := RTrig) [CActive ex_px ex_store; CInit ex_px ex_store; CVel ex_px ex_store] (ex_ct rest fric) = Ret c.
Proof.
  destruct (ex_ct_ready rest fric) as (A & B & C).
  set (c0 := fst (ct_isActive (ex_ct rest fric) ex_px ex_store)).
  assert (C' : 0 < nK c0 ex_px ex_store 0 0) by exact C.
  destruct (contact_one c0 ex_px ex_store vzero vzero ex_store ltac:(cbn; discriminate) eq_refl A B C') as (c & s & E & _).
  exists c. cbn [ct_run ct_step obind]. change (ct_init _ ex_px ex_store) with (solving c0 ex_px ex_store vzero vzero). rewrite E. reflexivity.
Qed.
(** binary32 *)
Definition fv (x y : Z) : @vec2 F32 := @V2 F32 (fofZ x) (fofZ y).
Definition FT0 : Trig F32 := {| ksin := fun x => x; kcos := fun x => x |}.
Definition fpx : @proxies F32 := @Prox F32 0 1 (fofZ 1) (fofZ 1) (fofZ 1) (fofZ 1).
Definition fstore : @store F32 := @Store F32
  (fun i => @Pos F32 (fv (match i with O => 0 | _ => 2 end) 0) (@Rot F32 (fofZ 0) (fofZ 1) (fofZ 0)) (fv 0 0))
  (fun i => match i with O => @Vel F32 (fv 3 0) (fofZ 0) | _ => @Vel F32 (fv 0 1) (fofZ 0) end).
Definition fman : @manifold F32 := @Mf F32 1 (fun b _ => if b then fv (-1) 0 else fv 1 0) (fv (-1) 0) false (fdiv (fofZ 1) (fofZ 100)).
Definition fct : @contact F32 := @new_contact F32 fman (to_world (s_pos fstore 0)) (to_world (s_pos fstore 1)) (fofZ 0) (fofZ 1).
Definition fops : list (@ct_op F32) := [CActive fpx fstore; CInit fpx fstore; CVel fpx fstore].
Lemma ex_f32_contact : match ct_run (TR := FT0) fops fct with
  | Ret c => match ct_velocities c fpx fstore with
             | Ret (c', s') => Bltb (fofZ 0) (@ct_nl F32 c 0%nat) && Bltb (@ct_tl F32 c' 0%nat) (fofZ 0)
             | _ => false end
  | _ => false end = true.
Proof. vm_compute. reflexivity. Qed.

(** ** forms stated in P_Constraint.v *)
Lemma eq_velocity_exact (e0 e : Reqs) (f : Rcfun) (px : Rprox) s0 l s dt :
  (forall l dt, cf_clamp f l dt = l) -> eq_init e0 f px s0 = Ret e -> uses (cf_dim f) (cf_jac f px s0) px ->
  (forall i, sb_rest (es_base e0) i = 0) -> (forall i, sb_damp (es_base e0) i = 0) ->
  exists e' s', eq_velocity (eq_at e l) f px s dt = Ret (e', s') /\
    forall i, (i < cf_dim f)%nat -> rowv (cf_jac f px s0) px s' i + cf_bias f px s i = 0.
Proof.
  intros CL HI HU RZ DZ. destruct (eq_velocity_spec e0 e f px s0 l s dt CL HI HU) as (l' & E & H). eexists _, _. split; [exact E|].
  intros i Hi. specialize (H i Hi). rewrite RZ, DZ in H. unfold Rdiv in H. lra.
Qed.
Lemma eq_velocity_soft (e0 e : Reqs) (f : Rcfun) (px : Rprox) s0 l s dt :
  (forall l dt, cf_clamp f l dt = l) -> eq_init e0 f px s0 = Ret e -> uses (cf_dim f) (cf_jac f px s0) px ->
  exists e' s', eq_velocity (eq_at e l) f px s dt = Ret (e', s') /\
    forall i, (i < cf_dim f)%nat -> rowv (cf_jac f px s0) px s' i + cf_bias f px s i =
      - (sb_rest (es_base e0) i * cf_eval f px s i / dt) - sb_damp (es_base e0) i * sb_lambda (es_base e') i.
Proof.
  intros CL HI HU. destruct (eq_velocity_spec e0 e f px s0 l s dt CL HI HU) as (l' & E & H). eexists _, _. split; [exact E|].
  intros i Hi. specialize (H i Hi). cbn [eq_at es_base set_lambda sb_lambda]. lra.
Qed.
Lemma dominance_keeps (f : Rcfun) (px : Rprox) dt J s s' : vcall f px dt J s s' -> px_i0 px <> px_i1 px ->
  (px_m0 px = 0 -> px_I0 px = 0 -> s_vel s' (px_i0 px) = s_vel s (px_i0 px)) /\
  (px_m1 px = 0 -> px_I1 px = 0 -> s_vel s' (px_i1 px) = s_vel s (px_i1 px)) /\
  (forall i, i <> px_i0 px -> i <> px_i1 px -> s_vel s' i = s_vel s i) /\ s_pos s' = s_pos s.
Proof.
  intros H HD. apply vcall_pushed in H. destruct H as [->|[l ->]]; [auto|].
  split; [apply pushed_massless_0; exact HD|]. split; [apply pushed_massless_1; exact HD|]. split; [intros; apply pushed_other; assumption|reflexivity].
Qed.
Lemma massless_iff (b0 b1 : Rbody) (d0 d1 : R) : let '(m0, J0, m1, J1) := bodies_masses b0 b1 (Some (d0, d1)) in
  (d0 = 0 -> m0 = 0 /\ J0 = 0) /\ (d1 = 0 -> m1 = 0 /\ J1 = 0).
Proof. cbn [bodies_masses fst snd]. rcbn. split; intros ->; split; ring. Qed.
Lemma contact_vel_momentum (c0 c' : Rcontact) (px : Rprox) s0 t n s s' m o : inverse_of m px -> (fr_n (ct_fr c0) <= 2)%nat -> s_pos s = s_pos s0 ->
  ct_velocities (solving c0 px s0 t n) px s = Ret (c', s') \/ ct_warmstart (solving c0 px s0 t n) px s = Ret (c', s') /\ (forall i, (fr_n (ct_fr c0) <= i)%nat -> ct_tl c0 i = 0 /\ ct_nl c0 i = 0) ->
  mom_x m px s' = mom_x m px s /\ mom_y m px s' = mom_y m px s /\
  ((forall i, (i < fr_n (ct_fr c0))%nat -> pt0 c0 i = pt1 c0 i) -> mom_a m px o s' = mom_a m px o s).
Proof.
  intros HM HF HP HC.
  assert (HJ : jacobians_at (solving c0 px s0 t n) px s).
  { destruct (solving_facts c0 px s0 t n) as [H _]. intros i. destruct (H i) as [A B]. rewrite A, B. unfold jac_row, centroid_of. rewrite HP. split; reflexivity. }
  assert (X : exists dt dn, s' = pushed px (contact_P (solving c0 px s0 t n) dt dn) s /\ forall i, (fr_n (ct_fr c0) <= i)%nat -> dt i = 0 /\ dn i = 0).
  { destruct HC as [HC|[HC HZ]].
    - apply ct_velocities_pushed in HC; [|apply HM|exact HF]. destruct HC as (dt & dn & -> & _ & Z). exists dt, dn. split; [reflexivity|exact Z].
    - apply ct_warmstart_pushed in HC. destruct HC as (-> & _ & _). eexists _, _. split; [reflexivity|]. exact HZ. }
  destruct X as (dt & dn & -> & Z).
  destruct (contact_P_momentum (solving c0 px s0 t n) px s m o dt dn HM HJ Z) as (A & B & C).
  split; [exact A|]. split; [exact B|]. intros HE. rewrite C.
  change (pt0 (solving c0 px s0 t n)) with (pt0 c0). change (pt1 (solving c0 px s0 t n)) with (pt1 c0).
  assert (Y : forall i, (i < 2)%nat -> cr (vsub (pt0 c0 i) (pt1 c0 i)) (force_at (solving c0 px s0 t n) (dt i) (dn i)) = 0).
  { intros i Hi. destruct (Nat.lt_ge_cases i (fr_n (ct_fr c0))) as [L|L].
    - rewrite (HE i L). unfold cr, vsub. cbn [vx vy]. rcbn. ring.
    - destruct (Z i L) as [-> ->]. unfold cr, force_at, rv. cbn [vx vy]. rcbn. ring. }
  rewrite !Y by lia. lra.
Qed.
Lemma coincide_momentum f px dt s s' p m o : joins f px s p p -> inverse_of m px -> vcall f px dt (cf_jac f px s) s s' ->
  mom_x m px s' = mom_x m px s /\ mom_y m px s' = mom_y m px s /\ mom_a m px o s' = mom_a m px o s.
Proof.
  intros HJ HM HC. destruct (vcall_momentum f px dt s s' p p m o HJ HM HC) as (A & B & C). split; [exact A|]. split; [exact B|].
  rewrite C. unfold cr, vsub. cbn [vx vy]. rcbn. ring.
Qed.
Lemma distance_momentum l0 l1 px dt s s' m o : inverse_of m px ->
  vcall (distance_fun l0 l1) px dt (cf_jac (distance_fun l0 l1) px s) s s' ->
  mom_x m px s' = mom_x m px s /\ mom_y m px s' = mom_y m px s /\ mom_a m px o s' = mom_a m px o s.
Proof.
  intros HM HC. destruct (vcall_momentum _ px dt s s' _ _ m o (J_distance l0 l1 px s) HM HC) as (A & B & C). split; [exact A|]. split; [exact B|].
  rewrite C, (distance_along l0 l1 px dt s s' m HM HC). lra.
Qed.
Lemma ex_momentum : exists s', vcall (hinge_fun (rv 1 0) (rv (-1) 0)) ex_px 1 (cf_jac (hinge_fun (rv 1 0) (rv (-1) 0)) ex_px ex_store) ex_store s' /\
  joins (hinge_fun (rv 1 0) (rv (-1) 0)) ex_px ex_store (rv 1 0) (rv 1 0) /\ s_vel s' 0%nat <> s_vel ex_store 0%nat.
Proof.
  destruct ex_hinge as (e & HE).
  destruct (hinge_together _ _ ex_px ex_store _ e vzero ex_store 1 ltac:(cbn; discriminate) HE eq_refl ltac:(reflexivity) ltac:(reflexivity)) as (e' & s' & EV & HP & HV).
  pose proof (eq_init_inv _ _ _ _ _ HE) as (HJ & _). exists s'.
  assert (VC : vcall (hinge_fun (rv 1 0) (rv (-1) 0)) ex_px 1 (cf_jac (hinge_fun (rv 1 0) (rv (-1) 0)) ex_px ex_store) ex_store s').
  { rewrite <- HJ. change (sb_J (es_base e)) with (sb_J (es_base (eq_at e vzero))). eapply VC_eq_vel. exact EV. }
  assert (JJ : joins (hinge_fun (rv 1 0) (rv (-1) 0)) ex_px ex_store (rv 1 0) (rv 1 0)).
  { pose proof (J_hinge (rv 1 0) (rv (-1) 0) ex_px ex_store) as J. unfold world0, world1 in J. cbn [ex_px px_i0 px_i1] in J. rewrite !ex_world in J. unfold rv in *. cbn [vx vy] in J.
    change (@K RNum) with R in *. replace (1 + 0) with 1 in J by ring. replace (-1 + 2) with 1 in J by ring. exact J. }
  split; [exact VC|]. split; [exact JJ|]. intros SV.
  destruct (coincide_momentum _ _ _ _ _ _ _ (rv 1 0) JJ ex_masses VC) as (MX & _ & MA).
  (* body 0 keeps (1,0) without spin; momentum then keeps body 1's velocity; the anchor velocities differ *)
  unfold mom_x, mom_a, vel0, vel1 in MX, MA. cbn [ex_px px_i0 px_i1] in MX, MA, HV. rewrite SV in MX, MA. rewrite HP in HV. unfold world0, world1 in HV. cbn [ex_px px_i0 px_i1] in HV. rewrite HP, !ex_world in HV.
  unfold pvel, p_centroid in HV. rewrite !ex_world, SV in HV. cbn [ex_store s_vel s_pos v_lin v_ang vx vy rv p_lc M0 M1 I0 I1] in *.
  destruct (s_vel s' 1%nat) as [[x y] w]. cbn [v_lin v_ang vx vy] in *. injection HV as HX HY. change (@K RNum) with R in *. lra.
Qed.
Definition pvel_at0 (px : Rprox) (s : Rstore) (l : Rv) : Rv := pvel (s_pos s (px_i0 px)) (s_vel s (px_i0 px)) (world0 px s l).
Definition pvel_at1 (px : Rprox) (s : Rstore) (l : Rv) : Rv := pvel (s_pos s (px_i1 px)) (s_vel s (px_i1 px)) (world1 px s l).

Lemma cone_R (m : @manifold RNum) T0 T1 (rest fric : R) os c px s c' s' : 0 <= fric -> ct_run os (@new_contact RNum m T0 T1 rest fric) = Ret c ->
  ct_velocities c px s = Ret (c', s') ->
  (forall i, 0 <= ct_nl c i) /\ (forall i, 0 <= ct_nl c' i) /\ forall i, (i < fr_n (ct_fr c))%nat -> Rabs (ct_tl c' i) <= fric * ct_nl c i.
Proof.
  intros HF HR HV. assert (NN : forall x : R, @nn RNum x <-> 0 <= x).
  { intros x. unfold nn, k0. cbn [kltb kofZ RNum]. change (@K RNum) with R. destruct (Rltb_spec x 0); split; intros; try discriminate; try lra; reflexivity. }
  destruct (contact_cone m T0 T1 rest fric os c px s c' s' (proj2 (NN fric) HF) HR HV) as (A & B & C).
  split; [intros; apply NN, A|]. split; [intros; apply NN, B|]. intros i Hi. destruct (C i Hi) as [C1 C2]. cbn [kltb kopp kmul RNum] in C1, C2.
  change (@K RNum) with R in *. destruct (Rltb_spec (ct_tl c' i) (- (fric * ct_nl c i))); [discriminate|]. destruct (Rltb_spec (fric * ct_nl c i) (ct_tl c' i)); [discriminate|].
  apply Rabs_le. lra.
Qed.
(** limits *)
Definition started (e : Rlis) (f : Rcfun) (px : Rprox) (s0 : Rstore) (l : Rvec) : Rlis :=
  li_set_base (li_init e f px s0) (set_lambda (ls_base (li_init e f px s0)) l).
Lemma limit_reached (e : Rlis) f px s0 : cf_dim f = 1%nat ->
  ls_func (li_init e f px s0) = reached (at0 (ls_L e)) (at0 (ls_U e)) (cf_eval f px s0 0%nat).
Proof. intros D. unfold li_init. cbn [compute_K init_base ls_func]. unfold li_next. rewrite D. apply next_func_reached. Qed.
Lemma limit_lower (e0 : Rlis) f px s0 l s dt fuel (L : Rvec) : (forall l dt, cf_clamp f l dt = l) -> cf_dim f = 1%nat ->
  ls_L e0 = Some L -> li_next e0 f px s0 = FLower -> uses 1 (cf_jac f px s0) px -> sb_damp (ls_base e0) 0%nat = 0 ->
  0 < eff (cf_jac f px s0) px 0 0 -> (2 <= fuel)%nat ->
  exists e' s', li_velocity fuel (started e0 f px s0 l) f px s dt = Ret (e', s') /\
    let gap := rowv (cf_jac f px s0) px s' 0 + cf_bias f px s 0%nat + sb_rest (ls_base e0) 0%nat / dt * (cf_eval f px s 0%nat - L 0%nat) in
    let l' := sb_lambda (ls_base e') 0%nat in
    0 <= l' /\ 0 <= gap /\ l' * gap = 0 /\ s' = pushed px (fun k => cf_jac f px s0 0%nat k * (l' - l 0%nat)) s.
Proof.
  intros CL D HL HN U DZ HE HF. eapply (li_lower_spec (cf_jac f px s0) l (sb_lambda (ls_base e0))); try eassumption;
  unfold started, li_init; rewrite HN; cbn [compute_K init_base li_set_base ls_base set_lambda ls_func ls_L ls_mem sb_prev sb_J sb_rest sb_damp]; try reflexivity; exact HL.
Qed.
Lemma limit_upper (e0 : Rlis) f px s0 l s dt fuel (U0 : Rvec) : (forall l dt, cf_clamp f l dt = l) -> cf_dim f = 1%nat ->
  ls_U e0 = Some U0 -> li_next e0 f px s0 = FUpper -> uses 1 (cf_jac f px s0) px -> sb_damp (ls_base e0) 0%nat = 0 ->
  0 < eff (cf_jac f px s0) px 0 0 -> (2 <= fuel)%nat ->
  exists e' s', li_velocity fuel (started e0 f px s0 l) f px s dt = Ret (e', s') /\
    let gap := - (rowv (cf_jac f px s0) px s' 0 + cf_bias f px s 0%nat + sb_rest (ls_base e0) 0%nat / dt * (cf_eval f px s 0%nat - U0 0%nat)) in
    let l' := sb_lambda (ls_base e') 0%nat in
    0 <= l' /\ 0 <= gap /\ l' * gap = 0 /\ s' = pushed px (fun k => - (cf_jac f px s0 0%nat k * (l' - l 0%nat))) s.
Proof.
  intros CL D HL HN U DZ HE HF. eapply (li_upper_spec (cf_jac f px s0) l (sb_lambda (ls_base e0))); try eassumption;
  unfold started, li_init; rewrite HN; cbn [compute_K init_base li_set_base ls_base set_lambda ls_func ls_U ls_mem sb_prev sb_J sb_rest sb_damp]; try reflexivity; exact HL.
Qed.
Lemma limit_sign (f : Rcfun) rest damp os e : (forall l dt, cf_clamp f l dt = l) -> li_run f os (@new_lisolver RNum rest damp) = Ret e ->
  ls_func e = FLower \/ ls_func e = FUpper -> forall i, (i < cf_dim f)%nat -> 0 <= sb_lambda (ls_base e) i.
Proof. intros CL HR HF. exact (proj1 (li_run_inv f os CL _ _ (li_new_inv (cf_dim f) rest damp) HR HF)). Qed.
Lemma ex_finite i : vel_finite (s_vel fstore i).
Proof. destruct i as [|i]; repeat split; vm_compute; reflexivity. Qed.
Lemma ex_sensible : sensible (Some 3) (Some 5) /\ sensible None (Some 5) /\ ~ sensible (Some 3) None.
Proof. unfold sensible. repeat split; try lra; tauto. Qed.
