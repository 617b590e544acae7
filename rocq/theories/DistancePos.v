(** The position solve of limited constraints and of the distance constraint
    (C85) and the velocity solve of one-sided constraints (C86), exact
    arithmetic. *)
From Coq Require Import ZArith List Bool Reals Lra Psatz Lia Arith FunctionalExtensionality.
From Verif Require Import Num Outcome Box Mat MatFacts MatSolve Geom GeomClosest Transform TransformFacts Body BodyFacts Constraint ConstraintFacts Contact ConstraintMomentum ConstraintLimits ConstraintMotor ContactSolve ConstraintThm ContactPos ConstraintPos.
Import ListNotations.
Local Open Scope R_scope.

(** the value nearest to [x] which respects the limits *)
Definition allowed (lo up : option R) (x : R) : R :=
  let y := match lo with Some m => Rmax m x | None => x end in
  match up with Some M => Rmin M y | None => y end.

Lemma le1 (a b : Rvec) : all_le (N := RNum) 1 a b = if Rlt_dec (b 0%nat) (a 0%nat) then false else true.
Proof. cbn [all_le andb]. cbn [kltb RNum]. unfold Rltb. destruct (Rlt_dec _ _); reflexivity. Qed.
Lemma eq1 (a b : Rvec) : all_eq (N := RNum) 1 a b = if Req_EM_T (a 0%nat) (b 0%nat) then true else false.
Proof. cbn [all_eq andb]. cbn [keqb RNum]. unfold Reqb. destruct (Req_EM_T _ _); reflexivity. Qed.

Ltac lt_case H P := match goal with |- context [Rlt_dec ?x ?y] => destruct (Rlt_dec x y) as [H|H]; [change P in H|change (~ P) in H] end.
Definition limit0 (o : option Rvec) : option R := match o with Some v => Some (v 0%nat) | None => None end.
Lemma li_position_one fuel (e : Rlis) f (px : Rprox) s : cf_dim f = 1%nat -> (forall l, cf_clampPos f l = l) -> px_i0 px <> px_i1 px ->
  0 < eff (cf_jac f px s) px 0 0 -> (2 <= fuel)%nat -> limits_ok 1 (ls_L e) (ls_U e) = true -> (ls_L e <> None \/ ls_U e <> None) ->
  exists e' (l : Rvec), li_position fuel e f px s = Ret (e', shifted px (displ_of px (impulse 1 (cf_jac f px s) l)) s) /\
    cf_eval f px s 0%nat + eff (cf_jac f px s) px 0 0 * l 0%nat = allowed (limit0 (ls_L e)) (limit0 (ls_U e)) (cf_eval f px s 0%nat).
Proof.
  intros D1 CL NE HE HF OK HS. unfold li_position, li_next. rewrite D1. cbn [compute_K sb_J].
  set (J := cf_jac f px s) in *. set (C := cf_eval f px s) in *. set (a := eff J px 0 0) in *. rewrite eff_fun.
  assert (IND : independent 1 (eff J px)).
  { intros x H i Hi. destruct i; [|lia]. specialize (H 0%nat Hi). unfold mvmul in H. cbn [ksum] in H. fold a in H. unfold k0 in H. cbn [kadd kmul kofZ RNum] in H.
    change (0 + a * x 0%nat = 0) in H. rewrite Rplus_0_l in H. apply Rmult_integral in H. destruct H; [lra|assumption]. }
  assert (LO : forall L : Rvec, exists x, @solveInequalities RNum fuel 1 (eff J px) (fun i => kopp (ksub (C i) (L i))) (fun x i => kmax (cf_clampPos f x i) k0) vzero keps = Ret x /\
     x 0%nat = Rmax 0 ((L 0%nat - C 0%nat) / a)).
  { intros L. match goal with |- context [solveInequalities fuel 1 ?A ?b ?pr ?g _] => destruct (gs_one fuel A b pr (fun x => kmax (N := RNum) x k0) g (@keps RNum)) as (x & SX & VX) end;
      [intros z; cbv beta; rewrite CL; reflexivity|exact eps_pos|exact HF|]. exists x. split; [exact SX|]. rewrite VX. fold a. unfold kmax, k0. cbn [kltb kopp ksub kdiv kofZ RNum]. change (@K RNum) with R in *.
    replace (- (C 0%nat - L 0%nat) / a) with ((L 0%nat - C 0%nat) / a) by (unfold Rdiv; ring). unfold Rltb, Rmax. destruct (Rlt_dec _ 0), (Rle_dec 0 _); try reflexivity; lra. }
  assert (UP : forall U : Rvec, exists x, @solveInequalities RNum fuel 1 (eff J px) (fun i => ksub (C i) (U i)) (fun x i => kmax (kopp (cf_clampPos f (fun i => kopp (x i)) i)) k0) vzero keps = Ret x /\
     x 0%nat = Rmax 0 ((C 0%nat - U 0%nat) / a)).
  { intros U. match goal with |- context [solveInequalities fuel 1 ?A ?b ?pr ?g _] => destruct (gs_one fuel A b pr (fun x => kmax (N := RNum) x k0) g (@keps RNum)) as (x & SX & VX) end;
      [intros z; cbv beta; rewrite CL; unfold kmax; cbn [kltb kopp RNum]; rewrite !Ropp_involutive; reflexivity|exact eps_pos|exact HF|]. exists x. split; [exact SX|]. rewrite VX. fold a.
    unfold kmax, k0. cbn [kltb ksub kdiv kofZ RNum]. change (@K RNum) with R in *. unfold Rltb, Rmax. destruct (Rlt_dec _ 0), (Rle_dec 0 _); try reflexivity; lra. }
  assert (MUL : forall y : R, a * (y / a) = y) by (intros; field; lra).
  assert (POS : forall y : R, 0 <= y -> Rmax 0 (y / a) = y / a) by (intros y Hy; apply Rmax_right; apply Rmult_le_pos; [exact Hy|apply Rlt_le, Rinv_0_lt_compat; exact HE]).
  assert (EQ : forall L : Rvec, exists x, @ks_solve RNum 1 (@ks_make RNum 1 (eff J px)) (fun i => kopp (ksub (C i) (L i))) = Ret x /\ a * x 0%nat = L 0%nat - C 0%nat).
  { intros L. apply ks_valid_iff in IND. destruct (ks_spec _ _ (fun i => @kopp RNum (@ksub RNum (C i) (L i))) IND) as (x & SX & VX). exists x. split; [exact SX|].
    specialize (VX 0%nat ltac:(lia)). unfold mvmul in VX. cbn [ksum] in VX. fold a in VX. unfold k0 in VX. cbn [kadd kmul kopp ksub kofZ RNum] in VX. change (@K RNum) with R in *. lra. }
  unfold next_func, limits_ok in *. destruct (ls_L e) as [L|] eqn:EL, (ls_U e) as [U|] eqn:EU; cbn [limit0 allowed].
  - rewrite le1 in OK. destruct (Rlt_dec (U 0%nat) (L 0%nat)) as [|OK']; [discriminate|]. rewrite eq1, !le1. change (@K RNum) with R in *.
    destruct (Req_EM_T (L 0%nat) (U 0%nat)) as [E|NQ].
    + cbn [opt_value obind]. destruct (EQ L) as (x & SX & VX). rewrite SX. cbn [obind]. rewrite CL, apply_C_shift by exact NE. cbn [obind].
      eexists _, x. split; [reflexivity|]. rewrite VX. unfold Rmin, Rmax. destruct (Rle_dec (L 0%nat) (C 0%nat)), (Rle_dec _ _); lra.
    + lt_case P (0 < C 0%nat - L 0%nat).
      * lt_case Q (0 < - C 0%nat + U 0%nat).
        -- cbn [obind]. rewrite apply_C_shift by exact NE. cbn [obind]. eexists _, _. split; [reflexivity|]. unfold vzero, k0. cbn [kofZ RNum]. rewrite Rmult_0_r, Rplus_0_r. unfold Rmin, Rmax. destruct (Rle_dec (L 0%nat) (C 0%nat)), (Rle_dec _ _); lra.
        -- cbn [opt_value obind]. destruct (UP U) as (x & SX & VX). rewrite SX. cbn [obind]. rewrite apply_C_shift by exact NE. cbn [obind]. eexists _, _. split; [reflexivity|].
           cbv beta. rewrite VX, POS by lra. transitivity (C 0%nat - a * ((C 0%nat - U 0%nat) / a)); [rcbn; ring|]. rewrite MUL. unfold Rmin, Rmax. destruct (Rle_dec (L 0%nat) (C 0%nat)), (Rle_dec _ _); lra.
      * cbn [opt_value obind]. destruct (LO L) as (x & SX & VX). rewrite SX. cbn [obind]. rewrite apply_C_shift by exact NE. cbn [obind]. eexists _, _. split; [reflexivity|].
        rewrite VX, POS by lra. rewrite MUL. unfold Rmin, Rmax. destruct (Rle_dec (L 0%nat) (C 0%nat)), (Rle_dec _ _); lra.
  - rewrite !le1. change (@K RNum) with R in *.
    lt_case P (0 < C 0%nat - L 0%nat).
    + cbn [obind]. rewrite apply_C_shift by exact NE. cbn [obind]. eexists _, _. split; [reflexivity|]. unfold vzero, k0. cbn [kofZ RNum]. rewrite Rmult_0_r, Rplus_0_r. unfold Rmax. destruct (Rle_dec (L 0%nat) (C 0%nat)); lra.
    + cbn [opt_value obind]. destruct (LO L) as (x & SX & VX). rewrite SX. cbn [obind]. rewrite apply_C_shift by exact NE. cbn [obind]. eexists _, _. split; [reflexivity|].
      rewrite VX, POS by lra. rewrite MUL. unfold Rmax. destruct (Rle_dec (L 0%nat) (C 0%nat)); lra.
  - rewrite !le1. change (@K RNum) with R in *.
    lt_case Q (0 < - C 0%nat + U 0%nat).
    + cbn [obind]. rewrite apply_C_shift by exact NE. cbn [obind]. eexists _, _. split; [reflexivity|]. unfold vzero, k0. cbn [kofZ RNum]. rewrite Rmult_0_r, Rplus_0_r. unfold Rmin. destruct (Rle_dec (U 0%nat) (C 0%nat)); lra.
    + cbn [opt_value obind]. destruct (UP U) as (x & SX & VX). rewrite SX. cbn [obind]. rewrite apply_C_shift by exact NE. cbn [obind]. eexists _, _. split; [reflexivity|].
      cbv beta. rewrite VX, POS by lra. transitivity (C 0%nat - a * ((C 0%nat - U 0%nat) / a)); [rcbn; ring|]. rewrite MUL. unfold Rmin. destruct (Rle_dec (U 0%nat) (C 0%nat)); lra.
  - destruct HS as [H|H]; congruence.
Qed.

(** ** distances *)
Definition between (px : Rprox) (s : Rstore) (l0 l1 : Rv) : Rv := vsub (world0 px s l0) (world1 px s l1).
Definition sqdist (px : Rprox) (s : Rstore) (l0 l1 : Rv) : R := let d := between px s l0 l1 in vx d * vx d + vy d * vy d.
(** second-order terms: of the angles turned and of the change of the vector
    between the anchors *)
Definition bend (px : Rprox) (s s' : Rstore) (l0 l1 : Rv) : R :=
  let d := between px s l0 l1 in let d' := between px s' l0 l1 in
  2 * (Rabs (vx d) + Rabs (vy d)) * slack px s s' l0 l1 + ((vx d' - vx d) * (vx d' - vx d) + (vy d' - vy d) * (vy d' - vy d)).

Lemma distance_eval l0 l1 (px : Rprox) s : cf_eval (distance_fun l0 l1) px s 0%nat = sqdist px s l0 l1.
Proof. unfold distance_fun, sqdist, between, world0, world1, to_world_of, vnormsq, vdot. cbn [cf_eval vec1]. cbn [kadd kmul RNum]. rring. Qed.
Lemma distance_row l0 l1 (px : Rprox) s D : px_i0 px <> px_i1 px ->
  let p0 := s_pos s (px_i0 px) in let p1 := s_pos s (px_i1 px) in let d := between px s l0 l1 in
  let c0 := carried p0 (sh_d0 D) (sh_a0 D) (world0 px s l0) in let c1 := carried p1 (sh_d1 D) (sh_a1 D) (world1 px s l1) in
  rowd (cf_jac (distance_fun l0 l1) px s) D 0 = 2 * (vx d * (vx c0 - vx c1 - vx d) + vy d * (vy c0 - vy c1 - vy d)).
Proof.
  intros NE. cbv zeta. unfold rowd, distance_fun, between, carried, world0, world1, to_world_of, centroid_of, rv. cbn [cf_jac rows1 row6].
  set (a := tf_apply _ l0). set (b := tf_apply _ l1). set (c := p_centroid _). set (e := p_centroid (s_pos s (px_i1 px))).
  unfold vcross, vsub, k2. cbn [vx vy]. rcbn. ring.
Qed.
Lemma distance_close l0 l1 (px : Rprox) s D t : px_i0 px <> px_i1 px -> is_rotation (p_rot (s_pos s (px_i0 px))) -> is_rotation (p_rot (s_pos s (px_i1 px))) ->
  sqdist px s l0 l1 + rowd (cf_jac (distance_fun l0 l1) px s) D 0 = t ->
  Rabs (sqdist px (shifted px D s) l0 l1 - t) <= bend px s (shifted px D s) l0 l1.
Proof.
  intros NE R0 R1 HT. rewrite (distance_row l0 l1 px s D NE) in HT. cbv zeta in HT. unfold bend, slack. cbv zeta.
  rewrite shifted_turned_0, shifted_turned_1 by exact NE. unfold sqdist, between, world0, world1 in *. cbv zeta in *. rewrite shifted_0, shifted_1 by exact NE.
  destruct (advance_point (s_pos s (px_i0 px)) (sh_d0 D) (sh_a0 D) l0 R0) as [X0 Y0].
  destruct (advance_point (s_pos s (px_i1 px)) (sh_d1 D) (sh_a1 D) l1 R1) as [X1 Y1].
  set (p0 := tf_apply (to_world (s_pos s (px_i0 px))) l0) in *. set (p1 := tf_apply (to_world (s_pos s (px_i1 px))) l1) in *.
  set (q0 := tf_apply (to_world (pos_advance _ _ _)) l0) in *. set (q1 := tf_apply (to_world (pos_advance _ _ _)) l1) in *.
  set (c0 := carried _ _ _ p0) in *. set (c1 := carried _ _ _ p1) in *.
  set (e0 := _ * _ * reach _ p0) in *. set (e1 := _ * _ * reach _ p1) in *. clearbody p0 p1 q0 q1 c0 c1 e0 e1.
  unfold vsub in *. cbn [vx vy] in *. cbn [ksub RNum] in *. change (@K RNum) with R in *.
  set (dx := vx p0 - vx p1) in *. set (dy := vy p0 - vy p1) in *.
  set (ux := (vx q0 - vx c0) - (vx q1 - vx c1)). set (uy := (vy q0 - vy c0) - (vy q1 - vy c1)).
  assert (EX : Rabs ux <= e0 + e1).
  { replace ux with ((vx q0 - vx c0) + - (vx q1 - vx c1)) by (subst ux; ring). eapply Rle_trans; [apply Rabs_triang|]. rewrite Rabs_Ropp. apply Rplus_le_compat; assumption. }
  assert (EY : Rabs uy <= e0 + e1).
  { replace uy with ((vy q0 - vy c0) + - (vy q1 - vy c1)) by (subst uy; ring). eapply Rle_trans; [apply Rabs_triang|]. rewrite Rabs_Ropp. apply Rplus_le_compat; assumption. }
  match goal with |- Rabs ?x <= _ + ?q => replace x with (2 * (dx * ux + dy * uy) + q) by (subst t ux uy dx dy; ring) end.
  eapply Rle_trans; [apply Rabs_triang|]. apply Rplus_le_compat.
  - rewrite Rabs_mult, (Rabs_pos_eq 2) by lra. rewrite Rmult_assoc. apply Rmult_le_compat_l; [lra|].
    eapply Rle_trans; [apply Rabs_triang|]. rewrite !Rabs_mult. rewrite Rmult_plus_distr_r.
    apply Rplus_le_compat; apply Rmult_le_compat_l; try apply Rabs_pos; assumption.
  - rewrite Rabs_pos_eq; [lra|]. apply Rplus_le_le_0_compat; apply Rle_0_sqr.
Qed.
Lemma distance_eff l0 l1 (px : Rprox) s : massive px -> between px s l0 l1 <> rv 0 0 -> 0 < eff (cf_jac (distance_fun l0 l1) px s) px 0 0.
Proof.
  intros (M0 & M1 & I0 & I1 & M & MI) ND. unfold eff, distance_fun. cbn [cf_jac rows1 row6]. unfold between, world0, world1, to_world_of in *.
  set (p0 := tf_apply _ l0) in *. set (p1 := tf_apply _ l1) in *. set (d := vsub p0 p1) in *.
  assert (Q : 0 < vx d * vx d + vy d * vy d).
  { pose proof (Rle_0_sqr (vx d)) as A. pose proof (Rle_0_sqr (vy d)) as B. unfold Rsqr in *. destruct (Rle_lt_dec (vx d * vx d + vy d * vy d) 0) as [Z|Z]; [|exact Z].
    exfalso. apply ND. assert (X : vx d * vx d = 0) by (change (@K RNum) with R in *; lra). assert (Y : vy d * vy d = 0) by (change (@K RNum) with R in *; lra).
    apply Rmult_integral in X, Y. destruct d as [dx dy]. cbn [vx vy] in *. unfold rv. f_equal; tauto. }
  clearbody d. clear ND. set (u := vcross _ d). set (v := vcross (vsub p1 _) d). clearbody u v. unfold k2. rcbn. change (@K RNum) with R in *.
  pose proof (Rle_0_sqr u) as A. pose proof (Rle_0_sqr v) as B. unfold Rsqr in *.
  pose proof (Rmult_le_pos _ _ I0 A). pose proof (Rmult_le_pos _ _ I1 B). pose proof (Rmult_lt_0_compat _ _ M Q). nra.
Qed.
Lemma advance_zero (p : @position RNum) : is_rotation (p_rot p) -> pos_advance p (rv 0 0) 0 = p.
Proof.
  intros IR. destruct (rotation_trig _ IR) as [RC RS]. destruct p as [o r lc]. cbn [p_rot] in *. destruct r as [t c sn]. cbn [r_theta r_cos r_sin] in *. subst c sn. destruct o as [x y].
  unfold pos_advance, tra_mul, rot_mul, mk_rot, vadd, rv. cbn [p_off p_rot p_lc r_theta vx vy kcos ksin RTrig]. cbn [kadd RNum]. rewrite !Rplus_0_r. reflexivity.
Qed.
Lemma shifted_zero (px : Rprox) (l : Rvec) J s : (forall i, (i < 1)%nat -> l i = 0) -> px_i0 px <> px_i1 px -> is_rotation (p_rot (s_pos s (px_i0 px))) -> is_rotation (p_rot (s_pos s (px_i1 px))) ->
  forall i, s_pos (shifted px (displ_of px (impulse 1 J l)) s) i = s_pos s i.
Proof.
  intros HL NE R0 R1 i.
  assert (Z : forall k, impulse (N := RNum) 1 J l k = 0).
  { intros k. unfold impulse, mvmul. cbn [ksum]. rewrite (HL 0%nat) by lia. unfold k0. cbn [kadd kmul kofZ RNum]. rring. }
  assert (ED : displ_of px (impulse 1 J l) = Displ (rv 0 0) 0 (rv 0 0) 0).
  { unfold displ_of. rewrite !Z. rewrite !Rmult_0_l, !Rmult_0_r. reflexivity. }
  rewrite ED. unfold shifted. cbn [s_pos sh_d0 sh_a0 sh_d1 sh_a1].
  destruct (Nat.eqb_spec i (px_i1 px)) as [->|N1]; [apply advance_zero; exact R1|]. destruct (Nat.eqb_spec i (px_i0 px)) as [->|N0]; [apply advance_zero; exact R0|reflexivity].
Qed.

(** the limits of a distance constraint, as its constructor makes them (C52) *)
Definition within (minD maxD : option R) (e : Rlis) : Prop :=
  limit0 (ls_L e) = match minD with Some m => Some (m * m) | None => None end /\
  limit0 (ls_U e) = match maxD with Some M => Some (M * M) | None => None end.
Lemma built_within minD maxD e : built minD maxD e -> within minD maxD e.
Proof.
  intros (A & B & _). split.
  - destruct minD as [m|]; [destruct A as (L & -> & E); cbn; congruence|rewrite A; reflexivity].
  - destruct maxD as [m|]; [destruct B as (L & -> & E); cbn; congruence|rewrite B; reflexivity].
Qed.
Definition sq (o : option R) : option R := match o with Some m => Some (m * m) | None => None end.
Lemma distance_position fuel (e : Rlis) minD maxD l0 l1 (px : Rprox) s : within minD maxD e -> sensible minD maxD -> massive px -> px_i0 px <> px_i1 px ->
  is_rotation (p_rot (s_pos s (px_i0 px))) -> is_rotation (p_rot (s_pos s (px_i1 px))) -> between px s l0 l1 <> rv 0 0 -> (2 <= fuel)%nat ->
  exists e' s', li_position fuel e (distance_fun l0 l1) px s = Ret (e', s') /\
    Rabs (sqdist px s' l0 l1 - allowed (sq minD) (sq maxD) (sqdist px s l0 l1)) <= bend px s s' l0 l1 /\
    (allowed (sq minD) (sq maxD) (sqdist px s l0 l1) = sqdist px s l0 l1 -> forall i, s_pos s' i = s_pos s i) /\
    s_vel s' = s_vel s /\ forall i, i <> px_i0 px -> i <> px_i1 px -> s_pos s' i = s_pos s i.
Proof.
  intros [WL WU] SN M NE R0 R1 ND HF.
  assert (HE := distance_eff l0 l1 px s M ND).
  destruct (li_position_one fuel e (distance_fun l0 l1) px s) as (e' & l & E & H); try assumption; try reflexivity.
  - unfold limits_ok. destruct (ls_L e) as [L|], (ls_U e) as [U|]; try reflexivity. rewrite le1. destruct minD as [m|], maxD as [MM|]; cbn in WL, WU; try discriminate.
    injection WL as WL. injection WU as WU. rewrite WL, WU. cbn in SN. destruct (Rlt_dec _ _) as [B|B]; [|reflexivity]. exfalso. nra.
  - destruct maxD as [MM|]; [|destruct minD; destruct SN]. right. intros X. rewrite X in WU. discriminate.
  - exists e', (shifted px (displ_of px (impulse 1 (cf_jac (distance_fun l0 l1) px s) l)) s). split; [exact E|]. rewrite distance_eval, WL, WU in H. fold (sq minD) (sq maxD) in H.
    split; [|split; [|split; [reflexivity|intros; apply shifted_others; assumption]]].
    + apply distance_close; try assumption. rewrite <- H, rowd_impulse. cbn [ksum]. unfold k0. cbn [kadd kmul kofZ RNum]. ring.
    + intros EA. rewrite EA in H. apply shifted_zero; try assumption. intros i Hi. destruct i; [|lia].
      assert (Z : eff (cf_jac (distance_fun l0 l1) px s) px 0 0 * l 0%nat = 0) by lra. apply Rmult_integral in Z. destruct Z; [lra|assumption].
Qed.

(** ** C86: a one-sided constraint of one row *)
Notation Rins := (@insolver RNum).
Definition in_at (e : Rins) (l : Rvec) : Rins := InS (set_lambda (is_base e) l) (is_K e).
Lemma in_velocity_one fuel (e0 : Rins) (f : Rcfun) (px : Rprox) s0 (l : Rvec) s dt : cf_dim f = 1%nat -> (forall (l : Rvec) (dt : R), cf_clamp f l dt 0%nat = Rmax 0 (l 0%nat)) ->
  uses 1 (cf_jac f px s0) px -> sb_damp (is_base e0) 0%nat = 0 -> 0 < eff (cf_jac f px s0) px 0 0 -> (2 <= fuel)%nat ->
  exists e' s', in_velocity fuel (in_at (in_init e0 f px s0) l) f px s dt = Ret (e', s') /\
    let gap := rowv (cf_jac f px s0) px s' 0 + cf_bias f px s 0%nat + sb_rest (is_base e0) 0%nat * cf_eval f px s 0%nat / dt in
    let l' := sb_lambda (is_base e') 0%nat in
    0 <= l' /\ 0 <= gap /\ l' * gap = 0 /\ s' = pushed px (fun k => cf_jac f px s0 0%nat k * (l' - l 0%nat)) s.
Proof.
  intros D1 CL U DZ HE HF. unfold in_velocity, in_at, in_init. cbn [compute_K init_base is_base is_K set_lambda sb_lambda sb_J sb_rest sb_damp]. rewrite D1.
  set (J := cf_jac f px s0) in *.
  match goal with |- context [solveInequalities fuel 1 ?A ?b ?pr l _] => destruct (gs_one fuel A b pr (fun x => Rmax 0 x) l (@keps RNum)) as (x & SX & VX) end;
    [intros z; cbv beta; apply CL|exact eps_pos|exact HF|].
  rewrite SX. cbn [obind]. unfold update_lambda. rewrite apply_P_R. cbn [obind fst snd]. eexists _, _. split; [reflexivity|].
  unfold compute_rhs, set_lambda in VX. cbn [sb_J sb_rest sb_lambda] in VX. rewrite D1, rowv_eq in VX.
  unfold madd, mdiagonal, mvmul in VX. cbn [ksum Nat.eqb] in VX. rewrite eff_eq, DZ in VX.
  cbn [sb_lambda sb_J set_lambda is_base]. rewrite D1, rowv_pushed by (try exact U; lia). cbn [ksum]. rewrite !CL.
  set (a := eff J px 0 0) in *. set (jv := rowv J px s 0) in *. set (bi := cf_bias f px s 0%nat) in *. set (C := cf_eval f px s 0%nat) in *. set (r := sb_rest (is_base e0) 0%nat) in *.
  set (v := jv + bi + r * C / dt).
  assert (VX2 : x 0%nat = Rmax 0 (l 0%nat - v / a)).
  { rewrite VX. f_equal. unfold k0. cbn [kadd kmul ksub kdiv kopp kofZ RNum]. change (@K RNum) with R in *. rewrite !Rplus_0_r, !Rplus_0_l. unfold v, Rdiv.
    transitivity (l 0%nat * (a * / a) - (jv + bi + r * C * / dt) * / a); [ring|]. rewrite Rinv_r by lra. ring. }
  assert (LX : Rmax 0 (@kadd RNum (l 0%nat) (@ksub RNum (x 0%nat) (l 0%nat))) = x 0%nat).
  { cbn [kadd ksub RNum]. change (@K RNum) with R in *. replace (l 0%nat + (x 0%nat - l 0%nat)) with (x 0%nat) by rring. apply Rmax_right. rewrite VX2. apply Rmax_l. }
  rewrite LX. unfold k0. cbn [kadd kmul ksub kofZ RNum]. change (@K RNum) with R in *.
  destruct (comp_core a (l 0%nat) v (x 0%nat) HE) as (P1 & P2 & P3).
  { rewrite VX2. unfold Rmax. destruct (Rle_dec 0 _), (Rlt_dec _ 0); try reflexivity; lra. }
  split; [exact P1|].
  match goal with |- 0 <= ?g /\ _ => replace g with (v + a * (x 0%nat - l 0%nat)) by (unfold v; ring) end.
  split; [exact P2|]. split; [exact P3|].
  unfold pushed. f_equal. apply functional_extensionality; intros i.
  assert (Q : forall k, impulse 1 J (fun i0 : nat => (cf_clamp f (fun i1 : nat => l i1 + (x i1 - l i1)) dt i0 - l i0)%num) k = J 0%nat k * (x 0%nat - l 0%nat)).
  { intros k. unfold impulse, mvmul, mtrans. cbn [ksum]. rewrite CL. cbn [kadd ksub RNum] in LX |- *. rewrite LX. rring. }
  rewrite !Q. reflexivity.
Qed.

(** anchors 10 apart in squared distance, allowed between 1 and 2 *)
Lemma ex_far : exists e, @distance_ctor RNum (Some 1) (Some 2) = Ret e /\ within (Some 1) (Some 2) e /\ sensible (Some 1) (Some 2) /\ massive ex_px /\
  between ex_px ex_hold (rv 1 0) (rv 3 1) <> rv 0 0 /\ sqdist ex_px ex_hold (rv 1 0) (rv 3 1) = 10 /\ allowed (sq (Some 1)) (sq (Some 2)) 10 = 4.
Proof.
  assert (S12 : sensible (Some 1) (Some 2)) by (unfold sensible; lra).
  destruct (distance_ctor_R (Some 1) (Some 2)) as [C _]. destruct (C S12) as (e & E & B).
  destruct ex_apart as (M & _ & _ & _ & W0 & W1).
  assert (BT : between ex_px ex_hold (rv 1 0) (rv 3 1) = rv (-3) (-1)).
  { unfold between. rewrite W0, W1. unfold vsub, rv. cbn. apply (f_equal2 (@V2 RNum)); rring. }
  exists e. split; [exact E|]. split; [apply built_within; exact B|]. split; [exact S12|]. split; [exact M|]. split; [|split].
  - rewrite BT. intros H. injection H. intros. lra.
  - unfold sqdist. rewrite BT. cbn. rring.
  - unfold allowed, sq. rewrite Rmax_right, Rmin_left; lra.
Qed.
(** body 0 may not go below the floor y = 0; it falls at speed 3 *)
Definition ex_floor : Rcfun := @CF RNum 1 (fun px s _ => vy (centroid_of (px_i0 px) s)) (fun _ _ _ => 0) (fun _ _ _ k => match k with 1%nat => 1 | _ => 0 end)
  (fun l _ i => Rmax 0 (l i)) (fun l => l).
Lemma ex_floor_ok : cf_dim ex_floor = 1%nat /\ (forall (l : Rvec) (dt : R), cf_clamp ex_floor l dt 0%nat = Rmax 0 (l 0%nat)) /\
  uses 1 (cf_jac ex_floor ex_px ex_hold) ex_px /\ eff (cf_jac ex_floor ex_px ex_hold) ex_px 0 0 = 1.
Proof. split; [reflexivity|]. split; [reflexivity|]. split; [left; discriminate|]. unfold eff. cbn. rring. Qed.
