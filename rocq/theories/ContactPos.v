(** The position correction of a contact (C81), exact arithmetic. *)
From Coq Require Import ZArith List Bool Reals Lra Psatz Lia Arith FunctionalExtensionality.
From Verif Require Import Num Outcome Box Mat MatFacts MatSolve Geom GeomClosest Transform TransformFacts Body BodyFacts Constraint ConstraintFacts Contact ConstraintMomentum ContactSolve ConstraintThm.
Import ListNotations.
Local Open Scope R_scope.

(** ** what the property speaks about *)
(** the contact with its points and normal where the bodies are in [s] *)
Definition placed (c : Rcontact) (px : Rprox) (s : Rstore) : Rcontact := ct_set_frame c (ct_man c) (frame_at (ct_man c) px s).
(** how far the points of contact [i] are apart along the normal: negative when
    the bodies overlap there *)
Definition gap (c : Rcontact) (px : Rprox) (s : Rstore) (i : nat) : R :=
  let f := frame_at (ct_man c) px s in
  vx (fr_normal f) * (vx (fr_c f false i) - vx (fr_c f true i)) + vy (fr_normal f) * (vy (fr_c f false i) - vy (fr_c f true i)).
(** a displacement of the two bodies: a translation and a rotation about the
    centroid for each *)
Record displ := Displ { sh_d0 : Rv; sh_a0 : R; sh_d1 : Rv; sh_a1 : R }.
Definition shifted (px : Rprox) (D : displ) (s : Rstore) : Rstore :=
  @Store RNum (fun k => if Nat.eqb k (px_i1 px) then pos_advance (s_pos s k) (sh_d1 D) (sh_a1 D)
             else if Nat.eqb k (px_i0 px) then pos_advance (s_pos s k) (sh_d0 D) (sh_a0 D) else s_pos s k) (s_vel s).
(** the change of [gap] it makes, to first order: each point moves by the
    translation plus the angle times its perpendicular lever *)
Definition widened (c : Rcontact) (px : Rprox) (s : Rstore) (D : displ) (i : nat) : R :=
  let f := frame_at (ct_man c) px s in
  let a := pvel (s_pos s (px_i0 px)) (@Vel RNum (sh_d0 D) (sh_a0 D)) (fr_c f false i) in
  let b := pvel (s_pos s (px_i1 px)) (@Vel RNum (sh_d1 D) (sh_a1 D)) (fr_c f true i) in
  vx (fr_normal f) * (vx a - vx b) + vy (fr_normal f) * (vy a - vy b).
(** a fifth of the depth beyond the tolerance, at most a fifth of a unit *)
Definition asked (tol g : R) : R := Rmax 0 (Rmin (1 / 5) ((- g - tol) / 5)).

(** ** proofs *)
Lemma adv_R i (d : Rv) (a : R) (s : Rstore) : proxy_advancePos i d a s = Ret (@Store RNum (set_at (s_pos s) i (pos_advance (s_pos s i) d a)) (s_vel s)).
Proof. reflexivity. Qed.
Lemma apply_C_shift (px : Rprox) (P : Rvec) (s : Rstore) : px_i0 px <> px_i1 px ->
  apply_C px P s = Ret (shifted px (Displ (rv (P 0%nat * px_m0 px) (P 1%nat * px_m0 px)) (px_I0 px * P 2%nat) (rv (P 3%nat * px_m1 px) (P 4%nat * px_m1 px)) (px_I1 px * P 5%nat)) s).
Proof.
  intros NE. unfold apply_C. rewrite adv_R. cbn [obind]. rewrite adv_R. cbn [s_pos s_vel]. unfold shifted. f_equal. f_equal.
  apply functional_extensionality. intros k. unfold set_at. cbn [sh_d0 sh_a0 sh_d1 sh_a1].
  destruct (Nat.eqb_spec k (px_i1 px)) as [->|N1].
  - destruct (Nat.eqb_spec (px_i1 px) (px_i0 px)); [congruence|]. f_equal.
  - destruct (Nat.eqb_spec k (px_i0 px)) as [->|]; reflexivity.
Qed.
Lemma widened_row (c : Rcontact) (px : Rprox) s (P : Rvec) i : (i < mf_n (ct_man c))%nat ->
  widened c px s (Displ (rv (P 0%nat * px_m0 px) (P 1%nat * px_m0 px)) (px_I0 px * P 2%nat) (rv (P 3%nat * px_m1 px) (P 4%nat * px_m1 px)) (px_I1 px * P 5%nat)) i =
  row_vel (jac_row (frame_at (ct_man c) px s) px s (fr_normal (frame_at (ct_man c) px s)) i) (fun k => px_invMassVec px k * P k).
Proof.
  intros Hi. unfold jac_row. rewrite (proj2 (Nat.ltb_lt i (fr_n (frame_at (ct_man c) px s))) Hi).
  unfold widened, pvel, row_vel, row6, px_invMassVec, row6, centroid_of, rv. cbn [ksum v_lin v_ang sh_d0 sh_a0 sh_d1 sh_a1]. unfold vcross, vsub, k0. cbn [vx vy].
  set (f := frame_at _ _ _). generalize (fr_c f false i) (fr_c f true i) (fr_normal f). intros a b n. rcbn. rring.
Qed.
Lemma clamp_asked (pen g : R) : @kopp RNum (@kclamp RNum (@kmul RNum (@kadd RNum g pen) kfifth) (kopp kfifth) k0) = asked pen g.
Proof.
  unfold kclamp, kmin, kmax, kfifth, asked, k1, k0. cbn [kofZ kdiv kltb kadd kmul kopp RNum]. change (@K RNum) with R in *.
  unfold Rmax, Rmin. unfold Rltb. repeat destruct (Rlt_dec _ _); repeat destruct (Rle_dec _ _); lra.
Qed.
Lemma asked_pos tol g : 0 <= asked tol g.
Proof. apply Rmax_l. Qed.
Lemma asked_le tol g : asked tol g <= 1 / 5.
Proof. unfold asked. apply Rmax_lub; [lra|apply Rmin_l]. Qed.
(** the correction does not reach beyond the tolerance *)
Lemma asked_short tol g : g <= - tol -> g + asked tol g <= - tol.
Proof. intros H. unfold asked, Rmax, Rmin. repeat destruct (Rle_dec _ _); lra. Qed.

Lemma asked_facts tol g : 0 <= asked tol g <= 1 / 5 /\ (g <= - tol -> g + asked tol g <= - tol) /\ (- tol <= g -> asked tol g = 0).
Proof.
  split; [split; [apply asked_pos|apply asked_le]|]. split; [apply asked_short|]. intros H. unfold asked, Rmax, Rmin. repeat destruct (Rle_dec _ _); lra.
Qed.

Lemma positions_rest (c : Rcontact) (px : Rprox) s : 0 < mf_minPen (ct_man c) ->
  (forall i, (i < mf_n (ct_man c))%nat -> - 3 * mf_minPen (ct_man c) < gap c px s i) ->
  exists c', ct_positions c px s = Ret (c', s).
Proof.
  intros HP HG. unfold ct_positions. cbv zeta.
  match goal with |- context [if ?b then _ else _] => assert (B : b = true) end.
  { apply andb_true_intro. split.
    all: cbn [ct_Ks ct_jacobians ct_set_frame ct_fr ct_man].
    all: match goal with |- (_ <? (if ?b then _ else _))%num = _ => destruct b eqn:HI end.
    all: cbn [kltb kmul kopp kofZ RNum]; unfold k0; cbn [kofZ RNum]; change (@K RNum) with R in *; unfold Rltb; match goal with |- (if Rlt_dec ?a ?b then _ else _) = _ => destruct (Rlt_dec a b) as [L|L]; [reflexivity|exfalso; apply L] end.
    all: try (rcbn; lra).
    - apply Nat.ltb_lt in HI. specialize (HG 0%nat HI). unfold gap in HG. unfold vdot, rel_pos, vsub. cbn [vx vy]. rcbn. rlra.
    - apply Nat.ltb_lt in HI. specialize (HG 1%nat HI). unfold gap in HG. unfold vdot, rel_pos, vsub. cbn [vx vy]. rcbn. rlra. }
  rewrite B. eexists. reflexivity.
Qed.

(** the mass data computed by solvePositions *)
Lemma positions_state (c : Rcontact) (px : Rprox) s :
  let c1 := ct_Ks (ct_jacobians (placed c px s) px s false) px false in
  ct_fr c1 = frame_at (ct_man c) px s /\ ct_man c1 = ct_man c /\ (forall i, ct_Jn c1 i = jac_row (frame_at (ct_man c) px s) px s (fr_normal (frame_at (ct_man c) px s)) i) /\
  (mf_n (ct_man c) = 1%nat -> ct_mem c1 = @CK11 RNum (1 / nK (placed c px s) px s 0 0)) /\
  (mf_n (ct_man c) = 2%nat -> ct_mem c1 = CLcp (make_lcp (@M2 RNum (nK (placed c px s) px s 0 0) (nK (placed c px s) px s 0 1) (nK (placed c px s) px s 0 1) (nK (placed c px s) px s 1 1)))).
Proof.
  intros c1. do 3 (split; [reflexivity|]). assert (FN : fr_n (frame_at (ct_man c) px s) = mf_n (ct_man c)) by reflexivity. split.
  - intros Hm. unfold c1, placed. cbn [ct_mem ct_Ks ct_jacobians ct_set_frame ct_man ct_Jn ct_fr].
    rewrite Hm. cbn [Nat.eqb]. f_equal. unfold jac_row. rewrite FN, Hm. cbn [Nat.ltb Nat.leb].
    unfold row6, nK, squared, vnormsq, vdot, centroid_of, pt0, pt1, cen0, cen1, cr, vcross, vsub, k1. cbn [vx vy ct_fr ct_set_frame].
    set (f := frame_at _ _ _). rcbn. f_equal. rring.
  - intros Hm. unfold c1, placed. cbn [ct_mem ct_Ks ct_jacobians ct_set_frame ct_man ct_Jn ct_fr].
    rewrite Hm. cbn [Nat.eqb]. f_equal. f_equal. unfold jac_row. rewrite FN, Hm. cbn [Nat.ltb Nat.leb].
    unfold row6, nK, squared, vnormsq, vdot, centroid_of, pt0, pt1, cen0, cen1, cr, vcross, vsub. cbn [vx vy ct_fr ct_set_frame].
    set (f := frame_at _ _ _). rcbn. f_equal; rring.
Qed.
(** the displacement that pushes the bodies apart along the normal with the
    strengths [x], at the contact points *)
Definition push (c : Rcontact) (px : Rprox) (s : Rstore) (x : nat -> R) : displ :=
  let f := frame_at (ct_man c) px s in
  let n := fr_normal f in
  let k := mf_n (ct_man c) in
  let tot := sum k x in
  Displ (rv (px_m0 px * tot * vx n) (px_m0 px * tot * vy n)) (px_I0 px * sum k (fun i => x i * cr (vsub (fr_c f false i) (cen0 px s)) n))
        (rv (- (px_m1 px * tot * vx n)) (- (px_m1 px * tot * vy n))) (- (px_I1 px * sum k (fun i => x i * cr (vsub (fr_c f true i) (cen1 px s)) n))).
Lemma widened_push (c : Rcontact) (px : Rprox) s (x : nat -> R) i : (i < mf_n (ct_man c))%nat -> mf_n (ct_man c) = 1%nat \/ mf_n (ct_man c) = 2%nat ->
  widened c px s (push c px s x) i = sum (mf_n (ct_man c)) (fun j => nK (placed c px s) px s i j * x j).
Proof.
  intros Hi HC. unfold widened, push, nK, pvel, pt0, pt1, cen0, cen1, placed. cbn [ct_fr ct_set_frame sh_d0 sh_a0 sh_d1 sh_a1 v_lin v_ang]. unfold rv.
  set (f := frame_at _ _ _). set (p0 := p_centroid _). set (p1 := p_centroid _).
  destruct HC as [-> | ->]; cbn [ksum]; unfold cr, vsub, k0; cbn [vx vy]; rcbn; rring.
Qed.
Lemma push_row (c : Rcontact) (px : Rprox) s (x : nat -> R) (P : Rvec) : mf_n (ct_man c) = 1%nat \/ mf_n (ct_man c) = 2%nat ->
  (forall k, P k = sum (mf_n (ct_man c)) (fun j => jac_row (frame_at (ct_man c) px s) px s (fr_normal (frame_at (ct_man c) px s)) j k * x j)) ->
  Displ (rv (P 0%nat * px_m0 px) (P 1%nat * px_m0 px)) (px_I0 px * P 2%nat) (rv (P 3%nat * px_m1 px) (P 4%nat * px_m1 px)) (px_I1 px * P 5%nat) = push c px s x.
Proof.
  intros HC HP. assert (FN : fr_n (frame_at (ct_man c) px s) = mf_n (ct_man c)) by reflexivity.
  rewrite !HP. unfold push, jac_row, cen0, cen1, centroid_of. rewrite FN.
  set (f := frame_at _ _ _). set (p0 := p_centroid _). set (p1 := p_centroid _).
  destruct HC as [-> | ->]; cbn [ksum Nat.ltb Nat.leb]; unfold row6, cr, vcross, vsub, k0; cbn [vx vy]; f_equal; unfold rv; try (f_equal; rcbn; rring); rcbn; rring.
Qed.
Lemma positions_one (c : Rcontact) (px : Rprox) s : px_i0 px <> px_i1 px -> mf_n (ct_man c) = 1%nat -> 0 < mf_minPen (ct_man c) ->
  0 < nK (placed c px s) px s 0 0 -> gap c px s 0 <= - 3 * mf_minPen (ct_man c) ->
  exists c' x, ct_positions c px s = Ret (c', shifted px (push c px s x) s) /\ 0 <= x 0%nat /\
    widened c px s (push c px s x) 0 = asked (mf_minPen (ct_man c)) (gap c px s 0).
Proof.
  intros NE Hm HP HK HG. destruct (positions_state c px s) as (FR & FM & FJ & M1 & _). specialize (M1 Hm).
  unfold ct_positions. fold (placed c px s). set (c1 := ct_Ks _ _ _) in *. cbv zeta. rewrite M1, FR, FM.
  assert (FN : fr_n (frame_at (ct_man c) px s) = mf_n (ct_man c)) by reflexivity. rewrite !FN, !Hm. cbn [Nat.ltb Nat.leb Nat.eqb].
  assert (GE : vdot (fr_normal (frame_at (ct_man c) px s)) (rel_pos (frame_at (ct_man c) px s) 0) = gap c px s 0).
  { unfold gap, vdot, rel_pos, vsub. cbn [vx vy]. set (f := frame_at _ _ _). rcbn. rring. }
  rewrite GE. set (g := gap c px s 0) in *. set (pen := mf_minPen (ct_man c)) in *. set (k := nK _ _ _ 0 0) in *.
  match goal with |- context [if (?a <? g)%num && ?r then _ else _] => assert (B : (a <? g)%num = false) end.
  { cbn [kltb kmul kopp kofZ RNum]. change (@K RNum) with R in *. unfold Rltb. match goal with |- (if Rlt_dec ?a ?b then _ else _) = _ => destruct (Rlt_dec a b); [exfalso; lra|reflexivity] end. }
  rewrite B. cbn [andb]. rewrite (clamp_asked pen g).
  set (l := kmax _ _). rewrite apply_C_shift by exact NE. cbn [obind].
  assert (L : l = asked pen g / k).
  { unfold l, kmax, k0. cbn [kltb kmul kofZ RNum]. change (@K RNum) with R in *. pose proof (asked_pos pen g) as AP.
    assert (0 <= asked pen g * (1 / k)). { apply Rmult_le_pos; [exact AP|]. apply Rlt_le. apply Rdiv_lt_0_compat; lra. }
    unfold Rltb. match goal with |- (if (if Rlt_dec ?a ?b then _ else _) then _ else _) = _ => destruct (Rlt_dec a b) end; [exfalso; lra|]. unfold Rdiv. ring. }
  exists c1, (fun _ => l). split; [|split].
  - rewrite (push_row c px s (fun _ => l)); [reflexivity|left; exact Hm|]. intros j. rewrite Hm. cbn [ksum]. unfold row_imp. rewrite FJ. unfold k0. rcbn. rring.
  - change (0 <= l). rewrite L. apply Rmult_le_pos; [apply asked_pos|]. apply Rlt_le, Rinv_0_lt_compat. exact HK.
  - rewrite widened_push by (rewrite ?Hm; auto). rewrite Hm. cbn [ksum]. fold k. rewrite L. unfold k0. rcbn. change (@K RNum) with R in *. field. lra.
Qed.
Lemma positions_two (c : Rcontact) (px : Rprox) s : px_i0 px <> px_i1 px -> mf_n (ct_man c) = 2%nat ->
  0 <= px_m0 px + px_m1 px -> 0 <= px_I0 px -> 0 <= px_I1 px ->
  nK (placed c px s) px s 0 0 * nK (placed c px s) px s 1 1 - nK (placed c px s) px s 0 1 * nK (placed c px s) px s 0 1 <> 0 ->
  gap c px s 0 <= - 3 * mf_minPen (ct_man c) \/ gap c px s 1 <= - 3 * mf_minPen (ct_man c) ->
  exists c' x, ct_positions c px s = Ret (c', shifted px (push c px s x) s) /\
    forall i, (i < 2)%nat -> let a := asked (mf_minPen (ct_man c)) (gap c px s i) in
      0 <= x i /\ a <= widened c px s (push c px s x) i /\ x i * (widened c px s (push c px s x) i - a) = 0.
Proof.
  intros NE Hm M I0' I1' DET HG. destruct (positions_state c px s) as (FR & FM & FJ & _ & M2'). specialize (M2' Hm).
  unfold ct_positions. fold (placed c px s). set (c1 := ct_Ks _ _ _) in *. cbv zeta. rewrite M2', FR, FM.
  assert (FN : fr_n (frame_at (ct_man c) px s) = mf_n (ct_man c)) by reflexivity. rewrite !FN, !Hm. cbn [Nat.ltb Nat.leb Nat.eqb].
  assert (GE : forall i, vdot (fr_normal (frame_at (ct_man c) px s)) (rel_pos (frame_at (ct_man c) px s) i) = gap c px s i).
  { intros i. unfold gap, vdot, rel_pos, vsub. cbn [vx vy]. set (f := frame_at _ _ _). rcbn. rring. }
  rewrite !GE. set (g0 := gap c px s 0) in *. set (g1 := gap c px s 1) in *. set (pen := mf_minPen (ct_man c)) in *.
  match goal with |- context [if ?b then _ else _] => assert (B : b = false) end.
  { apply andb_false_iff. cbn [kltb kmul kopp kofZ RNum]. change (@K RNum) with R in *. unfold Rltb.
    destruct HG as [HG|HG]; [left|right]; match goal with |- (if Rlt_dec ?a ?b then _ else _) = _ => destruct (Rlt_dec a b); [exfalso; lra|reflexivity] end. }
  rewrite B. rewrite (clamp_asked pen g0), (clamp_asked pen g1).
  set (A := @M2 RNum _ _ _ _) in *.
  assert (SP : spd A) by (apply psd_spd; [intros; apply nK_psd; assumption|exact DET]).
  destruct (lcp_spec A (rv (asked pen g0) (asked pen g1)) SP) as (x & SX & (X0 & X1 & G0 & G1 & XG) & _).
  unfold rv in SX. rewrite SX. cbn [obind]. rewrite apply_C_shift by exact NE. cbn [obind].
  set (y := fun i => vec_of2 x i).
  exists c1, y. split.
  - rewrite (push_row c px s y); [reflexivity|right; exact Hm|]. intros j. rewrite Hm. cbn [ksum]. unfold rows_imp. cbn [ksum]. rewrite !FJ. unfold y, k0. rcbn. rring.
  - assert (W : forall i, (i < 2)%nat -> widened c px s (push c px s y) i = nK (placed c px s) px s i 0 * vx x + nK (placed c px s) px s i 1 * vy x).
    { intros i Hi. rewrite widened_push by (rewrite ?Hm; auto). rewrite Hm. cbn [ksum]. unfold y, vec_of2, k0. rcbn. rring. }
    assert (G0' : vx (m2_mulv A x) = widened c px s (push c px s y) 0).
    { rewrite W by lia. unfold A, m2_mulv, k0. cbn [vx vy m00 m01 m10 m11]. rcbn. rring. }
    assert (G1' : vy (m2_mulv A x) = widened c px s (push c px s y) 1).
    { rewrite W by lia. replace (nK (placed c px s) px s 1 0) with (nK (placed c px s) px s 0 1) by (unfold nK; rcbn; ring). unfold A, m2_mulv, k0. cbn [vx vy m00 m01 m10 m11]. rcbn. rring. }
    rewrite G0', G1' in *. unfold rv in G0, G1, XG. cbn [vx vy] in G0, G1, XG. change (@K RNum) with R in *.
    pose proof (Rmult_le_pos _ _ X0 G0). pose proof (Rmult_le_pos _ _ X1 G1).
    intros [|[|i]] Hi; [| |lia]; cbv zeta; fold g0 g1; unfold y; cbn [vec_of2]; fold y; repeat split; try assumption; lra.
Qed.
