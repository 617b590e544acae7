(** The normal impulses of a contact solve the complementarity problem of
    non-penetration with restitution (C62), exact arithmetic. *)
From Coq Require Import ZArith List Bool Reals Lra Psatz Lia Arith FunctionalExtensionality.
From Verif Require Import Num Outcome Box Mat MatFacts MatSolve Geom GeomClosest Transform TransformFacts Body BodyFacts Constraint ConstraintFacts Contact ConstraintMomentum.
Import ListNotations.
Local Open Scope R_scope.

(** velocity of a point of a body *)
Definition pvel (p : @position RNum) (v : Rvel) (x : Rv) : Rv :=
  rv (vx (v_lin v) - v_ang v * (vy x - vy (p_centroid p))) (vy (v_lin v) + v_ang v * (vx x - vx (p_centroid p))).
(** how fast contact [i] opens: the velocity of body 0's point relative to body
    1's point along the contact normal (which points to body 0) *)
Definition opening (c : Rcontact) (px : Rprox) (s : Rstore) (i : nat) : R :=
  let a := pvel (s_pos s (px_i0 px)) (s_vel s (px_i0 px)) (pt0 c i) in
  let b := pvel (s_pos s (px_i1 px)) (s_vel s (px_i1 px)) (pt1 c i) in
  vx (fr_normal (ct_fr c)) * (vx a - vx b) + vy (fr_normal (ct_fr c)) * (vy a - vy b).
(** the speed restitution asks for: nothing below the threshold of 1 *)
Definition bounce_of (e v : R) : R := if Rlt_dec (-1) v then 0 else e * v.

Definition nK (c : Rcontact) (px : Rprox) (s : Rstore) (i j : nat) : R :=
  let n := fr_normal (ct_fr c) in
  let a0 i := cr (vsub (pt0 c i) (cen0 px s)) n in
  let a1 i := cr (vsub (pt1 c i) (cen1 px s)) n in
  (px_m0 px + px_m1 px) * (vx n * vx n + vy n * vy n) + px_I0 px * (a0 i * a0 j) + px_I1 px * (a1 i * a1 j).

Lemma row_opening (c : Rcontact) px s0 s i : jacobians_at c px s0 -> s_pos s = s_pos s0 -> (i < fr_n (ct_fr c))%nat ->
  row_vel (ct_Jn c i) (px_velocity px s) = opening c px s i.
Proof.
  intros HJ HP Hi. rewrite (proj2 (HJ i)). unfold jac_row. rewrite (proj2 (Nat.ltb_lt _ _) Hi).
  unfold row_vel, opening, pvel, rv, px_velocity, row6, centroid_of, pt0, pt1. rewrite HP. cbn [ksum]. unfold vcross, vsub, k0. cbn [vx vy]. rcbn. rring.
Qed.
Lemma row_add (c : Rcontact) px s0 (v : Rvec) (dn : Rvec) i : jacobians_at c px s0 -> (i < fr_n (ct_fr c))%nat ->
  forall n, (n <= fr_n (ct_fr c))%nat -> (n = 1%nat \/ n = 2%nat) ->
  row_vel (ct_Jn c i) (fun k => v k + px_invMassVec px k * sum n (fun j => ct_Jn c j k * dn j)) =
  row_vel (ct_Jn c i) v + sum n (fun j => nK c px s0 i j * dn j).
Proof.
  intros HJ Hi n Hn HC. unfold row_vel, nK.
  assert (L : forall j, (j < n)%nat -> ct_Jn c j = jac_row (ct_fr c) px s0 (fr_normal (ct_fr c)) j) by (intros; apply HJ).
  rewrite (proj2 (HJ i)). unfold jac_row at 1 2. rewrite (proj2 (Nat.ltb_lt _ _) Hi).
  destruct HC as [-> | ->]; cbn [ksum]; rewrite ?(L 0%nat), ?(L 1%nat) by lia; unfold jac_row;
  rewrite ?(proj2 (Nat.ltb_lt 0 (fr_n (ct_fr c)))), ?(proj2 (Nat.ltb_lt 1 (fr_n (ct_fr c)))) by lia;
  unfold row6, px_invMassVec, row6, centroid_of, pt0, pt1, cen0, cen1, cr, vcross, vsub, k0; cbn [vx vy]; rcbn; rring.
Qed.
Lemma set_both (px : Rprox) (s : Rstore) (v : Rvec) : px_i0 px <> px_i1 px -> exists s',
  (let* s1 := proxy_setVelocity (N := RNum) (px_i0 px) (V2 (v 0%nat) (v 1%nat)) (v 2%nat) s in
   proxy_setVelocity (px_i1 px) (V2 (v 3%nat) (v 4%nat)) (v 5%nat) s1)%out = Ret s' /\ s_pos s' = s_pos s /\
  (forall k, (k < 6)%nat -> px_velocity px s' k = v k) /\ forall i, i <> px_i0 px -> i <> px_i1 px -> s_vel s' i = s_vel s i.
Proof.
  intros H. eexists. split; [reflexivity|]. split; [reflexivity|]. split.
  - intros k Hk. unfold px_velocity. cbn [s_vel]. rewrite (set_at_ne _ _ _ _ H), !set_at_eq. cbn [v_lin v_ang vx vy].
    do 6 (destruct k as [|k]; [reflexivity|]). lia.
  - intros i H0 H1. cbn [s_vel]. rewrite !set_at_ne by assumption. reflexivity.
Qed.
Lemma row_vel_ext (J v w : Rvec) : (forall k, (k < 6)%nat -> v k = w k) -> row_vel (N := RNum) J v = row_vel J w.
Proof. intros H. unfold row_vel. cbn [ksum]. rewrite !H by lia. reflexivity. Qed.
(** the state of a contact during the velocity iterations: initSolve at [s0],
    then any accumulated impulses *)
Definition solving (c0 : Rcontact) (px : Rprox) (s0 : Rstore) (t n : Rvec) : Rcontact := ct_set_lambda (ct_init c0 px s0) t n.
Lemma solving_facts c0 px s0 t n : let c := solving c0 px s0 t n in
  jacobians_at c px s0 /\ ct_fr c = ct_fr c0 /\ ct_nl c = n /\ ct_tl c = t /\
  (forall i, (i < fr_n (ct_fr c0))%nat -> (i < mf_n (ct_man c0))%nat -> ct_bounce c i = bounce_of (ct_rest c0) (opening c0 px s0 i)) /\
  (mf_n (ct_man c0) = 1%nat -> fr_n (ct_fr c0) = 1%nat -> ct_mem c = @CK11 RNum (1 / nK c0 px s0 0 0)) /\
  (mf_n (ct_man c0) = 2%nat -> fr_n (ct_fr c0) = 2%nat -> ct_mem c = CLcp (make_lcp (@M2 RNum (nK c0 px s0 0 0) (nK c0 px s0 0 1) (nK c0 px s0 0 1) (nK c0 px s0 1 1)))).
Proof.
  intros c. assert (HJ : jacobians_at c px s0) by (intros i; apply (ct_init_jac c0 px s0 i)).
  split; [exact HJ|]. do 3 (split; [reflexivity|]).
  split; [|split].
  - intros i Hi Hm. unfold c, solving, ct_init, ct_computeBounce. cbn [ct_set_lambda ct_bounce ct_Ks ct_jacobians ct_man ct_rest ct_Jn].
    rewrite (proj2 (Nat.ltb_lt _ _) Hm). cbn [andb].
    pose proof (row_opening c px s0 s0 i HJ eq_refl Hi) as RO. change (ct_Jn c i) with (jac_row (ct_fr c0) px s0 (fr_normal (ct_fr c0)) i) in RO. rewrite RO.
    change (opening c px s0 i) with (opening c0 px s0 i). unfold bounce_of, k0. cbn [kltb kofZ RNum]. change (@K RNum) with R in *.
    destruct (Rltb_spec (IZR (-1)) (opening c0 px s0 i)) as [A|A]; destruct (Rlt_dec (-1) (opening c0 px s0 i)) as [B|B]; try lra; rcbn; ring.
  - intros Hm Hf. unfold c, solving, ct_init, ct_computeBounce. cbn [ct_set_lambda ct_mem ct_Ks ct_jacobians ct_man ct_rest ct_Jn ct_fr].
    rewrite Hm. cbn [Nat.eqb]. f_equal. unfold jac_row. rewrite Hf. cbn [Nat.ltb Nat.leb]. unfold row6, nK, squared, vnormsq, vdot, centroid_of, pt0, pt1, cen0, cen1, cr, vcross, vsub, k1. cbn [vx vy].
    rcbn. f_equal. rring.
  - intros Hm Hf. unfold c, solving, ct_init, ct_computeBounce. cbn [ct_set_lambda ct_mem ct_Ks ct_jacobians ct_man ct_rest ct_Jn ct_fr].
    rewrite Hm. cbn [Nat.eqb]. f_equal. f_equal. unfold jac_row. rewrite Hf. cbn [Nat.ltb Nat.leb]. unfold row6, nK, squared, vnormsq, vdot, centroid_of, pt0, pt1, cen0, cen1, cr, vcross, vsub. cbn [vx vy].
    rcbn. f_equal; rring.
Qed.
Lemma contact_one c0 px s0 t n s : px_i0 px <> px_i1 px -> s_pos s = s_pos s0 -> mf_n (ct_man c0) = 1%nat -> fr_n (ct_fr c0) = 1%nat ->
  0 < nK c0 px s0 0 0 ->
  exists c' s', ct_velocities (solving c0 px s0 t n) px s = Ret (c', s') /\ s_pos s' = s_pos s /\
    0 <= ct_nl c' 0%nat /\ 0 <= opening c0 px s' 0 + bounce_of (ct_rest c0) (opening c0 px s0 0) /\
    ct_nl c' 0%nat * (opening c0 px s' 0 + bounce_of (ct_rest c0) (opening c0 px s0 0)) = 0.
Proof.
  intros HD HP Hm Hf HK. destruct (solving_facts c0 px s0 t n) as (HJ & FR & FN & FT & FB & FM & _).
  specialize (FM Hm Hf). specialize (FB 0%nat ltac:(lia) ltac:(lia)).
  set (c := solving c0 px s0 t n) in *. unfold ct_velocities. rewrite FR, FT, FN, FM, Hf. cbn [Nat.eqb].
  destruct (friction_all c px 1 0 t (px_velocity px s)) as [tl v]. cbn [obind].
  set (b := bounce_of (ct_rest c0) (opening c0 px s0 0)) in *. set (k := nK c0 px s0 0 0) in *.
  set (l := kmax (N := RNum) k0 _). set (v' := add_impulse px v _).
  destruct (set_both px s v' HD) as (s' & E & P' & V' & _).
  destruct (proxy_setVelocity (px_i0 px) _ _ s) as [s1| | |]; cbn [obind] in E |- *; try discriminate E. rewrite E. cbn [obind].
  eexists _, _. split; [reflexivity|]. split; [exact P'|]. cbn [ct_set_lambda ct_nl]. unfold vset. cbn [Nat.eqb].
  assert (O : opening c0 px s' 0 = row_vel (ct_Jn c 0%nat) v + k * (l - n 0%nat)).
  { change (opening c0 px s' 0) with (opening c px s' 0). rewrite <- (row_opening c px s0 s') by (try assumption; try congruence; rewrite FR; lia).
    rewrite (row_vel_ext _ _ v' V').
    assert (A : v' = fun j => v j + px_invMassVec px j * sum 1 (fun i => ct_Jn c i j * (fun _ => l - n 0%nat) i)).
    { apply functional_extensionality. intros j. unfold v', add_impulse, row_imp. cbn [ksum]. unfold k0. rcbn. rring. }
    rewrite A, (row_add c px s0 v (fun _ => l - n 0%nat) 0 HJ) by (rewrite ?FR; lia || auto).
    change (nK c px s0) with (nK c0 px s0). cbn [ksum]. unfold k0. fold k. rcbn. rring. }
  set (r := row_vel (ct_Jn c 0%nat) v) in *.
  assert (L : l = if Rlt_dec 0 (n 0%nat - (r + b) / k) then n 0%nat - (r + b) / k else 0).
  { unfold l, kmax. rewrite FB. fold r. unfold k0, k1. cbn [kltb kofZ kadd kmul kdiv kopp RNum]. change (@K RNum) with R in *.
    match goal with |- context [Rltb 0 ?u] => replace u with (n 0%nat - (r + b) / k) by (unfold Rdiv; ring) end.
    unfold Rltb. destruct (Rlt_dec 0 _); reflexivity. }
  rewrite O. clearbody l r. change (@K RNum) with R in *. rewrite L.
  destruct (Rlt_dec 0 (n 0%nat - (r + b) / k)) as [C|C].
  - split; [lra|]. replace (r + k * (n 0%nat - (r + b) / k - n 0%nat) + b) with 0 by (field; lra). split; [lra|ring].
  - split; [lra|]. split; [|ring]. assert (C' : n 0%nat - (r + b) / k <= 0) by lra. apply Rmult_le_compat_l with (r := k) in C'; [|lra].
    replace (k * (n 0%nat - (r + b) / k)) with (k * n 0%nat - (r + b)) in C' by (field; lra). lra.
Qed.
(** with two contacts: the matrix is symmetric and, when invertible, positive definite *)
Lemma nK_psd (c : Rcontact) (px : Rprox) s (x y : R) : 0 <= px_m0 px + px_m1 px -> 0 <= px_I0 px -> 0 <= px_I1 px ->
  0 <= x * (nK c px s 0 0 * x + nK c px s 0 1 * y) + y * (nK c px s 0 1 * x + nK c px s 1 1 * y).
Proof.
  intros A B C. unfold nK. set (n := fr_normal (ct_fr c)).
  set (a := cr (vsub (pt0 c 0) (cen0 px s)) n). set (b := cr (vsub (pt0 c 1) (cen0 px s)) n).
  set (d := cr (vsub (pt1 c 0) (cen1 px s)) n). set (e := cr (vsub (pt1 c 1) (cen1 px s)) n).
  replace (x * _ + y * _) with ((px_m0 px + px_m1 px) * (vx n * vx n + vy n * vy n) * ((x + y) * (x + y)) + px_I0 px * ((a * x + b * y) * (a * x + b * y)) + px_I1 px * ((d * x + e * y) * (d * x + e * y))) by (rcbn; ring).
  assert (SQ : forall z : R, 0 <= z * z) by (intros z; pose proof (Rle_0_sqr z) as Q; exact Q).
  apply Rplus_le_le_0_compat; [apply Rplus_le_le_0_compat|].
  - apply Rmult_le_pos; [apply Rmult_le_pos; [exact A|apply Rplus_le_le_0_compat; apply SQ]|apply SQ].
  - apply Rmult_le_pos; [exact B|apply SQ].
  - apply Rmult_le_pos; [exact C|apply SQ].
Qed.
Lemma psd_spd (A B C : R) : (forall x y, 0 <= x * (A * x + B * y) + y * (B * x + C * y)) -> A * C - B * B <> 0 -> spd (@M2 RNum A B B C).
Proof.
  intros H D. split; [reflexivity|]. intros [x y] NZ. unfold m2_mulv, k0. cbn [m00 m01 m10 m11 vx vy kofZ kadd kmul RNum]. change (@K RNum) with R in *.
  replace (x * (0 + A * x + B * y) + y * (0 + B * x + C * y)) with (x * (A * x + B * y) + y * (B * x + C * y)) by ring.
  pose proof (H x y) as P. destruct (Rle_lt_or_eq_dec _ _ P) as [L|E]; [exact L|exfalso].
  assert (A0 : 0 <= A) by (pose proof (H 1 0); lra). assert (C0 : 0 <= C) by (pose proof (H 0 1); lra).
  assert (DD : 0 < A * C - B * B).
  { destruct (Req_EM_T A 0) as [->|NA].
    - exfalso. apply D. destruct (Req_EM_T B 0) as [->|NB]; [ring|]. exfalso. pose proof (H (- (C + 1) / (2 * B)) 1) as Q.
      replace (- (C + 1) / (2 * B) * (0 * (- (C + 1) / (2 * B)) + B * 1) + 1 * (B * (- (C + 1) / (2 * B)) + C * 1)) with (-1) in Q by (field; exact NB). lra.
    - pose proof (H (- B) A) as Q. replace (- B * (A * - B + B * A) + A * (B * - B + C * A)) with (A * (A * C - B * B)) in Q by ring.
      assert (0 < A) by lra. destruct (Rtotal_order (A * C - B * B) 0) as [L|[L|L]]; [nra|contradiction|exact L]. }
  assert (A1 : 0 < A) by (destruct (Req_EM_T A 0) as [->|]; [nra|lra]).
  assert (Q : A * (x * (A * x + B * y) + y * (B * x + C * y)) = (A * x + B * y) * (A * x + B * y) + (A * C - B * B) * (y * y)) by ring.
  rewrite <- E in Q.
  assert (SQ : forall z : R, 0 <= z * z) by (intros z; pose proof (Rle_0_sqr z) as Z; exact Z).
  assert (ZZ : forall z : R, z * z = 0 -> z = 0) by (intros z Z; apply Rmult_integral in Z; tauto).
  pose proof (SQ (A * x + B * y)) as S1. pose proof (Rmult_le_pos _ _ (Rlt_le _ _ DD) (SQ y)) as S2.
  assert (Y : y = 0). { apply ZZ. assert (Z : (A * C - B * B) * (y * y) = 0) by lra. apply Rmult_integral in Z. destruct Z; [lra|assumption]. }
  assert (X : x = 0). { assert (Z : A * x + B * y = 0) by (apply ZZ; lra). rewrite Y in Z. assert (W : A * x = 0) by lra. apply Rmult_integral in W. destruct W; [lra|assumption]. }
  subst. apply NZ. reflexivity.
Qed.
Lemma contact_two c0 (px : Rprox) s0 t n s : px_i0 px <> px_i1 px -> s_pos s = s_pos s0 -> mf_n (ct_man c0) = 2%nat -> fr_n (ct_fr c0) = 2%nat ->
  0 <= px_m0 px + px_m1 px -> 0 <= px_I0 px -> 0 <= px_I1 px ->
  nK c0 px s0 0 0 * nK c0 px s0 1 1 - nK c0 px s0 0 1 * nK c0 px s0 0 1 <> 0 ->
  exists c' s', ct_velocities (solving c0 px s0 t n) px s = Ret (c', s') /\ s_pos s' = s_pos s /\
    forall i, (i < 2)%nat -> 0 <= ct_nl c' i /\ 0 <= opening c0 px s' i + bounce_of (ct_rest c0) (opening c0 px s0 i) /\
    ct_nl c' i * (opening c0 px s' i + bounce_of (ct_rest c0) (opening c0 px s0 i)) = 0.
Proof.
  intros HD HP Hm Hf M I0' I1' DET. destruct (solving_facts c0 px s0 t n) as (HJ & FR & FN & FT & FB & _ & FM).
  specialize (FM Hm Hf). pose proof (FB 0%nat ltac:(lia) ltac:(lia)) as FB0. pose proof (FB 1%nat ltac:(lia) ltac:(lia)) as FB1. clear FB.
  set (c := solving c0 px s0 t n) in *. unfold ct_velocities. rewrite FR, FT, FN, FM, Hf. cbn [Nat.eqb].
  destruct (friction_all c px 2 0 t (px_velocity px s)) as [tl v].
  set (b0 := bounce_of (ct_rest c0) (opening c0 px s0 0)) in *. set (b1 := bounce_of (ct_rest c0) (opening c0 px s0 1)) in *.
  set (A := @M2 RNum (nK c0 px s0 0 0) (nK c0 px s0 0 1) (nK c0 px s0 0 1) (nK c0 px s0 1 1)) in *.
  assert (SP : spd A) by (apply psd_spd; [intros; apply nK_psd; assumption|exact DET]).
  change (s2_A (lcp_s (make_lcp A))) with A. rewrite FB0, FB1.
  set (bb := vopp _). destruct (lcp_spec A bb SP) as (x & SX & (X0 & X1 & G0 & G1 & XG) & _). rewrite SX. cbn [obind].
  set (v' := add_impulse px v _).
  destruct (set_both px s v' HD) as (s' & E & P' & V' & _).
  destruct (proxy_setVelocity (px_i0 px) _ _ s) as [s1| | |]; cbn [obind] in E |- *; try discriminate E. rewrite E. cbn [obind].
  eexists _, _. split; [reflexivity|]. split; [exact P'|].
  set (dn := fun i => vec_of2 x i - n i).
  assert (OO : forall i, (i < 2)%nat -> opening c0 px s' i = row_vel (ct_Jn c i) v + (nK c0 px s0 i 0 * (vx x - n 0%nat) + nK c0 px s0 i 1 * (vy x - n 1%nat))).
  { intros i Hi. change (opening c0 px s' i) with (opening c px s' i). rewrite <- (row_opening c px s0 s') by (try assumption; try congruence; rewrite FR; lia).
    rewrite (row_vel_ext _ _ v' V').
    assert (AA : v' = fun j => v j + px_invMassVec px j * sum 2 (fun i => ct_Jn c i j * dn i)).
    { apply functional_extensionality. intros j. unfold v', add_impulse, rows_imp, dn, vec_of2. cbn [ksum]. unfold vsub. cbn [vx vy]. unfold k0. rcbn. rring. }
    rewrite AA, (row_add c px s0 v dn i HJ) by (rewrite ?FR; lia || auto).
    change (nK c px s0) with (nK c0 px s0). cbn [ksum]. unfold k0, dn, vec_of2. rcbn. rring. }
  pose proof (OO 0%nat ltac:(lia)) as O0. pose proof (OO 1%nat ltac:(lia)) as O1. clear OO.
  assert (G0' : vx (m2_mulv A x) - vx bb = opening c0 px s' 0 + b0).
  { rewrite O0. unfold bb, A, m2_mulv, vopp, vadd, vsub, k0. cbn [vx vy m00 m01 m10 m11]. rcbn. rring. }
  assert (G1' : vy (m2_mulv A x) - vy bb = opening c0 px s' 1 + b1).
  { rewrite O1. replace (nK c0 px s0 1 0) with (nK c0 px s0 0 1) by (unfold nK; rcbn; ring). unfold bb, A, m2_mulv, vopp, vadd, vsub, k0. cbn [vx vy m00 m01 m10 m11]. rcbn. rring. }
  rewrite G0', G1' in *. cbn [ct_set_lambda ct_nl].
  pose proof (Rmult_le_pos _ _ X0 G0). pose proof (Rmult_le_pos _ _ X1 G1).
  intros [|[|i]] Hi; [| |lia]; cbn [vec_of2]; fold b0 b1; repeat split; try assumption; lra.
Qed.
(** one contact always has a positive effective mass *)
Lemma nK_pos (c : Rcontact) (px : Rprox) s : 0 < px_m0 px + px_m1 px -> 0 <= px_I0 px -> 0 <= px_I1 px -> fr_normal (ct_fr c) <> rv 0 0 -> 0 < nK c px s 0 0.
Proof.
  intros A B C D. unfold nK. set (n := fr_normal (ct_fr c)) in *.
  assert (NP : 0 < vx n * vx n + vy n * vy n).
  { destruct n as [x y]. cbn [vx vy]. rcbn. change (@K RNum) with R in *. destruct (Req_EM_T x 0) as [->|]; [destruct (Req_EM_T y 0) as [->|]; [exfalso; apply D; reflexivity|nra]|nra]. }
  pose proof (Rmult_lt_0_compat _ _ A NP).
  pose proof (Rle_0_sqr (cr (vsub (pt0 c 0) (cen0 px s)) n)) as Q0. pose proof (Rle_0_sqr (cr (vsub (pt1 c 0) (cen1 px s)) n)) as Q1. unfold Rsqr in *.
  pose proof (Rmult_le_pos _ _ B Q0). pose proof (Rmult_le_pos _ _ C Q1). lra.
Qed.
