(** Momentum of the two bodies of a constraint (C48), solvability (C47). *)
From Coq Require Import ZArith List Bool Reals Lra Psatz Lia Arith FunctionalExtensionality.
From Verif Require Import Num Outcome Box Mat MatFacts MatSolve Geom GeomClosest Transform TransformFacts Body BodyFacts Constraint ConstraintFacts Contact.
Import ListNotations.
Local Open Scope R_scope.

(** ** Momenta *)
(** masses and moments of inertia of the two bodies *)
Record masses := Masses { M0 : R; I0 : R; M1 : R; I1 : R }.
(** [px] carries their inverses (both dominances are 1) *)
Definition inverse_of (m : masses) (px : Rprox) : Prop :=
  px_i0 px <> px_i1 px /\ px_m0 px * M0 m = 1 /\ px_I0 px * I0 m = 1 /\ px_m1 px * M1 m = 1 /\ px_I1 px * I1 m = 1.
Definition vel0 (px : Rprox) (s : Rstore) : Rvel := s_vel s (px_i0 px).
Definition vel1 (px : Rprox) (s : Rstore) : Rvel := s_vel s (px_i1 px).
Definition cen0 (px : Rprox) (s : Rstore) : Rv := p_centroid (s_pos s (px_i0 px)).
Definition cen1 (px : Rprox) (s : Rstore) : Rv := p_centroid (s_pos s (px_i1 px)).
Definition mom_x (m : masses) (px : Rprox) (s : Rstore) : R := M0 m * vx (v_lin (vel0 px s)) + M1 m * vx (v_lin (vel1 px s)).
Definition mom_y (m : masses) (px : Rprox) (s : Rstore) : R := M0 m * vy (v_lin (vel0 px s)) + M1 m * vy (v_lin (vel1 px s)).
Definition cr (a b : Rv) : R := vx a * vy b - vy a * vx b.
(** angular momentum about the point o *)
Definition mom_a (m : masses) (px : Rprox) (o : Rv) (s : Rstore) : R :=
  I0 m * v_ang (vel0 px s) + M0 m * cr (vsub (cen0 px s) o) (v_lin (vel0 px s)) +
  I1 m * v_ang (vel1 px s) + M1 m * cr (vsub (cen1 px s) o) (v_lin (vel1 px s)).
(** the impulse received by body 0 between two states *)
Definition got (m : masses) (px : Rprox) (s s' : Rstore) : Rv :=
  rv (M0 m * (vx (v_lin (vel0 px s')) - vx (v_lin (vel0 px s)))) (M0 m * (vy (v_lin (vel0 px s')) - vy (v_lin (vel0 px s)))).

Lemma pushed_momentum m px P s o : inverse_of m px ->
  mom_x m px (pushed px P s) = mom_x m px s + (P 0%nat + P 3%nat) /\
  mom_y m px (pushed px P s) = mom_y m px s + (P 1%nat + P 4%nat) /\
  mom_a m px o (pushed px P s) = mom_a m px o s +
    (cr (vsub (cen0 px s) o) (rv (P 0%nat) (P 1%nat)) + P 2%nat + cr (vsub (cen1 px s) o) (rv (P 3%nat) (P 4%nat)) + P 5%nat) /\
  got m px s (pushed px P s) = rv (P 0%nat) (P 1%nat).
Proof.
  intros (NE & H0 & HI0 & H1 & HI1).
  unfold mom_x, mom_y, mom_a, got, vel0, vel1, cen0, cen1. rewrite pushed_0, pushed_1, pushed_pos by exact NE.
  set (c0 := p_centroid _). set (c1 := p_centroid _). clearbody c0 c1. unfold bump, cr. cbn [v_lin v_ang]. ung.
  set (v0 := s_vel s (px_i0 px)). set (v1 := s_vel s (px_i1 px)). clearbody v0 v1.
  assert (A : forall q : R, M0 m * (q * px_m0 px) = q) by (intros; rewrite <- (Rmult_1_r q) at 2; rewrite <- H0; rcbn; ring).
  assert (B : forall q : R, M1 m * (q * px_m1 px) = q) by (intros; rewrite <- (Rmult_1_r q) at 2; rewrite <- H1; rcbn; ring).
  assert (C : forall q : R, I0 m * (px_I0 px * q) = q) by (intros; rewrite <- (Rmult_1_r q) at 2; rewrite <- HI0; rcbn; ring).
  assert (D : forall q : R, I1 m * (px_I1 px * q) = q) by (intros; rewrite <- (Rmult_1_r q) at 2; rewrite <- HI1; rcbn; ring).
  repeat split.
  - rewrite !Rmult_plus_distr_l, A, B. ring.
  - rewrite !Rmult_plus_distr_l, A, B. ring.
  - rewrite !(Rmult_plus_distr_l (I0 m)), !(Rmult_plus_distr_l (I1 m)), C, D.
    transitivity (I0 m * v_ang v0 + P 2%nat + (I1 m * v_ang v1 + P 5%nat)
      + ((vx c0 - vx o) * (M0 m * vy (v_lin v0) + M0 m * (P 1%nat * px_m0 px)) - (vy c0 - vy o) * (M0 m * vx (v_lin v0) + M0 m * (P 0%nat * px_m0 px)))
      + ((vx c1 - vx o) * (M1 m * vy (v_lin v1) + M1 m * (P 4%nat * px_m1 px)) - (vy c1 - vy o) * (M1 m * vx (v_lin v1) + M1 m * (P 3%nat * px_m1 px)))); [ring|].
    rewrite !A, !B. ring.
  - f_equal; [replace (M0 m * (vx (v_lin v0) + P 0%nat * px_m0 px - vx (v_lin v0))) with (M0 m * (P 0%nat * px_m0 px)) by ring|
      replace (M0 m * (vy (v_lin v0) + P 1%nat * px_m0 px - vy (v_lin v0))) with (M0 m * (P 1%nat * px_m0 px)) by ring]; apply A.
Qed.

(** rows acting with opposite forces at the points p0 and p1, and a couple *)
Definition pair_row (J : Rvec) (c0 c1 p0 p1 : Rv) : Prop :=
  J 3%nat = - J 0%nat /\ J 4%nat = - J 1%nat /\
  J 2%nat + J 5%nat = cr (vsub p0 c0) (rv (J 0%nat) (J 1%nat)) - cr (vsub p1 c1) (rv (J 0%nat) (J 1%nat)).
Lemma pair_impulse n (J : Rmat) c0 c1 p0 p1 (l : Rvec) : (forall i, (i < n)%nat -> pair_row (J i) c0 c1 p0 p1) ->
  pair_row (impulse n J l) c0 c1 p0 p1.
Proof.
  unfold impulse, mvmul, mtrans, pair_row. induction n as [|n IH]; intros H.
  - cbn [ksum]. unfold cr. ung. repeat split; ring.
  - destruct IH as (A & B & C); [intros; apply H; lia|]. destruct (H n ltac:(lia)) as (D & E & F). cbn [ksum]. unfold cr in *. ung.
    rewrite A, B, D, E. split; [ring|]. split; [ring|].
    match type of C with ?x + ?y = ?z => match type of F with ?a + ?b = ?c =>
      transitivity ((x + y) + (a + b) * l n); [ring|]; rewrite C, F; ring end end.
Qed.
Lemma pair_momentum m px s o P p0 p1 : inverse_of m px -> pair_row P (cen0 px s) (cen1 px s) p0 p1 ->
  let s' := pushed px P s in
  mom_x m px s' = mom_x m px s /\ mom_y m px s' = mom_y m px s /\
  mom_a m px o s' = mom_a m px o s + cr (vsub p0 p1) (got m px s s').
Proof.
  intros HM (A & B & C) s'. destruct (pushed_momentum m px P s o HM) as (X & Y & Z & G). fold s' in X, Y, Z, G.
  rewrite X, Y, Z, G. rewrite A, B in *. split; [lra|]. split; [lra|].
  set (c0 := cen0 px s) in *. set (c1 := cen1 px s) in *. clearbody c0 c1. f_equal.
  transitivity (P 2%nat + P 5%nat + cr (vsub c0 o) (rv (P 0%nat) (P 1%nat)) + cr (vsub c1 o) (rv (- P 0%nat) (- P 1%nat))); [ring|]. rewrite C.
  unfold cr. ung. ring.
Qed.

Definition world0 (px : Rprox) (s : Rstore) (l : Rv) : Rv := tf_apply (to_world (s_pos s (px_i0 px))) l.
Definition world1 (px : Rprox) (s : Rstore) (l : Rv) : Rv := tf_apply (to_world (s_pos s (px_i1 px))) l.

Lemma hinge_rows (px : Rprox) s l0 l1 i : (i < 2)%nat ->
  pair_row (cf_jac (hinge_fun l0 l1) px s i) (cen0 px s) (cen1 px s) (world0 px s l0) (world1 px s l1).
Proof.
  intros Hi. unfold pair_row, hinge_fun, world0, world1, cen0, cen1. cbn [cf_jac]. unfold to_world_of, centroid_of.
  set (a := tf_apply _ l0). set (b := tf_apply _ l1). set (c := p_centroid _). set (d := p_centroid _). clearbody a b c d.
  destruct i as [|[|i]]; [| |lia]; unfold rows2, row6, cr; ung; cbn [kofZ RNum]; repeat split; ring.
Qed.
Lemma rotation_rows (px : Rprox) s q i c0 c1 p0 p1 : (i < 1)%nat -> pair_row (cf_jac (rotation_fun q) px s i) c0 c1 p0 p1.
Proof. intros Hi. destruct i; [|lia]. unfold pair_row, rotation_fun, cf_jac, rows1, row6, cr. ung. cbn [kofZ RNum]. repeat split; ring. Qed.
Lemma weld_rows (px : Rprox) s l0 l1 q i : (i < 3)%nat ->
  pair_row (cf_jac (weld_fun l0 l1 q) px s i) (cen0 px s) (cen1 px s) (world0 px s l0) (world1 px s l1).
Proof.
  intros Hi. unfold weld_fun, cfun_pair. cbn [cf_jac]. unfold stack. change (cf_dim (hinge_fun l0 l1)) with 2%nat.
  destruct (Nat.ltb_spec i 2) as [L|L]; [apply hinge_rows; exact L|]. apply rotation_rows. lia.
Qed.
Lemma distance_rows (px : Rprox) s l0 l1 i : (i < 1)%nat ->
  pair_row (cf_jac (distance_fun l0 l1) px s i) (cen0 px s) (cen1 px s) (world0 px s l0) (world1 px s l1).
Proof.
  intros Hi. destruct i; [|lia]. unfold pair_row, distance_fun, world0, world1, cen0, cen1. cbn [cf_jac]. unfold to_world_of, centroid_of.
  set (a := tf_apply _ l0). set (b := tf_apply _ l1). set (c := p_centroid _). set (d := p_centroid _). clearbody a b c d.
  unfold rows1, row6, cr; ung; cbn [kofZ RNum]; repeat split; ring.
Qed.

(** constraints joining two bodies, with their anchor points in the world *)
Inductive joins : Rcfun -> Rprox -> Rstore -> Rv -> Rv -> Prop :=
| J_hinge l0 l1 px s : joins (hinge_fun l0 l1) px s (world0 px s l0) (world1 px s l1)
| J_weld l0 l1 q px s : joins (weld_fun l0 l1 q) px s (world0 px s l0) (world1 px s l1)
| J_rotation q px s p : joins (rotation_fun q) px s p p
| J_distance l0 l1 px s : joins (distance_fun l0 l1) px s (world0 px s l0) (world1 px s l1).
Lemma joins_rows f px s p0 p1 i : joins f px s p0 p1 -> (i < cf_dim f)%nat ->
  pair_row (cf_jac f px s i) (cen0 px s) (cen1 px s) p0 p1.
Proof. intros H Hi. destruct H; [apply hinge_rows|apply weld_rows|apply rotation_rows|apply distance_rows]; exact Hi. Qed.
Lemma vcall_momentum f px dt s s' p0 p1 m o : joins f px s p0 p1 -> inverse_of m px -> vcall f px dt (cf_jac f px s) s s' ->
  mom_x m px s' = mom_x m px s /\ mom_y m px s' = mom_y m px s /\
  mom_a m px o s' = mom_a m px o s + cr (vsub p0 p1) (got m px s s').
Proof.
  intros HJ HM HV. destruct (vcall_pushed _ _ _ _ _ _ HV) as [->|(l & ->)].
  - split; [reflexivity|]. split; [reflexivity|]. unfold got, cr. ung. ring.
  - apply pair_momentum; [exact HM|]. apply pair_impulse. intros i Hi. apply joins_rows; assumption.
Qed.
Lemma rotation_no_force q px dt s s' m : inverse_of m px -> vcall (rotation_fun q) px dt (cf_jac (rotation_fun q) px s) s s' ->
  got m px s s' = rv 0 0.
Proof.
  intros HM HV. destruct (vcall_pushed _ _ _ _ _ _ HV) as [->|(l & ->)].
  - unfold got. ung. f_equal; ring.
  - destruct (pushed_momentum m px (impulse (cf_dim (rotation_fun q)) (cf_jac (rotation_fun q) px s) l) s (rv 0 0) HM) as (_ & _ & _ & ->).
    unfold impulse, mvmul, mtrans, rotation_fun. cbn [cf_dim cf_jac ksum rows1 row6]. ung. f_equal; ring.
Qed.
(** the force of a distance constraint is along the line joining the points *)
Lemma distance_along l0 l1 px dt s s' m : inverse_of m px ->
  vcall (distance_fun l0 l1) px dt (cf_jac (distance_fun l0 l1) px s) s s' ->
  cr (vsub (world0 px s l0) (world1 px s l1)) (got m px s s') = 0.
Proof.
  intros HM HV. destruct (vcall_pushed _ _ _ _ _ _ HV) as [->|(l & ->)].
  - unfold got, cr. ung. ring.
  - destruct (pushed_momentum m px (impulse (cf_dim (distance_fun l0 l1)) (cf_jac (distance_fun l0 l1) px s) l) s (rv 0 0) HM) as (_ & _ & _ & ->).
    unfold impulse, mvmul, mtrans, distance_fun. cbn [cf_dim cf_jac ksum rows1 row6]. unfold to_world_of, centroid_of, world0, world1.
    set (a := tf_apply _ l0). set (b := tf_apply _ l1). clearbody a b. unfold cr. ung. cbn [kofZ RNum]. ring.
Qed.

(** ** Contacts *)
Notation Rcontact := (@contact RNum).
Definition contact_P (c : Rcontact) (t n : Rvec) : Rvec := fun k =>
  ct_Jf c 0%nat k * t 0%nat + ct_Jf c 1%nat k * t 1%nat + ct_Jn c 0%nat k * n 0%nat + ct_Jn c 1%nat k * n 1%nat.
Lemma ext6 (P Q : Rvec) px s : (forall k, (k < 6)%nat -> P k = Q k) -> pushed px P s = pushed px Q s.
Proof. intros H. unfold pushed. rewrite !H by lia. reflexivity. Qed.
Lemma set_at_twice {A} (f : nat -> A) i x y : set_at (set_at f i x) i y = set_at f i y.
Proof. apply functional_extensionality. intros j. unfold set_at. destruct (Nat.eqb j i); reflexivity. Qed.
Lemma set_vel_pushed (px : Rprox) (s : Rstore) (v P : Rvec) : px_i0 px <> px_i1 px ->
  (forall k, (k < 6)%nat -> v k = px_velocity px s k + px_invMassVec px k * P k) ->
  (let* s1 := proxy_setVelocity (N := RNum) (px_i0 px) (V2 (v 0%nat) (v 1%nat)) (v 2%nat) s in
   proxy_setVelocity (px_i1 px) (V2 (v 3%nat) (v 4%nat)) (v 5%nat) s1)%out = Ret (pushed px P s).
Proof.
  intros NE H. cbn [proxy_setVelocity obind]. unfold kfinite. cbn [kltInf RNum andb]. unfold pushed, with_vel. cbn [s_pos s_vel].
  rewrite (set_at_ne _ (px_i0 px) (px_i1 px)) by congruence.
  assert (A0 : Vel (V2 (v 0%nat) (v 1%nat)) (v 2%nat) = bump (s_vel s (px_i0 px)) (px_m0 px) (px_I0 px) (P 0%nat) (P 1%nat) (P 2%nat)).
  { rewrite !H by lia. cbn [px_velocity px_invMassVec row6]. unfold bump. ung. f_equal; f_equal; ring. }
  assert (A1 : Vel (V2 (v 3%nat) (v 4%nat)) (v 5%nat) = bump (s_vel s (px_i1 px)) (px_m1 px) (px_I1 px) (P 3%nat) (P 4%nat) (P 5%nat)).
  { rewrite !H by lia. cbn [px_velocity px_invMassVec row6]. unfold bump. ung. f_equal; f_equal; ring. }
  rewrite <- A0, <- A1. reflexivity.
Qed.
Lemma friction_all_spec (c : Rcontact) (px : Rprox) n : forall i tl v tl' v', friction_all c px n i tl v = (tl', v') ->
  (forall k, (k < i)%nat \/ (i + n <= k)%nat -> tl' k = tl k) /\
  forall k, v' k = v k + px_invMassVec px k * sum n (fun j => ct_Jf c (i + j)%nat k * (tl' (i + j)%nat - tl (i + j)%nat)).
Proof.
  induction n as [|n IH]; intros i tl v tl' v'; cbn [friction_all].
  - intros H. injection H as <- <-. split; [reflexivity|]. intros k. cbn [ksum]. rring.
  - unfold friction_one. cbn zeta beta iota. intros H. apply IH in H. destruct H as [A B]. split.
    + intros k Hk. rewrite A by lia. unfold vset. rewrite eqb_f by lia. reflexivity.
    + intros k. rewrite B. unfold add_impulse, row_imp. rewrite (sum_skip n 0) by lia. rewrite Nat.add_0_r.
      rewrite (A i) by lia. unfold vset at 2. rewrite Nat.eqb_refl.
      rewrite (sum_ext n (fun i0 => ct_Jf c (i + skip 0 i0)%nat k * (tl' (i + skip 0 i0)%nat - tl (i + skip 0 i0)%nat))
        (fun j => ct_Jf c (S i + j)%nat k * (tl' (S i + j)%nat - vset tl i (kclamp (tl i + - row_vel (ct_Jf c i) v * ct_invT c i)%num (- (ct_fric c * ct_nl c i))%num (ct_fric c * ct_nl c i)%num) (S i + j)%nat))).
      2:{ intros j _. rewrite skip_ge by lia. replace (i + S j)%nat with (S i + j)%nat by lia. unfold vset. rewrite (eqb_f (S i + j) i) by lia. reflexivity. }
      set (SM := sum n _). clearbody SM. set (q := kclamp _ _ _). clearbody q. rring.
Qed.
(** what a contact's velocity solve does: impulses [tl' - tl] and [nl' - nl] *)
Lemma ct_velocities_pushed (c c' : Rcontact) px s s' : px_i0 px <> px_i1 px -> (fr_n (ct_fr c) <= 2)%nat ->
  ct_velocities c px s = Ret (c', s') ->
  exists dt dn, s' = pushed px (contact_P c dt dn) s /\
    (forall i, (i < fr_n (ct_fr c))%nat -> dt i = ct_tl c' i - ct_tl c i /\ dn i = ct_nl c' i - ct_nl c i) /\
    (forall i, (fr_n (ct_fr c) <= i)%nat -> dt i = 0 /\ dn i = 0).
Proof.
  intros NE HN. unfold ct_velocities.
  destruct (friction_all c px (fr_n (ct_fr c)) 0 (ct_tl c) (px_velocity px s)) as [tl v] eqn:EF.
  destruct (friction_all_spec _ _ _ _ _ _ _ _ EF) as [_ HV]. cbn [Nat.add] in HV.
  intros H. ret_inv H. destruct a as [nl v2]. ret_inv H. injection H as <- <-. cbn [ct_tl ct_nl ct_set_lambda].
  set (n := fr_n (ct_fr c)) in *.
  exists (fun i => if Nat.ltb i n then tl i - ct_tl c i else 0), (fun i => if Nat.ltb i n then nl i - ct_nl c i else 0).
  split; [|split; intros i Hi; destruct (Nat.ltb_spec i n); try lia; split; reflexivity].
  assert (F : forall k, v2 k = px_velocity px s k + px_invMassVec px k * contact_P c
    (fun i => if Nat.ltb i n then tl i - ct_tl c i else 0) (fun i => if Nat.ltb i n then nl i - ct_nl c i else 0) k).
  { intros k. unfold contact_P. destruct n as [|[|[|n]]]; [| | |lia]; cbn [Nat.eqb] in E.
    - injection E as <- <-. rewrite HV. cbn [ksum Nat.ltb Nat.leb]. rring.
    - destruct (ct_mem c) eqn:EM; try discriminate. injection E as <- <-. unfold add_impulse, row_imp, vset. rewrite HV. cbn [ksum Nat.ltb Nat.leb Nat.eqb]. rring.
    - destruct (ct_mem c) eqn:EM; try discriminate. destruct (lcp_solve l _) eqn:EL; try discriminate. cbn [obind] in E. injection E as <- <-.
      unfold add_impulse, rows_imp, vec_of2. rewrite HV. cbn [ksum Nat.ltb Nat.leb Nat.eqb]. ung. ring. }
  pose proof (set_vel_pushed px s v2 _ NE (fun k _ => F k)) as X. cbn [obind] in X. rewrite E0 in X. cbn [obind] in X. rewrite E1 in X. injection X as ->. reflexivity.
Qed.
Lemma ct_warmstart_pushed (c c' : Rcontact) px s s' : ct_warmstart c px s = Ret (c', s') ->
  s' = pushed px (contact_P c (ct_ptl c) (ct_pnl c)) s /\ ct_tl c' = ct_ptl c /\ ct_nl c' = ct_pnl c.
Proof.
  unfold ct_warmstart. rewrite apply_P_R. cbn [obind]. intros H. injection H as <- <-. split; [|auto]. apply ext6. intros k Hk.
  unfold row_imp, rows_imp, contact_P. cbn [ksum]. rring.
Qed.
(** the contact's jacobians are those of initSolve at the positions of [s] *)
Definition jacobians_at (c : Rcontact) (px : Rprox) (s : Rstore) : Prop :=
  forall i, ct_Jf c i = jac_row (ct_fr c) px s (fr_tangent (ct_fr c)) i /\ ct_Jn c i = jac_row (ct_fr c) px s (fr_normal (ct_fr c)) i.
Lemma ct_init_jac (c : Rcontact) px s : jacobians_at (ct_init c px s) px s.
Proof. intros i. split; reflexivity. Qed.
(** contact points of body 0 and body 1 *)
Definition pt0 (c : Rcontact) (i : nat) : Rv := fr_c (ct_fr c) false i.
Definition pt1 (c : Rcontact) (i : nat) : Rv := fr_c (ct_fr c) true i.
(** the impulse on body 0 at contact [i] *)
Definition force_at (c : Rcontact) (t n : R) : Rv :=
  rv (vx (fr_tangent (ct_fr c)) * t + vx (fr_normal (ct_fr c)) * n) (vy (fr_tangent (ct_fr c)) * t + vy (fr_normal (ct_fr c)) * n).
Lemma contact_P_momentum (c : Rcontact) px s m o (t n : Rvec) : inverse_of m px -> jacobians_at c px s ->
  (forall i, (fr_n (ct_fr c) <= i)%nat -> t i = 0 /\ n i = 0) ->
  let s' := pushed px (contact_P c t n) s in
  mom_x m px s' = mom_x m px s /\ mom_y m px s' = mom_y m px s /\
  mom_a m px o s' = mom_a m px o s +
    (cr (vsub (pt0 c 0) (pt1 c 0)) (force_at c (t 0%nat) (n 0%nat)) + cr (vsub (pt0 c 1) (pt1 c 1)) (force_at c (t 1%nat) (n 1%nat))).
Proof.
  intros HM HJ Z s'. destruct (pushed_momentum m px (contact_P c t n) s o HM) as (X & Y & W & _). fold s' in X, Y, W. rewrite X, Y, W.
  assert (E : forall k, contact_P c t n k =
    (jac_row (Fr 2 (fr_c (ct_fr c)) (fr_normal (ct_fr c)) (fr_tangent (ct_fr c))) px s (fr_tangent (ct_fr c)) 0 k * t 0%nat +
     jac_row (Fr 2 (fr_c (ct_fr c)) (fr_normal (ct_fr c)) (fr_tangent (ct_fr c))) px s (fr_tangent (ct_fr c)) 1 k * t 1%nat +
     jac_row (Fr 2 (fr_c (ct_fr c)) (fr_normal (ct_fr c)) (fr_tangent (ct_fr c))) px s (fr_normal (ct_fr c)) 0 k * n 0%nat +
     jac_row (Fr 2 (fr_c (ct_fr c)) (fr_normal (ct_fr c)) (fr_tangent (ct_fr c))) px s (fr_normal (ct_fr c)) 1 k * n 1%nat)).
  { intros k. unfold contact_P. destruct (HJ 0%nat) as [-> ->]. destruct (HJ 1%nat) as [-> ->]. unfold jac_row. cbn [fr_n fr_c].
    destruct (Nat.ltb_spec 0 (fr_n (ct_fr c))) as [L0|L0]; destruct (Nat.ltb_spec 1 (fr_n (ct_fr c))) as [L1|L1]; cbn [Nat.ltb Nat.leb];
      try (destruct (Z 0%nat ltac:(lia)) as [-> ->]); try (destruct (Z 1%nat ltac:(lia)) as [-> ->]); rring. }
  rewrite !E. unfold jac_row, force_at, pt0, pt1, cr, centroid_of, cen0, cen1. cbn [fr_n fr_c Nat.ltb Nat.leb row6].
  set (c0 := p_centroid _). set (c1 := p_centroid _). set (q0 := fr_c _ _ 0). set (q1 := fr_c _ _ 1). set (u0 := fr_c _ _ 0). set (u1 := fr_c _ _ 1).
  clearbody c0 c1 q0 q1 u0 u1. ung. repeat split; ring.
Qed.
