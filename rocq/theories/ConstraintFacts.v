(** Constraint solvers in exact arithmetic (C47, C48, C50-C52). *)
From Coq Require Import ZArith List Bool Reals Lra Psatz Lia Arith FunctionalExtensionality.
From Verif Require Import Num Outcome Box Mat MatFacts MatSolve Geom GeomClosest Transform TransformFacts Body BodyFacts Constraint.
Import ListNotations.
Local Open Scope R_scope.

Notation Rprox := (@proxies RNum).
Notation Rstore := (@store RNum).
Notation Rcfun := (@cfun RNum).
Notation Rvel := (@velocity RNum).

(** ** Impulses *)
Definition with_vel (s : Rstore) (v : nat -> Rvel) : Rstore := Store (s_pos s) v.
Definition bump (v : Rvel) (m I : R) (x y w : R) : Rvel :=
  Vel (rv (vx (v_lin v) + x * m) (vy (v_lin v) + y * m)) (v_ang v + I * w).
Definition pushed (px : Rprox) (P : Rvec) (s : Rstore) : Rstore :=
  let v1 := set_at (s_vel s) (px_i0 px) (bump (s_vel s (px_i0 px)) (px_m0 px) (px_I0 px) (P 0%nat) (P 1%nat) (P 2%nat)) in
  with_vel s (set_at v1 (px_i1 px) (bump (v1 (px_i1 px)) (px_m1 px) (px_I1 px) (P 3%nat) (P 4%nat) (P 5%nat))).
Lemma apply_P_R px P s : apply_P (N := RNum) px P s = Ret (pushed px P s).
Proof. reflexivity. Qed.
Lemma pushed_pos (px : Rprox) P s : s_pos (pushed px P s) = s_pos s.
Proof. reflexivity. Qed.
Lemma set_at_eq {A} (f : nat -> A) i x : set_at f i x i = x.
Proof. unfold set_at. rewrite Nat.eqb_refl. reflexivity. Qed.
Lemma set_at_ne {A} (f : nat -> A) i j x : j <> i -> set_at f i x j = f j.
Proof. intros H. unfold set_at. rewrite eqb_f by exact H. reflexivity. Qed.
Lemma pushed_0 (px : Rprox) P s : px_i0 px <> px_i1 px ->
  s_vel (pushed px P s) (px_i0 px) = bump (s_vel s (px_i0 px)) (px_m0 px) (px_I0 px) (P 0%nat) (P 1%nat) (P 2%nat).
Proof. intros H. cbn [pushed with_vel s_vel]. rewrite set_at_ne by exact H. apply set_at_eq. Qed.
Lemma pushed_1 (px : Rprox) P s : px_i0 px <> px_i1 px ->
  s_vel (pushed px P s) (px_i1 px) = bump (s_vel s (px_i1 px)) (px_m1 px) (px_I1 px) (P 3%nat) (P 4%nat) (P 5%nat).
Proof. intros H. cbn [pushed with_vel s_vel]. rewrite set_at_eq. f_equal; rewrite set_at_ne by congruence; reflexivity. Qed.
Lemma pushed_same (px : Rprox) P s : px_i0 px = px_i1 px -> P 3%nat = 0 -> P 4%nat = 0 -> P 5%nat = 0 ->
  s_vel (pushed px P s) (px_i0 px) = bump (s_vel s (px_i0 px)) (px_m0 px) (px_I0 px) (P 0%nat) (P 1%nat) (P 2%nat).
Proof.
  intros H P3 P4 P5. cbn [pushed with_vel s_vel]. rewrite <- H, !set_at_eq, P3, P4, P5. unfold bump. cbn [v_lin v_ang]. ung. f_equal; [f_equal|]; ring.
Qed.
Lemma pushed_other (px : Rprox) P s i : i <> px_i0 px -> i <> px_i1 px -> s_vel (pushed px P s) i = s_vel s i.
Proof. intros H0 H1. cbn [pushed with_vel s_vel]. rewrite !set_at_ne by assumption. reflexivity. Qed.

(** one row of the jacobian times the velocities, written out *)
Definition rowv (J : Rmat) (px : Rprox) (s : Rstore) (i : nat) : R :=
  let v0 := s_vel s (px_i0 px) in let v1 := s_vel s (px_i1 px) in
  J i 0%nat * vx (v_lin v0) + J i 1%nat * vy (v_lin v0) + J i 2%nat * v_ang v0 +
  J i 3%nat * vx (v_lin v1) + J i 4%nat * vy (v_lin v1) + J i 5%nat * v_ang v1.
Lemma rowv_eq J px s i : mvmul 6 J (px_velocity px s) i = rowv J px s i.
Proof. unfold mvmul, ksum, px_velocity, row6, rowv. rring. Qed.
(** the second half of the jacobian is only used with a second body *)
Definition uses (n : nat) (J : Rmat) (px : Rprox) : Prop :=
  px_i0 px <> px_i1 px \/ forall i, (i < n)%nat -> J i 3%nat = 0 /\ J i 4%nat = 0 /\ J i 5%nat = 0.
Lemma impulse_zero n (J : Rmat) (l : Rvec) k : (forall i, (i < n)%nat -> J i k = 0) -> impulse n J l k = 0.
Proof. intros H. unfold impulse, mvmul. apply sum_zero. intros i Hi. unfold mtrans. rewrite H by exact Hi. rring. Qed.
(** the effective mass without damping, written out *)
Definition eff (J : Rmat) (px : Rprox) (i j : nat) : R :=
  px_m0 px * (J i 0%nat * J j 0%nat + J i 1%nat * J j 1%nat) + px_I0 px * (J i 2%nat * J j 2%nat) +
  px_m1 px * (J i 3%nat * J j 3%nat + J i 4%nat * J j 4%nat) + px_I1 px * (J i 5%nat * J j 5%nat).
Lemma eff_eq J px i j : eff_mass J px i j = eff J px i j.
Proof.
  unfold eff_mass, eff, mmul, mtrans, mdiagonal, px_invMassVec. cbn [ksum Nat.eqb row6]. change (@k0 RNum) with 0. rring.
Qed.
Lemma rowv_pushed n (J : Rmat) px (l : Rvec) s i : uses n J px -> (i < n)%nat ->
  rowv J px (pushed px (impulse n J l) s) i = rowv J px s i + sum n (fun j => eff J px i j * l j).
Proof.
  intros U Hi. set (P := impulse n J l).
  assert (EP : sum n (fun j => eff J px i j * l j) =
     px_m0 px * (J i 0%nat * P 0%nat + J i 1%nat * P 1%nat) + px_I0 px * (J i 2%nat * P 2%nat) +
     px_m1 px * (J i 3%nat * P 3%nat + J i 4%nat * P 4%nat) + px_I1 px * (J i 5%nat * P 5%nat)).
  { subst P. unfold impulse, mvmul, mtrans, eff. clear. induction n as [|n IH]; [cbn [ksum]; rring|]. cbn [ksum]. rewrite IH. rring. }
  rewrite EP. destruct U as [U|U].
  - unfold rowv. rewrite pushed_0, pushed_1 by exact U. unfold bump. cbn [v_lin v_ang]. ung. ring.
  - assert (Z : P 3%nat = 0 /\ P 4%nat = 0 /\ P 5%nat = 0).
    { subst P. repeat split; apply impulse_zero; intros j Hj; destruct (U j Hj) as (A & B & C); assumption. }
    destruct Z as (Z3 & Z4 & Z5). destruct (U i Hi) as (U3 & U4 & U5). unfold rowv. rewrite U3, U4, U5.
    destruct (Nat.eq_dec (px_i0 px) (px_i1 px)) as [E|NE].
    + rewrite pushed_same by assumption. unfold bump. cbn [v_lin v_ang]. ung. ring.
    + rewrite pushed_0 by exact NE. unfold bump. cbn [v_lin v_ang]. ung. ring.
Qed.

(** ** The solver of an equality constraint *)
Lemma ks_spec n (A : Rmat) (b : Rvec) : ks_valid (ks_make n A) = true ->
  exists x, ks_solve n (ks_make n A) b = Ret x /\ forall i, (i < n)%nat -> mvmul n A x i = b i.
Proof.
  unfold ks_make. destruct (Nat.eqb_spec n 2) as [->|NE]; cbn [ks_valid ks_solve].
  - intros V. apply valid2_iff in V. destruct (solve2_spec _ (rv (b 0%nat) (b 1%nat)) V) as (x & E & M & _).
    unfold rv in E. rewrite E. cbn [obind]. eexists. split; [reflexivity|]. intros i Hi.
    assert (M0 := f_equal (@vx RNum) M). assert (M1 := f_equal (@vy RNum) M). un.
    unfold mvmul, ksum, vec_of2. destruct i as [|[|i]]; [| |lia]; rcbn; cbn [kofZ] in *; lra.
  - intros V. apply qr_valid_iff in V. destruct (qr_solve_spec n A b V) as (x & E & M & _). exists x. auto.
Qed.
Lemma ks_valid_iff n (A : Rmat) : ks_valid (ks_make n A) = true <-> independent n A.
Proof.
  unfold ks_make. destruct (Nat.eqb_spec n 2) as [->|NE]; cbn [ks_valid]; [|apply qr_valid_iff].
  rewrite valid2_iff. unfold independent, mvmul, det2. cbn [ksum m00 m01 m10 m11]. rcbn. split.
  - intros D x H i Hi. pose proof (H 0%nat ltac:(lia)) as H0. pose proof (H 1%nat ltac:(lia)) as H1.
    destruct (det_unique (A 0 0) (A 0 1) (A 1 0) (A 1 1) (x 0) (x 1))%nat as [X0 X1]; [exact D|lra|lra|].
    destruct i as [|[|i]]; [exact X0|exact X1|lia].
  - intros I D.
    assert (S : forall a b : R, (forall i, (i < 2)%nat -> A i 0%nat * a + A i 1%nat * b = 0) -> a = 0 /\ b = 0).
    { intros a b H. pose proof (I (fun k => match k with O => a | _ => b end)) as IH. cbn beta iota in IH.
      assert (forall i : nat, (i < 2)%nat -> 0 + A i 0%nat * a + A i 1%nat * b = 0) by (intros i Hi; specialize (H i Hi); lra).
      split; [apply (IH H0 0%nat)|apply (IH H0 1%nat)]; lia. }
    destruct (S (- A 0 1)%nat (A 0 0)%nat) as [Z1 Z0].
    { intros i Hi. destruct i as [|[|i]]; [ring| |lia]. lra. }
    destruct (S (- A 1 1)%nat (A 1 0)%nat) as [Z3 Z2].
    { intros i Hi. destruct i as [|[|i]]; [|ring|lia]. lra. }
    destruct (S 1 1) as [X _]; [|lra].
    intros i Hi. assert (E1 : A 0%nat 1%nat = 0) by lra. assert (E3 : A 1%nat 1%nat = 0) by lra.
    destruct i as [|[|i]]; [rewrite Z0, E1; ring|rewrite Z2, E3; ring|lia].
Qed.

(** a solver in the middle of the velocity iterations: everything but the
    accumulated impulse is as initSolve left it *)
Notation Reqs := (@eqsolver RNum).
Definition eq_at (e : Reqs) (l : Rvec) : Reqs := EqS (set_lambda (es_base e) l) (es_solver e).
Lemma eq_init_inv (e0 e : Reqs) f px s : eq_init e0 f px s = Ret e ->
  sb_J (es_base e) = cf_jac f px s /\ sb_rest (es_base e) = sb_rest (es_base e0) /\ sb_damp (es_base e) = sb_damp (es_base e0) /\
  sb_lambda (es_base e) = vzero /\ sb_prev (es_base e) = sb_lambda (es_base e0) /\
  es_solver e = ks_make (cf_dim f) (madd (eff_mass (cf_jac f px s) px) (mdiagonal (sb_damp (es_base e0)))) /\
  ks_valid (es_solver e) = true.
Proof.
  unfold eq_init. cbn [compute_K init_base]. destruct (ks_valid _) eqn:V; intros H; [|discriminate]. injection H as <-. cbn. auto 10.
Qed.
(** initSolve succeeds exactly when the effective mass is invertible *)
Lemma eq_init_ret (e0 : Reqs) f px s :
  (exists e, eq_init e0 f px s = Ret e) <->
  independent (cf_dim f) (fun i j => eff (cf_jac f px s) px i j + if Nat.eqb i j then sb_damp (es_base e0) i else 0).
Proof.
  unfold eq_init. cbn [compute_K init_base sb_damp].
  set (A := madd _ _).
  assert (EA : forall i j, A i j = eff (cf_jac f px s) px i j + if Nat.eqb i j then sb_damp (es_base e0) i else 0).
  { intros i j. subst A. unfold madd, mdiagonal. rewrite eff_eq. reflexivity. }
  assert (X : A = (fun i j => eff (cf_jac f px s) px i j + if Nat.eqb i j then sb_damp (es_base e0) i else 0)).
  { apply functional_extensionality. intros i. apply functional_extensionality. intros j. apply EA. }
  rewrite <- X, <- ks_valid_iff. destruct (ks_valid _) eqn:V; split; intros H; try discriminate; eauto.
  - destruct H as [e H]. discriminate.
Qed.

Lemma eq_velocity_spec (e0 e : Reqs) f px s0 l s dt : (forall l dt, cf_clamp f l dt = l) -> eq_init e0 f px s0 = Ret e ->
  uses (cf_dim f) (cf_jac f px s0) px ->
  exists l', eq_velocity (eq_at e l) f px s dt = Ret (eq_at e l', pushed px (impulse (cf_dim f) (cf_jac f px s0) (fun i => l' i - l i)) s) /\
    forall i, (i < cf_dim f)%nat ->
      rowv (cf_jac f px s0) px (pushed px (impulse (cf_dim f) (cf_jac f px s0) (fun i => l' i - l i)) s) i + cf_bias f px s i
      + sb_rest (es_base e0) i * cf_eval f px s i / dt + sb_damp (es_base e0) i * l' i = 0.
Proof.
  intros CL HI U. destruct (eq_init_inv _ _ _ _ _ HI) as (EJ & ER & ED & _ & _ & ES & EV).
  unfold eq_velocity. cbn [eq_at es_solver es_base]. rewrite ES in EV.
  destruct (ks_spec _ _ (compute_rhs (set_lambda (es_base e) l) f px s dt true) EV) as (d & SD & HD). rewrite <- ES in SD. rewrite SD. cbn [obind].
  unfold update_lambda. rewrite CL, apply_P_R. cbn [obind fst snd set_lambda sb_J sb_lambda].
  exists (fun i => l i + d i). split.
  { rewrite EJ. reflexivity. }
  intros i Hi. rewrite rowv_pushed by assumption.
  specialize (HD i Hi). unfold compute_rhs in HD. cbn [set_lambda sb_J sb_rest sb_damp sb_lambda] in HD. rewrite rowv_eq, EJ, ER, ED in HD.
  assert (DG : forall (a x : Rvec), mvmul (cf_dim f) (mdiagonal a) x i = a i * x i).
  { intros a x. unfold mvmul. rewrite (sum_delta _ i) by (try exact Hi; intros k Hk NE; unfold mdiagonal; rewrite eqb_f by congruence; rring).
    unfold mdiagonal. rewrite Nat.eqb_refl. reflexivity. }
  rewrite !DG in HD.
  assert (EM : mvmul (cf_dim f) (madd (eff_mass (cf_jac f px s0) px) (mdiagonal (sb_damp (es_base e0)))) d i =
    sum (cf_dim f) (fun j => eff (cf_jac f px s0) px i j * d j) + sb_damp (es_base e0) i * d i).
  { rewrite <- DG. unfold mvmul, madd. rewrite <- sum_plus. apply sum_ext. intros k Hk. rewrite eff_eq. rring. }
  rewrite EM in HD.
  assert (EL : sum (cf_dim f) (fun j => eff (cf_jac f px s0) px i j * (l j + d j - l j)) = sum (cf_dim f) (fun j => eff (cf_jac f px s0) px i j * d j)).
  { apply sum_ext. intros; rring. }
  rcbn. rewrite EL. unfold Rdiv in *. lra.
Qed.
(** bodies without inverse mass keep their velocity *)
Lemma pushed_massless_0 (px : Rprox) P s : px_i0 px <> px_i1 px -> px_m0 px = 0 -> px_I0 px = 0 -> s_vel (pushed px P s) (px_i0 px) = s_vel s (px_i0 px).
Proof.
  intros H M I. rewrite pushed_0 by exact H. rewrite M, I. unfold bump. destruct (s_vel s (px_i0 px)) as [[a b] w]. cbn [v_lin v_ang]. ung.
  f_equal; [f_equal|]; ring.
Qed.
Lemma pushed_massless_1 (px : Rprox) P s : px_i0 px <> px_i1 px -> px_m1 px = 0 -> px_I1 px = 0 -> s_vel (pushed px P s) (px_i1 px) = s_vel s (px_i1 px).
Proof.
  intros H M I. rewrite pushed_1 by exact H. rewrite M, I. unfold bump. destruct (s_vel s (px_i1 px)) as [[a b] w]. cbn [v_lin v_ang]. ung.
  f_equal; [f_equal|]; ring.
Qed.
(** every call that changes velocities does so by an impulse *)
Inductive vcall (f : Rcfun) (px : Rprox) (dt : R) : Rmat -> Rstore -> Rstore -> Prop :=
| VC_eq_warm (e e' : Reqs) s s' : eq_warmstart e f px s dt = Ret (e', s') -> vcall f px dt (sb_J (es_base e)) s s'
| VC_eq_vel (e e' : Reqs) s s' : eq_velocity e f px s dt = Ret (e', s') -> vcall f px dt (sb_J (es_base e)) s s'
| VC_in_vel fuel (e e' : @insolver RNum) s s' : in_velocity fuel e f px s dt = Ret (e', s') -> vcall f px dt (sb_J (is_base e)) s s'
| VC_li_warm (e e' : @lisolver RNum) s s' : li_warmstart e f px s dt = Ret (e', s') -> vcall f px dt (sb_J (ls_base e)) s s'
| VC_li_vel fuel (e e' : @lisolver RNum) s s' : li_velocity fuel e f px s dt = Ret (e', s') -> vcall f px dt (sb_J (ls_base e)) s s'.
Lemma update_lambda_R (b b' : @sbase RNum) f px s dt d s' : update_lambda b f px s dt d = Ret (b', s') ->
  b' = set_lambda b (cf_clamp f (fun i => sb_lambda b i + d i) dt) /\
  s' = pushed px (impulse (cf_dim f) (sb_J b) (fun i => cf_clamp f (fun i => sb_lambda b i + d i) dt i - sb_lambda b i)) s.
Proof. unfold update_lambda. rewrite apply_P_R. cbn [obind]. intros H. injection H as <- <-. auto. Qed.
Ltac ret_inv H := repeat match type of H with
  | obind ?m _ = Ret _ => let E := fresh "E" in destruct m eqn:E; cbn [obind] in H; [|discriminate H|discriminate H|discriminate H]
  end.
Lemma li_vel_cases fuel (e : @lisolver RNum) f px s dt e' s' : li_velocity fuel e f px s dt = Ret (e', s') ->
  (s' = s /\ e' = e /\ ls_func e = FOff) \/
  exists err l, li_rhs e f px s dt = Ret err /\
   ((ls_func e = FEquality /\ (exists ks d, ls_mem e = LSolver ks /\ ks_solve (cf_dim f) ks err = Ret d /\
       l = cf_clamp f (fun i => sb_lambda (ls_base e) i + d i) dt) /\
     s' = pushed px (impulse (cf_dim f) (sb_J (ls_base e)) (fun i => l i - sb_lambda (ls_base e) i)) s) \/
    (ls_func e = FLower /\ (exists A l0, ls_mem e = LMass A /\
       solveInequalities fuel (cf_dim f) A err (fun x i => kmax (cf_clamp f x dt i) k0) (sb_lambda (ls_base e)) keps = Ret l0 /\
       l = cf_clamp f (fun i => sb_lambda (ls_base e) i + (l0 i - sb_lambda (ls_base e) i)) dt) /\
     s' = pushed px (impulse (cf_dim f) (sb_J (ls_base e)) (fun i => l i - sb_lambda (ls_base e) i)) s) \/
    (ls_func e = FUpper /\ (exists A, ls_mem e = LMass A /\
       solveInequalities fuel (cf_dim f) A err (fun x i => kmax (kopp (cf_clamp f (fun i => kopp (x i)) dt i)) k0) (sb_lambda (ls_base e)) keps = Ret l) /\
     s' = pushed px (impulse (cf_dim f) (sb_J (ls_base e)) (fun i => - (l i - sb_lambda (ls_base e) i))) s)) /\
   e' = li_set_base e (set_lambda (ls_base e) l).
Proof.
  unfold li_velocity. intros H. ret_inv H. destruct (ls_func e) eqn:F.
  - destruct (ls_mem e) eqn:M; try discriminate. ret_inv H. destruct a1 as [b1 s1].
    apply update_lambda_R in E1. destruct E1 as [-> ->]. injection H as <- <-. right. eexists _, _. split; [reflexivity|]. split; [|reflexivity]. right. left. eauto 10.
  - destruct (ls_mem e) eqn:M; try discriminate. ret_inv H. rewrite apply_P_R in E1. injection E1 as <-. injection H as <- <-.
    right. eexists _, _. split; [reflexivity|]. split; [|reflexivity]. right. right. eauto 10.
  - destruct (ls_mem e) eqn:M; try discriminate. ret_inv H. destruct a1 as [b1 s1].
    apply update_lambda_R in E1. destruct E1 as [-> ->]. injection H as <- <-. right. eexists _, _. split; [reflexivity|]. split; [|reflexivity]. left. eauto 10.
  - injection H as <- <-. left. auto.
Qed.
Lemma vcall_pushed f px dt J s s' : vcall f px dt J s s' -> s' = s \/ exists l, s' = pushed px (impulse (cf_dim f) J l) s.
Proof.
  intros H. destruct H as [e e' s s' H|e e' s s' H|fuel e e' s s' H|e e' s s' H|fuel e e' s s' H].
  - unfold eq_warmstart, warmstart_default in H. ret_inv H. destruct a as [b1 s1]. apply update_lambda_R in E. destruct E as [_ ->]. injection H as _ <-. eauto.
  - unfold eq_velocity in H. ret_inv H. destruct a0 as [b1 s1]. apply update_lambda_R in E0. destruct E0 as [_ ->]. injection H as _ <-. eauto.
  - unfold in_velocity in H. ret_inv H. destruct a0 as [b1 s1]. apply update_lambda_R in E0. destruct E0 as [_ ->]. injection H as _ <-. eauto.
  - unfold li_warmstart in H. destruct (ls_canWarm e); [|injection H as _ <-; auto].
    destruct (ls_func e); [| |ret_inv H|ret_inv H]; try ret_inv H.
    + unfold warmstart_default in E. destruct a as [b1 s1]. apply update_lambda_R in E. destruct E as [_ ->]. injection H as _ <-. eauto.
    + rewrite apply_P_R in E. injection E as <-. injection H as _ <-. eauto.
    + unfold warmstart_default in E. destruct a as [b1 s1]. apply update_lambda_R in E. destruct E as [_ ->]. injection H as _ <-. eauto.
    + unfold warmstart_default in E. destruct a as [b1 s1]. apply update_lambda_R in E. destruct E as [_ ->]. injection H as _ <-. eauto.
  - apply li_vel_cases in H. destruct H as [(-> & _)|(err & l & _ & [(_ & _ & ->)|[(_ & _ & ->)|(_ & _ & ->)]] & _)]; eauto.
Qed.
