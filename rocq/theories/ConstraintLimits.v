(** Limits, motors and the distance constraint's constructor (C50-C52). *)
From Coq Require Import ZArith List Bool Reals Lra Psatz Lia Arith FunctionalExtensionality.
From Verif Require Import Num Outcome Box Mat MatFacts MatSolve Geom GeomClosest Transform TransformFacts Body BodyFacts Constraint ConstraintFacts.
Import ListNotations.
Local Open Scope R_scope.

Notation Rlis := (@lisolver RNum).

(** ** C50 *)
(** which limit is reached, for a constraint value of one dimension *)
Definition reached (L U : option R) (C : R) : lfunc :=
  match L, U with
  | None, None => FEquality
  | Some l, None => if Rle_dec C l then FLower else FOff
  | None, Some u => if Rle_dec u C then FUpper else FOff
  | Some l, Some u => if Req_EM_T l u then FEquality else if Rle_dec C l then FLower else if Rle_dec u C then FUpper else FOff
  end.
Definition at0 (o : option Rvec) : option R := match o with Some v => Some (v 0%nat) | None => None end.
Lemma next_func_reached (L U : option Rvec) (C : Rvec) : next_func 1 L U C = reached (at0 L) (at0 U) (C 0%nat).
Proof.
  unfold next_func, reached, at0. destruct L as [L|], U as [U|]; try reflexivity; cbn [all_le all_eq andb]; unfold vzero, k0; cbn [kltb keqb ksub kadd kopp kofZ RNum];
  change (@K RNum) with R in *; repeat (rcmp; cbn [negb]);
  repeat match goal with |- context [Rle_dec ?a ?b] => destruct (Rle_dec a b) | |- context [Req_EM_T ?a ?b] => destruct (Req_EM_T a b) end;
  try reflexivity; try lra.
Qed.
Lemma li_off (e : Rlis) f px s0 s dt fuel l :
  li_next e f px s0 = FOff -> let e1 := li_set_base (li_init e f px s0) l in
  li_warmstart e1 f px s dt = Ret (e1, s) /\ li_velocity fuel e1 f px s dt = Ret (e1, s).
Proof.
  intros H e1. subst e1. unfold li_init. rewrite H. cbn [compute_K init_base lfunc_eqb andb negb].
  rewrite andb_false_r. split; [reflexivity|]. unfold li_velocity, li_rhs. reflexivity.
Qed.
(** switching: the stored impulse is not applied *)
Lemma li_switch (e : Rlis) f px s0 s dt : li_next e f px s0 <> ls_func e -> let e1 := li_init e f px s0 in
  ls_func e1 = li_next e f px s0 /\ (forall i, sb_lambda (ls_base e1) i = 0) /\ li_warmstart e1 f px s dt = Ret (e1, s).
Proof.
  intros H e1. subst e1. unfold li_init. cbn [compute_K init_base]. cbn [ls_func ls_base sb_lambda]. split; [reflexivity|]. split; [reflexivity|].
  unfold li_warmstart. cbn [ls_canWarm].
  assert (X : lfunc_eqb (li_next e f px s0) (ls_func e) = false) by (destruct (li_next e f px s0), (ls_func e); try reflexivity; congruence).
  rewrite X. reflexivity.
Qed.
(** otherwise it is, with the sign of the limit *)
Lemma li_keep (e : Rlis) f px s0 s dt : (forall l dt, cf_clamp f l dt = l) ->
  li_next e f px s0 = ls_func e -> ls_func e = FLower \/ ls_func e = FUpper -> let e1 := li_init e f px s0 in
  exists e2, li_warmstart e1 f px s dt =
    Ret (e2, pushed px (impulse (cf_dim f) (cf_jac f px s0) (fun i => (if lfunc_eqb (ls_func e) FUpper then -1 else 1) * sb_lambda (ls_base e) i)) s) /\
    forall i, sb_lambda (ls_base e2) i = sb_lambda (ls_base e) i.
Proof.
  intros CL H F e1. subst e1. unfold li_init. rewrite H. cbn [compute_K init_base]. unfold li_warmstart. cbn [ls_canWarm ls_func ls_base].
  destruct F as [F|F]; rewrite F; cbn [lfunc_eqb andb negb].
  - unfold warmstart_default, update_lambda. rewrite CL, apply_P_R. cbn [obind fst snd sb_J sb_lambda sb_prev]. eexists. split.
    + f_equal. f_equal. f_equal. apply functional_extensionality. intros k. unfold impulse, mvmul. apply sum_ext. intros j Hj. cbn [init_base sb_lambda sb_prev]. unfold vzero. change (@k0 RNum) with 0. rring.
    + intros i. cbn. unfold vzero, k0. cbn. ring.
  - rewrite apply_P_R. cbn [obind sb_J sb_prev]. eexists. split.
    + f_equal. f_equal. f_equal. apply functional_extensionality. intros k. unfold impulse, mvmul. apply sum_ext. intros j Hj. cbn [init_base sb_prev]. rring.
    + reflexivity.
Qed.

Lemma sweep_nonneg fuel n (A : Rmat) (b : Rvec) (proj : Rvec -> nat -> R) guess epsilon x :
  (forall z i, 0 <= proj z i) -> solveInequalities fuel n A b proj guess epsilon = Ret x -> forall i, (i < n)%nat -> 0 <= x i.
Proof.
  intros H E i Hi. apply solveInequalities_spec in E. destruct E as (y & HS & _). rewrite (HS i Hi). apply H.
Qed.
Lemma kmax0_nonneg (a : R) : 0 <= kmax (N := RNum) a k0.
Proof. unfold kmax, k0. cbn [kltb kofZ RNum]. rcmp; lra. Qed.

(** histories of a limited constraint *)
Inductive li_op := LInit (px : Rprox) (s : Rstore) | LWarm (px : Rprox) (s : Rstore) (dt : R)
  | LVel (fuel : nat) (px : Rprox) (s : Rstore) (dt : R) | LPos (fuel : nat) (px : Rprox) (s : Rstore)
  | LSetL (L : option Rvec) | LSetU (U : option Rvec).
Definition li_step (f : Rcfun) (e : Rlis) (o : li_op) : outcome Rlis :=
  match o with
  | LInit px s => Ret (li_init e f px s)
  | LWarm px s dt => (let* r := li_warmstart e f px s dt in Ret (fst r))%out
  | LVel fuel px s dt => (let* r := li_velocity fuel e f px s dt in Ret (fst r))%out
  | LPos fuel px s => (let* r := li_position fuel e f px s in Ret (fst r))%out
  | LSetL L => Ret (fst (li_setL (cf_dim f) e L))
  | LSetU U => Ret (fst (li_setU (cf_dim f) e U))
  end.
Fixpoint li_run (f : Rcfun) (os : list li_op) (e : Rlis) : outcome Rlis :=
  match os with [] => Ret e | o :: os => (let* e := li_step f e o in li_run f os e)%out end.
Definition one_sided (fn : lfunc) : Prop := fn = FLower \/ fn = FUpper.
Definition li_inv (n : nat) (e : Rlis) : Prop := one_sided (ls_func e) ->
  (forall i, (i < n)%nat -> 0 <= sb_lambda (ls_base e) i) /\ (ls_canWarm e = true -> forall i, (i < n)%nat -> 0 <= sb_prev (ls_base e) i).
Lemma lfunc_eqb_eq a b : lfunc_eqb a b = true -> a = b.
Proof. destruct a, b; try reflexivity; discriminate. Qed.
Lemma li_step_inv f e o e' : (forall l dt, cf_clamp f l dt = l) -> li_inv (cf_dim f) e -> li_step f e o = Ret e' -> li_inv (cf_dim f) e'.
Proof.
  intros CL I. destruct o as [px s|px s dt|fuel px s dt|fuel px s|L|U]; cbn [li_step].
  - intros H. injection H as <-. intros F. unfold li_init in *. cbn [compute_K init_base] in *. cbn [ls_func ls_base ls_canWarm sb_lambda sb_prev] in *.
    split; [intros; unfold vzero, k0; cbn; lra|]. intros W. apply andb_prop in W. destruct W as [W _]. apply lfunc_eqb_eq in W. rewrite W in F. apply I. exact F.
  - unfold li_warmstart. destruct (ls_canWarm e) eqn:W; [|intros H; injection H as <-; exact I].
    unfold warmstart_default. intros H F2.
    assert (X : ls_func e' = ls_func e /\ ls_canWarm e' = true /\ sb_prev (ls_base e') = sb_prev (ls_base e) /\
      (sb_lambda (ls_base e') = sb_prev (ls_base e) \/ sb_lambda (ls_base e') = fun i => sb_lambda (ls_base e) i + sb_prev (ls_base e) i)).
    { destruct (ls_func e) eqn:F; ret_inv H; destruct a as [b1 s1]; cbn [fst snd] in H; injection H as <-; ret_inv E; destruct (ls_canWarm e) eqn:W'; try discriminate.
      - destruct a as [b2 s2]. apply update_lambda_R in E0. destruct E0 as [-> _]. injection E as <- <-. rewrite CL. cbn. auto.
      - injection E as <- <-. cbn. auto.
      - destruct a as [b2 s2]. apply update_lambda_R in E0. destruct E0 as [-> _]. injection E as <- <-. rewrite CL. cbn. auto.
      - destruct a as [b2 s2]. apply update_lambda_R in E0. destruct E0 as [-> _]. injection E as <- <-. rewrite CL. cbn. auto. }
    destruct X as (XF & XW & XP & XL). rewrite XF in F2. destruct (I F2) as [IL IP]. specialize (IP W). rewrite XP. split; [|auto].
    intros i Hi. specialize (IL i Hi). specialize (IP i Hi). destruct XL as [-> | ->]; lra.
  - intros H. ret_inv H. destruct a as [b1 s1]. injection H as <-. apply li_vel_cases in E. cbn [fst].
    destruct E as [(_ & -> & _)|(err & l & _ & HC & ->)]; [exact I|]. intros F2. cbn [li_set_base ls_func ls_base set_lambda sb_lambda ls_canWarm sb_prev] in *.
    destruct (I F2) as [IL IP]. split; [|exact IP].
    destruct HC as [(F & _)|[(F & (A & l0 & _ & S & ->) & _)|(F & (A & _ & S) & _)]].
    + rewrite F in F2. destruct F2; discriminate.
    + rewrite CL. intros i Hi. pose proof (sweep_nonneg _ _ _ _ _ _ _ _ (fun z j => kmax0_nonneg _) S i Hi) as P. rcbn. lra.
    + intros i Hi. exact (sweep_nonneg _ _ _ _ _ _ _ _ (fun z j => kmax0_nonneg _) S i Hi).
  - unfold li_position. cbn [compute_K]. intros H. ret_inv H. ret_inv E. destruct a as [b1 s1]. injection H as <-. injection E as <- <-. exact I.
  - intros H. injection H as <-. exact I.
  - intros H. injection H as <-. exact I.
Qed.
Lemma li_run_inv f os : (forall l dt, cf_clamp f l dt = l) -> forall e e', li_inv (cf_dim f) e -> li_run f os e = Ret e' -> li_inv (cf_dim f) e'.
Proof.
  intros CL. induction os as [|o os IH]; intros e e' I; cbn [li_run]; intros H; [injection H as <-; exact I|].
  ret_inv H. eapply IH; [|exact H]. eapply li_step_inv; eauto.
Qed.
Lemma li_new_inv n rest damp : li_inv n (new_lisolver rest damp).
Proof. intros [F|F]; discriminate. Qed.

(** one dimension: the complementarity condition of the active limit *)
Lemma gs_one fuel (A : Rmat) (b : Rvec) (proj : Rvec -> nat -> R) (p : R -> R) guess epsilon :
  (forall z, proj z 0%nat = p (z 0%nat)) -> 0 <= epsilon -> (2 <= fuel)%nat ->
  exists x, solveInequalities fuel 1 A b proj guess epsilon = Ret x /\ x 0%nat = p (b 0%nat / A 0%nat 0%nat).
Proof.
  intros HP HE HF. destruct fuel as [|[|fuel]]; [lia|lia|]. unfold solveInequalities.
  set (q := p (b 0%nat / A 0%nat 0%nat)).
  assert (RW : forall x, gs_row 1 A (fun i => kopp (b i)) proj 0 x = q).
  { intros x. unfold gs_row. cbn [gs_sum Nat.sub]. rewrite HP. unfold vset. cbn [Nat.eqb]. subst q. f_equal. unfold k0. cbn. unfold Rdiv. ring. }
  assert (F1 : @kltb RNum epsilon (@kadd RNum k1 epsilon) = true) by (unfold k1; cbn [kltb kadd kofZ RNum]; change (@K RNum) with R in *; rcmp; [reflexivity|lra]).
  cbn [gs_loop gs_sweep]. rewrite F1, !RW.
  assert (X : vset (vset guess 0 q) 0 q 0%nat = q /\ vset guess 0 q 0%nat = q) by (split; reflexivity). destruct X as [X2 X1]. rewrite !X1.
  assert (F2 : @kltb RNum epsilon (kmax (N:=RNum) k0 (@kabs RNum (@ksub RNum q q))) = false).
  { unfold kmax, k0. cbn [kltb kabs ksub kofZ RNum]. rewrite Rminus_diag_eq by reflexivity. rewrite Rabs_R0. change (@K RNum) with R in *. rcmp; try reflexivity; lra. }
  match goal with |- context [if ?c then _ else _] => destruct c end; [exists (vset (vset guess 0 q) 0 q)|exists (vset guess 0 q)]; auto.
  destruct fuel; cbn [gs_loop]; rewrite F2; auto.
Qed.

Lemma eps_pos : 0 <= @keps RNum.
Proof. unfold keps. cbn [kdiv kofZ RNum]. lra. Qed.
(** [gap]: the velocity of the limited quantity towards the allowed side, with
    the bias and the fraction of the violation to be corrected *)
Lemma comp_core (a l v l' : R) : 0 < a -> l' = (if Rlt_dec (l - v / a) 0 then 0 else l - v / a) ->
  0 <= l' /\ 0 <= v + a * (l' - l) /\ l' * (v + a * (l' - l)) = 0.
Proof.
  intros HA ->. destruct (Rlt_dec (l - v / a) 0) as [C|C].
  - split; [lra|]. split; [|ring]. apply Rmult_lt_compat_l with (r := a) in C; [|exact HA].
    replace (a * (l - v / a)) with (a * l - v) in C by (field; lra). lra.
  - split; [lra|]. replace (v + a * (l - v / a - l)) with 0 by (field; lra). split; [lra|ring].
Qed.
Lemma li_lower_spec J l prev (e : Rlis) f px s dt fuel rest damp (L : Rvec) : (forall l dt, cf_clamp f l dt = l) -> cf_dim f = 1%nat ->
  ls_base e = SB l prev J rest damp -> ls_func e = FLower -> ls_L e = Some L -> ls_mem e = LMass (madd (eff_mass J px) (mdiagonal damp)) ->
  uses 1 J px -> damp 0%nat = 0 -> 0 < eff J px 0 0 -> (2 <= fuel)%nat ->
  exists e' s', li_velocity fuel e f px s dt = Ret (e', s') /\
    let gap := rowv J px s' 0 + cf_bias f px s 0%nat + rest 0%nat / dt * (cf_eval f px s 0%nat - L 0%nat) in
    let l' := sb_lambda (ls_base e') 0%nat in
    0 <= l' /\ 0 <= gap /\ l' * gap = 0 /\ s' = pushed px (fun k => J 0%nat k * (l' - l 0%nat)) s.
Proof.
  intros CL D1 HB HN HL HM U DZ HE HF. unfold li_velocity, li_rhs. rewrite HM, HL, HN, HB. cbn [opt_value obind sb_J sb_lambda sb_rest sb_damp]. rewrite D1.
  match goal with |- context [solveInequalities fuel 1 ?A ?b ?pr l _] => destruct (gs_one fuel A b pr (fun x => kmax (N := RNum) x k0) l (@keps RNum)) as (x & SX & VX) end;
    [intros z; cbv beta; rewrite CL; reflexivity|exact eps_pos|exact HF|].
  rewrite SX. cbn [obind]. unfold update_lambda. rewrite CL, apply_P_R. cbn [obind fst snd]. eexists _, _. split; [reflexivity|].
  cbn [sb_lambda sb_J set_lambda li_set_base ls_base]. rewrite D1.
  set (lam := kadd (l 0%nat) (ksub (x 0%nat) (l 0%nat))).
  assert (LX : lam = x 0%nat) by (subst lam; rring).
  rewrite rowv_pushed by (try exact U; lia). cbn [ksum]. unfold k0 at 1 2. cbn [kofZ RNum].
  rewrite LX.
  unfold madd, mdiagonal in VX. cbn [Nat.eqb] in VX. rewrite eff_eq, DZ in VX. rewrite rowv_eq in VX. unfold mvmul in VX. cbn [ksum] in VX. rewrite eff_eq in VX.
  set (a := eff J px 0 0) in *. set (jv := rowv J px s 0) in *. set (bi := cf_bias f px s 0%nat) in *. set (C := cf_eval f px s 0%nat) in *.
  set (r := rest 0%nat) in *.
  assert (VX2 : x 0%nat = if Rlt_dec (l 0%nat - (jv + bi + r / dt * (C - L 0%nat)) / a) 0 then 0 else l 0%nat - (jv + bi + r / dt * (C - L 0%nat)) / a).
  { rewrite VX. unfold kmax, k0. cbn [kltb kadd ksub kmul kdiv kopp kofZ RNum]. change (@K RNum) with R in *.
    match goal with |- context [Rltb ?u 0] => replace u with (l 0%nat - (jv + bi + r / dt * (C - L 0%nat)) / a) end.
    - unfold Rltb. destruct (Rlt_dec _ 0); reflexivity.
    - rewrite Rplus_0_r. unfold Rdiv. replace (0 + a * l 0%nat) with (a * l 0%nat) by ring.
      transitivity (l 0%nat * (a * / a) - (jv + bi + r * / dt * (C - L 0%nat)) * / a); [rewrite Rinv_r by lra; ring|ring]. }
  destruct (comp_core a (l 0%nat) (jv + bi + r / dt * (C - L 0%nat)) (x 0%nat) HE VX2) as (P1 & P2 & P3).
  split; [exact P1|].
  match goal with |- 0 <= ?g /\ _ => replace g with (jv + bi + r / dt * (C - L 0%nat) + a * (x 0%nat - l 0%nat)) by (rcbn; ring) end.
  split; [exact P2|]. split; [exact P3|].
  unfold pushed. unfold impulse, mvmul, mtrans. cbn [ksum]. unfold k0. cbn [kofZ RNum]. rcbn.
  assert (Q : forall k, 0 + J 0%nat k * (l 0%nat + (x 0%nat - l 0%nat) - l 0%nat) = J 0%nat k * (x 0%nat - l 0%nat)) by (intros; ring).
  rewrite !Q. reflexivity.
Qed.
Lemma li_upper_spec J l prev (e : Rlis) f px s dt fuel rest damp (U0 : Rvec) : (forall l dt, cf_clamp f l dt = l) -> cf_dim f = 1%nat ->
  ls_base e = SB l prev J rest damp -> ls_func e = FUpper -> ls_U e = Some U0 -> ls_mem e = LMass (madd (eff_mass J px) (mdiagonal damp)) ->
  uses 1 J px -> damp 0%nat = 0 -> 0 < eff J px 0 0 -> (2 <= fuel)%nat ->
  exists e' s', li_velocity fuel e f px s dt = Ret (e', s') /\
    let gap := - (rowv J px s' 0 + cf_bias f px s 0%nat + rest 0%nat / dt * (cf_eval f px s 0%nat - U0 0%nat)) in
    let l' := sb_lambda (ls_base e') 0%nat in
    0 <= l' /\ 0 <= gap /\ l' * gap = 0 /\ s' = pushed px (fun k => - (J 0%nat k * (l' - l 0%nat))) s.
Proof.
  intros CL D1 HB HN HL HM U DZ HE HF. unfold li_velocity, li_rhs. rewrite HM, HL, HN, HB. cbn [opt_value obind sb_J sb_lambda sb_rest sb_damp]. rewrite D1.
  match goal with |- context [solveInequalities fuel 1 ?A ?b ?pr l _] => destruct (gs_one fuel A b pr (fun x => kmax (N := RNum) x k0) l (@keps RNum)) as (x & SX & VX) end;
    [intros z; cbv beta; rewrite CL; unfold kmax; cbn [kltb kopp RNum]; rewrite !Ropp_involutive; reflexivity|exact eps_pos|exact HF|].
  rewrite SX. cbn [obind]. rewrite apply_P_R. cbn [obind fst snd]. eexists _, _. split; [reflexivity|].
  cbn [sb_lambda sb_J set_lambda li_set_base ls_base].
  rewrite rowv_pushed by (try exact U; lia).
  unfold madd, mdiagonal in VX. cbn [Nat.eqb] in VX. rewrite eff_eq, DZ in VX. rewrite rowv_eq in VX. unfold mvmul in VX. cbn [ksum] in VX. rewrite eff_eq in VX.
  set (a := eff J px 0 0) in *. set (jv := rowv J px s 0) in *. set (bi := cf_bias f px s 0%nat) in *. set (C := cf_eval f px s 0%nat) in *.
  set (r := rest 0%nat) in *.
  set (g := - (jv + bi + r / dt * (C - U0 0%nat))).
  assert (VX2 : x 0%nat = if Rlt_dec (l 0%nat - g / a) 0 then 0 else l 0%nat - g / a).
  { rewrite VX. unfold kmax, k0. cbn [kltb kadd ksub kmul kdiv kopp kofZ RNum]. change (@K RNum) with R in *.
    match goal with |- context [Rltb ?u 0] => replace u with (l 0%nat - g / a) end.
    - unfold Rltb. destruct (Rlt_dec _ 0); reflexivity.
    - rewrite Rplus_0_r. unfold g, Rdiv. replace (0 + a * - l 0%nat) with (- (a * l 0%nat)) by ring.
      transitivity (l 0%nat * (a * / a) + (jv + bi + r * / dt * (C - U0 0%nat)) * / a); [rewrite Rinv_r by lra; ring|ring]. }
  destruct (comp_core a (l 0%nat) g (x 0%nat) HE VX2) as (P1 & P2 & P3).
  split; [exact P1|].
  cbn [ksum]. fold a. unfold k0. cbn [kofZ RNum].
  match goal with |- 0 <= ?g' /\ _ => replace g' with (g + a * (x 0%nat - l 0%nat)) by (unfold g; rcbn; ring) end.
  split; [exact P2|]. split; [exact P3|].
  unfold pushed. unfold impulse, mvmul, mtrans. cbn [ksum]. unfold k0. cbn [kofZ RNum]. rcbn.
  assert (Q : forall k, 0 + J 0%nat k * - (x 0%nat - l 0%nat) = - (J 0%nat k * (x 0%nat - l 0%nat))) by (intros; ring).
  rewrite !Q. reflexivity.
Qed.
