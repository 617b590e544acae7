(** The constraints of the library as behaviours of the world: equality solvers
    (hinges, welds, rotations, mouse constraints, motors) and contacts.

    A contact's solver memory is a union; the functions of Contact.v are
    undefined when it does not hold the member they read (property C52 covers the
    order in which an island calls them).  Here such a call throws instead, so
    that the functions are defined for every state.  preStep, which for a contact
    updates its manifold, is the identity: [op_state] may put any state before a
    step. *)
From Coq Require Import ZArith List Bool Lia Reals Lra.
From Verif Require Import Num Outcome Box Mat Geom Transform Body Constraint Contact World WorldHoare WorldInv WorldFrame WorldIsland WorldSolve WorldComp WorldSleep WorldOps WorldCols WorldClean WorldKill WorldStep WorldStrict WorldHist.
Import ListNotations.

Section Lib.
Context {N : Num} {TR : Trig N}.
Local Open Scope num_scope.

Inductive lstate := LEq (f : cfun) (e : eqsolver) | LCt (c : contact).
Definition held (c : contact) : bool :=
  match fr_n (ct_fr c), ct_mem c with 1, CK11 _ => true | 1, _ => false | 2, CLcp _ => true | 2, _ => false | _, _ => true end%nat.
Definition caught {A} (o : outcome A) : outcome A := match o with UB => Throw | _ => o end.
Definition lib_active (st : lstate) (px : proxies) (s : store) : outcome (lstate * bool) :=
  match st with
  | LEq f e => Ret (st, true)
  | LCt c => let '(c', a) := ct_isActive c px s in Ret (LCt c', a)
  end.
Definition lib_init (st : lstate) (px : proxies) (s : store) : outcome lstate :=
  match st with
  | LEq f e => (let* e' := eq_init e f px s in Ret (LEq f e'))%out
  | LCt c => Ret (LCt (ct_init c px s))
  end.
Definition lib_warm (st : lstate) (px : proxies) (s : store) (dt : K) : outcome (lstate * store) :=
  match st with
  | LEq f e => (let* r := eq_warmstart e f px s dt in Ret (LEq f (fst r), snd r))%out
  | LCt c => (let* r := ct_warmstart c px s in Ret (LCt (fst r), snd r))%out
  end.
Definition lib_vel (st : lstate) (px : proxies) (s : store) (dt : K) : outcome (lstate * store) :=
  match st with
  | LEq f e => (let* r := eq_velocity e f px s dt in Ret (LEq f (fst r), snd r))%out
  | LCt c => if held c then (let* r := ct_velocities c px s in Ret (LCt (fst r), snd r))%out else Throw
  end.
Definition lib_pos (st : lstate) (px : proxies) (s : store) : outcome (lstate * store) :=
  match st with
  | LEq f e => (let* r := eq_position e f px s in Ret (LEq f (fst r), snd r))%out
  | LCt c => (let* r := ct_positions c px s in Ret (LCt (fst r), snd r))%out
  end.
Definition LibB : Behaviour N :=
  {| CS := lstate; bh_pre := fun c => c; bh_active := lib_active; bh_init := lib_init; bh_warm := lib_warm; bh_vel := lib_vel; bh_pos := lib_pos |}.

(** ** No call is undefined *)
Lemma calm_bind {A B} (o : outcome A) (f : A -> outcome B) : calm o -> (forall a, calm (f a)) -> calm (obind o f).
Proof. destruct o; cbn; auto; contradiction. Qed.
Lemma calm_setv i v w s : calm (proxy_setVelocity i v w s). Proof. unfold proxy_setVelocity. destruct (_ && _ && _); exact Logic.I. Qed.
Lemma calm_adv i v w s : calm (proxy_advancePos i v w s). Proof. unfold proxy_advancePos. cbv zeta. destruct (_ && _ && _); exact Logic.I. Qed.
Lemma calm_P px P s : calm (apply_P px P s). Proof. unfold apply_P, proxy_incrementVel. apply calm_bind; [apply calm_setv|]. intros a. apply calm_setv. Qed.
Lemma calm_C px P s : calm (apply_C px P s). Proof. unfold apply_C. apply calm_bind; [apply calm_adv|]. intros a. apply calm_adv. Qed.
Lemma calm_s2 s b : calm (solve2 s b). Proof. unfold solve2. destruct (s2_valid s); exact Logic.I. Qed.
Lemma calm_ks n s b : calm (ks_solve n s b).
Proof. destruct s as [s|[q|]]; cbn; try exact Logic.I. apply calm_bind; [apply calm_s2|]. intros a. exact Logic.I. Qed.
Lemma calm_lcp l b : calm (lcp_solve l b).
Proof. unfold lcp_solve. apply calm_bind; [apply calm_s2|]. intros x. repeat match goal with |- calm (if ?c then _ else _) => destruct c | |- calm (let _ := _ in _) => cbv zeta end; exact Logic.I. Qed.
Lemma calm_update b f px s dt d : calm (update_lambda b f px s dt d).
Proof. unfold update_lambda. cbv zeta. apply calm_bind; [apply calm_P|]. intros a. exact Logic.I. Qed.
Lemma calm_vel c px s : held c = true -> calm (ct_velocities c px s).
Proof.
  intros H. unfold ct_velocities. destruct (friction_all _ _ _ _ _ _) as [tl v]. apply calm_bind.
  - unfold held in H. destruct (fr_n (ct_fr c)) as [|[|[|n]]]; cbn [Nat.eqb].
    + exact Logic.I.
    + destruct (ct_mem c); try discriminate. exact Logic.I.
    + destruct (ct_mem c); try discriminate. cbv zeta. apply calm_bind; [apply calm_lcp|]. intros a. exact Logic.I.
    + exact Logic.I.
  - intros [nl v']. apply calm_bind; [apply calm_setv|]. intros a. apply calm_bind; [apply calm_setv|]. intros a'. exact Logic.I.
Qed.
Lemma ks_mem c px : let c' := ct_Ks c px false in ct_fr c' = ct_fr c /\ match mf_n (ct_man c) with 1 => exists k, ct_mem c' = CK11 k | 2 => exists l, ct_mem c' = CLcp l | _ => True end%nat.
Proof. cbv zeta. unfold ct_Ks. cbv zeta. destruct (mf_n (ct_man c)) as [|[|[|n]]] eqn:E; cbn; split; eauto. Qed.
Lemma calm_posn c px s : calm (ct_positions c px s).
Proof.
  unfold ct_positions. cbv zeta. set (c1 := ct_jacobians _ _ _ _). destruct (ks_mem c1 px) as [E1 E2]. rewrite E1. destruct (_ && _); [exact Logic.I|].
  change (fr_n (ct_fr c1)) with (mf_n (ct_man c1)). destruct (mf_n (ct_man c1)) as [|[|[|n]]]; cbn [Nat.eqb]; try exact Logic.I.
  - destruct E2 as [k ->]. apply calm_bind; [apply calm_C|]. intros a. exact Logic.I.
  - destruct E2 as [k ->]. apply calm_bind; [apply calm_lcp|]. intros a. apply calm_bind; [apply calm_C|]. intros a'. exact Logic.I.
Qed.
Theorem lib_tame : @tame N LibB.
Proof.
  constructor; cbn.
  - intros [f e|c] px s; cbn; exact Logic.I.
  - intros [f e|c] px s; cbn; [|exact Logic.I]. apply calm_bind; [|intros a; exact Logic.I]. unfold eq_init. destruct (compute_K (init_base (es_base e)) f px s true). cbv zeta. destruct (ks_valid _); exact Logic.I.
  - intros [f e|c] px s dt; cbn; (apply calm_bind; [|intros a; exact Logic.I]).
    + unfold eq_warmstart, warmstart_default. apply calm_bind; [apply calm_update|]. intros a. exact Logic.I.
    + unfold ct_warmstart. cbv zeta. apply calm_bind; [apply calm_P|]. intros a. exact Logic.I.
  - intros [f e|c] px s dt; cbn.
    + apply calm_bind; [|intros a; exact Logic.I]. unfold eq_velocity. apply calm_bind; [apply calm_ks|]. intros a. apply calm_bind; [apply calm_update|]. intros a'. exact Logic.I.
    + destruct (held c) eqn:E; [|exact Logic.I]. apply calm_bind; [apply calm_vel, E|]. intros a. exact Logic.I.
  - intros [f e|c] px s; cbn; (apply calm_bind; [|intros a; exact Logic.I]).
    + unfold eq_position. cbv zeta. destruct (compute_K (es_base e) f px s false). apply calm_bind; [apply calm_ks|]. intros a. apply calm_bind; [apply calm_C|]. intros a'. exact Logic.I.
    + apply calm_posn.
Qed.

(** ** Whether a constraint is active depends on its state only *)
Definition lib_act (st : lstate) : bool := match st with LEq _ _ => true | LCt c => negb (Nat.eqb (mf_n (ct_man c)) 0) end.
Lemma ret_bind {A B} (o : outcome A) (f : A -> outcome B) b : obind o f = Ret b -> exists a, o = Ret a /\ f a = Ret b.
Proof. destruct o; cbn; try discriminate. eauto. Qed.
Lemma vel_man c px s c' s' : ct_velocities c px s = Ret (c', s') -> ct_man c' = ct_man c.
Proof.
  unfold ct_velocities. destruct (friction_all _ _ _ _ _ _) as [tl v]. intros E. apply ret_bind in E. destruct E as ([nl v'] & _ & E). apply ret_bind in E. destruct E as (s1 & _ & E). apply ret_bind in E. destruct E as (s2 & _ & E). injection E as <- <-. reflexivity.
Qed.
Lemma pos_man c px s c' s' : ct_positions c px s = Ret (c', s') -> ct_man c' = ct_man c /\ s_vel s' = s_vel s.
Proof.
  assert (AC : forall P s s', apply_C px P s = Ret s' -> s_vel s' = s_vel s).
  { intros P s0 s1 E. unfold apply_C in E. apply ret_bind in E. destruct E as (s2 & E1 & E2). unfold proxy_advancePos in E1, E2. cbv zeta in E1, E2.
    destruct (_ && _ && _) in E1; [|discriminate]. injection E1 as <-. destruct (_ && _ && _) in E2; [|discriminate]. injection E2 as <-. reflexivity. }
  unfold ct_positions. cbv zeta. set (c1 := ct_Ks _ _ _). assert (Hm : ct_man c1 = ct_man c) by reflexivity. destruct (_ && _); [intros E; injection E as <- <-; auto|].
  destruct (Nat.eqb _ 1); [destruct (ct_mem c1); try discriminate; intros E; apply ret_bind in E; destruct E as (s1 & E1 & E); injection E as <- <-; eauto|].
  destruct (Nat.eqb _ 2); [destruct (ct_mem c1); try discriminate; intros E; apply ret_bind in E; destruct E as (x & _ & E); apply ret_bind in E; destruct E as (s1 & E1 & E); injection E as <- <-; eauto|].
  intros E. injection E as <- <-. auto.
Qed.
Theorem lib_steady : @steady N LibB lib_act.
Proof.
  constructor; cbn.
  - intros [f e|c] px s st' a E; cbn in E; injection E as <- <-; auto.
  - intros [f e|c] px s st' E; cbn in E; [apply ret_bind in E; destruct E as (e' & _ & E)|]; injection E as <-; reflexivity.
  - intros [f e|c] px s dt st' s' E; cbn in E; apply ret_bind in E; destruct E as (r & E1 & E); injection E as <- <-; [reflexivity|].
    unfold ct_warmstart in E1. cbv zeta in E1. apply ret_bind in E1. destruct E1 as (s1 & _ & E1). injection E1 as <-. reflexivity.
  - intros [f e|c] px s dt st' s' E; cbn in E.
    + apply ret_bind in E. destruct E as (r & _ & E). injection E as <- <-. reflexivity.
    + destruct (held c); [|discriminate]. apply ret_bind in E. destruct E as ([c1 s1] & E1 & E). injection E as <- <-. cbn. apply vel_man in E1. rewrite E1. reflexivity.
  - intros [f e|c] px s st' s' E; cbn in E; apply ret_bind in E; destruct E as ([r s1] & E1 & E); injection E as <- <-; [reflexivity|]. cbn. apply pos_man in E1. rewrite (proj1 E1). reflexivity.
Qed.
End Lib.

(** ** Exact arithmetic: a resting body of infinite mass stays at rest *)
Section Real.
Local Open Scope R_scope.
Lemma Reqb_true x y : Reqb x y = true <-> x = y.
Proof. destruct (Reqb_spec x y); split; congruence. Qed.
Lemma rest_iff (v : @velocity RNum) : rest v = true <-> vx (v_lin v) = 0 /\ vy (v_lin v) = 0 /\ v_ang v = 0.
Proof. unfold rest. rewrite !andb_true_iff. cbn. rewrite !Reqb_true. tauto. Qed.
Definition keeps_rest (px : @proxies RNum) (s s' : @store RNum) : Prop :=
  px_i1 px <> px_i0 px ->
  (px_m0 px = 0 -> px_I0 px = 0 -> rest (s_vel s (px_i0 px)) = true -> rest (s_vel s' (px_i0 px)) = true) /\
  (px_m1 px = 0 -> px_I1 px = 0 -> rest (s_vel s (px_i1 px)) = true -> rest (s_vel s' (px_i1 px)) = true).
Lemma keeps_P px P s s' : apply_P px P s = Ret s' -> keeps_rest px s s'.
Proof.
  unfold apply_P, proxy_incrementVel. intros E NE. apply ret_bind in E. destruct E as (s1 & E1 & E2). unfold proxy_setVelocity in E1, E2.
  destruct (_ && _ && _) in E1; [|discriminate]. injection E1 as <-. destruct (_ && _ && _) in E2; [|discriminate]. injection E2 as <-. cbn [s_vel].
  unfold set_at. rewrite !Nat.eqb_refl, (proj2 (Nat.eqb_neq (px_i0 px) (px_i1 px))), (proj2 (Nat.eqb_neq (px_i1 px) (px_i0 px))) by congruence. split; intros M0 J0; rewrite !rest_iff; cbn; rewrite M0, J0; intros (H1 & H2 & H3); rewrite H1, H2, H3; repeat split; ring.
Qed.
Lemma keeps_update b f px s dt d b' s' : update_lambda b f px s dt d = Ret (b', s') -> keeps_rest px s s'.
Proof. unfold update_lambda. cbv zeta. intros E. apply ret_bind in E. destruct E as (s1 & E1 & E). injection E as _ <-. eapply keeps_P, E1. Qed.
Lemma keeps_same px s s' : s_vel s' = s_vel s -> keeps_rest px s s'.
Proof. intros E NE. rewrite E. auto. Qed.
Lemma C_vel (px : @proxies RNum) (TR : Trig RNum) P s s' : apply_C px P s = Ret s' -> s_vel s' = s_vel s.
Proof.
  intros E. unfold apply_C in E. apply ret_bind in E. destruct E as (s2 & E1 & E2). unfold proxy_advancePos in E1, E2. cbv zeta in E1, E2.
  destruct (_ && _ && _) in E1; [|discriminate]. injection E1 as <-. destruct (_ && _ && _) in E2; [|discriminate]. injection E2 as <-. reflexivity.
Qed.
(** components of zero inverse mass do not change *)
Definition frozen (px : @proxies RNum) (v v' : @vec RNum) : Prop := forall k, px_invMassVec px k = 0 -> v' k = v k.
Lemma frozen_add px v P : frozen px v (add_impulse px v P).
Proof. intros k Hk. unfold add_impulse. rewrite Hk. cbn. ring. Qed.
Lemma frozen_friction c px : forall n i tl v tl' v', friction_all c px n i tl v = (tl', v') -> frozen px v v'.
Proof.
  induction n as [|n IH]; intros i tl v tl' v' E; cbn in E; [injection E as _ <-; intros k _; reflexivity|]. destruct (friction_one c px i tl v) as [tl1 v1] eqn:E1. intros k Hk.
  rewrite (IH _ _ _ _ _ E k Hk). unfold friction_one in E1. injection E1 as _ <-. apply frozen_add, Hk.
Qed.
Lemma frozen_trans px a b c : frozen px a b -> frozen px b c -> frozen px a c.
Proof. intros H1 H2 k Hk. rewrite (H2 k Hk). apply H1, Hk. Qed.
Lemma keeps_vel c px s c' s' : ct_velocities c px s = Ret (c', s') -> keeps_rest px s s'.
Proof.
  unfold ct_velocities. destruct (friction_all _ _ _ _ _ _) as [tl v] eqn:EF. apply frozen_friction in EF. intros E. apply ret_bind in E. destruct E as ([nl v'] & E1 & E).
  assert (FZ : frozen px (px_velocity px s) v').
  { eapply frozen_trans; [exact EF|]. destruct (Nat.eqb _ 1).
    - destruct (ct_mem c); try discriminate. injection E1 as _ <-. apply frozen_add.
    - destruct (Nat.eqb _ 2); [|injection E1 as _ <-; intros k _; reflexivity]. destruct (ct_mem c); try discriminate. apply ret_bind in E1. destruct E1 as (x & _ & E1). injection E1 as _ <-. apply frozen_add. }
  apply ret_bind in E. destruct E as (s1 & E2 & E). apply ret_bind in E. destruct E as (s2 & E3 & E). injection E as _ <-. unfold proxy_setVelocity in E2, E3.
  destruct (_ && _ && _) in E2; [|discriminate]. injection E2 as <-. destruct (_ && _ && _) in E3; [|discriminate]. injection E3 as <-. intros NE. cbn [s_vel].
  unfold set_at. rewrite !Nat.eqb_refl, (proj2 (Nat.eqb_neq (px_i0 px) (px_i1 px))) by congruence. split; intros M0 J0; rewrite !rest_iff; cbn [v_lin v_ang vx vy]; intros (H1 & H2 & H3).
  - rewrite (FZ 0%nat M0), (FZ 1%nat M0), (FZ 2%nat J0). cbn. auto.
  - rewrite (FZ 3%nat M0), (FZ 4%nat M0), (FZ 5%nat J0). cbn. auto.
Qed.
Lemma keeps_fun (TR : Trig RNum) (f : @lstate RNum -> proxies -> store -> outcome (@lstate RNum * store)) : (forall st px s st' s', f st px s = Ret (st', s') -> keeps_rest px s s') -> @still_fun RNum LibB f.
Proof.
  intros H st px s st' s' E. specialize (H st px s st' s' E). cbn. rewrite !Reqb_true. split; intros M0 J0 NE; apply (H NE); assumption.
Qed.
Theorem lib_still (TR : Trig RNum) : @still RNum LibB.
Proof.
  constructor; intros; apply keeps_fun.
  - intros [f e|c] px s st' s' E; cbv beta iota delta [bh_warm bh_vel bh_pos LibB lib_warm lib_vel lib_pos] in E; apply ret_bind in E; destruct E as ([r s1] & E1 & E); injection E as _ <-.
    + unfold eq_warmstart, warmstart_default in E1. apply ret_bind in E1. destruct E1 as ([b s2] & E1 & E2). injection E2 as _ <-. eapply keeps_update, E1.
    + unfold ct_warmstart in E1. cbv zeta in E1. apply ret_bind in E1. destruct E1 as (s2 & E1 & E2). injection E2 as _ <-. eapply keeps_P, E1.
  - intros [f e|c] px s st' s' E; cbv beta iota delta [bh_warm bh_vel bh_pos LibB lib_warm lib_vel lib_pos] in E.
    + apply ret_bind in E; destruct E as ([r s1] & E1 & E); injection E as _ <-. unfold eq_velocity in E1. apply ret_bind in E1. destruct E1 as (d & _ & E1). apply ret_bind in E1. destruct E1 as ([b s2] & E1 & E2). injection E2 as _ <-. eapply keeps_update, E1.
    + destruct (held c); [|discriminate]. apply ret_bind in E; destruct E as ([r s1] & E1 & E); injection E as _ <-. eapply keeps_vel, E1.
  - intros [f e|c] px s st' s' E; cbv beta iota delta [bh_warm bh_vel bh_pos LibB lib_warm lib_vel lib_pos] in E; apply ret_bind in E; destruct E as ([r s1] & E1 & E); injection E as _ <-; apply keeps_same; cbn [snd].
    + unfold eq_position in E1. cbv zeta in E1. destruct (compute_K (es_base e) f px s false). apply ret_bind in E1. destruct E1 as (l & _ & E1). apply ret_bind in E1. destruct E1 as (s2 & E1 & E2). injection E2 as _ <-. eapply C_vel, E1.
    + apply (pos_man (TR := TR)) in E1. apply E1.
Qed.
End Real.
