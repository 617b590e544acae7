(** Contacts: signs and friction bounds in any arithmetic with the laws of
    [SignLaws] (C49), the complementarity condition in exact arithmetic (C62),
    finiteness of velocities (C63). *)
From Coq Require Import ZArith List Bool Reals Lra Psatz Lia Arith FunctionalExtensionality.
From Verif Require Import Num Sign Outcome Box Mat MatFacts MatSolve Geom GeomClosest Transform TransformFacts Body BodyFacts Constraint ConstraintFacts Contact ConstraintMomentum.
Import ListNotations.

Section Signs.
Context {N : Num} {TR : Trig N} {SL : SignLaws N}.
Implicit Type c : contact.

(** a history of calls on one contact: preStep, isActive, initSolve, warmstart,
    solveVelocities, solvePositions, at any states of the bodies *)
Inductive ct_op :=
| CUpdate (T0 T1 : transform) (nearest : vec2 -> vec2) (upd : manifold -> manifold)
| CActive (px : proxies) (s : store) | CInit (px : proxies) (s : store) | CWarm (px : proxies) (s : store)
| CVel (px : proxies) (s : store) | CPos (px : proxies) (s : store).
Definition ct_step c (o : ct_op) : outcome contact :=
  match o with
  | CUpdate T0 T1 nearest upd => Ret (ct_update c T0 T1 nearest upd)
  | CActive px s => Ret (fst (ct_isActive c px s))
  | CInit px s => Ret (ct_init c px s)
  | CWarm px s => (let* r := ct_warmstart c px s in Ret (fst r))%out
  | CVel px s => (let* r := ct_velocities c px s in Ret (fst r))%out
  | CPos px s => (let* r := ct_positions c px s in Ret (fst r))%out
  end.
Fixpoint ct_run (os : list ct_op) c : outcome contact :=
  match os with [] => Ret c | o :: os => (let* c := ct_step c o in ct_run os c)%out end.

Definition ct_inv c : Prop := (forall i, nn (ct_nl c i)) /\ (forall i, nn (ct_pnl c i)).
Lemma nn_max0 (x : K) : nn (kmax k0 x).
Proof. unfold kmax. destruct (kltb k0 x) eqn:E; [apply sl_pos; exact E|apply nn0]. Qed.
Lemma nn_vset (v : vec) i x : (forall j, nn (v j)) -> nn x -> forall j, nn (vset v i x j).
Proof. intros H H' j. unfold vset. destruct (Nat.eqb j i); auto. Qed.
Lemma nn_vzero i : nn (vzero i).
Proof. apply nn0. Qed.
Lemma lcp_nn l b x : lcp_solve l b = Ret x -> nn (vx x) /\ nn (vy x).
Proof.
  unfold lcp_solve. destruct (solve2 (lcp_s l) b) as [y| | |]; cbn [obind]; try discriminate.
  destruct (vall_ge y _) eqn:G; [intros H; injection H as <-|].
  { unfold vall_ge in G. cbn [vx vy] in G. apply andb_prop in G. destruct G as [G1 G2]. apply negb_true_iff in G1, G2. split; assumption. }
  destruct (_ && _) eqn:E1; [intros H; injection H as <-|].
  { apply andb_prop in E1. destruct E1 as [E1 _]. split; [apply sl_le0; exact E1|apply nn0]. }
  destruct (kleb k0 (kmul (vy b) _) && _) eqn:E2; [intros H; injection H as <-|].
  { apply andb_prop in E2. destruct E2 as [E2 _]. split; [apply nn0|apply sl_le0; exact E2]. }
  intros H; injection H as <-. split; apply nn0.
Qed.
Lemma vel_cases c px s c' s' : ct_velocities c px s = Ret (c', s') ->
  exists nl, c' = ct_set_lambda c (fst (friction_all c px (fr_n (ct_fr c)) 0 (ct_tl c) (px_velocity px s))) nl /\
    ((exists x, nl = vset (ct_nl c) 0 (kmax k0 x)) \/ (exists l b x, lcp_solve l b = Ret x /\ nl = vec_of2 x) \/ nl = ct_nl c).
Proof.
  unfold ct_velocities. destruct (friction_all _ _ _ _ _ _) as [tl v]. intros H. cbn [fst].
  match type of H with obind ?m _ = _ => destruct m as [[nl v']| | |] eqn:E; cbn [obind] in H; try discriminate end.
  destruct (proxy_setVelocity (px_i0 px) _ _ _); cbn [obind] in H; try discriminate.
  destruct (proxy_setVelocity (px_i1 px) _ _ _); cbn [obind] in H; try discriminate. injection H as <- <-.
  exists nl. split; [reflexivity|].
  destruct (Nat.eqb (fr_n (ct_fr c)) 1).
  - destruct (ct_mem c); try discriminate. injection E as <- <-. left. eexists. reflexivity.
  - destruct (Nat.eqb (fr_n (ct_fr c)) 2).
    + destruct (ct_mem c); try discriminate. destruct (lcp_solve _ _) eqn:L; cbn [obind] in E; try discriminate. injection E as <- <-.
      right. left. eexists _, _, _. split; [exact L|reflexivity].
    + injection E as <- <-. auto.
Qed.
Lemma ct_step_inv c o c' : ct_inv c -> ct_step c o = Ret c' -> ct_inv c'.
Proof.
  intros [I1 I2]. destruct o as [T0 T1 nearest upd|px s|px s|px s|px s|px s]; cbn [ct_step].
  - intros H; injection H as <-. unfold ct_update. match goal with |- context [if ?b then _ else _] => destruct b end; [|split; assumption].
    split; cbn [ct_set_lambda ct_set_frame ct_nl ct_pnl]; [|exact I2].
    destruct (Nat.eqb _ 0); [apply nn_vzero|]. destruct (_ && _); [|destruct (_ && _)]; [| |exact I1].
    + intros i. destruct (Nat.ltb i 2); [apply sl_half; apply I1|apply I1].
    + apply nn_vset; [apply nn_vset; [exact I1|apply sl_add; apply I1]|apply nn0].
  - intros H; injection H as <-. split; assumption.
  - intros H; injection H as <-. split; [apply nn_vzero|exact I1].
  - unfold ct_warmstart. destruct (apply_P _ _ _); cbn [obind fst]; try discriminate. intros H; injection H as <-. split; assumption.
  - destruct (ct_velocities c px s) as [[c1 s1]| | |] eqn:E; cbn [obind fst]; try discriminate. intros H; injection H as <-.
    apply vel_cases in E. destruct E as (nl & -> & HN). split; cbn [ct_set_lambda ct_nl ct_pnl]; [|exact I2].
    destruct HN as [(x & ->)|[(l & b & x & L & ->)| ->]].
    + apply nn_vset; [exact I1|apply nn_max0].
    + apply lcp_nn in L. intros [|[|i]]; [apply L|apply L|apply nn0].
    + exact I1.
  - unfold ct_positions. cbv zeta. match goal with |- context [if ?b then Ret (?c1, s) else _] => set (c1' := c1) end. match goal with |- context [if ?b then Ret (c1', s) else _] => destruct b end; cbn [obind].
    + intros H. injection H as <-. split; assumption.
    + assert (X : forall s1, ct_inv (fst (c1', s1 : store))) by (intros; split; assumption).
      destruct (Nat.eqb _ 1).
      * destruct (ct_mem _); try discriminate. destruct (apply_C _ _ _) as [s1| | |]; cbn [obind]; try discriminate. intros H. injection H as <-. exact (X s1).
      * destruct (Nat.eqb _ 2).
        -- destruct (ct_mem _); try discriminate. destruct (lcp_solve _ _); cbn [obind]; try discriminate. destruct (apply_C _ _ _) as [s1| | |]; cbn [obind]; try discriminate. intros H. injection H as <-. exact (X s1).
        -- cbn [obind]. intros H. injection H as <-. exact (X s).
Qed.
Lemma ct_run_inv os : forall c c', ct_inv c -> ct_run os c = Ret c' -> ct_inv c'.
Proof.
  induction os as [|o os IH]; cbn [ct_run]; intros c c' I H; [injection H as <-; exact I|].
  destruct (ct_step c o) as [c1| | |] eqn:E; cbn [obind] in H; try discriminate. eapply IH; [|exact H]. eapply ct_step_inv; eauto.
Qed.
Lemma new_contact_inv m T0 T1 rest fric : ct_inv (new_contact m T0 T1 rest fric).
Proof. split; intros; apply nn0. Qed.
Lemma ct_step_fric c o c' : ct_step c o = Ret c' -> ct_fric c' = ct_fric c.
Proof.
  destruct o as [T0 T1 nearest upd|px s|px s|px s|px s|px s]; cbn [ct_step].
  - intros H; injection H as <-. unfold ct_update. match goal with |- context [if ?b then _ else _] => destruct b end; reflexivity.
  - intros H; injection H as <-. reflexivity.
  - intros H; injection H as <-. reflexivity.
  - unfold ct_warmstart. destruct (apply_P _ _ _); cbn [obind fst]; try discriminate. intros H; injection H as <-. reflexivity.
  - destruct (ct_velocities c px s) as [[c1 s1]| | |] eqn:E; cbn [obind fst]; try discriminate. intros H; injection H as <-.
    apply vel_cases in E. destruct E as (nl & -> & HN). reflexivity.
  - unfold ct_positions. cbv zeta. match goal with |- context [if ?b then Ret (?c1, s) else _] => set (c1' := c1) end. match goal with |- context [if ?b then Ret (c1', s) else _] => destruct b end; cbn [obind].
    + intros H. injection H as <-. reflexivity.
    + destruct (Nat.eqb _ 1).
      * destruct (ct_mem _); try discriminate. destruct (apply_C _ _ _) as [s1| | |]; cbn [obind]; try discriminate. intros H. injection H as <-. reflexivity.
      * destruct (Nat.eqb _ 2).
        -- destruct (ct_mem _); try discriminate. destruct (lcp_solve _ _); cbn [obind]; try discriminate. destruct (apply_C _ _ _) as [s1| | |]; cbn [obind]; try discriminate. intros H. injection H as <-. reflexivity.
        -- cbn [obind]. intros H. injection H as <-. reflexivity.
Qed.
Lemma ct_run_fric os : forall c c', ct_run os c = Ret c' -> ct_fric c' = ct_fric c.
Proof.
  induction os as [|o os IH]; cbn [ct_run]; intros c c' H; [injection H as <-; reflexivity|].
  destruct (ct_step c o) as [c1| | |] eqn:E; cbn [obind] in H; try discriminate. rewrite (IH _ _ H). apply (ct_step_fric _ _ _ E).
Qed.
Lemma clamp_bounds (v b : K) : nn b -> kltb (kclamp v (kopp b) b) (kopp b) = false /\ kltb b (kclamp v (kopp b) b) = false.
Proof.
  intros H. unfold kclamp, kmin. set (u := kmax v (kopp b)).
  assert (U : kltb u (kopp b) = false). { unfold u, kmax. destruct (kltb v (kopp b)) eqn:E; [apply sl_irrefl|exact E]. }
  destruct (kltb b u) eqn:E; split; try assumption; [apply sl_opp; exact H|apply sl_irrefl].
Qed.
Lemma friction_all_bounds c px n : (forall i, nn (ct_nl c i)) -> nn (ct_fric c) -> forall i tl v tl' v',
  friction_all c px n i tl v = (tl', v') ->
  (forall k, (k < i)%nat \/ (i + n <= k)%nat -> tl' k = tl k) /\
  forall k, (i <= k < i + n)%nat ->
    kltb (tl' k) (kopp (kmul (ct_fric c) (ct_nl c k))) = false /\ kltb (kmul (ct_fric c) (ct_nl c k)) (tl' k) = false.
Proof.
  intros HN HF. induction n as [|n IH]; cbn [friction_all]; intros i tl v tl' v' H.
  - injection H as <- <-. split; [reflexivity|intros; lia].
  - unfold friction_one in H. apply IH in H. destruct H as [H1 H2]. split.
    + intros k Hk. rewrite H1 by lia. unfold vset. destruct (Nat.eqb_spec k i); [lia|reflexivity].
    + intros k Hk. destruct (Nat.eq_dec k i) as [->|NE]; [|apply H2; lia].
      rewrite H1 by lia. unfold vset. rewrite Nat.eqb_refl. apply clamp_bounds. apply sl_mul; [exact HF|apply HN].
Qed.
(** a velocity solve in any history *)
Lemma contact_cone m T0 T1 rest fric os c px s c' s' : nn fric -> ct_run os (new_contact m T0 T1 rest fric) = Ret c ->
  ct_velocities c px s = Ret (c', s') ->
  (forall i, nn (ct_nl c i)) /\ (forall i, nn (ct_nl c' i)) /\
  forall i, (i < fr_n (ct_fr c))%nat ->
    kltb (ct_tl c' i) (kopp (kmul fric (ct_nl c i))) = false /\ kltb (kmul fric (ct_nl c i)) (ct_tl c' i) = false.
Proof.
  intros HF HR HV. pose proof (ct_run_inv _ _ _ (new_contact_inv _ _ _ _ _) HR) as I. pose proof (ct_run_fric _ _ _ HR) as F. cbn [new_contact ct_fric] in F.
  assert (I' : ct_inv c') by (apply (ct_step_inv c (CVel px s)); [exact I|cbn [ct_step]; rewrite HV; reflexivity]).
  destruct I as [I _], I' as [I' _]. split; [exact I|]. split; [exact I'|].
  apply vel_cases in HV. destruct HV as (nl & -> & _). cbn [ct_set_lambda ct_tl].
  destruct (friction_all c px (fr_n (ct_fr c)) 0 (ct_tl c) (px_velocity px s)) as [tl v] eqn:E. cbn [fst].
  rewrite <- F in HF. pose proof (proj2 (friction_all_bounds c px _ I HF _ _ _ _ _ E)) as B. rewrite F in B.
  intros i Hi. apply B. lia.
Qed.
End Signs.

(** ** C63: velocities stay finite, any arithmetic *)
Section Finite.
Context {N : Num} {TR : Trig N}.
Definition vel_finite (v : velocity) : Prop := kfinite (vx (v_lin v)) = true /\ kfinite (vy (v_lin v)) = true /\ kfinite (v_ang v) = true.
Definition store_finite (s : store) : Prop := forall i, vel_finite (s_vel s i).
Definition pos_finite (p : position) : Prop := kfinite (vx (p_off p)) = true /\ kfinite (vy (p_off p)) = true /\ kfinite (r_theta (p_rot p)) = true.
Definition places_finite (s : store) : Prop := forall i, pos_finite (s_pos s i).
Lemma setVelocity_finite i v w s s' : store_finite s -> proxy_setVelocity i v w s = Ret s' -> store_finite s' /\ s_pos s' = s_pos s.
Proof.
  unfold proxy_setVelocity. intros H. destruct (_ && _) eqn:E; [|discriminate]. intros X. injection X as <-. split; [|reflexivity]. intros j. cbn [s_vel]. unfold set_at.
  destruct (Nat.eqb j i); [|apply H]. apply andb_prop in E. destruct E as [E E3]. apply andb_prop in E. destruct E as [E1 E2]. repeat split; assumption.
Qed.
Lemma apply_P_finite px P s s' : store_finite s -> apply_P px P s = Ret s' -> store_finite s' /\ s_pos s' = s_pos s.
Proof.
  unfold apply_P, proxy_incrementVel. intros H. match goal with |- context [obind ?m _] => destruct m as [s1| | |] eqn:E; cbn [obind]; try discriminate end. intros H2.
  eapply setVelocity_finite in E; [|exact H]. destruct E as [E1 E2]. eapply setVelocity_finite in H2; [|exact E1]. destruct H2. split; congruence || assumption.
Qed.
Lemma advance_finite i d t s s' : places_finite s -> proxy_advancePos i d t s = Ret s' -> places_finite s' /\ s_vel s' = s_vel s.
Proof.
  unfold proxy_advancePos. intros H. cbv zeta. destruct (_ && _) eqn:E; [|discriminate]. intros X. injection X as <-. split; [|reflexivity]. intros j. cbn [s_pos]. unfold set_at.
  destruct (Nat.eqb j i); [|apply H]. apply andb_prop in E. destruct E as [E E3]. apply andb_prop in E. destruct E as [E1 E2]. repeat split; assumption.
Qed.
Lemma apply_C_finite px P s s' : places_finite s -> apply_C px P s = Ret s' -> places_finite s' /\ s_vel s' = s_vel s.
Proof.
  unfold apply_C. intros H. match goal with |- context [obind ?m _] => destruct m as [s1| | |] eqn:E; cbn [obind]; try discriminate end. intros H2.
  eapply advance_finite in E; [|exact H]. destruct E as [E1 E2]. eapply advance_finite in H2; [|exact E1]. destruct H2. split; congruence || assumption.
Qed.
Lemma update_lambda_finite b f px s dt d b' s' : store_finite s -> update_lambda b f px s dt d = Ret (b', s') -> store_finite s' /\ s_pos s' = s_pos s.
Proof.
  unfold update_lambda. intros H. cbv zeta. destruct (apply_P _ _ _) as [s1| | |] eqn:E; cbn [obind]; try discriminate. intros X. injection X as <- <-. eapply apply_P_finite; eauto.
Qed.
(** the calls that change velocities, and those that change positions *)
Inductive velocity_call (f : cfun) (px : proxies) (dt : K) : store -> store -> Prop :=
| FC_eq_warm e e' s s' : eq_warmstart e f px s dt = Ret (e', s') -> velocity_call f px dt s s'
| FC_eq_vel e e' s s' : eq_velocity e f px s dt = Ret (e', s') -> velocity_call f px dt s s'
| FC_in_vel fuel e e' s s' : in_velocity fuel e f px s dt = Ret (e', s') -> velocity_call f px dt s s'
| FC_li_warm e e' s s' : li_warmstart e f px s dt = Ret (e', s') -> velocity_call f px dt s s'
| FC_li_vel fuel e e' s s' : li_velocity fuel e f px s dt = Ret (e', s') -> velocity_call f px dt s s'
| FC_ct_warm c c' s s' : ct_warmstart c px s = Ret (c', s') -> velocity_call f px dt s s'
| FC_ct_vel c c' s s' : ct_velocities c px s = Ret (c', s') -> velocity_call f px dt s s'.
Inductive position_call (f : cfun) (px : proxies) : store -> store -> Prop :=
| FP_eq e e' s s' : eq_position e f px s = Ret (e', s') -> position_call f px s s'
| FP_in e e' s s' : in_position e f px s = Ret (e', s') -> position_call f px s s'
| FP_li fuel e e' s s' : li_position fuel e f px s = Ret (e', s') -> position_call f px s s'
| FP_ct c c' s s' : ct_positions c px s = Ret (c', s') -> position_call f px s s'.
Ltac bnd := repeat match goal with
  | H : obind ?m _ = Ret _ |- _ => let E := fresh "E" in destruct m eqn:E; cbn [obind] in H; try discriminate H
  | H : (let (_, _) := ?p in _) = Ret _ |- _ => destruct p
  | H : context [match ?x with _ => _ end] |- _ => match type of H with _ = Ret _ => let E := fresh "E" in destruct x eqn:E; try discriminate H end
  | p : (_ * _)%type |- _ => destruct p
  | H : Ret _ = Ret _ |- _ => injection H as <- <-
  end.
Lemma velocity_call_finite f px dt s s' : velocity_call f px dt s s' -> store_finite s -> store_finite s' /\ s_pos s' = s_pos s.
Proof.
  intros H HS. destruct H as [e e' s s' H|e e' s s' H|fuel e e' s s' H|e e' s s' H|fuel e e' s s' H|c c' s s' H|c c' s s' H].
  - unfold eq_warmstart, warmstart_default in H. bnd. cbn [snd fst] in *. eapply update_lambda_finite; eauto.
  - unfold eq_velocity in H. bnd. cbn [snd fst] in *. eapply update_lambda_finite; eauto.
  - unfold in_velocity in H. bnd. cbn [snd fst] in *. eapply update_lambda_finite; eauto.
  - unfold li_warmstart, warmstart_default in H. bnd; cbn [snd fst] in *; try (eapply update_lambda_finite; eauto; fail); try (eapply apply_P_finite; eauto; fail); auto.
  - unfold li_velocity in H. bnd; cbn [snd fst] in *; try (eapply update_lambda_finite; eauto; fail); try (eapply apply_P_finite; eauto; fail); auto.
  - unfold ct_warmstart in H. bnd. eapply apply_P_finite; eauto.
  - unfold ct_velocities in H. destruct (friction_all _ _ _ _ _ _) as [tl v]. destruct (if Nat.eqb (fr_n (ct_fr c)) 1 then _ else _) as [[nl v']| | |]; cbn [obind] in H; try discriminate.
    destruct (proxy_setVelocity (px_i0 px) _ _ _) as [s1| | |] eqn:E1; cbn [obind] in H; try discriminate.
    destruct (proxy_setVelocity (px_i1 px) _ _ _) as [s2| | |] eqn:E2; cbn [obind] in H; try discriminate. injection H as <- <-.
    eapply setVelocity_finite in E1; [|exact HS]. destruct E1 as [F1 P1]. eapply setVelocity_finite in E2; [|exact F1]. destruct E2. split; congruence || assumption.
Qed.
Lemma position_call_finite f px s s' : position_call f px s s' -> places_finite s -> places_finite s' /\ s_vel s' = s_vel s.
Proof.
  intros H HS. destruct H as [e e' s s' H|e e' s s' H|fuel e e' s s' H|c c' s s' H].
  - unfold eq_position in H. cbn [compute_K] in H. bnd; eapply apply_C_finite; eauto.
  - unfold in_position in H. cbv zeta in H. bnd; auto; eapply apply_C_finite; eauto.
  - unfold li_position in H. cbn [compute_K] in H. bnd; auto; eapply apply_C_finite; eauto.
  - unfold ct_positions in H. cbv zeta in H.
    match type of H with (if ?b then _ else _) = _ => destruct b; [injection H as <- <-; auto|] end.
    match type of H with (if ?b then _ else _) = _ => destruct b end.
    + match type of H with match ?b with _ => _ end = _ => destruct b; try discriminate H end. bnd; eapply apply_C_finite; eauto.
    + match type of H with (if ?b then _ else _) = _ => destruct b end; [|injection H as <- <-; auto].
      match type of H with match ?b with _ => _ end = _ => destruct b; try discriminate H end. bnd; eapply apply_C_finite; eauto.
Qed.
End Finite.
