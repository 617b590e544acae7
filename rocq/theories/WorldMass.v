(** No constraint or contact of a world has only ends which it cannot move. *)
From Coq Require Import ZArith List Bool Lia Permutation.
From Verif Require Import Num Outcome Box Mat Geom Transform Body Constraint World WorldHoare WorldInv WorldFrame WorldIsland WorldSolve WorldComp WorldSleep WorldOps WorldCols WorldClean WorldKill WorldStep WorldStrict WorldHist WorldThm WorldUse WorldGrab.
Import ListNotations.

Section Mass.
Context {N : Num} {TR : Trig N} {BH : Behaviour N}.
Local Open Scope num_scope.

(** one end has an inverse mass other than zero *)
Definition firm (x : wcon) : Prop := (c_m0 x =? k0) = false \/ (c_b0 x <> c_b1 x /\ (c_m1 x =? k0) = false).
Definition all_firm (w : world) : Prop := forall c x, w_ch w c = Some x -> firm x.
Definition stays (w w' : world) : Prop := all_firm w -> all_firm w'.
Lemma stays_refl w : stays w w. Proof. intros H. exact H. Qed.
Lemma stays_trans a b c : stays a b -> stays b c -> stays a c. Proof. intros H1 H2 H. apply H2, H1, H. Qed.
Lemma stays_eq w w' : w_ch w' = w_ch w -> stays w w'. Proof. intros E H c x. rewrite E. apply H. Qed.
Lemma stays_same w w' : hrel con_same (w_ch w) (w_ch w') -> stays w w'.
Proof. intros S H c x' E. destruct (hrel_some' _ _ _ _ _ S E) as (x & E0 & SX). specialize (H c x E0). unfold firm in *. rewrite (cs_m0 _ _ SX), (cs_m1 _ _ SX), (cs_b0 _ _ SX), (cs_b1 _ _ SX). exact H. Qed.
Lemma stays_less w w' : (forall c x, w_ch w' c = Some x -> w_ch w c = Some x) -> stays w w'. Proof. intros S H c x E. eapply H, S, E. Qed.
Lemma stays_put w w' i x : firm x -> w_ch w' = put (w_ch w) i x -> stays w w'.
Proof. intros F E H c z. rewrite E. unfold put. destruct (Nat.eqb c i); [intros EZ; injection EZ as <-; exact F|apply H]. Qed.
Lemma new_firm b0 b1 doms dis cols st w x w' : new_con b0 b1 doms dis cols st w = Ok x w' -> firm x /\ w' = w.
Proof.
  unfold new_con. intros E. apply bind_ok in E. destruct E as (x0 & w1 & E1 & E). apply body_at_ok in E1. destruct E1 as [-> _]. apply bind_ok in E. destruct E as (x1 & w1 & E1 & E). apply body_at_ok in E1. destruct E1 as [-> _].
  destruct (bodies_masses (wb x0) (wb x1) doms) as [[[m0 I0] m1] I1]. apply bind_ok in E. destruct E as (s0 & w1 & E1 & E). apply bind_ok in E. destruct E as (s1 & w2 & E2 & E).
  unfold structural_in in E1, E2. cbn [c_b0 c_b1 c_m0 c_m1] in E1, E2. rewrite Nat.eqb_refl in E1. injection E1 as <- <-. unfold firm.
  destruct (m0 =? k0) eqn:Em; [|cbn in E; unfold ret, lift in *; destruct (Nat.eqb b1 b0); [injection E2 as <- <-|rewrite Nat.eqb_refl in E2; injection E2 as <- <-]; injection E as <- <-; cbn; auto].
  destruct (Nat.eqb_spec b0 b1) as [->|n].
  - rewrite Nat.eqb_refl in E2. injection E2 as <- <-. cbn in E. discriminate.
  - rewrite (proj2 (Nat.eqb_neq b1 b0)) in E2 by congruence. rewrite Nat.eqb_refl in E2. injection E2 as <- <-. cbn in E. destruct (m1 =? k0) eqn:Em1; [discriminate|]. injection E as <- <-. cbn. auto.
Qed.
Ltac st := repeat first [ apply fr_mod_body; intros; apply stays_eq; reflexivity | apply fr_bind; [exact stays_trans| |intros] | apply fr_get; exact stays_refl | apply fr_deref; exact stays_refl | apply fr_ret; exact stays_refl
  | apply fr_bad | apply fr_lift; exact stays_refl | apply fr_if | apply fr_iter; [exact stays_refl|exact stays_trans|intros] | apply fr_modify; intros; apply stays_eq; reflexivity ].
Lemma stays_blocked b l : frame stays (blocked l b).
Proof. induction l as [|c l IH]; cbn [blocked]; unfold con_at; st. exact IH. Qed.
Lemma stays_contact o k k' : frame stays (make_contact o k k').
Proof.
  unfold make_contact, col_at. apply fr_bind; [exact stays_trans|st|intros x0]. apply fr_bind; [exact stays_trans|st|intros x1]. intros w.
  assert (FR : forall (c : wcon), firm c -> frame stays (i <- fresh ;; put_con i c ;;; iter (fun b => mod_body b (fun x => with_cts x (wb_cts x ++ [i])) ;;; wake b) (con_bodies c) ;;; ret i)).
  { intros c Hc. unfold wake. st. apply fr_modify. intros w1. eapply stays_put; [exact Hc|reflexivity]. }
  unfold bind at 1. destruct (new_con _ _ _ _ _ _ w) as [c w1|w1| |] eqn:E; auto.
  - apply new_firm in E. destruct E as [Hc ->]. exact (FR c Hc w).
  - assert (F0 : frame stays (new_con (k_body x0) (k_body x1) None false (Some (k, k')) (o_state o k k'))).
    { unfold new_con, body_at. st. }
    specialize (F0 w). rewrite E in F0. exact F0.
Qed.
Lemma stays_settle e : frame stays (settle e).
Proof.
  unfold settle. apply fr_if; [apply fr_ret; exact stays_refl|]. apply fr_mod_con. intros w y E. apply stays_same. intros c. cbn. unfold put. destruct (Nat.eqb_spec c (e_con e)) as [->|n]; [rewrite E; constructor; auto|destruct (w_ch w c); [apply con_same_refl|exact Logic.I]].
Qed.
Lemma stays_register o p : frame stays (register o p).
Proof.
  unfold register, col_at, body_at. st; [apply stays_blocked|]. match goal with |- frame _ (match ?e with _ => _ end) => destruct e end; [st|]. apply fr_bind; [exact stays_trans|apply stays_contact|intros i; st].
Qed.
Lemma stays_update o dt : frame stays (update_bodies o dt).
Proof.
  unfold update_bodies, sleep_one. apply fr_bind; [exact stays_trans|st|intros s]. apply fr_bind; [exact stays_trans|st|intros bs]. apply fr_bind; [exact stays_trans|st|intros _].
  apply fr_bind; [exact stays_trans|apply fr_iter; [exact stays_refl|exact stays_trans|apply stays_register]|intros _]. apply fr_bind; [exact stays_trans|st|intros es].
  apply fr_bind; [exact stays_trans|apply fr_iter; [exact stays_refl|exact stays_trans|apply stays_settle]|intros _]. st.
Qed.
Hypothesis T : tame.
Lemma stays_op w w' : reachable w -> op w w' -> stays w w'.
Proof.
  intros HR O. pose proof (reachable_sound T w HR) as SW. destruct SW as ((HS & HI & HG) & NT & _).
  destruct O as [p r d i E|b0 b1 doms dis st i H0 H1 E|region f found i HC E|b l d hint k Hb E|b k y Ey Hk E|b E|c0 E|f E|b v a E|c0 f E|s E|strict fuel o dt Hs HF E|H0 E|strict E].
  - unfold make_body, bind at 1, fresh in E. cbv beta iota in E. injection E as _ <-. apply stays_eq. reflexivity.
  - pose proof (make_con_spec b0 b1 doms dis st w HS HI H0 H1) as SP. rewrite E in SP. destruct SP as (-> & _ & _ & x & (A1 & _) & EN). apply new_firm in EN. eapply stays_put; [apply EN|exact A1].
  - apply stays_eq. apply (chs_force region f found) in E. exact E.
  - pose proof Hb as [y Ey]. pose proof (add_col_spec b l d hint w y HS HI Ey) as SP. rewrite E in SP. destruct SP as (-> & _ & _ & _ & A2 & _). apply stays_eq, A2.
  - destruct (remove_col_good b k y w HS HI Ey Hk) as (w1 & E1 & RM & _). rewrite E in E1. injection E1 as <-. apply stays_same. apply (killed_same _ _ _ _ (rm_con _ _ _ _ _ RM)).
  - apply stays_same. apply (frame_ok _ _ _ _ _ (fc_kill_body b)) in E. apply E.
  - apply stays_same. apply (frame_ok _ _ _ _ _ (fc_kill_con c0)) in E. apply E.
  - apply stays_same. apply (frame_ok _ _ _ _ _ (fc_kill_force f)) in E. apply E.
  - apply stays_same. apply (frame_ok _ _ _ _ _ (fc_set_velocity b v a)) in E. apply E.
  - apply stays_same. assert (F : frame calm_step (mod_con c0 (fun x => con_st (f (c_st x)) x))) by (apply fc_mod_con; intros x; split; [apply con_same_st|reflexivity]). apply (frame_ok _ _ _ _ _ F) in E. apply E.
  - apply stays_eq. apply chs_settings in E. exact E.
  - apply (refines_ok _ _ _ _ _ (rf_step strict fuel o dt)) in E. pose proof (step_ok T fuel o dt w Hs HG HS HI HF) as H. unfold wp in H. rewrite E in H. destruct H as (HS' & HI' & [(w1 & w2 & PH)]).
    destruct PH as (E1 & S1 & I1 & CL & E2 & S2 & I2 & RS & PH). destruct (restated_same _ _ RS) as (C2 & _).
    assert (S12 : stays w w2). { eapply stays_trans; [|apply stays_same, (proj1 C2)]. apply stays_less. intros c x. rewrite (cl_c _ _ _ CL). destruct (cdead (o_die o) w c); [discriminate|auto]. }
    destruct (k0 <? dt).
    + destruct PH as (w3 & w4 & E3 & S3 & I3 & PU & E4 & S4 & Q4 & Sm & K4 & L4 & E5 & U). destruct PU as (C3 & K3 & EC & _).
      eapply stays_trans; [exact S12|]. eapply stays_trans; [apply stays_eq, EC|]. eapply stays_trans; [apply stays_same, (sa_c _ _ Sm)|]. exact (frame_ok _ _ _ _ _ (stays_update o dt) E5).
    + subst. exact S12.
  - destruct (set_factory_eq w) as (g & E1 & Hg). rewrite E in E1. injection E1 as ->. apply stays_less. cbn. intros c x'. rewrite Hg. destruct (existsb _ _); [discriminate|auto].
  - apply (refines_ok _ _ _ _ _ (rf_clear strict)) in E. destruct (clear_spec w HS) as (w1 & E1 & _ & _ & _ & N2 & _). rewrite E in E1. injection E1 as <-. apply stays_less. intros c x' E'. rewrite N2 in E'. discriminate.
Qed.
Theorem history_firm w : reachable w -> all_firm w.
Proof.
  intros [s H]. remember (empty_world s) as w0. induction H as [w|w1 w2 w3 H IH O]; [subst; intros c x E; discriminate|]. subst. apply (stays_op w2 w3); [exists s; exact H|exact O|apply IH; reflexivity].
Qed.
(** hence a constraint of a single body gives it a finite mass *)
Lemma firm_alone x : firm x -> c_b0 x = c_b1 x -> (c_m0 x =? k0) = false.
Proof. intros [H|[H _]]; [auto|contradiction]. Qed.
End Mass.
