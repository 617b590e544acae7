(** The joints between two bodies and the contacts of the library exchange
    momentum between the bodies they join. *)
From Coq Require Import ZArith List Bool Lia Reals Lra.
From Verif Require Import Num Outcome Box Mat MatFacts MatSolve Geom Transform TransformFacts Body BodyFacts Constraint ConstraintFacts Contact ConstraintMomentum World WorldHoare WorldInv WorldFrame WorldIsland WorldSolve WorldComp WorldSleep WorldOps WorldCols WorldClean WorldKill WorldStep WorldStrict WorldHist WorldThm WorldMass WorldReal WorldLib WorldMove WorldMomentum.
Import ListNotations.
Local Open Scope R_scope.

(** ** Opposite forces *)
Definition even (J : Rvec) : Prop := J 3%nat = - J 0%nat /\ J 4%nat = - J 1%nat.
Lemma even_zero : even (@vzero RNum). Proof. split; unfold vzero; rring. Qed.
Lemma even_add P Q : even P -> even Q -> even (fun k => (P k + Q k)%num).
Proof. intros [A B] [C D]. split; rcbn; [rewrite A, C|rewrite B, D]; rring. Qed.
Lemma even_row J x : even J -> even (row_imp (N := RNum) J x).
Proof. intros [A B]. unfold row_imp. split; rcbn; [rewrite A|rewrite B]; rring. Qed.
Lemma even_rows J x : (forall i, even (J i)) -> even (rows_imp (N := RNum) J x).
Proof. intros H. destruct (H 0%nat) as [A B], (H 1%nat) as [C D]. unfold rows_imp. split; cbn [ksum]; rcbn; [rewrite A, C|rewrite B, D]; rring. Qed.
Lemma even_impulse n (J : Rmat) (l : Rvec) : (forall i, (i < n)%nat -> even (J i)) -> even (impulse n J l).
Proof.
  unfold impulse, mvmul, mtrans. induction n as [|n IH]; intros H; [split; cbn [ksum]; rring|]. destruct IH as [A B]; [intros; apply H; lia|]. destruct (H n ltac:(lia)) as [C D].
  split; cbn [ksum]; [rewrite A, C|rewrite B, D]; rring.
Qed.
Lemma even_jac_row (f : @Contact.frame RNum) px s d i : even (jac_row f px s d i).
Proof. unfold jac_row. destruct (Nat.ltb i (fr_n f)); [split; reflexivity|apply even_zero]. Qed.

(** ** Impulses and corrections *)
Lemma pushed_exchanges px P s : even P -> exchanges px s (ConstraintFacts.pushed px P s).
Proof.
  intros [A B]. split; [reflexivity|]. split; [reflexivity|]. intros M0 M1 ax Hax (NE & H0 & H1). rewrite pushed_0, pushed_1 by exact NE. unfold bump. cbn [v_lin].
  assert (X : forall q : R, M0 * (q * px_m0 px) = q) by (intros; rewrite <- (Rmult_1_r q) at 2; rewrite <- H0; rcbn; ring).
  assert (Y : forall q : R, M1 * (q * px_m1 px) = q) by (intros; rewrite <- (Rmult_1_r q) at 2; rewrite <- H1; rcbn; ring).
  destruct Hax as [->| ->]; cbn [vx vy rv]; rewrite !Rmult_plus_distr_l, X, Y, ?A, ?B; ring.
Qed.
Lemma exchanges_refl px s : exchanges px s s. Proof. repeat split. Qed.
Section Lib.
Context {TR : Trig RNum}.
Lemma C_rearranges px P s s' : even P -> apply_C (N := RNum) px P s = Ret s' -> rearranges px s s'.
Proof.
  intros [A B] E. unfold apply_C in E. apply ret_bind in E. destruct E as (s2 & E1 & E2). unfold proxy_advancePos in E1, E2. cbv zeta in E1, E2.
  destruct (_ && _ && _) in E1; [|discriminate]. injection E1 as <-. destruct (_ && _ && _) in E2; [|discriminate]. injection E2 as <-. split; [reflexivity|]. split; [reflexivity|].
  intros M0 M1 ax Hax (NE & H0 & H1). cbn [s_pos]. unfold set_at. rewrite !Nat.eqb_refl, (proj2 (Nat.eqb_neq (px_i0 px) (px_i1 px)) NE), (proj2 (Nat.eqb_neq (px_i1 px) (px_i0 px))) by congruence.
  rewrite !(centroid_advance ax) by exact Hax.
  assert (X : forall q : R, M0 * (q * px_m0 px) = q) by (intros; rewrite <- (Rmult_1_r q) at 2; rewrite <- H0; rcbn; ring).
  assert (Y : forall q : R, M1 * (q * px_m1 px) = q) by (intros; rewrite <- (Rmult_1_r q) at 2; rewrite <- H1; rcbn; ring).
  destruct Hax as [->| ->]; unfold vscale; cbn [vx vy kmul RNum]; rewrite !Rmult_plus_distr_l; change (@K RNum) with R in *; rewrite X, Y, ?A, ?B; ring.
Qed.
(** velocities which differ by opposite impulses *)
Definition evenly (px : Rprox) (v v' : Rvec) : Prop := exists P : Rvec, even P /\ forall k, v' k = (v k + px_invMassVec px k * P k)%num.
Lemma evenly_refl px v : evenly px v v.
Proof. exists (@vzero RNum). split; [apply even_zero|]. intros k. unfold vzero. rring. Qed.
Lemma evenly_trans px a b c : evenly px a b -> evenly px b c -> evenly px a c.
Proof. intros (P & HP & EP) (Q & HQ & EQ). exists (fun k => (P k + Q k)%num). split; [apply even_add; assumption|]. intros k. rewrite EQ, EP. rring. Qed.
Lemma evenly_add px v P : even P -> evenly px v (add_impulse px v P).
Proof. intros H. exists P. split; [exact H|reflexivity]. Qed.
Definition ct_even (c : @contact RNum) : Prop := forall i, even (ct_Jf c i) /\ even (ct_Jn c i).
Lemma evenly_friction c px : ct_even c -> forall n i tl v tl' v', friction_all c px n i tl v = (tl', v') -> evenly px v v'.
Proof.
  intros H. induction n as [|n IH]; intros i tl v tl' v' E; cbn in E; [injection E as _ <-; apply evenly_refl|]. destruct (friction_one c px i tl v) as [tl1 v1] eqn:E1.
  eapply evenly_trans; [|eapply IH; exact E]. unfold friction_one in E1. injection E1 as _ <-. apply evenly_add, even_row, H.
Qed.
Lemma vel_exchanges c px s c' s' : ct_even c -> ct_velocities c px s = Ret (c', s') -> ct_even c' /\ exchanges px s s'.
Proof.
  intros HC. unfold ct_velocities. destruct (friction_all _ _ _ _ _ _) as [tl v] eqn:EF. apply (evenly_friction c px HC) in EF. intros E. apply ret_bind in E. destruct E as ([nl v'] & E1 & E).
  assert (FZ : evenly px (px_velocity px s) v').
  { eapply evenly_trans; [exact EF|]. destruct (Nat.eqb _ 1).
    - destruct (ct_mem c); try discriminate. injection E1 as _ <-. apply evenly_add, even_row, HC.
    - destruct (Nat.eqb _ 2); [|injection E1 as _ <-; apply evenly_refl]. destruct (ct_mem c); try discriminate. apply ret_bind in E1. destruct E1 as (x & _ & E1). injection E1 as _ <-. apply evenly_add, even_rows. apply HC. }
  apply ret_bind in E. destruct E as (s1 & E2 & E). apply ret_bind in E. destruct E as (s2 & E3 & E). injection E as <- <-. split; [exact HC|]. unfold proxy_setVelocity in E2, E3.
  destruct (_ && _ && _) in E2; [|discriminate]. injection E2 as <-. destruct (_ && _ && _) in E3; [|discriminate]. injection E3 as <-.
  split; [reflexivity|]. split; [reflexivity|]. intros M0 M1 ax Hax (NE & H0 & H1). cbn [s_vel]. unfold set_at. rewrite !Nat.eqb_refl, (proj2 (Nat.eqb_neq (px_i0 px) (px_i1 px)) NE). cbn [v_lin].
  destruct FZ as (P & [A B] & EP). assert (X : forall q : R, M0 * (px_m0 px * q) = q) by (intros; rewrite <- (Rmult_1_r q) at 2; rewrite <- H0; rcbn; ring).
  assert (Y : forall q : R, M1 * (px_m1 px * q) = q) by (intros; rewrite <- (Rmult_1_r q) at 2; rewrite <- H1; rcbn; ring).
  destruct Hax as [->| ->]; cbn [vx vy]; rewrite !EP; unfold px_velocity, px_invMassVec, row6; cbn [kadd kmul RNum]; rewrite !Rmult_plus_distr_l; change (@K RNum) with R in *; rewrite X, Y, ?A, ?B; ring.
Qed.
Lemma pos_rearranges c px s c' s' : ct_even c -> ct_positions c px s = Ret (c', s') -> ct_even c' /\ rearranges px s s'.
Proof.
  intros HC. unfold ct_positions. cbv zeta. set (c1 := ct_Ks _ _ _). assert (H1 : ct_even c1).
  { intros i. subst c1. split; [apply even_zero|]. apply even_jac_row. }
  assert (RF : rearranges px s s) by (repeat split).
  clearbody c1. destruct (_ && _); [intros E; injection E as <- <-; auto|].
  destruct (Nat.eqb _ 1); [destruct (ct_mem c1); try discriminate; intros E; apply ret_bind in E; destruct E as (s1 & E1 & E); injection E as <- <-; split; [exact H1|eapply C_rearranges; [|exact E1]; apply even_row, H1]|].
  destruct (Nat.eqb _ 2); [destruct (ct_mem c1); try discriminate; intros E; apply ret_bind in E; destruct E as (x & _ & E); apply ret_bind in E; destruct E as (s1 & E1 & E); injection E as <- <-; split; [exact H1|eapply C_rearranges; [|exact E1]; apply even_rows; apply H1]|].
  intros E. injection E as <- <-. auto.
Qed.
Definition lib_even (st : @lstate RNum) : Prop :=
  match st with
  | LEq f e => (forall px s i, (i < cf_dim f)%nat -> even (cf_jac f px s i)) /\ (forall i, (i < cf_dim f)%nat -> even (sb_J (es_base e) i))
  | LCt c => ct_even c
  end.
Lemma update_exchanges b f px s dt d b' s' : (forall i, (i < cf_dim f)%nat -> even (sb_J b i)) -> update_lambda (N := RNum) b f px s dt d = Ret (b', s') -> sb_J b' = sb_J b /\ exchanges px s s'.
Proof. intros H. unfold update_lambda. cbv zeta. rewrite apply_P_R. cbn. intros E. injection E as <- <-. split; [reflexivity|]. apply pushed_exchanges, even_impulse, H. Qed.
Theorem lib_balanced : balanced (BH := LibB) lib_even.
Proof.
  constructor.
  - intros st H. exact H.
  - intros [f e|c] px s st' a H E; cbv beta iota delta [bh_pre bh_active bh_init bh_warm bh_vel bh_pos LibB lib_active lib_init lib_warm lib_vel lib_pos] in E; injection E as <- <-; exact H.
  - intros [f e|c] px s st' H E; cbv beta iota delta [bh_pre bh_active bh_init bh_warm bh_vel bh_pos LibB lib_active lib_init lib_warm lib_vel lib_pos] in E.
    + apply ret_bind in E. destruct E as (e' & E1 & E). injection E as <-. unfold eq_init, compute_K in E1. cbv zeta in E1. destruct (ks_valid _); [|discriminate]. injection E1 as <-. split; [apply H|]. cbn. intros i Hi. apply H, Hi.
    + injection E as <-. intros i. split; apply even_jac_row.
  - intros [f e|c] px s dt st' s' H E; cbv beta iota delta [bh_pre bh_active bh_init bh_warm bh_vel bh_pos LibB lib_active lib_init lib_warm lib_vel lib_pos] in E; apply ret_bind in E; destruct E as ([r s1] & E1 & E); injection E as <- <-; cbn [fst snd] in *.
    + unfold eq_warmstart, warmstart_default in E1. apply ret_bind in E1. destruct E1 as ([b s2] & E1 & E2). injection E2 as <- <-. destruct H as [HJ HS]. destruct (update_exchanges _ _ _ _ _ _ _ _ HS E1) as [EJ X]. split; [|exact X]. split; [exact HJ|]. cbn. rewrite EJ. exact HS.
    + unfold ct_warmstart in E1. cbv zeta in E1. rewrite apply_P_R in E1. cbn [obind] in E1. injection E1 as <- <-. split; [exact H|]. apply pushed_exchanges, even_add; [apply even_add; apply even_row, H|apply even_rows; apply H].
  - intros [f e|c] px s dt st' s' H E; cbv beta iota delta [bh_pre bh_active bh_init bh_warm bh_vel bh_pos LibB lib_active lib_init lib_warm lib_vel lib_pos] in E.
    + apply ret_bind in E; destruct E as ([r s1] & E1 & E); injection E as <- <-; cbn [fst snd] in *. unfold eq_velocity in E1. apply ret_bind in E1. destruct E1 as (d & _ & E1). apply ret_bind in E1. destruct E1 as ([b s2] & E1 & E2). injection E2 as <- <-.
      destruct H as [HJ HS]. destruct (update_exchanges _ _ _ _ _ _ _ _ HS E1) as [EJ X]. split; [|exact X]. split; [exact HJ|]. cbn. rewrite EJ. exact HS.
    + destruct (held c); [|discriminate]. apply ret_bind in E; destruct E as ([r s1] & E1 & E); injection E as <- <-; cbn [fst snd] in *. eapply vel_exchanges; eassumption.
  - intros [f e|c] px s st' s' H E; cbv beta iota delta [bh_pre bh_active bh_init bh_warm bh_vel bh_pos LibB lib_active lib_init lib_warm lib_vel lib_pos] in E; apply ret_bind in E; destruct E as ([r s1] & E1 & E); injection E as <- <-; cbn [fst snd] in *.
    + unfold eq_position, compute_K in E1. cbv zeta in E1. apply ret_bind in E1. destruct E1 as (l & _ & E1). apply ret_bind in E1. destruct E1 as (s2 & E1 & E2). injection E2 as <- <-. destruct H as [HJ HS].
      split; [split; [exact HJ|cbn; intros i Hi; apply HJ, Hi]|]. eapply C_rearranges; [|exact E1]. apply even_impulse. intros i Hi. apply HJ, Hi.
    + eapply pos_rearranges; eassumption.
Qed.
(** the joints between two bodies and the contacts, as they are made *)
Inductive pairing : @lstate RNum -> Prop :=
| P_hinge l0 l1 rest damp : let f := hinge_fun l0 l1 in pairing (LEq f (new_eqsolver f rest damp))
| P_weld l0 l1 q rest damp : let f := weld_fun l0 l1 q in pairing (LEq f (new_eqsolver f rest damp))
| P_rotation q rest damp : let f := rotation_fun q in pairing (LEq f (new_eqsolver f rest damp))
| P_distance l0 l1 rest damp : let f := distance_fun l0 l1 in pairing (LEq f (new_eqsolver f rest damp))
| P_contact m T0 T1 rest fric : pairing (LCt (new_contact m T0 T1 rest fric)).
Lemma pairing_even st : pairing st -> lib_even st.
Proof.
  assert (Z : forall f rest damp, (forall px s i, (i < cf_dim f)%nat -> even (cf_jac f px s i)) -> lib_even (LEq f (new_eqsolver f rest damp))).
  { intros f rest damp H. split; [exact H|]. intros i _. apply even_zero. }
  intros [l0 l1 rest damp f|l0 l1 q rest damp f|q rest damp f|l0 l1 rest damp f|m T0 T1 rest fric]; try (apply Z; intros px s i Hi).
  - destruct (hinge_rows px s l0 l1 i Hi) as (A & B & _). split; assumption.
  - destruct (weld_rows px s l0 l1 q i Hi) as (A & B & _). split; assumption.
  - destruct (rotation_rows px s q i (rv 0 0) (rv 0 0) (rv 0 0) (rv 0 0) Hi) as (A & B & _). split; assumption.
  - destruct (distance_rows px s l0 l1 i Hi) as (A & B & _). split; assumption.
  - intros i. split; apply even_zero.
Qed.
End Lib.
(** ** The library's constraints, without forces *)
Section Free.
Context {TR : Trig RNum}.
Local Existing Instance LibB.
Theorem lib_momentum g strict fuel o (dt : R) (w w' : @world RNum LibB) : all_G lib_even w -> closed_group g w -> reachable w -> shuffles o -> (length (w_bodies w) <= fuel)%nat -> 0 < dt -> w_forces w = [] ->
  step strict fuel o (dt : @K RNum) w = Ok tt w' -> forall ax, axis ax -> mom (mass_in g w') ax w' (w_bodies w') = mom (mass_in g w) ax w (w_bodies w').
Proof.
  intros AG CG HR Hs HF Hdt NF E ax Hax. destruct (step_momentum lib_tame lib_even g strict fuel o dt w w' lib_balanced AG CG HR Hs HF Hdt E) as (wm & _ & FR & MO & _).
  rewrite (MO ax Hax). apply msum_ext. intros b Hb. exact (FR NF b Hb).
Qed.
Theorem lib_centre g strict fuel o (dt : R) (w w' : @world RNum LibB) : all_G lib_even w -> closed_group g w -> reachable w -> weighty w -> shuffles o -> (length (w_bodies w) <= fuel)%nat -> 0 < dt -> w_forces w = [] ->
  step strict fuel o (dt : @K RNum) w = Ok tt w' -> forall ax, axis ax -> cen (mass_in g w') ax w' (w_bodies w') = cen (mass_in g w) ax w (w_bodies w') + dt * mom (mass_in g w) ax w (w_bodies w').
Proof.
  intros AG CG HR HW Hs HF Hdt NF E ax Hax. destruct (step_momentum lib_tame lib_even g strict fuel o dt w w' lib_balanced AG CG HR Hs HF Hdt E) as (wm & _ & FR & _ & CE).
  rewrite (CE lib_act lib_steady (lib_still TR) (weighty_massless lib_tame w HR HW) ax Hax). f_equal; [|f_equal]; apply msum_ext; intros b Hb; exact (FR NF b Hb).
Qed.
End Free.
