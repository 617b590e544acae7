(** Momentum and centre of mass over any number of steps, in exact arithmetic. *)
From Coq Require Import ZArith List Bool Lia Permutation Reals Lra.
From Verif Require Import Num Outcome Box Mat MatFacts MatSolve Geom Transform Body Constraint Contact World WorldHoare WorldInv WorldFrame WorldIsland WorldSolve WorldComp WorldSleep WorldOps WorldCols WorldClean WorldKill WorldStep WorldStrict WorldHist WorldThm WorldUse WorldMass WorldReal WorldLib WorldMove WorldMomentum WorldMomLib WorldDemo WorldMomEx.
Import ListNotations.
Local Open Scope R_scope.

Section Flight.
Context {TR : Trig RNum} {BH : Behaviour RNum}.
Definition everyone : id -> bool := fun _ => true.
(** no force field, every body has dominance one and a mass, every constraint and
    contact joins two bodies by the inverses of their masses *)
Record free (G : @CS RNum BH -> Prop) (w : @world RNum BH) : Prop := {
  fr_forces : w_forces w = [];
  fr_body : forall b y, w_bh w b = Some y -> b_dominance (wb y) = 1 /\ mp_m (b_props (wb y)) <> 0;
  fr_state : all_G G w;
  fr_con : closed_group everyone w }.
Hypothesis T : tame (N := RNum).
Variable G : @CS RNum BH -> Prop.
Hypothesis HB : balanced G.
Notation mass := (mass_in everyone).
Lemma mass_some (w : @world RNum BH) b y : w_bh w b = Some y -> mass w b = mp_m (b_props (wb y)).
Proof. intros E. unfold mass_in. cbn. rewrite E. reflexivity. Qed.

(** ** The islands keep the states *)
Lemma islands_states M fuel1 fuel2 s (dt : R) w : SInv w -> quiet_ids w -> Zs G M w -> (length (w_bodies w) <= fuel1)%nat -> (length (w_bodies w) <= fuel2)%nat ->
  wp (solve_islands fuel1 fuel2 s (dt : @K RNum) false (w_bodies w)) (fun _ w' => all_G G w') w.
Proof.
  intros S Qt HZ H1 H2. eapply wp_mono.
  - apply (solve_islands_wp (fun _ _ w' => same w w' /\ Zs G M w')); auto using incl_refl.
    2:{ split; [apply same_refl|]. auto. }
    intros aw todo root l w1 S1 Q1 (Sm & Z1) Et HI HF. eapply wp_mono; [apply (solve_one_moved T G HB M fuel2 s dt aw todo root l w1); auto|].
    intros r w' _ (Si & Qi & Smi & Zi & HI' & HL & _). split; [exact Si|]. split; [exact Qi|]. split; [exact Smi|]. split; [|auto]. split; [eapply same_trans; eassumption|exact Zi].
  - intros u w' _ (_ & _ & _ & _ & _ & H). exact (proj1 H).
Qed.

(** ** New contacts *)
Definition even_con (w : @world RNum BH) (x : @wcon RNum BH) : Prop := G (c_st x) /\ c_m0 x * mass w (c_b0 x) = 1 /\ c_m1 x * mass w (c_b1 x) = 1.
Definition fl (w : @world RNum BH) : Prop := (forall b y, w_bh w b = Some y -> b_dominance (wb y) = 1 /\ mp_m (b_props (wb y)) <> 0) /\ forall c x, w_ch w c = Some x -> even_con w x.
Definition flies (w w' : @world RNum BH) : Prop := fl w -> fl w'.
Lemma flies_refl w : flies w w. Proof. intros H. exact H. Qed.
Lemma flies_trans w1 w2 w3 : flies w1 w2 -> flies w2 w3 -> flies w1 w3. Proof. intros H1 H2 H. exact (H2 (H1 H)). Qed.
Lemma even_mass w w' x : (forall b, mass w' b = mass w b) -> even_con w x -> even_con w' x.
Proof. intros H (A & B & C). unfold even_con. rewrite !H. auto. Qed.
Lemma flies_eq w w' : w_bh w' = w_bh w -> w_ch w' = w_ch w -> flies w w'.
Proof. intros E1 E2 [A B]. split; [rewrite E1; exact A|]. rewrite E2. intros c x E. eapply even_mass; [|exact (B c x E)]. intros b. unfold mass_in. rewrite E1. reflexivity. Qed.
Lemma flies_body w i y y' : w_bh w i = Some y -> b_dominance (wb y') = b_dominance (wb y) -> b_props (wb y') = b_props (wb y) -> flies w (set_bh w (put (w_bh w) i y')).
Proof.
  intros E D P [A B]. split.
  - intros b z. cbn. unfold put. destruct (Nat.eqb_spec b i) as [->|n]; [|apply A]. intros Ez. injection Ez as <-. rewrite D, P. exact (A i y E).
  - intros c x Ex. eapply even_mass; [|exact (B c x Ex)]. intros b. unfold mass_in. cbn. unfold put. destruct (Nat.eqb_spec b i) as [->|n]; [rewrite E, P; reflexivity|reflexivity].
Qed.
Lemma flies_put w i x : (fl w -> even_con w x) -> flies w (set_ch w (put (w_ch w) i x)).
Proof. intros HX H. pose proof (HX H) as HX'. destruct H as [A B]. split; [exact A|]. intros j z. cbn. unfold put. destruct (Nat.eqb j i); [intros EZ; injection EZ as <-; exact HX'|apply B]. Qed.
Ltac fc := repeat first [ apply fr_mod_body; intros; eapply flies_body; [eassumption|reflexivity|reflexivity] | apply fr_bind; [exact flies_trans| |intros] | apply fr_get; exact flies_refl | apply fr_deref; exact flies_refl | apply fr_ret; exact flies_refl
  | apply fr_bad | apply fr_lift; exact flies_refl | apply fr_if | apply fr_iter; [exact flies_refl|exact flies_trans|intros] | apply fr_modify; intros; apply flies_eq; reflexivity ].
Lemma flies_blocked d l : frame flies (blocked l d).
Proof. induction l as [|e l IH]; cbn [blocked]; unfold con_at; fc. exact IH. Qed.
Lemma new_even p q dis cols st w (x : @wcon RNum BH) w' : G st -> new_con p q None dis cols st w = Ok x w' -> w' = w /\ (fl w -> even_con w x).
Proof.
  intros HG E. pose proof (new_firm _ _ _ _ _ _ _ _ _ E) as [_ ->]. split; [reflexivity|]. intros [A _]. unfold new_con in E. apply bind_ok in E. destruct E as (y0 & w1 & E1 & E). apply body_at_ok in E1. destruct E1 as [-> E0].
  apply bind_ok in E. destruct E as (y1 & w1 & E1 & E). apply body_at_ok in E1. destruct E1 as [-> E1]. unfold bodies_masses in E. cbn [fst snd] in E.
  apply bind_ok in E. destruct E as (s0 & w1 & _ & E). apply bind_ok in E. destruct E as (s1 & w2 & _ & E). destruct (s0 && _); [discriminate|]. injection E as <- _. unfold even_con. cbn [c_st c_m0 c_m1 c_b0 c_b1].
  rewrite (mass_some _ _ _ E0), (mass_some _ _ _ E1). destruct (A _ _ E0) as [D0 M0], (A _ _ E1) as [D1 M1]. rewrite D0, D1. unfold b_invMass, b_mass, k1. cbn [kdiv kmul kofZ RNum]. split; [exact HG|]. split; field; assumption.
Qed.
Lemma flies_contact o k k' : G (o_state o k k') -> frame flies (make_contact o k k').
Proof.
  intros HG. unfold make_contact, col_at. apply fr_bind; [exact flies_trans|fc|intros x0]. apply fr_bind; [exact flies_trans|fc|intros x1]. intros w.
  assert (FR : forall x w1, even_con w1 x -> fl w1 -> match (i <- fresh ;; put_con i x ;;; iter (fun b => mod_body b (fun x => with_cts x (wb_cts x ++ [i])) ;;; wake b) (con_bodies x) ;;; ret i) w1 with Ok _ w2 => fl w2 | Thrown w2 => fl w2 | _ => True end).
  { intros x w1 Hx F. unfold bind at 1, fresh. unfold bind at 1, put_con, modify at 1. set (w2 := set_ch _ _). assert (F2 : fl w2).
    { apply (flies_put (set_next w1 (S (w_next w1))) (w_next w1) x); [intros _; exact Hx|]. apply (flies_eq w1); [reflexivity|reflexivity|exact F]. }
    assert (FX : forall i : id, frame flies (iter (fun b => mod_body b (fun x => with_cts x (wb_cts x ++ [i])) ;;; wake b) (con_bodies x) ;;; ret i)) by (intros i; unfold wake; fc).
    specialize (FX (w_next w1) w2). destruct (bind _ _ w2); auto. }
  unfold bind at 1. destruct (new_con _ _ _ _ _ _ w) as [c w1|w1| |] eqn:E; auto.
  - apply (new_even _ _ _ _ _ _ _ _ HG) in E. destruct E as [-> Hc]. specialize (FR c w). match goal with |- match ?e with _ => _ end => destruct e as [a w2|w2| |] eqn:E2 end; auto; intros PW; exact (FR (Hc PW) PW).
  - assert (F0 : frame flies (new_con (k_body x0) (k_body x1) None false (Some (k, k')) (o_state o k k'))) by (unfold new_con, body_at; fc).
    specialize (F0 w). rewrite E in F0. exact F0.
Qed.
Lemma flies_settle e : frame flies (settle e).
Proof. unfold settle. apply fr_if; [apply fr_ret; exact flies_refl|]. apply fr_mod_con. intros w y E. apply flies_put. intros [_ H]. exact (H _ _ E). Qed.
Lemma flies_register o p : (forall k k', G (o_state o k k')) -> frame flies (register o p).
Proof.
  intros HG. unfold register, col_at, body_at. fc; [apply flies_blocked|]. match goal with |- frame _ (match ?e with _ => _ end) => destruct e end; [fc|]. apply fr_bind; [exact flies_trans|apply flies_contact, HG|intros i; fc].
Qed.
Lemma flies_update o (dt : R) : (forall k k', G (o_state o k k')) -> frame flies (update_bodies o (dt : @K RNum)).
Proof.
  intros HG. unfold update_bodies, sleep_one. apply fr_bind; [exact flies_trans|fc|intros s]. apply fr_bind; [exact flies_trans|fc|intros bs]. apply fr_bind; [exact flies_trans| |intros _].
  { apply fr_if; [|apply fr_ret; exact flies_refl]. apply fr_iter; [exact flies_refl|exact flies_trans|intros i]. apply fr_mod_body. intros w y E.
    eapply flies_body; [exact E| |]; cbn [wb with_wb]; unfold sleep_step; repeat match goal with |- context [if ?c then _ else _] => destruct c end; reflexivity. }
  apply fr_bind; [exact flies_trans|apply fr_iter; [exact flies_refl|exact flies_trans|intros p; apply flies_register, HG]|intros _]. apply fr_bind; [exact flies_trans|fc|intros es].
  apply fr_bind; [exact flies_trans|apply fr_iter; [exact flies_refl|exact flies_trans|apply flies_settle]|intros _]. fc.
Qed.

(** ** One step *)
Theorem step_free strict fuel o (dt : R) w w' : reachable w -> shuffles o -> (forall k k', G (o_state o k k')) -> (length (w_bodies w) <= fuel)%nat -> 0 < dt -> step strict fuel o (dt : @K RNum) w = Ok tt w' -> free G w -> free G w'.
Proof.
  intros HR Hs HG HF Hdt E [NF FB FS FC]. assert (R' : reachable w') by (eapply reachable_op; [exact HR|]; eapply op_step; eassumption).
  assert (Hdt' : @kltb RNum (@k0 RNum) dt = true) by (unfold k0; cbn [kltb kofZ RNum]; destruct (Rltb_spec 0 dt); [reflexivity|contradiction]).
  apply (refines_ok _ _ _ _ _ (rf_step strict fuel o dt)) in E. destruct (reachable_sound T w HR) as ((HS & HI & GE) & NT & KL).
  pose proof (step_ok T fuel o dt w Hs GE HS HI HF) as H. unfold wp in H. rewrite E in H. destruct H as (HS' & HI' & [(w1 & w2 & PH)]). rewrite Hdt' in PH.
  destruct PH as (E1 & S1 & I1 & CL & E2 & S2 & I2 & RS & w3 & w4 & E3 & S3 & I3 & PU & E4 & S4 & Q4 & Sm & K4 & L4 & E5 & U).
  destruct (restated_same _ _ RS) as (C2 & K2 & EB & EL). destruct PU as (C3 & K3 & EC & _ & PK).
  assert (S13 : same w1 w3) by (eapply same_trans; [exact (proj1 C2)|exact (proj1 C3)]).
  assert (B1 : forall b y, w_bh w1 b = Some y -> exists y0, w_bh w b = Some y0 /\ b_dominance (wb y) = b_dominance (wb y0) /\ b_props (wb y) = b_props (wb y0)).
  { intros b y Ey. rewrite (cl_b _ _ _ CL) in Ey. destruct (bdead _ _ _); [discriminate|]. destruct (w_bh w b) as [y0|]; [|discriminate]. cbn in Ey. injection Ey as <-. exists y0. split; [reflexivity|]. cbn. unfold roused. destruct (touched _ _ _); split; reflexivity. }
  assert (B3 : forall b y, w_bh w3 b = Some y -> exists y0, w_bh w b = Some y0 /\ b_dominance (wb y) = b_dominance (wb y0) /\ b_props (wb y) = b_props (wb y0)).
  { intros b y Ey. destruct (hrel_some' _ _ _ _ _ (sa_b _ _ S13) Ey) as (y1 & Ey1 & BS). destruct (B1 b y1 Ey1) as (y0 & E0 & D & P). exists y0. split; [exact E0|]. rewrite (bs_dom _ _ BS), (bs_props _ _ BS). auto. }
  assert (CN : forall c x, w_ch w3 c = Some x -> exists x0, w_ch w c = Some x0 /\ con_same x0 x).
  { intros c x Ex. destruct (hrel_some' _ _ _ _ _ (sa_c _ _ S13) Ex) as (x1 & Ex1 & CS1). rewrite (cl_c _ _ _ CL) in Ex1. destruct (cdead (o_die o) w c); [discriminate|]. eauto. }
  assert (G3 : all_G G w3).
  { intros c x Ex. rewrite EC in Ex. revert c x Ex. apply (frame_ok _ _ _ _ _ (pre_step_states G (ba_pre _ HB)) E2). intros c x Ex. rewrite (cl_c _ _ _ CL) in Ex. destruct (cdead _ _ _); [discriminate|]. exact (FS c x Ex). }
  assert (M3 : forall b, (exists y, w_bh w3 b = Some y) -> mass w3 b = mass w b).
  { intros b (y & Ey). destruct (B3 b y Ey) as (y0 & E0 & _ & P). rewrite (mass_some _ _ _ Ey), (mass_some _ _ _ E0), P. reflexivity. }
  assert (CE : forall c x, w_ch w3 c = Some x -> c_b0 x <> c_b1 x /\ c_m0 x * mass w3 (c_b0 x) = 1 /\ c_m1 x * mass w3 (c_b1 x) = 1).
  { intros c x Ex. destruct (CN c x Ex) as (x0 & Ex0 & CS). destruct (FC c x0 Ex0) as [_ F]. destruct (F eq_refl) as (F1 & F2 & F3).
    assert (D : c_b0 x <> c_b1 x) by (rewrite (cs_b0 _ _ CS), (cs_b1 _ _ CS); exact F1). split; [exact D|].
    assert (EN : forall b, b = c_b0 x \/ b = c_b1 x -> exists y, w_bh w3 b = Some y).
    { intros b Hb. apply (i_ends _ S3 c x Ex). unfold con_bodies. rewrite (proj2 (Nat.eqb_neq _ _) D). cbn. destruct Hb; auto. }
    rewrite (M3 (c_b0 x)), (M3 (c_b1 x)) by (apply EN; auto). rewrite (cs_m0 _ _ CS), (cs_m1 _ _ CS), (cs_b0 _ _ CS), (cs_b1 _ _ CS). auto. }
  assert (HZ : Zs G (mass w3) w3) by (split; [exact G3|]; intros c x Ex; left; exact (CE c x Ex)).
  assert (F3 : (length (w_bodies w3) <= fuel)%nat).
  { rewrite (sa_bodies _ _ S13), (cl_bodies _ _ _ CL). pose proof (filter_le (fun b => negb (bdead (o_die o) w b)) (w_bodies w)). lia. }
  pose proof (islands_states (mass w3) fuel fuel (w_set w3) dt w3 S3 (idle_quiet _ I3) HZ F3 F3) as G4. unfold wp in G4. rewrite E4 in G4.
  assert (M4 : forall b, mass w4 b = mass w3 b).
  { intros b. pose proof (sa_b _ _ Sm b) as X. unfold mass_in. cbn. destruct (w_bh w3 b) as [y|], (w_bh w4 b) as [y'|]; try contradiction; [|reflexivity]. rewrite (bs_props _ _ X). reflexivity. }
  assert (CE4 : forall c x, w_ch w4 c = Some x -> c_b0 x <> c_b1 x /\ c_m0 x * mass w4 (c_b0 x) = 1 /\ c_m1 x * mass w4 (c_b1 x) = 1).
  { intros c x Ex. destruct (hrel_some' _ _ _ _ _ (sa_c _ _ Sm) Ex) as (x0 & Ex0 & CS). rewrite !M4, (cs_m0 _ _ CS), (cs_m1 _ _ CS), (cs_b0 _ _ CS), (cs_b1 _ _ CS). exact (CE c x0 Ex0). }
  assert (FL4 : fl w4).
  { split.
    - intros b y Ey. destruct (hrel_some' _ _ _ _ _ (sa_b _ _ Sm) Ey) as (y3 & Ey3 & BS). destruct (B3 b y3 Ey3) as (y0 & E0 & D & P). rewrite (bs_dom _ _ BS), (bs_props _ _ BS), D, P. exact (FB b y0 E0).
    - intros c x Ex. split; [exact (G4 c x Ex)|]. apply (CE4 c x Ex). }
  pose proof (frame_ok _ _ _ _ _ (flies_update o dt HG) E5 FL4) as [FB' FC']. constructor.
  - rewrite (u_forces _ _ _ U), (sa_forces _ _ Sm), (sa_forces _ _ S13), (cl_forces _ _ _ CL), NF. reflexivity.
  - exact FB'.
  - intros c x Ex. exact (proj1 (FC' c x Ex)).
  - intros c x Ex. split; [reflexivity|]. intros _. destruct (FC' c x Ex) as (_ & A & B). split; [|auto].
    pose proof (proj2 (proj2 (i_cons _ HS') c) (ex_intro _ x Ex)) as Hc. apply in_app_or in Hc. destruct Hc as [Hc|Hc].
    + rewrite (u_cons _ _ _ U) in Hc. rewrite (u_con _ _ _ U c Hc) in Ex. apply (CE4 c x Ex).
    + apply in_map_iff in Hc. destruct Hc as (e & Ee & He). destruct (history_contacts T w' R') as (HC1 & _ & HC3). destruct (HC3 e He) as (x' & a & b & HC). destruct HC as (HC & HC' & HC''). rewrite Ee, Ex in HC'. injection HC' as <-.
      apply (HC1 e x a b). split; [exact He|]. split; [rewrite Ee; exact Ex|exact HC''].
Qed.
Lemma step_bodies strict fuel o (dt : R) w w' : reachable w -> shuffles o -> (length (w_bodies w) <= fuel)%nat -> 0 < dt -> step strict fuel o (dt : @K RNum) w = Ok tt w' -> w_bodies w' = filter (fun b => negb (bdead (o_die o) w b)) (w_bodies w).
Proof.
  intros HR Hs HF Hdt E. assert (Hdt' : @kltb RNum (@k0 RNum) dt = true) by (unfold k0; cbn [kltb kofZ RNum]; destruct (Rltb_spec 0 dt); [reflexivity|contradiction]).
  apply (refines_ok _ _ _ _ _ (rf_step strict fuel o dt)) in E. destruct (reachable_sound T w HR) as ((HS & HI & GE) & _).
  pose proof (step_ok T fuel o dt w Hs GE HS HI HF) as H. unfold wp in H. rewrite E in H. destruct H as (_ & _ & [(w1 & w2 & PH)]). rewrite Hdt' in PH.
  destruct PH as (_ & _ & _ & CL & _ & _ & _ & RS & w3 & w4 & _ & _ & _ & PU & _ & _ & _ & Sm & _ & _ & _ & U).
  destruct (restated_same _ _ RS) as (C2 & _). destruct PU as (C3 & _). rewrite (u_bodies _ _ _ U), (sa_bodies _ _ Sm), (sa_bodies _ _ (proj1 C3)), (sa_bodies _ _ (proj1 C2)). apply (cl_bodies _ _ _ CL).
Qed.
(** any number of steps in which no body is removed; [t] is the time simulated *)
Inductive flight : R -> @world RNum BH -> @world RNum BH -> Prop :=
| flight_none w : flight 0 w w
| flight_more t w w1 w2 strict fuel o (dt : R) : flight t w w1 -> shuffles o -> (forall k k', G (o_state o k k')) -> (length (w_bodies w1) <= fuel)%nat -> 0 < dt -> step strict fuel o (dt : @K RNum) w1 = Ok tt w2 ->
    w_bodies w2 = w_bodies w1 -> flight (t + dt) w w2.
End Flight.

Section LibFlight.
Context {TR : Trig RNum}.
Local Existing Instance LibB.
Lemma free_weighty (w : @world RNum LibB) : free lib_even w -> weighty w.
Proof.
  intros F c x E. destruct (fr_con _ _ F c x E) as [_ H]. destruct (H eq_refl) as (_ & H0 & H1). split; intros Z; exfalso; apply zero_eq in Z; rewrite Z, Rmult_0_l in *; lra.
Qed.
Theorem lib_flight t (w w' : @world RNum LibB) : reachable w -> free lib_even w -> flight lib_even t w w' -> free lib_even w' /\ w_bodies w' = w_bodies w /\ forall ax, axis ax ->
  mom (mass_in everyone w') ax w' (w_bodies w') = mom (mass_in everyone w) ax w (w_bodies w) /\
  cen (mass_in everyone w') ax w' (w_bodies w') = cen (mass_in everyone w) ax w (w_bodies w) + t * mom (mass_in everyone w) ax w (w_bodies w).
Proof.
  intros R F H. assert (X : reachable w' /\ free lib_even w' /\ w_bodies w' = w_bodies w /\ forall ax, axis ax ->
    mom (mass_in everyone w') ax w' (w_bodies w') = mom (mass_in everyone w) ax w (w_bodies w) /\
    cen (mass_in everyone w') ax w' (w_bodies w') = cen (mass_in everyone w) ax w (w_bodies w) + t * mom (mass_in everyone w) ax w (w_bodies w)); [|tauto].
  induction H as [w|t w w1 w2 strict fuel o dt H IH Hs HG HF Hdt E EB].
  - split; [exact R|]. split; [exact F|]. split; [reflexivity|]. intros ax Hax. split; [reflexivity|]. lra.
  - destruct (IH R F) as (R1 & F1 & B1 & M1). split; [eapply reachable_op; [exact R1|]; eapply op_step; eassumption|]. split; [exact (step_free lib_tame lib_even lib_balanced strict fuel o dt w1 w2 R1 Hs HG HF Hdt E F1)|]. split; [congruence|].
    intros ax Hax. destruct (M1 ax Hax) as [Mm Mc].
    rewrite (lib_momentum everyone strict fuel o dt w1 w2 (fr_state _ _ F1) (fr_con _ _ F1) R1 Hs HF Hdt (fr_forces _ _ F1) E ax Hax), (lib_centre everyone strict fuel o dt w1 w2 (fr_state _ _ F1) (fr_con _ _ F1) R1 (free_weighty w1 F1) Hs HF Hdt (fr_forces _ _ F1) E ax Hax).
    rewrite EB, Mm, Mc. split; [reflexivity|]. ring.
Qed.
End LibFlight.

(** the two hinged squares of WorldMomEx.v *)
Local Existing Instance RTrig.
Lemma flight_shown : exists w w' : @world RNum LibB, reachable w /\ free (BH := LibB) lib_even w /\ flight (BH := LibB) lib_even 1 w w' /\ w_bodies w = [0%nat; 2%nat] /\ w_cons w = [4%nat] /\
  motion_at w 0%nat = Some (@Pos RNum (rv 0 0) rrot (rv 0 0), @Vel RNum (rv 3 1) 0) /\ motion_at w 2%nat = Some (@Pos RNum (rv 2 0) rrot (rv 0 0), @Vel RNum (rv 0 0) 0).
Proof.
  destruct (add_sq 0 1%nat) as [cs0 A0]. destruct (add_sq 2 3%nat) as [cs1 A1]. destruct (step_e cs0 cs1) as [w' E]. exists (e6 cs0 cs1), w'.
  assert (R : reachable (e6 cs0 cs1)) by (eapply play_reachable, (play_e cs0 cs1 A0 A1)). rewrite <- flat_e in E.
  split; [exact R|]. split; [|split].
  - constructor; [reflexivity| |apply even_e|apply closed_e]. intros b y Ey. rewrite flat_e in Ey. cbn [w_bh flat] in Ey. unfold put in Ey.
    revert Ey. destruct (Nat.eqb b 0), (Nat.eqb b 2); intros Ey; try discriminate; injection Ey as <-; cbn; split; lra.
  - replace 1 with (0 + 1) by lra. eapply (flight_more (BH := LibB) lib_even 0 _ _ w' false 2 (plain [] rhinge) 1); [constructor|apply plain_shuffles|intros k k'; apply pairing_even; constructor|apply le_n|lra|exact E|].
    rewrite (step_bodies lib_tame false 2 (plain [] rhinge) 1 _ w' R (plain_shuffles _ _) (le_n _) ltac:(lra) E). reflexivity.
  - split; [reflexivity|]. split; [reflexivity|]. split; reflexivity.
Qed.
