(** How the bodies move in a step: the phases of solving an island, bodies
    without constraints. *)
From Coq Require Import ZArith List Bool Lia Permutation.
From Verif Require Import Num Outcome Box Mat Geom Transform Body Constraint World WorldHoare WorldInv WorldFrame WorldIsland WorldSolve WorldComp WorldSleep WorldOps WorldCols WorldClean WorldKill WorldStep WorldStrict WorldHist WorldThm.
Import ListNotations.

Section Move.
Context {N : Num} {TR : Trig N} {BH : Behaviour N}.
Hypothesis T : tame.

(** ** One island in two phases: velocities, then positions *)
Lemma solve_one_two (Zv Zp : island -> world -> Prop) (Q : island -> world -> Prop) fuel s dt aw todo root w :
  (forall il w1 w2 il' w', Q il w1 -> woken il w1 w2 -> base il w2 -> same w1 w2 -> solving il il' w2 w' -> loaded il' w' -> st_same w2 w' -> Zv il' w') ->
  (forall il w c u w', base il w -> In c (all_of il) -> Zv il w -> call_init il c w = Ok u w' -> Zv il w') ->
  kept_by Zv (fun c px st => bh_warm c px st dt) -> kept_by Zv (fun c px st => bh_vel c px st dt) ->
  (forall il w, base il w -> Zv il w -> Zp (integrate dt il) w) -> kept_by Zp bh_pos ->
  wp (init_island fuel (Isl [] [] [] [] [] aw) root) (fun il w1 => base il w1 /\ same w w1 /\ Q il w1) w ->
  wp (solve_one fuel s dt aw todo root) (fun r w' => exists il w1, base il w1 /\ same w w1 /\ Q il w1 /\ solved Zp il w1 w' /\
     r = (filter (fun i => negb (existsb (Nat.eqb i) (is_bodies il))) todo, is_awake il)) w.
Proof.
  intros ZL Zi Zw Zv_ ZI Zp_ H. unfold solve_one. apply wp_bind. eapply wp_mono; [exact H|]. intros il w1 _ (B1 & S1 & HQ).
  apply wp_bind. eapply wp_mono; [apply (wake_island_spec il w1 B1)|]. intros u w2 _ (B2 & HW & S2).
  apply wp_bind. eapply wp_mono; [apply (refresh_loaded il w2 B2)|]. intros il1 w3 Er (V3 & L3). pose proof (refresh_states il w2) as R3. rewrite Er in R3.
  assert (Z3 : Zv il1 w3) by (eapply ZL; eassumption). pose proof (solving_base _ _ _ _ V3) as B3.
  apply wp_bind. apply wp_mono with (fun il' w' => solving il il' w2 w' /\ Zp il' w').
  - pose proof (integrate_spec dt il1 w3 B3) as VI. pose proof (ZI _ _ B3 Z3) as ZI3. destruct (all_of il1) as [|c l] eqn:EA.
    + apply wp_ret. split; [|exact ZI3]. eapply solving_trans; eassumption.
    + apply wp_bind. eapply wp_mono; [apply (solve_velocities_spec T Zv Zi s dt il1 w3 Zw Zv_ B3 Z3)|]. intros il4 w4 _ [V4 Z4].
      pose proof (integrate_spec dt il4 w4 (solving_base _ _ _ _ V4)) as VI4. pose proof (ZI _ _ (solving_base _ _ _ _ V4) Z4) as ZI4.
      eapply wp_mono; [apply (solve_positions_spec T Zp s (integrate dt il4) w4 Zp_ (solving_base _ _ _ _ VI4) ZI4)|]. intros il5 w5 _ [V5 Z5].
      split; [|exact Z5]. eapply solving_trans; [exact V3|]. eapply solving_trans; [exact V4|]. eapply solving_trans; [exact VI4|exact V5].
  - intros il5 w5 _ [V5 Z5]. apply wp_bind. eapply wp_mono; [apply (finish_spec il5 w5 (solving_base _ _ _ _ V5))|]. intros u2 w6 _ D.
    apply wp_bind. unfold log, modify. unfold wp at 1. apply wp_ret. exists il, w1. split; [exact B1|]. split; [exact S1|]. split; [exact HQ|]. split; [|reflexivity].
    constructor. exists w2, il5, w5, w6. split; [exact HW|]. split; [exact B2|]. split; [exact S2|]. split; [exact V5|]. split; [exact Z5|]. split; [exact D|reflexivity].
Qed.
Lemma wp_and {A} (m : M A) (P Q : A -> world -> Prop) w : wp m P w -> wp m Q w -> wp m (fun a w' => P a w' /\ Q a w') w.
Proof. unfold wp. destruct (m w); auto. Qed.

(** motion of a body *)
Definition motion_at (w : world) (b : id) : option (position * velocity) := option_map (fun y => (b_pos (wb y), vel_of (wb y))) (w_bh w b).
Lemma motion_kept w w' b : kept w w' -> motion_at w' b = motion_at w b.
Proof. intros H. specialize (H b). unfold motion_at. destruct (w_bh w' b), (w_bh w b); cbn in *; congruence. Qed.
Lemma motion_woken il w w' b : woken il w w' -> motion_at w' b = motion_at w b.
Proof. intros (_ & _ & H). unfold motion_at. rewrite H. destruct (_ && _); [|reflexivity]. destruct (w_bh w b); reflexivity. Qed.
Lemma motion_some w b y : w_bh w b = Some y -> motion_at w b = Some (b_pos (wb y), vel_of (wb y)).
Proof. intros E. unfold motion_at. rewrite E. reflexivity. Qed.
(** the motion after the solve: unchanged outside the island, the island's inside *)
Lemma solved_motion Z il w1 w' : base il w1 -> solved Z il w1 w' -> exists il3 w3, Z il3 w3 /\ base il3 w3 /\ is_bodies il3 = is_bodies il /\
  (forall b, ~ In b (is_bodies il) -> motion_at w' b = motion_at w1 b) /\
  (forall n b, nth_error (is_bodies il) n = Some b -> exists p v, nth_error (is_pos il3) n = Some p /\ nth_error (is_vel il3) n = Some v /\ motion_at w' b = Some (p, v)).
Proof.
  intros B1 [(w2 & il3 & w3 & w4 & HW & B2 & S2 & V & HZ & D & ->)]. exists il3, w3. split; [exact HZ|]. split; [eapply solving_base, V|]. split; [apply (so_b _ _ _ _ V)|]. split.
  - intros b Hb. rewrite <- (motion_woken il w1 w2 b HW). unfold motion_at. cbn. rewrite (d_out _ _ _ D) by (rewrite (so_b _ _ _ _ V); exact Hb). rewrite (so_bh _ _ _ _ V). reflexivity.
  - intros n b Hn. rewrite <- (so_b _ _ _ _ V) in Hn. destruct (ii_live _ _ (so_inv _ _ _ _ V) b ltac:(eapply nth_error_In; eassumption)) as [y3 E3].
    destruct (d_in _ _ _ D n b y3 Hn E3) as (p & v & Hp & Hv & Ef). exists p, v. split; [exact Hp|]. split; [exact Hv|]. unfold motion_at. cbn. rewrite Ef. destruct v. reflexivity.
Qed.
Lemma loaded_motion il w n b p v : loaded il w -> base il w -> nth_error (is_bodies il) n = Some b -> motion_at w b = Some (p, v) ->
  nth_error (is_pos il) n = Some p /\ nth_error (is_vel il) n = Some v.
Proof.
  intros L B Hn Hm. destruct (ii_live _ _ (proj2 B) b ltac:(eapply nth_error_In; eassumption)) as [y E]. rewrite (motion_some _ _ _ E) in Hm. injection Hm as <- <-. apply (L n b y Hn E).
Qed.

(** ** A body without constraints *)
(** no constraint or contact has it as an end *)
Definition loose (w : world) (b : id) : Prop := forall c x, w_ch w c = Some x -> b <> c_b0 x /\ b <> c_b1 x.
Lemma loose_same w w' b : same w w' -> loose w b -> loose w' b.
Proof. intros S H c x' E'. pose proof (sa_c _ _ S c) as HC. rewrite E' in HC. destruct (w_ch w c) as [x|] eqn:E; [|contradiction]. rewrite (cs_b0 _ _ HC), (cs_b1 _ _ HC). apply (H c x E). Qed.
Lemma loose_not w b x c : loose w b -> w_ch w c = Some x -> ~ In b (con_bodies x).
Proof. intros H E Hb. apply in_bodies in Hb. destruct (H c x E). destruct Hb; contradiction. Qed.
(** the island of a loose root is the root; a loose body is in no other one *)
Record lone (root : id) (w : world) (il : island) (w1 : world) : Prop := {
  ln_shape : shape root w il w1; ln_same : same w w1;
  ln_root : loose w root -> is_bodies il = [root] /\ all_of il = [];
  ln_in : forall b, In b (is_bodies il) -> b = root \/ ~ loose w b }.
Definition drifted (dt : K) (pv : position * velocity) : position * velocity :=
  (pos_advance (fst pv) (vscale dt (v_lin (snd pv))) (v_ang (snd pv) * dt)%num, snd pv).
Lemma solve_one_lone fuel s dt aw todo root l w : SInv w -> quiet_ids w -> todo = l ++ [root] -> incl todo (w_bodies w) -> length (w_bodies w) <= fuel ->
  wp (solve_one fuel s dt aw todo root) (fun r w' => SInv w' /\ quiet_ids w' /\ same w w' /\ incl (fst r) todo /\ length (fst r) < length todo /\
    (exists bs, In root bs /\ fst r = filter (fun i => negb (existsb (Nat.eqb i) bs)) todo /\ forall b, In b bs -> b = root \/ ~ loose w b) /\
    (forall b, loose w b -> motion_at w' b = if Nat.eqb b root then option_map (drifted dt) (motion_at w b) else motion_at w b)) w.
Proof.
  intros S Qt Et HI HF. assert (Hroot : In root todo) by (rewrite Et; apply in_or_app; right; left; reflexivity).
  assert (Hl : exists y, w_bh w root = Some y) by (apply (i_bodies _ S), HI, Hroot). destruct Hl as [y Ey].
  pose (Y := fun (cur : nat) (il : island) (w1 : world) => lone root w il w1).
  pose (X := fun (cur : nat) (r : id) (d : list id) (il : island) (w1 : world) => lone root w il w1 /\ In r (is_bodies il)).
  pose (Zv := fun (il : island) (w1 : world) => loose w root -> is_bodies il = [root] /\ all_of il = [] /\ exists p v, is_pos il = [p] /\ is_vel il = [v] /\ motion_at w root = Some (p, v)).
  pose (Zp := fun (il : island) (w1 : world) => loose w root -> all_of il = [] /\ exists p v, is_pos il = [fst (drifted dt (p, v))] /\ is_vel il = [v] /\ motion_at w root = Some (p, v)).
  eapply wp_mono.
  - apply (solve_one_two Zv Zp (fun il w1 => Y (length (is_bodies il)) il w1)).
    + intros il w1 w2 il' w' HY HW B2 S12 V L _ HL. destruct (ln_root _ _ _ _ HY HL) as [EB EA]. rewrite (so_b _ _ _ _ V), (solving_all _ _ _ _ V). split; [exact EB|]. split; [exact EA|].
      assert (Em : motion_at w' root = Some (b_pos (wb y), vel_of (wb y))).
      { unfold motion_at. rewrite (so_bh _ _ _ _ V). fold (motion_at w2 root). rewrite (motion_woken _ _ _ root HW), (motion_kept _ _ root (sh_kept _ _ _ _ (ln_shape _ _ _ _ HY))). apply motion_some, Ey. }
      destruct (loaded_motion il' w' 0 root _ _ L (solving_base _ _ _ _ V) ltac:(rewrite (so_b _ _ _ _ V), EB; reflexivity) Em) as [Hp Hv].
      pose proof (ii_pos _ _ (so_inv _ _ _ _ V)) as Lp. pose proof (ii_vel _ _ (so_inv _ _ _ _ V)) as Lv. rewrite (so_b _ _ _ _ V), EB in Lp, Lv.
      exists (b_pos (wb y)), (vel_of (wb y)). rewrite (motion_some _ _ _ Ey). destruct (is_pos il') as [|p [|]]; try discriminate. destruct (is_vel il') as [|v [|]]; try discriminate. cbn in Hp, Hv. repeat split; congruence.
    + intros il w1 c u w' _ Hc HZ _ HL. destruct (HZ HL) as (_ & EA & _). rewrite EA in Hc. destruct Hc.
    + intros il w1 c il' w' _ Hc HZ _ HL. destruct (HZ HL) as (_ & EA & _). rewrite EA in Hc. destruct Hc.
    + intros il w1 c il' w' _ Hc HZ _ HL. destruct (HZ HL) as (_ & EA & _). rewrite EA in Hc. destruct Hc.
    + intros il w1 _ HZ HL. destruct (HZ HL) as (_ & EA & p & v & Ep & Ev & Em). split; [exact EA|]. exists p, v. unfold integrate. cbn [is_pos is_vel]. rewrite Ep, Ev. auto.
    + intros il w1 c il' w' _ Hc HZ _ HL. destruct (HZ HL) as (EA & _). rewrite EA in Hc. destruct Hc.
    + apply (init_wp T Y X) with (y := y); auto.
      * intros cur r il w1 B HY Hn _. split; [exact HY|eapply nth_error_In, Hn].
      * intros cur r d c contact il w1 il' w' x v new B [[HS Hsm H1 H2] Hr] Ex Hrx _ A. pose proof (sa_c _ _ Hsm c) as HC. rewrite Ex in HC. destruct (w_ch w c) as [x0|] eqn:E0; [|contradiction].
        assert (CB : con_bodies x = con_bodies x0) by (unfold con_bodies; rewrite (cs_b0 _ _ HC), (cs_b1 _ _ HC); reflexivity).
        split; [|rewrite (a_bodies _ _ _ _ _ _ _ _ _ A); apply in_or_app; auto]. constructor.
        { destruct HS as [K1 K2 K3]. constructor; [rewrite (a_bodies _ _ _ _ _ _ _ _ _ A); apply in_or_app; auto|eapply kept_trans; [exact K2|apply (a_kept _ _ _ _ _ _ _ _ _ A)]|rewrite (a_log _ _ _ _ _ _ _ _ _ A); exact K3]. }
        { eapply same_trans; [exact Hsm|apply (a_same _ _ _ _ _ _ _ _ _ A)]. }
        { intros HL. exfalso. destruct (H1 HL) as [EB _]. rewrite EB in Hr. destruct Hr as [<-|[]]. rewrite CB in Hrx. exact (loose_not _ _ _ _ HL E0 Hrx). }
        { intros b Hb. rewrite (a_bodies _ _ _ _ _ _ _ _ _ A) in Hb. apply in_app_iff in Hb. destruct Hb as [Hb|Hb]; [auto|]. right. intros HL. apply (a_new _ _ _ _ _ _ _ _ _ A) in Hb. rewrite (cs_b0 _ _ HC), (cs_b1 _ _ HC) in Hb.
          destruct (HL c x0 E0). destruct Hb; contradiction. }
      * intros cur r y0 il w1 B Ey0 [HX _]. exact HX.
      * intros w' Kp Sm Ech Elog B. constructor; auto.
        { constructor; auto. left. reflexivity. }
        { intros b [<-|[]]. auto. }
  - intros r w' _ (il & w1 & B1 & S1 & HY & SV & ->). destruct (solved_end _ _ _ _ SV) as (Si' & Qt' & S1' & Elog). split; [exact Si'|]. split; [exact Qt'|]. split; [eapply same_trans; eassumption|].
    cbn [fst]. split; [intros b Hb; apply filter_In in Hb; tauto|]. split; [apply filter_shorter with root; [assumption|apply (sh_root _ _ _ _ (ln_shape _ _ _ _ HY))]|].
    split; [exists (is_bodies il); split; [apply (sh_root _ _ _ _ (ln_shape _ _ _ _ HY))|split; [reflexivity|apply (ln_in _ _ _ _ HY)]]|].
    destruct (solved_motion _ _ _ _ B1 SV) as (il3 & w3 & HZ & B3 & EB3 & Hout & Hin). intros b HL. destruct (Nat.eqb_spec b root) as [->|ne].
    + destruct (ln_root _ _ _ _ HY HL) as [EB _]. destruct (Hin 0 root ltac:(rewrite EB; reflexivity)) as (p & v & Hp & Hv & ->). destruct (HZ HL) as (_ & p0 & v0 & Ep & Ev & ->). rewrite Ep in Hp. rewrite Ev in Hv. cbn in Hp, Hv. injection Hp as <-. injection Hv as <-. reflexivity.
    + rewrite Hout; [apply motion_kept, (sh_kept _ _ _ _ (ln_shape _ _ _ _ HY))|]. intros Hb. destruct (ln_in _ _ _ _ HY b Hb); contradiction.
Qed.
Theorem islands_loose fuel1 fuel2 s dt w : SInv w -> quiet_ids w -> length (w_bodies w) <= fuel1 -> length (w_bodies w) <= fuel2 ->
  wp (solve_islands fuel1 fuel2 s dt false (w_bodies w)) (fun _ w' => forall b, In b (w_bodies w) -> loose w b -> motion_at w' b = option_map (drifted dt) (motion_at w b)) w.
Proof.
  intros S Qt H1 H2. eapply wp_mono.
  - apply (solve_islands_wp (fun todo _ w' => same w w' /\ forall b, In b (w_bodies w) -> loose w b -> if existsb (Nat.eqb b) todo then motion_at w' b = motion_at w b else motion_at w' b = option_map (drifted dt) (motion_at w b))); auto using incl_refl.
    + intros aw todo root l w1 S1 Q1 [Sm HZ] Et HI HF. eapply wp_mono; [apply (solve_one_lone fuel2 s dt aw todo root l w1); auto|].
      intros r w' _ (Si & Qi & Smi & HI' & HL & (bs & Hr & Er & Hbs) & HM). split; [exact Si|]. split; [exact Qi|]. split; [exact Smi|]. split; [|auto]. split; [eapply same_trans; eassumption|].
      intros b Hb HLo. pose proof (loose_same _ _ _ Sm HLo) as HL1. rewrite (HM b HL1). specialize (HZ b Hb HLo). rewrite Er.
      assert (Hroot : In root todo) by (rewrite Et; apply in_or_app; right; left; reflexivity).
      destruct (Nat.eqb_spec b root) as [->|ne].
      * rewrite (proj2 (existsb_in root todo) Hroot) in HZ. rewrite (proj2 (existsb_notin root _)); [congruence|]. intros Hf. apply filter_In in Hf. destruct Hf as [_ Hf]. apply negb_true_iff, existsb_notin in Hf. contradiction.
      * replace (existsb (Nat.eqb b) (filter _ todo)) with (existsb (Nat.eqb b) todo); [exact HZ|]. apply eq_true_iff_eq. rewrite !existsb_in, filter_In. split; [|tauto]. intros H. split; [exact H|].
        apply negb_true_iff, existsb_notin. intros Hbb. destruct (Hbs b Hbb); contradiction.
    + split; [apply same_refl|]. intros b Hb _. rewrite (proj2 (existsb_in b _) Hb). reflexivity.
  - intros u w' _ (_ & _ & _ & _ & _ & H) b Hb HL. exact (H b Hb HL).
Qed.

(** ** A step *)
Lemma motion_moved w w' b y y' : w_bh w b = Some y -> w_bh w' b = Some y' -> same_motion (wb y) (wb y') -> motion_at w' b = motion_at w b.
Proof. intros E E' (H1 & H2 & H3 & _). rewrite (motion_some _ _ _ E), (motion_some _ _ _ E'). unfold vel_of. congruence. Qed.
Lemma no_forces dt region w w' : w_forces w = [] -> apply_forces dt region w = Ok tt w' -> w' = w.
Proof. intros E H. unfold apply_forces, bind, get in H. rewrite E in H. cbn in H. injection H as ->. reflexivity. Qed.
(** what preStep keeps of the states of the constraints *)
Definition state_kept (G : CS -> Prop) (w w' : world) : Prop := (forall c x, w_ch w c = Some x -> G (c_st x)) -> forall c x, w_ch w' c = Some x -> G (c_st x).
Lemma state_kept_refl G w : state_kept G w w. Proof. intros H. exact H. Qed.
Lemma state_kept_trans G w1 w2 w3 : state_kept G w1 w2 -> state_kept G w2 w3 -> state_kept G w1 w3. Proof. intros A B H. exact (B (A H)). Qed.
Lemma pre_step_states (G : CS -> Prop) : (forall st, G st -> G (bh_pre st)) -> frame (state_kept G) pre_step.
Proof.
  intros HG. pose proof (state_kept_refl G) as Rf. pose proof (state_kept_trans G) as Tr.
  assert (P : forall e, frame (state_kept G) (pre_contact e)).
  { intros e w. unfold pre_contact, bind, con_at, deref. destruct (w_ch w (e_con e)) as [y|] eqn:Ey; [|exact Logic.I].
    assert (X : state_kept G w (set_ch w (put (w_ch w) (e_con e) (con_st (bh_pre (c_st y)) y)))).
    { intros H c x. cbn. unfold put. destruct (Nat.eqb_spec c (e_con e)) as [->|n]; [|apply H]. intros E. injection E as <-. cbn. apply HG, (H _ _ Ey). }
    destruct (c_cols y) as [[k0 k1]|]; [|exact X]. unfold col_at, deref. destruct (w_kh w k0), (w_kh w k1); try exact Logic.I. exact X. }
  unfold pre_step. repeat lazymatch goal with
  | |- forall _, _ => intro
  | |- frame _ (bind _ _) => apply fr_bind; [exact Tr| |]
  | |- frame _ (iter pre_contact _) => apply fr_iter; [exact Rf|exact Tr|exact P]
  | |- frame _ (iter _ _) => apply fr_iter; [exact Rf|exact Tr|]
  | |- frame _ (ret _) => apply fr_ret; exact Rf
  | |- frame _ (get _) => apply fr_get; exact Rf
  | |- frame _ (body_at _) => apply fr_deref; exact Rf
  | |- frame _ (con_at _) => apply fr_deref; exact Rf
  | |- frame _ (force_at _) => apply fr_deref; exact Rf
  end.
Qed.
(** the states between the phases of a step *)
Record stages (fuel : nat) (o : oracle) (dt : K) (w w' wm wn : world) : Prop := {
  sg_solve : at_solve o dt w wm; sg_sinv : SInv wm; sg_quiet : quiet_ids wm; sg_fuel : length (w_bodies wm) <= fuel;
  sg_con : forall c x, w_ch wm c = Some x -> exists x0, w_ch w c = Some x0 /\ con_same x0 x;
  sg_state : forall G : CS -> Prop, (forall st, G st -> G (bh_pre st)) -> state_kept G w wm;
  sg_isl : solve_islands fuel fuel (w_set wm) dt false (w_bodies wm) wm = Ok tt wn; sg_same : same wm wn;
  sg_bodies : w_bodies w' = w_bodies wm;
  sg_body : forall b y', w_bh w' b = Some y' -> exists y, w_bh wm b = Some y /\ b_props (wb y') = b_props (wb y);
  sg_motion : forall b, In b (w_bodies w') -> motion_at w' b = motion_at wn b;
  sg_props : forall b y, w_bh wm b = Some y -> exists y0, w_bh w b = Some y0 /\ b_props (wb y) = b_props (wb y0);
  sg_free : w_forces w = [] -> forall b, In b (w_bodies w') -> motion_at wm b = motion_at w b }.
Lemma step_stages strict fuel o dt w w' : reachable w -> shuffles o -> length (w_bodies w) <= fuel -> (k0 <? dt)%num = true -> step strict fuel o dt w = Ok tt w' ->
  exists wm wn, stages fuel o dt w w' wm wn.
Proof.
  intros HR Hs HF Hdt E. apply (refines_ok _ _ _ _ _ (rf_step strict fuel o dt)) in E. destruct (reachable_sound T w HR) as ((HS & HI & G) & NT & KL).
  pose proof (step_ok T fuel o dt w Hs G HS HI HF) as H. unfold wp in H. rewrite E in H. destruct H as (HS' & HI' & [(w1 & w2 & PH)]). rewrite Hdt in PH.
  destruct PH as (E1 & S1 & I1 & CL & E2 & S2 & I2 & RS & w3 & w4 & E3 & S3 & I3 & PU & E4 & S4 & Q4 & Sm & K4 & L4 & E5 & U).
  destruct (restated_same _ _ RS) as (C2 & K2 & EB & EL). pose proof PU as (C3 & K3 & EC & _).
  assert (W1 : forall b y, w_bh w1 b = Some y -> exists y0, w_bh w b = Some y0 /\ same_motion (wb y0) (wb y)).
  { intros b y Ey. rewrite (cl_b _ _ _ CL) in Ey. destruct (bdead _ _ _); [discriminate|]. destruct (w_bh w b) as [y0|]; [|discriminate]. cbn in Ey. injection Ey as <-. exists y0. split; [reflexivity|].
    cbn. unfold roused. destruct (touched _ _ _); repeat split. }
  assert (W3 : forall b y, w_bh w3 b = Some y -> exists y2, w_bh w2 b = Some y2 /\ b_props (wb y) = b_props (wb y2)).
  { intros b y Ey. destruct (hrel_some' _ _ _ _ _ (sa_b _ _ (proj1 C3)) Ey) as (y2 & Ey2 & BS). exists y2. split; [exact Ey2|apply (bs_props _ _ BS)]. }
  exists w3, w4. constructor; auto.
  - exists w1, w2. auto.
  - apply idle_quiet, I3.
  - rewrite (sa_bodies _ _ (proj1 C3)), (sa_bodies _ _ (proj1 C2)), (cl_bodies _ _ _ CL). pose proof (filter_le (fun b => negb (bdead (o_die o) w b)) (w_bodies w)). lia.
  - intros c x Ex. rewrite EC in Ex. destruct (hrel_some' _ _ _ _ _ (sa_c _ _ (proj1 C2)) Ex) as (x1 & Ex1 & CS1). rewrite (cl_c _ _ _ CL) in Ex1. destruct (cdead (o_die o) w c); [discriminate|]. eauto.
  - intros G0 HG H0 c x Ex. rewrite EC in Ex. pose proof (pre_step_states G0 HG w1) as HP. rewrite E2 in HP. refine (HP _ c x Ex). intros c1 x1. rewrite (cl_c _ _ _ CL). destruct (cdead (o_die o) w c1); [discriminate|apply H0].
  - rewrite (u_bodies _ _ _ U). apply (sa_bodies _ _ Sm).
  - intros b y' Ey'. destruct (u_body _ _ _ U b y' Ey') as (y4 & E4' & M & _). destruct (hrel_some' _ _ _ _ _ (sa_b _ _ Sm) E4') as (y & Ey & BS). exists y. split; [exact Ey|]. destruct M as (_ & _ & _ & _ & -> & _). apply (bs_props _ _ BS).
  - intros b Hb. apply (i_bodies _ HS') in Hb. destruct Hb as [y' Ey']. destruct (u_body _ _ _ U b y' Ey') as (y4 & E4' & M & _). eapply motion_moved; eassumption.
  - intros b y Ey. destruct (W3 b y Ey) as (y2 & E2' & ->). rewrite EB in E2'. destruct (W1 b y2 E2') as (y0 & E0 & M). exists y0. split; [exact E0|]. apply M.
  - intros HN b Hb. rewrite (u_bodies _ _ _ U), (sa_bodies _ _ Sm) in Hb. assert (HN2 : w_forces w2 = []) by (rewrite (sa_forces _ _ (proj1 C2)), (cl_forces _ _ _ CL), HN; reflexivity).
    pose proof (no_forces _ _ _ _ HN2 E3) as E3'. rewrite E3' in Hb |- *. apply (i_bodies _ S2) in Hb. destruct Hb as [y2 E2']. unfold motion_at at 1. rewrite EB in E2' |- *. fold (motion_at w1 b). destruct (W1 b y2 E2') as (y0 & E0 & M). eapply motion_moved; eassumption.
Qed.
Theorem step_loose strict fuel o dt w w' : reachable w -> shuffles o -> length (w_bodies w) <= fuel -> (k0 <? dt)%num = true -> step strict fuel o dt w = Ok tt w' ->
  exists wm, at_solve o dt w wm /\ forall b, In b (w_bodies w') -> (w_forces w = [] -> motion_at wm b = motion_at w b) /\ (loose w b -> loose wm b) /\
    (loose wm b -> exists p v, motion_at wm b = Some (p, v) /\ motion_at w' b = Some (pos_advance p (vscale dt (v_lin v)) (v_ang v * dt)%num, v)).
Proof.
  intros HR Hs HF Hdt E. destruct (step_stages _ _ _ _ _ _ HR Hs HF Hdt E) as (wm & wn & SG). exists wm. split; [apply (sg_solve _ _ _ _ _ _ _ SG)|]. intros b Hb.
  split; [intros HN; apply (sg_free _ _ _ _ _ _ _ SG HN b Hb)|]. split.
  - intros HL c x Ex. destruct (sg_con _ _ _ _ _ _ _ SG c x Ex) as (x0 & E0 & CS0). rewrite (cs_b0 _ _ CS0), (cs_b1 _ _ CS0). apply (HL c x0 E0).
  - intros HL. pose proof (islands_loose fuel fuel (w_set wm) dt wm (sg_sinv _ _ _ _ _ _ _ SG) (sg_quiet _ _ _ _ _ _ _ SG) (sg_fuel _ _ _ _ _ _ _ SG) (sg_fuel _ _ _ _ _ _ _ SG)) as H.
    unfold wp in H. rewrite (sg_isl _ _ _ _ _ _ _ SG) in H. pose proof Hb as Hb'. rewrite (sg_bodies _ _ _ _ _ _ _ SG) in Hb'. specialize (H b Hb' HL). rewrite (sg_motion _ _ _ _ _ _ _ SG b Hb), H.
    apply (i_bodies _ (sg_sinv _ _ _ _ _ _ _ SG)) in Hb'. destruct Hb' as [y Ey]. rewrite (motion_some _ _ _ Ey). cbn. eauto.
Qed.
End Move.
