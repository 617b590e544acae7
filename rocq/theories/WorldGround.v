(** Bodies of dominance zero (structural bodies) over a step, in exact arithmetic:
    the ground stays where it is and a moving platform keeps its velocity. *)
From Coq Require Import ZArith List Bool Lia Permutation Reals Lra.
From Verif Require Import Num Outcome Box Mat MatFacts Geom Transform Body Constraint Contact World WorldHoare WorldInv WorldFrame WorldIsland WorldSolve WorldComp WorldSleep WorldOps WorldCols WorldClean WorldKill WorldStep WorldStrict WorldHist WorldThm WorldUse WorldMass WorldReal WorldLib WorldMove WorldMomentum.
Import ListNotations.
Local Open Scope R_scope.

Section Ground.
Context {TR : Trig RNum} {BH : Behaviour RNum}.
(** the cosine and the sine of the rotation are those of its angle *)
Definition coherent (p : Rpos) : Prop := p_rot p = mk_rot (r_theta (p_rot p)).
Lemma coherent_advance (p : Rpos) (v : Rv) (a : R) : coherent (pos_advance p v a).
Proof. reflexivity. Qed.
Lemma advance_zero (p : Rpos) (v : Rv) (a : R) : coherent p -> vx v = 0 -> vy v = 0 -> a = 0 -> pos_advance p v a = p.
Proof.
  intros C Hx Hy ->. destruct p as [[ox oy] r lc], v as [x y]. unfold coherent in C. cbn in C, Hx, Hy. subst x y. unfold pos_advance, tra_mul, vadd, rot_mul. cbn. f_equal; [f_equal; rring|]. rewrite C at 2. f_equal. rring.
Qed.
(** an end of zero inverse mass and inertia keeps its position and its velocity *)
Definition planted_end (s s' : Rstore) (i : nat) : Prop := coherent (s_pos s i) -> s_pos s' i = s_pos s i /\ s_vel s' i = s_vel s i.
Definition plants (px : Rprox) (s s' : Rstore) : Prop := px_i1 px <> px_i0 px ->
  (px_m0 px = 0 -> px_I0 px = 0 -> planted_end s s' (px_i0 px)) /\ (px_m1 px = 0 -> px_I1 px = 0 -> planted_end s s' (px_i1 px)).
Record planting : Prop := {
  pl_warm : forall st px s dt st' s', bh_warm st px s dt = Ret (st', s') -> plants px s s';
  pl_vel : forall st px s dt st' s', bh_vel st px s dt = Ret (st', s') -> plants px s s';
  pl_pos : forall st px s st' s', bh_pos st px s = Ret (st', s') -> plants px s s' }.

Hypothesis T : tame (N := RNum).
Hypothesis HP : planting.
Variable b : id.
(** every constraint and contact of the body gives it infinite mass and inertia *)
Definition anchors (x : @wcon RNum BH) : Prop :=
  (c_b0 x = b -> c_b1 x <> b /\ c_m0 x = 0 /\ c_I0 x = 0) /\ (c_b1 x = b -> c_b0 x <> b /\ c_m1 x = 0 /\ c_I1 x = 0).
Definition anchored (w : @world RNum BH) : Prop := forall c x, w_ch w c = Some x -> anchors x.
Lemma anchored_same w w' : same w w' -> anchored w -> anchored w'.
Proof.
  intros S H c x' E'. pose proof (sa_c _ _ S c) as HC. rewrite E' in HC. destruct (w_ch w c) as [x|] eqn:E; [|contradiction]. unfold anchors. rewrite (cs_b0 _ _ HC), (cs_b1 _ _ HC), (cs_m0 _ _ HC), (cs_m1 _ _ HC), (cs_I0 _ _ HC), (cs_I1 _ _ HC). apply (H c x E).
Qed.
Lemma anchored_put w c x st : anchored w -> w_ch w c = Some x -> anchored (set_ch w (put (w_ch w) c (con_st st x))).
Proof. intros H E d z. cbn. unfold put. destruct (Nat.eqb_spec d c) as [->|n]; [|apply H]. intros Ez. injection Ez as <-. exact (H c x E). Qed.

(** ** One island *)
Definition Zg (p : Rpos) (v : Rvelo) (il : @island RNum) (w : @world RNum BH) : Prop := anchored w /\
  forall n, nth_error (is_bodies il) n = Some b -> nth_error (is_pos il) n = Some p /\ nth_error (is_vel il) n = Some v.
Lemma Zg_call p v f : coherent p -> (forall st px s st' s', f st px s = Ret (st', s') -> plants px s s') -> kept_by (Zg p v) f.
Proof.
  intros HC HF il w c il' w' B Hc [HA HZ] Eq. destruct (get_proxies_spec il c w B Hc) as (px & x & EP & E & _ & H0 & H1 & Q0 & Q1 & Epx). unfold call, bind in Eq. rewrite EP in Eq. unfold con_at, deref in Eq. rewrite E in Eq.
  unfold lift in Eq. destruct (view il px) as [s| | |] eqn:EV; try discriminate. destruct (f (c_st x) px s) as [[st s']| | |] eqn:Eb; try discriminate. cbn [fst snd] in Eq. injection Eq as <- <-.
  split; [apply anchored_put; assumption|]. apply HF in Eb. unfold view in EV.
  destruct (nth_error (is_pos il) (px_i0 px)) as [p0|] eqn:P0; [|discriminate]. destruct (nth_error (is_vel il) (px_i0 px)) as [v0|] eqn:V0; [|discriminate].
  destruct (nth_error (is_pos il) (px_i1 px)) as [p1|] eqn:P1; [|discriminate]. destruct (nth_error (is_vel il) (px_i1 px)) as [v1|] eqn:V1; [|discriminate]. injection EV as <-.
  destruct (HA c x E) as [A0 A1]. unfold plants, planted_end in Eb. cbn [store_of s_pos s_vel] in Eb.
  rewrite (nth_error_nth _ _ _ P0), (nth_error_nth _ _ _ P1), (nth_error_nth _ _ _ V0), (nth_error_nth _ _ _ V1) in Eb.
  assert (ND : NoDup (is_bodies il)) by (apply (ii_nd _ _ (proj2 B))).
  assert (INJ : forall i j, nth_error (is_bodies il) i = Some b -> nth_error (is_bodies il) j = Some b -> i = j).
  { intros i j Hi Hj. rewrite NoDup_nth_error in ND. apply ND; [apply nth_error_Some; congruence|congruence]. }
  intros n Hn. cbn [write is_bodies is_pos is_vel] in Hn |- *. destruct (HZ n Hn) as [Zp_ Zv_].
  destruct (Nat.eq_dec n (px_i1 px)) as [->|n1].
  - assert (Hb : c_b1 x = b) by congruence. destruct (A1 Hb) as (NE & M1 & J1). assert (Hi : px_i1 px <> px_i0 px) by (intros Ei; rewrite Ei in Hn; congruence).
    assert (p1 = p) by congruence. assert (v1 = v) by congruence. subst p1 v1.
    rewrite Epx in Eb. cbn [px_i0 px_i1 px_m0 px_m1 px_I0 px_I1] in Eb. destruct (Eb Hi) as [_ EE]. destruct (EE M1 J1 HC) as [-> ->].
    rewrite !upd_nth_same; auto; rewrite upd_nth_length; apply nth_error_Some; congruence.
  - rewrite !(upd_nth_other (px_i1 px)) by congruence. destruct (Nat.eq_dec n (px_i0 px)) as [->|n0].
    + assert (Hb : c_b0 x = b) by congruence. destruct (A0 Hb) as (NE & M1 & J1). assert (Hi : px_i1 px <> px_i0 px) by congruence.
      assert (p0 = p) by congruence. assert (v0 = v) by congruence. subst p0 v0.
      rewrite Epx in Eb. cbn [px_i0 px_i1 px_m0 px_m1 px_I0 px_I1] in Eb. destruct (Eb Hi) as [EE _]. destruct (EE M1 J1 HC) as [-> ->].
      rewrite !upd_nth_same; auto; apply nth_error_Some; congruence.
    + rewrite !(upd_nth_other (px_i0 px)) by congruence. auto.
Qed.
Lemma Zg_init p v il w1 c u w2 : base il w1 -> In c (all_of il) -> Zg p v il w1 -> call_init il c w1 = Ok u w2 -> Zg p v il w2.
Proof.
  intros B Hc [HS HZ] Eq. split; [|exact HZ]. destruct (get_proxies_spec il c w1 B Hc) as (px & x & EP & E & _ & H0 & H1 & _). unfold call_init, bind in Eq. rewrite EP in Eq. unfold con_at, deref in Eq. rewrite E in Eq.
  unfold lift in Eq. destruct (view il px); try discriminate. destruct (bh_init (c_st x) px a) as [st| | |] eqn:Eb; try discriminate. injection Eq as _ <-. apply anchored_put; assumption.
Qed.
Lemma advance_nth (dt : R) : forall (ps : list Rpos) (vs : list Rvelo) n p v, nth_error ps n = Some p -> nth_error vs n = Some v ->
  nth_error (map (fun pv => pos_advance (fst pv) (vscale (N := RNum) dt (v_lin (snd pv))) (v_ang (snd pv) * dt)%num) (combine ps vs)) n = Some (fst (drifted (N := RNum) dt (p, v))).
Proof.
  induction ps as [|p0 ps IH]; intros [|v0 vs] [|n] p v Hp Hv; try discriminate; cbn in Hp, Hv.
  - injection Hp as ->. injection Hv as ->. reflexivity.
  - cbn [combine map nth_error]. apply IH; assumption.
Qed.
Lemma Zg_integrate (dt : R) p v il w1 : Zg p v il w1 -> Zg (fst (drifted (N := RNum) dt (p, v))) v (integrate (N := RNum) dt il) w1.
Proof.
  intros [HS HZ]. split; [exact HS|]. intros n Hn. destruct (HZ n Hn) as [H1 H2]. split; [|exact H2]. apply (advance_nth dt _ _ _ _ _ H1 H2).
Qed.
(** the body is advanced by its velocity in an island it belongs to, and left alone by the others *)
Record carried (dt : R) (bs : list id) (p : Rpos) (v : Rvelo) (w w' : @world RNum BH) : Prop := {
  ca_out : forall d, ~ In d bs -> motion_at w' d = motion_at w d;
  ca_in : In b bs -> motion_at w' b = Some (drifted (N := RNum) dt (p, v)) }.
Lemma solve_one_carried fuel s (dt : R) aw todo root l w p v : SInv w -> quiet_ids w -> anchored w -> motion_at w b = Some (p, v) -> coherent p -> todo = l ++ [root] -> incl todo (w_bodies w) -> (length (w_bodies w) <= fuel)%nat ->
  wp (solve_one fuel s (dt : @K RNum) aw todo root) (fun r w' => SInv w' /\ quiet_ids w' /\ same w w' /\ incl (fst r) todo /\ (length (fst r) < length todo)%nat /\
    exists bs cs cts, In root bs /\ fst r = filter (fun i => negb (existsb (Nat.eqb i) bs)) todo /\ w_log w' = w_log w ++ [Solved bs cs cts] /\ carried dt bs p v w w') w.
Proof.
  intros S Qt HA Hm HC Et HI HF. assert (Hroot : In root todo) by (rewrite Et; apply in_or_app; right; left; reflexivity).
  assert (Hl : exists y, w_bh w root = Some y) by (apply (i_bodies _ S), HI, Hroot). destruct Hl as [y Ey].
  pose (Y := fun (cur : nat) (il : @island RNum) (w1 : @world RNum BH) => shape root w il w1 /\ same w w1).
  pose (X := fun (cur : nat) (r : id) (d : list id) (il : @island RNum) (w1 : @world RNum BH) => shape root w il w1 /\ same w w1).
  eapply wp_mono.
  - apply (solve_one_two T (Zg p v) (Zg (fst (drifted (N := RNum) dt (p, v))) v) (fun il w1 => Y (length (is_bodies il)) il w1)).
    + intros il w1 w2 il' w' [Sh Sm] HW B2 S12 V L _. split.
      * eapply anchored_same; [|exact HA]. eapply same_trans; [exact Sm|]. eapply same_trans; [exact S12|apply (so_same _ _ _ _ V)].
      * intros n Hn. apply (loaded_motion il' w' n b p v L (solving_base _ _ _ _ V) Hn). unfold motion_at. rewrite (so_bh _ _ _ _ V). fold (motion_at w2 b). rewrite (motion_woken _ _ _ b HW), (motion_kept _ _ b (sh_kept _ _ _ _ Sh)). exact Hm.
    + intros il w1 c u w2. apply Zg_init.
    + apply Zg_call; [exact HC|]. intros st px s0 st' s' E. apply (pl_warm HP) in E; assumption.
    + apply Zg_call; [exact HC|]. intros st px s0 st' s' E. apply (pl_vel HP) in E; assumption.
    + intros il w1 _. apply Zg_integrate.
    + apply Zg_call; [apply coherent_advance|]. intros st px s0 st' s' E. apply (pl_pos HP) in E; assumption.
    + apply (init_wp T Y X) with (y := y); auto.
      * intros cur r d c contact il w1 il' w' x v0 new B (HS & Sm) Ex _ _ A. split.
        { destruct HS as [K1 K2 K3]. constructor; [rewrite (a_bodies _ _ _ _ _ _ _ _ _ A); apply in_or_app; auto|eapply kept_trans; [exact K2|apply (a_kept _ _ _ _ _ _ _ _ _ A)]|rewrite (a_log _ _ _ _ _ _ _ _ _ A); exact K3]. }
        { eapply same_trans; [exact Sm|apply (a_same _ _ _ _ _ _ _ _ _ A)]. }
      * intros w' Kp Sm Ech Elog B. split; [constructor; auto; left; reflexivity|exact Sm].
  - intros r w' _ (il & w1 & B1 & S1 & (Sh & Sm) & SV & ->). pose proof (solved_end _ _ _ _ SV) as (Si' & Qt' & S1' & Elog). assert (Sw : same w w') by (eapply same_trans; eassumption).
    split; [exact Si'|]. split; [exact Qt'|]. split; [exact Sw|]. destruct (solved_motion _ _ _ _ B1 SV) as (il3 & w3 & HZ & B3 & EB & Hout & Hin).
    cbn [fst]. split; [intros d Hd; apply filter_In in Hd; tauto|]. split; [apply filter_shorter with root; [assumption|apply (sh_root _ _ _ _ Sh)]|].
    exists (is_bodies il), (is_cons il), (is_cts il). split; [apply (sh_root _ _ _ _ Sh)|]. split; [reflexivity|]. split; [rewrite Elog, (sh_log _ _ _ _ Sh); reflexivity|]. constructor.
    + intros d Hd. rewrite (Hout d Hd). apply motion_kept, (sh_kept _ _ _ _ Sh).
    + intros Hb. apply In_nth_error in Hb. destruct Hb as [n Hn]. destruct (Hin n b Hn) as (p' & v' & Hp & Hv & ->). destruct HZ as [_ HZ]. rewrite EB in HZ. destruct (HZ n Hn) as [Zp_ Zv_]. rewrite Zp_ in Hp. rewrite Zv_ in Hv. injection Hp as <-. injection Hv as <-. reflexivity.
Qed.
(** ** All islands: a body at rest *)
Definition resting (v : Rvelo) : Prop := vx (v_lin v) = 0 /\ vy (v_lin v) = 0 /\ v_ang v = 0.
Lemma resting_drift (dt : R) p v : coherent p -> resting v -> drifted (N := RNum) dt (p, v) = (p, v).
Proof.
  intros HC (H1 & H2 & H3). unfold drifted. cbn [fst snd]. rewrite advance_zero; auto; destruct v as [[x y] a]; cbn in *; subst; rring.
Qed.
Theorem islands_ground fuel1 fuel2 s (dt : R) w p v : SInv w -> quiet_ids w -> anchored w -> motion_at w b = Some (p, v) -> coherent p -> resting v -> (length (w_bodies w) <= fuel1)%nat -> (length (w_bodies w) <= fuel2)%nat ->
  wp (solve_islands fuel1 fuel2 s (dt : @K RNum) false (w_bodies w)) (fun _ w' => motion_at w' b = Some (p, v)) w.
Proof.
  intros S Qt HA Hm HC HR H1 H2. eapply wp_mono.
  - apply (solve_islands_wp (fun _ _ w' => same w w' /\ motion_at w' b = Some (p, v))); auto using incl_refl, same_refl.
    intros aw todo root l w1 S1 Q1 (Sm & M1) Et HI HF. eapply wp_mono; [apply (solve_one_carried fuel2 s dt aw todo root l w1 p v); auto; eapply anchored_same; eassumption|].
    intros r w' _ (Si & Qi & Smi & HI' & HL & bs & cs & cts & Hr & Er & El & CA). split; [exact Si|]. split; [exact Qi|]. split; [exact Smi|]. split; [|auto]. split; [eapply same_trans; eassumption|].
    destruct (in_dec Nat.eq_dec b bs) as [Hb|Hb]; [rewrite (ca_in _ _ _ _ _ _ CA Hb); f_equal; apply resting_drift; assumption|rewrite (ca_out _ _ _ _ _ _ CA b Hb); exact M1].
  - intros u w' _ (_ & _ & _ & _ & _ & H). exact H.
Qed.
Theorem islands_coherent fuel1 fuel2 s (dt : R) w p v : SInv w -> quiet_ids w -> anchored w -> motion_at w b = Some (p, v) -> coherent p -> (length (w_bodies w) <= fuel1)%nat -> (length (w_bodies w) <= fuel2)%nat ->
  wp (solve_islands fuel1 fuel2 s (dt : @K RNum) false (w_bodies w)) (fun _ w' => exists p' v', motion_at w' b = Some (p', v') /\ coherent p') w.
Proof.
  intros S Qt HA Hm HC H1 H2. eapply wp_mono.
  - apply (solve_islands_wp (fun _ _ w' => same w w' /\ exists p' v', motion_at w' b = Some (p', v') /\ coherent p')); eauto 6 using incl_refl, same_refl.
    intros aw todo root l w1 S1 Q1 (Sm & p' & v' & M1 & C1) Et HI HF. eapply wp_mono; [apply (solve_one_carried fuel2 s dt aw todo root l w1 p' v'); auto; eapply anchored_same; eassumption|].
    intros r w' _ (Si & Qi & Smi & HI' & HL & bs & cs & cts & Hr & Er & El & CA). split; [exact Si|]. split; [exact Qi|]. split; [exact Smi|]. split; [|auto]. split; [eapply same_trans; eassumption|].
    destruct (in_dec Nat.eq_dec b bs) as [Hb|Hb]; [rewrite (ca_in _ _ _ _ _ _ CA Hb)|rewrite (ca_out _ _ _ _ _ _ CA b Hb); eauto]. eexists _, _. split; [reflexivity|apply coherent_advance].
  - intros u w' _ (_ & _ & _ & _ & _ & H). exact H.
Qed.
(** ** All islands: a moving body is in one of them *)
Section Once.
Variable act : @CS RNum BH -> bool.
Hypothesis Hst : steady act.
Hypothesis Hsl : still (N := RNum).
Variable w0 : @world RNum BH.
Hypothesis S0 : SInv w0.
Hypothesis M0 : massless w0.
Variable p : Rpos.
Variable v : Rvelo.
Hypothesis Hm0 : motion_at w0 b = Some (p, v).
Hypothesis HC : coherent p.
Hypothesis HA0 : anchored w0.
Lemma fixed_rests : fixed w0 b -> resting v.
Proof.
  intros (y & Ey & Hr & _). rewrite (motion_some _ _ _ Ey) in Hm0. injection Hm0 as _ <-. unfold at_rest in Hr. rewrite !andb_true_iff in Hr. cbn in Hr. rewrite !Reqb_true in Hr. unfold resting, vel_of. cbn [v_lin v_ang]. tauto.
Qed.
Definition ZD (dt : R) (w : @world RNum BH) : Prop := exists L, w_log w = w_log w0 ++ map event_of L /\ motion_at w b = Some (if met L b then drifted (N := RNum) dt (p, v) else (p, v)).
Theorem islands_platform fuel1 fuel2 s (dt : R) : quiet_ids w0 -> In b (w_bodies w0) -> (length (w_bodies w0) <= fuel1)%nat -> (length (w_bodies w0) <= fuel2)%nat ->
  wp (solve_islands fuel1 fuel2 s (dt : @K RNum) false (w_bodies w0)) (fun _ w' => motion_at w' b = Some (drifted (N := RNum) dt (p, v))) w0.
Proof.
  intros Qt Hb0 H1 H2. eapply wp_mono.
  - apply (solve_islands_wp (fun todo aw w => ZA act w0 todo aw w /\ ZD dt w)); auto using incl_refl.
    + intros aw todo root l w1 S1 Q1 (HA & L & EL & Hm) Et HI HF. assert (HA1 : anchored w1) by (eapply anchored_same; [apply (za_same _ _ _ _ _ HA)|exact HA0]).
      set (pv := if met L b then drifted (N := RNum) dt (p, v) else (p, v)) in Hm. assert (HCp : coherent (fst pv)) by (unfold pv; destruct (met L b); [apply coherent_advance|exact HC]).
      rewrite (surjective_pairing pv) in Hm.
      eapply wp_mono; [apply wp_and; [apply (solve_one_comp T act Hst Hsl w0 S0 M0 fuel2 s dt aw todo root l w1); auto|apply (solve_one_carried fuel2 s dt aw todo root l w1 (fst pv) (snd pv)); auto]|].
      intros r w' _ [(Si & Qi & Smi & HA' & HI' & HL) (_ & _ & _ & _ & _ & bs & cs & cts & Hr & Er & El & CA)]. repeat (split; [assumption|]). split; [|auto]. split; [exact HA'|].
      destruct (za_isl _ _ _ _ _ HA') as (L' & EL' & _ & AP & _). assert (E : L' = L ++ [IS bs cs cts]).
      { apply event_inj. apply (app_inv_head (w_log w0)). rewrite <- EL', El, EL, map_app, app_assoc. reflexivity. } subst L'.
      exists (L ++ [IS bs cs cts]). split; [exact EL'|].
      assert (MT : met (L ++ [IS bs cs cts]) b = met L b || existsb (Nat.eqb b) bs) by (unfold met; rewrite existsb_app; cbn; rewrite orb_false_r; reflexivity). rewrite MT.
      destruct (in_dec Nat.eq_dec b bs) as [Hb|Hb].
      * rewrite (ca_in _ _ _ _ _ _ CA Hb), (proj2 (existsb_in b bs) Hb), orb_true_r. f_equal. rewrite <- surjective_pairing. unfold pv. destruct (met L b) eqn:Em; [|reflexivity].
        assert (FX : fixed w0 b).
        { unfold met in Em. apply existsb_exists in Em. destruct Em as (i & Hi & Em). apply existsb_in in Em.
          assert (AX : apart w0 i (IS bs cs cts)).
          { clear - AP Hi. induction L as [|a L IH]; [contradiction|]. cbn in AP. inversion AP as [|? ? F AP']; subst. destruct Hi as [->|Hi]; [|apply IH; assumption]. rewrite Forall_forall in F. apply F, in_or_app. right. left. reflexivity. }
          apply (AX b Em Hb). }
        apply fixed_rests in FX. rewrite (resting_drift dt p v HC FX). apply resting_drift; assumption.
      * rewrite (ca_out _ _ _ _ _ _ CA b Hb), (proj2 (existsb_notin b bs) Hb), orb_false_r, Hm. rewrite <- surjective_pairing. reflexivity.
    + split.
      * constructor; [apply same_refl|intros c; reflexivity|]. exists []. cbn. rewrite app_nil_r. split; [reflexivity|]. split; [constructor|]. split; [constructor|]. split; [|auto].
        intros d. split; [intros Hd; split; [exact Hd|intros i []]|tauto].
      * exists []. cbn. rewrite app_nil_r. auto.
  - intros u w' _ (_ & _ & _ & aw & HA & L & EL & Hm). destruct (za_isl _ _ _ _ _ HA) as (L1 & EL1 & _ & _ & HT & _). assert (L1 = L) by (apply event_inj; apply (app_inv_head (w_log w0)); congruence). subst L1.
    destruct (met L b) eqn:Em; [exact Hm|]. rewrite met_not in Em. exfalso. apply (proj2 (HT b)). auto.
Qed.
End Once.

(** ** New contacts with the body give it infinite mass *)
Definition pinned (w : @world RNum BH) : Prop := (forall y, w_bh w b = Some y -> b_dominance (wb y) = 0) /\ anchored w.
Definition pins (w w' : @world RNum BH) : Prop := pinned w -> pinned w'.
Lemma pins_refl w : pins w w. Proof. intros H. exact H. Qed.
Lemma pins_trans w1 w2 w3 : pins w1 w2 -> pins w2 w3 -> pins w1 w3. Proof. intros H1 H2 H. exact (H2 (H1 H)). Qed.
Lemma pins_eq w w' : w_bh w' = w_bh w -> w_ch w' = w_ch w -> pins w w'.
Proof. intros E1 E2 [H1 H2]. split; [rewrite E1; exact H1|]. intros c x. rewrite E2. apply H2. Qed.
Lemma pins_body w i y y' : w_bh w i = Some y -> b_dominance (wb y') = b_dominance (wb y) -> pins w (set_bh w (put (w_bh w) i y')).
Proof. intros E D [H1 H2]. split; [|exact H2]. intros z. cbn. unfold put. destruct (Nat.eqb_spec b i) as [->|n]; [|apply H1]. intros Ez. injection Ez as <-. rewrite D. apply H1, E. Qed.
Lemma pins_put w i (x : @wcon RNum BH) : (pinned w -> anchors x) -> pins w (set_ch w (put (w_ch w) i x)).
Proof. intros HX H. split; [exact (proj1 H)|]. intros c z. cbn. unfold put. destruct (Nat.eqb c i); [intros EZ; injection EZ as <-; apply HX, H|apply (proj2 H)]. Qed.
Ltac pn := repeat first [ apply fr_mod_body; intros; eapply pins_body; [eassumption|reflexivity] | apply fr_bind; [exact pins_trans| |intros] | apply fr_get; exact pins_refl | apply fr_deref; exact pins_refl | apply fr_ret; exact pins_refl
  | apply fr_bad | apply fr_lift; exact pins_refl | apply fr_if | apply fr_iter; [exact pins_refl|exact pins_trans|intros] | apply fr_modify; intros; apply pins_eq; reflexivity ].
Lemma pins_blocked d l : frame pins (blocked l d).
Proof. induction l as [|c l IH]; cbn [blocked]; unfold con_at; pn. exact IH. Qed.
Lemma zero_true (a : R) : a = 0 -> @keqb RNum a (@k0 RNum) = true.
Proof. intros ->. unfold k0. cbn [keqb kofZ RNum]. apply Reqb_true. reflexivity. Qed.
Lemma new_pinned b0 b1 dis cols st w (x : @wcon RNum BH) w' : new_con b0 b1 None dis cols st w = Ok x w' -> w' = w /\ (pinned w -> anchors x).
Proof.
  intros E. pose proof (new_firm _ _ _ _ _ _ _ _ _ E) as [F ->]. split; [reflexivity|]. intros [HD _]. unfold new_con in E. apply bind_ok in E. destruct E as (x0 & w1 & E1 & E). apply body_at_ok in E1. destruct E1 as [-> E0].
  apply bind_ok in E. destruct E as (x1 & w1 & E1 & E). apply body_at_ok in E1. destruct E1 as [-> E1]. unfold bodies_masses in E. cbn [fst snd] in E.
  apply bind_ok in E. destruct E as (s0 & w1 & _ & E). apply bind_ok in E. destruct E as (s1 & w2 & _ & E). destruct (s0 && _); [discriminate|]. injection E as <- _. unfold firm in F. unfold anchors. cbn [c_b0 c_b1 c_m0 c_m1 c_I0 c_I1] in *.
  assert (X : b0 = b -> b1 <> b).
  { intros ->. destruct F as [F|[F _]]; [|congruence]. rewrite zero_true in F; [discriminate|]. rewrite (HD _ E0). cbn. ring. }
  split; intros Eb; subst; (split; [auto; intros Eb'; apply (X Eb'); reflexivity|]); [rewrite (HD _ E0)|rewrite (HD _ E1)]; cbn; split; ring.
Qed.
Lemma pins_contact o k k' : frame pins (make_contact o k k').
Proof.
  unfold make_contact, col_at. apply fr_bind; [exact pins_trans|pn|intros x0]. apply fr_bind; [exact pins_trans|pn|intros x1]. intros w.
  assert (FR : forall (c : @wcon RNum BH), anchors c -> frame pins (i <- fresh ;; put_con i c ;;; iter (fun b => mod_body b (fun x => with_cts x (wb_cts x ++ [i])) ;;; wake b) (con_bodies c) ;;; ret i)).
  { intros c Hc. unfold wake. pn. apply fr_modify. intros w1. apply pins_put. intros _. exact Hc. }
  unfold bind at 1. destruct (new_con _ _ _ _ _ _ w) as [c w1|w1| |] eqn:E; auto.
  - apply new_pinned in E. destruct E as [-> Hc]. specialize (FR c). unfold frame in FR. 
    match goal with |- match ?e with _ => _ end => destruct e as [a w2|w2| |] eqn:E2 end; auto; intros PW; specialize (FR (Hc PW) w); rewrite E2 in FR; exact (FR PW).
  - assert (F0 : frame pins (new_con (k_body x0) (k_body x1) None false (Some (k, k')) (o_state o k k'))).
    { unfold new_con, body_at. pn. }
    specialize (F0 w). rewrite E in F0. exact F0.
Qed.
Lemma pins_settle e : frame pins (settle e).
Proof.
  unfold settle. apply fr_if; [apply fr_ret; exact pins_refl|]. apply fr_mod_con. intros w y E. apply pins_put. intros [_ H]. exact (H _ _ E).
Qed.
Lemma pins_register o p : frame pins (register o p).
Proof.
  unfold register, col_at, body_at. pn; [apply pins_blocked|]. match goal with |- frame _ (match ?e with _ => _ end) => destruct e end; [pn|]. apply fr_bind; [exact pins_trans|apply pins_contact|intros i; pn].
Qed.
Lemma pins_update o (dt : R) : frame pins (update_bodies o (dt : @K RNum)).
Proof.
  unfold update_bodies, sleep_one. apply fr_bind; [exact pins_trans|pn|intros s]. apply fr_bind; [exact pins_trans|pn|intros bs]. apply fr_bind; [exact pins_trans| |intros _].
  { apply fr_if; [|apply fr_ret; exact pins_refl]. apply fr_iter; [exact pins_refl|exact pins_trans|intros i]. apply fr_mod_body. intros w y E. eapply pins_body; [exact E|]. cbn [wb with_wb]. unfold sleep_step. repeat match goal with |- context [if ?c then _ else _] => destruct c end; reflexivity. }
  apply fr_bind; [exact pins_trans|apply fr_iter; [exact pins_refl|exact pins_trans|apply pins_register]|intros _]. apply fr_bind; [exact pins_trans|pn|intros es].
  apply fr_bind; [exact pins_trans|apply fr_iter; [exact pins_refl|exact pins_trans|apply pins_settle]|intros _]. pn.
Qed.
End Ground.

(** ** Over a step *)
Section Step.
Context {TR : Trig RNum} {BH : Behaviour RNum}.
(** a body of dominance zero to which every constraint and contact gives infinite
    mass and inertia *)
Record structure (w : @world RNum BH) (b : id) : Prop := {
  st_body : exists y, w_bh w b = Some y /\ b_dominance (wb y) = 0 /\ coherent (b_pos (wb y));
  st_con : forall c x, w_ch w c = Some x -> (c_b0 x = b -> c_m0 x = 0 /\ c_I0 x = 0) /\ (c_b1 x = b -> c_m1 x = 0 /\ c_I1 x = 0) }.
Definition rests (w : @world RNum BH) (b : id) : Prop := exists p v, motion_at w b = Some (p, v) /\ resting v.
Hypothesis T : tame (N := RNum).
Hypothesis HP : planting.
Lemma structure_anchored w b : reachable w -> structure w b -> anchored b w.
Proof.
  intros R H c x E. destruct (st_con _ _ H c x E) as [A0 A1]. pose proof (history_firm T w R c x E) as F.
  assert (X : c_b0 x = b -> c_b1 x <> b).
  { intros Eb. destruct (A0 Eb) as [Hm _]. destruct F as [F|[F _]]; [|congruence]. rewrite (zero_true _ Hm) in F. discriminate. }
  split; intros Eb; (split; [auto; intros Eb'; exact (X Eb' Eb)|auto]).
Qed.
Theorem step_structure strict fuel o (dt : R) w w' b : reachable w -> shuffles o -> (length (w_bodies w) <= fuel)%nat -> 0 < dt -> step strict fuel o (dt : @K RNum) w = Ok tt w' ->
  structure w b -> In b (w_bodies w') ->
  structure w' b /\ (rests w b -> motion_at w' b = motion_at w b) /\
  forall act, steady (N := RNum) act -> still (N := RNum) -> massless w -> motion_at w' b = option_map (drifted (N := RNum) dt) (motion_at w b).
Proof.
  intros HR Hs HF Hdt E ST Hb. assert (Hdt' : @kltb RNum (@k0 RNum) dt = true) by (unfold k0; cbn [kltb kofZ RNum]; destruct (Rltb_spec 0 dt); [reflexivity|contradiction]).
  apply (refines_ok _ _ _ _ _ (rf_step strict fuel o dt)) in E. destruct (reachable_sound T w HR) as ((HS & HI & G) & NT & KL).
  pose proof (step_ok T fuel o dt w Hs G HS HI HF) as H. unfold wp in H. rewrite E in H. destruct H as (HS' & HI' & [(w1 & w2 & PH)]). rewrite Hdt' in PH.
  destruct PH as (E1 & S1 & I1 & CL & E2 & S2 & I2 & RS & w3 & w4 & E3 & S3 & I3 & PU & E4 & S4 & Q4 & Sm & K4 & L4 & E5 & U).
  destruct (restated_same _ _ RS) as (C2 & K2 & EB & EL). destruct PU as (C3 & K3 & EC & _ & PK).
  pose proof (structure_anchored w b HR ST) as AN. destruct ST as [(y & Ey & D & CO) _].
  (* the body and its constraints when the islands are solved *)
  assert (Hb3 : In b (w_bodies w3)) by (rewrite (u_bodies _ _ _ U), (sa_bodies _ _ Sm) in Hb; exact Hb).
  pose proof Hb3 as Hb2. rewrite (sa_bodies _ _ (proj1 C3)) in Hb2.
  apply (i_bodies _ S2) in Hb2. destruct Hb2 as [y2 Ey2]. pose proof Ey2 as Ey1. rewrite EB in Ey1.
  assert (M2 : same_motion (wb y) (wb y2)).
  { rewrite (cl_b _ _ _ CL) in Ey1. destruct (bdead _ _ _); [discriminate|]. rewrite Ey in Ey1. cbn in Ey1. injection Ey1 as <-. cbn. unfold roused. destruct (touched _ _ _); repeat split. }
  assert (Ey3 : w_bh w3 b = Some y2).
  { apply (PK b y2 Ey2). apply orb_true_iff. right. unfold b_structural. apply zero_true. rewrite (proj2 (proj2 (proj2 (proj2 (proj2 M2))))). exact D. }
  assert (M3 : motion_at w3 b = motion_at w b) by (eapply motion_moved; eassumption).
  assert (D3 : b_dominance (wb y2) = 0) by (rewrite (proj2 (proj2 (proj2 (proj2 (proj2 M2))))); exact D).
  assert (CN : forall c x, w_ch w3 c = Some x -> exists x0, w_ch w c = Some x0 /\ con_same x0 x).
  { intros c x Ex. rewrite EC in Ex. destruct (hrel_some' _ _ _ _ _ (sa_c _ _ (proj1 C2)) Ex) as (x1 & Ex1 & CS1). rewrite (cl_c _ _ _ CL) in Ex1. destruct (cdead (o_die o) w c); [discriminate|]. eauto. }
  assert (AN3 : anchored b w3).
  { intros c x Ex. destruct (CN c x Ex) as (x0 & Ex0 & CS0). unfold anchors. rewrite (cs_b0 _ _ CS0), (cs_b1 _ _ CS0), (cs_m0 _ _ CS0), (cs_m1 _ _ CS0), (cs_I0 _ _ CS0), (cs_I1 _ _ CS0). apply (AN c x0 Ex0). }
  assert (F3 : (length (w_bodies w3) <= fuel)%nat).
  { rewrite (sa_bodies _ _ (proj1 C3)), (sa_bodies _ _ (proj1 C2)), (cl_bodies _ _ _ CL). pose proof (filter_le (fun b => negb (bdead (o_die o) w b)) (w_bodies w)). lia. }
  assert (Mw : motion_at w b = Some (b_pos (wb y), vel_of (wb y))) by (apply motion_some, Ey).
  (* after the islands *)
  pose proof (hrel_some _ _ _ _ _ (sa_b _ _ Sm) Ey3) as (y4 & Ey4 & BS4).
  assert (PN4 : pinned b w4).
  { split; [|eapply anchored_same; eassumption]. intros z Ez. rewrite Ey4 in Ez. injection Ez as <-. rewrite (bs_dom _ _ BS4). exact D3. }
  pose proof (frame_ok _ _ _ _ _ (pins_update b o dt) E5 PN4) as [PD' PA'].
  apply (i_bodies _ HS') in Hb. destruct Hb as [y' Ey']. destruct (u_body _ _ _ U b y' Ey') as (y4' & E4' & M & _).
  assert (MO : motion_at w' b = motion_at w4 b) by (eapply motion_moved; eassumption).
  assert (RG : rests w b -> motion_at w' b = motion_at w b).
  { intros (p & v & Hm & Hr). pose proof Hm as Hm'. rewrite Mw in Hm'. injection Hm' as Ep Ev.
    pose proof (islands_ground T HP b fuel fuel (w_set w3) dt w3 p v S3 (idle_quiet _ I3) AN3 ltac:(congruence) ltac:(rewrite <- Ep; exact CO) Hr F3 F3) as H. unfold wp in H. rewrite E4 in H. congruence. }
  assert (CO' : coherent (b_pos (wb y'))).
  { pose proof (islands_coherent T HP b fuel fuel (w_set w3) dt w3 _ _ S3 (idle_quiet _ I3) AN3 (eq_trans M3 Mw) CO F3 F3) as H. unfold wp in H. rewrite E4 in H. destruct H as (p' & v' & Hm & Hc). rewrite <- MO, (motion_some _ _ _ Ey') in Hm. injection Hm as -> _. exact Hc. }
  split; [|split; [exact RG|]].
  - constructor; [exists y'; split; [exact Ey'|]; split; [apply PD', Ey'|exact CO']|]. intros c x Ex. destruct (PA' c x Ex) as [A0 A1]. split; intros Eb; [apply (A0 Eb)|apply (A1 Eb)].
  - intros act Ha Hst HM. assert (HM' : massless w3).
    { intros c x Ex. destruct (CN c x Ex) as (x0 & Ex0 & CS0). destruct (HM c x0 Ex0) as (A0 & A1 & A2). rewrite (cs_b0 _ _ CS0), (cs_b1 _ _ CS0), (cs_m0 _ _ CS0), (cs_I0 _ _ CS0), (cs_m1 _ _ CS0), (cs_I1 _ _ CS0). auto. }
    pose proof (islands_platform T HP b act Ha Hst w3 S3 HM' _ _ (eq_trans M3 Mw) CO AN3 fuel fuel (w_set w3) dt (idle_quiet _ I3) Hb3 F3 F3) as H. unfold wp in H. rewrite E4 in H. rewrite MO, H, Mw. reflexivity.
Qed.
(** any number of steps, each with its own time step, deaths, regions and pairs *)
Inductive stepping : @world RNum BH -> @world RNum BH -> Prop :=
| stepping_none w : stepping w w
| stepping_more w w1 w2 strict fuel o (dt : R) : stepping w w1 -> shuffles o -> (length (w_bodies w1) <= fuel)%nat -> 0 < dt -> step strict fuel o (dt : @K RNum) w1 = Ok tt w2 -> stepping w w2.
Lemma stepping_reach w w' : reachable w -> stepping w w' -> reachable w'.
Proof. intros R H. induction H as [|w w1 w2 strict fuel o dt H IH Hs HF Hdt E]; [exact R|]. eapply reachable_op; [exact (IH R)|]. eapply op_step; eassumption. Qed.
Theorem stepping_structure w w' b : reachable w -> stepping w w' -> structure w b -> In b (w_bodies w') -> structure w' b /\ (rests w b -> motion_at w' b = motion_at w b).
Proof.
  intros R H ST. induction H as [w|w w1 w2 strict fuel o dt H IH Hs HF Hdt E]; intros Hb; [auto|].
  pose proof (stepping_reach _ _ R H) as R1.
  assert (Hb1 : In b (w_bodies w1)).
  { assert (Hdt' : @kltb RNum (@k0 RNum) dt = true) by (unfold k0; cbn [kltb kofZ RNum]; destruct (Rltb_spec 0 dt); [reflexivity|contradiction]).
    destruct (reachable_sound T w1 R1) as ((HS & _) & _). destruct (step_stages T strict fuel o dt w1 w2 R1 Hs HF Hdt' E) as (wm & wn & SG). pose proof Hb as Hb'. rewrite (sg_bodies _ _ _ _ _ _ _ SG) in Hb'.
    apply (i_bodies _ (sg_sinv _ _ _ _ _ _ _ SG)) in Hb'. destruct Hb' as [ym Em]. destruct (sg_props _ _ _ _ _ _ _ SG b ym Em) as (y & Ey & _). apply (i_bodies _ HS). eauto. }
  destruct (IH R ST Hb1) as [ST1 RE]. destruct (step_structure strict fuel o dt w1 w2 b R1 Hs HF Hdt E ST1 Hb) as (ST2 & RE2 & _). split; [exact ST2|]. intros HRs. rewrite RE2; [apply RE, HRs|].
  destruct HRs as (p & v & Hm & Hr). exists p, v. split; [rewrite RE by (exists p, v; auto); exact Hm|exact Hr].
Qed.
End Step.

(** ** The constraints of the library *)
Section LibGround.
Context {TR : Trig RNum}.
Local Existing Instance LibB.
Lemma plants_P (px : Rprox) P s s' : apply_P px P s = Ret s' -> plants px s s'.
Proof.
  unfold apply_P, proxy_incrementVel. intros E NE. apply ret_bind in E. destruct E as (s1 & E1 & E2). unfold proxy_setVelocity in E1, E2.
  destruct (_ && _ && _) in E1; [|discriminate]. injection E1 as <-. destruct (_ && _ && _) in E2; [|discriminate]. injection E2 as <-. unfold planted_end. cbn [s_vel s_pos].
  unfold set_at. rewrite !Nat.eqb_refl, (proj2 (Nat.eqb_neq (px_i0 px) (px_i1 px))), (proj2 (Nat.eqb_neq (px_i1 px) (px_i0 px))) by congruence.
  split; intros M0 J0 _; (split; [reflexivity|]); [destruct (s_vel s (px_i0 px)) as [[a b] c]|destruct (s_vel s (px_i1 px)) as [[a b] c]]; cbn; rewrite M0, J0; f_equal; try (unfold vadd, vscale; cbn; f_equal); rring.
Qed.
Lemma plants_C (px : Rprox) P s s' : apply_C px P s = Ret s' -> plants px s s'.
Proof.
  intros E NE. pose proof (C_vel px TR P s s' E) as EV. unfold apply_C in E. apply ret_bind in E. destruct E as (s2 & E1 & E2). unfold proxy_advancePos in E1, E2. cbv zeta in E1, E2.
  destruct (_ && _ && _) in E1; [|discriminate]. injection E1 as <-. destruct (_ && _ && _) in E2; [|discriminate]. injection E2 as <-. unfold planted_end. cbn [s_vel s_pos].
  unfold set_at. rewrite !Nat.eqb_refl, (proj2 (Nat.eqb_neq (px_i0 px) (px_i1 px))), (proj2 (Nat.eqb_neq (px_i1 px) (px_i0 px))) by congruence.
  split; intros M0 J0 HC; (split; [|reflexivity]); apply advance_zero; auto; cbn; rewrite ?M0, ?J0; ring.
Qed.
Lemma plants_update b f (px : Rprox) s dt d b' s' : update_lambda b f px s dt d = Ret (b', s') -> plants px s s'.
Proof. unfold update_lambda. cbv zeta. intros E. apply ret_bind in E. destruct E as (s1 & E1 & E). injection E as _ <-. eapply plants_P, E1. Qed.
Lemma plants_refl (px : Rprox) s : plants px s s.
Proof. intros NE. split; intros _ _ _; auto. Qed.
Lemma plants_vel c (px : Rprox) s c' s' : ct_velocities c px s = Ret (c', s') -> plants px s s'.
Proof.
  unfold ct_velocities. destruct (friction_all _ _ _ _ _ _) as [tl v] eqn:EF. apply frozen_friction in EF. intros E. apply ret_bind in E. destruct E as ([nl v'] & E1 & E).
  assert (FZ : frozen px (px_velocity px s) v').
  { eapply frozen_trans; [exact EF|]. destruct (Nat.eqb _ 1).
    - destruct (ct_mem c); try discriminate. injection E1 as _ <-. apply frozen_add.
    - destruct (Nat.eqb _ 2); [|injection E1 as _ <-; intros k _; reflexivity]. destruct (ct_mem c); try discriminate. apply ret_bind in E1. destruct E1 as (x & _ & E1). injection E1 as _ <-. apply frozen_add. }
  apply ret_bind in E. destruct E as (s1 & E2 & E). apply ret_bind in E. destruct E as (s2 & E3 & E). injection E as _ <-. unfold proxy_setVelocity in E2, E3.
  destruct (_ && _ && _) in E2; [|discriminate]. injection E2 as <-. destruct (_ && _ && _) in E3; [|discriminate]. injection E3 as <-. intros NE. unfold planted_end. cbn [s_vel s_pos].
  unfold set_at. rewrite !Nat.eqb_refl, (proj2 (Nat.eqb_neq (px_i0 px) (px_i1 px))) by congruence. split; intros M0 J0 _; (split; [reflexivity|]).
  - rewrite (FZ 0%nat M0), (FZ 1%nat M0), (FZ 2%nat J0). cbn. destruct (s_vel s (px_i0 px)) as [[a b] d]. reflexivity.
  - rewrite (FZ 3%nat M0), (FZ 4%nat M0), (FZ 5%nat J0). cbn. destruct (s_vel s (px_i1 px)) as [[a b] d]. reflexivity.
Qed.
Lemma plants_pos c (px : Rprox) s c' s' : ct_positions c px s = Ret (c', s') -> plants px s s'.
Proof.
  unfold ct_positions. cbv zeta. set (c1 := ct_Ks _ _ _). destruct (_ && _); [intros E; injection E as _ <-; apply plants_refl|].
  destruct (Nat.eqb _ 1); [destruct (ct_mem c1); try discriminate; intros E; apply ret_bind in E; destruct E as (s1 & E1 & E); injection E as _ <-; eapply plants_C, E1|].
  destruct (Nat.eqb _ 2); [destruct (ct_mem c1); try discriminate; intros E; apply ret_bind in E; destruct E as (x & _ & E); apply ret_bind in E; destruct E as (s1 & E1 & E); injection E as _ <-; eapply plants_C, E1|].
  intros E. injection E as _ <-. apply plants_refl.
Qed.
Theorem lib_planting : planting (BH := LibB).
Proof.
  constructor.
  - intros [f e|c] px s dt st' s' E; cbv beta iota delta [bh_warm bh_vel bh_pos LibB lib_warm lib_vel lib_pos] in E; apply ret_bind in E; destruct E as ([r s1] & E1 & E); injection E as _ <-.
    + unfold eq_warmstart, warmstart_default in E1. apply ret_bind in E1. destruct E1 as ([b s2] & E1 & E2). injection E2 as _ <-. eapply plants_update, E1.
    + unfold ct_warmstart in E1. cbv zeta in E1. apply ret_bind in E1. destruct E1 as (s2 & E1 & E2). injection E2 as _ <-. eapply plants_P, E1.
  - intros [f e|c] px s dt st' s' E; cbv beta iota delta [bh_warm bh_vel bh_pos LibB lib_warm lib_vel lib_pos] in E.
    + apply ret_bind in E; destruct E as ([r s1] & E1 & E); injection E as _ <-. unfold eq_velocity in E1. apply ret_bind in E1. destruct E1 as (d & _ & E1). apply ret_bind in E1. destruct E1 as ([b s2] & E1 & E2). injection E2 as _ <-. eapply plants_update, E1.
    + destruct (held c); [|discriminate]. apply ret_bind in E; destruct E as ([r s1] & E1 & E); injection E as _ <-. eapply plants_vel, E1.
  - intros [f e|c] px s st' s' E; cbv beta iota delta [bh_warm bh_vel bh_pos LibB lib_warm lib_vel lib_pos] in E; apply ret_bind in E; destruct E as ([r s1] & E1 & E); injection E as _ <-; cbn [snd].
    + unfold eq_position in E1. cbv zeta in E1. destruct (compute_K (es_base e) f px s false). apply ret_bind in E1. destruct E1 as (l & _ & E1). apply ret_bind in E1. destruct E1 as (s2 & E1 & E2). injection E2 as _ <-. eapply plants_C, E1.
    + eapply plants_pos, E1.
Qed.
Theorem lib_ground (w w' : @world RNum LibB) b : reachable w -> stepping w w' -> structure w b -> In b (w_bodies w') -> structure w' b /\ (rests w b -> motion_at w' b = motion_at w b).
Proof. apply stepping_structure; [exact lib_tame|exact lib_planting]. Qed.
Theorem lib_platform strict fuel o (dt : R) (w w' : @world RNum LibB) b : reachable w -> weighty w -> shuffles o -> (length (w_bodies w) <= fuel)%nat -> 0 < dt -> step strict fuel o (dt : @K RNum) w = Ok tt w' ->
  structure w b -> In b (w_bodies w') -> exists p v, motion_at w b = Some (p, v) /\ motion_at w' b = Some (pos_advance p (vscale (N := RNum) dt (v_lin v)) (v_ang v * dt), v).
Proof.
  intros R HW Hs HF Hdt E ST Hb. destruct (step_structure lib_tame lib_planting strict fuel o dt w w' b R Hs HF Hdt E ST Hb) as (_ & _ & H).
  rewrite (H lib_act lib_steady (lib_still TR) (weighty_massless lib_tame w R HW)). destruct (st_body _ _ ST) as (y & Ey & _). rewrite (motion_some _ _ _ Ey). eexists _, _. split; reflexivity.
Qed.
End LibGround.
