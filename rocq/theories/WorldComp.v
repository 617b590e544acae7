(** The islands of a step are the connected components of the active constraints. *)
From Coq Require Import ZArith List Bool Lia Permutation.
From Verif Require Import Num Outcome Box Mat Geom Transform Body Constraint World WorldHoare WorldInv WorldFrame WorldIsland WorldSolve.
Import ListNotations.

Section Comp.
Context {N : Num} {TR : Trig N} {BH : Behaviour N}.
Local Open Scope num_scope.

(** ** Specification *)
(** a body at rest which every constraint and contact attached to it treats as
    having infinite mass *)
Definition fixed (w : world) (b : id) : Prop :=
  exists y, w_bh w b = Some y /\ at_rest (wb y) = true /\
    forall c x, w_ch w c = Some x -> (c_b0 x = b -> (c_m0 x =? k0) = true) /\ (c_b1 x = b -> c_b0 x <> b -> (c_m1 x =? k0) = true).
(** reached from [root] through active constraints, never beyond a fixed body *)
Inductive reach (act : CS -> bool) (w : world) (root : id) : id -> Prop :=
| reach_root : reach act w root root
| reach_link a b c x : reach act w root a -> ~ fixed w a -> w_ch w c = Some x -> act (c_st x) = true ->
    a = c_b0 x \/ a = c_b1 x -> b = c_b0 x \/ b = c_b1 x -> reach act w root b.
(** the constraints ask to be solved by their own state alone, which solving keeps *)
Record steady (act : CS -> bool) : Prop := {
  st_active : forall st px s st' a, bh_active st px s = Ret (st', a) -> a = act st /\ act st' = act st;
  st_init : forall st px s st', bh_init st px s = Ret st' -> act st' = act st;
  st_warm : forall st px s dt st' s', bh_warm st px s dt = Ret (st', s') -> act st' = act st;
  st_vel : forall st px s dt st' s', bh_vel st px s dt = Ret (st', s') -> act st' = act st;
  st_pos : forall st px s st' s', bh_pos st px s = Ret (st', s') -> act st' = act st }.
Definition rest (v : velocity) : bool := (vx (v_lin v) =? k0) && (vy (v_lin v) =? k0) && (v_ang v =? k0).
(** a resting body whose inverse mass and inertia are zero is left at rest *)
Definition still_fun (f : CS -> proxies -> store -> outcome (CS * store)) : Prop :=
  forall st px s st' s', f st px s = Ret (st', s') ->
    ((px_m0 px =? k0) = true -> (px_I0 px =? k0) = true -> px_i1 px <> px_i0 px -> rest (s_vel s (px_i0 px)) = true -> rest (s_vel s' (px_i0 px)) = true) /\
    ((px_m1 px =? k0) = true -> (px_I1 px =? k0) = true -> px_i1 px <> px_i0 px -> rest (s_vel s (px_i1 px)) = true -> rest (s_vel s' (px_i1 px)) = true).
Record still : Prop := {
  sl_warm : forall dt, still_fun (fun st px s => bh_warm st px s dt); sl_vel : forall dt, still_fun (fun st px s => bh_vel st px s dt); sl_pos : still_fun bh_pos }.
(** a constraint which gives a body infinite mass gives it infinite inertia, and
    is not a constraint of that body alone *)
Definition massless (w : world) : Prop :=
  forall c x, w_ch w c = Some x -> ((c_m0 x =? k0) = true -> (c_I0 x =? k0) = true) /\ ((c_m1 x =? k0) = true -> (c_I1 x =? k0) = true) /\ (c_b0 x = c_b1 x -> (c_m0 x =? k0) = false).

(** an island as reported by the event [Solved] *)
Record isl := IS { i_bs : list id; i_cs_ : list id; i_cts_ : list id }.
Definition event_of (i : isl) : event := Solved (i_bs i) (i_cs_ i) (i_cts_ i).
Record component (act : CS -> bool) (w : world) (i : isl) : Prop := {
  cp_nd : NoDup (i_bs i); cp_cnd : NoDup (i_cs_ i ++ i_cts_ i);
  cp_root : exists root, In root (w_bodies w) /\ forall b, In b (i_bs i) <-> reach act w root b;
  cp_cons : forall c, In c (i_cs_ i ++ i_cts_ i) <-> exists x b, w_ch w c = Some x /\ act (c_st x) = true /\ (b = c_b0 x \/ b = c_b1 x) /\ In b (i_bs i) /\ ~ fixed w b;
  cp_ends : forall c x, In c (i_cs_ i ++ i_cts_ i) -> w_ch w c = Some x -> In (c_b0 x) (i_bs i) /\ In (c_b1 x) (i_bs i);
  cp_kind : incl (i_cs_ i) (w_cons w) /\ incl (i_cts_ i) (map e_con (w_cts w)) }.

(** ** fixedb computes fixed *)
Lemma link_of w b y c x : SInv w -> w_bh w b = Some y -> w_ch w c = Some x -> In b (con_bodies x) -> In c (wb_cs y ++ wb_cts y).
Proof.
  intros S Ey Ex Hb. assert (Hc : In c (w_cons w ++ map e_con (w_cts w))) by (apply (i_cons _ S); eauto).
  apply in_app_iff in Hc. apply in_app_iff. destruct Hc as [Hc|Hc]; [left; apply (i_cs _ S b y Ey)|right; apply (i_cts _ S b y Ey)]; eauto.
Qed.
Lemma fixedb_fixed w b : SInv w -> (fixedb w b = true <-> fixed w b).
Proof.
  intros S. unfold fixedb, fixed. destruct (w_bh w b) as [y|] eqn:Ey; [|split; [discriminate|intros (y & E & _); discriminate]].
  rewrite andb_true_iff, forallb_forall. split.
  - intros [HR HS]. exists y. split; [reflexivity|]. split; [exact HR|]. intros c x Ex.
    assert (HB : In b (con_bodies x) -> struct_in w b c = true) by (intros Hb; apply HS; eapply link_of; eassumption).
    unfold struct_in in HB. rewrite Ex in HB. unfold structural_in in HB. rewrite in_bodies in HB. split.
    + intros <-. rewrite Nat.eqb_refl in HB. apply HB. auto.
    + intros <- ne. destruct (Nat.eqb_spec (c_b1 x) (c_b0 x)) as [e|_]; [congruence|]. rewrite Nat.eqb_refl in HB. apply HB. auto.
  - intros (y' & E & HR & HS). injection E as <-. split; [exact HR|]. intros c Hc.
    assert (HX : exists x, w_ch w c = Some x /\ In b (con_bodies x)).
    { apply in_app_iff in Hc. destruct Hc as [Hc|Hc]; [apply (i_cs _ S b y Ey) in Hc|apply (i_cts _ S b y Ey) in Hc]; apply Hc. }
    destruct HX as (x & Ex & Hb). unfold struct_in. rewrite Ex. apply in_bodies in Hb. destruct (HS c x Ex) as [H0 H1]. unfold structural_in.
    destruct (Nat.eqb_spec b (c_b0 x)) as [->|n]; [apply H0; reflexivity|]. destruct Hb as [Hb|Hb]; [congruence|]. rewrite <- Hb, Nat.eqb_refl. apply H1; congruence.
Qed.
Lemma fixedb_not w b : SInv w -> (fixedb w b = false <-> ~ fixed w b).
Proof. intros S. rewrite <- (fixedb_fixed w b S). destruct (fixedb w b); split; congruence. Qed.
Lemma struct_same w w' r c : same w w' -> struct_in w' r c = struct_in w r c.
Proof.
  intros S. unfold struct_in. pose proof (sa_c _ _ S c) as H. destruct (w_ch w c) as [x|], (w_ch w' c) as [x'|]; try contradiction; [|reflexivity].
  unfold structural_in. rewrite (cs_b0 _ _ H), (cs_b1 _ _ H), (cs_m0 _ _ H), (cs_m1 _ _ H). reflexivity.
Qed.
Lemma fixedb_same w w' b : same w w' -> (forall y y', w_bh w b = Some y -> w_bh w' b = Some y' -> at_rest (wb y') = at_rest (wb y)) -> fixedb w' b = fixedb w b.
Proof.
  intros S H. unfold fixedb. pose proof (sa_b _ _ S b) as HB. destruct (w_bh w b) as [y|], (w_bh w' b) as [y'|]; try contradiction; [|reflexivity].
  rewrite (H y y' eq_refl eq_refl), (bs_cs _ _ HB), (bs_cts _ _ HB). f_equal. induction (wb_cs y ++ wb_cts y) as [|c l IH]; cbn; [reflexivity|]. rewrite (struct_same _ _ _ _ S), IH. reflexivity.
Qed.
Lemma fixedb_kept w w' b : same w w' -> kept w w' -> fixedb w' b = fixedb w b.
Proof.
  intros S Kp. apply fixedb_same; [exact S|]. intros y y' E E'. specialize (Kp b). rewrite E, E' in Kp. injection Kp as ->. reflexivity.
Qed.

(** ** Growing one island *)
Hypothesis T : tame.
Variable act : CS -> bool.
Hypothesis Hst : steady act.
Hypothesis Hsl : still.
Variable w0 : world.
Hypothesis S0 : SInv w0.
Hypothesis M0 : massless w0.

Definition acts (w : world) : Prop := forall c, option_map (fun x => act (c_st x)) (w_ch w c) = option_map (fun x => act (c_st x)) (w_ch w0 c).
Lemma acts_con w c x0 : acts w -> w_ch w0 c = Some x0 -> exists x, w_ch w c = Some x /\ act (c_st x) = act (c_st x0).
Proof. intros H E. specialize (H c). rewrite E in H. destruct (w_ch w c) as [x|]; [|discriminate]. injection H as H. eauto. Qed.
Lemma acts_con' w c x : acts w -> w_ch w c = Some x -> exists x0, w_ch w0 c = Some x0 /\ act (c_st x) = act (c_st x0).
Proof. intros H E. specialize (H c). rewrite E in H. destruct (w_ch w0 c) as [x0|]; [|discriminate]. injection H as H. eauto. Qed.
Lemma same_ends w c x x0 : same w0 w -> w_ch w0 c = Some x0 -> w_ch w c = Some x -> c_b0 x = c_b0 x0 /\ c_b1 x = c_b1 x0.
Proof. intros S E E'. pose proof (sa_c _ _ S c) as H. rewrite E, E' in H. split; [apply (cs_b0 _ _ H)|apply (cs_b1 _ _ H)]. Qed.

Section One.
Variable w : world.            (* the state in which the island is started *)
Variable root : id.
Hypothesis Sm : same w0 w.
Hypothesis Ac : acts w.
Hypothesis HD : forall b, reach act w0 root b -> fixedb w b = fixedb w0 b.

Record GY (cur : nat) (il : island) (w1 : world) : Prop := {
  gy_same : same w w1; gy_kept : kept w w1; gy_acts : acts w1; gy_log : w_log w1 = w_log w;
  gy_root : In root (is_bodies il);
  gy_reach : forall b, In b (is_bodies il) -> reach act w0 root b;
  gy_done : forall i b c x, i < cur -> nth_error (is_bodies il) i = Some b -> fixedb w0 b = false -> w_ch w0 c = Some x -> In b (con_bodies x) -> act (c_st x) = true -> In c (all_of il);
  gy_cons : forall c, In c (all_of il) -> exists x b, w_ch w0 c = Some x /\ act (c_st x) = true /\ In b (con_bodies x) /\ In b (is_bodies il) /\ fixedb w0 b = false;
  gy_kind : incl (is_cons il) (w_cons w0) /\ incl (is_cts il) (map e_con (w_cts w0)) }.
Record GX (cur : nat) (r : id) (d : list id) (il : island) (w1 : world) : Prop := {
  gx_y : GY cur il w1; gx_at : nth_error (is_bodies il) cur = Some r; gx_free : fixedb w0 r = false;
  gx_d : forall c x, In c d -> w_ch w0 c = Some x -> act (c_st x) = true -> In c (all_of il) }.
Lemma GX_start : forall cur r il w1, base il w1 -> GY cur il w1 -> nth_error (is_bodies il) cur = Some r -> fixedb w1 r = false -> GX cur r [] il w1.
Proof.
  intros cur r il w1 B Y En EF. constructor; auto; [|intros c x []].
  rewrite (fixedb_kept _ _ _ (gy_same _ _ _ Y) (gy_kept _ _ _ Y)) in EF. rewrite <- HD; [exact EF|]. apply (gy_reach _ _ _ Y). eapply nth_error_In; eassumption.
Qed.
Lemma GY_fixed : forall cur r il w1, base il w1 -> GY cur il w1 -> nth_error (is_bodies il) cur = Some r -> fixedb w1 r = true -> GY (S cur) il w1.
Proof.
  intros cur r il w1 B Y En EF. destruct Y as [Y1 Y2 Y3 Y4 Y5 Y6 Y7 Y8 Y9]. constructor; auto. intros i b c x Hi Hb Hf.
  destruct (Nat.eq_dec i cur) as [->|n]; [|apply (Y7 i b c x); auto; lia]. exfalso. assert (b = r) by congruence. subst b.
  rewrite (fixedb_kept _ _ _ Y1 Y2), HD in EF by (apply Y6; eapply nth_error_In; eassumption). congruence.
Qed.
Lemma GX_end : forall cur r y il w1, base il w1 -> w_bh w1 r = Some y -> GX cur r (wb_cs y ++ wb_cts y) il w1 -> GY (S cur) il w1.
Proof.
  intros cur r y il w1 B Ey [[Y1 Y2 Y3 Y4 Y5 Y6 Y7 Y8 Y9] X1 X2 X3]. constructor; auto. intros i b c x Hi Hb Hf Ex Hin Ha.
  destruct (Nat.eq_dec i cur) as [->|n]; [|apply (Y7 i b c x); auto; lia]. assert (b = r) by congruence. subst b.
  apply (X3 c x); auto. pose proof (same_trans _ _ _ Sm Y1) as S1. pose proof (sa_b _ _ S1 r) as HB. rewrite Ey in HB. destruct (w_bh w0 r) as [y0|] eqn:E0; [|contradiction].
  rewrite (bs_cs _ _ HB), (bs_cts _ _ HB). eapply link_of; eassumption.
Qed.
Lemma GX_step : forall cur r d c contact il w1 il' w2 x v new, base il w1 -> GX cur r d il w1 -> w_ch w1 c = Some x -> In r (con_bodies x) ->
  In c (if contact : bool then map e_con (w_cts w1) else w_cons w1) -> added contact il il' w1 w2 c x v new -> GX cur r (d ++ [c]) il' w2.
Proof.
  intros cur r d c contact il w1 il' w2 x v new B [[Y1 Y2 Y3 Y4 Y5 Y6 Y7 Y8 Y9] X1 X2 X3] Ex Hr Hm A.
  pose proof (same_trans _ _ _ Sm Y1) as S1. pose proof (added_all _ _ _ _ _ _ _ _ _ A) as AA.
  destruct (acts_con' _ _ _ Y3 Ex) as (x0 & E0 & Ea0). destruct (same_ends _ _ _ _ S1 E0 Ex) as [Eb0 Eb1].
  assert (CB : con_bodies x = con_bodies x0) by (unfold con_bodies; rewrite Eb0, Eb1; reflexivity).
  assert (Hmono : forall e, In e (all_of il) -> In e (all_of il')) by (intros e He; apply AA; auto).
  assert (HV : v = Found true -> act (c_st x0) = true).
  { intros ->. pose proof (a_case _ _ _ _ _ _ _ _ _ A) as (_ & (px & s & st & x' & Hb & _) & _). apply (st_active _ Hst) in Hb. destruct Hb as [Hb _]. congruence. }
  assert (HN : forall b, In b new -> reach act w0 root b).
  { intros b Hb. pose proof (a_new _ _ _ _ _ _ _ _ _ A b Hb) as Hb'. rewrite Eb0, Eb1 in Hb'.
    eapply (reach_link act w0 root r b c x0); [apply Y6; eapply nth_error_In; eassumption|apply fixedb_not; assumption|exact E0| |rewrite <- in_bodies, <- CB; exact Hr|exact Hb'].
    apply HV. pose proof (a_case _ _ _ _ _ _ _ _ _ A) as Hc. destruct v as [|[]]; [destruct Hc as (_ & _ & _ & ->); destruct Hb|reflexivity|].
    destruct Hc as (_ & _ & _ & _ & Hc). rewrite (proj1 (Hc eq_refl)) in Hb. destruct Hb. }
  assert (Acc : acts w2).
  { intros e. destruct (Nat.eq_dec e c) as [->|ne].
    - pose proof (a_case _ _ _ _ _ _ _ _ _ A) as Hc. destruct v as [|a]; [destruct Hc as (_ & _ & -> & _); apply Y3|].
      destruct Hc as (_ & (px & s & st & x' & Hb & E' & Est) & _). apply (st_active _ Hst) in Hb. rewrite E', E0. cbn. rewrite Est. destruct Hb as [_ ->]. congruence.
    - pose proof (a_but _ _ _ _ _ _ _ _ _ A e ne) as Hb. rewrite <- (Y3 e). destruct (w_ch w2 e), (w_ch w1 e); cbn in *; congruence. }
  constructor; [constructor| | |].
  - eapply same_trans; [exact Y1|apply (a_same _ _ _ _ _ _ _ _ _ A)].
  - eapply kept_trans; [exact Y2|apply (a_kept _ _ _ _ _ _ _ _ _ A)].
  - exact Acc.
  - rewrite (a_log _ _ _ _ _ _ _ _ _ A). exact Y4.
  - rewrite (a_bodies _ _ _ _ _ _ _ _ _ A). apply in_or_app. auto.
  - rewrite (a_bodies _ _ _ _ _ _ _ _ _ A). intros b Hb. apply in_app_iff in Hb. destruct Hb; auto.
  - intros i b e xe Hi Hb Hf Ee Hin Ha. apply Hmono. apply (Y7 i b e xe); auto. rewrite (a_bodies _ _ _ _ _ _ _ _ _ A) in Hb.
    rewrite nth_error_app1 in Hb; [exact Hb|]. assert (cur < length (is_bodies il)) by (apply nth_error_Some; congruence). lia.
  - intros e He. apply AA in He. rewrite (a_bodies _ _ _ _ _ _ _ _ _ A). destruct He as [He|[Hv ->]].
    + destruct (Y8 e He) as (xe & b & P1 & P2 & P3 & P4 & P5). exists xe, b. rewrite in_app_iff. auto 6.
    + exists x0, r. split; [exact E0|]. split; [apply HV, Hv|]. split; [rewrite <- CB; exact Hr|]. split; [|exact X2]. apply in_or_app. left. eapply nth_error_In; eassumption.
  - destruct Y9 as [K1 K2]. pose proof (a_case _ _ _ _ _ _ _ _ _ A) as Hc. destruct v as [|a]; [destruct Hc as (_ & -> & _); auto|]. destruct Hc as (_ & _ & -> & -> & _).
    rewrite (sa_cts _ _ S1), (sa_cons _ _ S1) in Hm. destruct a, contact; cbn [andb negb]; auto; split; auto; intros e He; apply in_snoc in He; destruct He as [He| ->]; auto.
  - rewrite (a_bodies _ _ _ _ _ _ _ _ _ A). rewrite nth_error_app1; [exact X1|]. apply nth_error_Some. congruence.
  - exact X2.
  - intros e xe He Ee Ha. apply in_snoc in He. destruct (Nat.eq_dec e c) as [->|ne]; [|apply Hmono, (X3 e xe); auto; tauto].
    apply AA. pose proof (a_case _ _ _ _ _ _ _ _ _ A) as Hc. destruct v as [|a].
    + left. apply (ii_cpx _ _ (proj2 B) c x Ex). apply Hc.
    + right. split; [|reflexivity]. destruct Hc as (_ & (px & s & st & x' & Hb & _) & _). apply (st_active _ Hst) in Hb. destruct Hb as [-> _]. f_equal. rewrite Ea0. congruence.
Qed.
(** the finished island is a component *)
Lemma GY_component il w1 : In root (w_bodies w0) -> base il w1 -> GY (length (is_bodies il)) il w1 -> component act w0 (IS (is_bodies il) (is_cons il) (is_cts il)).
Proof.
  intros HR [Si I] [Y1 Y2 Y3 Y4 Y5 Y6 Y7 Y8 Y9]. pose proof (same_trans _ _ _ Sm Y1) as S1.
  assert (EN : forall c x, In c (all_of il) -> w_ch w0 c = Some x -> In (c_b0 x) (is_bodies il) /\ In (c_b1 x) (is_bodies il)).
  { intros c x Hc Ex. destruct (ii_clive _ _ I c Hc) as (x1 & E1 & H0 & H1). destruct (same_ends _ _ _ _ S1 Ex E1) as [<- <-]. auto. }
  assert (CL : forall b c x, In b (is_bodies il) -> ~ fixed w0 b -> w_ch w0 c = Some x -> b = c_b0 x \/ b = c_b1 x -> act (c_st x) = true -> In c (all_of il)).
  { intros b c x Hb Hf Ex Hin Ha. destruct (In_nth_error _ _ Hb) as [i Hi]. apply (Y7 i b c x); auto.
    - apply nth_error_Some. congruence.
    - apply fixedb_not; assumption.
    - apply in_bodies. exact Hin. }
  constructor; cbn [i_bs i_cs_ i_cts_].
  - apply (ii_nd _ _ I).
  - apply (ii_cnd _ _ I).
  - exists root. split; [exact HR|]. intros b. split; [apply Y6|]. induction 1 as [|a b c x Hreach IH Hf Ex Ha Hea Heb]; [exact Y5|].
    destruct (EN c x (CL a c x IH Hf Ex Hea Ha) Ex). destruct Heb as [->| ->]; assumption.
  - intros c. split.
    + intros Hc. destruct (Y8 c Hc) as (x & b & P1 & P2 & P3 & P4 & P5). exists x, b. rewrite <- in_bodies. rewrite <- (fixedb_not w0 b S0). auto 6.
    + intros (x & b & P1 & P2 & P3 & P4 & P5). apply (CL b c x); auto.
  - intros c x Hc Ex. apply (EN c x); assumption.
  - exact Y9.
Qed.

(** ** Solving it leaves fixed bodies at rest *)
Definition ZS (il : island) (w1 : world) : Prop :=
  same w0 w1 /\ acts w1 /\ forall n b, nth_error (is_bodies il) n = Some b -> fixedb w0 b = true -> exists v, nth_error (is_vel il) n = Some v /\ rest v = true.
Lemma acts_put w1 c x st : acts w1 -> w_ch w1 c = Some x -> act st = act (c_st x) -> acts (set_ch w1 (put (w_ch w1) c (con_st st x))).
Proof.
  intros H E Ha d. rewrite <- (H d). cbn. unfold put. destruct (Nat.eqb_spec d c) as [->|n]; [|reflexivity]. rewrite E. cbn. congruence.
Qed.
Lemma ZS_init : forall il w1 c u w2, base il w1 -> In c (all_of il) -> ZS il w1 -> call_init il c w1 = Ok u w2 -> ZS il w2.
Proof.
  intros il w1 c u w2 B Hc (Z1 & Z2 & Z3) Eq. pose proof (fs_call_init il c w1) as FR. rewrite Eq in FR.
  split; [eapply same_trans; eassumption|]. split; [|exact Z3].
  destruct (get_proxies_spec il c w1 B Hc) as (px & x & EP & E & _ & H0 & H1 & _). unfold call_init, bind in Eq. rewrite EP in Eq. unfold con_at, deref in Eq. rewrite E in Eq.
  unfold lift in Eq. destruct (view il px); try discriminate. destruct (bh_init (c_st x) px a) as [st| | |] eqn:Eb; try discriminate. injection Eq as _ <-.
  apply acts_put; auto. eapply (st_init _ Hst); eassumption.
Qed.
Lemma ZS_call f : (forall st px s st' s', f st px s = Ret (st', s') -> act st' = act st) -> still_fun f -> kept_by ZS f.
Proof.
  intros HA HS il w1 c il' w2 B Hc (Z1 & Z2 & Z3) Eq. pose proof (fs_call f il c w1) as FR. rewrite Eq in FR.
  split; [eapply same_trans; eassumption|].
  destruct (get_proxies_spec il c w1 B Hc) as (px & x & EP & E & _ & H0 & H1 & Q0 & Q1 & Epx). unfold call, bind in Eq. rewrite EP in Eq. unfold con_at, deref in Eq. rewrite E in Eq.
  unfold lift in Eq. destruct (view il px) as [s| | |] eqn:EV; try discriminate. destruct (f (c_st x) px s) as [[st s']| | |] eqn:Eb; try discriminate. cbn [fst snd] in Eq. injection Eq as <- <-.
  split; [apply acts_put; auto; eapply HA; eassumption|]. destruct (HS _ _ _ _ _ Eb) as [HS0 HS1].
  (* velocities as seen through the proxies *)
  assert (SV : forall n v, n = px_i0 px \/ n = px_i1 px -> nth_error (is_vel il) n = Some v -> s_vel s n = v).
  { intros n v Hn Hv. unfold view in EV. destruct (nth_error (is_pos il) (px_i0 px)), (nth_error (is_vel il) (px_i0 px)), (nth_error (is_pos il) (px_i1 px)), (nth_error (is_vel il) (px_i1 px)); try discriminate.
    injection EV as <-. cbn. apply nth_error_nth. exact Hv. }
  pose proof (sa_c _ _ Z1 c) as HC. rewrite E in HC. destruct (w_ch w0 c) as [x0|] eqn:E0; [|contradiction]. destruct (M0 c x0 E0) as (MA & MB & MC).
  assert (PM : px_m0 px = c_m0 x0 /\ px_I0 px = c_I0 x0 /\ px_m1 px = c_m1 x0 /\ px_I1 px = c_I1 x0).
  { rewrite Epx. cbn. rewrite (cs_m0 _ _ HC), (cs_I0 _ _ HC), (cs_m1 _ _ HC), (cs_I1 _ _ HC). auto. }
  destruct PM as (PM0 & PI0 & PM1 & PI1). rewrite PM0, PI0 in HS0. rewrite PM1, PI1 in HS1. rewrite (cs_b0 _ _ HC) in Q0. rewrite (cs_b1 _ _ HC) in Q1.
  intros n b Hn Hf. cbn [write is_bodies is_vel] in *. destruct (Z3 n b Hn Hf) as (v & Hv & Hrest).
  assert (FX : fixed w0 b) by (apply fixedb_fixed; assumption). destruct FX as (y & Ey & _ & HFX). destruct (HFX c x0 E0) as [F0 F1].
  assert (Hlt : n < length (is_vel il)) by (apply nth_error_Some; congruence).
  destruct (Nat.eq_dec n (px_i1 px)) as [e1|n1].
  - subst n. rewrite upd_nth_same by (rewrite upd_nth_length; exact Hlt). exists (s_vel s' (px_i1 px)). split; [reflexivity|].
    assert (Eb1 : c_b1 x0 = b) by congruence. destruct (Nat.eq_dec (px_i1 px) (px_i0 px)) as [ee|ne].
    + assert (Eb0 : c_b0 x0 = b) by congruence. exfalso. rewrite MC in F0 by congruence. specialize (F0 Eb0). discriminate.
    + assert (Eb0 : c_b0 x0 <> b).
      { intros Eb0. apply ne. apply (proj1 (NoDup_nth_error (is_bodies il)) (ii_nd _ _ (proj2 B))); [exact H1|congruence]. }
      apply HS1; auto. rewrite (SV _ v (or_intror eq_refl) Hv). exact Hrest.
  - rewrite upd_nth_other by exact n1. destruct (Nat.eq_dec n (px_i0 px)) as [e0|n0].
    + subst n. rewrite upd_nth_same by exact Hlt. exists (s_vel s' (px_i0 px)). split; [reflexivity|]. assert (Eb0 : c_b0 x0 = b) by congruence.
      apply HS0; auto. rewrite (SV _ v (or_introl eq_refl) Hv). exact Hrest.
    + rewrite upd_nth_other by exact n0. eauto.
Qed.
Lemma ZS_integrate dt il w1 : base il w1 -> ZS il w1 -> ZS (integrate dt il) w1.
Proof. intros B H. exact H. Qed.
Lemma ZS_loaded il w1 w2 il' w3 : GY (length (is_bodies il)) il w1 -> woken il w1 w2 -> base il w2 -> same w1 w2 -> solving il il' w2 w3 -> loaded il' w3 -> st_same w2 w3 -> ZS il' w3.
Proof.
  intros Y HW B2 S12 V L Hss. pose proof (same_trans _ _ _ Sm (gy_same _ _ _ Y)) as S1.
  split; [eapply same_trans; [exact S1|]; eapply same_trans; [exact S12|apply (so_same _ _ _ _ V)]|].
  split.
  { intros c. rewrite <- (gy_acts _ _ _ Y c). destruct HW as (<- & _). specialize (Hss c). destruct (w_ch w3 c), (w_ch w2 c); cbn in *; congruence. }
  intros n b Hn Hf. rewrite (so_b _ _ _ _ V) in Hn. assert (Hb : In b (is_bodies il)) by (eapply nth_error_In; eassumption).
  destruct (ii_live _ _ (proj2 B2) b Hb) as [y2 E2]. destruct (L n b y2) as [_ Hv]; [rewrite (so_b _ _ _ _ V); exact Hn|rewrite (so_bh _ _ _ _ V); exact E2|].
  exists (vel_of (wb y2)). split; [exact Hv|]. change (at_rest (wb y2) = true).
  rewrite <- (HD b (gy_reach _ _ _ Y b Hb)) in Hf. rewrite <- (fixedb_kept _ _ b (gy_same _ _ _ Y) (gy_kept _ _ _ Y)) in Hf.
  unfold fixedb in Hf. destruct HW as (_ & _ & HW). specialize (HW b). rewrite E2 in HW. destruct (w_bh w1 b) as [y1|]; [|discriminate]. apply andb_true_iff in Hf. destruct Hf as [Hf _].
  destruct (is_awake il && _); cbn in HW; injection HW as ->; exact Hf.
Qed.
End One.

(** ** All islands *)
Lemma reach_back i root b : component act w0 i -> reach act w0 root b -> In b (i_bs i) -> ~ fixed w0 b -> In root (i_bs i).
Proof.
  intros C. destruct (cp_root _ _ _ C) as (r & _ & HR). induction 1 as [|a b c x Hreach IH Hf Ex Ha Hea Heb]; intros Hb Hfb; [exact Hb|].
  apply IH; [|exact Hf]. apply HR. apply HR in Hb. eapply reach_link; [exact Hb|exact Hfb|exact Ex|exact Ha|exact Heb|exact Hea].
Qed.
Lemma reach_fixed root b : reach act w0 root b -> fixed w0 root -> b = root.
Proof. intros H HF. induction H as [|a b c x Hreach IH Hf]; [reflexivity|]. subst a. contradiction. Qed.
Definition apart (i j : isl) : Prop := forall b, In b (i_bs i) -> In b (i_bs j) -> fixed w0 b.
Record ZA (todo : list id) (aw : bool) (w : world) : Prop := {
  za_same : same w0 w; za_acts : acts w;
  za_isl : exists L, w_log w = w_log w0 ++ map event_of L /\ Forall (component act w0) L /\ ForallOrdPairs apart L /\
    (forall b, In b todo <-> In b (w_bodies w0) /\ forall i, In i L -> ~ In b (i_bs i)) /\
    (forall b, (exists i, In i L /\ In b (i_bs i) /\ ~ fixed w0 b) \/ fixedb w b = fixedb w0 b) }.
Lemma FOP_snoc {A} (P : A -> A -> Prop) l x : ForallOrdPairs P l -> (forall y, In y l -> P y x) -> ForallOrdPairs P (l ++ [x]).
Proof.
  induction 1 as [|a l Ha Hl IH]; intros H; cbn; [repeat constructor|]. constructor.
  - apply Forall_app. split; [exact Ha|]. repeat constructor. apply H. left. reflexivity.
  - apply IH. intros y Hy. apply H. right. exact Hy.
Qed.
Lemma solve_one_comp fuel s dt aw todo root l w : SInv w -> quiet_ids w -> ZA todo aw w -> todo = l ++ [root] -> incl todo (w_bodies w) -> length (w_bodies w) <= fuel ->
  wp (solve_one fuel s dt aw todo root) (fun r w' => SInv w' /\ quiet_ids w' /\ same w w' /\ ZA (fst r) (snd r) w' /\ incl (fst r) todo /\ length (fst r) < length todo) w.
Proof.
  intros Si Qt [Z1 Z2 (L & ZL & ZC & ZP & ZT & ZF)] Et HI HF.
  assert (Hroot : In root todo) by (rewrite Et; apply in_or_app; right; left; reflexivity).
  destruct (proj1 (ZT root) Hroot) as [Hr0 HrL].
  assert (HD : forall b, reach act w0 root b -> fixedb w b = fixedb w0 b).
  { intros b Hb. destruct (ZF b) as [(i & Hi & Hbi & Hnf)|H]; [|exact H]. exfalso. apply (HrL i Hi). eapply reach_back; [|exact Hb|exact Hbi|exact Hnf].
    rewrite Forall_forall in ZC. apply ZC, Hi. }
  assert (Hlive : exists y, w_bh w root = Some y) by (apply (i_bodies _ Si), HI, Hroot). destruct Hlive as [y Ey].
  pose (Y := fun cur il w1 => GY w root cur il w1). pose (X := fun cur r d il w1 => GX w root cur r d il w1).
  eapply wp_mono.
  - apply (solve_one_wp T ZS (fun il w1 => Y (length (is_bodies il)) il w1)).
    + intros il w1 w2 il' w' HY. apply (ZS_loaded w root Z1 HD il w1 w2 il' w' HY).
    + intros il w1. apply ZS_integrate.
    + apply ZS_init.
    + apply ZS_call; [intros st px s0 st' s'; apply (st_warm _ Hst)|apply (sl_warm Hsl)].
    + apply ZS_call; [intros st px s0 st' s'; apply (st_vel _ Hst)|apply (sl_vel Hsl)].
    + apply ZS_call; [intros st px s0 st' s'; apply (st_pos _ Hst)|apply (sl_pos Hsl)].
    + apply (init_wp T Y X) with (y := y); auto.
      * intros cur r il w1. apply (GX_start w root HD).
      * intros cur r d c contact il w1 il' w2 x v new. apply (GX_step w root Z1).
      * intros cur r y1 il w1. apply (GX_end w root Z1).
      * intros cur r il w1. apply (GY_fixed w root HD).
      * intros w' Kp Sm Ech Elog B. constructor; auto.
        { intros c. rewrite Ech. apply Z2. }
        { left. reflexivity. }
        { intros b [<-|[]]. constructor. }
        { intros i b c x Hi. lia. }
        { intros c []. }
        { split; intros c []. }
  - intros r w' _ (il & w1 & B1 & S1 & HY & SV & ->). cbn [fst snd]. destruct (solved_end _ _ _ _ SV) as (Si' & Qt' & S1' & Elog).
    assert (Sw : same w w') by (eapply same_trans; eassumption). assert (Sw0 : same w0 w') by (eapply same_trans; eassumption).
    pose proof (GY_component w root Z1 il w1 Hr0 B1 HY) as C. set (isl0 := IS (is_bodies il) (is_cons il) (is_cts il)) in *.
    assert (Hrin : In root (is_bodies il)) by apply (gy_root _ _ _ _ _ HY).
    split; [exact Si'|]. split; [exact Qt'|]. split; [exact Sw|]. split; [|split; [intros b Hb; apply filter_In in Hb; tauto|apply filter_shorter with root; assumption]].
    destruct SV as [(w2 & il3 & w3 & w4 & HW & B2 & S2 & V & (_ & ZA3 & ZV3) & D & Ew')].
    constructor; [exact Sw0| |].
    + intros c. rewrite Ew'. cbn. rewrite <- (ZA3 c). pose proof (d_st _ _ _ D c) as Hd. destruct (w_ch w4 c), (w_ch w3 c); cbn in *; congruence.
    + exists (L ++ [isl0]). split; [|split; [|split; [|split]]].
      * rewrite Elog, (gy_log _ _ _ _ _ HY), ZL, map_app, <- app_assoc. reflexivity.
      * apply Forall_app. split; [exact ZC|]. constructor; [exact C|constructor].
      * apply FOP_snoc; [exact ZP|]. intros j Hj b Hb Hb0. destruct (fixedb w0 b) eqn:EF; [apply fixedb_fixed; assumption|]. exfalso.
        apply (HrL j Hj). rewrite Forall_forall in ZC. apply (reach_back j root b); [apply ZC, Hj|apply (gy_reach _ _ _ _ _ HY), Hb0|exact Hb|apply fixedb_not; assumption].
      * intros b. rewrite filter_In, ZT, negb_true_iff, existsb_notin. split.
        { intros [[H1 H2] H3]. split; [exact H1|]. intros i Hi. apply in_app_iff in Hi. destruct Hi as [Hi|[<-|[]]]; [apply H2, Hi|exact H3]. }
        { intros [H1 H2]. split; [split; [exact H1|]|].
          - intros i Hi. apply H2, in_or_app. auto.
          - apply (H2 isl0). apply in_or_app. right. left. reflexivity. }
      * intros b. destruct (in_dec Nat.eq_dec b (is_bodies il)) as [Hb|Hb].
        { destruct (fixedb w0 b) eqn:EF.
          - right. rewrite <- EF. apply fixedb_same; [exact Sw0|]. intros y0 y' E0 E'. destruct (In_nth_error _ _ Hb) as [n Hn].
            rewrite <- (so_b _ _ _ _ V) in Hn. destruct (ZV3 n b Hn EF) as (v & Hv & Hrest).
            assert (Hl : exists y3, w_bh w3 b = Some y3) by (apply (ii_live _ _ (so_inv _ _ _ _ V)); eapply nth_error_In; eassumption). destruct Hl as [y3 E3].
            destruct (d_in _ _ _ D n b y3 Hn E3) as (p & v' & _ & Hv' & Ef). rewrite Hv in Hv'. injection Hv' as <-.
            rewrite Ew' in E'. cbn in E'. rewrite Ef in E'. injection E' as <-. cbn. unfold fixedb in EF. rewrite E0 in EF. apply andb_true_iff in EF. destruct EF as [-> _]. exact Hrest.
          - left. exists isl0. split; [apply in_or_app; right; left; reflexivity|]. split; [exact Hb|apply fixedb_not; assumption]. }
        { destruct (ZF b) as [(i & Hi & Hbi & Hnf)|H]; [left; exists i; split; [apply in_or_app; auto|auto]|right]. rewrite <- H. apply fixedb_same; [exact Sw|].
          intros ya yb Ea Eb. rewrite Ew' in Eb. cbn in Eb. rewrite (d_out _ _ _ D) in Eb by (rewrite (so_b _ _ _ _ V); exact Hb). rewrite (so_bh _ _ _ _ V) in Eb.
          destruct HW as (_ & _ & HW). rewrite HW in Eb. rewrite (proj2 (existsb_notin b (is_bodies il)) Hb), andb_false_r in Eb.
          pose proof (gy_kept _ _ _ _ _ HY b) as Kp. rewrite Ea, Eb in Kp. injection Kp as ->. reflexivity. }
Qed.
Theorem islands_components fuel1 fuel2 s dt aw : quiet_ids w0 -> length (w_bodies w0) <= fuel1 -> length (w_bodies w0) <= fuel2 ->
  wp (solve_islands fuel1 fuel2 s dt aw (w_bodies w0)) (fun _ w' => SInv w' /\ quiet_ids w' /\ same w0 w' /\
    exists L, w_log w' = w_log w0 ++ map event_of L /\ Forall (component act w0) L /\ ForallOrdPairs apart L /\
      forall b, In b (w_bodies w0) -> exists i, In i L /\ In b (i_bs i)) w0.
Proof.
  intros Qt H1 H2. eapply wp_mono.
  - apply (solve_islands_wp ZA).
    + intros aw' todo root l w. apply solve_one_comp.
    + exact S0.
    + exact Qt.
    + constructor; [apply same_refl|intros c; reflexivity|]. exists []. cbn. rewrite app_nil_r. split; [reflexivity|]. split; [constructor|]. split; [constructor|]. split; [|auto].
      intros b. split; [intros Hb; split; [exact Hb|intros i []]|tauto].
    + apply incl_refl.
    + exact H2.
    + exact H1.
  - intros u w' _ (S' & Q' & Sm & aw' & [_ _ (L & ZL & ZC & ZP & ZT & _)]). split; [exact S'|]. split; [exact Q'|]. split; [exact Sm|]. exists L. split; [exact ZL|]. split; [exact ZC|]. split; [exact ZP|].
    intros b Hb. destruct (Exists_dec (fun i => In b (i_bs i)) L) as [H|H]; [intros i; apply in_dec, Nat.eq_dec|apply Exists_exists in H; exact H|].
    exfalso. apply (proj2 (ZT b)). split; [exact Hb|]. intros i Hi HH. apply H. apply Exists_exists. eauto.
Qed.
End Comp.
