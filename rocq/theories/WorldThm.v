(** The statements about worlds and their histories. *)
From Coq Require Import ZArith List Bool Lia Permutation.
From Verif Require Import Num Outcome Box Mat Geom Transform Body Constraint World WorldHoare WorldInv WorldFrame WorldIsland WorldSolve WorldComp WorldSleep WorldOps WorldCols WorldClean WorldKill WorldStep WorldStrict WorldHist.
Import ListNotations.

Section Thm.
Context {N : Num} {TR : Trig N} {BH : Behaviour N}.
Local Open Scope num_scope.
Hypothesis T : tame.

Lemma reachable_sound w : reachable w -> sound w.
Proof. intros [s H]. eapply ops_sound; [exact T|apply empty_sound|exact H]. Qed.
Lemma reachable_op w w' : reachable w -> op w w' -> reachable w'.
Proof. intros [s H] O. exists s. eapply ops_snoc; eassumption. Qed.

(** ** Safety of a step (C64) *)
Definition safe {A} (r : res A) : Prop := match r with Bad | Hang => False | _ => True end.
Theorem step_safe fuel o dt w : reachable w -> shuffles o -> length (w_bodies w) <= fuel -> safe (step false fuel o dt w).
Proof.
  intros HR Hs HF. destruct (reachable_sound w HR) as ((HS & HI & G) & _). pose proof (step_ok T fuel o dt w Hs G HS HI HF) as H.
  unfold wp in H. destruct (step false fuel o dt w); cbn; auto.
Qed.
Theorem clear_safe w : reachable w -> exists w', clear false w = Ok tt w'.
Proof. intros HR. destruct (reachable_sound w HR) as ((HS & _) & _). destruct (clear_spec w HS) as (w' & E & _). eauto. Qed.
(** the strict reading of ~Body *)
Theorem step_clad fuel o dt w : reachable w -> (exists b, dying (o_die o) w b /\ clad w b) -> step true fuel o dt w = Bad.
Proof.
  intros HR (b & Hd & Hc). destruct (reachable_sound w HR) as ((HS & HI & G) & _). destruct (cleanup_spec (o_die o) w HS HI) as (w1 & E1 & _).
  unfold step, bind at 1. rewrite (cleanup_clad _ _ _ (proj1 (i_bodies _ HS)) E1); [reflexivity|]. exists b. split; [|auto]. apply (i_bodies _ HS). destruct Hd as (y & Ey & _). eauto.
Qed.
Theorem step_bare strict fuel o dt w : reachable w -> (forall b, dying (o_die o) w b -> ~ clad w b) -> step strict fuel o dt w = step false fuel o dt w.
Proof.
  intros HR H. destruct (reachable_sound w HR) as ((HS & HI & G) & _). unfold step, bind at 1. symmetry. unfold bind at 1. rewrite (cleanup_bare strict); [reflexivity|apply (i_bodies _ HS)|].
  intros b _ Hd. destruct (bare_dec w b) as [Hb|Hb]; [exact Hb|]. exfalso. eapply H; eassumption.
Qed.
Theorem clear_strict w : reachable w -> (exists b, clad w b) -> clear true w = Bad.
Proof.
  intros HR (b & Hc). destruct (reachable_sound w HR) as ((HS & _) & _). destruct (clear_spec w HS) as (w' & E & _). apply (clear_clad _ _ (proj1 (i_bodies _ HS)) E). exists b. split; [|exact Hc].
  apply (i_bodies _ HS). destruct Hc as (y & Ey & _). eauto.
Qed.

(** ** A step without time (C40) *)
Definition is_end (e : event) : Prop := match e with Notified _ | Released _ => True | _ => False end.
Lemma ends_rel l : Forall is_end (map Released l). Proof. induction l; constructor; cbn; auto. Qed.
Lemma ends_not l : Forall is_end (map Notified l). Proof. induction l; constructor; cbn; auto. Qed.
Definition motionless (w w' : world) : Prop :=
  forall b y', w_bh w' b = Some y' -> exists y, w_bh w b = Some y /\ b_pos (wb y') = b_pos (wb y) /\ b_vel (wb y') = b_vel (wb y) /\ b_ang (wb y') = b_ang (wb y) /\ b_colliders (wb y') = b_colliders (wb y).
Lemma survivor_motion w L b y : let y' := survivor w L b y in b_pos (wb y') = b_pos (wb y) /\ b_vel (wb y') = b_vel (wb y) /\ b_ang (wb y') = b_ang (wb y) /\ b_colliders (wb y') = b_colliders (wb y).
Proof. cbv zeta. unfold survivor, roused. destruct (touched w L b); cbn; auto. Qed.
Theorem no_time fuel o dt w : reachable w -> (k0 <? dt) = false ->
  exists w' l, step false fuel o dt w = Ok tt w' /\ motionless w w' /\ w_log w' = w_log w ++ l /\ Forall is_end l.
Proof.
  intros HR Hdt. destruct (reachable_sound w HR) as ((HS & HI & G) & _). destruct (cleanup_spec (o_die o) w HS HI) as (w1 & E1 & S1 & I1 & CL).
  destruct (pre_step_ok w1 S1 (cleaned_unkilled _ _ _ CL)) as (w2 & E2 & R2). destruct (restated_same _ _ R2) as (C2 & K2 & EB & EL). destruct (calm_good _ _ S1 I1 C2) as [S2 I2].
  pose proof (cl_log _ _ _ CL) as HL. cbv zeta in HL. rewrite <- EL in HL. eexists w2, _. split.
  - unfold step, bind at 1. rewrite E1. unfold bind at 1. rewrite E2, Hdt. unfold bind at 1, ret at 1. apply post_step_ok, S2.
  - split; [|split; [exact HL|]].
    + intros b y' Ey. rewrite EB, (cl_b _ _ _ CL) in Ey. destruct (bdead (o_die o) w b); [discriminate|]. destruct (w_bh w b) as [y|]; [|discriminate]. injection Ey as <-. exists y. split; [reflexivity|]. apply survivor_motion.
    + rewrite !Forall_app. auto using ends_rel, ends_not.
Qed.
Theorem no_time_any strict fuel o dt w w' : reachable w -> (k0 <? dt) = false -> step strict fuel o dt w = Ok tt w' ->
  motionless w w' /\ exists l, w_log w' = w_log w ++ l /\ Forall is_end l.
Proof.
  intros HR Hdt E. destruct (no_time fuel o dt w HR Hdt) as (w2 & l & E2 & H1 & H2). apply (refines_ok _ _ _ _ _ (rf_step strict fuel o dt)) in E. rewrite E2 in E. injection E as <-. eauto.
Qed.

(** ** Lifecycle (C44) *)
(** the lists, the heap and the links agree, and no reference dangles *)
Record tidy (w : world) : Prop := {
  td_bodies : NoDup (w_bodies w) /\ forall i, In i (w_bodies w) <-> on_body w i;
  td_cons : NoDup (w_cons w ++ map e_con (w_cts w)) /\ forall i, In i (w_cons w) \/ (exists e, In e (w_cts w) /\ e_con e = i) <-> on_con w i;
  td_forces : NoDup (w_forces w) /\ forall i, In i (w_forces w) <-> on_force w i;
  td_ends : forall c x, w_ch w c = Some x -> on_body w (c_b0 x) /\ on_body w (c_b1 x);
  td_lists : forall b y c, w_bh w b = Some y ->
    (In c (wb_cs y) <-> In c (w_cons w) /\ exists x, w_ch w c = Some x /\ (c_b0 x = b \/ c_b1 x = b)) /\
    (In c (wb_cts y) <-> (exists e, In e (w_cts w) /\ e_con e = c) /\ exists x, w_ch w c = Some x /\ (c_b0 x = b \/ c_b1 x = b));
  td_tree : forall k, In k (w_tree w) <-> exists b y c, w_bh w b = Some y /\ In c (b_colliders (wb y)) /\ c_id c = k;
  td_contacts : forall e x, In e (w_cts w) -> w_ch w (e_con e) = Some x -> c_killed x = false ->
    exists k0 k1, c_cols x = Some (k0, k1) /\ In k0 (w_tree w) /\ In k1 (w_tree w) }.
Lemma sinv_tidy w : SInv w -> tidy w.
Proof.
  intros HS. constructor.
  - apply (i_bodies _ HS).
  - destruct (i_cons _ HS) as [H1 H2]. split; [exact H1|]. intros i. unfold on_con. rewrite <- H2, in_app_iff, in_map_iff. split; (intros [?|(e & ? & ?)]; [left; assumption|right; exists e; auto]).
  - apply (i_forces _ HS).
  - intros c x E. split; apply (i_ends _ HS c x E); apply in_bodies; auto.
  - intros b y c E. split.
    + rewrite (proj2 (i_cs _ HS b y E) c). split; intros [H (x & Ex & Hx)]; (split; [exact H|exists x; split; [exact Ex|]]); [apply in_bodies in Hx|apply in_bodies]; intuition.
    + rewrite (proj2 (i_cts _ HS b y E) c), in_map_iff. split.
      * intros [(e & H1 & H2) (x & Ex & Hx)]. split; [exists e; auto|]. exists x. split; [exact Ex|]. apply in_bodies in Hx. intuition.
      * intros [(e & H1 & H2) (x & Ex & Hx)]. split; [exists e; auto|]. exists x. split; [exact Ex|]. apply in_bodies. intuition.
  - destruct (i_cols _ HS) as (_ & K1 & K2 & K3 & _). intros k. rewrite K1. split.
    + intros (x & Ex). destruct (K2 k x Ex) as [y Ey]. destruct (K3 _ _ Ey) as (_ & K4 & _). assert (Hk : In k (ids_of y)) by (apply K4; exists x; auto).
      unfold ids_of in Hk. apply in_map_iff in Hk. destruct Hk as (c & Ec & Hc). exists (k_body x), y, c. auto.
    + intros (b & y & c & Ey & Hc & Ec). destruct (K3 _ _ Ey) as (_ & K4 & _). assert (Hk : In k (ids_of y)) by (apply in_map_iff; exists c; auto). apply K4 in Hk. destruct Hk as (x & Ex & _). eauto.
  - intros e x He Ex Hk. destruct (i_contacts _ HS) as ((A & _ & HA) & _). destruct (HA e He) as (x' & k0 & k1 & Ex' & Ec & _ & _ & HO). rewrite Ex in Ex'. injection Ex' as <-.
    exists k0, k1. split; [exact Ec|]. destruct (HO Hk) as [(z0 & Z0 & _) (z1 & Z1 & _)]. destruct (i_cols _ HS) as (_ & K1 & _). split; apply K1; eauto.
Qed.
Theorem history_tidy w : reachable w -> tidy w.
Proof. intros HR. apply sinv_tidy. apply reachable_sound, HR. Qed.
(** which objects a step removes *)
Definition doomed_body (die : id -> bool) (w : world) (b : id) : Prop := exists y, w_bh w b = Some y /\ (wb_killed y = true \/ die b = true).
Definition doomed_con (die : id -> bool) (w : world) (c : id) : Prop :=
  exists x, w_ch w c = Some x /\ (c_killed x = true \/ die c = true \/ doomed_body die w (c_b0 x) \/ doomed_body die w (c_b1 x)).
Definition doomed_force (die : id -> bool) (w : world) (f : id) : Prop := exists x, w_fh w f = Some x /\ (f_killed x = true \/ die f = true).
Lemma bdead_doomed die w b : bdead die w b = true <-> doomed_body die w b.
Proof.
  unfold bdead, doomed_body. destruct (w_bh w b) as [y|].
  - rewrite orb_true_iff. split; [intros H; exists y; auto|intros (y' & E & H); injection E as <-; exact H].
  - split; [discriminate|intros (y & E & _); discriminate].
Qed.
Lemma fdead_doomed die w f : fdead die w f = true <-> doomed_force die w f.
Proof.
  unfold fdead, doomed_force. destruct (w_fh w f) as [y|].
  - rewrite orb_true_iff. split; [intros H; exists y; auto|intros (y' & E & H); injection E as <-; exact H].
  - split; [discriminate|intros (y & E & _); discriminate].
Qed.
Lemma cdead_doomed die w c : cdead die w c = true <-> doomed_con die w c.
Proof.
  unfold cdead, doomed_con. destruct (w_ch w c) as [x|]; [|split; [discriminate|intros (y & E & _); discriminate]].
  assert (HB : existsb (bdead die w) (con_bodies x) = true <-> doomed_body die w (c_b0 x) \/ doomed_body die w (c_b1 x)).
  { rewrite existsb_exists. split.
    - intros (b & Hb & Hd). apply bdead_doomed in Hd. apply in_bodies in Hb. destruct Hb as [->| ->]; auto.
    - intros [H|H]; [exists (c_b0 x)|exists (c_b1 x)]; (split; [apply in_bodies; auto|apply bdead_doomed, H]). }
  rewrite !orb_true_iff, HB. split; [intros H; exists x; split; [reflexivity|tauto]|intros (x' & E & H); injection E as <-; tauto].
Qed.
Definition doomed (die : id -> bool) (w : world) (i : id) : Prop := doomed_body die w i \/ doomed_con die w i \/ doomed_force die w i.
(** exactly the doomed objects are removed; all of them but contacts are told first *)
Lemma NoDup_app_not_in {A} (l1 l2 : list A) : NoDup (l1 ++ l2) -> forall a, In a l1 -> ~ In a l2.
Proof. induction l1 as [|x l1 IH]; intros ND a Ha; [destruct Ha|]. cbn in ND. inversion ND as [|? ? N1 N2]. subst. destruct Ha as [->|Ha]; [intros H; apply N1, in_or_app; auto|eauto]. Qed.
Lemma doomed_cases die w i : none_twice w -> (on_body w i -> (doomed die w i <-> bdead die w i = true)) /\ (on_con w i -> (doomed die w i <-> cdead die w i = true)) /\ (on_force w i -> (doomed die w i <-> fdead die w i = true)).
Proof.
  intros NT. destruct (NT i) as (Z1 & Z2 & Z3). unfold doomed. rewrite <- bdead_doomed, <- cdead_doomed, <- fdead_doomed.
  pose proof (bdead_live die w i). pose proof (cdead_live die w i). pose proof (fdead_live die w i). tauto.
Qed.
Lemma in_rel i l : In (Released i) (map Released l) <-> In i l.
Proof. rewrite in_map_iff. split; [intros (j & E & H); injection E as ->; exact H|eauto]. Qed.
Lemma in_not i l : In (Notified i) (map Notified l) <-> In i l.
Proof. rewrite in_map_iff. split; [intros (j & E & H); injection E as ->; exact H|eauto]. Qed.
Lemma rel_not i l : ~ In (Released i) (map Notified l). Proof. rewrite in_map_iff. intros (j & E & _). discriminate. Qed.
Lemma not_rel i l : ~ In (Notified i) (map Released l). Proof. rewrite in_map_iff. intros (j & E & _). discriminate. Qed.
Lemma other_no l i : Forall other l -> ~ In (Released i) l /\ ~ In (Notified i) l.
Proof. intros H. rewrite Forall_forall in H. split; intros Hi; apply H in Hi; destruct Hi as [[]|[]]. Qed.
Theorem step_removes strict fuel o dt w w' : reachable w -> shuffles o -> length (w_bodies w) <= fuel -> step strict fuel o dt w = Ok tt w' ->
  (forall i, live w i -> (live w' i <-> ~ doomed (o_die o) w i)) /\
  exists l, w_log w' = w_log w ++ l /\ (forall i, In (Released i) l <-> live w i /\ doomed (o_die o) w i) /\
    forall i, In (Notified i) l <-> live w i /\ doomed (o_die o) w i /\ ~ exists e, In e (w_cts w) /\ e_con e = i.
Proof.
  intros HR Hs HF E. apply (refines_ok _ _ _ _ _ (rf_step strict fuel o dt)) in E. destruct (reachable_sound w HR) as ((HS & HI & G) & NT & KL).
  pose proof (step_ok T fuel o dt w Hs G HS HI HF) as H. unfold wp in H. rewrite E in H. destruct H as (HS' & HI' & PH).
  destruct (phases_live fuel o dt w w' HS' PH) as (w1 & S1 & CL & (NB & NF & NC1 & NC2 & NN & lo & EL & HO)). destruct (cleaned_live _ _ _ CL) as (LB & LC & LF). pose proof (cl_next _ _ _ CL) as Hn.
  assert (HV : forall i, live w i -> (live w' i <-> on_body w1 i \/ on_con w1 i \/ on_force w1 i)).
  { intros i Hi. pose proof (live_fresh w i HS Hi) as Hf. unfold live. rewrite NB, NF. split; [|intros [?|[?|?]]; auto].
    intros [?|[Hc|?]]; auto. destruct (NC2 i Hc); [auto|lia]. }
  split.
  - intros i Hi. rewrite (HV i Hi), LB, LC, LF. destruct (NT i) as (Z1 & Z2 & Z3). destruct (doomed_cases (o_die o) w i NT) as (D1 & D2 & D3).
    destruct Hi as [Hi|[Hi|Hi]]; [rewrite (D1 Hi); destruct (bdead (o_die o) w i)|rewrite (D2 Hi); destruct (cdead (o_die o) w i)|rewrite (D3 Hi); destruct (fdead (o_die o) w i)]; intuition congruence.
  - pose proof (cl_log _ _ _ CL) as HL. cbv zeta in HL. rewrite HL in EL. rewrite <- !app_assoc in EL. eexists. split; [exact EL|].
    assert (P1 : forall i, (exists e, In e (w_cts w) /\ e_con e = i) -> on_con w i) by (intros i (e & He & <-); apply (i_cons _ HS), in_or_app; right; apply in_map; exact He).
    assert (P2 : forall i, on_con w i <-> In i (w_cons w) \/ exists e, In e (w_cts w) /\ e_con e = i) by (intros i; symmetry; apply (td_cons _ (sinv_tidy _ HS))).
    assert (P3 : forall i, In i (w_cons w) -> ~ exists e, In e (w_cts w) /\ e_con e = i).
    { intros i Hi (e & He & Ee). pose proof (proj1 (i_cons _ HS)) as ND. apply (NoDup_app_not_in _ _ ND i Hi). apply in_map_iff. exists e. auto. }
    assert (Q1 : forall i, In i (map e_con (filter (fun e => cdead (o_die o) w (e_con e)) (w_cts w))) <-> (exists e, In e (w_cts w) /\ e_con e = i) /\ cdead (o_die o) w i = true).
    { intros i. rewrite in_map_iff. split; [intros (e & <- & He); apply filter_In in He; split; [exists e|]; tauto|intros [(e & He & <-) Hc]; exists e; split; [reflexivity|apply filter_In; auto]]. }
    assert (PB : forall i, In i (w_bodies w) <-> on_body w i) by apply (i_bodies _ HS). assert (PF : forall i, In i (w_forces w) <-> on_force w i) by apply (i_forces _ HS).
    set (D := filter (cdead (o_die o) w) (w_cons w) ++ filter (fdead (o_die o) w) (w_forces w) ++ filter (bdead (o_die o) w) (w_bodies w)).
    assert (QD : forall i, In i D <-> (In i (w_cons w) /\ cdead (o_die o) w i = true) \/ fdead (o_die o) w i = true \/ bdead (o_die o) w i = true).
    { intros i. unfold D. rewrite !in_app_iff, !filter_In, PB, PF. pose proof (fdead_live (o_die o) w i). pose proof (bdead_live (o_die o) w i). tauto. }
    split; intros i; destruct (NT i) as (Z1 & Z2 & Z3); pose proof (fdead_live (o_die o) w i) as G1; pose proof (bdead_live (o_die o) w i) as G2; pose proof (cdead_live (o_die o) w i) as G3;
      pose proof (P1 i) as P1i; pose proof (P2 i) as P2i; pose proof (P3 i) as P3i; specialize (Q1 i); specialize (QD i); destruct (other_no lo i HO) as [O1 O2]; unfold live, doomed; rewrite <- bdead_doomed, <- cdead_doomed, <- fdead_doomed, !in_app_iff.
    + rewrite !in_rel, Q1, QD. pose proof (rel_not i D) as RN. fold D in RN |- *. tauto.
    + rewrite !in_not, QD. pose proof (not_rel i D) as RN. pose proof (not_rel i (map e_con (filter (fun e => cdead (o_die o) w (e_con e)) (w_cts w)))) as RN2. tauto.
Qed.
(** the log of a history *)
Theorem history_log w : reachable w ->
  NoDup (rels (w_log w)) /\ NoDup (nots (w_log w)) /\ incl (nots (w_log w)) (rels (w_log w)) /\ (forall i l1 l2, w_log w = l1 ++ Released i :: l2 -> ~ In (Notified i) l2) /\
  (forall i, In (Released i) (w_log w) -> ~ live w i) /\ forall i, on_body w i -> ~ on_con w i /\ ~ on_force w i.
Proof.
  intros HR. destruct (reachable_sound w HR) as (_ & NT & [K1 K2 K3 K4 K5]). split; [exact K2|]. split; [exact K3|]. split; [exact K4|]. split; [exact K5|]. split; [intros i Hi; apply K1, in_rels, Hi|].
  intros i Hi. destruct (NT i) as (A & B & _). auto.
Qed.
Theorem history_fate w w' i : reachable w -> ops w w' -> live w i -> live w' i \/ In (Released i) (w_log w').
Proof. intros HR HO Hi. rewrite <- in_rels. exact (ops_live T w w' i (reachable_sound w HR) HO Hi). Qed.

(** ** Contacts (C45) *)
Theorem history_contacts w : reachable w ->
  (forall e x a b, contact_of w e x a b -> c_b0 x <> c_b1 x /\ (c_killed x = false -> owned (w_kh w) a (c_b0 x) /\ owned (w_kh w) b (c_b1 x))) /\
  (forall e e' x x' a b a' b', contact_of w e x a b -> contact_of w e' x' a' b' -> (a = a' /\ b = b') \/ (a = b' /\ b = a') -> e = e') /\
  forall e, In e (w_cts w) -> exists x a b, contact_of w e x a b.
Proof.
  intros HR. destruct (reachable_sound w HR) as ((HS & _) & _). destruct (i_contacts _ HS) as ((A & HA & HC) & _ & HU). split; [|split].
  - intros e x a b (He & Ex & Ec). destruct (HC e He) as (x' & k0 & k1 & Ex' & Ec' & _ & HN & HO). rewrite Ex in Ex'. injection Ex' as <-. rewrite Ec in Ec'. injection Ec' as <- <-. auto.
  - intros e e' x x' a b a' b' (He & Ex & Ec) (He' & Ex' & Ec') H. symmetry. apply (HU e e' He He').
    destruct (HC e He) as (x1 & p0 & p1 & F1 & F2 & F3 & _). rewrite Ex in F1. injection F1 as <-. rewrite Ec in F2. injection F2 as <- <-.
    destruct (HC e' He') as (x1 & p0 & p1 & F1 & F2 & F3' & _). rewrite Ex' in F1. injection F1 as <-. rewrite Ec' in F2. injection F2 as <- <-.
    rewrite F3, F3'. unfold swap. cbn. destruct H as [[-> ->]|[-> ->]]; auto.
  - intros e He. destruct (HC e He) as (x & a & b & H1 & H2 & _). exists x, a, b. split; [exact He|auto].
Qed.
Theorem step_contacts strict fuel o dt w w' : reachable w -> shuffles o -> length (w_bodies w) <= fuel -> (k0 <? dt) = true -> step strict fuel o dt w = Ok tt w' ->
  (forall e x a b, contact_of w' e x a b -> (c_killed x = false <-> may_touch w' a b /\ (In (a, b) (o_pairs o) \/ In (b, a) (o_pairs o)))) /\
  forall a b, may_touch w' a b -> In (a, b) (o_pairs o) -> exists e x, c_killed x = false /\ (contact_of w' e x a b \/ contact_of w' e x b a).
Proof.
  intros HR Hs HF Hdt E. apply (refines_ok _ _ _ _ _ (rf_step strict fuel o dt)) in E. destruct (reachable_sound w HR) as ((HS & HI & G) & NT & KL).
  pose proof (step_ok T fuel o dt w Hs G HS HI HF) as H. unfold wp in H. rewrite E in H. destruct H as (HS' & HI' & [(w1 & w2 & PH)]). rewrite Hdt in PH.
  destruct PH as (_ & _ & _ & _ & _ & _ & _ & _ & w3 & w4 & _ & _ & _ & _ & _ & _ & _ & _ & _ & _ & _ & U). split.
  - intros e x a b C. rewrite (u_touch _ _ _ U e x a b C). split.
    + intros (p & Hp & HT & [->| ->]); auto.
    + intros [HT [Hp|Hp]]; eexists; (split; [exact Hp|]); (split; [exact HT|]); [left|right]; reflexivity.
  - intros a b HT Hp. destruct (u_pairs _ _ _ U (a, b) Hp HT) as (e & x & a' & b' & C & K & [P|P]); injection P as -> ->; eauto.
Qed.

(** ** Islands (C41) and waking (C42) *)
(** [wm] is the world when the islands are built: dead objects are gone, preStep is done, the forces are applied *)
Definition at_solve (o : oracle) (dt : K) (w wm : world) : Prop :=
  exists w1 w2, cleanup false (o_die o) w = Ok tt w1 /\ pre_step w1 = Ok tt w2 /\ apply_forces dt (o_region o) w2 = Ok tt wm.
Lemma step_parts strict fuel o dt w w' : reachable w -> shuffles o -> length (w_bodies w) <= fuel -> (k0 <? dt) = true -> step strict fuel o dt w = Ok tt w' ->
  exists wm wn l, at_solve o dt w wm /\ SInv wm /\ idle wm /\ length (w_bodies wm) <= fuel /\ w_log wm = w_log w ++ l /\ (forall e, In e l -> ~ is_solved e) /\
    (forall c x, w_ch wm c = Some x -> exists x0, w_ch w c = Some x0 /\ con_same x0 x) /\
    solve_islands fuel fuel (w_set wm) dt false (w_bodies wm) wm = Ok tt wn /\ update_bodies o dt wn = Ok tt w' /\ w_log w' = w_log wn.
Proof.
  intros HR Hs HF Hdt E. apply (refines_ok _ _ _ _ _ (rf_step strict fuel o dt)) in E. destruct (reachable_sound w HR) as ((HS & HI & G) & NT & KL).
  pose proof (step_ok T fuel o dt w Hs G HS HI HF) as H. unfold wp in H. rewrite E in H. destruct H as (HS' & HI' & [(w1 & w2 & PH)]). rewrite Hdt in PH.
  destruct PH as (E1 & S1 & I1 & CL & E2 & S2 & I2 & RS & w3 & w4 & E3 & S3 & I3 & PU & E4 & S4 & Q4 & Sm & K4 & L4 & E5 & U).
  destruct (restated_same _ _ RS) as (C2 & K2 & EB & EL). destruct PU as (C3 & K3 & EC & (l3 & E3l & O3) & _). pose proof (cl_log _ _ _ CL) as HL. cbv zeta in HL.
  exists w3, w4. eexists. split; [exists w1, w2; auto|]. split; [exact S3|]. split; [exact I3|]. split.
  { rewrite (sa_bodies _ _ (proj1 C3)), (sa_bodies _ _ (proj1 C2)), (cl_bodies _ _ _ CL). pose proof (filter_le (fun b => negb (bdead (o_die o) w b)) (w_bodies w)). lia. }
  split; [rewrite E3l, EL, HL, <- !app_assoc; reflexivity|]. split.
  { intros e He Hv. rewrite !in_app_iff in He. destruct He as [He|[He|[He|He]]]; try (apply in_map_iff in He; destruct He as (j & <- & _); exact Hv).
    rewrite Forall_forall in O3. apply O3 in He. destruct e; contradiction. }
  split; [|split; [exact E4|split; [exact E5|apply (u_log _ _ _ U)]]].
  intros c x Ex. rewrite EC in Ex. destruct (hrel_some' _ _ _ _ _ (sa_c _ _ (proj1 C2)) Ex) as (x1 & Ex1 & CS1). rewrite (cl_c _ _ _ CL) in Ex1. destruct (cdead (o_die o) w c); [discriminate|]. eauto.
Qed.
Theorem step_islands act strict fuel o dt w w' : steady act -> still -> massless w -> reachable w -> shuffles o -> length (w_bodies w) <= fuel -> (k0 <? dt) = true -> step strict fuel o dt w = Ok tt w' ->
  exists wm l L, at_solve o dt w wm /\ w_log w' = w_log w ++ l ++ map event_of L /\ (forall e, In e l -> ~ is_solved e) /\
    Forall (component act wm) L /\ ForallOrdPairs (apart wm) L /\ forall b, In b (w_bodies wm) -> exists i, In i L /\ In b (i_bs i).
Proof.
  intros HA HL HM HR Hs HF Hdt E. destruct (step_parts _ _ _ _ _ _ HR Hs HF Hdt E) as (wm & wn & l & HW & S & I & F & EL & NS & HC & E4 & E5 & E6).
  assert (HM' : massless wm).
  { intros c x Ex. destruct (HC c x Ex) as (x0 & Ex0 & CS). destruct (HM c x0 Ex0) as (M0 & M1 & M2). rewrite (cs_b0 _ _ CS), (cs_b1 _ _ CS), (cs_m0 _ _ CS), (cs_I0 _ _ CS), (cs_m1 _ _ CS), (cs_I1 _ _ CS). auto. }
  pose proof (islands_components T act HA HL wm S HM' fuel fuel (w_set wm) dt false (idle_quiet _ I) F F) as H. unfold wp in H. rewrite E4 in H.
  destruct H as (_ & _ & _ & L & E7 & H1 & H2 & H3). exists wm, l, L. split; [exact HW|]. split; [rewrite E6, E7, EL, <- app_assoc; reflexivity|]. auto.
Qed.
Theorem step_waking strict fuel o dt w w' : reachable w -> shuffles o -> length (w_bodies w) <= fuel -> (k0 <? dt) = true -> step strict fuel o dt w = Ok tt w' ->
  exists wm wn L, at_solve o dt w wm /\ waking wm wn L /\ (forall b, In b (w_bodies wm) -> exists i, In i L /\ In b (i_bs i)) /\ update_bodies o dt wn = Ok tt w'.
Proof.
  intros HR Hs HF Hdt E. destruct (step_parts _ _ _ _ _ _ HR Hs HF Hdt E) as (wm & wn & l & HW & S & I & F & EL & NS & HC & E4 & E5 & E6).
  pose proof (islands_waking T fuel fuel (w_set wm) dt wm S (idle_quiet _ I) F F) as H. unfold wp in H. rewrite E4 in H. destruct H as (L & H1 & H2). exists wm, wn, L. auto.
Qed.
(** no body awake when the islands are built: none is woken by solving them *)
Theorem step_asleep strict fuel o dt w w' : reachable w -> shuffles o -> length (w_bodies w) <= fuel -> (k0 <? dt) = true -> step strict fuel o dt w = Ok tt w' ->
  exists wm wn, at_solve o dt w wm /\ update_bodies o dt wn = Ok tt w' /\ ((forall b, ~ awake_at wm b) -> forall b, ~ awake_at wn b).
Proof.
  intros HR Hs HF Hdt E. destruct (step_waking _ _ _ _ _ _ HR Hs HF Hdt E) as (wm & wn & L & HW & WK & _ & E5). exists wm, wn. split; [exact HW|]. split; [exact E5|].
  intros HN b Hb. destruct (wk_off _ _ _ WK b Hb) as [H|(i & j & _ & (a & Ha & _) & _)]; eapply HN; eassumption.
Qed.
End Thm.
