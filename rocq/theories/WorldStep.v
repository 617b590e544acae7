(** World::step: safety, and which contacts exist after it. *)
From Coq Require Import ZArith List Bool Lia Permutation.
From Verif Require Import Num Outcome Box Mat Geom Transform Body Constraint World WorldHoare WorldInv WorldFrame WorldIsland WorldSolve WorldSleep WorldOps WorldCols WorldClean WorldKill.
Import ListNotations.

Section Step.
Context {N : Num} {TR : Trig N} {BH : Behaviour N}.
Local Open Scope num_scope.

(** ** Specification *)
(** the constraint [z] joins the bodies [a] and [b] *)
Definition joins (z : wcon) (a b : id) : Prop := (c_b0 z = a \/ c_b1 z = a) /\ (c_b0 z = b \/ c_b1 z = b).
(** the colliders [a], [b] are in the tree, belong to different bodies and no
    constraint which disables contacts joins these *)
Definition may_touch (w : world) (a b : id) : Prop :=
  In a (w_tree w) /\ In b (w_tree w) /\ exists xa xb, w_kh w a = Some xa /\ w_kh w b = Some xb /\ k_body xa <> k_body xb /\
    forall d z, In d (w_cons w) -> w_ch w d = Some z -> c_dis z = true -> ~ joins z (k_body xa) (k_body xb).
Definition pair_of (p : id * id) (a b : id) : Prop := p = (a, b) \/ p = (b, a).
Definition contact_of (w : world) (e : entry) (x : wcon) (a b : id) : Prop := In e (w_cts w) /\ w_ch w (e_con e) = Some x /\ c_cols x = Some (a, b).
(** the force fields neither have undefined behaviour nor loop forever *)
Definition gentle (w : world) : Prop := forall f x, w_fh w f = Some x -> forall dt b c, calm (f_apply x dt b c).
Definition shuffles (o : oracle) : Prop := forall n l, Permutation (o_shuffle o n l) l.

(** ** preStep *)
Definition unkilled (w : world) : Prop := forall c x, w_ch w c = Some x -> c_killed x = false.
Definition restated (w w' : world) : Prop := exists g : heap wcon, w' = set_ch w g /\
  forall c, match w_ch w c, g c with Some x, Some x' => exists st, x' = con_st st x | None, None => True | _, _ => False end.
Lemma restated_refl w : restated w w.
Proof. exists (w_ch w). split; [destruct w; reflexivity|]. intros c. destruct (w_ch w c) as [x|]; [|exact I]. exists (c_st x). destruct x; reflexivity. Qed.
Lemma restated_trans a b c : restated a b -> restated b c -> restated a c.
Proof.
  intros (g & -> & H) (h & -> & H'). exists h. split; [reflexivity|]. intros i. specialize (H i). specialize (H' i). cbn in H'. destruct (w_ch a i), (g i), (h i); try contradiction; auto.
  destruct H as [s ->], H' as [s' ->]. exists s'. reflexivity.
Qed.
Lemma restated_same w w' : restated w w' -> calm_step w w' /\ kk w w' /\ w_bh w' = w_bh w /\ w_log w' = w_log w.
Proof.
  intros (g & -> & H). split; [split; [|split]|split; [|auto]].
  - destruct (same_refl w). constructor; auto. intros c. specialize (H c). cbn. destruct (w_ch w c), (g c); auto. destruct H as [st ->]. apply con_same_st.
  - reflexivity.
  - intros c. specialize (H c). cbn. destruct (w_ch w c), (g c); try contradiction; [|reflexivity]. destruct H as [st ->]. reflexivity.
  - constructor; auto. intros c. specialize (H c). cbn. destruct (w_ch w c), (g c); try contradiction; [|reflexivity]. destruct H as [st ->]. reflexivity.
Qed.
Lemma restated_con w c x st : w_ch w c = Some x -> restated w (set_ch w (put (w_ch w) c (con_st st x))).
Proof.
  intros E. eexists. split; [reflexivity|]. intros d. unfold put. destruct (Nat.eqb_spec d c) as [->|n]; [rewrite E; eauto|]. destruct (w_ch w d) as [z|]; [|exact I]. exists (c_st z). destruct z; reflexivity.
Qed.
Lemma contact_live w e : SInv w -> In e (w_cts w) -> exists x k0 k1, contact_of w e x k0 k1 /\ c_b0 x <> c_b1 x /\
  (c_killed x = false -> owned (w_kh w) k0 (c_b0 x) /\ owned (w_kh w) k1 (c_b1 x)).
Proof.
  intros S He. destruct (i_contacts _ S) as ((A & _ & T) & _). destruct (T e He) as (x & k0 & k1 & X1 & X2 & X3 & X4 & X5). exists x, k0, k1. repeat split; auto; apply X5; assumption.
Qed.
Lemma pre_contact_ok w e : SInv w -> unkilled w -> In e (w_cts w) -> exists w', pre_contact e w = Ok tt w' /\ restated w w'.
Proof.
  intros S U He. destruct (contact_live w e S He) as (x & k0 & k1 & (_ & Ex & Ec) & _ & HO). destruct (HO (U _ _ Ex)) as [(z0 & Z0 & _) (z1 & Z1 & _)].
  unfold pre_contact, bind, con_at, col_at, deref. rewrite Ex, Ec, Z0, Z1. unfold put_con, modify. eexists. split; [reflexivity|]. apply restated_con, Ex.
Qed.
Lemma iter_read {A} (h : world -> heap A) (l : list id) w : (forall i, In i l -> exists a, h w i = Some a) -> iter (fun i => _ <- deref h i ;; ret tt) l w = Ok tt w.
Proof.
  induction l as [|i l IH]; intros H; cbn [iter]; [reflexivity|]. destruct (H i (or_introl eq_refl)) as [a E]. unfold bind at 1, bind at 1, deref. rewrite E. unfold ret at 1. apply IH. intros j Hj. apply H. right. exact Hj.
Qed.
Lemma unkilled_kk w w' : unkilled w -> kk w w' -> unkilled w'.
Proof.
  intros U [KC _ _] c x' E'. specialize (KC c). rewrite E' in KC. destruct (w_ch w c) as [x|] eqn:E; [|discriminate]. cbn in KC. injection KC as ->. eauto.
Qed.
Lemma iter_pre_ok : forall l w, SInv w -> unkilled w -> incl l (w_cts w) -> exists w', iter pre_contact l w = Ok tt w' /\ restated w w'.
Proof.
  induction l as [|e l IH]; intros w S U HI; cbn [iter]; [exists w; split; [reflexivity|apply restated_refl]|].
  destruct (pre_contact_ok w e S U (HI e (or_introl eq_refl))) as (w1 & E1 & R1). destruct (restated_same _ _ R1) as (C1 & K1 & _).
  destruct (IH w1) as (w2 & E2 & R2).
  - eapply SInv_same; [exact S|apply C1].
  - eapply unkilled_kk; eassumption.
  - rewrite (sa_cts _ _ (proj1 C1)). intros e' He. apply HI. right. exact He.
  - exists w2. unfold bind. rewrite E1. split; [exact E2|eapply restated_trans; eassumption].
Qed.
Lemma pre_step_ok w : SInv w -> unkilled w -> exists w', pre_step w = Ok tt w' /\ restated w w'.
Proof.
  intros S U. unfold pre_step, body_at, con_at, force_at. unfold bind at 1, get at 1. cbv beta iota. unfold bind at 1. rewrite (iter_read w_bh) by (intros i Hi; apply (i_bodies _ S), Hi).
  unfold bind at 1, get at 1. cbv beta iota. unfold bind at 1. rewrite (iter_read w_ch) by (intros i Hi; apply (i_cons _ S), in_or_app; auto).
  unfold bind at 1, get at 1. cbv beta iota. destruct (iter_pre_ok (w_cts w) w S U (incl_refl _)) as (w1 & E1 & R1). unfold bind at 1. rewrite E1.
  exists w1. split; [|exact R1]. unfold bind, get. apply (iter_read w_fh). destruct (restated_same _ _ R1) as ((Sm & _) & _). intros i Hi.
  apply (i_forces _ (SInv_same _ _ S Sm)), Hi.
Qed.
Lemma post_step_ok w : SInv w -> post_step w = Ok tt w.
Proof.
  intros S. unfold post_step, body_at, con_at, force_at. unfold bind at 1, get at 1. cbv beta iota. unfold bind at 1. rewrite (iter_read w_bh) by (intros i Hi; apply (i_bodies _ S), Hi).
  unfold bind at 1, get at 1. cbv beta iota. unfold bind at 1. rewrite (iter_read w_ch) by (intros i Hi; apply (i_cons _ S), in_or_app; auto).
  unfold bind at 1, get at 1. cbv beta iota. unfold bind at 1. replace (iter (fun e => _ <- deref w_ch (e_con e) ;; ret tt) (w_cts w) w) with (@Ok N BH _ tt w).
  - unfold bind, get. apply (iter_read w_fh). intros i Hi. apply (i_forces _ S), Hi.
  - symmetry. assert (H : forall l, incl l (w_cts w) -> iter (fun e => _ <- deref w_ch (e_con e) ;; ret tt) l w = Ok tt w).
    { induction l as [|e l IH]; intros HI; cbn [iter]; [reflexivity|]. destruct (ent_live w e S (HI e (or_introl eq_refl))) as [x E]. unfold bind at 1, bind at 1, deref. rewrite E. unfold ret at 1. apply IH. intros e' He. apply HI. right. exact He. }
    apply H, incl_refl.
Qed.

(** ** Forces *)
Definition is_forced (e : event) : Prop := match e with Forced _ _ => True | _ => False end.
Definition pushed (w w' : world) : Prop := calm_step w w' /\ kk w w' /\ w_ch w' = w_ch w /\ (exists l, w_log w' = w_log w ++ l /\ Forall is_forced l) /\
  forall b y, w_bh w b = Some y -> b_asleep (wb y) || b_structural (wb y) = true -> w_bh w' b = Some y.
Lemma pushed_refl w : pushed w w.
Proof. split; [apply calm_refl|]. split; [apply kk_refl|]. split; [reflexivity|]. split; [exists []; rewrite app_nil_r; auto|auto]. Qed.
Lemma pushed_trans a b c : pushed a b -> pushed b c -> pushed a c.
Proof.
  intros (A1 & A2 & A3 & (l & A4 & A5) & A6) (B1 & B2 & B3 & (m & B4 & B5) & B6). split; [eapply calm_trans; eassumption|]. split; [eapply kk_trans; eassumption|]. split; [congruence|]. split; [|eauto].
  exists (l ++ m). rewrite B4, A4, app_assoc. split; [reflexivity|apply Forall_app; auto].
Qed.
Lemma find_col_in y k : In k (ids_of y) -> exists c, find_col (wb y) k = Some c.
Proof.
  unfold ids_of, find_col. intros H. apply in_map_iff in H. destruct H as (c & Ec & Hc). destruct (find (fun c => Nat.eqb (c_id c) k) (b_colliders (wb y))) eqn:E; [eauto|].
  exfalso. apply (find_none _ _ E) in Hc. rewrite Ec, Nat.eqb_refl in Hc. discriminate.
Qed.
Lemma apply_one_ok f dt k w : SInv w -> gentle w -> (exists x, w_fh w f = Some x) -> In k (w_tree w) -> wp (apply_one f dt k) (fun _ w' => pushed w w') w.
Proof.
  intros S G [ff Ef] Hk. destruct (i_cols _ S) as (_ & K2 & K3 & K4 & _). pose proof (proj1 (K2 k) Hk) as [x Ex]. destruct (K3 k x Ex) as [y Ey].
  unfold apply_one. apply wp_bind, (wp_deref w_kh k x); [exact Ex|]. apply wp_bind, (wp_deref w_bh _ y); [exact Ey|].
  destruct (negb (b_asleep (wb y)) && negb (b_structural (wb y))) eqn:EA; [|apply wp_ret, pushed_refl]. apply wp_bind, (wp_deref w_fh f ff); [exact Ef|].
  destruct (find_col_in y k) as [c Ec]; [apply (K4 _ _ Ey); exists x; auto|]. rewrite Ec. apply wp_bind, wp_lift; [apply (G f ff Ef)|]. intros b' _.
  unfold wp, bind, put_body, log, modify. split; [|split; [|split; [|split]]].
  - eapply calm_trans; [|split; [apply same_log|split; reflexivity]]. eapply calm_body; [exact Ey|apply body_same_wb; reflexivity|reflexivity].
  - eapply kk_trans; [|apply kk_log]. eapply kk_body; [exact Ey|reflexivity].
  - reflexivity.
  - cbn. eexists. split; [reflexivity|]. repeat constructor.
  - intros b y0 E0 H. cbn. rewrite put_ne; [exact E0|]. intros ->. rewrite Ey in E0. injection E0 as <-. rewrite <- negb_orb, H in EA. discriminate.
Qed.
Lemma gentle_kk w w' : gentle w -> kk w w' -> gentle w'.
Proof. intros G [_ _ E] f x. rewrite E. apply G. Qed.
Lemma iter_apply_ok f dt l : forall w, SInv w -> gentle w -> (exists x, w_fh w f = Some x) -> incl l (w_tree w) -> wp (iter (apply_one f dt) l) (fun _ w' => pushed w w') w.
Proof.
  induction l as [|k l IH]; intros w S G HF HI; cbn [iter]; [apply wp_ret, pushed_refl|]. apply wp_bind.
  eapply wp_mono; [apply (apply_one_ok f dt k w S G HF (HI k (or_introl eq_refl)))|]. intros u w1 _ P. pose proof P as ((Sm & _) & K & _). eapply wp_mono.
  - apply (IH w1); [eapply SInv_same; eassumption|eapply gentle_kk; eassumption|rewrite (kk_f _ _ K); exact HF|]. rewrite (sa_tree _ _ Sm). intros j Hj. apply HI. right. exact Hj.
  - intros u' w2 _ P2. exact (pushed_trans _ _ _ P P2).
Qed.
Lemma apply_forces_ok dt region w : SInv w -> gentle w -> wp (apply_forces dt region) (fun _ w' => pushed w w') w.
Proof.
  intros S G. unfold apply_forces. apply wp_bind. unfold wp at 1, get.
  assert (H : forall l w, SInv w -> gentle w -> incl l (w_forces w) -> wp (iter (fun f => ff <- force_at f ;; t <- (fun w => Ok (w_tree w) w) ;; iter (apply_one f dt) (if f_region ff then filter (fun k => existsb (Nat.eqb k) t) (region f) else t)) l) (fun _ w' => pushed w w') w).
  { clear. induction l as [|f l IH]; intros w S G HI; cbn [iter]; [apply wp_ret, pushed_refl|].
    assert (HF : exists x, w_fh w f = Some x) by (apply (i_forces _ S), HI; left; reflexivity). pose proof HF as [ff Ef].
    apply wp_bind, wp_bind, (wp_deref w_fh f ff); [exact Ef|]. apply wp_bind. unfold wp at 1. eapply wp_mono; [apply (iter_apply_ok f dt _ w S G HF)|].
    - destruct (f_region ff); [|apply incl_refl]. intros k Hk. apply filter_In in Hk. apply existsb_in, Hk.
    - intros u w1 _ P. pose proof P as ((Sm & _) & K & _). eapply wp_mono; [apply (IH w1)|].
      + eapply SInv_same; eassumption.
      + eapply gentle_kk; eassumption.
      + rewrite (sa_forces _ _ Sm). intros j Hj. apply HI. right. exact Hj.
      + intros u' w2 _ P2. exact (pushed_trans _ _ _ P P2). }
  apply H; auto using incl_refl.
Qed.

(** ** Islands *)
Hypothesis T : tame.
Definition is_solved (e : event) : Prop := match e with Solved _ _ _ => True | _ => False end.
Lemma solve_islands_ok f1 f2 s dt aw w : SInv w -> quiet_ids w -> length (w_bodies w) <= f1 -> length (w_bodies w) <= f2 ->
  wp (solve_islands f1 f2 s dt aw (w_bodies w)) (fun _ w' => SInv w' /\ quiet_ids w' /\ same w w' /\ kk w w' /\ exists l, w_log w' = w_log w ++ l /\ Forall is_solved l) w.
Proof.
  intros S Q H1 H2. eapply wp_mono; [apply wp_frame; [apply fk_solve_islands|]|].
  - apply (solve_islands_wp (fun _ _ w' => exists l, w_log w' = w_log w ++ l /\ Forall is_solved l)); auto using incl_refl; [|exists []; rewrite app_nil_r; auto].
    intros aw' todo root l w1 S1 Q1 (lg & Hlg & HF) Et HI HFu. eapply wp_mono.
    + apply (solve_one_simple T (fun _ => True) f2 s dt aw' todo root l w1); auto.
    + intros r w' _ (il & w2 & B & HS & HP & SV & Si & Qi & Sm & Er & HI' & HL). split; [exact Si|]. split; [exact Qi|]. split; [exact Sm|]. split; [|auto].
      destruct (solved_end _ _ _ _ SV) as (_ & _ & _ & Elog). rewrite (sh_log _ _ _ _ HS), Hlg in Elog. eexists. split; [rewrite Elog, <- app_assoc; reflexivity|]. apply Forall_app. split; [exact HF|]. repeat constructor.
  - intros u w' _ ((A1 & A2 & A3 & _ & A4) & K). auto 8.
Qed.

(** ** Contacts *)
Lemma SInv_map w g : SInv w -> (forall e, e_key (g e) = e_key e /\ e_con (g e) = e_con e) -> SInv (set_cts w (map g (w_cts w))).
Proof.
  intros [B C F E L1 L2 K Tc Z] Hg. assert (EM : map e_con (map g (w_cts w)) = map e_con (w_cts w)) by (rewrite map_map; apply map_ext; intros e; apply Hg).
  constructor; cbn; rewrite ?EM; auto. destruct Tc as ((A & T1 & T2) & T3 & T4). split; [|split].
  - exists A. split; [exact T1|]. intros e' He. apply in_map_iff in He. destruct He as (e & <- & He). destruct (T2 e He) as (x & k0 & k1 & X). exists x, k0, k1. destruct (Hg e) as [-> ->]. exact X.
  - intros e' k0 k1 x He. apply in_map_iff in He. destruct He as (e & <- & He). destruct (Hg e) as [_ ->]. apply T3, He.
  - intros e1 e2 H1 H2. apply in_map_iff in H1, H2. destruct H1 as (e & <- & H1), H2 as (e' & <- & H2). destruct (Hg e) as [-> _], (Hg e') as [-> _]. intros H. rewrite (T4 e e' H1 H2 H). reflexivity.
Qed.
Lemma SInv_perm w es : SInv w -> Permutation es (w_cts w) -> SInv (set_cts w es).
Proof.
  intros [B C F E L1 L2 K Tc Z] P. assert (PM : Permutation (map e_con es) (map e_con (w_cts w))) by (apply Permutation_map, P).
  assert (HI : forall c, In c (map e_con es) <-> In c (map e_con (w_cts w))) by (intros c; split; apply Permutation_in; [|apply Permutation_sym]; exact PM).
  assert (HE : forall e, In e es -> In e (w_cts w)) by (intros e; apply Permutation_in, P).
  constructor; cbn; auto.
  - destruct C as [C1 C2]. split; [eapply Permutation_NoDup; [|exact C1]; apply Permutation_app_head, Permutation_sym, PM|]. intros i. rewrite <- C2, !in_app_iff, HI. reflexivity.
  - intros b y Ey. destruct (L2 b y Ey) as [A1 A2]. split; [exact A1|]. intros c. rewrite A2, HI. reflexivity.
  - eapply contacts_sub; [exact Tc|exact HE|reflexivity].
Qed.
Lemma SInv_contact w w' x a b xa xb : SInv w -> quiet_ids w -> w_kh w a = Some xa -> w_kh w b = Some xb ->
  attached w w' (w_next w) x (w_cons w) (w_cts w ++ [EN (k_addr xa, k_addr xb) (w_next w) true]) (fun y => with_cts y (wb_cts y ++ [w_next w])) ->
  c_b0 x = k_body xa -> c_b1 x = k_body xb -> c_cols x = Some (a, b) -> c_px x = false -> k_body xa <> k_body xb ->
  (forall e, In e (w_cts w) -> e_key e <> (k_addr xa, k_addr xb) /\ e_key e <> (k_addr xb, k_addr xa)) -> SInv w' /\ quiet_ids w'.
Proof.
  intros [B C F E L1 L2 K Tc Z] Qt Ha Hb (A1 & A2 & A3 & A4 & A5 & A6 & A7 & A8 & A9 & A10 & A11 & A12) E0 E1 EC HP Hne HK.
  destruct (Z (w_next w) (le_n _)) as (Z1 & Z2 & Z3 & Z4). destruct K as (K1 & K2 & K3 & K4 & K5).
  assert (HL : forall b, In b (con_bodies x) -> exists y, w_bh w b = Some y) by (intros j Hj; apply in_bodies in Hj; rewrite E0, E1 in Hj; destruct Hj as [->| ->]; eauto).
  assert (NI : ~ In (w_next w) (w_cons w ++ map e_con (w_cts w))) by (intros H; apply C in H; destruct H; congruence).
  assert (NI1 : ~ In (w_next w) (w_cons w)) by (intros H; apply NI, in_or_app; auto). assert (NI2 : ~ In (w_next w) (map e_con (w_cts w))) by (intros H; apply NI, in_or_app; auto).
  assert (EM : map e_con (w_cts w ++ [EN (k_addr xa, k_addr xb) (w_next w) true]) = map e_con (w_cts w) ++ [w_next w]) by (rewrite map_app; reflexivity).
  split.
  - constructor; rewrite ?A1, ?A3, ?A4, ?A5, ?EM, ?A6, ?A7, ?A8, ?A9, ?A11.
    + split; [apply B|]. intros j. rewrite <- (bmap_live _ _ _ _ _ A2). apply B.
    + rewrite app_assoc. split; [apply nodup_snoc; [apply C|exact NI]|]. intros j. rewrite in_snoc. unfold put. destruct (Nat.eqb_spec j (w_next w)) as [->|n].
      * split; [eauto|]. intros _. auto.
      * rewrite <- (proj2 C j). intuition congruence.
    + exact F.
    + intros c z Ez j Hj. rewrite <- (bmap_live _ _ _ _ _ A2). apply put_some in Ez. destruct Ez as [[_ ->]|[_ Ez]]; eauto.
    + apply (links_other (w_bh w)); auto. intros j y' E'. destruct (bmap_some _ _ _ _ _ _ A2 E') as (y & Ey & ->). exists y. split; [exact Ey|]. destruct (existsb _ _); reflexivity.
    + apply (links_attach (w_bh w) _ _ (map e_con (w_cts w))); auto.
      * intros c. apply in_snoc.
      * intros c Hc. apply C. apply in_or_app. auto.
      * intros j y' E'. destruct (bmap_some _ _ _ _ _ _ A2 E') as (y & Ey & ->). exists y. split; [exact Ey|]. destruct (existsb _ _); reflexivity.
    + eapply cols_keep; [split; [exact K1|split; [exact K2|split; [exact K3|split; [exact K4|exact K5]]]]| |].
      * intros j y' E'. destruct (bmap_some _ _ _ _ _ _ A2 E') as (y & Ey & ->). exists y. split; [exact Ey|]. destruct (existsb _ _); reflexivity.
      * intros j. apply (bmap_live _ _ _ _ _ A2).
    + assert (HX : forall e, In e (w_cts w) -> put (w_ch w) (w_next w) x (e_con e) = w_ch w (e_con e)) by (intros e He; apply put_ne; intros H; apply NI2; rewrite <- H; apply in_map, He).
      destruct (contacts_more (w_next w) (S (w_next w)) (w_ch w) (put (w_ch w) (w_next w) x) (w_kh w) (w_cts w) Tc ltac:(lia) HX) as ((A & T1 & T2) & T3 & T4). split; [|split].
      * exists A. split; [exact T1|]. intros e He. apply in_snoc in He. destruct He as [He| ->]; [apply T2, He|]. exists x, a, b. cbn [e_con e_key]. rewrite put_eq, E0, E1.
        split; [reflexivity|]. split; [exact EC|]. split; [rewrite <- (T1 a xa Ha), <- (T1 b xb Hb); reflexivity|]. split; [exact Hne|]. intros _. split; [exists xa|exists xb]; auto.
      * intros e k0 k1 z He. apply in_snoc in He. destruct He as [He| ->]; [apply T3, He|]. cbn [e_con]. rewrite put_eq. intros Ez Ec. injection Ez as <-. rewrite EC in Ec. injection Ec as <- <-.
        assert (HN : forall k y, w_kh w k = Some y -> k < S (w_next w)) by (intros k y Ek; destruct (Nat.lt_ge_cases k (w_next w)) as [H|H]; [lia|]; destruct (Z k H) as (_ & _ & _ & H'); congruence).
        split; eapply HN; eassumption.
      * intros e e' He He' Hk. apply in_snoc in He, He'. destruct He as [He| ->], He' as [He'| ->]; cbn [e_key] in *; [apply T4; auto| | |reflexivity].
        { exfalso. destruct (HK e He) as [H1 H2]. destruct Hk as [Hk|Hk]; [congruence|]. apply H2. unfold swap in Hk. destruct (e_key e) as [u v]. cbn in Hk. injection Hk as -> ->. reflexivity. }
        { exfalso. destruct (HK e' He') as [H1 H2]. unfold swap in Hk. cbn in Hk. tauto. }
    + intros j Hj. destruct (Z j ltac:(lia)) as (B1 & B2 & B3 & B4). rewrite put_ne by lia. rewrite (bmap_none _ _ _ _ _ A2 B1). auto.
  - destruct Qt as (I1 & I2). split.
    + intros j y' E'. destruct (bmap_some _ _ _ _ _ _ A2 E') as (y & Ey & ->). destruct (existsb _ _); apply (I1 j y Ey).
    + rewrite A1. intros c z Ez. apply put_some in Ez. destruct Ez as [[_ ->]|[_ Ez]]; eauto.
Qed.

Lemma blocked_eq w l b : (forall c, In c l -> exists x, w_ch w c = Some x) ->
  exists d, blocked l b w = Ok d w /\ (d = true <-> exists c x, In c l /\ w_ch w c = Some x /\ c_dis x = true /\ (c_b0 x = b \/ c_b1 x = b)).
Proof.
  induction l as [|c l IH]; intros H; cbn [blocked].
  - exists false. split; [reflexivity|]. split; [discriminate|]. intros (c & x & [] & _).
  - destruct (H c (or_introl eq_refl)) as [x Ex]. unfold bind, con_at, deref. rewrite Ex. destruct (c_dis x && (Nat.eqb (c_b0 x) b || Nat.eqb (c_b1 x) b)) eqn:EB.
    + exists true. split; [reflexivity|]. split; [|reflexivity]. intros _. exists c, x. apply andb_true_iff in EB. destruct EB as [E1 E2]. apply orb_true_iff in E2. rewrite !Nat.eqb_eq in E2. split; [left; reflexivity|]. auto.
    + destruct IH as (d & Ed & Hd); [intros c' Hc'; apply H; right; exact Hc'|]. exists d. split; [exact Ed|]. rewrite Hd. split.
      * intros (c' & x' & Hc' & R). exists c', x'. split; [right; exact Hc'|exact R].
      * intros (c' & x' & [<-|Hc'] & Ex' & Edis & Hb); [|exists c', x'; auto]. rewrite Ex in Ex'. injection Ex' as <-. rewrite Edis in EB. cbn in EB. apply orb_false_iff in EB. rewrite !Nat.eqb_neq in EB. tauto.
Qed.
Lemma same_key_eq a b : same_key a b = true <-> a = b.
Proof. unfold same_key. destruct a, b. cbn. rewrite andb_true_iff, !Nat.eqb_eq. split; [intros [-> ->]; reflexivity|intros H; injection H; auto]. Qed.
Lemma find_entry_some w k e : find_entry w k = Some e -> In e (w_cts w) /\ e_key e = k.
Proof. intros H. apply find_some in H. destruct H as [H1 H2]. split; [exact H1|]. apply same_key_eq, H2. Qed.
Lemma find_entry_none w k e : find_entry w k = None -> In e (w_cts w) -> e_key e <> k.
Proof. intros H He Hk. pose proof (find_none _ _ H e He) as F. cbv beta in F. change (same_key (e_key e) k = false) in F. rewrite (proj2 (same_key_eq _ _) Hk) in F. discriminate. Qed.
Lemma in_contacts_some w k e : in_contacts w k = Some e -> In e (w_cts w) /\ (e_key e = k \/ e_key e = swap k).
Proof.
  unfold in_contacts. destruct (find_entry w k) as [e0|] eqn:E; intros H.
  - injection H as <-. apply find_entry_some in E. tauto.
  - apply find_entry_some in H. unfold swap. tauto.
Qed.
Lemma in_contacts_none w k e : in_contacts w k = None -> In e (w_cts w) -> e_key e <> k /\ e_key e <> swap k.
Proof.
  unfold in_contacts. destruct (find_entry w k) as [e0|] eqn:E; intros H He; [discriminate|]. split; eapply find_entry_none; eassumption.
Qed.

(** ** Registering the reported pairs *)
Section Register.
Variable o : oracle.
Hypothesis Hsh : shuffles o.
Variable w1 : world.
Hypothesis S1 : SInv w1.
Hypothesis U1 : unkilled w1.
Hypothesis Hit1 : forall e, In e (w_cts w1) -> e_hit e = false.

Record reg (done : list (id * id)) (w : world) : Prop := {
  rg_s : SInv w; rg_q : quiet_ids w; rg_u : unkilled w;
  rg_kh : w_kh w = w_kh w1; rg_tree : w_tree w = w_tree w1; rg_cons : w_cons w = w_cons w1; rg_bodies : w_bodies w = w_bodies w1;
  rg_forces : w_forces w = w_forces w1; rg_fh : w_fh w = w_fh w1; rg_set : w_set w = w_set w1; rg_log : w_log w = w_log w1; rg_next : w_next w1 <= w_next w;
  rg_old : forall c, c < w_next w1 -> w_ch w c = w_ch w1 c;
  rg_body : forall b y, w_bh w b = Some y -> exists y1, w_bh w1 b = Some y1 /\ wb_cs y = wb_cs y1 /\ wb_killed y = wb_killed y1 /\ (wb y = wb y1 \/ wb y = set_asleep false (wb y1));
  rg_hit : forall e x a b, contact_of w e x a b -> e_hit e = true -> exists p, In p done /\ may_touch w1 a b /\ pair_of p a b;
  rg_pair : forall p, In p done -> may_touch w1 (fst p) (snd p) -> exists e x a b, contact_of w e x a b /\ e_hit e = true /\ pair_of p a b }.

Lemma old_con c x : w_ch w1 c = Some x -> c < w_next w1.
Proof. intros E. destruct (Nat.lt_ge_cases c (w_next w1)) as [H|H]; [exact H|]. destruct (i_fresh _ S1 c H) as (_ & H' & _). congruence. Qed.
Lemma may_touch_sym w a b : may_touch w a b -> may_touch w b a.
Proof.
  intros (H1 & H2 & xa & xb & E1 & E2 & Hne & HB). split; [exact H2|]. split; [exact H1|]. exists xb, xa. split; [exact E2|]. split; [exact E1|]. split; [congruence|].
  intros d z Hd Ez Edis [J1 J2]. apply (HB d z Hd Ez Edis). split; assumption.
Qed.
(** a contact of the colliders [a], [b] has their addresses as key *)
Lemma contact_key done w e x a b : reg done w -> contact_of w e x a b -> exists xa xb, w_kh w1 a = Some xa /\ w_kh w1 b = Some xb /\ e_key e = (k_addr xa, k_addr xb) /\ c_b0 x = k_body xa /\ c_b1 x = k_body xb /\ c_b0 x <> c_b1 x.
Proof.
  intros R (He & Ex & Ec). destruct (i_contacts _ (rg_s _ _ R)) as ((A & T1 & T2) & _). destruct (T2 e He) as (x' & k0 & k1 & X1 & X2 & X3 & X4 & X5).
  rewrite Ex in X1. injection X1 as <-. rewrite Ec in X2. injection X2 as <- <-. destruct (X5 (rg_u _ _ R _ _ Ex)) as [(xa & Ea & Ba) (xb & Eb & Bb)].
  pose proof (T1 a xa Ea) as Aa. pose proof (T1 b xb Eb) as Ab. rewrite (rg_kh _ _ R) in Ea, Eb. exists xa, xb. rewrite X3, Aa, Ab. auto 8.
Qed.
Lemma key_cols done w e x a b a' b' xa xb : reg done w -> contact_of w e x a' b' -> w_kh w1 a = Some xa -> w_kh w1 b = Some xb ->
  e_key e = (k_addr xa, k_addr xb) -> a' = a /\ b' = b.
Proof.
  intros R C Ha Hb Hk. destruct (contact_key done w e x a' b' R C) as (xa' & xb' & Ea & Eb & Hk' & _). rewrite Hk in Hk'. injection Hk' as H1 H2.
  destruct (i_cols _ S1) as (_ & _ & _ & _ & K5). split; [apply (K5 a' a xa' xa)|apply (K5 b' b xb' xb)]; auto.
Qed.
Lemma contact_ex w e : SInv w -> In e (w_cts w) -> exists x a b, contact_of w e x a b.
Proof. intros S He. destruct (contact_live w e S He) as (x & a & b & C & _). eauto. Qed.

Lemma reg_skip done p w : reg done w -> ~ may_touch w1 (fst p) (snd p) -> reg (done ++ [p]) w.
Proof.
  intros R HN. destruct R. constructor; auto.
  - intros e x a b C Hh. destruct (rg_hit0 e x a b C Hh) as (q & Hq & M). exists q. split; [apply in_or_app; auto|exact M].
  - intros q Hq Hm. apply in_snoc in Hq. destruct Hq as [Hq| ->]; [auto|contradiction].
Qed.
Lemma make_contact_ok p xa xb w : SInv w -> quiet_ids w -> w_kh w (fst p) = Some xa -> w_kh w (snd p) = Some xb -> k_body xa <> k_body xb ->
  (forall e, In e (w_cts w) -> e_key e <> (k_addr xa, k_addr xb) /\ e_key e <> (k_addr xb, k_addr xa)) ->
  wp (make_contact o (fst p) (snd p)) (fun i w' => i = w_next w /\ exists x h, w' = set_bh (set_ch (set_next w (S (w_next w))) (put (w_ch w) i x)) h /\
    bmap (con_bodies x) (fun y => wakeup (with_cts y (wb_cts y ++ [i]))) (w_bh w) h /\
    c_b0 x = k_body xa /\ c_b1 x = k_body xb /\ c_cols x = Some (fst p, snd p) /\ c_killed x = false /\ c_px x = false) w.
Proof.
  intros S Q Ha Hb Hne HK. destruct (i_cols _ S) as (_ & _ & K3 & _).
  unfold make_contact. apply wp_bind, (wp_deref w_kh _ xa); [exact Ha|]. apply wp_bind, (wp_deref w_kh _ xb); [exact Hb|]. apply wp_bind.
  pose proof (new_con_calm (k_body xa) (k_body xb) None false (Some (fst p, snd p)) (o_state o (fst p) (snd p)) w (K3 _ _ Ha) (K3 _ _ Hb)) as HC.
  unfold wp at 1. destruct (new_con _ _ _ _ _ _ w) as [x w2|w2| |] eqn:EC; try contradiction; [subst w2|exact I].
  destruct (new_con_ok _ _ _ _ _ _ _ _ _ EC) as (_ & E0 & E1 & _ & E2 & E3 & EP & _).
  unfold wp, bind at 1, fresh. cbv beta iota. unfold bind at 1, put_con, modify. cbv beta iota. set (w2 := set_ch _ _).
  destruct (touch_spec (fun y => with_cts y (wb_cts y ++ [w_next w])) (con_bodies x) w2 (con_bodies_nd x)) as (h & Et & Hh).
  { intros b Hj. apply in_bodies in Hj. rewrite E0, E1 in Hj. destruct Hj as [->| ->]; [apply (K3 _ _ Ha)|apply (K3 _ _ Hb)]. }
  unfold bind at 1. rewrite Et. unfold ret. split; [reflexivity|]. exists x, h. auto 8.
Qed.
Lemma register_ok done p w : reg done w -> wp (register o p) (fun _ w' => reg (done ++ [p]) w') w.
Proof.
  intros R. pose proof (rg_s _ _ R) as HS. destruct p as [a b]. unfold register. cbn [fst snd]. apply wp_bind. unfold wp at 1, get at 1. rewrite (rg_tree _ _ R).
  destruct (existsb (Nat.eqb a) (w_tree w1) && existsb (Nat.eqb b) (w_tree w1)) eqn:ET.
  2:{ apply wp_ret, reg_skip; [exact R|]. intros (H1 & H2 & _). cbn [fst snd] in *. apply (proj2 (existsb_in _ _)) in H1, H2. rewrite H1, H2 in ET. discriminate. }
  apply andb_true_iff in ET. destruct ET as [Ta Tb]. apply existsb_in in Ta, Tb.
  destruct (i_cols _ S1) as (_ & K2 & K3 & _ & K5). pose proof (proj1 (K2 a) Ta) as [xa Ea]. pose proof (proj1 (K2 b) Tb) as [xb Eb].
  assert (Ea' : w_kh w a = Some xa) by (rewrite (rg_kh _ _ R); exact Ea). assert (Eb' : w_kh w b = Some xb) by (rewrite (rg_kh _ _ R); exact Eb).
  apply wp_bind, (wp_deref w_kh a xa); [exact Ea'|]. apply wp_bind, (wp_deref w_kh b xb); [exact Eb'|].
  destruct (Nat.eqb_spec (k_body xa) (k_body xb)) as [Hbb|Hbb].
  { apply wp_ret, reg_skip; [exact R|]. intros (_ & _ & ya & yb & Ya & Yb & Hn & _). cbn [fst snd] in *. rewrite Ea in Ya. rewrite Eb in Yb. injection Ya as <-. injection Yb as <-. contradiction. }
  destruct (i_cols _ HS) as (_ & _ & K3w & _). destruct (K3w a xa Ea') as [ya Eya]. apply wp_bind, (wp_deref w_bh _ ya); [exact Eya|].
  destruct (i_cs _ HS _ _ Eya) as [_ Lcs].
  destruct (blocked_eq w (wb_cs ya) (k_body xb)) as (d & Ed & Hd); [intros c Hc; apply Lcs in Hc; destruct Hc as [_ (x & Ex & _)]; eauto|].
  assert (HB : d = true <-> exists c z, In c (w_cons w1) /\ w_ch w1 c = Some z /\ c_dis z = true /\ joins z (k_body xa) (k_body xb)).
  { rewrite Hd. split.
    - intros (c & x & Hc & Ex & Edis & Hx). apply Lcs in Hc. destruct Hc as [Hc (x' & Ex' & Hin)]. rewrite Ex in Ex'. injection Ex' as <-. rewrite (rg_cons _ _ R) in Hc.
      assert (Ex1 : w_ch w1 c = Some x). { rewrite <- (rg_old _ _ R c); [exact Ex|]. assert (HL : exists z, w_ch w1 c = Some z) by (apply (i_cons _ S1), in_or_app; auto). destruct HL as [z Ez]. apply (old_con _ _ Ez). }
      exists c, x. apply in_bodies in Hin. unfold joins. repeat split; auto. destruct Hin; auto.
    - intros (c & z & Hc & Ez & Edis & [J1 J2]). assert (Ex : w_ch w c = Some z) by (rewrite (rg_old _ _ R c (old_con _ _ Ez)); exact Ez). exists c, z. split; [|auto]. apply Lcs. rewrite (rg_cons _ _ R). split; [exact Hc|].
      exists z. split; [exact Ex|]. apply in_bodies. destruct J1; auto. }
  apply wp_bind. unfold wp at 1. rewrite Ed. destruct d.
  { apply wp_ret, reg_skip; [exact R|]. intros (_ & _ & ya' & yb' & Ya & Yb & _ & HN). cbn [fst snd] in *. rewrite Ea in Ya. rewrite Eb in Yb. injection Ya as <-. injection Yb as <-.
    destruct (proj1 HB eq_refl) as (c & z & Hc & Ez & Edis & J). apply (HN c z Hc Ez Edis J). }
  assert (MT : may_touch w1 a b).
  { split; [exact Ta|]. split; [exact Tb|]. exists xa, xb. split; [exact Ea|]. split; [exact Eb|]. split; [exact Hbb|]. intros c z Hc Ez Edis J. assert (X : false = true) by (apply HB; eauto 8). discriminate. }
  apply wp_bind. unfold wp at 1, get at 1. destruct (in_contacts w (k_addr xa, k_addr xb)) as [e|] eqn:EI.
  - (* an existing contact is marked *)
    apply in_contacts_some in EI. destruct EI as [He Hk]. set (g := fun e' : entry => if same_key (e_key e') (e_key e) then EN (e_key e') (e_con e') true else e').
    assert (Hg : forall e', e_key (g e') = e_key e' /\ e_con (g e') = e_con e') by (intros e'; unfold g; destruct (same_key _ _); auto).
    assert (Ge : forall e', In e' (w_cts w) -> e_key e' = e_key e -> e' = e).
    { intros e' He' Hk'. destruct (i_contacts _ HS) as (_ & _ & T4). apply T4; auto. }
    destruct (contact_ex w e HS He) as (x & a' & b' & Ce).
    assert (Hab : pair_of (a, b) a' b').
    { destruct Hk as [Hk|Hk]; [destruct (key_cols done w e x a b a' b' xa xb R Ce Ea Eb Hk) as [-> ->]; left; reflexivity|].
      unfold swap in Hk. cbn in Hk. destruct (key_cols done w e x b a a' b' xb xa R Ce Eb Ea Hk) as [-> ->]. right. reflexivity. }
    assert (CO : forall e0 x0 a0 b0, contact_of (set_cts w (map g (w_cts w))) e0 x0 a0 b0 -> exists e1, e0 = g e1 /\ contact_of w e1 x0 a0 b0).
    { intros e0 x0 a0 b0 (H1 & H2 & H3). cbn in H1, H2. apply in_map_iff in H1. destruct H1 as (e1 & <- & H1). exists e1. split; [reflexivity|]. destruct (Hg e1) as [_ G2]. rewrite G2 in H2. repeat split; auto. }
    assert (CO' : forall e1 x0 a0 b0, contact_of w e1 x0 a0 b0 -> contact_of (set_cts w (map g (w_cts w))) (g e1) x0 a0 b0).
    { intros e1 x0 a0 b0 (H1 & H2 & H3). destruct (Hg e1) as [_ G2]. repeat split; cbn; [apply in_map, H1|rewrite G2; exact H2|exact H3]. }
    unfold wp, modify. fold g. pose proof (SInv_map w g HS Hg) as HS'. destruct R. constructor; auto.
    + intros e0 x0 a0 b0 C0 Hh. destruct (CO e0 x0 a0 b0 C0) as (e1 & -> & C1). destruct (e_hit e1) eqn:Eh.
      * destruct (rg_hit0 e1 x0 a0 b0 C1 Eh) as (q & Hq & M). exists q. split; [apply in_or_app; auto|exact M].
      * unfold g in Hh. destruct (same_key (e_key e1) (e_key e)) eqn:EK; [|congruence]. apply same_key_eq in EK. pose proof (Ge e1 (proj1 C1) EK) as ->.
        destruct C1 as (_ & X1 & X2), Ce as (_ & Y1 & Y2). rewrite X1 in Y1. injection Y1 as <-. rewrite X2 in Y2. injection Y2 as <- <-. exists (a, b). split; [apply in_or_app; right; left; reflexivity|]. split; [|exact Hab].
        destruct Hab as [Hab|Hab]; injection Hab as <- <-; [exact MT|apply may_touch_sym, MT].
    + intros q Hq Hm. apply in_snoc in Hq. destruct Hq as [Hq| ->].
      * destruct (rg_pair0 q Hq Hm) as (e1 & x1 & a1 & b1 & C1 & Hh & Hp). exists (g e1), x1, a1, b1. split; [apply CO', C1|]. split; [|exact Hp]. unfold g. destruct (same_key _ _); [reflexivity|exact Hh].
      * exists (g e), x, a', b'. split; [apply CO', Ce|]. split; [|exact Hab]. unfold g. rewrite (proj2 (same_key_eq _ _) eq_refl). reflexivity.
  - (* a new contact *)
    pose proof (fun e => in_contacts_none w _ e EI) as HN. unfold swap in HN. cbn [fst snd] in HN. apply wp_bind.
    eapply wp_mono; [apply (make_contact_ok (a, b) xa xb w HS (rg_q _ _ R) Ea' Eb' Hbb HN)|]. intros i w2 _ (-> & x & h & -> & Hh & X0 & X1 & X2 & X3 & X4). cbn [fst snd] in X2.
    unfold wp, modify. cbn [w_cts set_bh set_ch set_next]. set (es := w_cts w ++ [EN (k_addr xa, k_addr xb) (w_next w) true]). set (es' := o_shuffle o (length (w_cts w)) es).
    set (w2 := set_bh (set_ch (set_next w (S (w_next w))) (put (w_ch w) (w_next w) x)) h).
    assert (AT : attached w (set_cts w2 es) (w_next w) x (w_cons w) es (fun y => with_cts y (wb_cts y ++ [w_next w]))) by (repeat split; exact Hh).
    destruct (SInv_contact w (set_cts w2 es) x a b xa xb HS (rg_q _ _ R) Ea' Eb' AT X0 X1 X2 X4 Hbb HN) as [HS2 HQ2].
    pose proof (SInv_perm (set_cts w2 es) es' HS2 (Hsh _ _)) as HS3.
    assert (IN : forall e, In e es' <-> In e (w_cts w) \/ e = EN (k_addr xa, k_addr xb) (w_next w) true).
    { intros e. rewrite <- in_snoc. split; [apply Permutation_in, Hsh|apply Permutation_in, Permutation_sym, Hsh]. }
    assert (CO : forall e0 x0 a0 b0, contact_of (set_cts w2 es') e0 x0 a0 b0 <-> contact_of w e0 x0 a0 b0 \/ (e0 = EN (k_addr xa, k_addr xb) (w_next w) true /\ x0 = x /\ a0 = a /\ b0 = b)).
    { intros e0 x0 a0 b0. unfold contact_of. cbn [w_cts set_cts w2 w_ch set_bh set_ch]. rewrite IN. split.
      - intros ([H1| ->] & H2 & H3).
        + left. rewrite put_ne in H2 by (apply fresh_con; assumption). auto.
        + right. cbn [e_con] in H2. rewrite put_eq in H2. injection H2 as <-. rewrite X2 in H3. injection H3 as <- <-. auto.
      - intros [(H1 & H2 & H3)|(-> & -> & -> & ->)]; [rewrite put_ne by (apply fresh_con; assumption); auto|]. cbn [e_con]. rewrite put_eq. auto. }
    destruct R. constructor; auto.
    + intros c z Ez. cbn in Ez. apply put_some in Ez. destruct Ez as [[_ ->]|[_ Ez]]; eauto.
    + cbn. lia.
    + intros c Hc. cbn. rewrite put_ne by lia. auto.
    + intros j y' E'. cbn in E'. destruct (bmap_some _ _ _ _ _ _ Hh E') as (y & Ey & ->). destruct (rg_body0 j y Ey) as (y1 & Ey1 & Q1 & Q2 & Q3). exists y1. split; [exact Ey1|].
      destruct (existsb _ _); [|auto]. cbn. split; [exact Q1|]. split; [exact Q2|]. right. destruct Q3 as [->| ->]; reflexivity.
    + intros e0 x0 a0 b0 C0 Eh. apply CO in C0. destruct C0 as [C0|(-> & -> & -> & ->)].
      * destruct (rg_hit0 e0 x0 a0 b0 C0 Eh) as (q & Hq & M). exists q. split; [apply in_or_app; auto|exact M].
      * exists (a, b). split; [apply in_or_app; right; left; reflexivity|]. split; [exact MT|left; reflexivity].
    + intros q Hq Hm. apply in_snoc in Hq. destruct Hq as [Hq| ->].
      * destruct (rg_pair0 q Hq Hm) as (e1 & x1 & a1 & b1 & C1 & Eh & Hp). exists e1, x1, a1, b1. split; [apply CO; auto|auto].
      * exists (EN (k_addr xa, k_addr xb) (w_next w) true), x, a, b. split; [apply CO; auto|]. split; [reflexivity|left; reflexivity].
Qed.
Lemma register_all : quiet_ids w1 -> wp (iter (register o) (o_pairs o)) (fun _ w' => reg (o_pairs o) w') w1.
Proof.
  intros Q. eapply wp_mono.
  - apply (wp_iter (register o) (fun d _ w => reg d w)) with (d := []).
    + intros d x r w R. apply register_ok, R.
    + constructor; auto.
      * intros b y E. exists y. auto.
      * intros e x a b (He & _) Eh. rewrite (Hit1 e He) in Eh. discriminate.
      * intros p [].
  - intros u w' _ R. exact R.
Qed.
End Register.

(** ** updateBodies *)
Definition same_motion (b b' : body) : Prop :=
  b_pos b' = b_pos b /\ b_vel b' = b_vel b /\ b_ang b' = b_ang b /\ b_colliders b' = b_colliders b /\ b_props b' = b_props b /\ b_dominance b' = b_dominance b.
Lemma motion_refl b : same_motion b b. Proof. repeat split. Qed.
Lemma motion_trans a b c : same_motion a b -> same_motion b c -> same_motion a c.
Proof. intros (A1 & A2 & A3 & A4 & A5 & A6) (B1 & B2 & B3 & B4 & B5 & B6). repeat split; congruence. Qed.
Lemma sleep_motion b dt vt at_ delay : same_motion b (sleep_step b dt vt at_ delay).
Proof. unfold sleep_step, go_sleep, update_immobile. repeat split; repeat match goal with |- context [if ?c then _ else _] => destruct c end; reflexivity. Qed.
Lemma asleep_motion a b : same_motion b (set_asleep a b). Proof. repeat split. Qed.
(** only the sleep flags and timers of bodies change *)
Definition dozed (w w' : world) : Prop := calm_step w w' /\ kk w w' /\ w_ch w' = w_ch w /\ w_log w' = w_log w /\ w_fh w' = w_fh w /\ w_kh w' = w_kh w /\
  forall b y', w_bh w' b = Some y' -> exists y, w_bh w b = Some y /\ same_motion (wb y) (wb y').
Lemma dozed_refl w : dozed w w.
Proof. split; [apply calm_refl|]. split; [apply kk_refl|]. repeat split; auto. intros b y E. exists y. split; [exact E|apply motion_refl]. Qed.
Lemma dozed_trans a b c : dozed a b -> dozed b c -> dozed a c.
Proof.
  intros (A1 & A2 & A3 & A4 & A5 & A6 & A7) (B1 & B2 & B3 & B4 & B5 & B6 & B7). split; [eapply calm_trans; eassumption|]. split; [eapply kk_trans; eassumption|]. repeat split; try congruence.
  intros i y E. destruct (B7 i y E) as (y1 & E1 & M1). destruct (A7 i y1 E1) as (y0 & E0 & M0). exists y0. split; [exact E0|eapply motion_trans; eassumption].
Qed.
Lemma sleep_one_ok s dt i w : (exists y, w_bh w i = Some y) -> exists w', sleep_one s dt i w = Ok tt w' /\ dozed w w'.
Proof.
  intros [y E]. unfold sleep_one, mod_body, bind, body_at, deref, put_body, modify. rewrite E. eexists. split; [reflexivity|].
  pose proof (sleep_motion (wb y) dt (s_vt s) (s_at s) (s_delay s)) as HM. split; [|split; [|repeat split; auto]].
  - eapply calm_body; [exact E| |reflexivity]. destruct HM as (_ & _ & _ & M1 & M2 & M3). apply body_same_wb; [rewrite M1; reflexivity|exact M2|exact M3].
  - eapply kk_body; [exact E|reflexivity].
  - intros b y' E'. cbn in E'. apply put_some in E'. destruct E' as [[-> ->]|[_ E']]; [exists y; auto|exists y'; split; [exact E'|apply motion_refl]].
Qed.
Lemma iter_sleep_ok s dt l : forall w, (forall b, In b l -> exists y, w_bh w b = Some y) -> exists w', iter (sleep_one s dt) l w = Ok tt w' /\ dozed w w'.
Proof.
  induction l as [|i l IH]; intros w HL; cbn [iter]; [exists w; split; [reflexivity|apply dozed_refl]|].
  destruct (sleep_one_ok s dt i w (HL i (or_introl eq_refl))) as (w1 & E1 & C1). destruct (IH w1) as (w2 & E2 & C2).
  - intros b Hb. apply (hrel_live _ _ _ _ (sa_b _ _ (proj1 (proj1 C1)))), HL. right. exact Hb.
  - exists w2. unfold bind. rewrite E1. split; [exact E2|eapply dozed_trans; eassumption].
Qed.
Definition missed (es : list entry) (c : id) : bool := existsb (fun e => negb (e_hit e) && Nat.eqb (e_con e) c) es.
Lemma settle_spec es : forall w, (forall e, In e es -> exists x, w_ch w (e_con e) = Some x) ->
  exists g : heap wcon, iter settle es w = Ok tt (set_ch w g) /\ forall c, g c = if missed es c then option_map con_kill (w_ch w c) else w_ch w c.
Proof.
  induction es as [|e es IH]; intros w HL; cbn [iter].
  - exists (w_ch w). split; [destruct w; reflexivity|reflexivity].
  - destruct (HL e (or_introl eq_refl)) as [x Ex]. unfold bind at 1, settle at 1. destruct (e_hit e) eqn:Eh.
    + unfold ret. destruct (IH w) as (g & Eg & Hg); [intros e' He; apply HL; right; exact He|]. exists g. split; [exact Eg|]. intros c. rewrite (Hg c). unfold missed. cbn [existsb]. rewrite Eh. reflexivity.
    + unfold kill_con, mod_con, bind, con_at, deref, put_con, modify. rewrite Ex. destruct (IH (set_ch w (put (w_ch w) (e_con e) (con_kill x)))) as (g & Eg & Hg).
      * intros e' He. cbn. unfold put. destruct (Nat.eqb (e_con e') (e_con e)); [eauto|]. apply HL. right. exact He.
      * exists g. split; [exact Eg|]. intros c. rewrite (Hg c). unfold missed. cbn [existsb set_ch w_ch]. rewrite Eh. cbn [negb andb]. unfold put. rewrite (Nat.eqb_sym (e_con e) c).
        destruct (Nat.eqb_spec c (e_con e)) as [->|n]; [|reflexivity]. cbn [orb]. rewrite Ex. destruct (existsb _ es); reflexivity.
Qed.

(** ** What a step does *)
Record updated (o : oracle) (w w' : world) : Prop := {
  u_touch : forall e x a b, contact_of w' e x a b -> (c_killed x = false <-> exists p, In p (o_pairs o) /\ may_touch w' a b /\ pair_of p a b);
  u_pairs : forall p, In p (o_pairs o) -> may_touch w' (fst p) (snd p) -> exists e x a b, contact_of w' e x a b /\ c_killed x = false /\ pair_of p a b;
  u_log : w_log w' = w_log w; u_bodies : w_bodies w' = w_bodies w; u_cons : w_cons w' = w_cons w; u_forces : w_forces w' = w_forces w;
  u_fh : w_fh w' = w_fh w; u_kh : w_kh w' = w_kh w; u_tree : w_tree w' = w_tree w; u_set : w_set w' = w_set w; u_next : w_next w <= w_next w';
  u_con : forall c, In c (w_cons w) -> w_ch w' c = w_ch w c;
  u_live : forall c, c < w_next w -> (exists x, w_ch w' c = Some x) <-> (exists x, w_ch w c = Some x);
  u_body : forall b y', w_bh w' b = Some y' -> exists y, w_bh w b = Some y /\ same_motion (wb y) (wb y') /\ wb_killed y' = wb_killed y /\ wb_cs y' = wb_cs y }.
Lemma update_ok o dt w : shuffles o -> SInv w -> quiet_ids w -> unkilled w -> (forall e, In e (w_cts w) -> e_hit e = false) ->
  wp (update_bodies o dt) (fun _ w' => SInv w' /\ idle w' /\ updated o w w') w.
Proof.
  intros Hsh HS HQ U Hit. unfold update_bodies. apply wp_bind. unfold wp at 1, get at 1. apply wp_bind. unfold wp at 1, get at 1. apply wp_bind.
  assert (D1 : exists w1, (if s_sleep (w_set w) then iter (sleep_one (w_set w) dt) (w_bodies w) else ret tt) w = Ok tt w1 /\ dozed w w1).
  { destruct (s_sleep (w_set w)); [|exists w; split; [reflexivity|apply dozed_refl]]. apply iter_sleep_ok. intros b Hb. apply (i_bodies _ HS), Hb. }
  destruct D1 as (w1 & E1 & D1). unfold wp at 1. rewrite E1. destruct D1 as (C1 & K1 & Ec1 & El1 & Ef1 & Ek1 & Eb1).
  pose proof (SInv_same _ _ HS (proj1 C1)) as HS1. pose proof (unkilled_kk _ _ U K1) as U1. pose proof (proj1 C1) as Sm1.
  assert (HQ1 : quiet_ids w1).
  { destruct HQ as [Q1 Q2]. destruct C1 as (_ & CA & CB). split.
    - intros b y E. specialize (CA b). rewrite E in CA. destruct (w_bh w b) as [y0|] eqn:E0; [|discriminate]. injection CA as ->. eauto.
    - rewrite Ec1. exact Q2. }
  assert (Hit1 : forall e, In e (w_cts w1) -> e_hit e = false) by (rewrite (sa_cts _ _ Sm1); exact Hit).
  apply wp_bind. eapply wp_mono; [apply (register_all o Hsh w1 HS1 U1 Hit1 HQ1)|]. intros u w2 _ RG. pose proof (rg_s _ _ _ RG) as HS2.
  apply wp_bind. unfold wp at 1, get at 1. destruct (settle_spec (w_cts w2) w2) as (g & Eg & Hg); [intros e He; apply (ent_live _ _ HS2 He)|].
  apply wp_bind. unfold wp at 1. rewrite Eg. unfold wp, modify. cbn [w_cts set_ch].
  set (f := fun e : entry => EN (e_key e) (e_con e) false). set (w3 := set_ch w2 g).
  assert (Sm3 : same w2 w3).
  { destruct (same_refl w2). constructor; auto. intros c. cbn. rewrite Hg. destruct (missed (w_cts w2) c); destruct (w_ch w2 c) as [x|]; cbn; auto using con_same_refl. constructor; auto. }
  pose proof (SInv_same _ _ HS2 Sm3) as HS3. pose proof (SInv_map w3 f HS3 (fun e => conj eq_refl eq_refl)) as HS4. change (w_cts w3) with (w_cts w2) in HS4. fold w3 f.
  set (w4 := set_cts w3 (map f (w_cts w2))) in *.
  split; [exact HS4|]. split.
  { split; [|split].
    - intros b y E. apply (proj1 (rg_q _ _ _ RG) b y E).
    - intros c x E. cbn in E. rewrite Hg in E. destruct (w_ch w2 c) as [x0|] eqn:E0; [|destruct (missed _ _); discriminate]. pose proof (proj2 (rg_q _ _ _ RG) c x0 E0) as HP.
      destruct (missed _ _); injection E as <-; exact HP.
    - intros e He. cbn in He. apply in_map_iff in He. destruct He as (e0 & <- & _). reflexivity. }
  assert (NDt : forall e e', In e (w_cts w2) -> In e' (w_cts w2) -> e_con e = e_con e' -> e = e').
  { assert (ND := proj1 (i_cons _ HS2)). apply nodup_app in ND. destruct ND as (_ & ND & _). revert ND. generalize (w_cts w2). clear. intros l ND.
    induction l as [|a l IH]; intros e e' He He' HE; [destruct He|]. cbn in ND. apply NoDup_cons_iff in ND. destruct ND as [Ha ND]. destruct He as [->|He], He' as [->|He']; auto.
    - exfalso. apply Ha. rewrite HE. apply in_map, He'.
    - exfalso. apply Ha. rewrite <- HE. apply in_map, He. }
  assert (MS : forall e, In e (w_cts w2) -> missed (w_cts w2) (e_con e) = negb (e_hit e)).
  { intros e He. unfold missed. destruct (e_hit e) eqn:Eh; cbn [negb].
    - destruct (existsb _ (w_cts w2)) eqn:EX; [|reflexivity]. apply existsb_exists in EX. destruct EX as (e' & He' & H'). apply andb_true_iff in H'. destruct H' as [H1 H2]. apply Nat.eqb_eq in H2.
      rewrite (NDt e' e He' He H2), Eh in H1. discriminate.
    - apply existsb_exists. exists e. rewrite Eh, Nat.eqb_refl. auto. }
  assert (MN : forall c, In c (w_cons w2) -> missed (w_cts w2) c = false).
  { intros c Hc. destruct (missed (w_cts w2) c) eqn:EM; [|reflexivity]. exfalso. unfold missed in EM. apply existsb_exists in EM. destruct EM as (e & He & H'). apply andb_true_iff in H'. destruct H' as [_ H']. apply Nat.eqb_eq in H'.
    assert (ND := proj1 (i_cons _ HS2)). apply nodup_app in ND. destruct ND as (_ & _ & ND). apply (ND c Hc). rewrite <- H'. apply in_map, He. }
  assert (CN : forall c, In c (w_cons w1) -> w_ch w4 c = w_ch w1 c).
  { intros c Hc. cbn. rewrite Hg, MN by (rewrite (rg_cons _ _ _ RG); exact Hc). assert (HL : exists z, w_ch w1 c = Some z) by (apply (i_cons _ HS1), in_or_app; auto). destruct HL as [z Ez]. apply (rg_old _ _ _ RG), (old_con w1 HS1 _ _ Ez). }
  assert (MT : forall a b, may_touch w4 a b <-> may_touch w1 a b).
  { intros a b. unfold may_touch. change (w_tree w4) with (w_tree w2). change (w_kh w4) with (w_kh w2). change (w_cons w4) with (w_cons w2). rewrite (rg_tree _ _ _ RG), (rg_kh _ _ _ RG), (rg_cons _ _ _ RG).
    split; intros (H1 & H2 & xa & xb & E1' & E2' & Hn & HB); (split; [exact H1|]; split; [exact H2|]; exists xa, xb; split; [exact E1'|]; split; [exact E2'|]; split; [exact Hn|]); intros d z Hd Ez; apply (HB d z Hd); [rewrite CN by exact Hd|rewrite <- CN by exact Hd]; exact Ez. }
  assert (CO : forall e x a b, contact_of w4 e x a b <-> exists e0 x0, contact_of w2 e0 x0 a b /\ e = f e0 /\ x = (if e_hit e0 then x0 else con_kill x0)).
  { intros e x a b. unfold contact_of. cbn [w4 w3 set_cts set_ch w_cts w_ch]. split.
    - intros (H1 & H2 & H3). apply in_map_iff in H1. destruct H1 as (e0 & <- & H1). cbn [f e_con] in H2. rewrite Hg, MS in H2 by exact H1. destruct (w_ch w2 (e_con e0)) as [x0|] eqn:E0; [|destruct (e_hit e0); discriminate].
      exists e0, x0. destruct (e_hit e0); cbn in H2; injection H2 as <-; auto.
    - intros (e0 & x0 & (H1 & H2 & H3) & -> & ->). split; [apply in_map, H1|]. cbn [f e_con]. rewrite Hg, MS, H2 by exact H1. destruct (e_hit e0); auto. }
  constructor.
  - intros e x a b C. apply CO in C. destruct C as (e0 & x0 & C0 & -> & ->). setoid_rewrite MT. pose proof (rg_u _ _ _ RG _ _ (proj1 (proj2 C0))) as UK. destruct (e_hit e0) eqn:Eh.
    + split; [intros _|intros _; exact UK]. apply (rg_hit _ _ _ RG e0 x0 a b C0 Eh).
    + split; [discriminate|]. intros (p & Hp & M & PO). exfalso.
      assert (M' : may_touch w1 (fst p) (snd p)) by (destruct PO as [->| ->]; [exact M|apply may_touch_sym, M]).
      destruct (rg_pair _ _ _ RG p Hp M') as (e1 & x1 & a1 & b1 & C1' & Eh1 & PO1).
      destruct (contact_key w1 _ _ _ _ _ _ RG C0) as (xa & xb & Xa & Xb & Hk & _). destruct (contact_key w1 _ _ _ _ _ _ RG C1') as (xa1 & xb1 & Xa1 & Xb1 & Hk1 & _).
      assert (HE : e1 = e0).
      { destruct (i_contacts _ HS2) as (_ & _ & T4). apply T4; [apply C0|apply C1'|]. rewrite Hk, Hk1. unfold swap. cbn [fst snd]. destruct PO as [->| ->], PO1 as [PO1|PO1]; injection PO1 as <- <-; rewrite Xa1 in *; rewrite Xb1 in *;
          repeat match goal with H : Some _ = Some _ |- _ => injection H as <- end; auto. }
      subst e1. congruence.
  - intros p Hp M. apply MT in M. destruct (rg_pair _ _ _ RG p Hp M) as (e & x & a & b & C & Eh & PO). exists (f e), x, a, b. split; [apply CO; exists e, x; rewrite Eh; auto|]. split; [|exact PO].
    apply (rg_u _ _ _ RG _ _ (proj1 (proj2 C))).
  - cbn. rewrite (rg_log _ _ _ RG). exact El1.
  - cbn. rewrite (rg_bodies _ _ _ RG). apply (sa_bodies _ _ Sm1).
  - cbn. rewrite (rg_cons _ _ _ RG). apply (sa_cons _ _ Sm1).
  - cbn. rewrite (rg_forces _ _ _ RG). apply (sa_forces _ _ Sm1).
  - cbn. rewrite (rg_fh _ _ _ RG). exact Ef1.
  - cbn. rewrite (rg_kh _ _ _ RG). exact Ek1.
  - cbn. rewrite (rg_tree _ _ _ RG). apply (sa_tree _ _ Sm1).
  - cbn. rewrite (rg_set _ _ _ RG). apply (sa_set _ _ Sm1).
  - cbn. rewrite <- (sa_next _ _ Sm1). apply (rg_next _ _ _ RG).
  - intros c Hc. rewrite CN by (rewrite (sa_cons _ _ Sm1); exact Hc). rewrite Ec1. reflexivity.
  - intros c Hc. rewrite <- (hrel_live _ _ _ _ (sa_c _ _ Sm3) : _ <-> exists x, w_ch w4 c = Some x). rewrite (rg_old _ _ _ RG c) by (rewrite (sa_next _ _ Sm1); exact Hc). rewrite Ec1. reflexivity.
  - intros b y' E'. cbn in E'. destruct (rg_body _ _ _ RG b y' E') as (y1 & Ey1 & Q1 & Q2 & Q3). destruct (Eb1 b y1 Ey1) as (y & Ey & M). exists y. split; [exact Ey|].
    pose proof (hrel_some _ _ _ _ _ (sa_b _ _ Sm1) Ey) as (y1' & Ey1' & BS). rewrite Ey1 in Ey1'. injection Ey1' as <-.
    split; [|split].
    + eapply motion_trans; [exact M|]. destruct Q3 as [->| ->]; [apply motion_refl|apply asleep_motion].
    + rewrite Q2. pose proof (kk_b _ _ K1 b) as KB. rewrite Ey, Ey1 in KB. injection KB as ->. reflexivity.
    + rewrite Q1. apply (bs_cs _ _ BS).
Qed.

Lemma cleaned_unkilled die w w' : cleaned die w w' -> unkilled w'.
Proof. intros CL c x E. rewrite (cl_c _ _ _ CL) in E. unfold cdead in E. destruct (w_ch w c) as [x0|] eqn:E0; [|discriminate]. destruct (c_killed x0 || die c || existsb (bdead die w) (con_bodies x0)) eqn:ED; [discriminate|]. injection E as <-. destruct (c_killed x0); [discriminate|reflexivity]. Qed.
Lemma idle_quiet w : idle w -> quiet_ids w. Proof. intros (A & B & _). split; assumption. Qed.

(** the phases of a step *)
Record phases (fuel : nat) (o : oracle) (dt : K) (w w' : world) : Prop := {
  ph_begin : exists w1 w2, cleanup false (o_die o) w = Ok tt w1 /\ SInv w1 /\ idle w1 /\ cleaned (o_die o) w w1 /\ pre_step w1 = Ok tt w2 /\ SInv w2 /\ idle w2 /\ restated w1 w2 /\
    if k0 <? dt then exists w3 w4, apply_forces dt (o_region o) w2 = Ok tt w3 /\ SInv w3 /\ idle w3 /\ pushed w2 w3 /\
      solve_islands fuel fuel (w_set w3) dt false (w_bodies w3) w3 = Ok tt w4 /\ SInv w4 /\ quiet_ids w4 /\ same w3 w4 /\ kk w3 w4 /\ (exists l, w_log w4 = w_log w3 ++ l /\ Forall is_solved l) /\ update_bodies o dt w4 = Ok tt w' /\ updated o w4 w'
    else w' = w2 }.
Theorem step_ok fuel o dt w : shuffles o -> gentle w -> SInv w -> idle w -> length (w_bodies w) <= fuel ->
  wp (step false fuel o dt) (fun _ w' => SInv w' /\ idle w' /\ phases fuel o dt w w') w.
Proof.
  intros Hsh G HS HI HF. unfold step. apply wp_bind. destruct (cleanup_spec (o_die o) w HS HI) as (w1 & E1 & S1 & I1 & CL). unfold wp at 1. rewrite E1.
  pose proof (cleaned_unkilled _ _ _ CL) as U1. apply wp_bind. destruct (pre_step_ok w1 S1 U1) as (w2 & E2 & R2). unfold wp at 1. rewrite E2.
  destruct (restated_same _ _ R2) as (C2 & K2 & _). destruct (calm_good _ _ S1 I1 C2) as [S2 I2]. pose proof (unkilled_kk _ _ U1 K2) as U2.
  assert (G2 : gentle w2). { eapply gentle_kk; [|exact K2]. intros f x E. rewrite (cl_f _ _ _ CL) in E. destruct (fdead _ _ _); [discriminate|]. apply (G f x E). }
  assert (F2 : length (w_bodies w2) <= fuel). { rewrite (sa_bodies _ _ (proj1 C2)), (cl_bodies _ _ _ CL). pose proof (filter_le (fun b => negb (bdead (o_die o) w b)) (w_bodies w)). lia. }
  apply wp_bind. destruct (k0 <? dt) eqn:ED.
  - unfold advance. apply wp_bind. eapply wp_mono; [apply (apply_forces_ok dt (o_region o) w2 S2 G2)|]. intros u w3 E3 P3. pose proof P3 as (C3 & K3 & _). destruct (calm_good _ _ S2 I2 C3) as [S3 I3].
    pose proof (unkilled_kk _ _ U2 K3) as U3. apply wp_bind. unfold wp at 1, get at 1. apply wp_bind. unfold wp at 1, get at 1. apply wp_bind.
    assert (F3 : length (w_bodies w3) <= fuel) by (rewrite (sa_bodies _ _ (proj1 C3)); exact F2).
    eapply wp_mono; [apply (solve_islands_ok fuel fuel (w_set w3) dt false w3 S3 (idle_quiet _ I3) F3 F3)|]. intros u' w4 E4 (S4 & Q4 & Sm4 & K4 & L4). destruct u, u'.
    pose proof (unkilled_kk _ _ U3 K4) as U4. eapply wp_mono; [apply (update_ok o dt w4 Hsh S4 Q4 U4)|].
    + rewrite (sa_cts _ _ Sm4). apply I3.
    + intros u5 w5 E5 (S5 & I5 & UP). destruct u5. unfold wp. rewrite (post_step_ok w5 S5). split; [exact S5|]. split; [exact I5|]. constructor. exists w1, w2. rewrite ED.
      do 8 (split; [assumption|]). exists w3, w4. do 11 (split; [assumption|]). exact UP.
  - apply wp_ret. unfold wp. rewrite (post_step_ok w2 S2). split; [exact S2|]. split; [exact I2|]. constructor. exists w1, w2. rewrite ED. do 8 (split; [assumption|]). reflexivity.
Qed.
End Step.
