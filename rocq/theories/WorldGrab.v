(** The mouse tool over a history of a world: which constraints it leaves
    behind and when the one it remembers has been destroyed. *)
From Coq Require Import ZArith List Bool Lia Permutation.
From Verif Require Import Num Outcome Box Mat Geom Transform Body Constraint World WorldHoare WorldInv WorldFrame WorldIsland WorldSolve WorldComp WorldSleep WorldOps WorldCols WorldClean WorldKill WorldStep WorldStrict WorldHist WorldThm WorldUse.
Import ListNotations.

Section Grab.
Context {N : Num} {TR : Trig N} {BH : Behaviour N}.
Local Open Scope num_scope.

(** A world and its grabber: what it remembers ([mc]) and every constraint it
    has made.  Mouse events are interleaved with the operations of a history. *)
Inductive session : world -> option id -> (id -> Prop) -> Prop :=
| se_start w : reachable w -> session w None (fun _ => False)
| se_world w mc made w' : session w mc made -> op w w' -> session w' mc made
| se_press w mc made st under mc' w' : session w mc made -> (forall b, In b under -> on_body w b) -> press st under mc w = Ok mc' w' ->
    session w' mc' (fun c => made c \/ (w_next w <= c < w_next w')%nat)
| se_move w mc made f mc' w' : session w mc made -> move f mc w = Ok mc' w' -> session w' mc' made
| se_release w mc made mc' w' : session w mc made -> release mc w = Ok mc' w' -> session w' mc' made.

Definition over_with (w : world) (c : id) : Prop := forall x, w_ch w c = Some x -> c_killed x = true.

Lemma chs_force region f found w i w' : make_force region f found w = Ok i w' -> w_ch w' = w_ch w.
Proof.
  intros E. unfold make_force in E. apply bind_ok in E. destruct E as (i0 & w1 & E1 & E). injection E1 as <- <-. apply bind_ok in E. destruct E as ([] & w2 & E2 & E). injection E2 as <-.
  apply bind_ok in E. destruct E as ([] & w3 & E3 & E). injection E as _ <-.
  match type of E3 with ?m _ = _ => assert (FR : frame (fun w w' => w_ch w' = w_ch w) m) end.
  { assert (Rr : forall w : world, w_ch w = w_ch w) by reflexivity. assert (Rt : forall a b c : world, w_ch b = w_ch a -> w_ch c = w_ch b -> w_ch c = w_ch a) by (intros; congruence).
    apply fr_if.
    - apply fr_iter; [exact Rr|exact Rt|]. intros k. apply fr_bind; [exact Rt|apply fr_get; exact Rr|]. intros t. apply fr_if; [|apply fr_ret; exact Rr]. apply fr_bind; [exact Rt|apply fr_deref; exact Rr|]. intros x. unfold wake. apply fr_mod_body. reflexivity.
    - apply fr_bind; [exact Rt|apply fr_get; exact Rr|]. intros bs. apply fr_iter; [exact Rr|exact Rt|]. intros b. unfold wake. apply fr_mod_body. reflexivity. }
  apply (frame_ok _ _ _ _ _ FR) in E3. exact E3.
Qed.
Lemma chs_settings s w w' : update_settings s w = Ok tt w' -> w_ch w' = w_ch w.
Proof.
  unfold update_settings, bind at 1, get at 1. cbv beta iota. unfold bind at 1, get at 1. cbv beta iota. intros E. apply bind_ok in E. destruct E as (u & w1 & E1 & E2). injection E2 as <-.
  match type of E1 with ?m _ = _ => assert (FR : frame (fun w w' => w_ch w' = w_ch w) m) end.
  { apply fr_if; [|apply fr_ret; reflexivity]. apply fr_iter; [reflexivity|intros; congruence|]. intros b. unfold wake. apply fr_mod_body. reflexivity. }
  apply (frame_ok _ _ _ _ _ FR) in E1. exact E1.
Qed.

Section T.
Hypothesis T : tame.

Lemma over_same w w' c : hrel con_same (w_ch w) (w_ch w') -> over_with w c -> over_with w' c.
Proof. intros S H x' E. destruct (hrel_some' _ _ _ _ _ S E) as (x & E0 & SX). apply (cs_killed _ _ SX), H, E0. Qed.
Lemma over_gone w w' c : (forall x', w_ch w' c = Some x' -> w_ch w c = Some x') -> over_with w c -> over_with w' c.
Proof. intros S H x' E. apply H, S, E. Qed.
Lemma over_op w w' c : reachable w -> op w w' -> (c < w_next w)%nat -> over_with w c -> over_with w' c.
Proof.
  intros HR O Hc H. pose proof (reachable_sound T w HR) as SW. destruct (op_sound T w w' SW O) as [_ DL]. destruct SW as ((HS & HI & HG) & NT & _).
  destruct O as [p r d i E|b0 b1 doms dis st i H0 H1 E|region f found i HC E|b l d hint k Hb E|b k y Ey Hk E|b E|c0 E|f E|b v a E|c0 f E|s E|strict fuel o dt Hs HF E|H0 E|strict E].
  - unfold make_body, bind at 1, fresh in E. cbv beta iota in E. injection E as _ <-. exact H.
  - pose proof (make_con_spec b0 b1 doms dis st w HS HI H0 H1) as SP. rewrite E in SP. destruct SP as (-> & _ & _ & x & (A1 & _) & _). apply (over_gone w); [|exact H]. intros x'. rewrite A1. unfold put. destruct (Nat.eqb_spec c (w_next w)); [lia|auto].
  - assert (EC : w_ch w' = w_ch w) by (apply (chs_force region f found) in E; exact E). apply (over_gone w); [rewrite EC; auto|exact H].
  - pose proof Hb as [y Ey]. pose proof (add_col_spec b l d hint w y HS HI Ey) as SP. rewrite E in SP. destruct SP as (-> & _ & _ & _ & A2 & _). apply (over_gone w); [rewrite A2; auto|exact H].
  - destruct (remove_col_good b k y w HS HI Ey Hk) as (w1 & E1 & RM & _). rewrite E in E1. injection E1 as <-. apply (over_same w); [apply (killed_same _ _ _ _ (rm_con _ _ _ _ _ RM))|exact H].
  - apply (over_same w); [|exact H]. apply (frame_ok _ _ _ _ _ (fc_kill_body b)) in E. apply E.
  - apply (over_same w); [|exact H]. apply (frame_ok _ _ _ _ _ (fc_kill_con c0)) in E. apply E.
  - apply (over_same w); [|exact H]. apply (frame_ok _ _ _ _ _ (fc_kill_force f)) in E. apply E.
  - apply (over_same w); [|exact H]. apply (frame_ok _ _ _ _ _ (fc_set_velocity b v a)) in E. apply E.
  - apply (over_same w); [|exact H]. assert (F : frame calm_step (mod_con c0 (fun x => con_st (f (c_st x)) x))) by (apply fc_mod_con; intros x; split; [apply con_same_st|reflexivity]). apply (frame_ok _ _ _ _ _ F) in E. apply E.
  - assert (EC : w_ch w' = w_ch w) by (apply chs_settings in E; exact E). apply (over_gone w); [rewrite EC; auto|exact H].
  - intros x' E'. destruct (dl_c _ _ DL c (ex_intro _ x' E')) as [[x Ex]|]; [|lia]. destruct (step_removes T strict fuel o dt w w' HR Hs HF E) as (LV & _).
    assert (L : live w c) by (right; left; exists x; exact Ex). exfalso. assert (L' : live w' c) by (right; left; exists x'; exact E'). apply (LV c L) in L'. apply L'. right. left. exists x. split; [exact Ex|left; apply H, Ex].
  - destruct (set_factory_eq w) as (g & E1 & Hg). rewrite E in E1. injection E1 as ->. apply (over_gone w); [|exact H]. cbn. intros x'. rewrite Hg. destruct (existsb _ _); [discriminate|auto].
  - apply (refines_ok _ _ _ _ _ (rf_clear strict)) in E. destruct (clear_spec w HS) as (w1 & E1 & _ & _ & _ & N2 & _). rewrite E in E1. injection E1 as <-. intros x' E'. rewrite N2 in E'. discriminate.
Qed.

(** ** The operations of the tool are operations of the world *)
Lemma kill_live c w : on_con w c -> exists w', kill_con c w = Ok tt w' /\ over_with w' c.
Proof.
  intros [x Ex]. unfold kill_con, mod_con, bind at 1, con_at, deref. rewrite Ex. eexists. split; [reflexivity|]. intros x' E'. cbn in E'. rewrite put_eq in E'. injection E' as <-. reflexivity.
Qed.
Lemma kill_dead c w : ~ on_con w c -> kill_con c w = Bad.
Proof. intros H. unfold kill_con, mod_con, bind, con_at, deref. destruct (w_ch w c) as [x|] eqn:E; [destruct H; exists x; exact E|reflexivity]. Qed.
Definition kept (w : world) (mc : option id) (made : id -> Prop) : Prop :=
  (forall c, made c -> (c < w_next w)%nat /\ (mc = Some c \/ over_with w c)) /\ forall c, mc = Some c -> made c.
Lemma kept_ext w mc (m1 m2 : id -> Prop) : (forall c, m1 c <-> m2 c) -> kept w mc m1 -> kept w mc m2.
Proof. intros H [A B]. split; [intros c Hc; apply A, H, Hc|intros c Hc; apply H, B, Hc]. Qed.
Lemma kept_op w mc made w' : reachable w -> op w w' -> kept w mc made -> kept w' mc made.
Proof.
  intros HR O [A B]. split; [|exact B]. intros c Hc. destruct (A c Hc) as [A1 A2]. destruct (op_sound T w w' (reachable_sound T w HR) O) as [_ DL]. pose proof (dl_next _ _ DL). split; [lia|].
  destruct A2 as [A2|A2]; [auto|right; eapply over_op; eassumption].
Qed.
Lemma body_op_keeps w w' b : (exists c, kill_con c w = Ok tt w') \/ (exists b0 b1 doms dis st i, on_body w b0 /\ on_body w b1 /\ make_con b0 b1 doms dis st w = Ok i w') -> reachable w -> on_body w b -> on_body w' b.
Proof.
  intros [[c E]|(b0 & b1 & doms & dis & st & i & H0 & H1 & E)] HR Hb.
  - apply (frame_ok _ _ _ _ _ (fc_kill_con c)) in E. destruct E as [S _]. apply (proj1 (same_live _ _ S)), Hb.
  - destruct (reachable_sound T w HR) as ((HS & HI & HG) & _). pose proof (make_con_spec b0 b1 doms dis st w HS HI H0 H1) as SP. rewrite E in SP. destruct SP as (_ & _ & _ & x & (_ & A2 & _) & _).
    destruct Hb as [y Ey]. unfold on_body. rewrite (A2 b), Ey. destruct (existsb _ _); cbn; eauto.
Qed.
Lemma press_ops st under : forall mc w mc' w', reachable w -> (forall b, In b under -> on_body w b) -> press st under mc w = Ok mc' w' ->
  reachable w' /\ (w_next w <= w_next w')%nat /\ forall made, kept w mc made -> kept w' mc' (fun c => made c \/ (w_next w <= c < w_next w')%nat).
Proof.
  unfold press. induction under as [|b under IH]; intros mc w mc' w' HR HU E.
  - injection E as <- <-. split; [exact HR|]. split; [apply le_n|]. intros made K. eapply kept_ext; [|exact K]. intros c. split; [auto|intros [?|?]; [auto|lia]].
  - cbn [foldm] in E. apply bind_ok in E. destruct E as (mc1 & w1 & E1 & E2). apply bind_ok in E1. destruct E1 as (y & w0 & E0 & E1). apply body_at_ok in E0. destruct E0 as [-> Ey].
    destruct (b_structural (wb y)).
    + injection E1 as <- <-. apply IH; [exact HR|intros b' Hb'; apply HU; right; exact Hb'|exact E2].
    + apply bind_ok in E1. destruct E1 as ([] & w2 & E1 & E3). apply bind_ok in E3. destruct E3 as (c & w3 & E3 & E4). injection E4 as <- <-.
      assert (HB0 : forall b', In b' (b :: under) -> on_body w2 b').
      { intros b' Hb'. specialize (HU b' Hb'). destruct mc as [c0|]; [|injection E1 as <-; exact HU]. eapply body_op_keeps; [left; exists c0; exact E1|exact HR|exact HU]. }
      assert (S2 : reachable w2 /\ w_next w2 = w_next w /\ forall made, kept w mc made -> forall d, made d -> (d < w_next w2)%nat /\ over_with w2 d).
      { destruct mc as [c0|].
        - assert (O : op w w2) by (eapply op_kill_con; exact E1). split; [eapply reachable_op; eassumption|]. split; [apply (frame_ok _ _ _ _ _ (fc_kill_con c0)) in E1; apply (sa_next _ _ (proj1 E1))|].
          intros made K d Hd. destruct (kept_op _ _ _ _ HR O K) as [A _]. destruct (A d Hd) as [A1 [A2|A2]]; [|auto]. injection A2 as <-. split; [exact A1|].
          destruct (w_ch w c0) as [x|] eqn:Ex; [|rewrite kill_dead in E1; [discriminate|intros [x Hx]; congruence]].
          destruct (kill_live c0 w (ex_intro _ x Ex)) as (w4 & E4 & H4). rewrite E1 in E4. injection E4 as <-. exact H4.
        - injection E1 as <-. split; [exact HR|]. split; [reflexivity|]. intros made [A _] d Hd. destruct (A d Hd) as [A1 [A2|A2]]; [discriminate|auto]. }
      destruct S2 as (R2 & N2 & K2). assert (Hb : on_body w2 b) by (apply HB0; left; reflexivity).
      assert (O : op w2 w3) by (exact (op_con _ _ _ _ _ _ _ _ Hb Hb E3)). assert (R3 : reachable w3) by (eapply reachable_op; eassumption).
      assert (U3 : forall b', In b' under -> on_body w3 b').
      { intros b' Hb'. eapply body_op_keeps; [right; do 6 eexists; split; [exact Hb|split; [exact Hb|exact E3]]|exact R2|apply HB0; right; exact Hb']. }
      destruct (IH _ _ _ _ R3 U3 E2) as (R' & N' & K').
      destruct (reachable_sound T w2 R2) as ((HS & HI & HG) & _). pose proof (make_con_spec b b (Some (k1, k1)) false (st b) w2 HS HI Hb Hb) as SP. rewrite E3 in SP. destruct SP as (-> & _ & _ & x & (_ & _ & _ & _ & _ & _ & _ & _ & _ & _ & A11 & _) & _).
      split; [exact R'|]. split; [lia|]. intros made K. eapply kept_ext; [|apply (K' (fun d => made d \/ d = w_next w2))].
      * intros d. rewrite A11, N2. split; [intros [[?|?]|?]; [auto|right; lia|right; lia]|intros [?|?]; [auto|destruct (Nat.eq_dec d (w_next w)); [auto|right; lia]]].
      * split; [|intros d Hd; injection Hd as <-; auto]. intros d [Hd| ->]; [|split; [lia|auto]]. destruct (K2 made K d Hd) as [Q1 Q2]. split; [lia|right; exact (over_op w2 w3 d R2 O Q1 Q2)].
Qed.
Theorem session_kept w mc made : session w mc made -> reachable w /\ kept w mc made.
Proof.
  induction 1 as [w HR|w mc made w' _ [HR K] O|w mc made st under mc' w' _ [HR K] HU E|w mc made f mc' w' _ [HR K] E|w mc made mc' w' _ [HR K] E].
  - split; [exact HR|]. split; [intros c []|discriminate].
  - split; [eapply reachable_op; eassumption|eapply kept_op; eassumption].
  - destruct (press_ops _ _ _ _ _ _ HR HU E) as (R' & _ & K'). split; [exact R'|apply K', K].
  - destruct mc as [c|]; [|injection E as <- <-; auto]. unfold move in E. apply bind_ok in E. destruct E as ([] & w1 & E1 & E2). injection E2 as <- <-. assert (O : op w w1) by (eapply op_state; exact E1).
    split; [eapply reachable_op; eassumption|eapply kept_op; eassumption].
  - destruct mc as [c|]; [|injection E as <- <-; auto]. unfold release in E. apply bind_ok in E. destruct E as ([] & w1 & E1 & E2). injection E2 as <- <-. assert (O : op w w1) by (eapply op_kill_con; exact E1).
    split; [eapply reachable_op; eassumption|]. destruct (kept_op _ _ _ _ HR O K) as [A B]. split; [|discriminate]. intros d Hd. destruct (A d Hd) as [A1 [A2|A2]]; [|auto]. injection A2 as <-. split; [exact A1|right].
    destruct (w_ch w c) as [x|] eqn:Ex; [|rewrite kill_dead in E1; [discriminate|intros [x Hx]; congruence]]. destruct (kill_live c w (ex_intro _ x Ex)) as (w4 & E4 & H4). rewrite E1 in E4. injection E4 as <-. exact H4.
Qed.

(** ** Statements *)
(** every constraint the tool made, other than the one it remembers, is killed
    or already destroyed, and the next step leaves none of them *)
Theorem grab_leaves_none w mc made : session w mc made -> forall c x, made c -> mc <> Some c -> w_ch w c = Some x -> c_killed x = true.
Proof. intros S c x Hc Hm Ex. destruct (session_kept _ _ _ S) as (_ & A & _). destruct (A c Hc) as [_ [?|H]]; [contradiction|apply H, Ex]. Qed.
Theorem grab_step strict fuel o dt w mc made w' : session w mc made -> shuffles o -> (length (w_bodies w) <= fuel)%nat -> step strict fuel o dt w = Ok tt w' ->
  forall c, made c -> mc <> Some c -> ~ on_con w' c.
Proof.
  intros S Hs HF E c Hc Hm Hl. destruct (session_kept _ _ _ S) as (HR & A & _). destruct (A c Hc) as [Hn [?|H]]; [contradiction|].
  destruct (op_sound T w w' (reachable_sound T w HR) (op_step _ _ _ _ _ _ Hs HF E)) as [_ DL]. destruct (dl_c _ _ DL c Hl) as [[x Ex]|]; [|lia].
  destruct (step_removes T strict fuel o dt w w' HR Hs HF E) as (LV & _). assert (L : live w c) by (right; left; exists x; exact Ex). assert (L' : live w' c) by (right; left; exact Hl).
  apply (LV c L) in L'. apply L'. right. left. exists x. split; [exact Ex|left; apply H, Ex].
Qed.
(** while the remembered constraint exists the tool works; letting go kills it *)
Theorem grab_works w c made f : session w (Some c) made -> on_con w c ->
  (exists w', move f (Some c) w = Ok (Some c) w') /\ exists w', release (Some c) w = Ok None w' /\ over_with w' c.
Proof.
  intros _ [x Ex]. split.
  - unfold move, bind at 1, mod_con, bind at 1, con_at, deref. rewrite Ex. eexists. reflexivity.
  - destruct (kill_live c w (ex_intro _ x Ex)) as (w' & E & H). exists w'. split; [|exact H]. unfold release, bind. rewrite E. reflexivity.
Qed.
(** when it has been destroyed every use of the tool is undefined, and stays so *)
Lemma gone_later w w' c : reachable w -> ops w w' -> (c < w_next w)%nat -> ~ on_con w c -> ~ on_con w' c /\ (c < w_next w')%nat.
Proof.
  intros HR O Hn Hc. induction O as [|w1 w2 w3 O1 IH O2]; [auto|]. destruct (IH HR Hn Hc) as [I1 I2]. destruct HR as [s HR].
  assert (R2 : reachable w2). { exists s. clear - HR O1. induction O1 as [|w1 w2 w3 O1 IH O2]; [exact HR|]. eapply ops_snoc; [apply IH, HR|exact O2]. }
  destruct (op_sound T w2 w3 (reachable_sound T w2 R2) O2) as [_ DL]. pose proof (dl_next _ _ DL). split; [|lia]. intros H3. destruct (dl_c _ _ DL c H3) as [|]; [auto|lia].
Qed.
Lemma tool_dead w c : ~ on_con w c -> (forall f, move f (Some c) w = Bad) /\ release (Some c) w = Bad /\
  forall st b y under, w_bh w b = Some y -> b_structural (wb y) = false -> press st (b :: under) (Some c) w = Bad.
Proof.
  intros H. split; [|split].
  - intros f. unfold move, bind at 1, mod_con, bind, con_at, deref. destruct (w_ch w c) as [x|] eqn:E; [destruct H; exists x; exact E|reflexivity].
  - unfold release, bind at 1. rewrite (kill_dead c w H). reflexivity.
  - intros st b y under Ey Hy. unfold press. cbn [foldm]. unfold bind at 1, bind at 1, body_at, deref. rewrite Ey, Hy. unfold bind at 1. rewrite (kill_dead c w H). reflexivity.
Qed.
Theorem grab_dangles strict fuel o dt w c made x w' w2 : session w (Some c) made -> w_ch w c = Some x -> shuffles o -> (length (w_bodies w) <= fuel)%nat -> step strict fuel o dt w = Ok tt w' ->
  doomed_body (o_die o) w (c_b0 x) \/ doomed_body (o_die o) w (c_b1 x) \/ o_die o c = true \/ c_killed x = true -> ops w' w2 ->
  session w2 (Some c) made /\ (forall f, move f (Some c) w2 = Bad) /\ release (Some c) w2 = Bad /\
  forall st b y under, w_bh w2 b = Some y -> b_structural (wb y) = false -> press st (b :: under) (Some c) w2 = Bad.
Proof.
  intros S Ex Hs HF E HD O2. destruct (session_kept _ _ _ S) as (HR & A & B). pose proof (op_step _ _ _ _ _ _ Hs HF E) as O1. pose proof (reachable_op _ _ HR O1) as HR'.
  destruct (A c (B c eq_refl)) as [Hn _]. destruct (op_sound T w w' (reachable_sound T w HR) O1) as [_ DL]. pose proof (dl_next _ _ DL).
  assert (HG : ~ on_con w' c).
  { intros Hl. destruct (step_removes T strict fuel o dt w w' HR Hs HF E) as (LV & _). assert (L : live w c) by (right; left; exists x; exact Ex). assert (L' : live w' c) by (right; left; exact Hl).
    apply (LV c L) in L'. apply L'. right. left. exists x. tauto. }
  destruct (gone_later w' w2 c HR' O2 ltac:(lia) HG) as [G2 _]. split; [|exact (tool_dead w2 c G2)].
  assert (S' : session w' (Some c) made) by (eapply se_world; eassumption). clear - S' O2. induction O2 as [|w1 w2 w3 O1 IH O2]; [exact S'|]. eapply se_world; [apply IH, S'|exact O2].
Qed.
Theorem grab_clear strict w c made w' w2 : session w (Some c) made -> clear strict w = Ok tt w' -> ops w' w2 ->
  (forall f, move f (Some c) w2 = Bad) /\ release (Some c) w2 = Bad /\ forall st b y under, w_bh w2 b = Some y -> b_structural (wb y) = false -> press st (b :: under) (Some c) w2 = Bad.
Proof.
  intros S E O2. destruct (session_kept _ _ _ S) as (HR & A & B). pose proof (op_clear _ _ _ E) as O1. pose proof (reachable_op _ _ HR O1) as HR'.
  destruct (A c (B c eq_refl)) as [Hn _]. destruct (reachable_sound T w HR) as ((HS & HI & HG) & _). destruct (op_sound T w w' (reachable_sound T w HR) O1) as [_ DL]. pose proof (dl_next _ _ DL).
  apply (refines_ok _ _ _ _ _ (rf_clear strict)) in E. destruct (clear_spec w HS) as (w1 & E1 & _ & _ & _ & N2 & _). rewrite E in E1. injection E1 as <-.
  assert (G1 : ~ on_con w' c) by (intros [x Ex]; rewrite N2 in Ex; discriminate). destruct (gone_later w' w2 c HR' O2 ltac:(lia) G1) as [G2 _]. exact (tool_dead w2 c G2).
Qed.
End T.
End Grab.
