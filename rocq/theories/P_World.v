(** Properties C40-C42, C44-C46, C56, C64-C66, C92: World::step over every history of
    a world.
    [reachable w]: a history of public operations that returned leads from an
    empty world to [w].  [tame]: the virtual functions of the constraints are
    defined and return or throw.  [step strict fuel o dt]: [strict] is the reading
    of ~Body (World.v), [fuel] bounds loops and is large enough whenever it is at
    least the number of bodies, [o] holds everything the model leaves open
    ([shuffles o]: the contact map only permutes its entries). *)
From Coq Require Import ZArith List Bool Lia Permutation Reals.
From Verif Require Import Num Outcome Box Mat Geom Transform Body Constraint Contact ConstraintThm World WorldHoare WorldInv WorldFrame WorldIsland WorldSolve WorldComp WorldSleep WorldOps WorldCols WorldClean WorldKill WorldStep WorldStrict WorldHist WorldThm WorldUse WorldGrab WorldMass WorldReal WorldLib WorldDemo WorldWit WorldMove WorldClash.
Import ListNotations.
Local Open Scope num_scope.

(** C40: [motionless]: every body of [w'] is a body of [w] with the same position,
    velocity, angular velocity and colliders; [is_end]: destruction callback or release *)
Theorem C40_no_time : forall (N : Num) (TR : Trig N) (BH : Behaviour N), tame -> forall fuel o (dt : K) w, reachable w -> (k0 <? dt) = false ->
  exists w' l, step false fuel o dt w = Ok tt w' /\ motionless w w' /\ w_log w' = w_log w ++ l /\ Forall is_end l.
Proof. exact @no_time. Qed.
Print Assumptions C40_no_time.
Theorem C40_strict : forall (N : Num) (TR : Trig N) (BH : Behaviour N), tame -> forall strict fuel o (dt : K) w w', reachable w -> (k0 <? dt) = false -> step strict fuel o dt w = Ok tt w' ->
  motionless w w' /\ exists l, w_log w' = w_log w ++ l /\ Forall is_end l.
Proof. exact @no_time_any. Qed.
Print Assumptions C40_strict.
(** a moving body stays where it is when dt = 0, and moves when dt = 1/60 *)
Example C40_example : @tame F32 LibB /\ (k0 <? (fofZ 0 : @K F32)) = false /\
  (exists w w' : @world F32 LibB, reachable w /\ step false 2 (plain [] fhinge) (fofZ 0) w = Ok tt w' /\ at_x w 0 (fofZ 0) && at_x w' 0 (fofZ 0) && log_eqb (w_log w') [] = true) /\
  exists w w' : @world F32 LibB, reachable w /\ step false 2 (plain [] fhinge) fdt w = Ok tt w' /\ at_x w 0 (fofZ 0) && negb (at_x w' 0 (fofZ 0)) = true.
Proof.
  split; [exact lib_tame|]. split; [vm_compute; reflexivity|]. split.
  - destruct (runs_ex (fset true) hinged [] fhinge (fofZ 0) (fun w w' => (Nat.eqb (length (w_bodies w)) 2) && (at_x w 0 (fofZ 0) && at_x w' 0 (fofZ 0) && log_eqb (w_log w') [])) ltac:(vm_compute; reflexivity)) as (w & w' & R & _ & _ & E & H).
    apply andb_true_iff in H. destruct H as [HL H]. apply Nat.eqb_eq in HL. rewrite HL in E. eauto.
  - destruct (runs_ex (fset true) hinged [] fhinge fdt (fun w w' => (Nat.eqb (length (w_bodies w)) 2) && (at_x w 0 (fofZ 0) && negb (at_x w' 0 (fofZ 0)))) ltac:(vm_compute; reflexivity)) as (w & w' & R & _ & _ & E & H).
    apply andb_true_iff in H. destruct H as [HL H]. apply Nat.eqb_eq in HL. rewrite HL in E. eauto.
Qed.

(** C41: [at_solve o dt w wm]: [wm] is the world when the islands are built (dead
    objects removed, preStep done, forces applied).  [L] are the islands solved, in
    order.  [component act wm i]: the bodies of [i] are those reached from one body
    through active constraints and contacts, never beyond a fixed body; its
    constraints are the active ones of its bodies which are not fixed.  [fixed]: at
    rest and immovable for all its constraints.  [steady act]: activity is decided
    by the constraint's own state; [still]: solving leaves a resting body of
    infinite mass at rest; [massless]: infinite mass goes with infinite inertia. *)
Theorem C41_islands : forall (N : Num) (TR : Trig N) (BH : Behaviour N), tame -> forall act strict fuel o (dt : K) w w',
  steady act -> still -> massless w -> reachable w -> shuffles o -> length (w_bodies w) <= fuel -> (k0 <? dt) = true -> step strict fuel o dt w = Ok tt w' ->
  exists wm l L, at_solve o dt w wm /\ w_log w' = w_log w ++ l ++ map event_of L /\ (forall e, In e l -> ~ is_solved e) /\
    Forall (component act wm) L /\ ForallOrdPairs (apart wm) L /\ forall b, In b (w_bodies wm) -> exists i, In i L /\ In b (i_bs i).
Proof. exact @step_islands. Qed.
Print Assumptions C41_islands.
(** the library's own constraints and contacts (limits excepted), exact arithmetic *)
Theorem C41_library : forall (TR : Trig RNum) strict fuel o (dt : @K RNum) (w w' : @world RNum LibB), reachable w -> weighty w -> shuffles o -> length (w_bodies w) <= fuel -> (0 < dt)%R -> step strict fuel o dt w = Ok tt w' ->
  exists wm l L, at_solve o dt w wm /\ w_log w' = w_log w ++ l ++ map event_of L /\ (forall e, In e l -> ~ is_solved e) /\
    Forall (@component RNum LibB lib_act wm) L /\ ForallOrdPairs (apart wm) L /\ forall b, In b (w_bodies wm) -> exists i, In i L /\ In b (i_bs i).
Proof. exact @lib_islands. Qed.
Print Assumptions C41_library.
(** two bodies on a structural one are two islands *)
Example C41_example : @tame F32 idleB /\ @steady F32 idleB (fun c : bool => c) /\ @still F32 idleB /\
  exists w w' : @world F32 idleB, massless w /\ reachable w /\ shuffles (plain [] off_) /\ step false (length (w_bodies w)) (plain [] off_) fdt w = Ok tt w' /\
    w_log w = [] /\ w_log w' = [Solved [6] [] []; Solved [4; 2; 6] [10; 9] []; Solved [0; 6] [8] []].
Proof.
  split; [exact idle_tame|]. split; [exact idle_steady|]. split; [exact idle_still|].
  destruct (runs_ex (fset true) ground [] off_ fdt (fun w w' => massless_b w && log_eqb (w_log w) [] && log_eqb (w_log w') [Solved [6] [] []; Solved [4; 2; 6] [10; 9] []; Solved [0; 6] [8] []])%nat ltac:(vm_compute; reflexivity)) as (w & w' & R & S & _ & E & H).
  apply andb_true_iff in H. destruct H as [H L2]. apply andb_true_iff in H. destruct H as [M L1]. exists w, w'. split; [apply (massless_b_true idle_tame); assumption|]. auto 12 using log_eqb_true.
Qed.
(** false when activity depends on positions: with a limited distance a body is
    solved, and moved, in two islands of the same step *)
Theorem C41_limits_refuted : exists (w w' : @world F32 limB), reachable w /\ shuffles (plain [] flimit) /\ step false (length (w_bodies w)) (plain [] flimit) fdt w = Ok tt w' /\
  w_log w' = w_log w ++ [Solved [2] [] []; Solved [0; 2] [4] []] /\ exists y, w_bh w 2 = Some y /\ at_rest (wb y) = false.
Proof.
  destruct (runs_ex (fset true) leash [] flimit fdt (fun w w' => log_eqb (w_log w') (w_log w ++ [Solved [2] [] []; Solved [0; 2] [4] []]) && match w_bh w 2 with Some y => negb (at_rest (wb y)) | None => false end)%nat ltac:(vm_compute; reflexivity)) as (w & w' & R & S & _ & E & H).
  apply andb_true_iff in H. destruct H as [H1 H2]. exists w, w'. destruct (w_bh w 2) as [y|]; [|discriminate]. apply negb_true_iff in H2. eauto 10 using log_eqb_true.
Qed.
Print Assumptions C41_limits_refuted.

(** C42: [waking wm wn L]: awake bodies stay awake; all bodies of an island with an
    awake body and of the islands after it are awake; any other body awake in [wn]
    is in an island, or after an island, with an awake body in it or joined to it *)
Theorem C42_waking : forall (N : Num) (TR : Trig N) (BH : Behaviour N), tame -> forall strict fuel o (dt : K) w w',
  reachable w -> shuffles o -> length (w_bodies w) <= fuel -> (k0 <? dt) = true -> step strict fuel o dt w = Ok tt w' ->
  exists wm wn L, at_solve o dt w wm /\ waking wm wn L /\ (forall b, In b (w_bodies wm) -> exists i, In i L /\ In b (i_bs i)) /\ update_bodies o dt wn = Ok tt w'.
Proof. exact @step_waking. Qed.
Print Assumptions C42_waking.
Theorem C42_asleep : forall (N : Num) (TR : Trig N) (BH : Behaviour N), tame -> forall strict fuel o (dt : K) w w',
  reachable w -> shuffles o -> length (w_bodies w) <= fuel -> (k0 <? dt) = true -> step strict fuel o dt w = Ok tt w' ->
  exists wm wn, at_solve o dt w wm /\ update_bodies o dt wn = Ok tt w' /\ ((forall b, ~ awake_at wm b) -> forall b, ~ awake_at wn b).
Proof. exact @step_asleep. Qed.
Print Assumptions C42_asleep.
(** in a world without any constraint, contact or force field a sleeping body is
    woken by a step because another one moves *)
Theorem C42_leak_refuted : exists (w w' : @world F32 LibB), reachable w /\ shuffles (plain [] fhinge) /\ step false (length (w_bodies w)) (plain [] fhinge) fdt w = Ok tt w' /\
  (forall c, w_ch w c = None) /\ w_forces w = [] /\ asleep w 0 = true /\ awake_at w' 0.
Proof.
  destruct (runs_ex (fset true) drowsy [] fhinge fdt (fun w w' => match all_cons w, w_forces w with [], [] => true | _, _ => false end && asleep w 0 && alive w' 0 && negb (asleep w' 0)) ltac:(vm_compute; reflexivity)) as (w & w' & R & S & _ & E & H).
  apply andb_true_iff in H. destruct H as [H H4]. apply andb_true_iff in H. destruct H as [H H3]. apply andb_true_iff in H. destruct H as [H1 H2]. exists w, w'.
  destruct (all_cons w) eqn:EA; [|discriminate]. destruct (w_forces w); [|discriminate]. split; [exact R|]. split; [exact S|]. split; [exact E|]. split; [|split; [reflexivity|split; [exact H2|]]].
  - intros c. destruct (w_ch w c) as [x|] eqn:Ex; [|reflexivity]. exfalso. destruct (proj2 (proj2 (td_cons _ (history_tidy lib_tame w R)) c)) as [Hc|(e & He & _)]; [exists x; exact Ex| |]; unfold all_cons in EA; apply app_eq_nil in EA; destruct EA as [EA1 EA2].
    + rewrite EA1 in Hc. exact Hc.
    + destruct (w_cts w); [exact He|discriminate].
  - unfold alive in H3. unfold asleep in H4. destruct (w_bh w' 0) as [y|] eqn:Ey; [|discriminate]. exists y. split; [exact Ey|]. apply negb_true_iff, H4.
Qed.
Print Assumptions C42_leak_refuted.

(** C44: the lists of the world, of the bodies, of the tree and of the contacts
    agree with the objects that exist *)
Theorem C44_tidy : forall (N : Num) (TR : Trig N) (BH : Behaviour N), tame -> forall w, reachable w -> tidy w.
Proof. exact @history_tidy. Qed.
Print Assumptions C44_tidy.
(** a step removes what is killed or depends on a killed body, and nothing else *)
Theorem C44_step : forall (N : Num) (TR : Trig N) (BH : Behaviour N), tame -> forall strict fuel o (dt : K) w w',
  reachable w -> shuffles o -> length (w_bodies w) <= fuel -> step strict fuel o dt w = Ok tt w' ->
  (forall i, live w i -> (live w' i <-> ~ doomed (o_die o) w i)) /\
  exists l, w_log w' = w_log w ++ l /\ (forall i, In (Released i) l <-> live w i /\ doomed (o_die o) w i) /\
    forall i, In (Notified i) l <-> live w i /\ doomed (o_die o) w i /\ ~ exists e, In e (w_cts w) /\ e_con e = i.
Proof. exact @step_removes. Qed.
Print Assumptions C44_step.
(** over a whole history: released at most once, notified at most once and before *)
Theorem C44_log : forall (N : Num) (TR : Trig N) (BH : Behaviour N), tame -> forall w, reachable w ->
  NoDup (rels (w_log w)) /\ NoDup (nots (w_log w)) /\ incl (nots (w_log w)) (rels (w_log w)) /\ (forall i l1 l2, w_log w = l1 ++ Released i :: l2 -> ~ In (Notified i) l2) /\
  (forall i, In (Released i) (w_log w) -> ~ live w i) /\ forall i, on_body w i -> ~ on_con w i /\ ~ on_force w i.
Proof. exact @history_log. Qed.
Print Assumptions C44_log.
Theorem C44_fate : forall (N : Num) (TR : Trig N) (BH : Behaviour N), tame -> forall w w' i, reachable w -> ops w w' -> live w i -> live w' i \/ In (Released i) (w_log w').
Proof. exact @history_fate. Qed.
Print Assumptions C44_fate.
(** killing a body takes its hinge with it *)
Example C44_example : @tame F32 LibB /\ exists w w' : @world F32 LibB, reachable w /\ shuffles (plain [] fhinge) /\ step false (length (w_bodies w)) (plain [] fhinge) fdt w = Ok tt w' /\
  live w 4 /\ live w 2 /\ live w 0 /\ w_log w' = [Notified 4; Notified 2; Released 4; Released 2; Solved [0] [] []].
Proof.
  split; [exact lib_tame|].
  destruct (runs_ex (fset true) killing [] fhinge fdt (fun w w' => calive w 4 && alive w 2 && alive w 0 && log_eqb (w_log w') [Notified 4; Notified 2; Released 4; Released 2; Solved [0] [] []])%nat ltac:(vm_compute; reflexivity)) as (w & w' & R & S & _ & E & H).
  apply andb_true_iff in H. destruct H as [H H4]. apply andb_true_iff in H. destruct H as [H H3]. apply andb_true_iff in H. destruct H as [H1 H2]. exists w, w'.
  unfold calive, alive in *. destruct (w_ch w 4) as [c|] eqn:E1; [|discriminate]. destruct (w_bh w 2) as [y2|] eqn:E2; [|discriminate]. destruct (w_bh w 0) as [y0|] eqn:E3; [|discriminate].
  split; [exact R|]. split; [exact S|]. split; [exact E|]. split; [right; left; exists c; exact E1|]. split; [left; exists y2; exact E2|]. split; [left; exists y0; exact E3|]. apply log_eqb_true, H4.
Qed.

(** C45 *)
Theorem C45_one : forall (N : Num) (TR : Trig N) (BH : Behaviour N), tame -> forall w, reachable w ->
  (forall e x a b, contact_of w e x a b -> c_b0 x <> c_b1 x /\ (c_killed x = false -> owned (w_kh w) a (c_b0 x) /\ owned (w_kh w) b (c_b1 x))) /\
  (forall e e' x x' a b a' b', contact_of w e x a b -> contact_of w e' x' a' b' -> (a = a' /\ b = b') \/ (a = b' /\ b = a') -> e = e') /\
  forall e, In e (w_cts w) -> exists x a b, contact_of w e x a b.
Proof. exact @history_contacts. Qed.
Print Assumptions C45_one.
(** after a step the contacts not marked dead are those of the overlapping pairs
    reported by the tree that may touch: different bodies, no constraint between
    them that disables contacts *)
Theorem C45_step : forall (N : Num) (TR : Trig N) (BH : Behaviour N), tame -> forall strict fuel o (dt : K) w w',
  reachable w -> shuffles o -> length (w_bodies w) <= fuel -> (k0 <? dt) = true -> step strict fuel o dt w = Ok tt w' ->
  (forall e x a b, contact_of w' e x a b -> (c_killed x = false <-> may_touch w' a b /\ (In (a, b) (o_pairs o) \/ In (b, a) (o_pairs o)))) /\
  forall a b, may_touch w' a b -> In (a, b) (o_pairs o) -> exists e x, c_killed x = false /\ (contact_of w' e x a b \/ contact_of w' e x b a).
Proof. exact @step_contacts. Qed.
Print Assumptions C45_step.
(** the pair is reported in the other order the second time: still one contact *)
Example C45_example : @tame F32 LibB /\ exists w w' : @world F32 LibB, reachable w /\ shuffles (plain [(3, 1)] ftouch) /\ step false (length (w_bodies w)) (plain [(3, 1)] ftouch) fdt w = Ok tt w' /\
  map e_con (w_cts w) = [4] /\ map e_con (w_cts w') = [4].
Proof.
  split; [exact lib_tame|].
  destruct (runs_ex (fset true) touching [(3, 1)] ftouch fdt (fun w w' => if list_eq_dec Nat.eq_dec (map e_con (w_cts w)) [4] then if list_eq_dec Nat.eq_dec (map e_con (w_cts w')) [4] then true else false else false)%nat ltac:(vm_compute; reflexivity)) as (w & w' & R & S & _ & E & H).
  exists w, w'. destruct (list_eq_dec _ _ _); [|discriminate]. destruct (list_eq_dec _ _ _); [|discriminate]. auto 10.
Qed.

(** C46: no later step of positive duration returns normally *)
Theorem C46_step : forall (N : Num) (TR : Trig N) (BH : Behaviour N), tame -> forall w w1 e x a b, reachable w -> contact_of w e x a b -> set_factory w = Ok tt w1 ->
  forall strict fuel o (dt : K) w', (k0 <? dt) = true -> c_killed x = false \/ (exists i, (i = c_b0 x \/ i = c_b1 x) /\ ~ doomed_body (o_die o) w i) -> step strict fuel o dt w1 <> Ok tt w'.
Proof. exact @factory_breaks. Qed.
Print Assumptions C46_step.
Theorem C46_clear : forall (N : Num) (TR : Trig N) (BH : Behaviour N), tame -> forall w w1 e x a b strict w', reachable w -> contact_of w e x a b -> c_killed x = false -> set_factory w = Ok tt w1 -> clear strict w1 <> Ok tt w'.
Proof. exact @factory_clear. Qed.
Print Assumptions C46_clear.
Theorem C46_safe : forall (N : Num) (TR : Trig N) (BH : Behaviour N) w, reachable w -> w_cts w = [] -> exists w', set_factory w = Ok tt w' /\ reachable w'.
Proof. exact @factory_safe. Qed.
Print Assumptions C46_safe.
Example C46_example : @tame F32 LibB /\ exists (w w1 : @world F32 LibB) e x a b, reachable w /\ contact_of w e x a b /\ c_killed x = false /\ set_factory w = Ok tt w1 /\
  step false 2 (plain [] ftouch) fdt w1 = Bad /\ clear false w1 = Bad.
Proof.
  split; [exact lib_tame|].
  destruct (shows_ex (fset true) touching (fun w => match w_cts w with [e] => match w_ch w (e_con e) with Some x => negb (c_killed x) && match c_cols x with Some (a, b) => true | None => false end | None => false end | _ => false end &&
    match set_factory w with Ok _ w1 => match step false 2 (plain [] ftouch) fdt w1, clear false w1 with Bad, Bad => true | _, _ => false end | _ => false end) ltac:(vm_compute; reflexivity)) as (w & R & H).
  apply andb_true_iff in H. destruct H as [H1 H2]. destruct (w_cts w) as [|e [|]] eqn:Ee; try discriminate. destruct (w_ch w (e_con e)) as [x|] eqn:Ex; [|discriminate]. apply andb_true_iff in H1. destruct H1 as [H1 H3].
  destruct (c_cols x) as [[a b]|] eqn:Ec; [|discriminate]. destruct (set_factory w) as [[] w1| | |] eqn:EF; try discriminate. exists w, w1, e, x, a, b. split; [exact R|]. split; [split; [rewrite Ee; left; reflexivity|auto]|].
  split; [apply negb_true_iff, H1|]. split; [exact EF|]. destruct (step _ _ _ _ w1); try discriminate. destruct (clear false w1); try discriminate. auto.
Qed.

(** C56: [session w mc made]: a history of world operations and mouse events; [mc] is
    the constraint held by the grabber, [made] the constraints it created *)
Theorem C56_none_left : forall (N : Num) (TR : Trig N) (BH : Behaviour N), tame -> forall w mc made, session w mc made -> forall c x, made c -> mc <> Some c -> w_ch w c = Some x -> c_killed x = true.
Proof. exact @grab_leaves_none. Qed.
Print Assumptions C56_none_left.
Theorem C56_step : forall (N : Num) (TR : Trig N) (BH : Behaviour N), tame -> forall strict fuel o (dt : K) w mc made w', session w mc made -> shuffles o -> (length (w_bodies w) <= fuel)%nat -> step strict fuel o dt w = Ok tt w' ->
  forall c, made c -> mc <> Some c -> ~ on_con w' c.
Proof. exact @grab_step. Qed.
Print Assumptions C56_step.
Theorem C56_works : forall (N : Num) (TR : Trig N) (BH : Behaviour N) w c made f, session w (Some c) made -> on_con w c ->
  (exists w', move f (Some c) w = Ok (Some c) w') /\ exists w', release (Some c) w = Ok None w' /\ over_with w' c.
Proof. exact @grab_works. Qed.
Print Assumptions C56_works.
(** the grabbed body is removed: every later mouse event is undefined behaviour *)
Theorem C56_dangles : forall (N : Num) (TR : Trig N) (BH : Behaviour N), tame -> forall strict fuel o (dt : K) w c made x w' w2, session w (Some c) made -> w_ch w c = Some x -> shuffles o -> (length (w_bodies w) <= fuel)%nat -> step strict fuel o dt w = Ok tt w' ->
  doomed_body (o_die o) w (c_b0 x) \/ doomed_body (o_die o) w (c_b1 x) \/ o_die o c = true \/ c_killed x = true -> ops w' w2 ->
  session w2 (Some c) made /\ (forall f, move f (Some c) w2 = Bad) /\ release (Some c) w2 = Bad /\
  forall st b y under, w_bh w2 b = Some y -> b_structural (wb y) = false -> press st (b :: under) (Some c) w2 = Bad.
Proof. exact @grab_dangles. Qed.
Print Assumptions C56_dangles.
Theorem C56_clear : forall (N : Num) (TR : Trig N) (BH : Behaviour N), tame -> forall strict w c made w' w2, session w (Some c) made -> clear strict w = Ok tt w' -> ops w' w2 ->
  (forall f, move f (Some c) w2 = Bad) /\ release (Some c) w2 = Bad /\ forall st b y under, w_bh w2 b = Some y -> b_structural (wb y) = false -> press st (b :: under) (Some c) w2 = Bad.
Proof. exact @grab_clear. Qed.
Print Assumptions C56_clear.
(** a body is pressed, killed and a step is made *)
Example C56_example : @tame F32 LibB /\ exists (w : @world F32 LibB) c made x w', session w (Some c) made /\ w_ch w c = Some x /\ shuffles (plain [] fhinge) /\
  step false (length (w_bodies w)) (plain [] fhinge) fdt w = Ok tt w' /\ doomed_body (fun _ => false) w (c_b0 x).
Proof. split; [exact lib_tame|]. apply (grabs_ex (fset true) two fhinge fmouse 0). vm_compute. reflexivity. Qed.

(** C64: neither undefined behaviour nor an endless loop, for user classes and
    force fields that are themselves defined *)
Theorem C64_step : forall (N : Num) (TR : Trig N) (BH : Behaviour N), tame -> forall fuel o (dt : K) w, reachable w -> shuffles o -> length (w_bodies w) <= fuel -> safe (step false fuel o dt w).
Proof. exact @step_safe. Qed.
Print Assumptions C64_step.
Theorem C64_clear : forall (N : Num) (TR : Trig N) (BH : Behaviour N), tame -> forall w, reachable w -> exists w', clear false w = Ok tt w'.
Proof. exact @clear_safe. Qed.
Print Assumptions C64_clear.
Theorem C64_library : forall (N : Num) (TR : Trig N), @tame N LibB.
Proof. exact @lib_tame. Qed.
Print Assumptions C64_library.
Example C64_example : exists w : @world F32 LibB, reachable w /\ map e_con (w_cts w) = [4] /\ length (w_bodies w) <= 2.
Proof.
  destruct (shows_ex (fset true) touching (fun w => if list_eq_dec Nat.eq_dec (map e_con (w_cts w)) [4] then Nat.leb (length (w_bodies w)) 2 else false) ltac:(vm_compute; reflexivity)) as (w & R & H).
  exists w. destruct (list_eq_dec _ _ _); [|discriminate]. apply Nat.leb_le in H. auto.
Qed.

(** C65: ~Body, read strictly *)
Theorem C65_step : forall (N : Num) (TR : Trig N) (BH : Behaviour N), tame -> forall fuel o (dt : K) w, reachable w -> (exists b, dying (o_die o) w b /\ clad w b) -> step true fuel o dt w = Bad.
Proof. exact @step_clad. Qed.
Print Assumptions C65_step.
Theorem C65_bare : forall (N : Num) (TR : Trig N) (BH : Behaviour N), tame -> forall strict fuel o (dt : K) w, reachable w -> (forall b, dying (o_die o) w b -> ~ clad w b) -> step strict fuel o dt w = step false fuel o dt w.
Proof. exact @step_bare. Qed.
Print Assumptions C65_bare.
Theorem C65_clear : forall (N : Num) (TR : Trig N) (BH : Behaviour N), tame -> forall w, reachable w -> (exists b, clad w b) -> clear true w = Bad.
Proof. exact @clear_strict. Qed.
Print Assumptions C65_clear.
Example C65_example : exists w : @world F32 LibB, reachable w /\ dying (fun _ => false) w 2 /\ clad w 2.
Proof.
  destruct (shows_ex (fset true) killing (fun w => match w_bh w 2 with Some y => wb_killed y && match b_colliders (wb y) with [] => false | _ => true end | None => false end) ltac:(vm_compute; reflexivity)) as (w & R & H).
  destruct (w_bh w 2) as [y|] eqn:E; [|discriminate]. apply andb_true_iff in H. destruct H as [H1 H2]. exists w. split; [exact R|]. split; exists y; (split; [exact E|]); [left; exact H1|]. intros Q. rewrite Q in H2. discriminate.
Qed.

(** C66: [firm x]: one end of the constraint can be moved by it *)
Theorem C66_firm : forall (N : Num) (TR : Trig N) (BH : Behaviour N), tame -> forall w, reachable w -> forall c x, w_ch w c = Some x -> firm x.
Proof. exact @history_firm. Qed.
Print Assumptions C66_firm.
(** a constraint with one structural end *)
Example C66_example : exists w : @world F32 idleB, reachable w /\ exists x, w_ch w 8 = Some x /\ (c_m1 x =? k0) = true /\ (c_m0 x =? k0) = false.
Proof.
  destruct (shows_ex (fset true) ground (fun w => match w_ch w 8 with Some x => (c_m1 x =? k0) && negb (c_m0 x =? k0) | None => false end) ltac:(vm_compute; reflexivity)) as (w & R & H).
  destruct (w_ch w 8) as [x|] eqn:E; [|discriminate]. apply andb_true_iff in H. destruct H as [H1 H2]. exists w. split; [exact R|]. exists x. split; [exact E|]. split; [exact H1|]. apply negb_true_iff, H2.
Qed.

(** C92: [pull b] is the inverse mass a contact gives the body [b] *)
Theorem C92_throws : forall (N : Num) (TR : Trig N) (BH : Behaviour N) a c b0 b1, b0 <> b1 -> tame -> forall fuel o (dt : K) w, reachable w -> shuffles o -> length (w_bodies w) <= fuel -> (k0 <? dt) = true ->
  facing a c b0 b1 w -> ~ dying (o_die o) w b0 -> ~ dying (o_die o) w b1 -> (forall d z, In d (w_cons w) -> w_ch w d = Some z -> c_dis z = true -> ~ joins z b0 b1) -> In (a, c) (o_pairs o) \/ In (c, a) (o_pairs o) ->
  exists w', step false fuel o dt w = Thrown w'.
Proof. exact @step_throws. Qed.
Print Assumptions C92_throws.
Theorem C92_blame : forall (N : Num) (BH : Behaviour N) o (dt : K) w w', update_bodies o dt w = Thrown w' ->
  exists a c x x', In (a, c) (o_pairs o) /\ w_kh w a = Some x /\ w_kh w c = Some x' /\ k_body x <> k_body x' /\ immovable w (k_body x) /\ immovable w (k_body x').
Proof. exact @search_blame. Qed.
Print Assumptions C92_blame.
(** two squares of dominance zero that overlap: the step throws *)
Example C92_example : exists w : @world F32 LibB, reachable w /\ facing 1 3 0 2 w /\ w_cons w = [] /\ exists w', step false (length (w_bodies w)) (plain [(1, 3)] ftouch) fdt w = Thrown w'.
Proof.
  destruct (shows_ex (fset true) [DBody (fv 0 0) frot (fofZ 0); DAdd 0 fsq (fofZ 1) 0; DBody (fv 1 0) frot (fofZ 0); DAdd 2 fsq (fofZ 1) 7]
    (fun w : @world F32 LibB => match w_bh w 0, w_bh w 2, w_kh w 1, w_kh w 3, w_cons w, w_cts w with
      | Some y0, Some y2, Some k, Some k', [], [] => (pull (wb y0) =? k0) && (pull (wb y2) =? k0) && Nat.eqb (k_body k) 0 && Nat.eqb (k_body k') 2 && negb (wb_killed y0) && negb (wb_killed y2)
      | _, _, _, _, _, _ => false end) ltac:(vm_compute; reflexivity)) as (w & R & H).
  destruct (w_bh w 0) as [y0|] eqn:E0; [|discriminate]. destruct (w_bh w 2) as [y2|] eqn:E2; [|discriminate]. destruct (w_kh w 1) as [k|] eqn:E1; [|discriminate]. destruct (w_kh w 3) as [k'|] eqn:E3; [|discriminate].
  destruct (w_cons w) eqn:EC; [|discriminate]. destruct (w_cts w) eqn:ET; [|discriminate]. rewrite !andb_true_iff, !negb_true_iff in H. destruct H as (((((H1 & H2) & H3) & H4) & H5) & H6). apply Nat.eqb_eq in H3, H4.
  assert (F : facing 1 3 0 2 w).
  { constructor; [exists k; auto|exists k'; auto|exists y0; auto|exists y2; auto|]. intros i x Ex. exfalso. destruct (reachable_sound lib_tame w R) as ((HS & _) & _). pose proof (proj2 (i_cons _ HS) i) as X. rewrite EC, ET in X. apply X. eauto. }
  exists w. split; [exact R|]. split; [exact F|]. split; [exact EC|]. 
  refine (C92_throws F32 _ LibB 1 3 0 2 _ lib_tame _ _ fdt w R (plain_shuffles _ _) (le_n _) _ F _ _ _ _)%nat.
  - discriminate.
  - vm_compute. reflexivity.
  - intros (y & Ey & [K|K]); [congruence|discriminate].
  - intros (y & Ey & [K|K]); [congruence|discriminate].
  - rewrite EC. intros d z [].
  - left. left. reflexivity.
Qed.
