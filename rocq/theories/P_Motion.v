(** Properties C79, C80 and C91: what a step does to the positions and velocities of
    the bodies.
    [motion_at w b]: position and velocity of the body [b]; [at_solve o dt w wm]:
    [wm] is the world between the forces and the islands of the step; [loose w b]:
    no constraint or contact has [b] as an end.
    [mom M ax w bs], [cen M ax w bs]: the sums over the bodies [bs] of the mass [M b]
    times the component [ax] (x or y) of the velocity and of the centroid of [b];
    [mass_in g w b]: the mass of [b] when it belongs to the group [g], else 0;
    [closed_group g w]: no constraint or contact joins a body of [g] to a body outside
    it, and those within [g] join two distinct bodies with the inverses of their
    masses; [pairing]: a new hinge, weld, rotation, distance or contact;
    [free G w]: no force field, bodies of dominance one with a mass, constraints in
    states [G] which join two bodies; [flight G t w w']: steps of total time [t] lead
    from [w] to [w'] and remove no body.
    [structure w b]: [b] has dominance zero, the cosine and sine of its rotation are
    those of its angle, and every constraint and contact gives it inverse mass and
    inertia zero; [rests w b]: its velocity is zero; [stepping w w']: [w'] is reached
    from [w] by any number of steps. *)
From Coq Require Import ZArith List Bool Lia Permutation Reals Lra.
From Verif Require Import Num Outcome Box Mat Geom Transform Body Constraint Contact ConstraintThm World WorldHoare WorldInv WorldFrame WorldIsland WorldSolve WorldComp WorldSleep WorldOps WorldCols WorldClean WorldKill WorldStep WorldStrict WorldHist WorldThm WorldMass WorldReal WorldLib WorldDemo WorldWit WorldMove WorldMomentum WorldMomLib WorldMomEx MatSolve WorldGround WorldFlight WorldGroundEx.
Import ListNotations.
Local Open Scope num_scope.

(** C79 *)
Theorem C79_free : forall (N : Num) (TR : Trig N) (BH : Behaviour N), tame -> forall strict fuel o (dt : K) w w', reachable w -> shuffles o -> length (w_bodies w) <= fuel -> (k0 <? dt) = true -> step strict fuel o dt w = Ok tt w' ->
  exists wm, at_solve o dt w wm /\ forall b, In b (w_bodies w') -> (w_forces w = [] -> motion_at wm b = motion_at w b) /\ (loose w b -> loose wm b) /\
    (loose wm b -> exists p v, motion_at wm b = Some (p, v) /\ motion_at w' b = Some (pos_advance p (vscale dt (v_lin v)) (v_ang v * dt), v)).
Proof. exact @step_loose. Qed.
Print Assumptions C79_free.
Definition alone (w : @world F32 LibB) : bool := match w_cons w, w_cts w, w_forces w with [], [], [] => true | _, _, _ => false end.
Lemma alone_loose (w : @world F32 LibB) b : reachable w -> alone w = true -> loose w b /\ w_forces w = [].
Proof.
  intros R H. unfold alone in H. destruct (w_cons w) eqn:E1; [|discriminate]. destruct (w_cts w) eqn:E2; [|discriminate]. destruct (w_forces w); [|discriminate]. split; [|reflexivity].
  intros c x E. exfalso. assert (X : on_con w c) by (exists x; exact E). apply (td_cons _ (history_tidy lib_tame w R)) in X. rewrite E1, E2 in X. destruct X as [[]|(? & [] & _)].
Qed.
Example C79_example : exists w w' : @world F32 LibB, reachable w /\ shuffles (plain [] fhinge) /\ step false (length (w_bodies w)) (plain [] fhinge) fdt w = Ok tt w' /\ w_forces w = [] /\
  In 0%nat (w_bodies w') /\ loose w 0 /\ In 2%nat (w_bodies w') /\ loose w 2 /\ at_x w 0 (fofZ 0) = true /\ at_x w' 0 (fofZ 0) = false.
Proof.
  destruct (runs_ex (fset true) (two ++ [DVel 0 (fv 3 1) (fofZ 1)]) [] fhinge fdt
    (fun w w' => alone w && existsb (Nat.eqb 0) (w_bodies w') && existsb (Nat.eqb 2) (w_bodies w') && at_x w 0 (fofZ 0) && negb (at_x w' 0 (fofZ 0)))%nat ltac:(vm_compute; reflexivity)) as (w & w' & R & S & _ & E & H).
  apply andb_true_iff in H. destruct H as [H H5]. apply andb_true_iff in H. destruct H as [H H4]. apply andb_true_iff in H. destruct H as [H H3]. apply andb_true_iff in H. destruct H as [H H2].
  apply negb_true_iff in H5. apply existsb_in in H2, H3. destruct (alone_loose w 0 R H) as [L F]. destruct (alone_loose w 2 R H) as [L2 _]. exists w, w'. auto 12.
Qed.
(** a body asleep is not a body at rest: it drifts on with the velocity it fell
    asleep with, and stays asleep *)
Theorem C79_asleep_refuted : ~ (forall fuel o (dt : @K F32) (w w' : @world F32 LibB) b, reachable w -> shuffles o -> length (w_bodies w) <= fuel -> (k0 <? dt) = true -> step false fuel o dt w = Ok tt w' ->
  asleep w b = true -> asleep w' b = true -> option_map fst (motion_at w' b) = option_map fst (motion_at w b)).
Proof.
  destruct (runs_ex (fset true) (two ++ [DVel 0 (@V2 F32 (fdiv (fofZ 1) (fofZ 2)) (fofZ 0)) (fofZ 0); DStep [] fhinge (fofZ 2)]) [] fhinge fdt
    (fun w w' => asleep w 0 && asleep w' 0 && at_x w 0 (fofZ 1) && negb (at_x w' 0 (fofZ 1)))%nat ltac:(vm_compute; reflexivity)) as (w & w' & R & S & L & E & H).
  apply andb_true_iff in H. destruct H as [H H4]. apply andb_true_iff in H. destruct H as [H H3]. apply andb_true_iff in H. destruct H as [H1 H2]. intros C.
  specialize (C _ _ fdt w w' 0%nat R S L ltac:(vm_compute; reflexivity) E H1 H2). unfold motion_at in C. unfold at_x in H3, H4. destruct (w_bh w 0); [|discriminate]. destruct (w_bh w' 0); [|discriminate]. cbn in C. injection C as C. rewrite C, H3 in H4. discriminate.
Qed.
Print Assumptions C79_asleep_refuted.

(** C80 *)
Theorem C80_behaviour : forall (TR : Trig RNum) (BH : Behaviour RNum), tame (N := RNum) -> forall G g strict fuel o (dt : R) (w w' : @world RNum BH), balanced G -> all_G G w -> closed_group g w -> reachable w -> shuffles o -> length (w_bodies w) <= fuel -> (0 < dt)%R ->
  step strict fuel o (dt : @K RNum) w = Ok tt w' ->
  exists wm, at_solve o (dt : @K RNum) w wm /\ (w_forces w = [] -> forall b, In b (w_bodies w') -> motion_at wm b = motion_at w b) /\
    (forall ax, axis ax -> mom (mass_in g w') ax w' (w_bodies w') = mom (mass_in g w) ax wm (w_bodies w')) /\
    forall act, steady (N := RNum) act -> WorldComp.still (N := RNum) -> massless w -> forall ax, axis ax ->
      cen (mass_in g w') ax w' (w_bodies w') = (cen (mass_in g w) ax wm (w_bodies w') + dt * mom (mass_in g w) ax wm (w_bodies w'))%R.
Proof. exact @step_momentum. Qed.
Print Assumptions C80_behaviour.
Theorem C80_momentum : forall (TR : Trig RNum) g strict fuel o (dt : R) (w w' : @world RNum LibB), all_G (BH := LibB) lib_even w -> closed_group g w -> reachable w -> shuffles o -> length (w_bodies w) <= fuel -> (0 < dt)%R -> w_forces w = [] ->
  step strict fuel o (dt : @K RNum) w = Ok tt w' -> forall ax, axis ax -> mom (mass_in g w') ax w' (w_bodies w') = mom (mass_in g w) ax w (w_bodies w').
Proof. exact @lib_momentum. Qed.
Print Assumptions C80_momentum.
Theorem C80_centre : forall (TR : Trig RNum) g strict fuel o (dt : R) (w w' : @world RNum LibB), all_G (BH := LibB) lib_even w -> closed_group g w -> reachable w -> weighty w -> shuffles o -> length (w_bodies w) <= fuel -> (0 < dt)%R -> w_forces w = [] ->
  step strict fuel o (dt : @K RNum) w = Ok tt w' -> forall ax, axis ax -> cen (mass_in g w') ax w' (w_bodies w') = (cen (mass_in g w) ax w (w_bodies w') + dt * mom (mass_in g w) ax w (w_bodies w'))%R.
Proof. exact @lib_centre. Qed.
Print Assumptions C80_centre.
Theorem C80_joints : forall st, pairing st -> lib_even st.
Proof. exact @pairing_even. Qed.
Print Assumptions C80_joints.
Theorem C80_flight : forall (TR : Trig RNum) t (w w' : @world RNum LibB), reachable w -> free (BH := LibB) lib_even w -> flight (BH := LibB) lib_even t w w' -> free (BH := LibB) lib_even w' /\ w_bodies w' = w_bodies w /\ forall ax, axis ax ->
  mom (mass_in everyone w') ax w' (w_bodies w') = mom (mass_in everyone w) ax w (w_bodies w) /\
  cen (mass_in everyone w') ax w' (w_bodies w') = (cen (mass_in everyone w) ax w (w_bodies w) + t * mom (mass_in everyone w) ax w (w_bodies w))%R.
Proof. exact @lib_flight. Qed.
Print Assumptions C80_flight.
Theorem C80_flight_behaviour : forall (TR : Trig RNum) (BH : Behaviour RNum), tame (N := RNum) -> forall G, balanced G -> forall strict fuel o (dt : R) (w w' : @world RNum BH), reachable w -> shuffles o -> (forall k k', G (o_state o k k')) -> length (w_bodies w) <= fuel -> (0 < dt)%R ->
  step strict fuel o (dt : @K RNum) w = Ok tt w' -> free G w -> free G w'.
Proof. exact @step_free. Qed.
Print Assumptions C80_flight_behaviour.
Example C80_flight_example : exists w w' : @world RNum LibB, reachable w /\ free (BH := LibB) lib_even w /\ flight (BH := LibB) lib_even 1%R w w' /\ w_bodies w = [0%nat; 2%nat] /\ w_cons w = [4%nat] /\
  motion_at w 0 = Some (@Pos RNum (rv 0 0) rrot (rv 0 0), @Vel RNum (rv 3 1) 0%R) /\ motion_at w 2 = Some (@Pos RNum (rv 2 0) rrot (rv 0 0), @Vel RNum (rv 0 0) 0%R).
Proof. exact flight_shown. Qed.
(** two squares joined by a hinge, one of them moving *)
Example C80_example : exists w w' : @world RNum LibB, reachable w /\ all_G (BH := LibB) lib_even w /\ closed_group (fun _ => true) w /\ weighty w /\ shuffles (plain [] rhinge) /\ w_forces w = [] /\ w_bodies w = [0%nat; 2%nat] /\ w_cons w = [4%nat] /\
  step false (length (w_bodies w)) (plain [] rhinge) (1%R : @K RNum) w = Ok tt w' /\
  motion_at w 0 = Some (@Pos RNum (rv 0 0) rrot (rv 0 0), @Vel RNum (rv 3 1) 0%R) /\ motion_at w 2 = Some (@Pos RNum (rv 2 0) rrot (rv 0 0), @Vel RNum (rv 0 0) 0%R).
Proof. exact step_shown. Qed.

(** C91 *)
Theorem C91_ground : forall (TR : Trig RNum) (w w' : @world RNum LibB) b, reachable w -> stepping (BH := LibB) w w' -> structure (BH := LibB) w b -> In b (w_bodies w') ->
  structure (BH := LibB) w' b /\ (rests (BH := LibB) w b -> motion_at w' b = motion_at w b).
Proof. exact @lib_ground. Qed.
Print Assumptions C91_ground.
Theorem C91_platform : forall (TR : Trig RNum) strict fuel o (dt : R) (w w' : @world RNum LibB) b, reachable w -> weighty w -> shuffles o -> length (w_bodies w) <= fuel -> (0 < dt)%R -> step strict fuel o (dt : @K RNum) w = Ok tt w' ->
  structure (BH := LibB) w b -> In b (w_bodies w') -> exists p v, motion_at w b = Some (p, v) /\ motion_at w' b = Some (pos_advance p (vscale (N := RNum) dt (v_lin v)) (v_ang v * dt)%R, v).
Proof. exact @lib_platform. Qed.
Print Assumptions C91_platform.
Theorem C91_behaviour : forall (TR : Trig RNum) (BH : Behaviour RNum), tame (N := RNum) -> planting (BH := BH) -> forall (w w' : @world RNum BH) b, reachable w -> stepping w w' -> structure w b -> In b (w_bodies w') ->
  structure w' b /\ (rests w b -> motion_at w' b = motion_at w b).
Proof. exact @stepping_structure. Qed.
Print Assumptions C91_behaviour.
(** a square of dominance zero, at rest or moving, hinged to a moving square of mass 4 *)
Example C91_example : forall U : @vec2 RNum, exists w w' : @world RNum LibB, reachable w /\ weighty w /\ shuffles (plain [] rhinge) /\ structure (BH := LibB) w 0 /\ In 0%nat (w_bodies w') /\ w_cons w = [4%nat] /\
  step false (length (w_bodies w)) (plain [] rhinge) (1%R : @K RNum) w = Ok tt w' /\
  motion_at w 0 = Some (@Pos RNum (rv 0 0) rrot (rv 0 0), @Vel RNum U 0%R) /\ motion_at w 2 = Some (@Pos RNum (rv 2 0) rrot (rv 0 0), @Vel RNum (rv 0 1) 0%R).
Proof. exact ground_shown. Qed.
Example C91_rests : forall w : @world RNum LibB, motion_at w 0 = Some (@Pos RNum (rv 0 0) rrot (rv 0 0), @Vel RNum (rv 0 0) 0%R) -> rests (BH := LibB) w 0.
Proof. intros w H. eexists _, _. split; [exact H|]. repeat split. Qed.
(** dominance zero alone does not hold a body: a hinge made with other dominances
    moves a body of dominance zero which is at rest *)
Definition still_structural (w : @world F32 LibB) (b : id) : bool := match w_bh w b with Some y => b_structural (wb y) && at_rest (wb y) | None => false end.
Theorem C91_dominance_refuted : ~ (forall fuel o (dt : @K F32) (w w' : @world F32 LibB) b, reachable w -> shuffles o -> length (w_bodies w) <= fuel -> (k0 <? dt) = true -> step false fuel o dt w = Ok tt w' ->
  still_structural w b = true -> In b (w_bodies w') -> option_map fst (motion_at w' b) = option_map fst (motion_at w b)).
Proof.
  destruct (runs_ex (fset true) [DBody (fv 0 0) frot (fofZ 0); DAdd 0 fsq (fofZ 1) 0; DBody (fv 2 0) frot (fofZ 1); DAdd 2 fsq (fofZ 1) 7; DCon 0 2 (Some (fofZ 1 : @K F32, fofZ 1 : @K F32)) true fhinge; DVel 2 (fv 3 1) (fofZ 0)] [] fhinge fdt
    (fun w w' => still_structural w 0 && existsb (Nat.eqb 0) (w_bodies w') && at_x w 0 (fofZ 0) && negb (at_x w' 0 (fofZ 0)))%nat ltac:(vm_compute; reflexivity)) as (w & w' & R & S & L & E & H).
  apply andb_true_iff in H. destruct H as [H H4]. apply andb_true_iff in H. destruct H as [H H3]. apply andb_true_iff in H. destruct H as [H1 H2]. apply existsb_in in H2. intros C.
  specialize (C _ _ fdt w w' 0%nat R S L ltac:(vm_compute; reflexivity) E H1 H2). unfold motion_at in C. unfold at_x in H3, H4. destruct (w_bh w 0); [|discriminate]. destruct (w_bh w' 0); [|discriminate]. cbn in C. injection C as C. rewrite C, H3 in H4. discriminate.
Qed.
Print Assumptions C91_dominance_refuted.
