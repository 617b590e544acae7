(** Concrete worlds in binary32, run by computation; used by the examples and
    the refutations of P_World.v. *)
From Coq Require Import ZArith List Bool Lia.
From Verif Require Import Num Outcome Box Mat Geom Transform Body Constraint Contact World WorldHoare WorldInv WorldIsland WorldComp WorldSleep WorldOps WorldCols WorldClean WorldKill WorldStep WorldStrict WorldHist WorldThm WorldUse WorldGrab WorldReal WorldDemo ConstraintThm.
Import ListNotations.

(** sin and cos of small angles *)
Definition FT1 : Trig F32 := @Build_Trig F32 (fun _ : @K F32 => fofZ 1 : @K F32) (fun x : @K F32 => x).
Definition fset (sleep : bool) : settings (N := F32) := @Set_ F32 2 1 true sleep (fofZ 1) (fofZ 1) (fofZ 1).
Definition frot : @rotation F32 := @Rot F32 (fofZ 0) (fofZ 1) (fofZ 0).
Definition fsq : list (@vec2 F32) := [fv (-1) (-1); fv 1 (-1); fv 1 1; fv (-1) 1].
Definition fdt : @K F32 := fdiv (fofZ 1) (fofZ 60).
#[global] Existing Instance FT1.

Section Run.
Context {BH : Behaviour F32}.
Definition runs (s : @settings F32) (l : list (@cmd F32 BH)) (p : list (id * id)) (st : CS) (dt : @K F32) (t : @world F32 BH -> @world F32 BH -> bool) : bool :=
  match play l (empty_world s) with Some w => match step false (length (w_bodies w)) (plain p st) dt w with Ok _ w' => t w w' | _ => false end | None => false end.
Lemma runs_ex s l p st dt t : runs s l p st dt t = true ->
  exists w w', reachable w /\ shuffles (plain p st) /\ length (w_bodies w) <= length (w_bodies w) /\ step false (length (w_bodies w)) (plain p st) dt w = Ok tt w' /\ t w w' = true.
Proof.
  unfold runs. destruct (play l (empty_world s)) as [w|] eqn:E; [|discriminate]. destruct (step _ _ _ _ w) as [[] w'| | |] eqn:E1; try discriminate. intros H.
  exists w, w'. split; [eapply play_reachable, E|]. split; [apply plain_shuffles|]. auto.
Qed.
(** tests *)
Definition at_x (w : @world F32 BH) (b : id) (x : @K F32) : bool := match w_bh w b with Some y => (@keqb F32) (vx (p_off (b_pos (wb y)))) x | None => false end.
Definition asleep (w : @world F32 BH) (b : id) : bool := match w_bh w b with Some y => b_asleep (wb y) | None => false end.
Definition alive (w : @world F32 BH) (b : id) : bool := match w_bh w b with Some _ => true | None => false end.
Definition calive (w : @world F32 BH) (b : id) : bool := match w_ch w b with Some _ => true | None => false end.
End Run.

(** ** Two squares joined by a hinge, which move; a third body alone *)
#[local] Existing Instance LibB.
Definition fhinge : @CS F32 LibB := LEq (hinge_fun (fv 1 0) (fv (-1) 0)) (new_eqsolver (hinge_fun (fv 1 0) (fv (-1) 0)) (fun _ => fofZ 0) (fun _ => fofZ 0)).
Definition ftouch : @CS F32 LibB := LCt fct.
Definition two : list (@cmd F32 LibB) := [DBody (fv 0 0) frot (fofZ 1); DAdd 0 fsq (fofZ 1) 0; DBody (fv 2 0) frot (fofZ 1); DAdd 2 fsq (fofZ 1) 7].
Definition hinged : list (@cmd F32 LibB) := two ++ [DCon 0 2 None true fhinge; DVel 0 (fv 3 1) (fofZ 0)].
Definition touching : list (@cmd F32 LibB) := two ++ [DVel 0 (fv 3 1) (fofZ 0); DStep [(1, 3)] ftouch fdt].
(** a body at rest falls asleep while another one moves; then more time is asked for before sleep *)
Definition drowsy : list (@cmd F32 LibB) := two ++ [DVel 2 (fv 3 0) (fofZ 0); DStep [] fhinge (fofZ 2); DSet (@Set_ F32 2 1 true true (fofZ 9) (fofZ 1) (fofZ 1))].
(** a killed body with a hinge, a killed contact *)
Definition killing : list (@cmd F32 LibB) := hinged ++ [DKillB 2].

(** ** A distance constraint with an upper limit, which is active beyond it *)
Definition limB : Behaviour F32 :=
  let f := @distance_fun F32 (fv 0 0) (fv 0 0) in
  {| CS := @lisolver F32; bh_pre := fun e => e; bh_active := fun e px s => Ret (e, li_active e f px s); bh_init := fun e px s => Ret (li_init e f px s);
     bh_warm := fun e px s dt => li_warmstart e f px s dt; bh_vel := fun e px s dt => li_velocity 9 e f px s dt; bh_pos := fun e px s => li_position 9 e f px s |}.
(** at most 2.5 apart *)
Definition flimit : @CS F32 limB := fst (li_setU 1 (@new_lisolver F32 (fun _ => fofZ 0) (fun _ => fofZ 0)) (Some (fun _ => fdiv (fofZ 25) (fofZ 4)))).
Definition leash : list (@cmd F32 limB) := [DBody (fv 2 0) frot (fofZ 1); DAdd 0 fsq (fofZ 1) 0; DBody (fv 0 0) frot (fofZ 1); DAdd 2 fsq (fofZ 1) 7;
  DCon 2 0 None true flimit; DVel 2 (fv (-60) 0) (fofZ 0)].

(** ** Constraints which do nothing; their state tells whether they are active *)
Definition idleB : Behaviour F32 :=
  {| CS := bool; bh_pre := fun c => c; bh_active := fun c _ _ => Ret (c, c); bh_init := fun c _ _ => Ret c;
     bh_warm := fun c _ s _ => Ret (c, s); bh_vel := fun c _ s _ => Ret (c, s); bh_pos := fun c _ s => Ret (c, s) |}.
Lemma idle_tame : @tame F32 idleB.
Proof. constructor; intros; exact Logic.I. Qed.
Lemma idle_steady : @steady F32 idleB (fun c : bool => c).
Proof. constructor; cbn; intros; match goal with H : Ret _ = Ret _ |- _ => injection H; intros; subst; auto end. Qed.
Lemma idle_still : @WorldComp.still F32 idleB.
Proof. constructor; [intros dt|intros dt|]; intros st px s st' s' E; injection E as _ <-; auto. Qed.
Definition on_ : @CS F32 idleB := true.
Definition off_ : @CS F32 idleB := false.
(** bodies 0, 2, 4 with mass, 6 structural; 0 and 2 both joined to 6; 2 joined to 4 *)
Definition ground : list (@cmd F32 idleB) := [DBody (fv 0 0) frot (fofZ 1); DAdd 0 fsq (fofZ 1) 0; DBody (fv 2 0) frot (fofZ 1); DAdd 2 fsq (fofZ 1) 1; DBody (fv 4 0) frot (fofZ 1); DAdd 4 fsq (fofZ 1) 2;
  DBody (fv 2 2) frot (fofZ 0); DAdd 6 fsq (fofZ 1) 3; DCon 0 6 None true on_; DCon 6 2 None true on_; DCon 2 4 None true on_; DCon 0 4 None true off_; DVel 0 (fv 1 0) (fofZ 0)].
Definition event_eqb (a b : event) : bool :=
  match a, b with
  | Notified i, Notified j | Released i, Released j => Nat.eqb i j
  | Solved a b c, Solved a' b' c' => if list_eq_dec Nat.eq_dec a a' then if list_eq_dec Nat.eq_dec b b' then if list_eq_dec Nat.eq_dec c c' then true else false else false else false
  | Forced i j, Forced i' j' => Nat.eqb i i' && Nat.eqb j j'
  | _, _ => false
  end.
Fixpoint log_eqb (a b : list event) : bool := match a, b with [], [] => true | x :: a, y :: b => event_eqb x y && log_eqb a b | _, _ => false end.
Lemma event_eqb_true a b : event_eqb a b = true -> a = b.
Proof.
  destruct a, b; cbn; try discriminate; intros H.
  - apply Nat.eqb_eq in H. congruence.
  - apply Nat.eqb_eq in H. congruence.
  - repeat destruct (list_eq_dec _ _ _); try discriminate. congruence.
  - apply andb_true_iff in H. destruct H as [H1 H2]. apply Nat.eqb_eq in H1, H2. congruence.
Qed.
Lemma log_eqb_true : forall a b, log_eqb a b = true -> a = b.
Proof. induction a as [|x a IH]; intros [|y b] H; try discriminate; [reflexivity|]. cbn in H. apply andb_true_iff in H. destruct H as [H1 H2]. apply event_eqb_true in H1. f_equal; auto. Qed.

(** ** Tests of the hypotheses *)
Section Tests.
Context {BH : Behaviour F32}.
Definition all_cons (w : @world F32 BH) : list id := w_cons w ++ map e_con (w_cts w).
Definition massless_b (w : @world F32 BH) : bool :=
  forallb (fun c => match w_ch w c with
    | Some x => implb ((@keqb F32) (c_m0 x) k0) ((@keqb F32) (c_I0 x) k0) && implb ((@keqb F32) (c_m1 x) k0) ((@keqb F32) (c_I1 x) k0) && implb (Nat.eqb (c_b0 x) (c_b1 x)) (negb ((@keqb F32) (c_m0 x) k0))
    | None => true end) (all_cons w).
Lemma massless_b_true (T : @tame F32 BH) (w : @world F32 BH) : reachable w -> massless_b w = true -> massless w.
Proof.
  intros HR H c x E. destruct (td_cons _ (history_tidy T w HR)) as [_ TC]. unfold massless_b in H. rewrite forallb_forall in H. specialize (H c). rewrite E in H.
  assert (I : In c (all_cons w)).
  { unfold all_cons. apply in_or_app. destruct (proj2 (TC c)) as [|(e & He & Ee)]; [exists x; exact E|auto|]. right. apply in_map_iff. exists e. auto. }
  apply H in I. apply andb_true_iff in I. destruct I as [I I3]. apply andb_true_iff in I. destruct I as [I1 I2].
  split; [|split]; intros Q.
  - change ((@keqb F32) (c_m0 x) k0 = true) in Q. rewrite Q in I1. exact I1.
  - change ((@keqb F32) (c_m1 x) k0 = true) in Q. rewrite Q in I2. exact I2.
  - apply Nat.eqb_eq in Q. rewrite Q in I3. cbn in I3. apply negb_true_iff in I3. exact I3.
Qed.
End Tests.
(** ** The grabber *)
Definition fmouse : @CS F32 LibB := LEq (mouse_fun (fv 0 0) (fv 1 1)) (new_eqsolver (mouse_fun (fv 0 0) (fv 1 1)) (fun _ => fofZ 0) (fun _ => fofZ 0)).
Section Grab.
Context {BH : Behaviour F32}.
Definition grabs (s : @settings F32) (l : list (@cmd F32 BH)) (st sm : CS) (b : id) : bool :=
  match play l (empty_world s) with
  | Some w0 => alive w0 b &&
      match press (fun _ => sm) [b] None w0 with
      | Ok (Some c) w1 =>
          match kill_body b w1 with
          | Ok _ w => match w_ch w c, step false (length (w_bodies w)) (plain [] st) fdt w with Some x, Ok _ _ => match w_bh w (c_b0 x) with Some y => wb_killed y | None => false end | _, _ => false end
          | _ => false end
      | _ => false end
  | None => false end.
Lemma grabs_ex s l st sm b : grabs s l st sm b = true ->
  exists (w : @world F32 BH) c made x w', session w (Some c) made /\ w_ch w c = Some x /\ shuffles (plain [] st) /\ step false (length (w_bodies w)) (plain [] st) fdt w = Ok tt w' /\ doomed_body (fun _ => false) w (c_b0 x).
Proof.
  unfold grabs. destruct (play l (empty_world s)) as [w0|] eqn:E0; [|discriminate]. intros H. apply andb_true_iff in H. destruct H as [H0 H]. destruct (press _ _ _ w0) as [[c|] w1| | |] eqn:E1; try discriminate.
  destruct (kill_body b w1) as [[] w| | |] eqn:E2; try discriminate. destruct (w_ch w c) as [x|] eqn:E3; [|discriminate]. destruct (step _ _ _ _ w) as [[] w'| | |] eqn:E4; try discriminate.
  destruct (w_bh w (c_b0 x)) as [y|] eqn:E5; [|discriminate].
  assert (S : session w (Some c) (fun d => False \/ (w_next w0 <= d < w_next w1))).
  { eapply se_world; [|exact (op_kill_body _ _ _ E2)]. eapply (se_press w0 None (fun _ => False)); [apply se_start; exact (play_reachable _ _ _ E0)| |exact E1].
    intros b' [<-|[]]. unfold alive in H0. destruct (w_bh w0 b) as [y0|] eqn:E6; [exists y0; exact E6|discriminate]. }
  exists w, c, (fun d => False \/ (w_next w0 <= d < w_next w1)), x, w'. split; [exact S|]. split; [exact E3|]. split; [apply plain_shuffles|]. split; [exact E4|]. exists y. auto.
Qed.
End Grab.
