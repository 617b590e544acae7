(** Programs over a world, run by computation; the states they reach are
    [reachable].  Used by the examples of P_World.v. *)
From Coq Require Import ZArith List Bool Lia Permutation.
From Verif Require Import Num Outcome Box Mat Geom Transform Body Constraint World WorldHoare WorldInv WorldFrame WorldIsland WorldSolve WorldComp WorldSleep WorldOps WorldCols WorldClean WorldKill WorldStep WorldStrict WorldHist WorldThm WorldUse WorldGrab.
Import ListNotations.

Section Demo.
Context {N : Num} {TR : Trig N} {BH : Behaviour N}.

Inductive cmd :=
| DBody (p : vec2) (r : rotation) (d : K)
| DCon (b0 b1 : id) (doms : option (K * K)) (dis : bool) (st : CS)
| DForce (f : K -> body -> collider -> body)
| DAdd (b : id) (l : list vec2) (d : K) (hint : nat)
| DRemove (b k : id)
| DKillB (b : id) | DKillC (c : id)
| DVel (b : id) (v : vec2) (a : K)
| DStep (pairs : list (id * id)) (st : CS) (dt : K)
| DSet (s : settings)
| DClear.
(** no user class asks to die; the contact map keeps its order *)
Definition plain (pairs : list (id * id)) (st : CS) : oracle := Or (fun _ => false) (fun _ => []) pairs (fun _ l => l) (fun _ _ => st).
Definition is_some {A} (o : option A) : bool := match o with Some _ => true | None => false end.
Definition done {A} (r : res A) : option world := match r with Ok _ w => Some w | _ => None end.
Definition act1 (c : cmd) (w : world) : option world :=
  match c with
  | DBody p r d => done (make_body p r d w)
  | DCon b0 b1 doms dis st => if is_some (w_bh w b0) && is_some (w_bh w b1) then done (make_con b0 b1 doms dis st w) else None
  | DForce f => done (make_force false (fun dt b c => Ret (f dt b c)) [] w)
  | DAdd b l d h => if is_some (w_bh w b) then done (add_col b l d h w) else None
  | DRemove b k => match w_bh w b with Some y => if existsb (Nat.eqb k) (ids_of y) then done (remove_col b k w) else None | None => None end
  | DKillB b => done (kill_body b w)
  | DKillC b => done (kill_con b w)
  | DVel b v a => done (set_velocity b v a w)
  | DStep p st dt => done (step false (length (w_bodies w)) (plain p st) dt w)
  | DSet s => done (update_settings s w)
  | DClear => done (clear false w)
  end.
Fixpoint play (l : list cmd) (w : world) : option world := match l with [] => Some w | c :: l => match act1 c w with Some w' => play l w' | None => None end end.

Lemma done_ok {A} (r : res A) w : done r = Some w -> exists a, r = Ok a w.
Proof. destruct r; cbn; try discriminate. intros E. injection E as ->. eauto. Qed.
Lemma is_some_ex {A} (o : option A) : is_some o = true -> exists a, o = Some a.
Proof. destruct o; [eauto|discriminate]. Qed.
Lemma plain_shuffles p st : shuffles (plain p st).
Proof. intros n l. cbn. apply Permutation_refl. Qed.
Lemma act1_op c w w' : act1 c w = Some w' -> op w w'.
Proof.
  destruct c; cbn [act1]; intros E.
  - apply done_ok in E. destruct E as [i E]. eapply op_body, E.
  - destruct (_ && _) eqn:Hb; [|discriminate]. apply andb_true_iff in Hb. destruct Hb as [H0 H1]. apply done_ok in E. destruct E as [i E]. eapply op_con; [apply is_some_ex, H0|apply is_some_ex, H1|exact E].
  - apply done_ok in E. destruct E as [i E]. eapply op_force; [|exact E]. intros; exact Logic.I.
  - destruct (is_some _) eqn:Hb; [|discriminate]. apply done_ok in E. destruct E as [i E]. eapply op_add; [apply is_some_ex, Hb|exact E].
  - destruct (w_bh w b) as [y|] eqn:Ey; [|discriminate]. destruct (existsb _ _) eqn:Hk; [|discriminate]. apply done_ok in E. destruct E as [[] E]. eapply op_remove; [exact Ey|apply existsb_in, Hk|exact E].
  - apply done_ok in E. destruct E as [[] E]. eapply op_kill_body, E.
  - apply done_ok in E. destruct E as [[] E]. eapply op_kill_con, E.
  - apply done_ok in E. destruct E as [[] E]. eapply op_velocity, E.
  - apply done_ok in E. destruct E as [[] E]. eapply op_step; [apply plain_shuffles|apply le_n|exact E].
  - apply done_ok in E. destruct E as [[] E]. eapply op_settings, E.
  - apply done_ok in E. destruct E as [[] E]. eapply op_clear, E.
Qed.
Lemma play_ops l : forall w w', play l w = Some w' -> ops w w'.
Proof.
  assert (H : forall l w0 w w', ops w0 w -> play l w = Some w' -> ops w0 w').
  { clear l. induction l as [|c l IH]; intros w0 w w' O E; cbn in E; [injection E as <-; exact O|]. destruct (act1 c w) as [w1|] eqn:E1; [|discriminate]. apply act1_op in E1. eapply IH; [eapply ops_snoc; eassumption|exact E]. }
  intros w w' E. eapply H; [apply ops_nil|exact E].
Qed.
Lemma play_reachable s l w : play l (empty_world s) = Some w -> reachable w.
Proof. intros E. exists s. eapply play_ops, E. Qed.
(** a program which ends in a state satisfying a test *)
Definition shows (s : settings) (l : list cmd) (t : world -> bool) : bool := match play l (empty_world s) with Some w => t w | None => false end.
Lemma shows_ex s l t : shows s l t = true -> exists w, reachable w /\ t w = true.
Proof. unfold shows. destruct (play l (empty_world s)) as [w|] eqn:E; [|discriminate]. intros H. exists w. split; [eapply play_reachable, E|exact H]. Qed.
End Demo.
