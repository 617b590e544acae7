(** The islands of a world whose constraints are the library's, in exact
    arithmetic. *)
From Coq Require Import ZArith List Bool Lia Reals.
From Verif Require Import Num Outcome Box Mat Geom Transform Body Constraint Contact World WorldHoare WorldInv WorldFrame WorldIsland WorldSolve WorldComp WorldSleep WorldOps WorldCols WorldClean WorldKill WorldStep WorldStrict WorldHist WorldThm WorldMass WorldReal.
Import ListNotations.

(** a constraint which gives a body infinite mass gives it infinite inertia *)
Definition weighty {N : Num} {BH : Behaviour N} (w : world) : Prop :=
  forall c x, w_ch w c = Some x -> ((c_m0 x =? k0)%num = true -> (c_I0 x =? k0)%num = true) /\ ((c_m1 x =? k0)%num = true -> (c_I1 x =? k0)%num = true).
Lemma weighty_massless {N : Num} {TR : Trig N} {BH : Behaviour N} (T : tame) w : reachable w -> weighty w -> massless w.
Proof.
  intros HR H c x E. destruct (H c x E) as [A B]. split; [exact A|]. split; [exact B|]. apply firm_alone. exact (history_firm T w HR c x E).
Qed.
Section Lib.
Context {TR : Trig RNum}.
Local Existing Instance LibB.
Theorem lib_islands strict fuel o (dt : @K RNum) (w w' : world) : reachable w -> weighty w -> shuffles o -> length (w_bodies w) <= fuel -> (0 < dt)%R -> step strict fuel o dt w = Ok tt w' ->
  exists wm l L, at_solve o dt w wm /\ w_log w' = w_log w ++ l ++ map event_of L /\ (forall e, In e l -> ~ is_solved e) /\
    Forall (@component RNum LibB lib_act wm) L /\ ForallOrdPairs (apart wm) L /\ forall b, In b (w_bodies wm) -> exists i, In i L /\ In b (i_bs i).
Proof.
  intros HR HW Hs HF Hdt E. apply (@step_islands RNum TR LibB lib_tame lib_act strict fuel o dt w w' lib_steady (lib_still TR)); auto.
  - apply (weighty_massless lib_tame); assumption.
  - cbn. destruct (Rltb_spec (IZR 0) dt); [reflexivity|contradiction].
Qed.
End Lib.
