(** LinearField (C83), exact arithmetic: a force shared among the colliders of a
    body.  Also the region of a field: only some colliders are visited. *)
From Coq Require Import ZArith List Bool Reals Lra Psatz Lia Arith Permutation.
From Verif Require Import Num Outcome Box Mat MatFacts MatSolve Geom GeomClosest GeomPoly GeomArea GeomExamples Transform TransformFacts Body BodyFacts BodyMore.
Import ListNotations.
Local Open Scope R_scope.

(** the acceleration a linear field gives to a body all of whose colliders it visits *)
Definition share (f : Rv) (b : Rbody) : Rv := @vscale RNum (1 / b_mass b) f.
Lemma linear_one (f : Rv) dt (b : Rbody) v w (c : Rcoll) p : c_props c = Ret p -> b_mass b <> 0 -> b_inertia b <> 0 ->
  linear_apply f dt (set_motion b v w) c =
  Ret (set_motion b (vadd v (@vscale RNum (mp_m p * dt / b_mass b) (share f b))) (w + torque b (share f b) dt p)).
Proof.
  intros E M I. unfold linear_apply. rewrite E. cbn [obind]. f_equal.
  unfold apply_force, apply_impulse, set_ang, set_vel, set_motion, lever, share. cbn [b_pos b_vel b_ang b_colliders b_props b_dominance b_asleep b_immobile].
  rewrite rot_world. unfold torque, rcross, b_invMass, b_invInertia, b_mass, b_inertia in *. cbn [b_props].
  set (r := rot_apply _ _). clearbody r. ung. f_equal; [f_equal; rfield; assumption|rfield; split; assumption].
Qed.
Lemma linear_run (f : Rv) dt (cs : list (nat * Rcoll)) : forall bs,
  (forall i c, In (i, c) cs -> active (bs i) = true -> coll_ok c /\ b_mass (bs i) <> 0 /\ b_inertia (bs i) <> 0) ->
  exists bs', apply_field (linear_apply f dt) cs bs = Ret bs' /\
  forall k, (active (bs k) = false -> bs' k = bs k) /\
    (active (bs k) = true -> let ps := props_list (own k cs) in let g := share f (bs k) in
       bs' k = set_motion (bs k) (vadd (b_vel (bs k)) (@vscale RNum (sum_by mp_m ps * dt / b_mass (bs k)) g))
                 (b_ang (bs k) + sum_by (torque (bs k) g dt) ps)).
Proof.
  induction cs as [|[i c] cs IH]; intros bs OK.
  - exists bs. split; [reflexivity|]. intros k. split; [auto|]. intros A. cbn.
    rewrite <- (set_motion_self (bs k) A) at 1. unfold set_motion. f_equal; [|rcbn; lra].
    unfold Rdiv. destruct (b_vel (bs k)) as [x y]. ung. f_equal; rring.
  - cbn [apply_field]. fold (active (bs i)). destruct (active (bs i)) eqn:AI.
    + destruct (OK i c (or_introl eq_refl) AI) as ((p & EP & PM) & MN & IN).
      pose proof (linear_one f dt (bs i) (b_vel (bs i)) (b_ang (bs i)) c p EP MN IN) as G1. rewrite (set_motion_self _ AI) in G1.
      rewrite G1. cbn [obind]. set (b1 := set_motion _ _ _).
      destruct (IH (upd bs i b1)) as (bs' & R & S).
      { intros j d I A. unfold upd in *. destruct (Nat.eqb_spec j i) as [->|NE]; [|apply OK; [right; exact I|exact A]].
        split; [apply (OK i d); [right; exact I|exact AI]|]. split; assumption. }
      exists bs'. split; [exact R|]. intros k. destruct (S k) as [S1 S2]. unfold upd in S1, S2. unfold own. cbn [filter fst].
      destruct (Nat.eqb_spec k i) as [E|NE]; [subst k|].
      * rewrite Nat.eqb_refl. cbn [map snd props_list]. fold (own i cs) (props_list (own i cs)). rewrite EP.
        split; [congruence|]. intros _. rewrite S2 by (apply active_motion; exact AI). cbv zeta. cbn [sum_by fold_right].
        fold (sum_by mp_m (props_list (own i cs))). change (share f b1) with (share f (bs i)). set (g := share f (bs i)) in *.
        assert (T : forall l, sum_by (torque b1 g dt) l = sum_by (torque (bs i) g dt) l) by reflexivity.
        rewrite T. change (b_mass b1) with (b_mass (bs i)). unfold b1, set_motion. cbn [b_pos b_vel b_ang b_colliders b_props b_dominance b_immobile].
        f_equal.
        -- set (s := sum_by mp_m _). clearbody s g. unfold b_mass in *. cbn [b_props]. ung. f_equal; rfield; assumption.
        -- unfold sum_by. rcbn. lra.
      * destruct (Nat.eqb_spec i k); [congruence|]. fold (own k cs). split; assumption.
    + destruct (IH bs) as (bs' & R & S); [intros; apply OK; [right|]; assumption|]. exists bs'. split; [exact R|].
      intros k. destruct (S k) as [S1 S2]. split; [exact S1|]. intros A. unfold own. cbn [filter fst].
      destruct (Nat.eqb_spec i k); [congruence|]. apply S2. exact A.
Qed.

(** facts on a body that holds its colliders *)
Lemma mass_of (b : Rbody) : body_inv b -> b_colliders b <> [] -> b_mass b <> 0 /\ b_mass b = sum_by mp_m (props_list (b_colliders b)).
Proof.
  intros (F & S & _ & _) NE. unfold b_mass. rewrite S.
  destruct (mp_sum_totals _ (props_list_wf _ F)) as (M & _). split; [|exact M]. rewrite M.
  destruct (b_colliders b) as [|c l]; [congruence|]. inversion F as [|? ? (p & E & P) F']; subst. cbn. rewrite E.
  assert (N0 : 0 <= sum_by mp_m (props_list l)).
  { clear -F'. induction F' as [|x l (q & E & Q) _ IH]; cbn; [lra|]. rewrite E. fold (props_list l) in *. cbn. unfold sum_by in *. rcbn. lra. }
  unfold sum_by in N0. fold (props_list l). rcbn. lra.
Qed.
(** a field that visits some of the colliders of each body, each at most once:
    [touched k] is the mass visited of body k *)
Definition touched (k : nat) (cs : list (nat * Rcoll)) : R := sum_by mp_m (props_list (own k cs)).
Lemma linear_region (f : Rv) (dt : R) (bs : nat -> Rbody) (cs : list (nat * Rcoll)) :
  (forall k, body_inv (bs k)) -> (forall i c, In (i, c) cs -> In c (b_colliders (bs i))) ->
  (forall k, active (bs k) = true -> b_colliders (bs k) <> [] -> b_inertia (bs k) <> 0) ->
  exists bs', apply_field (linear_apply f dt) cs bs = Ret bs' /\
  forall k, (active (bs k) = false -> bs' k = bs k) /\
    (active (bs k) = true -> b_colliders (bs k) <> [] ->
       let m := b_mass (bs k) in
       m * (vx (b_vel (bs' k)) - vx (b_vel (bs k))) = vx f * dt * (touched k cs / m) /\
       m * (vy (b_vel (bs' k)) - vy (b_vel (bs k))) = vy f * dt * (touched k cs / m) /\ b_pos (bs' k) = b_pos (bs k)).
Proof.
  intros INV INOWN IN.
  destruct (linear_run f dt cs bs) as (bs' & R & S).
  { intros i c I A. specialize (INOWN i c I). assert (NE : b_colliders (bs i) <> []) by (intros E; rewrite E in INOWN; destruct INOWN).
    destruct (INV i) as (F & _). split; [rewrite Forall_forall in F; apply F; exact INOWN|]. split; [apply mass_of; [apply INV|exact NE]|apply IN; assumption]. }
  exists bs'. split; [exact R|]. intros k. destruct (S k) as [S1 S2]. split; [exact S1|]. intros A NE.
  specialize (S2 A). cbv zeta in S2. destruct (mass_of _ (INV k) NE) as [M0 _]. cbv zeta. fold (touched k cs) in S2. rewrite S2. unfold set_motion. cbn [b_vel b_pos].
  set (t := touched k cs). clearbody t. set (m := b_mass (bs k)) in *. unfold share. fold m. unfold vadd, vscale. cbn [vx vy]. clearbody m. rcbn. change (@K RNum) with Rdefinitions.R in *.
  split; [field; exact M0|]. split; [field; exact M0|reflexivity].
Qed.
Lemma linear_step (f : Rv) (dt : R) (bs : nat -> Rbody) (cs : list (nat * Rcoll)) :
  (forall k, body_inv (bs k)) ->
  (forall k, Permutation (own k cs) (b_colliders (bs k))) ->
  (forall k, active (bs k) = true -> b_colliders (bs k) <> [] -> b_inertia (bs k) <> 0) ->
  exists bs', apply_field (linear_apply f dt) cs bs = Ret bs' /\
  forall k, (active (bs k) = false -> bs' k = bs k) /\
    (active (bs k) = true -> b_colliders (bs k) <> [] ->
       b_mass (bs k) * (vx (b_vel (bs' k)) - vx (b_vel (bs k))) = vx f * dt /\
       b_mass (bs k) * (vy (b_vel (bs' k)) - vy (b_vel (bs k))) = vy f * dt /\
       b_ang (bs' k) = b_ang (bs k) /\ b_pos (bs' k) = b_pos (bs k)).
Proof.
  intros INV PERM IN.
  assert (INOWN : forall i c, In (i, c) cs -> In c (b_colliders (bs i))).
  { intros i c I. apply (Permutation_in c (PERM i)). unfold own. apply in_map_iff. exists (i, c). split; [reflexivity|]. apply filter_In. split; [exact I|]. apply Nat.eqb_refl. }
  destruct (linear_run f dt cs bs) as (bs' & R & S).
  { intros i c I A. specialize (INOWN i c I). assert (NE : b_colliders (bs i) <> []) by (intros E; rewrite E in INOWN; destruct INOWN).
    destruct (INV i) as (F & _). split; [rewrite Forall_forall in F; apply F; exact INOWN|]. split; [apply mass_of; [apply INV|exact NE]|apply IN; assumption]. }
  exists bs'. split; [exact R|]. intros k. destruct (S k) as [S1 S2]. split; [exact S1|]. intros A NE.
  specialize (S2 A). cbv zeta in S2. destruct (mass_of _ (INV k) NE) as [M0 M1]. pose proof (IN k A NE) as I0.
  assert (PP : Permutation (props_list (own k cs)) (props_list (b_colliders (bs k)))) by (apply Permutation_map, PERM).
  destruct (INV k) as (F & SP & _ & LC). specialize (LC NE).
  destruct (mp_sum_totals _ (props_list_wf _ F)) as (MT & MX & MY). rewrite <- SP in MT, MX, MY. fold (b_mass (bs k)) in MT, MX, MY.
  rewrite torque_sum in S2 by exact I0. rewrite !(sum_by_perm _ _ _ PP) in S2. rewrite <- MX, <- MY, <- MT, <- LC in S2.
  rewrite S2. unfold set_motion, share. cbn [b_vel b_ang b_pos]. ung. unfold rcross, rot_apply. cbn [vx vy].
  repeat split; rfield; auto.
Qed.
