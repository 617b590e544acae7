(** Sleeping, materials, profiler, and what adding a collider does to a moving
    body (C43, C53, C54, C57-C59). *)
From Coq Require Import ZArith List Bool Reals Lra Psatz Lia Arith Permutation.
From Verif Require Import Num Outcome Box Mat MatFacts MatSolve Geom GeomClosest GeomPoly GeomArea GeomExamples Transform TransformFacts Body BodyFacts.
Import ListNotations.
Local Open Scope R_scope.

(** ** C43 *)
Lemma immobile_iff (b : Rbody) (vt at_ : R) : is_immobile b vt at_ = true <->
  vx (b_vel b) * vx (b_vel b) + vy (b_vel b) * vy (b_vel b) < vt * vt /\ b_ang b < at_.
Proof.
  unfold is_immobile. rewrite andb_true_iff. cbn [kltb RNum]. rewrite !Rltb_iff.
  assert (E : vnormsq (b_vel b) = vx (b_vel b) * vx (b_vel b) + vy (b_vel b) * vy (b_vel b)) by (ung; rring).
  rewrite E. reflexivity.
Qed.
Fixpoint sleep_steps (n : nat) (b : Rbody) (dt vt at_ delay : R) : Rbody :=
  match n with O => b | S n => sleep_steps n (sleep_step b dt vt at_ delay) dt vt at_ delay end.
Lemma sleep_step_motion (b : Rbody) (dt vt at_ delay : R) : let b' := sleep_step b dt vt at_ delay in
  b_vel b' = b_vel b /\ b_ang b' = b_ang b /\ b_pos b' = b_pos b /\
  b_immobile b' = (if is_immobile b vt at_ then b_immobile b + dt else 0) /\
  b_asleep b' = (if Rle_dec delay (b_immobile b') then true else b_asleep b).
Proof.
  unfold sleep_step, can_sleep, update_immobile, go_sleep. cbn [b_immobile]. cbn [kleb kadd RNum]. change (@k0 RNum) with 0.
  set (x := if is_immobile b vt at_ then _ else _). destruct (Rleb_spec delay x); cbn [b_vel b_ang b_pos b_immobile b_asleep];
  destruct (Rle_dec delay x); try contradiction; repeat split.
Qed.
Lemma sleep_steps_clockwise n : forall (b : Rbody) (dt vt at_ delay : R), 0 < dt -> 0 < at_ ->
  vx (b_vel b) * vx (b_vel b) + vy (b_vel b) * vy (b_vel b) < vt * vt -> b_ang b < 0 ->
  (0 < n)%nat -> delay <= b_immobile b + INR n * dt ->
  b_asleep (sleep_steps n b dt vt at_ delay) = true /\ b_ang (sleep_steps n b dt vt at_ delay) = b_ang b.
Proof.
  induction n as [|n IH]; intros b dt vt at_ delay DT AT V W NP D; [lia|]. cbn [sleep_steps].
  destruct (sleep_step_motion b dt vt at_ delay) as (EV & EW & _ & EI & EA). cbv zeta in *.
  assert (IM : is_immobile b vt at_ = true) by (apply immobile_iff; split; [exact V|lra]). rewrite IM in EI.
  set (b' := sleep_step b dt vt at_ delay) in *. clearbody b'. destruct n as [|n].
  - cbn [sleep_steps]. rewrite EA, EI. cbn [INR] in D. rewrite Rmult_1_l in D. destruct (Rle_dec delay (b_immobile b + dt)); [auto|contradiction].
  - destruct (IH b' dt vt at_ delay DT AT) as [S1 S2]; try (rewrite ?EV, ?EW; assumption); [lia| |].
    + rewrite EI. rewrite S_INR in D. lra.
    + split; [exact S1|]. rewrite S2. exact EW.
Qed.
Lemma sleep_steps_counterclockwise n : forall (b : Rbody) (dt vt at_ delay : R), 0 < delay -> at_ <= b_ang b -> b_asleep b = false ->
  b_asleep (sleep_steps n b dt vt at_ delay) = false.
Proof.
  induction n as [|n IH]; intros b dt vt at_ delay D W A; [exact A|]. cbn [sleep_steps].
  destruct (sleep_step_motion b dt vt at_ delay) as (EV & EW & _ & EI & EA). cbv zeta in *.
  assert (IM : is_immobile b vt at_ = false).
  { destruct (is_immobile b vt at_) eqn:E; [|reflexivity]. apply immobile_iff in E. lra. }
  rewrite IM in EI. apply IH; [exact D|rewrite EW; exact W|]. rewrite EA, EI. destruct (Rle_dec delay 0); [lra|exact A].
Qed.

(** ** C53 *)
Notation Rcomb := (@comb RNum).
Lemma mode_max_comm a b : mode_max a b = mode_max b a.
Proof. destruct a, b; reflexivity. Qed.
Lemma mode_max_rank a b : mode_rank (mode_max a b) = Nat.max (mode_rank a) (mode_rank b).
Proof. destruct a, b; reflexivity. Qed.
Lemma kmin_R a b : @kmin RNum a b = Rmin a b.
Proof. unfold kmin. cbn [kltb RNum]. unfold Rmin. destruct (Rltb_spec b a); destruct (Rle_dec a b); lra. Qed.
Lemma kmax_R a b : @kmax RNum a b = Rmax a b.
Proof. unfold kmax. cbn [kltb RNum]. unfold Rmax. destruct (Rltb_spec a b); destruct (Rle_dec a b); lra. Qed.
Lemma combine_R m a b : @combine_values RNum m a b =
  match m with MAverage => (a + b) / 2 | MMinimum => Rmin a b | MMultiply => a * b | MMaximum => Rmax a b end.
Proof. destruct m; cbn [combine_values]; [reflexivity|apply kmin_R|reflexivity|apply kmax_R]. Qed.
Lemma comb_sym (a b : Rcomb) : comb_combine a b = comb_combine b a.
Proof.
  unfold comb_combine. rewrite (mode_max_comm (cb_mode a)). f_equal. rewrite !combine_R.
  destruct (mode_max _ _); [lra|apply Rmin_comm|apply Rmult_comm|apply Rmax_comm].
Qed.
Lemma comb_priority (a b : Rcomb) : mode_rank (cb_mode (comb_combine a b)) = Nat.max (mode_rank (cb_mode a)) (mode_rank (cb_mode b)).
Proof. apply mode_max_rank. Qed.
Lemma comb_value_spec (a b : Rcomb) : let x := cb_value a in let y := cb_value b in cb_value (comb_combine a b) =
  match cb_mode (comb_combine a b) with MAverage => (x + y) / 2 | MMinimum => Rmin x y | MMultiply => x * y | MMaximum => Rmax x y end.
Proof. unfold comb_combine. cbn [cb_value cb_mode]. apply combine_R. Qed.
Lemma comb_between (a b : Rcomb) : cb_mode (comb_combine a b) <> MMultiply ->
  Rmin (cb_value a) (cb_value b) <= cb_value (comb_combine a b) <= Rmax (cb_value a) (cb_value b).
Proof.
  intros H. pose proof (comb_value_spec a b) as E. cbv zeta in E. rewrite E. clear E.
  set (x := cb_value a). set (y := cb_value b). clearbody x y. change (@K RNum) with R in *.
  unfold Rmin, Rmax. destruct (cb_mode (comb_combine a b)); [| |congruence|]; destruct (Rle_dec x y); lra.
Qed.
Lemma comb_unit (a b : Rcomb) : 0 <= cb_value a <= 1 -> 0 <= cb_value b <= 1 -> 0 <= cb_value (comb_combine a b) <= 1.
Proof.
  intros A B. pose proof (comb_value_spec a b) as E. cbv zeta in E. rewrite E. clear E.
  set (x := cb_value a) in *. set (y := cb_value b) in *. clearbody x y. change (@K RNum) with R in *.
  unfold Rmin, Rmax. destruct (cb_mode (comb_combine a b)); try destruct (Rle_dec x y); nra.
Qed.

(** ** C54 *)
Notation Rte := (@time_entry RNum).
Definition te_run (xs : list R) (e : Rte) : Rte := fold_left (@te_add RNum) xs e.
Definition rsum (xs : list R) : R := fold_right Rplus 0 xs.
Definition rmaximum (xs : list R) : R := fold_right Rmax 0 xs.
Lemma te_add_spec (e : Rte) (s : R) : te_n (te_add e s) = S (te_n e) /\ te_last (te_add e s) = s /\ te_max (te_add e s) = Rmax (te_max e) s /\
  te_avg (te_add e s) * INR (S (te_n e)) = te_avg e * INR (te_n e) + s.
Proof.
  unfold te_add. cbn [te_n te_last te_max te_avg]. rewrite kmax_R. repeat split. cbn [kofZ RNum]. rcbn. rewrite <- !INR_IZR_INZ. field.
  apply not_0_INR. lia.
Qed.
Lemma te_run_gen (xs : list R) : forall e : Rte, let e' := te_run xs e in
  te_n e' = (te_n e + length xs)%nat /\ te_last e' = last xs (te_last e) /\
  te_max e' = fold_left Rmax xs (te_max e) /\ te_avg e' * INR (te_n e') = te_avg e * INR (te_n e) + rsum xs.
Proof.
  induction xs as [|x xs IH]; intros e; cbv zeta; unfold te_run; cbn [fold_left].
  - cbn [length last rsum fold_right]. split; [lia|]. split; [reflexivity|]. split; [reflexivity|]. rcbn. lra.
  - destruct (IH (te_add e x)) as (A & B & C & D). cbv zeta in *. fold (te_run xs (te_add e x)). destruct (te_add_spec e x) as (A1 & B1 & C1 & D1).
    rewrite A1 in A. rewrite B1 in B. rewrite C1 in C. rewrite A1 in D. rewrite D1 in D.
    split; [rewrite A; cbn; lia|]. split; [rewrite B; symmetry; apply last_cons_nd|]. split; [exact C|]. rewrite D. unfold rsum. cbn [fold_right]. change (@K RNum) with R in *. rcbn. lra.
Qed.
Lemma fold_rmax xs : forall a, let m := fold_left Rmax xs a in (m = a \/ In m xs) /\ a <= m /\ forall x, In x xs -> x <= m.
Proof.
  induction xs as [|x xs IH]; intros a; cbn [fold_left]; cbv zeta.
  - repeat split; [left; reflexivity|lra|intros x []].
  - destruct (IH (Rmax a x)) as (A & B & C). cbv zeta in *. pose proof (Rmax_l a x). pose proof (Rmax_r a x).
    split; [|split; [lra|]].
    + destruct A as [A|A]; [|right; right; exact A]. rewrite A. unfold Rmax. destruct (Rle_dec a x); auto. right. left. reflexivity.
    + intros y [<-|I]; [lra|auto].
Qed.
Lemma te_stats (xs : list R) : xs <> [] -> (forall x, In x xs -> 0 <= x) -> let e := te_run xs te_new in
  te_n e = length xs /\ (exists l, xs = l ++ [te_last e]) /\ (In (te_max e) xs /\ forall x, In x xs -> x <= te_max e) /\
  te_avg e = rsum xs / INR (length xs).
Proof.
  intros NE NN e. destruct (te_run_gen xs te_new) as (A & B & C & D). cbv zeta in *. fold e in A, B, C, D. change (te_n te_new) with 0%nat in *. cbn [Nat.add] in A.
  split; [exact A|]. split; [|split].
  - exists (removelast xs). rewrite B. apply app_removelast_last. exact NE.
  - rewrite C. change (te_max te_new) with 0. destruct (fold_rmax xs 0) as ([M|M] & P & U); cbv zeta in *; split; auto.
    rewrite M. destruct xs as [|x xs]; [congruence|]. specialize (U x (or_introl eq_refl)). specialize (NN x (or_introl eq_refl)).
    assert (x = 0) by lra. subst x. left. reflexivity.
  - assert (P : INR (length xs) <> 0) by (apply not_0_INR; destruct xs; [congruence|discriminate]).
    apply (Rmult_eq_reg_r (INR (length xs))); [|exact P]. rewrite A in D. rewrite D. change (te_avg te_new) with 0. rcbn. cbn [INR]. field. exact P.
Qed.
(** a measure accumulated in parts *)
Lemma te_partial (e : Rte) (xs : list R) :
  te_commitPartial (fold_left (@te_addPartial RNum) xs (te_startPartial e)) = @te_add RNum e (rsum xs).
Proof.
  assert (G : forall l e', fold_left (@te_addPartial RNum) l e' = @TE RNum (te_last e' + rsum l) (te_avg e') (te_max e') (te_n e')).
  { induction l as [|x l IH]; intros e'; cbn [fold_left]; [destruct e'; cbn; unfold rsum; cbn; f_equal; rcbn; lra|].
    rewrite IH. unfold te_addPartial. cbn. f_equal. rcbn. unfold rsum. cbn. lra. }
  rewrite G. unfold te_commitPartial, te_startPartial, te_add. cbn [te_last te_avg te_max te_n]. change (@k0 RNum) with 0. rewrite Rplus_0_l. reflexivity.
Qed.
Lemma timer_moved {N : Num} (t : timer) es dt : let '(t', src) := timer_move t in
  timer_destroy t' es dt = es /\ timer_destroy src es dt = es.
Proof. split; reflexivity. Qed.

(** ** C57-C59: what addCollider does to the rest of the body *)
(** velocity of the material point at world position x *)
Definition point_vel (b : Rbody) (x : Rv) : Rv :=
  vadd (b_vel b) (vscale (b_ang b) (vperp (vsub x (b_centroid b)))).
Lemma add_collider_state (b : Rbody) c p : c_props c = Ret p -> exists b', add_collider b c = Ret b' /\
  b_pos b' = Pos (p_off (b_pos b)) (p_rot (b_pos b)) (mp_c (mp_add (b_props b) p)) /\
  b_vel b' = b_vel b /\ b_ang b' = b_ang b /\
  b_colliders b' = map (c_update (to_world (b_pos b'))) (b_colliders b ++ [c]).
Proof.
  intros E. unfold add_collider, add_collider_full, colliders_add. rewrite E. eexists. split; [reflexivity|].
  unfold recentre, b_update. cbn. split; [reflexivity|]. split; [|split; reflexivity].
  unfold b_centroid. cbn [b_pos set_colliders]. destruct (b_vel b) as [x y]. ung. f_equal; rring.
Qed.
Lemma to_world_at (p : position (N := RNum)) v : tf_apply (to_world p) v = vadd (vadd (p_off p) (p_lc p)) (rot_apply (p_rot p) (vsub v (p_lc p))).
Proof. unfold to_world. rewrite act_Tt, act_tr. und. f_equal; rring. Qed.
(** the displacement of a material point fixed in local coordinates *)
Lemma add_collider_shift (b b' : Rbody) c p v : c_props c = Ret p -> add_collider b c = Ret b' ->
  let d := vsub (p_lc (b_pos b')) (p_lc (b_pos b)) in
  tf_apply (to_world (b_pos b')) v = vadd (tf_apply (to_world (b_pos b)) v) (vsub d (rot_apply (p_rot (b_pos b)) d)).
Proof.
  intros E H d. destruct (add_collider_state b c p E) as (b1 & H1 & P & _). rewrite H in H1. injection H1 as <-.
  unfold d. rewrite P. rewrite !to_world_at. cbn [p_off p_rot p_lc]. und. f_equal; rring.
Qed.
(** the material points do not move when the body is not rotated *)
Lemma add_collider_upright (b b' : Rbody) c p v : c_props c = Ret p -> add_collider b c = Ret b' ->
  r_cos (p_rot (b_pos b)) = 1 -> r_sin (p_rot (b_pos b)) = 0 -> tf_apply (to_world (b_pos b')) v = tf_apply (to_world (b_pos b)) v.
Proof.
  intros E H C S. rewrite (add_collider_shift b b' c p v E H). cbv zeta. unfold rot_apply. rewrite C, S.
  set (t := tf_apply _ v). set (d := vsub (p_lc _) _). destruct t as [t1 t2], d as [d1 d2]. und. f_equal; rring.
Qed.
(** velocity field after addCollider, for the same world point *)
Lemma add_collider_field (b b' : Rbody) c p x : c_props c = Ret p -> add_collider b c = Ret b' ->
  point_vel b' x = vadd (point_vel b x) (vscale (b_ang b) (vperp (vsub (b_centroid b) (b_centroid b')))).
Proof.
  intros E H. destruct (add_collider_state b c p E) as (b1 & H1 & P & V & W & _). rewrite H in H1. injection H1 as <-.
  unfold point_vel. rewrite V, W. set (o := b_centroid b). set (o' := b_centroid b'). destruct o, o', x. destruct (b_vel b). ung. f_equal; rring.
Qed.

(** ** a rejected collider stays in the body *)
Lemma c_props_cases (c : Rcoll) : c_local c <> [] -> (exists p, c_props c = Ret p) \/ c_props c = Throw.
Proof.
  intros NE. unfold c_props, mp_of. destruct (c_density c >? k0)%num; [|right; reflexivity].
  rewrite geo_properties_eq by exact NE. cbn [obind]. destruct (gp_degenerate _); [right; reflexivity|left; eexists; reflexivity].
Qed.
Lemma add_rejected (b : Rbody) (c : Rcoll) : c_props c = Throw -> add_collider b c = Throw /\
  let b' := fst (add_collider_full b c) in b_colliders b' = b_colliders b ++ [c] /\ b_props b' = b_props b /\ b_pos b' = b_pos b.
Proof. intros E. unfold add_collider, add_collider_full, colliders_add. rewrite E. auto. Qed.
Lemma sum_props_throw cs1 (c : Rcoll) cs2 : Forall coll_ok cs1 -> c_props c = Throw -> forall acc, sum_props (cs1 ++ c :: cs2) acc = Throw.
Proof.
  intros F E. induction F as [|d cs1 (p & P & _) F IH]; intros acc; cbn [sum_props app]; [rewrite E; reflexivity|]. rewrite P. cbn [obind]. apply IH.
Qed.
Lemma erase_app f (cs1 cs2 : list Rcoll) : (exists d, In d cs1 /\ f d = true) -> erase_first f (cs1 ++ cs2) = erase_first f cs1 ++ cs2.
Proof.
  induction cs1 as [|d cs1 IH]; intros (e & I & E); [destruct I|]. cbn. destruct (f d) eqn:F; [reflexivity|]. cbn. f_equal. apply IH.
  exists e. destruct I as [->|I]; [congruence|auto].
Qed.
Lemma remove_after_rejected (b : Rbody) (c : Rcoll) d : body_inv b -> c_props c = Throw -> In d (b_colliders b) ->
  remove_collider (fst (add_collider_full b c)) (c_id d) = Throw.
Proof.
  intros (F & _) E I. unfold add_collider_full, colliders_add. rewrite E. cbn [fst]. unfold remove_collider. cbn [b_colliders set_colliders].
  rewrite erase_app by (exists d; split; [exact I|apply Nat.eqb_refl]).
  rewrite sum_props_throw; [reflexivity|apply erase_sub; exact F|exact E].
Qed.

(** ** examples *)
Definition square (x y s : R) : list Rv := [rv x y; rv (x + s) y; rv (x + s) (y + s); rv x (y + s)].
Lemma square_props x y s d : 0 < s -> 0 < d -> mp_of (square x y s) d = Ret (@MP RNum (s * s * d) (s * s * s * s / 6 * d) (rv (x + s / 2) (y + s / 2))).
Proof.
  intros S D. unfold mp_of. cbn [kltb RNum]. change (@k0 RNum) with 0. destruct (Rltb_spec 0 d); [|contradiction].
  rewrite geo_properties_eq by discriminate. cbn [obind].
  assert (A : s_a (square x y s) = 2 * s * s) by (cbv - [Rplus Rmult Rminus Ropp Rdiv Rinv IZR]; rring).
  assert (X : s_x (square x y s) = (6 * x + 3 * s) * s * s) by (cbv - [Rplus Rmult Rminus Ropp Rdiv Rinv IZR]; rring).
  assert (Y : s_y (square x y s) = (6 * y + 3 * s) * s * s) by (cbv - [Rplus Rmult Rminus Ropp Rdiv Rinv IZR]; rring).
  assert (M : s_m (square x y s) = s * s * (12 * (x * x + y * y + x * s + y * s) + 8 * s * s)) by (cbv - [Rplus Rmult Rminus Ropp Rdiv Rinv IZR]; rring).
  rewrite A, X, Y, M. unfold props_of. destruct (Req_EM_T (2 * s * s) 0); [nra|]. cbn [gp_degenerate gp_area gp_moment gp_centroid].
  assert (EX : (6 * x + 3 * s) * s * s / (3 * (2 * s * s)) = x + s / 2) by (field; lra).
  assert (EY : (6 * y + 3 * s) * s * s / (3 * (2 * s * s)) = y + s / 2) by (field; lra).
  rewrite EX, EY. do 2 f_equal; [rcbn; field|]. rcbn. f_equal. rewrite Rabs_right; [field|].
  assert (0 <= s * s) by nra. nra.
Qed.
Definition sqc (id : nat) (x y s d : R) : Rcoll := @Coll RNum id (square x y s) d [].
Lemma sqc_ok id x y s d : 0 < s -> 0 < d -> coll_ok (sqc id x y s d).
Proof. intros S D. eexists. split; [apply square_props; assumption|]. cbn. apply Rmult_lt_0_compat; [|exact D]. apply Rmult_lt_0_compat; exact S. Qed.
(** two unit squares side by side on a body turned by PI *)
Definition turned : list body_op := [BAdd (sqc 0 0 0 1 1); BAng 3].
Lemma turned_run : exists b, body_run turned (@new_body RNum (rv 0 0) (@mk_rot RNum RTrig PI) 1) = Ret b /\
  b_ang b = 3 /\ b_vel b = rv 0 0 /\ p_off (b_pos b) = rv 0 0 /\ p_rot (b_pos b) = @mk_rot RNum RTrig PI /\ p_lc (b_pos b) = rv (1 / 2) (1 / 2) /\
  b_props b = @MP RNum 1 (1 / 6) (rv (1 / 2) (1 / 2)).
Proof.
  unfold turned. cbn [body_run body_step].
  assert (E : c_props (sqc 0 0 0 1 1) = Ret (@MP RNum (1 * 1 * 1) (1 * 1 * 1 * 1 / 6 * 1) (rv (0 + 1 / 2) (0 + 1 / 2)))) by (apply square_props; lra).
  destruct (add_collider_state (@new_body RNum (rv 0 0) (@mk_rot RNum RTrig PI) 1) _ _ E) as (b1 & H1 & P & V & W & _).
  rewrite H1. cbn [obind]. eexists. split; [reflexivity|].
  assert (EP : b_props b1 = @MP RNum 1 (1 / 6) (rv (1 / 2) (1 / 2))).
  { unfold add_collider, add_collider_full, colliders_add in H1. rewrite E in H1. injection H1 as <-. unfold recentre, b_update. cbn [b_props set_colliders set_lc set_pos set_vel].
    cbn [b_props new_body]. destruct (mp_neutral (@MP RNum (1 * 1 * 1) (1 * 1 * 1 * 1 / 6 * 1) (rv (0 + 1 / 2) (0 + 1 / 2)))) as [_ N]; [left; cbn; lra|].
    rewrite N. unfold rv. f_equal; [rcbn; lra|rcbn; lra|f_equal; rcbn; lra]. }
  cbn [set_ang b_ang b_vel b_pos b_props]. split; [reflexivity|]. split; [rewrite V; reflexivity|]. rewrite P. cbn [p_off p_rot p_lc new_body b_pos].
  split; [reflexivity|]. split; [reflexivity|]. split; [|exact EP].
  destruct (mp_neutral (@MP RNum (1 * 1 * 1) (1 * 1 * 1 * 1 / 6 * 1) (rv (0 + 1 / 2) (0 + 1 / 2)))) as [_ N]; [left; cbn; lra|].
  cbn [b_props new_body]. rewrite N. cbn [mp_c]. unfold rv. f_equal; rcbn; lra.
Qed.
(** adding a second square moves the first by (1,0) *)
Lemma add_moves : exists b b' c, body_run turned (@new_body RNum (rv 0 0) (@mk_rot RNum RTrig PI) 1) = Ret b /\ coll_ok c /\ add_collider b c = Ret b' /\
  (forall v, tf_apply (to_world (b_pos b')) v = vadd (tf_apply (to_world (b_pos b)) v) (rv 1 0)) /\
  (forall x, point_vel b' x = vadd (point_vel b x) (rv 0 (- (3 / 2)))).
Proof.
  destruct turned_run as (b & H & W & V & O & HR & L & M).
  assert (E : c_props (sqc 1 1 0 1 1) = Ret (@MP RNum (1 * 1 * 1) (1 * 1 * 1 * 1 / 6 * 1) (rv (1 + 1 / 2) (0 + 1 / 2)))) by (apply square_props; lra).
  destruct (add_collider_state b _ _ E) as (b' & H' & P & V' & W' & _).
  exists b, b', (sqc 1 1 0 1 1). split; [exact H|]. split; [apply sqc_ok; lra|]. split; [exact H'|].
  assert (C : p_lc (b_pos b') = rv 1 (1 / 2)).
  { rewrite P. cbn [p_lc]. rewrite M. match goal with |- mp_c ?t = _ => destruct (mp_c t) as [cx cy] eqn:EC end.
    match type of EC with mp_c (mp_add ?a ?b) = _ => destruct (mp_add_pos a b) as (_ & X & Y & _); [cbn; lra|] end. rewrite EC in X, Y. cbn in X, Y.
    unfold rv. f_equal; [rewrite X|rewrite Y]; change (@K RNum) with R; field. }
  assert (PI1 : r_cos (@mk_rot RNum RTrig PI) = -1) by (cbn; apply cos_PI). assert (PI2 : r_sin (@mk_rot RNum RTrig PI) = 0) by (cbn; apply sin_PI).
  split.
  - intros v. rewrite (add_collider_shift b b' _ _ v E H'). cbv zeta. rewrite C, L, HR. f_equal. unfold rot_apply. rewrite PI1, PI2. ung. f_equal; lra.
  - intros x. rewrite (add_collider_field b b' _ _ x E H'). f_equal. rewrite W. unfold b_centroid, p_centroid. rewrite !to_world_at.
    assert (RO : p_rot (b_pos b') = p_rot (b_pos b)) by (rewrite P; reflexivity). assert (OO : p_off (b_pos b') = p_off (b_pos b)) by (rewrite P; reflexivity).
    rewrite RO, OO, O, HR, C, L. unfold rot_apply. rewrite PI1, PI2. ung. f_equal; lra.
Qed.
Lemma ex_body : exists b, body_run [BAdd (sqc 0 0 0 1 1); BAdd (sqc 1 1 0 1 2); BRemove 0; BAng 2] (@new_body RNum (rv 0 0) (@mk_rot RNum RTrig 1) 1) = Ret b /\
  Forall ops_ok [BAdd (sqc 0 0 0 1 1); BAdd (sqc 1 1 0 1 2); BRemove 0; BAng 2] /\ b_mass b = 2 /\ b_inertia b = 1 / 3 /\ b_ang b = 2.
Proof.
  set (ops := [BAdd (sqc 0 0 0 1 1); BAdd (sqc 1 1 0 1 2); BRemove 0; BAng 2]).
  assert (OK : Forall ops_ok ops) by (repeat constructor; apply sqc_ok; lra).
  assert (E : c_props (sqc 0 0 0 1 1) = Ret (@MP RNum (1 * 1 * 1) (1 * 1 * 1 * 1 / 6 * 1) (rv (0 + 1 / 2) (0 + 1 / 2)))) by (apply square_props; lra).
  assert (E2 : c_props (sqc 1 1 0 1 2) = Ret (@MP RNum (1 * 1 * 2) (1 * 1 * 1 * 1 / 6 * 2) (rv (1 + 1 / 2) (0 + 1 / 2)))) by (apply square_props; lra).
  destruct (add_collider_state (@new_body RNum (rv 0 0) (@mk_rot RNum RTrig 1) 1) _ _ E) as (b1 & H1 & _ & _ & _ & C1).
  destruct (add_collider_state b1 _ _ E2) as (b2 & H2 & _ & _ & _ & C2). rewrite C1 in C2. cbn [new_body b_colliders map app] in C2.
  assert (S : exists b3, remove_collider b2 0 = Ret b3 /\ b_props b3 = mp_add mp_zero (@MP RNum (1 * 1 * 2) (1 * 1 * 1 * 1 / 6 * 2) (rv (1 + 1 / 2) (0 + 1 / 2)))).
  { unfold remove_collider. rewrite C2. cbn [erase_first c_update c_id sqc Nat.eqb sum_props].
    change (c_props (c_update (to_world (b_pos b2)) (sqc 1 1 0 1 2))) with (c_props (sqc 1 1 0 1 2)). rewrite E2. cbn [obind].
    eexists. split; [reflexivity|]. reflexivity. }
  destruct S as (b3 & H3 & P3). exists (@set_ang RNum b3 2). split; [|split; [exact OK|]].
  - unfold ops. cbn [body_run body_step]. rewrite H1. cbn [obind]. rewrite H2. cbn [obind]. rewrite H3. reflexivity.
  - destruct (mp_neutral (@MP RNum (1 * 1 * 2) (1 * 1 * 1 * 1 / 6 * 2) (rv (1 + 1 / 2) (0 + 1 / 2)))) as [_ N]; [left; cbn; lra|].
    unfold b_mass, b_inertia. cbn [set_ang b_props b_ang]. rewrite P3, N. cbn. repeat split; lra.
Qed.
Lemma ex_rejected : c_props (sqc 7 0 0 1 (-1)) = Throw.
Proof. unfold c_props, mp_of. cbn [c_density sqc kltb RNum]. change (@k0 RNum) with 0. destruct (Rltb_spec 0 (-1)); [lra|reflexivity]. Qed.
(** a scene for gravity: body 0 with two squares, every other index a sleeping empty body *)
Lemma ex_gravity : exists (bs : nat -> Rbody) (cs : list (nat * Rcoll)),
  (forall k, body_inv (bs k)) /\ (forall k, Permutation (own k cs) (b_colliders (bs k))) /\
  (forall k, active (bs k) = true -> b_colliders (bs k) <> [] -> b_inertia (bs k) <> 0) /\ active (bs 0%nat) = true /\ length (b_colliders (bs 0%nat)) = 1%nat.
Proof.
  destruct turned_run as (b & H & _ & _ & _ & _ & _ & M).
  assert (OK : Forall ops_ok turned) by (repeat constructor; apply sqc_ok; lra).
  assert (I : body_inv b) by (exact (body_run_inv turned OK _ _ (new_body_inv (rv 0 0) PI 1) H)).
  assert (C : length (b_colliders b) = 1%nat /\ active b = true).
  { revert H. unfold turned. cbn [body_run body_step].
    assert (E : c_props (sqc 0 0 0 1 1) = Ret (@MP RNum (1 * 1 * 1) (1 * 1 * 1 * 1 / 6 * 1) (rv (0 + 1 / 2) (0 + 1 / 2)))) by (apply square_props; lra).
    unfold add_collider, add_collider_full, colliders_add. rewrite E. cbn [obind]. intros [= <-]. split; [reflexivity|].
    unfold active, b_structural. cbn. destruct (Reqb_spec 1 0); [lra|reflexivity]. }
  destruct C as [C A].
  exists (fun k => match k with O => b | _ => @new_body RNum (rv 0 0) (@mk_rot RNum RTrig 0) 1 end), (map (fun c => (0%nat, c)) (b_colliders b)).
  split; [intros [|k]; [exact I|apply new_body_inv]|]. split.
  - assert (G : forall l, own 0 (map (fun c : Rcoll => (0%nat, c)) l) = l) by (induction l as [|x l IH]; [reflexivity|cbn; f_equal; exact IH]).
    assert (G' : forall k l, own (S k) (map (fun c : Rcoll => (0%nat, c)) l) = []) by (induction l as [|x l IH]; [reflexivity|exact IH]).
    intros [|k]; [rewrite G; apply Permutation_refl|rewrite G'; apply perm_nil].
  - split; [|split; assumption]. intros [|k] _ NE; [|cbn in NE; congruence]. unfold b_inertia. rewrite M. cbn. lra.
Qed.
Definition spinner : Rbody := @set_ang RNum (@new_body RNum (rv 0 0) (@mk_rot RNum RTrig 0) 1) (-1000).
Lemma ex_spinner : b_asleep (sleep_steps 60 spinner (1 / 60) (1 / 10) (1 / 10) 1) = true /\
  b_ang (sleep_steps 60 spinner (1 / 60) (1 / 10) (1 / 10) 1) = -1000.
Proof.
  assert (I : INR 60 = 60) by (rewrite INR_IZR_INZ; reflexivity).
  apply sleep_steps_clockwise; try lra; try lia; cbn; lra.
Qed.
Lemma ex_comb : comb_combine (@Comb RNum MAverage 1) (@Comb RNum MMultiply (1 / 2)) = @Comb RNum MMultiply (1 / 2).
Proof. unfold comb_combine. cbn. f_equal. lra. Qed.
Lemma ex_times : let e := te_run [1; 3; 2] te_new in te_last e = 2 /\ te_max e = 3 /\ te_avg e = 2 /\
  @timer_destroy RNum (Timer (Some 0%nat) false) (fun _ => te_new) 5 0%nat <> (te_new : Rte).
Proof.
  destruct (te_stats [1; 3; 2]) as (_ & _ & _ & D); [discriminate|intros x [<-|[<-|[<-|[]]]]; lra|].
  destruct (te_run_gen [1; 3; 2] te_new) as (_ & B & C & _). cbv zeta in *.
  split; [exact B|]. split; [|split].
  - rewrite C. cbn. change (@k0 RNum) with 0. unfold Rmax. repeat destruct (Rle_dec _ _); lra.
  - rewrite D. unfold rsum. cbn. lra.
  - unfold timer_destroy. cbn. intros H. apply (f_equal te_last) in H. cbn in H. change (@K RNum) with R in *. change (@k0 RNum) with 0 in H. lra.
Qed.

(** ** Waking *)
Lemma body_step_wakes (b : Rbody) o b' : body_step b o = Ret b' ->
  b_asleep b' = false \/ (b_asleep b' = b_asleep b /\ b_vel b' = b_vel b /\ b_ang b' = b_ang b).
Proof.
  destruct o as [c|id|J r|v|w]; cbn [body_step].
  - unfold add_collider, add_collider_full. destruct (colliders_add _ _ _) as [[cs p] [|]]; [|discriminate]. intros [= <-]. left. reflexivity.
  - unfold remove_collider. destruct (sum_props _ _) as [p| | |]; cbn [obind]; try discriminate.
    destruct (erase_first _ _); intros [= <-]; [right; repeat split|left; reflexivity].
  - intros [= <-]. left. reflexivity.
  - intros [= <-]. left. reflexivity.
  - intros [= <-]. left. reflexivity.
Qed.
(** no call puts a body to sleep, and calls which change its velocity wake it *)
Lemma body_run_wakes os : forall (b b' : Rbody), body_run os b = Ret b' ->
  (b_asleep b = false -> b_asleep b' = false) /\ (b_vel b' <> b_vel b \/ b_ang b' <> b_ang b -> b_asleep b' = false).
Proof.
  induction os as [|o os IH]; intros b b'; cbn [body_run].
  - intros [= <-]. split; [auto|]. intros [H|H]; contradiction H; reflexivity.
  - destruct (body_step b o) as [b1| | |] eqn:E; cbn [obind]; try discriminate. intros H. destruct (IH b1 b' H) as [A B].
    destruct (body_step_wakes b o b1 E) as [W|(W1 & W2 & W3)]; [split; auto|]. rewrite W1, W2, W3 in *. auto.
Qed.
(** the time spent immobile is kept: a body which is still slow afterwards sleeps
    again with the next step, and keeps its velocity *)
Lemma wake_short (b : Rbody) (J r : Rv) (dt vt at_ delay : R) : 0 <= dt -> delay <= b_immobile b ->
  is_immobile (apply_impulse b J r) vt at_ = true ->
  let b' := sleep_step (apply_impulse b J r) dt vt at_ delay in b_asleep b' = true /\ b_vel b' = b_vel (apply_impulse b J r).
Proof.
  intros DT D IM. destruct (sleep_step_motion (apply_impulse b J r) dt vt at_ delay) as (EV & EW & _ & EI & EA). cbv zeta in *.
  split; [|exact EV]. rewrite EA. clear EA. rewrite IM in EI. change (b_immobile (apply_impulse b J r)) with (b_immobile b) in EI. rewrite EI.
  destruct (Rle_dec _ _) as [|NL]; [reflexivity|exfalso]. apply NL. rcbn. lra.
Qed.
Definition dozer : Rbody := @Body RNum (Pos (rv 0 0) (@mk_rot RNum RTrig 0) (rv 0 0)) (rv 0 0) 0 [] (@MP RNum 1 1 (rv 0 0)) 1 true 1.
Lemma ex_dozer : b_asleep dozer = true /\ b_asleep (apply_impulse dozer (rv (1 / 100) 0) (rv 0 0)) = false /\
  is_immobile (apply_impulse dozer (rv (1 / 100) 0) (rv 0 0)) (1 / 10) (1 / 10) = true /\ 1 <= b_immobile dozer.
Proof.
  split; [reflexivity|]. split; [reflexivity|]. split; [|cbn; rcbn; lra]. apply immobile_iff.
  unfold apply_impulse, dozer, b_invMass, b_invInertia, b_mass, b_inertia, rv. cbn [b_vel b_ang set_vel set_ang b_props mp_m mp_I]. ung. rcbn. split; lra.
Qed.
