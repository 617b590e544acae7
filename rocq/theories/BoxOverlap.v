(** Overlap of boxes: exact arithmetic, and binary32 on a grid. *)
From Coq Require Import ZArith List Bool Reals Lra Lia Psatz.
From Flocq Require Import Core BinarySingleNaN.
From Verif Require Import Num Box BoxFacts.
Import ListNotations.

(** A class of boxes on which [overlaps] is exact.  R-tree results are proved
    for any such class, then instantiated at the reals (every box) and at
    binary32 (boxes on a grid). *)
Class OverlapLaws (N : Num) (ok : K -> Prop) (P : box -> Prop) := {
  ovl_ok : forall b, P b -> okbox ok b;
  ovl_invalid : P invalid_box;
  ovl_combined : forall a b, P a -> P b -> P (box_combined a b);
  ovl_overlaps : forall a b, P a -> P b ->
      (box_overlaps a b = true <-> share_point ok a b)
}.

(** ** Exact arithmetic *)
Lemma R_interval_overlaps (mn mx omn omx : R) : (mn <= mx)%R -> (omn <= omx)%R ->
  @interval_overlaps RNum mn mx omn omx = true <->
  exists x : R, (mn <= x <= mx /\ omn <= x <= omx)%R.
Proof.
  intros H1 H2. unfold interval_overlaps. cbn.
  rewrite negb_true_iff.
  split.
  - intros H. destruct (Rltb_spec (mx - mn + (omx - omn)) (Rabs (mx + mn - (omx + omn)))) as [|G]; [discriminate|].
    exists (Rmax mn omn). unfold Rmax.
    assert (G' : (Rabs (mx + mn - (omx + omn)) <= mx - mn + (omx - omn))%R) by lra.
    apply Rabs_le_inv in G'. destruct (Rle_dec mn omn); lra.
  - intros (x & Hx). destruct (Rltb_spec (mx - mn + (omx - omn)) (Rabs (mx + mn - (omx + omn)))) as [G|]; [|reflexivity].
    exfalso. revert G. unfold Rabs. destruct (Rcase_abs _); lra.
Qed.

Lemma R_inside (p : @vec2 RNum) (b : @box RNum) :
  inside p b <-> ((vx (bmin b) : R) <= vx p <= vx (bmax b) /\ (vy (bmin b) : R) <= vy p <= vy (bmax b))%R.
Proof. unfold inside. cbn. rcmp; split; intros H; try tauto; destruct H as (?&?&?&?) || destruct H as [[? ?] [? ?]]; try discriminate; try lra; auto. Qed.

Lemma R_valid (b : @box RNum) :
  box_valid b = true <-> ((vx (bmin b) : R) <= vx (bmax b) /\ (vy (bmin b) : R) <= vy (bmax b))%R.
Proof. unfold box_valid, vall_ge. cbn. rcmp; cbn; split; intros; try lra; try discriminate; auto. Qed.

Lemma R_overlaps_spec (a b : @box RNum) :
  box_overlaps a b = true <-> share_point okR a b.
Proof.
  unfold box_overlaps.
  assert (OK : forall c : @box RNum, okbox okR c) by (intros c; repeat split).
  destruct (box_valid a) eqn:VA; cbn [negb orb].
  2:{ split; [discriminate|]. intros (p & P & I & _).
      exfalso. exact (invalid_no_points p a (OK a) P VA I). }
  destruct (box_valid b) eqn:VB; cbn [negb orb].
  2:{ split; [discriminate|]. intros (p & P & _ & I).
      exfalso. exact (invalid_no_points p b (OK b) P VB I). }
  apply R_valid in VA, VB.
  rewrite andb_true_iff, !R_interval_overlaps by tauto.
  split.
  - intros [(x & Hx) (y & Hy)]. exists (@V2 RNum x y).
    split; [repeat split|]. rewrite !R_inside. cbn. tauto.
  - intros (p & _ & I1 & I2). rewrite R_inside in I1, I2.
    split; [exists (vx p)|exists (vy p)]; tauto.
Qed.

Global Instance R_OverlapLaws : OverlapLaws RNum okR (fun _ => True).
Proof.
  constructor; try (intros; exact I); try (intros; repeat split).
  - intros H1. apply R_overlaps_spec. exact H1.
  - intros H1. apply R_overlaps_spec. exact H1.
Qed.

(** ** binary32 on a grid *)
(** [x] is [m * 2^e] with [|m| <= k]. *)
Definition on_grid (e k : Z) (x : f32) : Prop :=
  is_finite x = true /\ exists m : Z, (Z.abs m <= k)%Z /\ B2R x = (IZR m * bpow radix2 e)%R.

Lemma grid_format e m : (-149 <= e)%Z -> (Z.abs m <= 2 ^ 24)%Z ->
  generic_format radix2 (SpecFloat.fexp fprec femax) (IZR m * bpow radix2 e).
Proof.
  intros He Hm.
  apply (generic_format_FLT radix2 (SpecFloat.emin fprec femax) fprec).
  destruct (Z.eq_dec (Z.abs m) (2 ^ 24)) as [E|NE].
  - exists (Float radix2 (Z.sgn m * 2 ^ 23) (e + 1)).
    + unfold F2R. cbn [Fnum Fexp]. rewrite bpow_plus.
      assert (M : m = (2 * (Z.sgn m * 2 ^ 23))%Z) by (change (2^24)%Z with (2 * 2^23)%Z in E; destruct m; cbn [Z.abs Z.sgn] in *; lia).
      rewrite M at 1. rewrite mult_IZR. cbn [bpow]. cbn. lra.
    + cbn [Fnum]. rewrite Z.abs_mul. change (Z.abs (2^23)) with (2^23)%Z.
      unfold fprec. destruct m; cbn [Z.sgn Z.abs]; change (radix2 : Z) with 2%Z; lia.
    + cbn [Fexp]. unfold SpecFloat.emin, fprec, femax. lia.
  - exists (Float radix2 m e).
    + reflexivity.
    + cbn [Fnum]. unfold fprec. change (radix2 : Z) with 2%Z. lia.
    + cbn [Fexp]. unfold SpecFloat.emin, fprec, femax. lia.
Qed.

Lemma grid_bound e m : (e <= 103)%Z -> (Z.abs m <= 2 ^ 24)%Z ->
  (Rabs (IZR m * bpow radix2 e) < bpow radix2 femax)%R.
Proof.
  intros He Hm. rewrite Rabs_mult, (Rabs_pos_eq (bpow radix2 e)) by apply bpow_ge_0.
  rewrite <- abs_IZR.
  apply Rle_lt_trans with (bpow radix2 24 * bpow radix2 e)%R.
  - apply Rmult_le_compat_r; [apply bpow_ge_0|].
    change (bpow radix2 24) with (IZR (2 ^ 24)). apply IZR_le. exact Hm.
  - rewrite <- bpow_plus. apply bpow_lt. unfold femax. lia.
Qed.

Lemma grid_add e k1 k2 x y : (-149 <= e <= 103)%Z -> (k1 + k2 <= 2 ^ 24)%Z ->
  on_grid e k1 x -> on_grid e k2 y ->
  on_grid e (k1 + k2) (fadd x y) /\ B2R (fadd x y) = (B2R x + B2R y)%R.
Proof.
  intros He Hk (Fx & m & Hm & Ex) (Fy & n & Hn & Ey).
  pose proof (Bplus_correct fprec femax fHprec fHmax mode_NE x y Fx Fy) as C.
  assert (S : (B2R x + B2R y = IZR (m + n) * bpow radix2 e)%R).
  { rewrite Ex, Ey, plus_IZR. lra. }
  assert (A : (Z.abs (m + n) <= 2 ^ 24)%Z) by lia.
  rewrite S in C.
  rewrite (round_generic radix2 (SpecFloat.fexp fprec femax)) in C by (apply valid_rnd_round_mode || (apply grid_format; lia || assumption)).
  rewrite Rlt_bool_true in C by (apply grid_bound; lia || assumption).
  destruct C as (C1 & C2 & _). fold fadd in C1, C2. change (Bplus mode_NE x y) with (fadd x y) in *.
  split; [|rewrite C1, S; reflexivity].
  split; [exact C2|]. exists (m + n)%Z. split; [lia|exact C1].
Qed.

Lemma grid_sub e k1 k2 x y : (-149 <= e <= 103)%Z -> (k1 + k2 <= 2 ^ 24)%Z ->
  on_grid e k1 x -> on_grid e k2 y ->
  on_grid e (k1 + k2) (fsub x y) /\ B2R (fsub x y) = (B2R x - B2R y)%R.
Proof.
  intros He Hk (Fx & m & Hm & Ex) (Fy & n & Hn & Ey).
  pose proof (Bminus_correct fprec femax fHprec fHmax mode_NE x y Fx Fy) as C.
  assert (S : (B2R x - B2R y = IZR (m - n) * bpow radix2 e)%R).
  { rewrite Ex, Ey, minus_IZR. lra. }
  assert (A : (Z.abs (m - n) <= 2 ^ 24)%Z) by lia.
  rewrite S in C.
  rewrite (round_generic radix2 (SpecFloat.fexp fprec femax)) in C by (apply valid_rnd_round_mode || (apply grid_format; lia || assumption)).
  rewrite Rlt_bool_true in C by (apply grid_bound; lia || assumption).
  destruct C as (C1 & C2 & _). change (Bminus mode_NE x y) with (fsub x y) in *.
  split; [|rewrite C1, S; reflexivity].
  split; [exact C2|]. exists (m - n)%Z. split; [lia|exact C1].
Qed.

Lemma grid_abs e k x : on_grid e k x -> on_grid e k (fabs x) /\ B2R (fabs x) = Rabs (B2R x).
Proof.
  intros (Fx & m & Hm & Ex). unfold fabs. split.
  - split.
    + rewrite is_finite_Babs. exact Fx.
    + exists (Z.abs m). split; [lia|]. rewrite B2R_Babs, Ex, Rabs_mult, abs_IZR.
      rewrite (Rabs_pos_eq (bpow radix2 e)) by apply bpow_ge_0. reflexivity.
  - apply B2R_Babs.
Qed.

Lemma finite_fok (x : f32) : is_finite x = true -> fok x.
Proof. destruct x; cbn; intros; try discriminate; reflexivity. Qed.
Lemma finite_key (x : f32) : is_finite x = true -> fkey x = B2R x.
Proof. destruct x; cbn; intros; try discriminate; reflexivity. Qed.
Lemma finite_ltb (x y : f32) : is_finite x = true -> is_finite y = true ->
  Bltb x y = Rltb (B2R x) (B2R y).
Proof.
  intros Fx Fy. rewrite Bltb_key by (apply finite_fok; assumption).
  rewrite !finite_key by assumption. reflexivity.
Qed.

(** On the grid, [Interval::overlaps] computes in exact arithmetic. *)
Lemma grid_interval_overlaps e mn mx omn omx : (-149 <= e <= 103)%Z ->
  on_grid e (2 ^ 22) mn -> on_grid e (2 ^ 22) mx ->
  on_grid e (2 ^ 22) omn -> on_grid e (2 ^ 22) omx ->
  @interval_overlaps F32 mn mx omn omx =
  @interval_overlaps RNum (B2R mn) (B2R mx) (B2R omn) (B2R omx).
Proof.
  intros He G1 G2 G3 G4. unfold interval_overlaps.
  cbn [kltb kadd ksub kabs F32 RNum]. f_equal.
  destruct (grid_sub e (2^22) (2^22) mx mn He ltac:(lia) G2 G1) as [D1 E1].
  destruct (grid_sub e (2^22) (2^22) omx omn He ltac:(lia) G4 G3) as [D2 E2].
  destruct (grid_add e (2^22) (2^22) mx mn He ltac:(lia) G2 G1) as [D3 E3].
  destruct (grid_add e (2^22) (2^22) omx omn He ltac:(lia) G4 G3) as [D4 E4].
  destruct (grid_add e (2^22+2^22) (2^22+2^22) _ _ He ltac:(lia) D1 D2) as [D5 E5].
  destruct (grid_sub e (2^22+2^22) (2^22+2^22) _ _ He ltac:(lia) D3 D4) as [D6 E6].
  destruct (grid_abs e _ _ D6) as [D7 E7].
  rewrite finite_ltb by (apply D5 || apply D7).
  rewrite E7, E6, E5, E4, E3, E2, E1. reflexivity.
Qed.

(** The real box with the same corners. *)
Definition vecR (v : @vec2 F32) : @vec2 RNum := @V2 RNum (B2R (vx v)) (B2R (vy v)).
Definition boxR (b : @box F32) : @box RNum := @Box RNum (vecR (bmin b)) (vecR (bmax b)).

Definition box_on_grid (e : Z) (b : @box F32) : Prop :=
  on_grid e (2 ^ 22) (vx (bmin b)) /\ on_grid e (2 ^ 22) (vy (bmin b)) /\
  on_grid e (2 ^ 22) (vx (bmax b)) /\ on_grid e (2 ^ 22) (vy (bmax b)).

Lemma grid_valid e b : box_on_grid e b -> box_valid b = box_valid (boxR b).
Proof.
  intros (G1 & G2 & G3 & G4). unfold box_valid, vall_ge. cbn [kltb F32 RNum].
  rewrite !finite_ltb by (apply G1 || apply G2 || apply G3 || apply G4). reflexivity.
Qed.

Lemma grid_overlaps e a b : (-149 <= e <= 103)%Z -> box_on_grid e a -> box_on_grid e b ->
  box_overlaps a b = box_overlaps (boxR a) (boxR b).
Proof.
  intros He GA GB. unfold box_overlaps.
  rewrite (grid_valid e a GA), (grid_valid e b GB).
  destruct GA as (A1 & A2 & A3 & A4), GB as (B1 & B2 & B3 & B4).
  rewrite !(grid_interval_overlaps e) by assumption. reflexivity.
Qed.

(** Boxes whose coordinates lie on the grid if the box is not empty (the
    default box (1,0)-(0,0) may itself be off the grid). *)
Definition grid_class (e : Z) (b : @box F32) : Prop :=
  okbox fok b /\ (box_valid b = true -> box_on_grid e b).

Lemma on_grid_min e k a b : on_grid e k a -> on_grid e k b -> on_grid e k (@kmin F32 a b).
Proof. unfold kmin; intros; destruct (@kltb F32 b a); assumption. Qed.
Lemma on_grid_max e k a b : on_grid e k a -> on_grid e k b -> on_grid e k (@kmax F32 a b).
Proof. unfold kmax; intros; destruct (@kltb F32 a b); assumption. Qed.

Lemma grid_ok e b : box_on_grid e b -> okbox fok b.
Proof.
  intros (G1 & G2 & G3 & G4).
  repeat split; apply finite_fok; (apply G1 || apply G2 || apply G3 || apply G4).
Qed.

Lemma grid_share e a b : box_on_grid e a -> box_on_grid e b ->
  (share_point fok a b <-> share_point okR (boxR a) (boxR b)).
Proof.
  intros GA GB. pose proof (grid_ok e a GA) as OA. pose proof (grid_ok e b GB) as OB.
  destruct GA as (A1 & A2 & A3 & A4), GB as (B1 & B2 & B3 & B4).
  split.
  - intros (p & [P1 P2] & I1 & I2).
    exists (@V2 RNum (fkey (vx p)) (fkey (vy p))). split; [repeat split|].
    unfold inside in *. cbn [kltb F32 RNum vx vy bmin bmax boxR vecR] in *.
    assert (O : forall x : f32, is_finite x = true -> is_nan x = false) by (intros x H; apply finite_fok; exact H).
    destruct A1 as [F1 _], A2 as [F2 _], A3 as [F3 _], A4 as [F4 _].
    destruct B1 as [F5 _], B2 as [F6 _], B3 as [F7 _], B4 as [F8 _].
    rewrite !Bltb_key in I1, I2 by (assumption || (apply O; assumption)).
    rewrite !(finite_key (vx (bmin a))), !(finite_key (vx (bmax a))),
      !(finite_key (vy (bmin a))), !(finite_key (vy (bmax a))) in I1 by assumption.
    rewrite !(finite_key (vx (bmin b))), !(finite_key (vx (bmax b))),
      !(finite_key (vy (bmin b))), !(finite_key (vy (bmax b))) in I2 by assumption.
    split; assumption.
  - intros (p & _ & I1 & I2). rewrite R_inside in I1, I2. cbn in I1, I2.
    exists (@V2 F32 (@kmax F32 (vx (bmin a)) (vx (bmin b))) (@kmax F32 (vy (bmin a)) (vy (bmin b)))).
    assert (MX : forall x y : f32, is_finite x = true -> is_finite y = true ->
       is_finite (@kmax F32 x y) = true /\ B2R (@kmax F32 x y) = Rmax (B2R x) (B2R y)).
    { intros x y Fx Fy. unfold kmax. cbn [kltb F32]. rewrite finite_ltb by assumption.
      unfold Rmax. destruct (Rltb_spec (B2R x) (B2R y)); destruct (Rle_dec (B2R x) (B2R y)); split; try assumption; lra. }
    destruct A1 as [F1 _], A2 as [F2 _], A3 as [F3 _], A4 as [F4 _].
    destruct B1 as [F5 _], B2 as [F6 _], B3 as [F7 _], B4 as [F8 _].
    destruct (MX _ _ F1 F5) as [M1 M2]. destruct (MX _ _ F2 F6) as [M3 M4].
    split; [split; apply finite_fok; assumption|].
    unfold inside. cbn [kltb F32 vx vy].
    rewrite !finite_ltb by assumption. rewrite M2, M4.
    unfold Rmax. destruct (Rle_dec _ _), (Rle_dec _ _); rcmp; repeat split; lra.
Qed.

Lemma grid_overlaps_spec e a b : (-149 <= e <= 103)%Z -> box_on_grid e a -> box_on_grid e b ->
  (box_overlaps a b = true <-> share_point fok a b).
Proof.
  intros He GA GB. rewrite (grid_overlaps e) by assumption.
  rewrite (grid_share e) by assumption. apply R_overlaps_spec.
Qed.

Lemma F32_OverlapLaws e : (-149 <= e <= 103)%Z -> OverlapLaws F32 fok (grid_class e).
Proof.
  intros He. constructor.
  - intros b [O _]; exact O.
  - split; [repeat split|]. intros V. vm_compute in V. discriminate.
  - intros a b [OA GA] [OB GB]. split; [apply okbox_combined; assumption|].
    unfold box_combined.
    destruct (box_valid a) eqn:VA; cbn [negb].
    + destruct (box_valid b) eqn:VB; cbn [negb]; [|intros _; apply GA; reflexivity].
      intros _. specialize (GA eq_refl). specialize (GB eq_refl).
      destruct GA as (A1 & A2 & A3 & A4), GB as (B1 & B2 & B3 & B4).
      split; [|split; [|split]]; cbn [bmin bmax vmin vmax vx vy];
        (apply on_grid_min || apply on_grid_max); assumption.
    + exact GB.
  - intros a b [OA GA] [OB GB].
    destruct (box_valid a) eqn:VA.
    + destruct (box_valid b) eqn:VB.
      * apply (grid_overlaps_spec e); auto.
      * unfold box_overlaps. rewrite VA, VB. cbn. split; [discriminate|].
        intros (p & P & _ & I2). exfalso. exact (invalid_no_points p b OB P VB I2).
    + unfold box_overlaps. rewrite VA. cbn. split; [discriminate|].
      intros (p & P & I1 & _). exfalso. exact (invalid_no_points p a OA P VA I1).
Qed.
