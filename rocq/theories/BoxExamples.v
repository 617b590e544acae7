(** Concrete boxes: witnesses and non-vacuity examples. *)
From Coq Require Import ZArith List Bool Reals Lra Lia Psatz.
From Flocq Require Import Core BinarySingleNaN.
From Verif Require Import Num Box BoxFacts BoxOverlap.
Import ListNotations.

(** the float [m / d] ([d] a power of two: exact) *)
Definition fq (m d : Z) : f32 := fdiv (fofZ m) (fofZ d).
Definition fbox (x0 y0 x1 y1 : f32) : @box F32 := @Box F32 (@V2 F32 x0 y0) (@V2 F32 x1 y1).

(** [0, 1+2^-23] x [0,1]  and  [1+2^-23, 2+2^-22] x [0,1]: they touch. *)
Definition w_touch_a := fbox (fofZ 0) (fofZ 0) (fq 8388609 8388608) (fofZ 1).
Definition w_touch_b := fbox (fq 8388609 8388608) (fofZ 0) (fq 8388609 4194304) (fofZ 1).
(** [0,0] x [0,1]  and  [2^-21, 16] x [0,1]: they are disjoint. *)
Definition w_far_a := fbox (fofZ 0) (fofZ 0) (fofZ 0) (fofZ 1).
Definition w_far_b := fbox (fq 1 2097152) (fofZ 0) (fofZ 16) (fofZ 1).

Definition finite_box (b : @box F32) : bool :=
  is_finite (vx (bmin b)) && is_finite (vy (bmin b)) &&
  is_finite (vx (bmax b)) && is_finite (vy (bmax b)).

Definition insideb (p : @vec2 F32) (b : @box F32) : bool :=
  negb (Bltb (vx p) (vx (bmin b))) && negb (Bltb (vx (bmax b)) (vx p)) &&
  negb (Bltb (vy p) (vy (bmin b))) && negb (Bltb (vy (bmax b)) (vy p)).
Lemma insideb_spec p b : insideb p b = true -> inside p b.
Proof.
  unfold insideb, inside. rewrite !andb_true_iff, !negb_true_iff. cbn. tauto.
Qed.

Lemma inside_vecR (p : @vec2 F32) (b : @box F32) : is_finite (vx p) = true -> is_finite (vy p) = true ->
  finite_box b = true -> inside p b -> inside (vecR p) (boxR b).
Proof.
  unfold finite_box. rewrite !andb_true_iff. intros F1 F2 [[[F3 F4] F5] F6] I.
  unfold inside in *. cbn [kltb F32 RNum vx vy bmin bmax boxR vecR] in *.
  rewrite !finite_ltb in I by assumption. exact I.
Qed.

Lemma separated_no_share {N : Num} {ok : K -> Prop} {L : OrdLaws N ok} (a b : box) :
  okbox ok a -> okbox ok b -> kltb (vx (bmax a)) (vx (bmin b)) = true -> ~ share_point ok a b.
Proof.
  intros [[A1 A2] [A3 A4]] [[B1 B2] [B3 B4]] H (p & [P1 P2] & I1 & I2).
  destruct I1 as (_ & I1 & _), I2 as (I2 & _).
  rewrite (ord_trans (vx (bmin b)) (vx p) (vx (bmax a))) in H; auto. discriminate.
Qed.

Lemma touch_missed :
  exists a b : @box F32, finite_box a = true /\ finite_box b = true /\
    (exists p, inside p (boxR a) /\ inside p (boxR b)) /\ box_overlaps a b = false.
Proof.
  exists w_touch_a, w_touch_b. split; [vm_compute; reflexivity|]. split; [vm_compute; reflexivity|].
  split; [|vm_compute; reflexivity].
  exists (vecR (@V2 F32 (fq 8388609 8388608) (fofZ 0))).
  split; apply inside_vecR; try (vm_compute; reflexivity);
    apply insideb_spec; vm_compute; reflexivity.
Qed.
Lemma far_reported :
  exists a b : @box F32, finite_box a = true /\ finite_box b = true /\
    ~ (exists p, inside p (boxR a) /\ inside p (boxR b)) /\ box_overlaps a b = true.
Proof.
  exists w_far_a, w_far_b. split; [vm_compute; reflexivity|]. split; [vm_compute; reflexivity|].
  split; [|vm_compute; reflexivity].
  intros (p & I1 & I2).
  apply (separated_no_share (ok := okR) (boxR w_far_a) (boxR w_far_b)).
  - repeat split.
  - repeat split.
  - change (kltb (vx (bmax (boxR w_far_a))) (vx (bmin (boxR w_far_b))))
      with (Rltb (B2R (vx (bmax w_far_a))) (B2R (vx (bmin w_far_b)))).
    rewrite <- finite_ltb by (vm_compute; reflexivity). vm_compute; reflexivity.
  - exists p. split; [repeat split|]. split; assumption.
Qed.

(** A grid example: quarters. *)

Lemma sf_grid (x : f32) e k m :
  is_finite x = true ->
  match B2SF x with
  | SpecFloat.S754_finite s mx ex => (m * 2 ^ (e - Z.min e ex) =? SpecFloat.cond_Zopp s (Zpos mx) * 2 ^ (ex - Z.min e ex))%Z
  | SpecFloat.S754_zero _ => (m =? 0)%Z
  | _ => false
  end = true ->
  (Z.abs m <= k)%Z -> on_grid e k x.
Proof.
  intros F H Hk. split; [exact F|]. exists m. split; [exact Hk|].
  destruct x as [s| | |s mx ex B]; try discriminate.
  - cbn in H. apply Z.eqb_eq in H. subst m. cbn. lra.
  - cbn [B2SF] in H. apply Z.eqb_eq in H.
    cbn [B2R]. unfold F2R. cbn [Fnum Fexp].
    set (kk := Z.min e ex) in *.
    replace (bpow radix2 ex) with (IZR (2 ^ (ex - kk)) * bpow radix2 kk)%R.
    2:{ change 2%Z with (radix2 : Z). rewrite IZR_Zpower by lia. rewrite <- bpow_plus. f_equal. lia. }
    replace (bpow radix2 e) with (IZR (2 ^ (e - kk)) * bpow radix2 kk)%R.
    2:{ change 2%Z with (radix2 : Z). rewrite IZR_Zpower by lia. rewrite <- bpow_plus. f_equal. lia. }
    rewrite <- !Rmult_assoc, <- !mult_IZR, H. reflexivity.
Qed.

Definition ex_quarter_a := fbox (fofZ 0) (fofZ 0) (fq 5 4) (fofZ 1).
Definition ex_quarter_b := fbox (fq 5 4) (fq (-3) 4) (fofZ 100) (fofZ 0).
Lemma ex_quarter_grid : box_on_grid (-2) ex_quarter_a /\ box_on_grid (-2) ex_quarter_b.
Proof.
  split.
  - split; [|split; [|split]].
    + apply (sf_grid _ _ _ 0); [reflexivity|reflexivity|lia].
    + apply (sf_grid _ _ _ 0); [reflexivity|reflexivity|lia].
    + apply (sf_grid _ _ _ 5); [vm_compute; reflexivity|vm_compute; reflexivity|lia].
    + apply (sf_grid _ _ _ 4); [vm_compute; reflexivity|vm_compute; reflexivity|lia].
  - split; [|split; [|split]].
    + apply (sf_grid _ _ _ 5); [vm_compute; reflexivity|vm_compute; reflexivity|lia].
    + apply (sf_grid _ _ _ (-3)); [vm_compute; reflexivity|vm_compute; reflexivity|lia].
    + apply (sf_grid _ _ _ 400); [vm_compute; reflexivity|vm_compute; reflexivity|lia].
    + apply (sf_grid _ _ _ 0); [vm_compute; reflexivity|vm_compute; reflexivity|lia].
Qed.

Definition rbox (x0 y0 x1 y1 : R) : @box RNum := @Box RNum (@V2 RNum x0 y0) (@V2 RNum x1 y1).
Lemma R_point_touch : box_overlaps (rbox 0 0 1 1) (rbox 1 1 2 2) = true.
Proof.
  apply R_overlaps_spec. exists (@V2 RNum 1%R 1%R). split; [repeat split|].
  rewrite !R_inside. cbn. lra.
Qed.
Lemma R_point_apart : box_overlaps (rbox 0 0 1 1) (rbox 2 0 3 1) = false.
Proof.
  destruct (box_overlaps (rbox 0 0 1 1) (rbox 2 0 3 1)) eqn:E; [|reflexivity].
  apply R_overlaps_spec in E. destruct E as (p & _ & I1 & I2). rewrite R_inside in I1, I2.
  cbn in I1, I2. lra.
Qed.

(** Restatements used by the property file. *)
Lemma R_share_iff (a b : @box RNum) : share_point okR a b <-> exists p, inside p a /\ inside p b.
Proof.
  split.
  - intros (p & _ & H); exists p; exact H.
  - intros (p & H); exists p; split; [repeat split|exact H].
Qed.
Lemma R_overlaps_iff (a b : @box RNum) :
  box_overlaps a b = true <-> exists p, inside p a /\ inside p b.
Proof. rewrite R_overlaps_spec. apply R_share_iff. Qed.
Lemma R_overlaps_sym (a b : @box RNum) : box_overlaps a b = box_overlaps b a.
Proof.
  apply eq_true_iff_eq. rewrite !R_overlaps_iff.
  split; intros (p & H1 & H2); exists p; auto.
Qed.
Lemma invalid_overlaps {N : Num} (a b : box) :
  box_valid a = false -> box_overlaps a b = false /\ box_overlaps b a = false.
Proof. intros H. unfold box_overlaps. rewrite H. cbn. rewrite orb_true_r. auto. Qed.

Lemma grid_overlaps_real e (a b : @box F32) : (-149 <= e <= 103)%Z ->
  box_on_grid e a -> box_on_grid e b ->
  (box_overlaps a b = true <-> exists p, inside p (boxR a) /\ inside p (boxR b)).
Proof. intros He GA GB. rewrite (grid_overlaps e) by assumption. apply R_overlaps_iff. Qed.

Lemma ex_quarter :
  box_on_grid (-2) ex_quarter_a /\ box_on_grid (-2) ex_quarter_b /\
  box_overlaps ex_quarter_a ex_quarter_b = true.
Proof. destruct ex_quarter_grid. split; [assumption|]. split; [assumption|]. vm_compute; reflexivity. Qed.

Section Restate.
Context {N : Num} {ok : K -> Prop} {L : OrdLaws N ok}.
Lemma combined_contains_both (a b : box) : okbox ok a -> okbox ok b ->
  subset_points ok a (box_combined a b) /\ subset_points ok b (box_combined a b).
Proof. intros; split; [apply combined_subset_l|apply combined_subset_r]; auto. Qed.
Lemma combined_least_iff (a b c : box) : okbox ok a -> okbox ok b -> okbox ok c ->
  ((subset_points ok a c /\ subset_points ok b c) <-> subset_points ok (box_combined a b) c).
Proof.
  intros OA OB OC. split.
  - intros [H1 H2]. apply combined_least; auto.
  - intros H. split; eapply subset_trans; try exact H; apply combined_contains_both; auto.
Qed.
Lemma combined_laws (a b c : box) : okbox ok a -> okbox ok b -> okbox ok c ->
  box_eqb (box_combined a b) (box_combined b a) = true /\
  box_eqb (box_combined a (box_combined b c)) (box_combined (box_combined a b) c) = true /\
  box_eqb (box_combined a a) a = true /\
  (box_valid b = false -> box_eqb (box_combined a b) a = true /\ box_eqb (box_combined b a) a = true).
Proof.
  intros OA OB OC. split; [|split; [|split]].
  - apply box_eqb_spec; auto using okbox_combined. apply combined_comm; auto.
  - apply box_eqb_spec; auto using okbox_combined. apply combined_assoc; auto.
  - apply box_eqb_spec; auto using okbox_combined. apply combined_idem; auto.
  - intros V. split.
    + apply box_eqb_spec; auto using okbox_combined. apply combined_invalid_r; auto.
    + rewrite combined_invalid_l by assumption. apply box_eqb_spec; auto. apply same_points_refl.
Qed.
Lemma box_of_vertices_none (vs : list vec2) : box_of_vertices vs = None <-> vs = [].
Proof. destruct vs; cbn; split; intros; try discriminate; auto. Qed.
End Restate.

Lemma ex_combined : okbox fok ex_quarter_a /\ okbox fok ex_quarter_b /\
  box_eqb (box_combined ex_quarter_a ex_quarter_b) (fbox (fofZ 0) (fq (-3) 4) (fofZ 100) (fofZ 1)) = true.
Proof. split; [repeat split; vm_compute; reflexivity|]. split; [repeat split; vm_compute; reflexivity|vm_compute; reflexivity]. Qed.
Lemma ex_contains :
  box_contains (fbox (fofZ 0) (fofZ 0) (fofZ 2) (fofZ 2)) (fbox (fofZ 0) (fofZ 1) (fofZ 2) (fofZ 1)) = true /\
  box_contains (fbox (fofZ 0) (fofZ 0) (fofZ 2) (fofZ 2)) (@invalid_box F32) = false.
Proof. split; vm_compute; reflexivity. Qed.
Definition ex_vs : list (@vec2 F32) :=
  [@V2 F32 (fofZ 1) (fofZ 5); @V2 F32 (fofZ (-2)) (fofZ 0); @V2 F32 (fofZ 3) (fofZ 1)].
Definition ex_vertices_claim : Prop :=
  Forall (okv fok) ex_vs /\
  exists b, box_of_vertices ex_vs = Some b /\
  box_eqb b (fbox (fofZ (-2)) (fofZ 0) (fofZ 3) (fofZ 5)) = true.
Lemma ex_vertices : ex_vertices_claim.
Proof.
  split.
  - apply Forall_cons; [split; vm_compute; reflexivity|].
    apply Forall_cons; [split; vm_compute; reflexivity|].
    apply Forall_cons; [split; vm_compute; reflexivity|]. apply Forall_nil.
  - eexists. split; [reflexivity|]. vm_compute. reflexivity.
Qed.
