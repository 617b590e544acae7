(** Momentum and centre of mass of the bodies over a step, in exact arithmetic. *)
From Coq Require Import ZArith List Bool Lia Permutation Reals Lra.
From Verif Require Import Num Outcome Box Mat MatFacts Geom Transform Body Constraint World WorldHoare WorldInv WorldFrame WorldIsland WorldSolve WorldComp WorldSleep WorldOps WorldCols WorldClean WorldKill WorldStep WorldStrict WorldHist WorldThm WorldMove.
Import ListNotations.
Local Open Scope R_scope.

Notation Rv := (@vec2 RNum).
Notation Rpos := (@position RNum).
Notation Rvelo := (@velocity RNum).
Notation Rprox := (@proxies RNum).
Notation Rstore := (@store RNum).

(** ** Sums *)
Definition rsum (f : id -> R) (l : list id) : R := fold_right (fun b a => f b + a) 0 l.
Lemma rsum_ext f g l : (forall b, In b l -> f b = g b) -> rsum f l = rsum g l.
Proof. induction l as [|b l IH]; intros H; [reflexivity|]. cbn. fold (rsum f l) (rsum g l). rewrite (H b (or_introl eq_refl)). f_equal. apply IH. intros c Hc. apply H. right. exact Hc. Qed.
Lemma rsum_split f bs l : NoDup bs -> NoDup l -> incl bs l -> rsum f l = rsum f bs + rsum f (filter (fun i => negb (existsb (Nat.eqb i) bs)) l).
Proof.
  intros N1 N2 HI. assert (P : Permutation l (bs ++ filter (fun i => negb (existsb (Nat.eqb i) bs)) l)).
  { apply NoDup_Permutation; [exact N2| |].
    - apply nodup_app; split; [exact N1|]; split; [apply NoDup_filter, N2|]. intros x Hx Hf. apply filter_In in Hf. destruct Hf as [_ Hf]. apply negb_true_iff, existsb_notin in Hf. contradiction.
    - intros x. rewrite in_app_iff, filter_In, negb_true_iff, existsb_notin. split.
      + intros Hx. destruct (in_dec Nat.eq_dec x bs); auto.
      + intros [Hx|[Hx _]]; auto. }
  assert (A : forall l1 l2, rsum f (l1 ++ l2) = rsum f l1 + rsum f l2) by (intros l1 l2; unfold rsum; induction l1 as [|b l1 IH]; cbn; [lra|rewrite IH; lra]).
  rewrite <- A. assert (B : forall l1 l2, Permutation l1 l2 -> rsum f l1 = rsum f l2) by (unfold rsum; induction 1; cbn; lra). apply B, P.
Qed.
Lemma rsum_plus f g l : rsum (fun b => f b + g b) l = rsum f l + rsum g l.
Proof. induction l as [|b l IH]; unfold rsum in *; cbn; [lra|]. rewrite IH. lra. Qed.
Lemma rsum_scale k f l : rsum (fun b => k * f b) l = k * rsum f l.
Proof. induction l as [|b l IH]; unfold rsum in *; cbn; [lra|]. rewrite IH. lra. Qed.
(** over two parallel lists *)
Definition csum {A} (M : id -> R) (g : A -> R) (bs : list id) (vs : list A) : R := fold_right (fun bv a => M (fst bv) * g (snd bv) + a) 0 (combine bs vs).
Lemma csum_upd {A} M (g : A -> R) : forall bs vs n b v v', length vs = length bs -> nth_error bs n = Some b -> nth_error vs n = Some v ->
  csum M g bs (upd_nth n v' vs) = csum M g bs vs + M b * (g v' - g v).
Proof.
  induction bs as [|b0 bs IH]; intros vs n b v v' HL Hb Hv; [destruct n; discriminate|]. destruct vs as [|v0 vs]; [discriminate|]. injection HL as HL. destruct n as [|n].
  - cbn in Hb, Hv. injection Hb as ->. injection Hv as ->. unfold upd_nth, csum. cbn. lra.
  - cbn in Hb, Hv. pose proof (IH vs n b v v' HL Hb Hv) as H. unfold csum, upd_nth in *. cbn. rewrite H. lra.
Qed.
Lemma csum_rsum {A} M (g : A -> R) (h : id -> R) : forall bs vs, length vs = length bs ->
  (forall n b, nth_error bs n = Some b -> exists v, nth_error vs n = Some v /\ h b = M b * g v) -> csum M g bs vs = rsum h bs.
Proof.
  induction bs as [|b bs IH]; intros vs HL H; [reflexivity|]. destruct vs as [|v vs]; [discriminate|]. injection HL as HL. cbn. destruct (H 0%nat b eq_refl) as (v0 & E & ->). injection E as ->.
  f_equal. apply IH; [exact HL|]. intros n b' Hn. exact (H (S n) b' Hn).
Qed.
Lemma csum_advance M (g : Rvelo -> R) (h : Rpos -> R) (dt : R) (adv : Rpos -> Rvelo -> Rpos) : (forall p v, h (adv p v) = h p + dt * g v) ->
  forall bs ps vs, length ps = length bs -> length vs = length bs ->
  csum M h bs (map (fun pv => adv (fst pv) (snd pv)) (combine ps vs)) = csum M h bs ps + dt * csum M g bs vs.
Proof.
  intros HA. induction bs as [|b bs IH]; intros ps vs H1 H2; destruct ps as [|p ps], vs as [|v vs]; try discriminate; unfold csum; cbn; [lra|].
  injection H1 as H1. injection H2 as H2. specialize (IH ps vs H1 H2). unfold csum in IH. rewrite IH, HA. lra.
Qed.

(** ** Behaviours which exchange momentum between the two bodies *)
Section Mom.
Context {TR : Trig RNum} {BH : Behaviour RNum}.
Definition axis (ax : Rv -> R) : Prop := ax = vx \/ ax = vy.
(** [px] has the inverses of the masses M0 and M1 *)
Definition weighs (px : Rprox) (M0 M1 : R) : Prop := px_i0 px <> px_i1 px /\ px_m0 px * M0 = 1 /\ px_m1 px * M1 = 1.
(** the momentum of the two bodies is kept, and they are not displaced *)
Definition exchanges (px : Rprox) (s s' : Rstore) : Prop :=
  s_pos s' (px_i0 px) = s_pos s (px_i0 px) /\ s_pos s' (px_i1 px) = s_pos s (px_i1 px) /\
  forall M0 M1 ax, axis ax -> weighs px M0 M1 ->
    M0 * ax (v_lin (s_vel s' (px_i0 px))) + M1 * ax (v_lin (s_vel s' (px_i1 px))) = M0 * ax (v_lin (s_vel s (px_i0 px))) + M1 * ax (v_lin (s_vel s (px_i1 px))).
(** their centre of mass is kept, and so are their velocities *)
Definition rearranges (px : Rprox) (s s' : Rstore) : Prop :=
  s_vel s' (px_i0 px) = s_vel s (px_i0 px) /\ s_vel s' (px_i1 px) = s_vel s (px_i1 px) /\
  forall M0 M1 ax, axis ax -> weighs px M0 M1 ->
    M0 * ax (p_centroid (s_pos s' (px_i0 px))) + M1 * ax (p_centroid (s_pos s' (px_i1 px))) = M0 * ax (p_centroid (s_pos s (px_i0 px))) + M1 * ax (p_centroid (s_pos s (px_i1 px))).
Record balanced (G : @CS RNum BH -> Prop) : Prop := {
  ba_pre : forall st, G st -> G (bh_pre st);
  ba_active : forall st px s st' a, G st -> bh_active st px s = Ret (st', a) -> G st';
  ba_init : forall st px s st', G st -> bh_init st px s = Ret st' -> G st';
  ba_warm : forall st px s dt st' s', G st -> bh_warm st px s dt = Ret (st', s') -> G st' /\ exchanges px s s';
  ba_vel : forall st px s dt st' s', G st -> bh_vel st px s dt = Ret (st', s') -> G st' /\ exchanges px s s';
  ba_pos : forall st px s st' s', G st -> bh_pos st px s = Ret (st', s') -> G st' /\ rearranges px s s' }.

Hypothesis T : tame (N := RNum).
Variable G : @CS RNum BH -> Prop.
Hypothesis HB : balanced G.
Variable M : id -> R.
Definition all_G (w : @world RNum BH) : Prop := forall c x, w_ch w c = Some x -> G (c_st x).
Definition fairM (w : @world RNum BH) : Prop := forall c x, w_ch w c = Some x ->
  (c_b0 x <> c_b1 x /\ c_m0 x * M (c_b0 x) = 1 /\ c_m1 x * M (c_b1 x) = 1) \/ (M (c_b0 x) = 0 /\ M (c_b1 x) = 0).
Lemma fair_same w w' : same w w' -> fairM w -> fairM w'.
Proof.
  intros S H c x' E'. pose proof (sa_c _ _ S c) as HC. rewrite E' in HC. destruct (w_ch w c) as [x|] eqn:E; [|contradiction]. rewrite (cs_b0 _ _ HC), (cs_b1 _ _ HC), (cs_m0 _ _ HC), (cs_m1 _ _ HC). apply (H c x E).
Qed.
Definition vlin (ax : Rv -> R) (v : Rvelo) : R := ax (v_lin v).
Definition vcen (ax : Rv -> R) (p : Rpos) : R := ax (p_centroid p).
Definition msum (q : Rpos * Rvelo -> R) (w : @world RNum BH) (bs : list id) : R := rsum (fun b => M b * match motion_at w b with Some pv => q pv | None => 0 end) bs.
Definition mom (ax : Rv -> R) := msum (fun pv => vlin ax (snd pv)).
Definition cen (ax : Rv -> R) := msum (fun pv => vcen ax (fst pv)).
Lemma msum_ext q w w' bs : (forall b, In b bs -> motion_at w' b = motion_at w b) -> msum q w' bs = msum q w bs.
Proof. intros H. apply rsum_ext. intros b Hb. rewrite (H b Hb). reflexivity. Qed.

(** the centroid of a position is where it is displaced to *)
Lemma centroid_eq (p : Rpos) : p_centroid p = @V2 RNum (vx (p_off p) + vx (p_lc p)) (vy (p_off p) + vy (p_lc p)).
Proof. destruct p as [[ox oy] r [lx ly]]. unfold p_centroid, to_world, tf_apply, mul_Tt, mul_tr, tra_mul, tra_inverse, rot_apply, vadd, vopp. cbn. apply f_equal2; rring. Qed.
Lemma centroid_advance (ax : Rv -> R) (p : Rpos) (v : Rv) (a : R) : axis ax -> ax (p_centroid (pos_advance p v a)) = ax (p_centroid p) + ax v.
Proof. intros [->| ->]; rewrite !centroid_eq; destruct p as [[ox oy] r [lx ly]], v as [x y]; cbn; ring. Qed.

(** ** One call *)
Lemma call_pair f il c w il' w' : base il w -> In c (all_of il) -> all_G w -> fairM w -> call f il c w = Ok il' w' ->
  exists px x s st' s' b0 b1, w_ch w c = Some x /\ f (c_st x) px s = Ret (st', s') /\ il' = write il px s' /\ w' = set_ch w (put (w_ch w) c (con_st st' x)) /\
    (weighs px (M b0) (M b1) \/ (M b0 = 0 /\ M b1 = 0)) /\ nth_error (is_bodies il) (px_i0 px) = Some b0 /\ nth_error (is_bodies il) (px_i1 px) = Some b1 /\
    nth_error (is_pos il) (px_i0 px) = Some (s_pos s (px_i0 px)) /\ nth_error (is_pos il) (px_i1 px) = Some (s_pos s (px_i1 px)) /\
    nth_error (is_vel il) (px_i0 px) = Some (s_vel s (px_i0 px)) /\ nth_error (is_vel il) (px_i1 px) = Some (s_vel s (px_i1 px)).
Proof.
  intros B Hc HG HF Eq. destruct (get_proxies_spec il c w B Hc) as (px & x & EP & E & _ & H0 & H1 & Q0 & Q1 & Epx). unfold call, bind in Eq. rewrite EP in Eq. unfold con_at, deref in Eq. rewrite E in Eq.
  unfold lift in Eq. destruct (view il px) as [s| | |] eqn:EV; try discriminate. destruct (f (c_st x) px s) as [[st s']| | |] eqn:Eb; try discriminate. cbn [fst snd] in Eq. injection Eq as <- <-.
  exists px, x, s, st, s', (c_b0 x), (c_b1 x). pose proof (HF c x E) as HF'. unfold view in EV.
  destruct (nth_error (is_pos il) (px_i0 px)) as [p0|] eqn:P0; [|discriminate]. destruct (nth_error (is_vel il) (px_i0 px)) as [v0|] eqn:V0; [|discriminate].
  destruct (nth_error (is_pos il) (px_i1 px)) as [p1|] eqn:P1; [|discriminate]. destruct (nth_error (is_vel il) (px_i1 px)) as [v1|] eqn:V1; [|discriminate]. injection EV as <-. cbn [store_of s_pos s_vel].
  rewrite (nth_error_nth _ _ _ P0), (nth_error_nth _ _ _ P1), (nth_error_nth _ _ _ V0), (nth_error_nth _ _ _ V1).
  split; [exact E|]. split; [assumption|]. split; [reflexivity|]. split; [reflexivity|]. split; [|repeat split; auto].
  destruct HF' as [(NE & F0 & F1)|HZ]; [left|right; exact HZ]. split; [intros Ei; apply NE; congruence|]. rewrite Epx. split; [exact F0|exact F1].
Qed.
Lemma all_G_put w c x st : all_G w -> w_ch w c = Some x -> G st -> all_G (set_ch w (put (w_ch w) c (con_st st x))).
Proof. intros H E HG d z. cbn. unfold put. destruct (Nat.eqb_spec d c) as [->|n]; [intros Ez; injection Ez as <-; exact HG|apply H]. Qed.
Lemma write_sum {A} (g : A -> R) bs (l : list A) (i0 i1 : nat) b0 b1 (a0 a1 a0' a1' : A) : i0 <> i1 -> length l = length bs ->
  nth_error bs i0 = Some b0 -> nth_error bs i1 = Some b1 -> nth_error l i0 = Some a0 -> nth_error l i1 = Some a1 ->
  csum M g bs (upd_nth i1 a1' (upd_nth i0 a0' l)) = csum M g bs l + (M b0 * g a0' + M b1 * g a1') - (M b0 * g a0 + M b1 * g a1).
Proof.
  intros NE HL B0 B1 A0 A1. rewrite (csum_upd M g bs _ i1 b1 a1 a1'); [|rewrite upd_nth_length; exact HL|exact B1|rewrite upd_nth_other by congruence; exact A1].
  rewrite (csum_upd M g bs l i0 b0 a0 a0' HL B0 A0). lra.
Qed.
Lemma write_zero {A} (g : A -> R) bs (l : list A) (i0 i1 : nat) b0 b1 (a0' a1' : A) : M b0 = 0 -> M b1 = 0 -> length l = length bs ->
  nth_error bs i0 = Some b0 -> nth_error bs i1 = Some b1 -> csum M g bs (upd_nth i1 a1' (upd_nth i0 a0' l)) = csum M g bs l.
Proof.
  intros M0 M1 HL B0 B1. assert (X : forall (l : list A) i b, length l = length bs -> nth_error bs i = Some b -> exists a, nth_error l i = Some a).
  { intros l0 i b Hl Hb. destruct (nth_error l0 i) as [a|] eqn:E; [eauto|]. apply nth_error_None in E. assert (i < length bs)%nat by (apply nth_error_Some; congruence). lia. }
  destruct (X l i0 b0 HL B0) as [a0 A0]. destruct (X (upd_nth i0 a0' l) i1 b1) as [a1 A1]; [rewrite upd_nth_length; exact HL|exact B1|].
  rewrite (csum_upd M g bs _ i1 b1 a1 a1'); [|rewrite upd_nth_length; exact HL|exact B1|exact A1]. rewrite (csum_upd M g bs l i0 b0 a0 a0' HL B0 A0), M0, M1. lra.
Qed.
Lemma upd_id {A} n (a : A) l : nth_error l n = Some a -> upd_nth n a l = l.
Proof. revert l. induction n as [|n IH]; intros [|b l] H; try discriminate; cbn in H; [injection H as ->; reflexivity|]. unfold upd_nth in *. cbn. f_equal. apply IH, H. Qed.

(** ** One island *)
Section One.
Variable w : @world RNum BH.
Definition Zs (w1 : @world RNum BH) : Prop := all_G w1 /\ fairM w1.
Definition Zv (il : @island RNum) (w1 : @world RNum BH) : Prop := Zs w1 /\ forall ax, axis ax ->
  csum M (vlin ax) (is_bodies il) (is_vel il) = mom ax w (is_bodies il) /\ csum M (vcen ax) (is_bodies il) (is_pos il) = cen ax w (is_bodies il).
Definition Zp (dt : R) (il : @island RNum) (w1 : @world RNum BH) : Prop := Zs w1 /\ forall ax, axis ax ->
  csum M (vlin ax) (is_bodies il) (is_vel il) = mom ax w (is_bodies il) /\
  csum M (vcen ax) (is_bodies il) (is_pos il) = cen ax w (is_bodies il) + dt * mom ax w (is_bodies il).
Lemma Zs_put w1 c x st : Zs w1 -> w_ch w1 c = Some x -> G st -> Zs (set_ch w1 (put (w_ch w1) c (con_st st x))).
Proof.
  intros [H1 H2] E HG. split; [apply all_G_put; assumption|]. intros d z. cbn. unfold put. destruct (Nat.eqb_spec d c) as [->|n]; [|apply H2]. intros Ez. injection Ez as <-. exact (H2 c x E).
Qed.
Lemma Zv_call f : (forall st px s st' s', G st -> f st px s = Ret (st', s') -> G st' /\ exchanges px s s') -> kept_by Zv f.
Proof.
  intros HF il w1 c il' w2 B Hc [HS HZ] Eq. destruct (call_pair f il c w1 il' w2 B Hc (proj1 HS) (proj2 HS) Eq) as (px & x & s & st' & s' & b0 & b1 & E & Ef & -> & -> & HW & B0 & B1 & P0 & P1 & V0 & V1).
  destruct (HF _ _ _ _ _ (proj1 HS c x E) Ef) as (HG & X0 & X1 & X). split; [apply Zs_put; assumption|]. intros ax Hax. destruct (HZ ax Hax) as [Z1 Z2]. cbn [write is_bodies is_vel is_pos].
  destruct HW as [HW|[M0 M1]]; [|rewrite (write_zero _ _ _ _ _ b0 b1 _ _ M0 M1 (ii_vel _ _ (proj2 B)) B0 B1), (write_zero _ _ _ _ _ b0 b1 _ _ M0 M1 (ii_pos _ _ (proj2 B)) B0 B1); auto].
  pose proof (proj1 HW) as NE. rewrite (write_sum _ _ _ _ _ b0 b1 _ _ _ _ NE (ii_vel _ _ (proj2 B)) B0 B1 V0 V1). unfold vlin at 2 3 4 5. rewrite (X (M b0) (M b1) ax Hax HW). split; [lra|].
  rewrite X0, X1, (upd_id _ _ _ P0), (upd_id _ _ _ P1). exact Z2.
Qed.
Lemma Zp_call dt f : (forall st px s st' s', G st -> f st px s = Ret (st', s') -> G st' /\ rearranges px s s') -> kept_by (Zp dt) f.
Proof.
  intros HF il w1 c il' w2 B Hc [HS HZ] Eq. destruct (call_pair f il c w1 il' w2 B Hc (proj1 HS) (proj2 HS) Eq) as (px & x & s & st' & s' & b0 & b1 & E & Ef & -> & -> & HW & B0 & B1 & P0 & P1 & V0 & V1).
  destruct (HF _ _ _ _ _ (proj1 HS c x E) Ef) as (HG & X0 & X1 & X). split; [apply Zs_put; assumption|]. intros ax Hax. destruct (HZ ax Hax) as [Z1 Z2]. cbn [write is_bodies is_vel is_pos].
  destruct HW as [HW|[M0 M1]]; [|rewrite (write_zero _ _ _ _ _ b0 b1 _ _ M0 M1 (ii_vel _ _ (proj2 B)) B0 B1), (write_zero _ _ _ _ _ b0 b1 _ _ M0 M1 (ii_pos _ _ (proj2 B)) B0 B1); auto].
  pose proof (proj1 HW) as NE. rewrite (write_sum _ _ _ _ _ b0 b1 _ _ _ _ NE (ii_pos _ _ (proj2 B)) B0 B1 P0 P1). unfold vcen at 2 3 4 5. rewrite (X (M b0) (M b1) ax Hax HW). split; [|lra].
  rewrite X0, X1, (upd_id _ _ _ V0), (upd_id _ _ _ V1). exact Z1.
Qed.
Lemma Zv_init il w1 c u w2 : base il w1 -> In c (all_of il) -> Zv il w1 -> call_init il c w1 = Ok u w2 -> Zv il w2.
Proof.
  intros B Hc [HS HZ] Eq. split; [|exact HZ]. destruct (get_proxies_spec il c w1 B Hc) as (px & x & EP & E & _ & H0 & H1 & _). unfold call_init, bind in Eq. rewrite EP in Eq. unfold con_at, deref in Eq. rewrite E in Eq.
  unfold lift in Eq. destruct (view il px); try discriminate. destruct (bh_init (c_st x) px a) as [st| | |] eqn:Eb; try discriminate. injection Eq as _ <-.
  apply Zs_put; auto. eapply (ba_init _ HB); [|exact Eb]. apply (proj1 HS c x E).
Qed.
Lemma Zv_integrate dt il w1 : base il w1 -> Zv il w1 -> Zp dt (integrate (N := RNum) dt il) w1.
Proof.
  intros B [HS HZ]. split; [exact HS|]. intros ax Hax. destruct (HZ ax Hax) as [Z1 Z2]. cbn [integrate is_bodies is_vel is_pos]. split; [exact Z1|].
  rewrite (csum_advance M (vlin ax) (vcen ax) dt (fun p v => pos_advance p (vscale (N := RNum) dt (v_lin v)) (v_ang v * dt)%num)); [rewrite Z1, Z2; reflexivity| |apply (ii_pos _ _ (proj2 B))|apply (ii_vel _ _ (proj2 B))].
  intros p v. unfold vcen, vlin. rewrite (centroid_advance ax p _ _ Hax). destruct Hax as [->| ->]; destruct v as [[x y] a]; cbn; ring.
Qed.
Definition grown (root : id) (il : @island RNum) (w1 : @world RNum BH) : Prop := shape root w il w1 /\ same w w1 /\ all_G w1.
Lemma Zv_loaded root il w1 w2 il' w' : fairM w -> grown root il w1 -> woken il w1 w2 -> base il w2 -> same w1 w2 -> solving il il' w2 w' -> loaded il' w' -> st_same w2 w' -> Zv il' w'.
Proof.
  intros HF (Sh & Sm & HG) HW B2 S12 V L Hss. split; [split|].
  - intros c x E. specialize (Hss c). rewrite E in Hss. destruct HW as (EW & _). rewrite EW in Hss. destruct (w_ch w1 c) as [x1|] eqn:E1; [|discriminate]. cbn in Hss. injection Hss as ->. apply (HG c x1 E1).
  - eapply fair_same; [|exact HF]. eapply same_trans; [exact Sm|]. eapply same_trans; [exact S12|apply (so_same _ _ _ _ V)].
  - assert (MO : forall b, motion_at w' b = motion_at w b).
    { intros b. unfold motion_at at 1. rewrite (so_bh _ _ _ _ V). fold (motion_at w2 b). rewrite (motion_woken _ _ _ b HW). apply motion_kept, (sh_kept _ _ _ _ Sh). }
    intros ax Hax. pose proof (so_inv _ _ _ _ V) as I'. split; (apply csum_rsum; [try apply (ii_vel _ _ I'); apply (ii_pos _ _ I')|]); intros n b Hn;
      destruct (ii_live _ _ I' b ltac:(eapply nth_error_In; eassumption)) as [y E]; destruct (L n b y Hn E) as [Hp Hv]; rewrite <- (MO b), (motion_some _ _ _ E); cbn [fst snd]; eauto.
Qed.
End One.
Record moved (dt : R) (bs : list id) (w w' : @world RNum BH) : Prop := {
  mv_nd : NoDup bs; mv_in : incl bs (w_bodies w); mv_out : forall b, ~ In b bs -> motion_at w' b = motion_at w b;
  mv_mom : forall ax, axis ax -> mom ax w' bs = mom ax w bs;
  mv_cen : forall ax, axis ax -> cen ax w' bs = cen ax w bs + dt * mom ax w bs }.
Lemma solve_one_moved fuel s (dt : R) aw todo root l w : SInv w -> quiet_ids w -> Zs w -> todo = l ++ [root] -> incl todo (w_bodies w) -> (length (w_bodies w) <= fuel)%nat ->
  wp (solve_one fuel s (dt : @K RNum) aw todo root) (fun r w' => SInv w' /\ quiet_ids w' /\ same w w' /\ Zs w' /\ incl (fst r) todo /\ (length (fst r) < length todo)%nat /\
    exists bs cs cts, In root bs /\ fst r = filter (fun i => negb (existsb (Nat.eqb i) bs)) todo /\ w_log w' = w_log w ++ [Solved bs cs cts] /\ moved dt bs w w') w.
Proof.
  intros S Qt HZs Et HI HF. assert (Hroot : In root todo) by (rewrite Et; apply in_or_app; right; left; reflexivity).
  assert (Hl : exists y, w_bh w root = Some y) by (apply (i_bodies _ S), HI, Hroot). destruct Hl as [y Ey].
  pose (Y := fun (cur : nat) (il : @island RNum) (w1 : @world RNum BH) => grown w root il w1).
  pose (X := fun (cur : nat) (r : id) (d : list id) (il : @island RNum) (w1 : @world RNum BH) => grown w root il w1).
  eapply wp_mono.
  - apply (solve_one_two T (Zv w) (Zp w dt) (fun il w1 => Y (length (is_bodies il)) il w1)).
    + intros il w1 w2 il' w' HY. apply (Zv_loaded w root); [apply HZs|exact HY].
    + intros il w1 c u w2. apply Zv_init.
    + apply Zv_call. intros st px s0 st' s' HG E. apply (ba_warm _ HB) in E; assumption.
    + apply Zv_call. intros st px s0 st' s' HG E. apply (ba_vel _ HB) in E; assumption.
    + intros il w1. apply Zv_integrate.
    + apply Zp_call. intros st px s0 st' s' HG E. apply (ba_pos _ HB) in E; assumption.
    + apply (init_wp T Y X) with (y := y); auto.
      * intros cur r d c contact il w1 il' w' x v new B (HS & Sm & HG) Ex _ _ A. split; [|split].
        { destruct HS as [K1 K2 K3]. constructor; [rewrite (a_bodies _ _ _ _ _ _ _ _ _ A); apply in_or_app; auto|eapply kept_trans; [exact K2|apply (a_kept _ _ _ _ _ _ _ _ _ A)]|rewrite (a_log _ _ _ _ _ _ _ _ _ A); exact K3]. }
        { eapply same_trans; [exact Sm|apply (a_same _ _ _ _ _ _ _ _ _ A)]. }
        { intros d0 x0 E0. destruct (Nat.eq_dec d0 c) as [->|ne].
          - pose proof (a_case _ _ _ _ _ _ _ _ _ A) as HC. destruct v as [|a].
            + destruct HC as (_ & _ & -> & _). apply (HG c x0 E0).
            + destruct HC as (_ & (px & s0 & st & x' & Hb & E' & Est) & _). assert (x' = x0) by congruence. subst x'. rewrite Est. eapply (ba_active _ HB); [|exact Hb]. apply (HG c x Ex).
          - pose proof (a_but _ _ _ _ _ _ _ _ _ A d0 ne) as Hk. rewrite E0 in Hk. destruct (w_ch w1 d0) as [x1|] eqn:E1; [|discriminate]. cbn in Hk. injection Hk as ->. apply (HG d0 x1 E1). }
      * intros w' Kp Sm Ech Elog B. split; [constructor; auto; left; reflexivity|]. split; [exact Sm|]. intros c x E. rewrite Ech in E. apply (proj1 HZs c x E).
  - intros r w' _ (il & w1 & B1 & S1 & (Sh & Sm & HG) & SV & ->). pose proof (solved_end _ _ _ _ SV) as (Si' & Qt' & S1' & Elog). assert (Sw : same w w') by (eapply same_trans; eassumption).
    split; [exact Si'|]. split; [exact Qt'|]. split; [exact Sw|]. destruct (solved_motion _ _ _ _ B1 SV) as (il3 & w3 & HZ & B3 & EB & Hout & Hin).
    split.
    { split; [|eapply fair_same; [exact Sw|apply HZs]]. destruct SV as [(w2 & il3' & w3' & w4 & HW & B2 & S2 & V & HZ' & D & ->)]. intros c x E. cbn in E. pose proof (d_st _ _ _ D c) as Hd. rewrite E in Hd.
      destruct (w_ch w3' c) as [x3|] eqn:E3; [|discriminate]. cbn in Hd. injection Hd as ->. apply (proj1 (proj1 HZ') c x3 E3). }
    cbn [fst]. split; [intros b Hb; apply filter_In in Hb; tauto|]. split; [apply filter_shorter with root; [assumption|apply (sh_root _ _ _ _ Sh)]|].
    exists (is_bodies il), (is_cons il), (is_cts il). split; [apply (sh_root _ _ _ _ Sh)|]. split; [reflexivity|]. split; [rewrite Elog, (sh_log _ _ _ _ Sh); reflexivity|].
    destruct HZ as [_ HZ]. rewrite EB in HZ.
    assert (MO : forall b, motion_at w1 b = motion_at w b) by (intros b; apply motion_kept, (sh_kept _ _ _ _ Sh)).
    constructor.
    + apply (ii_nd _ _ (proj2 B1)).
    + intros b Hb. rewrite <- (sa_bodies _ _ S1). apply (i_bodies _ (proj1 B1)). apply (ii_live _ _ (proj2 B1)), Hb.
    + intros b Hb. rewrite (Hout b Hb). apply MO.
    + intros ax Hax. destruct (HZ ax Hax) as [<- _]. symmetry. apply csum_rsum; [rewrite <- EB; apply (ii_vel _ _ (proj2 B3))|]. intros n b Hn. destruct (Hin n b Hn) as (p & v & _ & Hv & ->). exists v. split; [exact Hv|reflexivity].
    + intros ax Hax. destruct (HZ ax Hax) as [_ <-]. symmetry. apply csum_rsum; [rewrite <- EB; apply (ii_pos _ _ (proj2 B3))|]. intros n b Hn. destruct (Hin n b Hn) as (p & v & Hp & _ & ->). exists p. split; [exact Hp|reflexivity].
Qed.
(** ** All islands *)
Lemma moved_mom dt bs w w' ax l : moved dt bs w w' -> axis ax -> NoDup l -> incl bs l -> mom ax w' l = mom ax w l.
Proof.
  intros [N1 N2 N3 N4 N5] Hax NL HI. unfold mom, msum in *. rewrite !(rsum_split _ bs l N1 NL HI). rewrite (N4 ax Hax). f_equal. apply rsum_ext. intros b Hb. apply filter_In in Hb. destruct Hb as [_ Hb]. apply negb_true_iff, existsb_notin in Hb.
  rewrite (N3 b Hb). reflexivity.
Qed.
Lemma moved_cen dt bs w w' ax l : moved dt bs w w' -> axis ax -> NoDup l -> incl bs l -> cen ax w' l = cen ax w l + dt * mom ax w bs.
Proof.
  intros [N1 N2 N3 N4 N5] Hax NL HI. unfold cen, msum in *. rewrite !(rsum_split _ bs l N1 NL HI). rewrite (N5 ax Hax).
  match goal with |- ?a + ?c + rsum ?f ?fl = ?a + rsum ?g ?fl + ?c => assert (E : rsum f fl = rsum g fl); [apply rsum_ext|rewrite E; lra] end. intros b Hb. apply filter_In in Hb. destruct Hb as [_ Hb]. apply negb_true_iff, existsb_notin in Hb. rewrite (N3 b Hb). reflexivity.
Qed.
Theorem islands_momentum fuel1 fuel2 s (dt : R) w : SInv w -> quiet_ids w -> Zs w -> (length (w_bodies w) <= fuel1)%nat -> (length (w_bodies w) <= fuel2)%nat ->
  wp (solve_islands fuel1 fuel2 s (dt : @K RNum) false (w_bodies w)) (fun _ w' => forall ax, axis ax -> mom ax w' (w_bodies w) = mom ax w (w_bodies w)) w.
Proof.
  intros S Qt HZ H1 H2. eapply wp_mono.
  - apply (solve_islands_wp (fun _ _ w' => same w w' /\ Zs w' /\ forall ax, axis ax -> mom ax w' (w_bodies w) = mom ax w (w_bodies w))); auto using incl_refl.
    2:{ split; [apply same_refl|]. auto. }
    intros aw todo root l w1 S1 Q1 (Sm & Z1 & HM) Et HI HF. eapply wp_mono; [apply (solve_one_moved fuel2 s dt aw todo root l w1); auto|].
    intros r w' _ (Si & Qi & Smi & Zi & HI' & HL & bs & cs & cts & Hr & Er & El & MV). split; [exact Si|]. split; [exact Qi|]. split; [exact Smi|]. split; [|auto]. split; [eapply same_trans; eassumption|]. split; [exact Zi|].
    intros ax Hax. rewrite <- (HM ax Hax). apply (moved_mom dt bs w1 w' ax _ MV Hax); [apply (i_bodies _ S)|]. rewrite <- (sa_bodies _ _ Sm). apply (mv_in _ _ _ _ MV).
  - intros u w' _ (_ & _ & _ & _ & _ & _ & H). exact H.
Qed.
Lemma zero_eq (a : R) : @keqb RNum a (@k0 RNum) = true -> a = 0.
Proof. unfold k0. cbn [keqb kofZ RNum]. destruct (Reqb_spec a 0); [auto|discriminate]. Qed.
(** every body of non-zero weight is in one island only *)
Section Centre.
Variable act : @CS RNum BH -> bool.
Hypothesis Hst : steady act.
Hypothesis Hsl : still (N := RNum).
Variable w0 : @world RNum BH.
Hypothesis S0 : SInv w0.
Hypothesis M0 : massless w0.
Hypothesis HZ0 : Zs w0.
Lemma apart_once i j root b : component act w0 j -> apart w0 i j -> In root (i_bs j) -> ~ In root (i_bs i) -> In b (i_bs i) -> In b (i_bs j) -> M b = 0.
Proof.
  intros C HA Hr Hn Hi Hj. pose proof (HA b Hi Hj) as HX. destruct (cp_root _ _ _ C) as (r & _ & HR). pose proof (proj1 (HR b) Hj) as Hb. inversion Hb as [e|a b' c x Ha Hf Ex _ _ Heb e]; subst.
  - exfalso. apply Hn. rewrite (reach_fixed act w0 b root); [exact Hi|apply HR, Hr|exact HX].
  - destruct HX as (y & _ & _ & HX). destruct (HX c x Ex) as [X0 X1]. destruct (proj2 HZ0 c x Ex) as [(NE & F0 & F1)|[Z1 Z2]]; [exfalso|destruct Heb as [->| ->]; assumption].
    destruct Heb as [->| ->].
    + specialize (X0 eq_refl). apply zero_eq in X0. change (@K RNum) with R in *. rewrite X0 in F0. cbn in F0. lra.
    + specialize (X1 eq_refl NE). apply zero_eq in X1. change (@K RNum) with R in *. rewrite X1 in F1. cbn in F1. lra.
Qed.
Lemma event_inj l1 l2 : map event_of l1 = map event_of l2 -> l1 = l2.
Proof. revert l2. induction l1 as [|[a b c] l1 IH]; intros [|[a' b' c'] l2] H; try discriminate; [reflexivity|]. cbn in H. injection H as -> -> -> H. f_equal. apply IH, H. Qed.
Definition met (L : list isl) (b : id) : bool := existsb (fun i => existsb (Nat.eqb b) (i_bs i)) L.
Lemma met_not L b : met L b = false <-> forall i, In i L -> ~ In b (i_bs i).
Proof.
  unfold met. split.
  - intros H i Hi. apply existsb_notin. destruct (existsb (Nat.eqb b) (i_bs i)) eqn:E; [|reflexivity]. exfalso. assert (X : existsb (fun i => existsb (Nat.eqb b) (i_bs i)) L = true) by (apply existsb_exists; eauto). congruence.
  - intros H. destruct (existsb _ L) eqn:E; [|reflexivity]. apply existsb_exists in E. destruct E as (i & Hi & E). specialize (H i Hi). apply existsb_notin in H. congruence.
Qed.
Definition vel0 (ax : Rv -> R) (b : id) : R := match motion_at w0 b with Some pv => vlin ax (snd pv) | None => 0 end.
Definition ZC (dt : R) (w : @world RNum BH) : Prop := exists L, w_log w = w_log w0 ++ map event_of L /\
  (forall b, met L b = false -> motion_at w b = motion_at w0 b) /\
  forall ax, axis ax -> cen ax w (w_bodies w0) = cen ax w0 (w_bodies w0) + dt * rsum (fun b => if met L b then M b * vel0 ax b else 0) (w_bodies w0).
Lemma ZC_moved dt todo aw w w' root bs cs cts aw' : ZA act w0 todo aw w -> ZA act w0 (filter (fun i => negb (existsb (Nat.eqb i) bs)) todo) aw' w' -> In root todo -> In root bs ->
  w_log w' = w_log w ++ [Solved bs cs cts] -> moved dt bs w w' -> ZC dt w -> ZC dt w'.
Proof.
  intros HA HA' Hrt Hr El MV (L & EL & HU & HC). destruct (za_isl _ _ _ _ _ HA) as (L1 & EL1 & CL & _ & HT & _). assert (L1 = L) by (apply event_inj; apply (app_inv_head (w_log w0)); congruence). subst L1.
  destruct (za_isl _ _ _ _ _ HA') as (L' & EL' & CL' & AP & _). assert (E : L' = L ++ [IS bs cs cts]).
  { apply event_inj. apply (app_inv_head (w_log w0)). rewrite <- EL', El, EL, map_app, app_assoc. reflexivity. } subst L'.
  assert (ONE : forall b, In b bs -> M b = 0 \/ met L b = false).
  { intros b Hb. destruct (met L b) eqn:Em; [left|right; reflexivity]. unfold met in Em. apply existsb_exists in Em. destruct Em as (i & Hi & Em). apply existsb_in in Em.
    apply (apart_once i (IS bs cs cts) root b); auto.
    - rewrite Forall_forall in CL'. apply CL'. apply in_or_app. right. left. reflexivity.
    - clear - AP Hi. induction L as [|a L IH]; [contradiction|]. cbn in AP. inversion AP as [|? ? F AP']; subst. destruct Hi as [->|Hi]; [|apply IH; assumption]. rewrite Forall_forall in F. apply F, in_or_app. right. left. reflexivity.
    - apply (proj2 (proj1 (HT root) Hrt) i Hi). }
  assert (MT : forall b, met (L ++ [IS bs cs cts]) b = met L b || existsb (Nat.eqb b) bs).
  { intros b. unfold met. rewrite existsb_app. cbn. rewrite orb_false_r. reflexivity. }
  exists (L ++ [IS bs cs cts]). split; [exact EL'|]. split.
  - intros b Hb. rewrite MT in Hb. apply orb_false_iff in Hb. destruct Hb as [Hb1 Hb2]. apply existsb_notin in Hb2. rewrite (mv_out _ _ _ _ MV b Hb2). apply HU, Hb1.
  - intros ax Hax. assert (HI : incl bs (w_bodies w0)) by (rewrite <- (sa_bodies _ _ (za_same _ _ _ _ _ HA)); apply (mv_in _ _ _ _ MV)). pose proof (proj1 (i_bodies _ S0)) as ND.
    rewrite (moved_cen dt bs w w' ax _ MV Hax ND HI), (HC ax Hax). pose proof (mv_nd _ _ _ _ MV) as NB.
    rewrite (rsum_split (fun b => if met L b then _ else _) bs _ NB ND HI), (rsum_split (fun b => if met (L ++ _) b then _ else _) bs _ NB ND HI).
    assert (E1 : mom ax w bs = rsum (fun b => if met (L ++ [IS bs cs cts]) b then M b * vel0 ax b else 0) bs).
    { apply rsum_ext. intros b Hb. rewrite MT. apply existsb_in in Hb as Hb'. rewrite Hb', orb_true_r. destruct (ONE b Hb) as [->|Hm]; [lra|]. unfold vel0. rewrite (HU b Hm). reflexivity. }
    assert (E2 : rsum (fun b => if met L b then M b * vel0 ax b else 0) bs = 0).
    { rewrite (rsum_ext _ (fun b => 0 * 0)); [rewrite rsum_scale; lra|]. intros b Hb. destruct (ONE b Hb) as [->| ->]; [destruct (met L b)|]; lra. }
    match goal with |- _ + dt * (_ + rsum ?f ?fl) + _ = _ + dt * (_ + rsum ?g ?fl) => assert (E3 : rsum f fl = rsum g fl) end.
    { apply rsum_ext. intros b Hb. apply filter_In in Hb. destruct Hb as [_ Hb]. apply negb_true_iff in Hb. rewrite MT, Hb, orb_false_r. reflexivity. }
    rewrite E1, E2, E3. lra.
Qed.
Theorem islands_centre fuel1 fuel2 s (dt : R) : quiet_ids w0 -> (length (w_bodies w0) <= fuel1)%nat -> (length (w_bodies w0) <= fuel2)%nat ->
  wp (solve_islands fuel1 fuel2 s (dt : @K RNum) false (w_bodies w0)) (fun _ w' => forall ax, axis ax -> cen ax w' (w_bodies w0) = cen ax w0 (w_bodies w0) + dt * mom ax w0 (w_bodies w0)) w0.
Proof.
  intros Qt H1 H2. eapply wp_mono.
  - apply (solve_islands_wp (fun todo aw w => ZA act w0 todo aw w /\ Zs w /\ ZC dt w)); auto using incl_refl.
    + intros aw todo root l w1 S1 Q1 (HA & Z1 & HC) Et HI HF. eapply wp_mono; [apply wp_and; [apply (solve_one_comp T act Hst Hsl w0 S0 M0 fuel2 s dt aw todo root l w1); auto|apply (solve_one_moved fuel2 s dt aw todo root l w1); auto]|].
      intros r w' _ [(Si & Qi & Smi & HA' & HI' & HL) (_ & _ & _ & Zi & _ & _ & bs & cs & cts & Hr & Er & El & MV)]. repeat (split; [assumption|]). split; [|auto]. split; [exact HA'|]. split; [exact Zi|].
      rewrite Er in HA'. assert (Hrt : In root todo) by (rewrite Et; apply in_or_app; right; left; reflexivity). exact (ZC_moved dt todo aw w1 w' root bs cs cts _ HA HA' Hrt Hr El MV HC).
    + split; [|split; [exact HZ0|]].
      * constructor; [apply same_refl|intros c; reflexivity|]. exists []. cbn. rewrite app_nil_r. split; [reflexivity|]. split; [constructor|]. split; [constructor|]. split; [|auto].
        intros b. split; [intros Hb; split; [exact Hb|intros i []]|tauto].
      * exists []. cbn. rewrite app_nil_r. split; [reflexivity|]. split; [reflexivity|]. intros ax _. rewrite (rsum_ext _ (fun b => 0 * 0)) by (intros; lra). rewrite rsum_scale. lra.
  - intros u w' _ (_ & _ & _ & aw & HA & _ & L & EL & _ & HC) ax Hax. rewrite (HC ax Hax). f_equal. f_equal. apply rsum_ext. intros b Hb.
    destruct (za_isl _ _ _ _ _ HA) as (L1 & EL1 & _ & _ & HT & _). assert (L1 = L) by (apply event_inj; apply (app_inv_head (w_log w0)); congruence). subst L1.
    destruct (met L b) eqn:Em; [reflexivity|]. rewrite met_not in Em. exfalso. apply (proj2 (HT b)). auto.
Qed.
End Centre.
End Mom.
Arguments mom {BH} M ax w bs. Arguments cen {BH} M ax w bs.

(** ** Over a step *)
Section Step.
Context {TR : Trig RNum} {BH : Behaviour RNum}.
Hypothesis T : tame (N := RNum).
(** the mass of a body of the group, zero for another body *)
Definition mass_in (g : id -> bool) (w : @world RNum BH) (b : id) : R := if g b then match w_bh w b with Some y => mp_m (b_props (wb y)) | None => 0 end else 0.
(** no constraint or contact joins the group to a body outside it, and those within
    it join two bodies by the inverses of their masses *)
Definition closed_group (g : id -> bool) (w : @world RNum BH) : Prop := forall c x, w_ch w c = Some x ->
  g (c_b0 x) = g (c_b1 x) /\ (g (c_b0 x) = true -> c_b0 x <> c_b1 x /\ c_m0 x * mass_in g w (c_b0 x) = 1 /\ c_m1 x * mass_in g w (c_b1 x) = 1).
Lemma closed_fair g w : closed_group g w -> fairM (mass_in g w) w.
Proof.
  intros H c x E. destruct (H c x E) as [Hg HW]. destruct (g (c_b0 x)) eqn:G0; [left; apply HW; reflexivity|right]. unfold mass_in. rewrite G0, <- Hg. auto.
Qed.
Lemma mom_mass M M' ax (w : @world RNum BH) bs : (forall b, In b bs -> M b = M' b) -> mom M ax w bs = mom M' ax w bs.
Proof. intros H. apply rsum_ext. intros b Hb. rewrite (H b Hb). reflexivity. Qed.
Lemma cen_mass M M' ax (w : @world RNum BH) bs : (forall b, In b bs -> M b = M' b) -> cen M ax w bs = cen M' ax w bs.
Proof. intros H. apply rsum_ext. intros b Hb. rewrite (H b Hb). reflexivity. Qed.
(** the momentum is the one after the forces of the step have acted *)
Theorem step_momentum G g strict fuel o (dt : R) w w' : balanced G -> all_G G w -> closed_group g w -> reachable w -> shuffles o -> (length (w_bodies w) <= fuel)%nat -> 0 < dt ->
  step strict fuel o (dt : @K RNum) w = Ok tt w' ->
  exists wm, at_solve o (dt : @K RNum) w wm /\ (w_forces w = [] -> forall b, In b (w_bodies w') -> motion_at wm b = motion_at w b) /\
    (forall ax, axis ax -> mom (mass_in g w') ax w' (w_bodies w') = mom (mass_in g w) ax wm (w_bodies w')) /\
    forall act, steady (N := RNum) act -> still (N := RNum) -> massless w -> forall ax, axis ax ->
      cen (mass_in g w') ax w' (w_bodies w') = cen (mass_in g w) ax wm (w_bodies w') + dt * mom (mass_in g w) ax wm (w_bodies w').
Proof.
  intros HB AG CG HR Hs HF Hdt E. assert (Hdt' : @kltb RNum (@k0 RNum) dt = true) by (unfold k0; cbn [kltb kofZ RNum]; destruct (Rltb_spec 0 dt); [reflexivity|contradiction]).
  destruct (step_stages T strict fuel o dt w w' HR Hs HF Hdt' E) as (wm & wn & SG). exists wm. split; [apply (sg_solve _ _ _ _ _ _ _ SG)|]. split; [apply (sg_free _ _ _ _ _ _ _ SG)|].
  pose proof (sg_sinv _ _ _ _ _ _ _ SG) as S. pose proof (sg_bodies _ _ _ _ _ _ _ SG) as EB.
  assert (M1 : forall b, In b (w_bodies w') -> mass_in g wm b = mass_in g w b).
  { intros b Hb. rewrite EB in Hb. apply (i_bodies _ S) in Hb. destruct Hb as [y Ey]. destruct (sg_props _ _ _ _ _ _ _ SG b y Ey) as (y0 & E0 & Hp). unfold mass_in. rewrite Ey, E0, Hp. reflexivity. }
  assert (M2 : forall b, In b (w_bodies w') -> mass_in g w' b = mass_in g w b).
  { intros b Hb. rewrite <- (M1 b Hb). unfold mass_in. destruct (g b); [|reflexivity]. pose proof (sg_body _ _ _ _ _ _ _ SG b) as HP. destruct (w_bh w' b) as [y'|] eqn:E'.
    - destruct (HP y' eq_refl) as (y & -> & ->). reflexivity.
    - exfalso. pose proof (sg_motion _ _ _ _ _ _ _ SG b Hb) as HM. unfold motion_at in HM. rewrite E' in HM. rewrite EB in Hb. apply (i_bodies _ S) in Hb. destruct Hb as [y Ey].
      pose proof (sa_b _ _ (sg_same _ _ _ _ _ _ _ SG) b) as HS. rewrite Ey in HS. destruct (w_bh wn b); [discriminate|contradiction]. }
  assert (HZ : Zs G (mass_in g w) wm).
  { split; [intros c x Ex; apply (sg_state _ _ _ _ _ _ _ SG G (ba_pre _ HB) AG c x Ex)|]. intros c x Ex. destruct (sg_con _ _ _ _ _ _ _ SG c x Ex) as (x0 & E0 & CS0). rewrite (cs_b0 _ _ CS0), (cs_b1 _ _ CS0), (cs_m0 _ _ CS0), (cs_m1 _ _ CS0). apply (closed_fair g w CG c x0 E0). }
  pose proof (sg_quiet _ _ _ _ _ _ _ SG) as Qt. pose proof (sg_fuel _ _ _ _ _ _ _ SG) as HF'.
  assert (MO : forall q, msum (mass_in g w') q w' (w_bodies w') = msum (mass_in g w) q wn (w_bodies wm)).
  { intros q. unfold msum. rewrite <- EB. apply rsum_ext. intros b Hb. rewrite (M2 b Hb), (sg_motion _ _ _ _ _ _ _ SG b Hb). reflexivity. }
  split.
  - intros ax Hax. pose proof (islands_momentum T G HB (mass_in g w) fuel fuel (w_set wm) dt wm S Qt HZ HF' HF') as H. unfold wp in H. rewrite (sg_isl _ _ _ _ _ _ _ SG) in H.
    unfold mom at 1. rewrite MO, EB. apply (H ax Hax).
  - intros act Ha Hst HM ax Hax. assert (HM' : massless wm).
    { intros c x Ex. destruct (sg_con _ _ _ _ _ _ _ SG c x Ex) as (x0 & Ex0 & CS0). destruct (HM c x0 Ex0) as (A0 & A1 & A2). rewrite (cs_b0 _ _ CS0), (cs_b1 _ _ CS0), (cs_m0 _ _ CS0), (cs_I0 _ _ CS0), (cs_m1 _ _ CS0), (cs_I1 _ _ CS0). auto. }
    pose proof (islands_centre T G HB (mass_in g w) act Ha Hst wm S HM' HZ fuel fuel (w_set wm) dt Qt HF' HF') as H. unfold wp in H. rewrite (sg_isl _ _ _ _ _ _ _ SG) in H.
    unfold cen at 1. rewrite MO, EB. apply (H ax Hax).
Qed.
End Step.
