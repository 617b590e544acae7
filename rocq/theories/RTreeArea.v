(** binary32: insert is undefined exactly when the area of the union with the
    tree's bounds is not finite (C19). *)
From Coq Require Import ZArith Reals Lra Lia.
From Flocq Require Import Core BinarySingleNaN.
From stdpp Require Import base option list gmap fin_maps.
From Verif Require Import Num Outcome Algo Box BoxFacts BoxOverlap RTree RTreeFun RTreeHeap RTreeInsert RTreeIter RTreeOps RTreeBounds RTreeSpec RTreeHist RTreeThm.

Notation frnd x := (round radix2 (SpecFloat.fexp fprec femax) (round_mode mode_NE) x).

Lemma frnd_le x y : (x <= y)%R -> (frnd x <= frnd y)%R.
Proof.
  assert (Valid_exp (SpecFloat.fexp fprec femax)) by (apply (fexp_correct fprec femax); reflexivity).
  apply round_le; [assumption|apply valid_rnd_round_mode].
Qed.
Lemma frnd_0 : frnd 0 = 0%R.
Proof. apply round_0. apply valid_rnd_round_mode. Qed.

Lemma fsub_finite x y : is_finite (fsub x y) = true -> is_finite x = true /\ is_finite y = true.
Proof. destruct x as [|[]| |], y as [|[]| |]; cbn; auto. Qed.
Lemma fmul_finite x y : is_finite (fmul x y) = true -> is_finite x = true /\ is_finite y = true.
Proof. destruct x as [|[]| |], y as [|[]| |]; cbn; auto. Qed.
Lemma fsub_round x y : is_finite (fsub x y) = true -> B2R (fsub x y) = frnd (B2R x - B2R y).
Proof.
  intros H. destruct (fsub_finite x y H) as [Fx Fy].
  pose proof (Bminus_correct fprec femax fHprec fHmax mode_NE x y Fx Fy) as C.
  destruct (Rlt_bool_spec (Rabs (frnd (B2R x - B2R y))) (bpow radix2 femax)); [apply C|].
  destruct C as [C _]. change (Bminus mode_NE x y) with (fsub x y) in C.
  destruct (fsub x y) as [| | |]; try discriminate H; discriminate C.
Qed.
Lemma fmul_round x y : is_finite (fmul x y) = true -> B2R (fmul x y) = frnd (B2R x * B2R y).
Proof.
  intros H.
  pose proof (Bmult_correct fprec femax fHprec fHmax mode_NE x y) as C.
  destruct (Rlt_bool_spec (Rabs (frnd (B2R x * B2R y))) (bpow radix2 femax)); [apply C|].
  change (Bmult mode_NE x y) with (fmul x y) in C.
  destruct (fmul x y) as [| | |]; try discriminate H; discriminate C.
Qed.
Lemma fsub_in_range x y : is_finite x = true -> is_finite y = true ->
  (Rabs (frnd (B2R x - B2R y)) < bpow radix2 femax)%R -> is_finite (fsub x y) = true.
Proof.
  intros Fx Fy H. pose proof (Bminus_correct fprec femax fHprec fHmax mode_NE x y Fx Fy) as C.
  rewrite Rlt_bool_true in C by exact H. apply C.
Qed.
Lemma fmul_in_range x y : is_finite x = true -> is_finite y = true ->
  (Rabs (frnd (B2R x * B2R y)) < bpow radix2 femax)%R -> is_finite (fmul x y) = true.
Proof.
  intros Fx Fy H. pose proof (Bmult_correct fprec femax fHprec fHmax mode_NE x y) as C.
  rewrite Rlt_bool_true in C by exact H. destruct C as (_ & C & _). rewrite Fx, Fy in C. exact C.
Qed.
Lemma finite_small (x : f32) : is_finite x = true -> (Rabs (B2R x) < bpow radix2 femax)%R.
Proof. intros _. apply abs_B2R_lt_emax. Qed.

(** a wider interval with a finite width *)
Lemma width_mono mn mx mn' mx' : is_finite (fsub mx' mn') = true ->
  fok mn -> fok mx -> Bltb mx mn = false -> Bltb mn mn' = false -> Bltb mx' mx = false ->
  is_finite (fsub mx mn) = true /\ (0 <= B2R (fsub mx mn) <= B2R (fsub mx' mn'))%R.
Proof.
  intros F O1 O2 L1 L2 L3. destruct (fsub_finite _ _ F) as [F1 F2].
  rewrite Bltb_key in L1, L2, L3 by (assumption || (apply finite_fok; assumption)).
  rewrite (finite_key mn' F2) in L2. rewrite (finite_key mx' F1) in L3.
  pose proof (finite_small _ F1) as S1. pose proof (finite_small _ F2) as S2. apply Rabs_lt_inv in S1, S2.
  assert (X : (B2R mn' <= fkey mn <= fkey mx /\ fkey mx <= B2R mx')%R) by (rcmp; try discriminate; lra).
  assert (Fn : is_finite mn = true) by (destruct mn as [|[]| |]; auto; try discriminate; cbn [fkey] in X; lra).
  assert (Fx : is_finite mx = true) by (destruct mx as [|[]| |]; auto; try discriminate; cbn [fkey] in X; lra).
  rewrite (finite_key _ Fn), (finite_key _ Fx) in X.
  pose proof (fsub_round _ _ F) as R'. pose proof (finite_small _ F) as SF. rewrite R' in SF. apply Rabs_lt_inv in SF.
  assert (M1 : (frnd (B2R mx - B2R mn) <= frnd (B2R mx' - B2R mn'))%R) by (apply frnd_le; lra).
  assert (M0 : (0 <= frnd (B2R mx - B2R mn))%R) by (rewrite <- frnd_0; apply frnd_le; lra).
  assert (FF : is_finite (fsub mx mn) = true) by (apply fsub_in_range; auto; apply Rabs_lt; lra).
  split; [exact FF|]. rewrite R', (fsub_round _ _ FF). lra.
Qed.
Lemma area_mono w h w' h' : is_finite (fmul w' h') = true -> is_finite w = true -> is_finite h = true ->
  (0 <= B2R w <= B2R w')%R -> (0 <= B2R h <= B2R h')%R -> is_finite (fmul w h) = true.
Proof.
  intros F Fw Fh Lw Lh. apply fmul_in_range; auto.
  pose proof (finite_small _ F) as SF. rewrite (fmul_round _ _ F) in SF. apply Rabs_lt_inv in SF.
  assert (M1 : (frnd (B2R w * B2R h) <= frnd (B2R w' * B2R h'))%R) by (apply frnd_le; nra).
  assert (M0 : (0 <= frnd (B2R w * B2R h))%R) by (rewrite <- frnd_0; apply frnd_le; nra).
  apply Rabs_lt. lra.
Qed.

Lemma sign_neg (x : f32) : Bsign x = true -> (B2R x <= 0)%R.
Proof. destruct x as [[]|[]| |[] m e He]; cbn; intros; try discriminate; try lra. apply Rlt_le, F2R_lt_0. reflexivity. Qed.
Lemma sign_pos (x : f32) : Bsign x = false -> (0 <= B2R x)%R.
Proof. destruct x as [[]|[]| |[] m e He]; cbn; intros; try discriminate; try lra. apply Rlt_le, F2R_gt_0. reflexivity. Qed.

(** the area of a box is a NaN or not negative *)
Definition not_neg (a : f32) : Prop := is_nan a = true \/ a = finf \/ (is_finite a = true /\ (0 <= B2R a)%R).
Lemma width_not_neg mn mx : Bltb mx mn = false -> not_neg (fsub mx mn).
Proof.
  intros L. unfold not_neg.
  destruct (is_nan mn) eqn:N1; [destruct mn; try discriminate; destruct mx as [|[]| |]; left; reflexivity|].
  destruct (is_nan mx) eqn:N2; [destruct mx; try discriminate; destruct mn as [|[]| |]; left; reflexivity|].
  rewrite Bltb_key in L by assumption.
  destruct (is_finite mn) eqn:F1.
  - destruct (is_finite mx) eqn:F2.
    + rewrite (finite_key _ F1), (finite_key _ F2) in L.
      assert (X : (B2R mn <= B2R mx)%R) by (rcmp; try discriminate; lra).
      assert (M0 : (0 <= frnd (B2R mx - B2R mn))%R) by (rewrite <- frnd_0; apply frnd_le; lra).
      pose proof (Bminus_correct fprec femax fHprec fHmax mode_NE mx mn F2 F1) as C.
      destruct (Rlt_bool_spec (Rabs (frnd (B2R mx - B2R mn))) (bpow radix2 femax)).
      * right. right. destruct C as (C1 & C2 & _). change (Bminus mode_NE mx mn) with (fsub mx mn) in *.
        rewrite C1. auto.
      * right. left. destruct C as (C1 & C2). change (Bminus mode_NE mx mn) with (fsub mx mn) in *.
        assert (SG : Bsign mx = false).
        { destruct (Bsign mx) eqn:SX; [|reflexivity]. exfalso. assert (SY : Bsign mn = false) by (destruct (Bsign mn); [discriminate|reflexivity]).
          pose proof (sign_neg _ SX). pose proof (sign_pos _ SY).
          assert (Y : (frnd (B2R mx - B2R mn) <= frnd 0)%R) by (apply frnd_le; lra). rewrite frnd_0 in Y.
          pose proof (bpow_gt_0 radix2 femax). rewrite Rabs_pos_eq in * by exact M0. lra. }
        rewrite SG in C1. destruct (fsub mx mn) as [|[]| |]; try discriminate C1. reflexivity.
    + destruct mx as [|[]| |]; try discriminate; cbn [fkey] in L.
      * exfalso. pose proof (finite_small _ F1) as S1. rewrite (finite_key _ F1) in L. apply Rabs_lt_inv in S1. rcmp; try discriminate; lra.
      * right. left. destruct mn as [|[]| |]; try discriminate; reflexivity.
  - destruct mn as [|[]| |]; try discriminate; cbn [fkey] in L.
    + destruct mx as [|[]| |]; try discriminate; [right; left; reflexivity|left; reflexivity|right; left; reflexivity|right;left;reflexivity].
    + destruct (is_finite mx) eqn:F2.
      * exfalso. pose proof (finite_small _ F2) as S1. rewrite (finite_key _ F2) in L. apply Rabs_lt_inv in S1. rcmp; try discriminate; lra.
      * destruct mx as [|[]| |]; try discriminate; [|left; reflexivity].
        exfalso. cbn [fkey] in L. pose proof (bpow_gt_0 radix2 femax). rcmp; try discriminate; lra.
Qed.

Lemma mul_not_neg w h : not_neg w -> not_neg h -> not_neg (fmul w h).
Proof.
  unfold not_neg. intros Hw Hh.
  destruct Hw as [Nw|[->|[Fw Pw]]].
  { left. destruct w; try discriminate. destruct h; reflexivity. }
  - destruct Hh as [Nh|[->|[Fh Ph]]].
    + left. destruct h; try discriminate. reflexivity.
    + right. left. reflexivity.
    + destruct h as [|[]| |[] m e He]; try discriminate; [left; reflexivity| |right; left; reflexivity].
      exfalso. cbn in Ph. assert (F2R (Float radix2 (cond_Zopp true (Z.pos m)) e) < 0)%R by (apply F2R_lt_0; reflexivity). cbn in *. lra.
  - destruct Hh as [Nh|[->|[Fh Ph]]].
    + left. destruct h; try discriminate. destruct w as [|[]| |]; reflexivity.
    + destruct w as [|[]| |[] m e He]; try discriminate; [left; reflexivity| |right; left; reflexivity].
      exfalso. cbn in Pw. assert (F2R (Float radix2 (cond_Zopp true (Z.pos m)) e) < 0)%R by (apply F2R_lt_0; reflexivity). cbn in *. lra.
    + assert (M0 : (0 <= frnd (B2R w * B2R h))%R) by (rewrite <- frnd_0; apply frnd_le; nra).
      pose proof (Bmult_correct fprec femax fHprec fHmax mode_NE w h) as C.
      change (Bmult mode_NE w h) with (fmul w h) in C.
      destruct (Rlt_bool_spec (Rabs (frnd (B2R w * B2R h))) (bpow radix2 femax)) as [LT|GE].
      * right. right. destruct C as (C1 & C2 & _). rewrite C1, C2, Fw, Fh. auto.
      * right. left. assert (SG : xorb (Bsign w) (Bsign h) = false).
        { destruct (xorb _ _) eqn:SX; [|reflexivity]. exfalso.
          assert (Z : (B2R w * B2R h <= 0)%R).
          { destruct (Bsign w) eqn:Sw, (Bsign h) eqn:Sh; try discriminate SX.
            - pose proof (sign_neg _ Sw). assert (B2R w = 0)%R as -> by lra. lra.
            - pose proof (sign_neg _ Sh). assert (B2R h = 0)%R as -> by lra. lra. }
          assert (Y : (frnd (B2R w * B2R h) <= frnd 0)%R) by (apply frnd_le; exact Z). rewrite frnd_0 in Y.
          pose proof (bpow_gt_0 radix2 femax). rewrite Rabs_pos_eq in GE by exact M0. lra. }
        rewrite SG in C. destruct (fmul w h) as [|[]| |]; try discriminate C. reflexivity.
Qed.
Lemma area_not_neg (b : @box F32) : not_neg (box_area b).
Proof.
  unfold box_area. destruct (box_valid b) eqn:V; cbn [negb].
  - unfold box_valid, vall_ge in V. apply andb_true_iff in V. destruct V as [V1 V2]. apply negb_true_iff in V1, V2.
    cbn [vsub vx vy]. apply mul_not_neg; apply width_not_neg; assumption.
  - right. right. split; [reflexivity|cbn; lra].
Qed.
Lemma f0_add (a : f32) : @kadd F32 k0 a = fadd (B754_zero false) a.
Proof. reflexivity. Qed.
Lemma f0_ltInf (a : f32) : not_neg a -> @kltInf F32 (@kadd F32 k0 a) = is_finite a.
Proof.
  intros H. rewrite f0_add. destruct H as [H|[->|[F P]]].
  - destruct a; try discriminate. reflexivity.
  - reflexivity.
  - destruct a as [[]|[]| |[] m e He]; try discriminate; reflexivity.
Qed.
Lemma f0_geInf (a : f32) : not_neg a -> @kgeInf F32 (@kadd F32 k0 a) = true -> a = finf.
Proof.
  rewrite f0_add. intros [H|[->|[F _]]] G.
  - destruct a; try discriminate.
  - reflexivity.
  - exfalso. destruct a as [[]|[]| |[] m e He]; try discriminate.
Qed.
Lemma min_finite a b (w : f32) : is_finite (fsub w (@kmin F32 a b)) = true -> fok b ->
  Bltb b (@kmin F32 a b) = false /\ fok a.
Proof.
  intros F Ob. destruct (fsub_finite _ _ F) as [_ F1]. assert (Oa : fok a).
  { unfold kmin in F1. cbn in F1. destruct (Bltb b a) eqn:L; [|apply finite_fok; exact F1].
    destruct a; try reflexivity. rewrite Bltb_nan_r in L. discriminate. }
  split; [|exact Oa]. exact (@kmin_le_r F32 fok _ a b Oa Ob).
Qed.
Lemma max_finite a b (w : f32) : is_finite (fsub (@kmax F32 a b) w) = true -> fok b ->
  Bltb (@kmax F32 a b) b = false /\ fok a.
Proof.
  intros F Ob. destruct (fsub_finite _ _ F) as [F1 _]. assert (Oa : fok a).
  { unfold kmax in F1. cbn in F1. destruct (Bltb a b) eqn:L; [|apply finite_fok; exact F1].
    destruct a; try reflexivity. rewrite Bltb_nan_l in L. discriminate. }
  split; [|exact Oa]. exact (@kmax_ge_r F32 fok _ a b Oa Ob).
Qed.
Lemma sub_ok (x y : f32) : is_nan (fsub x y) = false -> fok x /\ fok y.
Proof. destruct x as [|[]| |], y as [|[]| |]; cbn; intros; try discriminate; split; reflexivity. Qed.
Lemma mul_ok (x y : f32) : is_nan (fmul x y) = false -> is_nan x = false /\ is_nan y = false.
Proof. destruct x as [|[]| |], y as [|[]| |]; cbn; intros; try discriminate; split; reflexivity. Qed.

Lemma wide_valid (a b a' b' : f32) : fok b -> fok b' -> Bltb b' b = false -> @kltb F32 (@kmax F32 a' b') (@kmin F32 a b) = false.
Proof.
  intros O1 O2 L. cbn.
  destruct (is_nan a) eqn:Na.
  { destruct a; try discriminate. assert (X : @kmin F32 (B754_nan : f32) b = B754_nan) by (unfold kmin; destruct b; reflexivity). rewrite X. apply Bltb_nan_r. }
  destruct (is_nan a') eqn:Na'.
  { destruct a'; try discriminate. assert (X : @kmax F32 (B754_nan : f32) b' = B754_nan) by (unfold kmax; destruct b'; reflexivity). rewrite X. apply Bltb_nan_l. }
  unfold kmin, kmax. cbn. rewrite (Bltb_key b a), (Bltb_key a' b') by assumption. rewrite Bltb_key in L by assumption.
  rcmp; rewrite Bltb_key by assumption; rcmp; try reflexivity; try discriminate; lra.
Qed.

Lemma area_combined (a b : @box F32) : box_area b = finf -> is_finite (box_area (box_combined a b)) = false.
Proof.
  intros Hb. assert (Vb : box_valid b = true).
  { unfold box_area in Hb. destruct (box_valid b); [reflexivity|]. discriminate. }
  pose proof Vb as Vb'. unfold box_valid, vall_ge in Vb'. apply andb_true_iff in Vb'. destruct Vb' as [U1 U2].
  apply negb_true_iff in U1, U2. cbn [kltb F32] in U1, U2.
  unfold box_combined. destruct (box_valid a) eqn:Va; cbn [negb]; [|rewrite Hb; reflexivity].
  rewrite Vb. cbn [negb]. destruct (is_finite _) eqn:F; [|reflexivity]. exfalso.
  unfold box_area in Hb, F. rewrite Vb in Hb. cbn [negb vsub vx vy bmin bmax] in Hb, F.
  destruct a as [[ax ay] [aX aY]], b as [[bx by'] [bX bY]]. cbn [bmin bmax vx vy kmul ksub F32] in *.
  assert (NN : is_nan (fmul (fsub bX bx) (fsub bY by')) = false) by (rewrite Hb; reflexivity).
  apply mul_ok in NN. destruct NN as [NX NY]. apply sub_ok in NX, NY. destruct NX as [OX Ox], NY as [OY Oy].
  assert (V : box_valid (Box (vmin (V2 ax ay) (V2 bx by')) (vmax (V2 aX aY) (V2 bX bY))) = true).
  { unfold box_valid, vall_ge, vmin, vmax. cbn [bmin bmax vx vy]. apply andb_true_iff.
    split; apply negb_true_iff; apply wide_valid; assumption. }
  rewrite V in F. cbn [negb vmin vmax bmin bmax vx vy] in F.
  destruct (fmul_finite _ _ F) as [FX FY].
  destruct (min_finite _ _ _ FX Ox) as [m1 m2]. destruct (max_finite _ _ _ FX OX) as [m3 m4].
  destruct (min_finite _ _ _ FY Oy) as [m5 m6]. destruct (max_finite _ _ _ FY OY) as [m7 m8].
  destruct (width_mono bx bX _ _ FX Ox OX U1 m1 m3) as [W1 W2].
  destruct (width_mono by' bY _ _ FY Oy OY U2 m5 m7) as [W3 W4].
  pose proof (area_mono _ _ _ _ F W1 W3 W2 W4) as Z. rewrite Hb in Z. discriminate.
Qed.
Lemma area_ok_finite (rb b : @box F32) : area_ok rb b = is_finite (box_area (box_combined rb b)).
Proof.
  unfold area_ok. rewrite (f0_ltInf _ (area_not_neg _)).
  destruct (kgeInf _) eqn:G; cbn [negb andb]; [|reflexivity].
  apply f0_geInf in G; [|apply area_not_neg]. symmetry. apply area_combined. exact G.
Qed.

Section C19.
Context {T : Type}.
Lemma insert_ub_iff C (s : @st F32 T) (B : gmap ptr (@box F32 * T)) (E : @env F32) (b : @box F32) (v : T) rb : reach C s B -> env_ok E -> tree_bounds s = Ret (rb, s) ->
  (is_finite (box_area (box_combined rb b) : f32) = false -> insert E b v s = UB) /\
  (is_finite (box_area (box_combined rb b) : f32) = true -> exists it s', insert E b v s = Ret (it, s')).
Proof.
  intros HR HE HB. destruct (reach_inv _ _ _ HR) as [t [HRp _ _]].
  assert (rb = tbnd t) as ->.
  { pose proof (tree_bounds_rep [] s t (proj1 HRp)) as X. rewrite HB in X. congruence. }
  rewrite <- area_ok_finite. split; intros X.
  - eapply insert_bad; eauto. apply F32_inf.
  - destruct (insert_rep E s t b v HE HRp X) as (p & dd & s' & t' & E1 & _). eauto.
Qed.
End C19.
