(** Non-negativity in exact arithmetic and in binary32: what the sign arguments
    of the contact solver need.  [nn x]: x is not less than zero (in binary32
    this includes NaN and -0). *)
From Coq Require Import ZArith Reals Lra Psatz Bool.
From Flocq Require Import Core IEEE754.BinarySingleNaN.
From Verif Require Import Num.

Definition nn {N : Num} (x : K) : Prop := kltb x k0 = false.
Class SignLaws (N : Num) := {
  sl_irrefl : forall a : K, kltb a a = false;
  sl_pos : forall a : K, kltb k0 a = true -> nn a;
  sl_le0 : forall a : K, kleb k0 a = true -> nn a;
  sl_add : forall a b : K, nn a -> nn b -> nn (kadd a b);
  sl_mul : forall a b : K, nn a -> nn b -> nn (kmul a b);
  sl_half : forall a : K, nn a -> nn (kdiv a k2);
  sl_opp : forall a : K, nn a -> kltb a (kopp a) = false
}.
Lemma nn0 {N : Num} {S : SignLaws N} : nn k0.
Proof. apply sl_irrefl. Qed.

Global Instance RNum_sign : SignLaws RNum.
Proof.
  constructor; unfold nn, k0, k2; cbn [kltb kleb kadd kmul kdiv kopp kofZ RNum]; intros; change (@K RNum) with R in *; rcmp; try reflexivity; try discriminate; exfalso.
  all: nra.
Qed.

Definition fneg (x : f32) : bool :=
  match x with B754_infinity true => true | B754_finite true _ _ _ => true | _ => false end.
Lemma fzero : fofZ 0 = B754_zero false.
Proof. reflexivity. Qed.
Lemma fltb0 (x : f32) : Bltb x (B754_zero false) = fneg x.
Proof. destruct x as [s|s| |s m e B]; try destruct s; reflexivity. Qed.
Lemma nn_F32 (x : f32) : @nn F32 x <-> fneg x = false.
Proof. unfold nn, k0. cbn [kltb kofZ F32]. rewrite fzero, fltb0. tauto. Qed.
Lemma fneg_real (x : f32) : (0 <= B2R x)%R -> is_finite x = true -> fneg x = false.
Proof.
  destruct x as [s|s| |s m e B]; try reflexivity; try discriminate. destruct s; [|reflexivity]. cbn [B2R cond_Zopp]. intros H _. exfalso.
  pose proof (F2R_lt_0 radix2 (Float radix2 (Zneg m) e) eq_refl). cbn in *. lra.
Qed.
Lemma nonneg_real (x : f32) : fneg x = false -> is_finite x = true -> (0 <= B2R x)%R.
Proof.
  destruct x as [s|s| |s m e B]; try discriminate; [intros; cbn; lra|]. destruct s; [discriminate|]. intros _ _. apply F2R_ge_0. cbn. lia.
Qed.
Lemma inf_not_neg (z : f32) s : B2SF z = SpecFloat.S754_infinity s -> fneg z = s.
Proof. destruct z as [|[]| |]; cbn; congruence. Qed.
Lemma round_nonneg (x : R) : (0 <= x)%R -> (0 <= round radix2 (SpecFloat.fexp fprec femax) (round_mode mode_NE) x)%R.
Proof. intros H. rewrite <- (round_0 radix2 (SpecFloat.fexp fprec femax) (round_mode mode_NE)). apply round_le; [apply (fexp_correct fprec femax fHprec)|apply valid_rnd_round_mode|exact H]. Qed.
Lemma fmul_nn (a b : f32) : fneg a = false -> fneg b = false -> fneg (fmul a b) = false.
Proof.
  intros HA HB.
  destruct a as [sa|sa| |sa ma ea Ba]; destruct b as [sb|sb| |sb mb eb Bb]; try reflexivity; try (destruct sa; try discriminate; destruct sb; try discriminate; reflexivity).
  destruct sa; [discriminate|]. destruct sb; [discriminate|].
  set (x := B754_finite false ma ea Ba) in *. set (y := B754_finite false mb eb Bb) in *.
  pose proof (Bmult_correct fprec femax fHprec fHmax mode_NE x y) as C. fold (fmul x y) in C.
  destruct (Rlt_bool _ _).
  - destruct C as (C1 & C2 & _). apply fneg_real; [|exact C2]. rewrite C1. apply round_nonneg. apply Rmult_le_pos; apply nonneg_real; reflexivity || assumption.
  - exact (inf_not_neg _ _ C).
Qed.
Lemma fadd_nn (a b : f32) : fneg a = false -> fneg b = false -> fneg (fadd a b) = false.
Proof.
  intros HA HB.
  destruct a as [sa|sa| |sa ma ea Ba]; destruct b as [sb|sb| |sb mb eb Bb]; try reflexivity; try (destruct sa; try discriminate; destruct sb; try discriminate; reflexivity);
    try (destruct sb; try discriminate; reflexivity); try (destruct sa; try discriminate; reflexivity).
  destruct sa; [discriminate|]. destruct sb; [discriminate|].
  set (x := B754_finite false ma ea Ba) in *. set (y := B754_finite false mb eb Bb) in *.
  pose proof (Bplus_correct fprec femax fHprec fHmax mode_NE x y eq_refl eq_refl) as C. fold (fadd x y) in C.
  destruct (Rlt_bool _ _).
  - destruct C as (C1 & C2 & _). apply fneg_real; [|exact C2]. rewrite C1. apply round_nonneg. apply Rplus_le_le_0_compat; apply nonneg_real; reflexivity || assumption.
  - destruct C as [C _]. exact (inf_not_neg _ _ C).
Qed.
Lemma fhalf_nn (a : f32) : fneg a = false -> fneg (fdiv a (fofZ 2)) = false.
Proof.
  intros HA. destruct a as [sa|sa| |sa ma ea Ba]; try reflexivity; try (destruct sa; try discriminate; reflexivity).
  destruct sa; [discriminate|]. set (x := B754_finite false ma ea Ba) in *.
  pose proof (Bdiv_correct fprec femax fHprec fHmax mode_NE x (fofZ 2)) as C. fold (fdiv x (fofZ 2)) in C.
  assert (T : B2R (fofZ 2) = 2%R) by (cbv -[IZR Rmult Rinv Rdiv]; cbn; lra).
  rewrite T in C. specialize (C ltac:(lra)).
  destruct (Rlt_bool _ _).
  - destruct C as (C1 & C2 & _). apply fneg_real; [|rewrite C2; reflexivity]. rewrite C1. apply round_nonneg.
    apply Rmult_le_pos; [apply nonneg_real; reflexivity || assumption|lra].
  - exact (inf_not_neg _ _ C).
Qed.
Lemma F32_irrefl (a : f32) : Bltb a a = false.
Proof.
  destruct a as [s|s| |s m e B]; try (destruct s; reflexivity); try reflexivity.
  pose proof (Bltb_correct fprec femax (B754_finite s m e B) (B754_finite s m e B) eq_refl eq_refl) as C. rewrite C. apply Rlt_bool_false. lra.
Qed.
Lemma F32_opp (a : f32) : fneg a = false -> Bltb a (fopp a) = false.
Proof.
  intros H. destruct a as [s|s| |s m e B]; try (destruct s; reflexivity); try reflexivity.
  - destruct s; [discriminate|reflexivity].
  - destruct s; [discriminate|]. reflexivity.
Qed.
Global Instance F32_sign : SignLaws F32.
Proof.
  constructor.
  - exact F32_irrefl.
  - intros a H. apply nn_F32. unfold k0 in H. cbn [kltb kofZ F32] in H. rewrite fzero in H. destruct a as [s|s| |s m e B]; try destruct s; try reflexivity; discriminate.
  - intros a H. apply nn_F32. unfold k0 in H. cbn [kleb kofZ F32] in H. rewrite fzero in H. destruct a as [s|s| |s m e B]; try destruct s; try reflexivity; discriminate.
  - intros a b A B. apply nn_F32 in A, B. apply nn_F32. apply fadd_nn; assumption.
  - intros a b A B. apply nn_F32 in A, B. apply nn_F32. apply fmul_nn; assumption.
  - intros a A. apply nn_F32 in A. apply nn_F32. apply fhalf_nn; assumption.
  - intros a A. apply nn_F32 in A. apply F32_opp; assumption.
Qed.
