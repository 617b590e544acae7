(** Numbers.  All numeric code of the model is written once over a record of
    operations [Num]; the instances are the reals (exact arithmetic) and
    IEEE-754 binary32 (the [float] of the C++ code). *)
From Coq Require Import ZArith Reals Lra Bool Psatz.
From Flocq Require Import Core BinarySingleNaN.

(** The C++ operators on [float].  [kltInf x] is [x < INFINITY] and
    [kgeInf x] is [x >= INFINITY] (used by RTree.hpp:433-449). *)
Class Num := {
  K : Type;
  kadd : K -> K -> K;
  ksub : K -> K -> K;
  kmul : K -> K -> K;
  kdiv : K -> K -> K;
  kopp : K -> K;
  kabs : K -> K;
  ksqrt : K -> K;
  kltb : K -> K -> bool;
  kleb : K -> K -> bool;
  keqb : K -> K -> bool;
  kofZ : Z -> K;
  kltInf : K -> bool;
  kgeInf : K -> bool
}.

Declare Scope num_scope.
Delimit Scope num_scope with num.
Infix "+" := kadd : num_scope.
Infix "-" := ksub : num_scope.
Infix "*" := kmul : num_scope.
Infix "/" := kdiv : num_scope.
Notation "- x" := (kopp x) : num_scope.
Infix "<?" := kltb : num_scope.
Infix "<=?" := kleb : num_scope.
Infix "=?" := keqb : num_scope.
(** C++ [a > b] and [a >= b] on floats *)
Notation "a >? b" := (kltb b a) (only parsing) : num_scope.
Notation "a >=? b" := (kleb b a) (only parsing) : num_scope.

Definition k0 {N : Num} : K := kofZ 0.
Definition k1 {N : Num} : K := kofZ 1.
Definition k2 {N : Num} : K := kofZ 2.

(** std::max / std::min of the C++ standard library: [max a b = a < b ? b : a],
    [min a b = b < a ? b : a]. *)
Definition kmax {N : Num} (a b : K) : K := if kltb a b then b else a.
Definition kmin {N : Num} (a b : K) : K := if kltb b a then b else a.

(** include/Simu/config.hpp: EPSILON = 1e-6f.  For binary32 the correctly
    rounded quotient of the exactly representable 1 and 1000000 is the value of
    the literal. *)
Definition keps {N : Num} : K := kdiv (kofZ 1) (kofZ 1000000).

(** ** Exact arithmetic *)
Definition Rltb (x y : R) : bool := if Rlt_dec x y then true else false.
Definition Rleb (x y : R) : bool := if Rle_dec x y then true else false.
Definition Reqb (x y : R) : bool := if Req_EM_T x y then true else false.

Definition RNum : Num := {|
  K := R;
  kadd := Rplus; ksub := Rminus; kmul := Rmult; kdiv := Rdiv;
  kopp := Ropp; kabs := Rabs; ksqrt := R_sqrt.sqrt;
  kltb := Rltb; kleb := Rleb; keqb := Reqb;
  kofZ := IZR;
  kltInf := fun _ => true;
  kgeInf := fun _ => false
|}.

Lemma Rltb_spec x y : Bool.reflect (x < y)%R (Rltb x y).
Proof. unfold Rltb; destruct (Rlt_dec x y); constructor; assumption. Qed.
Lemma Rleb_spec x y : Bool.reflect (x <= y)%R (Rleb x y).
Proof. unfold Rleb; destruct (Rle_dec x y); constructor; assumption. Qed.
Lemma Reqb_spec x y : Bool.reflect (x = y) (Reqb x y).
Proof. unfold Reqb; destruct (Req_EM_T x y); constructor; assumption. Qed.

(** Turn every real comparison in sight into its proposition. *)
Ltac rcmp :=
  repeat match goal with
  | |- context [Rltb ?x ?y] => destruct (Rltb_spec x y)
  | |- context [Rleb ?x ?y] => destruct (Rleb_spec x y)
  | |- context [Reqb ?x ?y] => destruct (Reqb_spec x y)
  | H : context [Rltb ?x ?y] |- _ => destruct (Rltb_spec x y)
  | H : context [Rleb ?x ?y] |- _ => destruct (Rleb_spec x y)
  | H : context [Reqb ?x ?y] |- _ => destruct (Reqb_spec x y)
  end.

(** ** binary32 *)
Definition fprec : Z := 24.
Definition femax : Z := 128.
Lemma fHprec : Prec_gt_0 fprec. Proof. reflexivity. Qed.
Lemma fHmax : Prec_lt_emax fprec femax. Proof. reflexivity. Qed.

Definition f32 : Type := binary_float fprec femax.
Definition fadd : f32 -> f32 -> f32 := @Bplus fprec femax fHprec fHmax mode_NE.
Definition fsub : f32 -> f32 -> f32 := @Bminus fprec femax fHprec fHmax mode_NE.
Definition fmul : f32 -> f32 -> f32 := @Bmult fprec femax fHprec fHmax mode_NE.
Definition fdiv : f32 -> f32 -> f32 := @Bdiv fprec femax fHprec fHmax mode_NE.
Definition fsqrt : f32 -> f32 := @Bsqrt fprec femax fHprec fHmax mode_NE.
Definition fopp : f32 -> f32 := @Bopp fprec femax.
Definition fabs : f32 -> f32 := @Babs fprec femax.
Definition fofZ (z : Z) : f32 :=
  binary_normalize fprec femax fHprec fHmax mode_NE z 0 false.
Definition finf : f32 := B754_infinity false.
Definition fnan : f32 := B754_nan.

Definition F32 : Num := {|
  K := f32;
  kadd := fadd; ksub := fsub; kmul := fmul; kdiv := fdiv;
  kopp := fopp; kabs := fabs; ksqrt := fsqrt;
  kltb := Bltb; kleb := Bleb; keqb := Beqb;
  kofZ := fofZ;
  kltInf := fun x => Bltb x finf;
  kgeInf := fun x => Bleb finf x
|}.

(** Show a float (tests only). *)
Definition fshow (x : f32) := B2SF x.

(** ** Order laws.
    [OrdLaws ok]: on the values satisfying [ok] (everything for the reals,
    every non-NaN for binary32) the comparisons are a total preorder. *)
Class OrdLaws (N : Num) (ok : K -> Prop) := {
  ord_irrefl : forall a, ok a -> kltb a a = false;
  ord_trans : forall a b c, ok a -> ok b -> ok c ->
      kltb b a = false -> kltb c b = false -> kltb c a = false;
  ord_asym : forall a b, ok a -> ok b -> kltb a b = true -> kltb b a = false;
  ord_leb : forall a b, ok a -> ok b -> kleb a b = negb (kltb b a);
  ord_eqb : forall a b, ok a -> ok b -> keqb a b = negb (kltb a b) && negb (kltb b a);
  ord_ok0 : ok k0;
  ord_ok1 : ok k1;
  ord_01 : kltb k0 k1 = true
}.

Definition okR : @K RNum -> Prop := fun _ => True.

Global Instance RNum_ord : OrdLaws RNum okR.
Proof.
  constructor; cbn; intros; rcmp; cbn; try reflexivity; try lra; try congruence; try exact I.
Qed.

Definition fok : @K F32 -> Prop := fun x => is_nan x = false.

(** Embedding of the non-NaN floats into the reals, infinities included. *)
Definition fkey (x : f32) : R :=
  match x with
  | B754_infinity false => bpow radix2 femax
  | B754_infinity true => Ropp (bpow radix2 femax)
  | _ => B2R x
  end.

Lemma fkey_bound (x : f32) : is_finite x = true -> (Rabs (B2R x) < bpow radix2 femax)%R.
Proof. intros _. apply abs_B2R_lt_emax. Qed.

Lemma fcompare_key (x y : f32) :
  is_nan x = false -> is_nan y = false ->
  Bcompare x y = Some (Rcompare (fkey x) (fkey y)).
Proof.
  intros Hx Hy.
  assert (Hp : (0 < bpow radix2 femax)%R) by apply bpow_gt_0.
  destruct (is_finite x) eqn:Fx; destruct (is_finite y) eqn:Fy.
  - rewrite (Bcompare_correct fprec femax x y Fx Fy).
    destruct x, y; try discriminate; reflexivity.
  - pose proof (fkey_bound x Fx) as B. apply Rabs_lt_inv in B.
    destruct y as [|sy| |]; try discriminate.
    assert (E : fkey x = B2R x) by (destruct x; try discriminate; reflexivity).
    rewrite E.
    destruct sy; cbn [fkey].
    + rewrite Rcompare_Gt by lra. destruct x; try discriminate; cbn; auto.
    + rewrite Rcompare_Lt by lra. destruct x; try discriminate; cbn; auto.
  - pose proof (fkey_bound y Fy) as B. apply Rabs_lt_inv in B.
    destruct x as [|sx| |]; try discriminate.
    assert (E : fkey y = B2R y) by (destruct y; try discriminate; reflexivity).
    rewrite E.
    destruct sx; cbn [fkey].
    + rewrite Rcompare_Lt by lra. destruct y; try discriminate; cbn; auto.
    + rewrite Rcompare_Gt by lra. destruct y; try discriminate; cbn; auto.
  - destruct x as [|sx| |]; try discriminate. destruct y as [|sy| |]; try discriminate.
    destruct sx, sy; cbn [fkey]; cbn.
    + rewrite Rcompare_Eq; reflexivity.
    + rewrite Rcompare_Lt by lra; reflexivity.
    + rewrite Rcompare_Gt by lra; reflexivity.
    + rewrite Rcompare_Eq; reflexivity.
Qed.

Lemma Bltb_key (x y : f32) : is_nan x = false -> is_nan y = false ->
  Bltb x y = Rltb (fkey x) (fkey y).
Proof.
  intros Hx Hy. pose proof (fcompare_key x y Hx Hy) as C.
  unfold Bltb, SpecFloat.SFltb. unfold Bcompare in C. rewrite C.
  destruct (Rcompare_spec (fkey x) (fkey y)); rcmp; try reflexivity; lra.
Qed.
Lemma Bleb_key (x y : f32) : is_nan x = false -> is_nan y = false ->
  Bleb x y = Rleb (fkey x) (fkey y).
Proof.
  intros Hx Hy. pose proof (fcompare_key x y Hx Hy) as C.
  unfold Bleb, SpecFloat.SFleb. unfold Bcompare in C. rewrite C.
  destruct (Rcompare_spec (fkey x) (fkey y)); rcmp; try reflexivity; lra.
Qed.
Lemma Beqb_key (x y : f32) : is_nan x = false -> is_nan y = false ->
  Beqb x y = Reqb (fkey x) (fkey y).
Proof.
  intros Hx Hy. pose proof (fcompare_key x y Hx Hy) as C.
  unfold Beqb, SpecFloat.SFeqb. unfold Bcompare in C. rewrite C.
  destruct (Rcompare_spec (fkey x) (fkey y)); rcmp; try reflexivity; lra.
Qed.

Global Instance F32_ord : OrdLaws F32 fok.
Proof.
  constructor; cbn; unfold fok; intros;
    rewrite ?Bltb_key, ?Bleb_key, ?Beqb_key in * by assumption;
    rcmp; cbn; try reflexivity; try lra; try congruence.
Qed.

Lemma Bltb_nan_l (y : f32) : Bltb (B754_nan : f32) y = false.
Proof. destruct y; reflexivity. Qed.
Lemma Bltb_nan_r (x : f32) : Bltb x (B754_nan : f32) = false.
Proof. destruct x as [| [] | |]; reflexivity. Qed.
