(** Concrete instances for P_Mat.v. *)
From Coq Require Import ZArith List Bool Reals Lra Psatz Lia Arith.
From Verif Require Import Num Outcome Box Mat MatFacts MatSolve.
Local Open Scope R_scope.

Definition exA : Rmat := fun i j => INR (i + 2 * j).
Definition exB : Rmat := fun i j => INR (3 * i + j).
Lemma ex_mul : mmul 3 exA exB 1%nat 1%nat = 1 * 1 + 3 * 4 + 5 * 7.
Proof. unfold mmul, exA, exB. cbn [ksum]. rcbn. cbn [kmul RNum INR Nat.add Nat.mul]. ring. Qed.
Lemma ex_solve2 : det2 (rm2 2 1 1 3) <> 0 /\ solve2 (make_solver2 (rm2 2 1 1 3)) (rv 3 5) = Ret (rv (4 / 5) (7 / 5)).
Proof.
  assert (D : det2 (rm2 2 1 1 3) <> 0) by (un; lra). split; [exact D|]. rewrite solve2_eq by exact D. un. f_equal. f_equal; field.
Qed.
(** a permutation matrix: the first pivot column is not the first unit vector *)
Definition ex_perm : Rmat := fun i j => if Nat.eqb (i + j) 2 then 3 else 0.
Lemma ex_indep : independent 3 ex_perm.
Proof.
  intros x H i Hi. pose proof (H 0%nat ltac:(lia)) as H0. pose proof (H 1%nat ltac:(lia)) as H1. pose proof (H 2%nat ltac:(lia)) as H2.
  unfold mvmul, ex_perm in *. cbn in H0, H1, H2. destruct i as [|[|[|i]]]; cbn; try lra. lia.
Qed.
Lemma ex_dep : ~ independent 2 (fun i j => INR (i + 1) * INR (j + 1)).
Proof.
  intros H. specialize (H (fun i => match i with O => 2 | _ => -1 end)).
  assert (X : (2:R) = 0); [|lra]. apply (H ltac:(intros i Hi; unfold mvmul; cbn [ksum]; rcbn; cbn [kmul RNum INR Nat.add]; ring) 0%nat). lia.
Qed.
Lemma ex_spd : spd (rm2 2 1 1 2).
Proof. split; [reflexivity|]. intros [x y] H. un. assert (x <> 0 \/ y <> 0). { destruct (Req_dec x 0); [right|left; assumption]. intros ->. subst. auto. } 
  assert (S1 := Rle_0_sqr x). assert (S2 := Rle_0_sqr y). assert (S3 := Rle_0_sqr (x + y)).
  destruct H0 as [H0|H0]; apply Rsqr_pos_lt in H0; unfold Rsqr in *; lra. Qed.
(** the unconstrained solution has a negative coordinate *)
Lemma ex_lcp : lcp_solve (make_lcp (rm2 2 1 1 2)) (rv 2 (-4)) = Ret (rv 1 0).
Proof.
  destruct (lcp_spec (rm2 2 1 1 2) (rv 2 (-4)) ex_spd) as (x & E & S & U). rewrite E. f_equal. symmetry. apply U.
  unfold lcp_solution. un. lra.
Qed.
(** the projected iteration on 2 x = 4 with x >= 0 stops after two sweeps *)
Lemma ex_gs : exists x, solveInequalities (N := RNum) 2 1 (fun _ _ => 2) (fun _ => 4) (fun z i => @kmax RNum 0 (z i)) (fun _ => 0) keps = Ret x /\ x 0%nat = 2.
Proof.
  unfold solveInequalities. cbn [gs_loop gs_sweep]. unfold gs_row. cbn [gs_sum Nat.sub].
  set (d := @kdiv RNum (kopp (kadd k0 (@kopp RNum 4))) 2).
  assert (E : d = 2) by (unfold d; rcbn; field).
  assert (V : forall z : Rvec, vset z 0 d 0%nat = 2) by (intros z; rewrite <- E; reflexivity).
  rewrite !V. unfold keps, kmax. unfold vset at 1 3. cbn [Nat.eqb]. cbn [kltb kdiv kofZ kabs ksub RNum]. rcbn. rewrite !Rminus_0_r.
  assert (A1 : Rabs 2 = 2) by (apply Rabs_right; lra).
  destruct (Rltb_spec 0 2); [|lra].
  replace (2 - 2) with 0 by lra. rewrite A1, Rabs_R0.
  destruct (Rltb_spec (1 / 1000000) (1 + 1 / 1000000)); [|lra].
  destruct (Rltb_spec 0 2); [|lra]. destruct (Rltb_spec (1 / 1000000) 2); [|lra].
  destruct (Rltb_spec 0 0); [lra|]. destruct (Rltb_spec (1 / 1000000) 0); [lra|].
  eexists. split; reflexivity.
Qed.
