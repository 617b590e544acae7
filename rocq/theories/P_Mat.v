(** Properties C22-C26: matrices and solvers (Matrix.hpp, Matrix.inl.hpp).
    [Rmat], [Rvec], [Rmat2], [Rv] are real matrices and vectors. *)
From Coq Require Import ZArith List Bool Reals.
From Verif Require Import Num Outcome Box Mat MatFacts MatSolve MatExamples BoxScale.
Local Open Scope R_scope.

(** C22: A is m x n, B is n x p, C is p x q *)
Theorem C22_product_associative : forall n p (A B C : Rmat) i j, mmul p (mmul n A B) C i j = mmul n A (mmul p B C) i j.
Proof. exact mmul_assoc. Qed.
Print Assumptions C22_product_associative.

Theorem C22_product_distributes : forall n (A B C : Rmat) i j,
  mmul n (madd A B) C i j = madd (mmul n A C) (mmul n B C) i j /\
  mmul n A (madd B C) i j = madd (mmul n A B) (mmul n A C) i j.
Proof. exact (fun n A B C i j => conj (mmul_add_l n A B C i j) (mmul_add_r n A B C i j)). Qed.
Print Assumptions C22_product_distributes.

Theorem C22_identity_neutral : forall m n (A : Rmat) i j, (i < m)%nat -> (j < n)%nat ->
  mmul m midentity A i j = A i j /\ mmul n A midentity i j = A i j.
Proof. exact (fun m n A i j Hi Hj => conj (mmul_id_l m A i j Hi) (mmul_id_r n A i j Hj)). Qed.
Print Assumptions C22_identity_neutral.

Theorem C22_transpose : forall n (A B : Rmat) i j,
  mtrans (mmul n A B) i j = mmul n (mtrans B) (mtrans A) i j /\ mtrans (mtrans A) i j = A i j.
Proof. exact (fun n A B i j => conj (mtrans_mul n A B i j) (mtrans_mtrans A i j)). Qed.
Print Assumptions C22_transpose.

Theorem C22_product_is_composition : forall n p (A B : Rmat) (x : Rvec) i,
  mvmul p (mmul n A B) x i = mvmul n A (mvmul p B x) i.
Proof. exact mvmul_mul. Qed.
Print Assumptions C22_product_is_composition.

Theorem C22_linear : forall n (A B : Rmat) (x : Rvec) (s : R) i j,
  msub A B i j = madd A (mopp B) i j /\ madd A (mopp A) i j = 0 /\
  mmul n (@mscale RNum s A) B i j = @mscale RNum s (mmul n A B) i j /\ mmul n A (@mscale RNum s B) i j = @mscale RNum s (mmul n A B) i j /\
  mmul n (mopp A) B i j = mopp (mmul n A B) i j /\
  mvmul n (msub A B) x i = mvmul n A x i - mvmul n B x i /\
  mvmul n (@mscale RNum s A) x i = s * mvmul n A x i /\
  (s <> 0 -> @mscale RNum s (@mdivs RNum A s) i j = A i j /\ @mdivs RNum (@mscale RNum s A) s i j = A i j).
Proof. exact mat_linear. Qed.
Print Assumptions C22_linear.

(** the row-major storage used by the code: in range, and no two entries share a place *)
Theorem C22_storage : forall m n i j i' j', (i < m -> j < n -> i' < m -> j' < n ->
  flat n i j < m * n /\ (flat n i j = flat n i' j' -> i = i' /\ j = j'))%nat.
Proof. exact (fun m n i j i' j' Hi Hj Hi' Hj' => conj (flat_lt m n i j Hi Hj) (flat_inj n i j i' j' Hj Hj')). Qed.
Print Assumptions C22_storage.

Example C22_example : mmul 3 exA exB 1%nat 1%nat = 1 * 1 + 3 * 4 + 5 * 7.
Proof. exact ex_mul. Qed.

(** C23 *)
Theorem C23_valid_iff_det : forall A : Rmat2, s2_valid (make_solver2 A) = true <-> m00 A * m11 A - m01 A * m10 A <> 0.
Proof. exact valid2_iff. Qed.
Print Assumptions C23_valid_iff_det.

Theorem C23_solve : forall (A : Rmat2) (b : Rv), m00 A * m11 A - m01 A * m10 A <> 0 ->
  exists x, solve2 (make_solver2 A) b = Ret x /\ m2_mulv A x = b /\ forall y, m2_mulv A y = b -> y = x.
Proof. exact solve2_spec. Qed.
Print Assumptions C23_solve.

Theorem C23_singular_throws : forall (A : Rmat2) (b : Rv), m00 A * m11 A - m01 A * m10 A = 0 ->
  solve2 (make_solver2 A) b = Throw /\ invert2 A = Throw.
Proof. exact (fun A b H => conj (solve2_throws A b H) (invert2_throws A H)). Qed.
Print Assumptions C23_singular_throws.

Theorem C23_invert : forall A : Rmat2, m00 A * m11 A - m01 A * m10 A <> 0 ->
  exists B, invert2 A = Ret B /\ m2_mul A B = m2_identity /\ m2_mul B A = m2_identity.
Proof. exact invert2_spec. Qed.
Print Assumptions C23_invert.

Example C23_example : det2 (rm2 2 1 1 3) <> 0 /\ solve2 (make_solver2 (rm2 2 1 1 3)) (rv 3 5) = Ret (rv (4 / 5) (7 / 5)).
Proof. exact ex_solve2. Qed.

(** C24: [independent n A] says that A x = 0 only for x = 0 *)
Theorem C24_valid_iff_independent : forall n (A : Rmat), qr_valid (qr_solver n A) = true <-> independent n A.
Proof. exact qr_valid_iff. Qed.
Print Assumptions C24_valid_iff_independent.

Theorem C24_solve : forall n (A : Rmat) (b : Rvec), independent n A ->
  exists x, qr_solve n (qr_solver n A) b = Ret x /\
    (forall i, (i < n)%nat -> mvmul n A x i = b i) /\
    forall y : Rvec, (forall i, (i < n)%nat -> mvmul n A y i = b i) -> forall i, (i < n)%nat -> y i = x i.
Proof. exact qr_solve_spec. Qed.
Print Assumptions C24_solve.

Theorem C24_singular_throws : forall n (A : Rmat) (b : Rvec), ~ independent n A -> qr_solve n (qr_solver n A) b = Throw.
Proof. exact qr_solve_throws. Qed.
Print Assumptions C24_singular_throws.

(** original() gives back A; QT_ has orthonormal rows; R_ is upper triangular *)
Theorem C24_factors : forall n (A : Rmat) s, qr_solver n A = Some s ->
  (forall i j, (i < n)%nat -> (j < n)%nat -> qr_original n s i j = A i j) /\
  orthonormal n n (qr_QT s) /\
  (forall i j, (j < i)%nat -> qr_R s i j = 0) /\ (forall i, (i < n)%nat -> qr_R s i i <> 0).
Proof. exact qr_factors. Qed.
Print Assumptions C24_factors.

Theorem C24_invert : forall n (A : Rmat), independent n A ->
  exists B, qr_invert n A = Ret B /\
    (forall i j, (i < n)%nat -> (j < n)%nat -> mmul n A B i j = @midentity RNum i j) /\
    (forall i j, (i < n)%nat -> (j < n)%nat -> mmul n B A i j = @midentity RNum i j).
Proof. exact qr_invert_spec. Qed.
Print Assumptions C24_invert.

Example C24_example : independent 3 ex_perm.
Proof. exact ex_indep. Qed.
Example C24_example_singular : ~ independent 2 (fun i j => INR (i + 1) * INR (j + 1)).
Proof. exact ex_dep. Qed.

(** C25 *)
Theorem C25_lcp : forall (A : Rmat2) (b : Rv), spd A ->
  exists x, lcp_solve (make_lcp A) b = Ret x /\ lcp_solution A b x /\ forall y, lcp_solution A b y -> y = x.
Proof. exact lcp_spec. Qed.
Print Assumptions C25_lcp.

Theorem C25_not_positive_definite_refuted : exists (A : Rmat2) (b x : Rv),
  m01 A = m10 A /\ s2_valid (lcp_s (make_lcp A)) = true /\
  lcp_solve (make_lcp A) b = Ret x /\ ~ lcp_solution A b x.
Proof. exact lcp_not_pd. Qed.
Print Assumptions C25_not_positive_definite_refuted.

Example C25_example : spd (rm2 2 1 1 2).
Proof. exact ex_spd. Qed.
Example C25_example_boundary : lcp_solve (make_lcp (rm2 2 1 1 2)) (rv 2 (-4)) = Ret (rv 1 0).
Proof. exact ex_lcp. Qed.

(** C26: the result is one projected sweep away from a point within epsilon of it *)
Theorem C26_fixed_point : forall fuel n (A : Rmat) (b : Rvec) proj guess epsilon (x : Rvec),
  solveInequalities fuel n A b proj guess epsilon = Ret x ->
  exists y, is_sweep n A b proj y x /\ forall k, (k < n)%nat -> Rabs (x k - y k) <= epsilon.
Proof. exact solveInequalities_spec. Qed.
Print Assumptions C26_fixed_point.

(** what an exact fixed point means when nothing is projected *)
Theorem C26_exact_fixed_point_solves : forall n (A : Rmat) (b x : Rvec), (forall i, (i < n)%nat -> A i i <> 0) ->
  is_sweep n A b (fun z i => z i) x x -> forall i, (i < n)%nat -> mvmul n A x i = b i.
Proof. exact sweep_fixed. Qed.
Print Assumptions C26_exact_fixed_point_solves.

(** a regular 2x2 matrix with diagonal (1, 1), no projection: no number of sweeps suffices *)
Theorem C26_never_returns : forall fuel,
  solveInequalities (N := RNum) fuel 2 div_A div_b (fun z i => z i) div_x keps = Fuel /\
  solveInequalities (N := F32) fuel 2 div_A div_b (fun z i => z i) div_x keps = Fuel.
Proof. exact (fun fuel => conj (diverges_R fuel) (diverges_F32 fuel)). Qed.
Print Assumptions C26_never_returns.

Example C26_example : exists x, solveInequalities (N := RNum) 2 1 (fun _ _ => 2) (fun _ => 4) (fun z i => @kmax RNum 0 (z i)) (fun _ => 0) keps = Ret x /\ x 0%nat = 2.
Proof. exact ex_gs. Qed.
