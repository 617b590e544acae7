(** The 2x2 solver, inverses, the complementarity solver and the projected
    Gauss-Seidel iteration (C23, C25, C26). *)
From Coq Require Import ZArith List Bool Reals Lra Psatz Lia Arith.
From Verif Require Import Num Outcome Box Mat MatFacts.
Local Open Scope R_scope.

Notation Rmat2 := (@mat2 RNum).
Notation Rv := (@vec2 RNum).
Definition det2 (A : Rmat2) : R := m00 A * m11 A - m01 A * m10 A.
Definition rv (x y : R) : Rv := @V2 RNum x y.
Definition rm2 (a b c d : R) : Rmat2 := @M2 RNum a b c d.

Ltac un := unfold m2_mulv, m2_mul, m2_identity, vscale, vsub, vadd, det2, rv, rm2, k0, k1 in *;
           cbn [K kadd ksub kmul kdiv kopp kofZ RNum vx vy m00 m01 m10 m11] in *; change (@K RNum) with R in *.

Lemma valid2_iff (A : Rmat2) : s2_valid (make_solver2 A) = true <-> det2 A <> 0.
Proof.
  unfold make_solver2. cbn [s2_valid]. un. cbn [keqb RNum]. rcmp; cbn; split; auto; try discriminate.
Qed.
Lemma cramer a b c d e f : a * d - b * c <> 0 ->
  a * ((e * d - b * f) * (1 / (a * d - b * c))) + b * ((a * f - e * c) * (1 / (a * d - b * c))) = e /\
  c * ((e * d - b * f) * (1 / (a * d - b * c))) + d * ((a * f - e * c) * (1 / (a * d - b * c))) = f.
Proof. intros H. split; field; exact H. Qed.
Lemma det_unique a b c d x y : a * d - b * c <> 0 -> a * x + b * y = 0 -> c * x + d * y = 0 -> x = 0 /\ y = 0.
Proof.
  intros H E1 E2. split; apply Rmult_eq_reg_l with (a * d - b * c); try exact H.
  - replace ((a * d - b * c) * x) with (d * (a * x + b * y) - b * (c * x + d * y)) by ring. rewrite E1, E2. ring.
  - replace ((a * d - b * c) * y) with (a * (c * x + d * y) - c * (a * x + b * y)) by ring. rewrite E1, E2. ring.
Qed.
Lemma solve2_eq (A : Rmat2) (b : Rv) : det2 A <> 0 -> solve2 (make_solver2 A) b =
  Ret (rv ((vx b * m11 A - m01 A * vy b) * (1 / det2 A)) ((m00 A * vy b - vx b * m10 A) * (1 / det2 A))).
Proof.
  intros H. pose proof (proj2 (valid2_iff A) H) as V. unfold solve2. rewrite V. unfold make_solver2 in *. cbn [s2_valid s2_A s2_invDet] in *.
  rewrite V. reflexivity.
Qed.
Lemma solve2_spec (A : Rmat2) (b : Rv) : det2 A <> 0 ->
  exists x, solve2 (make_solver2 A) b = Ret x /\ m2_mulv A x = b /\ forall y, m2_mulv A y = b -> y = x.
Proof.
  intros H. rewrite solve2_eq by exact H. eexists. split; [reflexivity|].
  destruct A as [a00 a01 a10 a11], b as [b0 b1]. un.
  destruct (cramer a00 a01 a10 a11 b0 b1 H) as [C0 C1]. split; [f_equal; lra|].
  intros [y0 y1] E. injection E as E0 E1. un.
  set (x0 := (b0 * a11 - a01 * b1) * (1 / (a00 * a11 - a01 * a10))) in *.
  set (x1 := (a00 * b1 - b0 * a10) * (1 / (a00 * a11 - a01 * a10))) in *. clearbody x0 x1.
  destruct (det_unique a00 a01 a10 a11 (y0 - x0) (y1 - x1) H) as [Z0 Z1]; [lra|lra|]. f_equal; lra.
Qed.
Lemma solve2_throws (A : Rmat2) (b : Rv) : det2 A = 0 -> solve2 (make_solver2 A) b = Throw.
Proof.
  intros H. unfold solve2. destruct (s2_valid (make_solver2 A)) eqn:V; [|reflexivity]. apply valid2_iff in V. contradiction.
Qed.
Lemma invert2_spec (A : Rmat2) : det2 A <> 0 ->
  exists B, invert2 A = Ret B /\ m2_mul A B = m2_identity /\ m2_mul B A = m2_identity.
Proof.
  intros H. unfold invert2. rewrite !solve2_eq by exact H. cbn [obind]. eexists. split; [reflexivity|].
  destruct A as [a b c d]. un. split; f_equal; field; exact H.
Qed.
Lemma invert2_throws (A : Rmat2) : det2 A = 0 -> invert2 A = Throw.
Proof. intros H. unfold invert2. rewrite solve2_throws by exact H. reflexivity. Qed.

Notation rid := (@midentity RNum).
(** ** invert with the QR solver *)
Lemma invert_cols_spec n (A : Rmat) m : independent n A -> forall col C, (col + m = n)%nat ->
  (forall i j, (i < n)%nat -> (j < col)%nat -> mmul n A C i j = @midentity RNum i j) ->
  exists B, invert_cols n m col (qr_solver n A) C = Ret B /\
    forall i j, (i < n)%nat -> (j < n)%nat -> mmul n A B i j = @midentity RNum i j.
Proof.
  intros IND. induction m as [|m IH]; intros col C HS HC; cbn [invert_cols].
  - exists C. split; [reflexivity|]. intros i j Hi Hj. apply HC; lia.
  - destruct (qr_solve_spec n A (fun i => @midentity RNum i col) IND) as (x & E & SOL & _). rewrite E. cbn [obind].
    apply IH; [lia|]. intros i j Hi Hj. unfold mmul. destruct (Nat.eqb_spec j col) as [->|NE].
    + exact (SOL i Hi).
    + apply HC; lia.
Qed.
Lemma qr_invert_spec n (A : Rmat) : independent n A ->
  exists B, qr_invert n A = Ret B /\
    (forall i j, (i < n)%nat -> (j < n)%nat -> mmul n A B i j = @midentity RNum i j) /\
    (forall i j, (i < n)%nat -> (j < n)%nat -> mmul n B A i j = @midentity RNum i j).
Proof.
  intros IND. destruct (invert_cols_spec n A n IND 0 midentity eq_refl ltac:(intros; lia)) as (B & E & HB).
  exists B. split; [exact E|]. split; [exact HB|]. intros i j Hi Hj.
  assert (Z : mmul n B A i j - rid i j = 0); [|apply Rminus_diag_uniq; exact Z].
  apply (IND (fun k => mmul n B A k j - rid k j)); [|exact Hi]. intros k Hk.
  unfold mvmul. cbn [kmul RNum]. transitivity (mmul n A (mmul n B A) k j - mmul n A rid k j).
  - change (mmul n A (mmul n B A) k j) with (sum n (fun l => A k l * mmul n B A l j)).
    change (mmul n A rid k j) with (sum n (fun l => A k l * rid l j)).
    rewrite <- sum_minus. apply sum_ext. intros; rring.
  - rewrite mmul_id_r by exact Hj. rewrite <- mmul_assoc.
    transitivity (mmul n rid A k j - A k j); [|rewrite mmul_id_l by exact Hk; rring].
    f_equal. change (mmul n (mmul n A B) A k j) with (sum n (fun l => mmul n A B k l * A l j)).
    apply sum_ext. intros l Hl. cbn [kmul RNum]. rewrite HB by assumption. reflexivity.
Qed.
Lemma qr_invert_throws n (A : Rmat) : (0 < n)%nat -> ~ independent n A -> qr_invert n A = Throw.
Proof.
  intros Hn H. unfold qr_invert. destruct n as [|n]; [lia|]. cbn [invert_cols]. rewrite qr_solve_throws by exact H. reflexivity.
Qed.

(** ** LcpSolver (C25) *)
(** symmetric positive definite *)
Definition spd (A : Rmat2) : Prop :=
  m01 A = m10 A /\ forall x : Rv, x <> rv 0 0 -> 0 < vx x * vx (m2_mulv A x) + vy x * vy (m2_mulv A x).
(** the complementarity problem *)
Definition lcp_solution (A : Rmat2) (b x : Rv) : Prop :=
  0 <= vx x /\ 0 <= vy x /\
  0 <= vx (m2_mulv A x) - vx b /\ 0 <= vy (m2_mulv A x) - vy b /\
  vx x * (vx (m2_mulv A x) - vx b) + vy x * (vy (m2_mulv A x) - vy b) = 0.

Lemma spd_minors (A : Rmat2) : spd A -> 0 < m00 A /\ 0 < m11 A /\ 0 < det2 A.
Proof.
  intros [S P]. destruct A as [a b c d]. un. subst c.
  assert (P1 := P (rv 1 0)). assert (P2 := P (rv 0 1)). assert (P3 := P (rv (- b) a)). un.
  assert (A1 : 0 < a). { assert (0 < 1 * (0 + a * 1 + b * 0) + 0 * (0 + b * 1 + d * 0)) by (apply P1; intros E; injection E; lra). lra. }
  assert (A2 : 0 < d). { assert (0 < 0 * (0 + a * 0 + b * 1) + 1 * (0 + b * 0 + d * 1)) by (apply P2; intros E; injection E; lra). lra. }
  split; [exact A1|]. split; [exact A2|].
  assert (X : 0 < - b * (0 + a * - b + b * a) + a * (0 + b * - b + d * a)) by (apply P3; intros E; injection E; lra).
  nra.
Qed.
Lemma lcp_unique a b d e f x0 x1 y0 y1 : 0 < a -> 0 < d -> 0 < a * d - b * b ->
  0 <= x0 -> 0 <= x1 -> 0 <= a * x0 + b * x1 - e -> 0 <= b * x0 + d * x1 - f ->
  x0 * (a * x0 + b * x1 - e) + x1 * (b * x0 + d * x1 - f) = 0 ->
  0 <= y0 -> 0 <= y1 -> 0 <= a * y0 + b * y1 - e -> 0 <= b * y0 + d * y1 - f ->
  y0 * (a * y0 + b * y1 - e) + y1 * (b * y0 + d * y1 - f) = 0 ->
  x0 = y0 /\ x1 = y1.
Proof.
  intros Ha Hd Hdet X0 X1 W0 W1 CX Y0 Y1 V0 V1 CY.
  set (p := x0 - y0). set (q := x1 - y1).
  (* (x-y)^T A (x-y) = (x-y).(w-v) = - x.v - y.w <= 0 *)
  assert (Q : a * (p * p) + 2 * b * (p * q) + d * (q * q) <= 0).
  { assert (M1 := Rmult_le_pos _ _ X0 V0). assert (M2 := Rmult_le_pos _ _ X1 V1).
    assert (M3 := Rmult_le_pos _ _ Y0 W0). assert (M4 := Rmult_le_pos _ _ Y1 W1). unfold p, q. nra. }
  assert (E : a * (a * (p * p) + 2 * b * (p * q) + d * (q * q)) = (a * p + b * q) * (a * p + b * q) + (a * d - b * b) * (q * q)) by ring.
  assert (L : a * (a * (p * p) + 2 * b * (p * q) + d * (q * q)) <= 0) by nra.
  assert (Q0 : q * q = 0).
  { clear - E L Hdet. assert (S1 := Rle_0_sqr q). assert (S2 := Rle_0_sqr (a * p + b * q)). unfold Rsqr in *.
    assert (M : (a * d - b * b) * (q * q) <= 0) by lra. clear - M S1 Hdet. nra. }
  assert (Q1 : q = 0) by (apply Rmult_integral in Q0; tauto).
  assert (P1 : p = 0).
  { clearbody p q. subst q. assert (P2 : a * (p * p) <= 0) by lra. assert (0 <= p * p) by nra. assert (P0 : p * p = 0) by nra.
    apply Rmult_integral in P0. tauto. }
  unfold p, q in *. lra.
Qed.

Lemma inv_mul a b : a <> 0 -> a * (b * (1 / a)) = b. Proof. intros; field; assumption. Qed.
Lemma sign_mul a x : 0 < a -> (0 <= a * x <-> 0 <= x).
Proof. intros H. split; nra. Qed.

Lemma lcp_zero a b d e f x0 x1 z0 z1 : 0 < a -> 0 < d -> 0 < a * d - b * b ->
  a * x0 + b * x1 = e -> b * x0 + d * x1 = f -> a * z0 = e -> d * z1 = f ->
  x0 < 0 \/ x1 < 0 -> z0 < 0 \/ z0 * b - f < 0 -> z1 < 0 \/ z1 * b - e < 0 -> e <= 0 /\ f <= 0.
Proof.
  intros Ha Hd Hdet E0 E1 Z0 Z1 H1 H2 H3.
  assert (N2 : e < 0 \/ 0 < x1).
  { destruct H2 as [H2|H2]; [left; nra|right].
    apply Rmult_lt_reg_l with (a * d - b * b); [exact Hdet|].
    replace ((a * d - b * b) * x1) with (- (a * (z0 * b - f))) by (replace (a * (z0 * b - f)) with (a * z0 * b - a * f) by ring; rewrite Z0; subst e f; ring).
    assert (a * (z0 * b - f) < 0) by (clear - Ha H2; nra). lra. }
  assert (N3 : f < 0 \/ 0 < x0).
  { destruct H3 as [H3|H3]; [left; nra|right].
    apply Rmult_lt_reg_l with (a * d - b * b); [exact Hdet|].
    replace ((a * d - b * b) * x0) with (- (d * (z1 * b - e))) by (replace (d * (z1 * b - e)) with (d * z1 * b - d * e) by ring; rewrite Z1; subst e f; ring).
    assert (d * (z1 * b - e) < 0) by (clear - Hd H3; nra). lra. }
  destruct N2 as [N2|N2], N3 as [N3|N3]; try lra.
  - assert (X1 : x1 < 0) by lra. split; [lra|].
    assert (F : a * f = b * e + (a * d - b * b) * x1) by (subst e f; ring).
    assert (0 < b) by nra. clear - Ha F H N2 X1 Hdet. nra.
  - assert (X0 : x0 < 0) by lra. split; [|lra].
    assert (F : d * e = b * f + (a * d - b * b) * x0) by (subst e f; ring).
    assert (0 < b) by nra. clear - Hd F H N3 X0 Hdet. nra.
Qed.

Lemma lcp_spec (A : Rmat2) (b : Rv) : spd A ->
  exists x, lcp_solve (make_lcp A) b = Ret x /\ lcp_solution A b x /\ forall y, lcp_solution A b y -> y = x.
Proof.
  intros SP. destruct (spd_minors A SP) as (H0 & H1 & HD). destruct SP as [SY _].
  assert (EX : exists x, lcp_solve (make_lcp A) b = Ret x /\ lcp_solution A b x).
  { unfold lcp_solve.
    assert (ES : solve2 (lcp_s (make_lcp A)) b = solve2 (make_solver2 A) b).
    { unfold make_lcp, solve2. cbn [lcp_s s2_valid s2_A s2_invDet]. un. cbn [keqb RNum].
      destruct (Reqb_spec (m00 A) 0); [lra|]. destruct (Reqb_spec (m11 A) 0); [lra|]. rewrite !andb_true_r. reflexivity. }
    assert (ND : det2 A <> 0) by lra.
    destruct (solve2_spec A b ND) as (x & EQ & MX & _). rewrite solve2_eq in EQ by exact ND.
    rewrite ES, solve2_eq by exact ND. injection EQ as EQ. rewrite EQ. cbn [obind].
    destruct A as [a bb c d], b as [e f], x as [x0 x1]. unfold lcp_solution, vall_ge, make_lcp. cbn [lcp_s lcp_inv0 lcp_inv1 s2_A make_solver2]. un. subst c.
    injection MX as MX0 MX1. un. cbn [kltb kleb RNum]. clear EQ ES ND.
    set (z0 := e * (1 / a)) in *. set (z1 := f * (1 / d)) in *.
    assert (Z0 : a * z0 = e) by (apply inv_mul; lra). assert (Z1 : d * z1 = f) by (apply inv_mul; lra). clearbody z0 z1.
    assert (BR1 : negb (Rltb x0 0) && negb (Rltb x1 0) = true \/ (x0 < 0 \/ x1 < 0)).
    { destruct (Rltb_spec x0 0), (Rltb_spec x1 0); auto. }
    assert (BR1' : negb (Rltb x0 0) && negb (Rltb x1 0) = true -> 0 <= x0 /\ 0 <= x1).
    { destruct (Rltb_spec x0 0), (Rltb_spec x1 0); cbn; intros; try discriminate; lra. }
    destruct (negb (Rltb x0 0) && negb (Rltb x1 0)).
    { destruct (BR1' eq_refl). eexists. split; [reflexivity|]. un. repeat split; try lra; nra. }
    destruct BR1 as [?|BR1]; [discriminate|]. clear BR1'.
    destruct (Rleb_spec 0 z0) as [A0|A0], (Rleb_spec 0 (z0 * bb - f)) as [A1|A1]; cbn [andb].
    { eexists. split; [reflexivity|]. un. repeat split; try lra; nra. }
    all: assert (BR2 : z0 < 0 \/ z0 * bb - f < 0) by lra; clear A0 A1.
    all: destruct (Rleb_spec 0 z1) as [B0|B0], (Rleb_spec 0 (z1 * bb - e)) as [B1|B1]; cbn [andb].
    all: try (eexists; split; [reflexivity|]; un; repeat split; try lra; nra).
    all: assert (BR3 : z1 < 0 \/ z1 * bb - e < 0) by lra; clear B0 B1.
    all: destruct (lcp_zero a bb d e f x0 x1 z0 z1) as [E F]; try assumption; try lra.
    all: eexists; split; [reflexivity|]; un; repeat split; lra. }
  destruct EX as (x & E & SX). exists x. split; [exact E|]. split; [exact SX|].
  intros y SOL. destruct A as [a bb c d], b as [e f], x as [x0 x1], y as [y0 y1]. unfold lcp_solution in *. un. subst c.
  destruct SX as (X0 & X1 & W0 & W1 & CX), SOL as (Y0 & Y1 & V0 & V1 & CY).
  destruct (lcp_unique a bb d e f y0 y1 x0 x1) as [-> ->]; try assumption; try lra. reflexivity.
Qed.

(** symmetric matrices that are not positive definite: zero is returned although it is no solution *)
Lemma lcp_not_pd : exists (A : Rmat2) (b x : Rv), m01 A = m10 A /\ s2_valid (lcp_s (make_lcp A)) = true /\
  lcp_solve (make_lcp A) b = Ret x /\ ~ lcp_solution A b x.
Proof.
  exists (rm2 (-1) 0 0 (-1)), (rv 1 1), (rv 0 0). split; [reflexivity|].
  assert (V : s2_valid (lcp_s (make_lcp (rm2 (-1) 0 0 (-1)))) = true).
  { unfold make_lcp, make_solver2. cbn [lcp_s s2_valid]. un. cbn [keqb RNum]. rcmp; try lra; reflexivity. }
  split; [exact V|]. split.
  - unfold lcp_solve, solve2. rewrite V. cbn [obind]. unfold make_lcp, make_solver2, vall_ge. cbn [lcp_s lcp_inv0 lcp_inv1 s2_A s2_valid s2_invDet]. un.
    cbn [keqb kltb kleb RNum]. destruct (Reqb_spec (-1 * -1 - 0 * 0) 0); [lra|]. cbn [negb].
    rcmp; cbn [andb negb]; try reflexivity; exfalso; lra.
  - intros (_ & _ & H & _). un. lra.
Qed.

(** ** solveInequalities (C26) *)
From Coq Require Import FunctionalExtensionality.

(** the vector seen by the row: rows before it are already updated *)
Definition mixed (row : nat) (x y : Rvec) : Rvec := fun k => if Nat.ltb k row then x k else y k.
(** the Gauss-Seidel value of a row of A x = b *)
Definition gs_value (n : nat) (A : Rmat) (b : Rvec) (row : nat) (z : Rvec) : R :=
  (b row - sum n (fun k => if Nat.eqb k row then 0 else A row k * z k)) / A row row.
(** [x] results from [y] by one projected sweep *)
Definition is_sweep (n : nat) (A : Rmat) (b : Rvec) (proj : Rvec -> nat -> R) (y x : Rvec) : Prop :=
  forall row, (row < n)%nat ->
    x row = proj (vset (mixed row x y) row (gs_value n A b row (mixed row x y))) row.

Lemma gs_sum_spec m : forall col (A : Rmat) row (x : Rvec) acc,
  gs_sum m col A row x acc = acc + sum m (fun k => A row (col + k)%nat * x (col + k)%nat).
Proof.
  induction m as [|m IH]; intros col A row x acc; cbn [gs_sum]; [rewrite sum_0; rring|].
  rewrite IH. rewrite (sum_skip m 0) by lia. rewrite Nat.add_0_r.
  rewrite (sum_ext m (fun i => A row (col + skip 0 i)%nat * x (col + skip 0 i)%nat) (fun k => A row (S col + k)%nat * x (S col + k)%nat)).
  2:{ intros k _. rewrite skip_ge by lia. replace (col + S k)%nat with (S col + k)%nat by lia. reflexivity. }
  rring.
Qed.
Lemma gs_row_spec n (A : Rmat) (b : Rvec) proj row (x : Rvec) : (row < n)%nat ->
  gs_row n A (fun i => kopp (b i)) proj row x = proj (vset x row (gs_value n A b row x)) row.
Proof.
  intros H. unfold gs_row. f_equal. f_equal. rewrite !gs_sum_spec. unfold gs_value.
  assert (E : sum n (fun k => if Nat.eqb k row then 0 else A row k * x k) =
              sum row (fun k => A row k * x k) + sum (n - S row) (fun k => A row (S row + k)%nat * x (S row + k)%nat)).
  { replace n with (row + S (n - S row))%nat at 1 by lia. rewrite sum_split. f_equal.
    - apply sum_ext. intros k Hk. rewrite eqb_f by lia. reflexivity.
    - rewrite (sum_skip _ 0) by lia. rewrite Nat.add_0_r, Nat.eqb_refl, Rplus_0_l. apply sum_ext. intros k Hk.
      rewrite skip_ge by lia. rewrite eqb_f by lia. replace (row + S k)%nat with (S row + k)%nat by lia. reflexivity. }
  rewrite E. cbn [Nat.add]. set (s1 := sum row _). set (s2 := sum (n - S row) _). clearbody s1 s2. rcbn. unfold Rdiv. f_equal. ring.
Qed.
Lemma gs_sweep_spec n (A : Rmat) (b : Rvec) proj m : forall row eps (x x' : Rvec) e', (row + m = n)%nat ->
  gs_sweep n m row A (fun i => kopp (b i)) proj eps x = (e', x') ->
  (forall k, (k < row)%nat -> x' k = x k) /\ eps <= e' /\
  forall k, (row <= k < n)%nat -> Rabs (x' k - x k) <= e' /\
    x' k = proj (vset (mixed k x' x) k (gs_value n A b k (mixed k x' x))) k.
Proof.
  induction m as [|m IH]; intros row eps x x' e' HS; cbn [gs_sweep]; intros E.
  - injection E as <- <-. split; [reflexivity|]. split; [apply Rle_refl|]. intros; lia.
  - apply IH in E; [|lia]. destruct E as (LOW & EPS & HI).
    assert (MAX : eps <= e' /\ Rabs (x' row - x row) <= e').
    { rewrite (LOW row) by lia. unfold vset at 1. rewrite Nat.eqb_refl. unfold kmax in EPS. rcbn. cbn [kltb kabs RNum] in EPS.
      rcmp; lra. }
    assert (OTH : forall k, k <> row -> (k <= row)%nat -> x' k = x k).
    { intros k NE Hk. rewrite LOW by lia. unfold vset. rewrite eqb_f by exact NE. reflexivity. }
    split; [intros k Hk; apply OTH; lia|]. split; [tauto|]. intros k Hk.
    destruct (Nat.eq_dec k row) as [->|NE].
    + split; [tauto|]. rewrite (LOW row) at 1 by lia. unfold vset at 1. rewrite Nat.eqb_refl.
      assert (EX : mixed row x' x = x).
      { apply functional_extensionality. intros k. unfold mixed. destruct (Nat.ltb_spec k row) as [L|L]; [|reflexivity]. apply OTH; lia. }
      rewrite EX. apply gs_row_spec. lia.
    + destruct (HI k ltac:(lia)) as [HA HB].
      assert (EK : vset x row (gs_row n A (fun i => kopp (b i)) proj row x) k = x k) by (unfold vset; rewrite eqb_f by exact NE; reflexivity).
      rewrite EK in HA. split; [exact HA|]. rewrite HB at 1.
      assert (EX : mixed k x' (vset x row (gs_row n A (fun i => kopp (b i)) proj row x)) = mixed k x' x).
      { apply functional_extensionality. intros j. unfold mixed. destruct (Nat.ltb_spec j k) as [L|L]; [reflexivity|].
        unfold vset. rewrite eqb_f by lia. reflexivity. }
      rewrite EX. reflexivity.
Qed.
Lemma gs_loop_spec n (A : Rmat) (b : Rvec) proj epsilon fuel : forall eps (x x' : Rvec), epsilon < eps ->
  gs_loop fuel n A (fun i => kopp (b i)) proj epsilon eps x = Ret x' ->
  exists y, is_sweep n A b proj y x' /\ forall k, (k < n)%nat -> Rabs (x' k - y k) <= epsilon.
Proof.
  induction fuel as [|fuel IH]; intros eps x x' HE; cbn [gs_loop]; cbn [kltb RNum].
  - destruct (Rltb_spec epsilon eps); [discriminate|lra].
  - destruct (Rltb_spec epsilon eps); [|lra].
    destruct (gs_sweep n n 0 A (fun i => kopp (b i)) proj k0 x) as [e y] eqn:ES.
    destruct (gs_sweep_spec n A b proj n 0 _ _ _ _ eq_refl ES) as (_ & _ & H). intros E.
    destruct (Rlt_dec epsilon e) as [L|L]; [exact (IH _ _ _ L E)|].
    assert (y = x') as ->.
    { destruct fuel; cbn [gs_loop] in E; cbn [kltb RNum] in E; destruct (Rltb_spec epsilon e); try contradiction; congruence. }
    exists x. split.
    + intros row Hr. apply H. lia.
    + intros k Hk. destruct (H k ltac:(lia)). lra.
Qed.
Lemma solveInequalities_spec fuel n (A : Rmat) (b : Rvec) proj guess epsilon (x : Rvec) :
  solveInequalities fuel n A b proj guess epsilon = Ret x ->
  exists y, is_sweep n A b proj y x /\ forall k, (k < n)%nat -> Rabs (x k - y k) <= epsilon.
Proof. unfold solveInequalities. apply gs_loop_spec. rcbn. lra. Qed.
(** an exact fixed point of the sweep without projection solves the system *)
Lemma sweep_fixed n (A : Rmat) (b x : Rvec) : (forall i, (i < n)%nat -> A i i <> 0) ->
  is_sweep n A b (fun z i => z i) x x -> forall i, (i < n)%nat -> mvmul n A x i = b i.
Proof.
  intros D H i Hi. specialize (H i Hi). unfold vset in H. rewrite Nat.eqb_refl in H.
  assert (EX : mixed i x x = x) by (apply functional_extensionality; intros k; unfold mixed; destruct (Nat.ltb k i); reflexivity).
  rewrite EX in H. unfold gs_value in H. unfold mvmul. destruct n as [|n]; [lia|].
  assert (S : sum (S n) (fun k => A i k * x k) = A i i * x i + sum (S n) (fun k => if Nat.eqb k i then 0 else A i k * x k)).
  { rewrite (sum_skip n i (fun k => if Nat.eqb k i then 0 else A i k * x k)) by lia. rewrite Nat.eqb_refl, (sum_skip n i) by lia.
    rewrite Rplus_0_l. f_equal. apply sum_ext. intros k Hk. rewrite eqb_f; [reflexivity|]. unfold skip. destruct (Nat.ltb_spec k i); lia. }
  cbn [kmul RNum]. rewrite S. set (s := sum (Datatypes.S n) _) in *. clearbody s. rewrite H at 1. specialize (D i Hi). rfield. exact D.
Qed.

(** A matrix with non-zero diagonal on which the iteration never stops: the
    iterates alternate between (1, 1) and (-1, -1). *)
Section Diverge.
Context {N : Num}.
Definition div_A : mat := fun i j =>
  match i, j with O, O => k1 | O, S O => k1 | S O, O => kopp k1 | S O, S O => k1 | _, _ => k0 end.
Definition div_b : vec := fun _ => k0.
Definition div_x : vec := fun _ => k1.
Lemma div_sweep (x : vec) (b : vec) : exists y,
  let d0 := kdiv (kopp (kadd (kadd k0 (kmul k1 (x 1%nat))) (b 0%nat))) k1 in
  let d1 := kdiv (kopp (kadd (kadd k0 (kmul (kopp k1) d0)) (b 1%nat))) k1 in
  gs_sweep 2 2 0 div_A b (fun z i => z i) k0 x =
    (kmax (kmax k0 (kabs (ksub d0 (x 0%nat)))) (kabs (ksub d1 (x 1%nat))), y) /\ y 0%nat = d0 /\ y 1%nat = d1.
Proof. eexists. cbv zeta. split; [reflexivity|]. split; reflexivity. Qed.
Lemma div_loop epsilon :
  (forall c, c = k1 \/ c = kopp k1 ->
     let d0 := kdiv (kopp (kadd (kadd k0 (kmul k1 c)) (kopp k0))) k1 in
     let d1 := kdiv (kopp (kadd (kadd k0 (kmul (kopp k1) d0)) (kopp k0))) k1 in
     (d0 = k1 \/ d0 = kopp k1) /\ d1 = d0 /\
     kltb epsilon (kmax (kmax k0 (kabs (ksub d0 c))) (kabs (ksub d1 c))) = true) ->
  forall fuel eps (x : vec), kltb epsilon eps = true -> x 0%nat = x 1%nat -> x 1%nat = k1 \/ x 1%nat = kopp k1 ->
  gs_loop fuel 2 div_A (fun i => kopp (div_b i)) (fun z i => z i) epsilon eps x = Fuel.
Proof.
  intros H. induction fuel as [|fuel IH]; intros eps x HE H01 HC; cbn [gs_loop]; rewrite HE; [reflexivity|].
  destruct (div_sweep x (fun i => kopp (div_b i))) as (y & ES & Y0 & Y1). rewrite ES. clear ES.
  destruct (H _ HC) as (D & D1 & L). unfold div_b in *. apply IH.
  - rewrite H01. exact L.
  - rewrite Y0, Y1, D1. reflexivity.
  - rewrite Y1, D1. exact D.
Qed.
End Diverge.
Lemma diverges_R : forall fuel, solveInequalities (N := RNum) fuel 2 div_A div_b (fun z i => z i) div_x keps = Fuel.
Proof.
  intros fuel. apply div_loop.
  - intros c HC. cbv zeta.
    set (d0 := kdiv (kopp (kadd (kadd k0 (kmul k1 c)) (kopp k0))) k1).
    set (d1 := kdiv (kopp (kadd (kadd k0 (kmul (kopp k1) d0)) (kopp k0))) k1).
    assert (E0 : d0 = - c) by (unfold d0; rcbn; field).
    assert (E1 : d1 = d0) by (unfold d1; rcbn; field). rewrite E1, E0. clear d0 d1 E0 E1.
    split; [destruct HC as [-> | ->]; rcbn; [right|left]; lra|]. split; [reflexivity|].
    unfold kmax, keps. cbn [kltb kabs ksub kdiv kofZ RNum k0]. rcbn.
    assert (A : Rabs (- c - c) = 2). { destruct HC as [-> | ->]; rcbn; unfold Rabs; destruct (Rcase_abs _); lra. }
    rewrite A. rcmp; try reflexivity; lra.
  - unfold keps. cbn [kltb kdiv kofZ RNum]. rcbn. rcmp; [reflexivity|lra].
  - reflexivity.
  - left. reflexivity.
Qed.
Lemma diverges_F32 : forall fuel, solveInequalities (N := F32) fuel 2 div_A div_b (fun z i => z i) div_x keps = Fuel.
Proof.
  intros fuel. apply div_loop.
  - assert (Q : forall x y : @K F32, BinarySingleNaN.B2SF (x : f32) = BinarySingleNaN.B2SF (y : f32) -> x = y)
      by (intros x y; apply BinarySingleNaN.B2SF_inj).
    intros c [-> | ->]; split; [right| |left|]; try split; try (apply Q; vm_compute; reflexivity); vm_compute; reflexivity.
  - vm_compute. reflexivity.
  - reflexivity.
  - left. reflexivity.
Qed.
