(** Model of include/Simu/math/Matrix.hpp and Matrix.inl.hpp: matrices of any
    dimensions, the linear solvers, the projected Gauss-Seidel iteration and the
    two-contact complementarity solver.

    Matrix<T, m, n> stores m*n values in row-major order and reads
    data[row * nCols + col] (Matrix.inl.hpp:41-51).  The model indexes by (row,
    col); [flat] is that index, and [MatFacts.flat_lt]/[flat_inj] justify the
    change of representation.  Entries outside the dimensions are meaningless.
    T is one arithmetic type ([K]); mixed element types are not modelled. *)
From Coq Require Import ZArith List Bool.
From Verif Require Import Num Outcome Box.
Local Open Scope num_scope.

Section Model.
Context {N : Num}.

Definition vec := nat -> K.
Definition mat := nat -> nat -> K.

(** MatrixData::operator()(row, col), Matrix.inl.hpp:41-51 *)
Definition flat (nCols row col : nat) : nat := (row * nCols + col)%nat.

(** assignment to one entry *)
Definition vset (v : vec) (i : nat) (x : K) : vec := fun j => if Nat.eqb j i then x else v j.
Definition mset (A : mat) (i j : nat) (x : K) : mat :=
  fun i' j' => if Nat.eqb i' i && Nat.eqb j' j then x else A i' j'.

(** an accumulation loop [s = 0; for (k = 0; k < n; ++k) s += f(k);] *)
Fixpoint ksum (n : nat) (f : nat -> K) : K :=
  match n with O => k0 | S n => ksum n f + f n end.

(** identity, Matrix.inl.hpp:68-75 *)
Definition midentity : mat := fun i j => if Nat.eqb i j then k1 else k0.
(** diagonal, Matrix.inl.hpp:77-85 *)
Definition mdiagonal (d : vec) : mat := fun i j => if Nat.eqb i j then d i else k0.
(** operator+, operator-, unary -, scalar product, Matrix.inl.hpp:230-322 *)
Definition madd (A B : mat) : mat := fun i j => A i j + B i j.
Definition msub (A B : mat) : mat := fun i j => A i j - B i j.
Definition mopp (A : mat) : mat := fun i j => - A i j.
Definition mscale (s : K) (A : mat) : mat := fun i j => A i j * s.
Definition mdivs (A : mat) (s : K) : mat := fun i j => A i j / s.
(** operator*, Matrix.inl.hpp:324-341; [n] is lhs.nCols *)
Definition mmul (n : nat) (A B : mat) : mat := fun i j => ksum n (fun k => A i k * B k j).
(** transpose, Matrix.inl.hpp:344-357 *)
Definition mtrans (A : mat) : mat := fun i j => A j i.
(** matrix times vector: the same operator* with one column *)
Definition mvmul (n : nat) (A : mat) (x : vec) : vec := fun i => ksum n (fun k => A i k * x k).

(** dot, normSquared, norm, Matrix.inl.hpp:590-612 *)
Definition ndot (n : nat) (x y : vec) : K := ksum n (fun i => x i * y i).
Definition nnorm (n : nat) (x : vec) : K := ksqrt (ndot n x x).

(** ** Solver<T, n>, Matrix.hpp:213-241, Matrix.inl.hpp:408-459 *)

(** The inner loop over nextCol (lines 428-432), [m] iterations from [next].
    [Q] maps a column number to the column. *)
Fixpoint qr_inner (n m col next : nat) (Q : nat -> vec) (Rm : mat) : (nat -> vec) * mat :=
  match m with
  | O => (Q, Rm)
  | S m =>
      let r := ndot n (Q col) (Q next) in
      let Rm := mset Rm col next r in
      let q := fun i => Q next i - Q col i * r in
      qr_inner n m col (S next) (fun j => if Nat.eqb j next then q else Q j) Rm
  end.
(** The loop over col (lines 417-433), [m] iterations from [col]; [None] is
    the early return with isValid_ = false. *)
Fixpoint qr_outer (n m col : nat) (Q : nat -> vec) (Rm : mat) : option ((nat -> vec) * mat) :=
  match m with
  | O => Some (Q, Rm)
  | S m =>
      let r := nnorm n (Q col) in
      let Rm := mset Rm col col r in
      if r =? k0 then None
      else
        let qc := fun i => Q col i / r in
        let Q := fun j => if Nat.eqb j col then qc else Q j in
        let '(Q, Rm) := qr_inner n (n - S col) col (S col) Q Rm in
        qr_outer n m (S col) Q Rm
  end.
(** The constructor (lines 408-436): QT_ and R_, or an invalid solver. *)
Record qr := Qr { qr_QT : mat; qr_R : mat }.
Definition qr_solver (n : nat) (A : mat) : option qr :=
  match qr_outer n n 0 (fun j i => A i j) (fun _ _ => k0) with
  | Some (Q, Rm) => Some (Qr (fun i j => Q i j) Rm)
  | None => None
  end.
(** isValid, Matrix.hpp:234 *)
Definition qr_valid (s : option qr) : bool := match s with Some _ => true | None => false end.
(** The back substitution, Matrix.inl.hpp:448-456: [row] counts down. *)
Fixpoint back_inner (m col row : nat) (Rm : mat) (x : vec) (c : K) : K :=
  match m with
  | O => c
  | S m => back_inner m (S col) row Rm x (c - Rm row col * x col)
  end.
Fixpoint back (n row : nat) (Rm : mat) (c x : vec) : vec :=
  match row with
  | O => x
  | S r =>
      let cr := back_inner (n - row) row r Rm x (c r) in
      back n r Rm c (vset x r (cr / Rm r r))
  end.
(** solve, Matrix.inl.hpp:438-459 *)
Definition qr_solve (n : nat) (s : option qr) (b : vec) : outcome vec :=
  match s with
  | None => Throw
  | Some s => Ret (back n n (qr_R s) (mvmul n (qr_QT s) b) (fun _ => k0))
  end.
(** original, Matrix.hpp:232 *)
Definition qr_original (n : nat) (s : qr) : mat := mmul n (mtrans (qr_QT s)) (qr_R s).

(** ** Solver<T, 2>, Matrix.inl.hpp:360-400 *)
Record mat2 := M2 { m00 : K; m01 : K; m10 : K; m11 : K }.
(** a 2x2 matrix times a vector (operator*, lines 324-341) *)
Definition m2_mulv (A : mat2) (x : vec2) : vec2 :=
  V2 (k0 + m00 A * vx x + m01 A * vy x) (k0 + m10 A * vx x + m11 A * vy x).
Definition m2_mul (A B : mat2) : mat2 :=
  M2 (k0 + m00 A * m00 B + m01 A * m10 B) (k0 + m00 A * m01 B + m01 A * m11 B)
     (k0 + m10 A * m00 B + m11 A * m10 B) (k0 + m10 A * m01 B + m11 A * m11 B).
Definition m2_identity : mat2 := M2 k1 k0 k0 k1.
Record solver2 := S2 { s2_A : mat2; s2_invDet : K; s2_valid : bool }.
Definition make_solver2 (A : mat2) : solver2 :=
  let d := m00 A * m11 A - m01 A * m10 A in
  let valid := negb (d =? k0) in
  S2 A (if valid then k1 / d else d) valid.
Definition solve2 (s : solver2) (b : vec2) : outcome vec2 :=
  if s2_valid s then
    let A := s2_A s in
    Ret (vscale (s2_invDet s)
           (V2 (vx b * m11 A - m01 A * vy b) (m00 A * vy b - vx b * m10 A)))
  else Throw.
(** invert, Matrix.inl.hpp:462-472: the columns of the identity are solved for *)
Definition invert2 (A : mat2) : outcome mat2 :=
  let s := make_solver2 A in
  (let* c0 := solve2 s (V2 k1 k0) in
   let* c1 := solve2 s (V2 k0 k1) in
   Ret (M2 (vx c0) (vx c1) (vy c0) (vy c1)))%out.
(** the generic invert, with the QR solver *)
Fixpoint invert_cols (n m col : nat) (s : option qr) (C : mat) : outcome mat :=
  match m with
  | O => Ret C
  | S m =>
      (let* x := qr_solve n s (fun i => midentity i col) in
       invert_cols n m (S col) s (fun i j => if Nat.eqb j col then x i else C i j))%out
  end.
Definition qr_invert (n : nat) (A : mat) : outcome mat := invert_cols n n 0 (qr_solver n A) midentity.

(** ** LcpSolver, Matrix.inl.hpp:536-577 *)
Record lcp := Lcp { lcp_s : solver2; lcp_inv0 : K; lcp_inv1 : K }.
Definition make_lcp (A : mat2) : lcp :=
  let s := make_solver2 A in
  Lcp (S2 (s2_A s) (s2_invDet s) (s2_valid s && negb (m00 A =? k0) && negb (m11 A =? k0)))
      (k1 / m00 A) (k1 / m11 A).
Definition lcp_solve (l : lcp) (b : vec2) : outcome vec2 :=
  (let* x := solve2 (lcp_s l) b in
   if vall_ge x (V2 k0 k0) then Ret x else
   let A := s2_A (lcp_s l) in
   let x0 := vx b * lcp_inv0 l in
   if (k0 <=? x0) && (k0 <=? x0 * m10 A - vy b) then Ret (V2 x0 k0) else
   let x1 := vy b * lcp_inv1 l in
   if (k0 <=? x1) && (k0 <=? x1 * m01 A - vx b) then Ret (V2 k0 x1) else
   Ret (V2 k0 k0))%out.

(** ** solveInequalities, Matrix.inl.hpp:475-512 *)

(** the sum over the other columns (lines 494-498) *)
Fixpoint gs_sum (m col : nat) (A : mat) (row : nat) (x : vec) (acc : K) : K :=
  match m with O => acc | S m => gs_sum m (S col) A row x (acc + A row col * x col) end.
(** one row (lines 492-507); [b] is already negated *)
Definition gs_row (n : nat) (A : mat) (b : vec) (proj : vec -> nat -> K) (row : nat) (x : vec) : K :=
  let s := gs_sum row 0 A row x k0 in
  let s := gs_sum (n - S row) (S row) A row x s in
  let d := - (s + b row) / A row row in
  proj (vset x row d) row.
(** the for loop, [m] rows from [row] *)
Fixpoint gs_sweep (n m row : nat) (A : mat) (b : vec) (proj : vec -> nat -> K) (eps : K) (x : vec) : K * vec :=
  match m with
  | O => (eps, x)
  | S m =>
      let d := gs_row n A b proj row x in
      gs_sweep n m (S row) A b proj (kmax eps (kabs (d - x row))) (vset x row d)
  end.
(** the while loop, [fuel] sweeps at most *)
Fixpoint gs_loop (fuel n : nat) (A : mat) (b : vec) (proj : vec -> nat -> K) (epsilon eps : K) (x : vec) : outcome vec :=
  if epsilon <? eps then
    match fuel with
    | O => Fuel
    | S fuel =>
        let '(eps, x) := gs_sweep n n 0 A b proj k0 x in
        gs_loop fuel n A b proj epsilon eps x
    end
  else Ret x.
Definition solveInequalities (fuel n : nat) (A : mat) (b : vec) (proj : vec -> nat -> K) (guess : vec) (epsilon : K) : outcome vec :=
  gs_loop fuel n A (fun i => - b i) proj epsilon (k1 + epsilon) guess.

End Model.
