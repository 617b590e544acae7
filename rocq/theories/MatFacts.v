(** Proofs about matrices and solvers in exact arithmetic (C22-C26). *)
From Coq Require Import ZArith List Bool Reals Lra Psatz Lia Arith.
From Verif Require Import Num Outcome Box Mat.
Local Open Scope R_scope.

Notation Rvec := (@vec RNum).
Notation Rmat := (@mat RNum).
Notation sum := (@ksum RNum).
Notation dot := (@ndot RNum).

Ltac rcbn := cbn [K kadd ksub kmul kdiv kopp kofZ RNum k0 k1] in *; change (@K RNum) with R in *.
Ltac rring := rcbn; (ring || (apply Rminus_diag_uniq; ring)).
Ltac rfield := rcbn; (field || (apply Rminus_diag_uniq; field)).
Ltac rlra := rcbn; lra.

(** row-major storage: distinct entries are stored at distinct in-range places *)
Lemma flat_lt m n i j : (i < m -> j < n -> flat n i j < m * n)%nat.
Proof. unfold flat. nia. Qed.
Lemma flat_inj n i j i' j' : (j < n -> j' < n -> flat n i j = flat n i' j' -> i = i' /\ j = j')%nat.
Proof. unfold flat. intros H H' E. assert (i = i') by nia. subst. lia. Qed.

(** ** Sums *)
Lemma sum_S n f : sum (S n) f = sum n f + f n. Proof. reflexivity. Qed.
Lemma sum_0 f : sum 0 f = 0. Proof. reflexivity. Qed.
Lemma sum_ext n f g : (forall k, (k < n)%nat -> f k = g k) -> sum n f = sum n g.
Proof. induction n as [|n IH]; intros H; [reflexivity|]. rewrite !sum_S. rewrite (H n) by lia. f_equal. apply IH. intros; apply H; lia. Qed.
Lemma sum_zero n f : (forall k, (k < n)%nat -> f k = 0) -> sum n f = 0.
Proof. induction n as [|n IH]; intros H; [reflexivity|]. rewrite sum_S, (H n) by lia. rewrite IH; [rlra|]. intros; apply H; lia. Qed.
Lemma sum_plus n f g : sum n (fun k => f k + g k) = sum n f + sum n g.
Proof. induction n as [|n IH]; [rewrite !sum_0; rlra|]. rewrite !sum_S, IH. rlra. Qed.
Lemma sum_scal n c f : sum n (fun k => c * f k) = c * sum n f.
Proof. induction n as [|n IH]; [rewrite !sum_0; rlra|]. rewrite !sum_S, IH. rlra. Qed.
Lemma sum_scal_r n c f : sum n (fun k => f k * c) = sum n f * c.
Proof. induction n as [|n IH]; [rewrite !sum_0; rlra|]. rewrite !sum_S, IH. rlra. Qed.
Lemma sum_minus n f g : sum n (fun k => f k - g k) = sum n f - sum n g.
Proof. induction n as [|n IH]; [rewrite !sum_0; rlra|]. rewrite !sum_S, IH. rlra. Qed.
Lemma sum_swap m n f : sum m (fun i => sum n (fun j => f i j)) = sum n (fun j => sum m (fun i => f i j)).
Proof.
  induction m as [|m IH]; [rewrite sum_0; symmetry; apply sum_zero; reflexivity|].
  rewrite sum_S, IH, <- sum_plus. apply sum_ext. intros k _. rewrite sum_S. reflexivity.
Qed.
Lemma sum_delta n j f : (j < n)%nat -> (forall k, (k < n)%nat -> k <> j -> f k = 0) -> sum n f = f j.
Proof.
  induction n as [|n IH]; intros Hj H; [lia|]. rewrite sum_S. destruct (Nat.eq_dec j n) as [->|NE].
  - rewrite sum_zero; [rlra|]. intros k Hk. apply H; lia.
  - rewrite IH by (try lia; intros; apply H; lia). rewrite (H n) by lia. rlra.
Qed.
(** removing one term *)
Definition skip (k i : nat) : nat := if Nat.ltb i k then i else S i.
Lemma skip_lt k i : (i < k)%nat -> skip k i = i.
Proof. unfold skip. intros H. apply Nat.ltb_lt in H. rewrite H. reflexivity. Qed.
Lemma skip_ge k i : (k <= i)%nat -> skip k i = S i.
Proof. unfold skip. intros H. apply Nat.ltb_ge in H. rewrite H. reflexivity. Qed.
Lemma sum_skip n k f : (k <= n)%nat -> sum (S n) f = f k + sum n (fun i => f (skip k i)).
Proof.
  induction n as [|n IH]; intros H.
  - assert (k = 0)%nat as -> by lia. rewrite sum_S, !sum_0. rlra.
  - rewrite sum_S. destruct (Nat.eq_dec k (S n)) as [->|NE].
    + rewrite (sum_ext (S n) (fun i => f (skip (S n) i)) f); [rlra|]. intros i Hi. rewrite skip_lt by exact Hi. reflexivity.
    + rewrite IH by lia. rewrite (sum_S n (fun i => f (skip k i))). rewrite skip_ge by lia. rlra.
Qed.

(** ** C22 *)
Lemma mmul_assoc n p (A B C : Rmat) i j : mmul p (mmul n A B) C i j = mmul n A (mmul p B C) i j.
Proof.
  unfold mmul.
  transitivity (sum p (fun k => sum n (fun l => A i l * B l k * C k j))).
  { apply sum_ext. intros k _. cbn [kmul RNum]. rewrite <- sum_scal_r. reflexivity. }
  rewrite sum_swap. apply sum_ext. intros l _. cbn [kmul RNum]. rewrite <- sum_scal. apply sum_ext. intros k _. rring.
Qed.
Lemma mmul_add_l n (A B C : Rmat) i j : mmul n (madd A B) C i j = madd (mmul n A C) (mmul n B C) i j.
Proof. unfold mmul, madd. rewrite <- sum_plus. apply sum_ext. intros; rring. Qed.
Lemma mmul_add_r n (A B C : Rmat) i j : mmul n A (madd B C) i j = madd (mmul n A B) (mmul n A C) i j.
Proof. unfold mmul, madd. rewrite <- sum_plus. apply sum_ext. intros; rring. Qed.
Lemma ident_eq i : @midentity RNum i i = 1. Proof. unfold midentity. rewrite Nat.eqb_refl. reflexivity. Qed.
Lemma ident_ne i j : i <> j -> @midentity RNum i j = 0.
Proof. unfold midentity. intros H. apply Nat.eqb_neq in H. rewrite H. reflexivity. Qed.
Lemma mmul_id_l m (A : Rmat) i j : (i < m)%nat -> mmul m midentity A i j = A i j.
Proof.
  intros H. unfold mmul. rewrite (sum_delta m i) by (try exact H; intros k _ NE; rewrite ident_ne by auto; rring).
  rewrite ident_eq. cbn. rring.
Qed.
Lemma mmul_id_r n (A : Rmat) i j : (j < n)%nat -> mmul n A midentity i j = A i j.
Proof.
  intros H. unfold mmul. rewrite (sum_delta n j) by (try exact H; intros k _ NE; rewrite ident_ne by auto; rring).
  rewrite ident_eq. cbn. rring.
Qed.
Lemma mtrans_mul n (A B : Rmat) i j : mtrans (mmul n A B) i j = mmul n (mtrans B) (mtrans A) i j.
Proof. unfold mtrans, mmul. apply sum_ext. intros; rring. Qed.
Lemma mtrans_mtrans (A : Rmat) i j : mtrans (mtrans A) i j = A i j.
Proof. reflexivity. Qed.
Lemma mvmul_mul n p (A B : Rmat) (x : Rvec) i : mvmul p (mmul n A B) x i = mvmul n A (mvmul p B x) i.
Proof. exact (mmul_assoc n p A B (fun i _ => x i) i 0). Qed.

(** ** More unknowns than equations *)
Lemma dependent n : forall v : nat -> Rvec, exists c : Rvec,
  (exists i, (i <= n)%nat /\ c i <> 0) /\ forall j, (j < n)%nat -> sum (S n) (fun i => c i * v i j) = 0.
Proof.
  induction n as [|n IH]; intros v.
  - exists (fun _ => 1). split; [exists 0%nat; split; [lia|rlra]|intros; lia].
  - assert (D : (exists k, (k <= S n)%nat /\ v k n <> 0) \/ forall k, (k <= S n)%nat -> v k n = 0).
    { generalize (S n). intros m. induction m as [|m IHm].
      - destruct (Req_dec (v 0%nat n) 0) as [E|E]; [right; intros k Hk; replace k with 0%nat by lia; exact E|left; exists 0%nat; auto].
      - destruct IHm as [(k & Hk & E)|H]; [left; exists k; split; [lia|exact E]|].
        destruct (Req_dec (v (S m) n) 0) as [E|E]; [right|left; exists (S m); auto].
        intros k Hk. destruct (Nat.eq_dec k (S m)) as [->|NE]; [exact E|apply H; lia]. }
    destruct D as [(k & Hk & E)|H].
    + destruct (IH (fun i j => v (skip k i) j - v (skip k i) n / v k n * v k j)) as (c & (i0 & Hi0 & Ci0) & HC).
      set (ck := - sum (S n) (fun i => c i * v (skip k i) n) / v k n).
      exists (fun i => if Nat.ltb i k then c i else if Nat.eqb i k then ck else c (pred i)).
      assert (SK : forall i, (fun i => if Nat.ltb i k then c i else if Nat.eqb i k then ck else c (pred i)) (skip k i) = c i).
      { intros i. cbv beta. unfold skip. destruct (Nat.ltb_spec i k) as [L|L].
        - apply Nat.ltb_lt in L. rewrite L. reflexivity.
        - destruct (Nat.ltb_spec (S i) k); [lia|]. destruct (Nat.eqb_spec (S i) k); [lia|]. reflexivity. }
      split.
      * exists (skip k i0). split; [unfold skip; destruct (Nat.ltb i0 k); lia|]. rewrite SK. exact Ci0.
      * intros j Hj. rewrite (sum_skip (S n) k) by lia. cbv beta. rewrite Nat.ltb_irrefl, Nat.eqb_refl.
        rewrite (sum_ext (S n) _ (fun i => c i * v (skip k i) j)) by (intros i _; f_equal; apply SK).
        assert (Z : sum (S n) (fun i => c i * v (skip k i) j)
                    = sum (S n) (fun i => c i * (v (skip k i) j - v (skip k i) n / v k n * v k j))
                      + sum (S n) (fun i => c i * v (skip k i) n) * (v k j / v k n)).
        { rewrite <- sum_scal_r, <- sum_plus. apply sum_ext. intros i _. rfield. exact E. }
        destruct (Nat.eq_dec j n) as [->|NE].
        -- unfold ck. rfield. exact E.
        -- rewrite Z, HC by lia. unfold ck. rfield. exact E.
    + destruct (IH v) as (c & (i0 & Hi0 & Ci0) & HC).
      exists (fun i => if Nat.leb i n then c i else 0). split.
      * exists i0. split; [lia|]. apply Nat.leb_le in Hi0. rewrite Hi0. exact Ci0.
      * intros j Hj. rewrite sum_S. replace (Nat.leb (S n) n) with false by (symmetry; apply Nat.leb_gt; lia).
        destruct (Nat.eq_dec j n) as [->|NE].
        -- rewrite sum_zero by (intros k Hk'; rewrite H by lia; rring). rring.
        -- rewrite (sum_ext (S n) _ (fun i => c i * v i j)).
           2:{ intros k Hk'. replace (Nat.leb k n) with true by (symmetry; apply Nat.leb_le; lia). reflexivity. }
           rewrite HC by lia. rring.
Qed.

(** orthonormal vectors, and their expansion *)
Lemma dot_comm n (x y : Rvec) : dot n x y = dot n y x.
Proof. unfold ndot. apply sum_ext. intros; rring. Qed.
Lemma dot_ext n (x y x' y' : Rvec) : (forall i, (i < n)%nat -> x i = x' i) -> (forall i, (i < n)%nat -> y i = y' i) -> dot n x y = dot n x' y'.
Proof. intros H H'. unfold ndot. apply sum_ext. intros k Hk. rewrite H, H' by exact Hk. reflexivity. Qed.
Lemma dot_sub_r n (x y z : Rvec) (r : R) : dot n x (fun i => (y i - z i * r)%R) = dot n x y - dot n x z * r.
Proof. unfold ndot. cbn [kmul RNum]. rewrite <- sum_scal_r, <- sum_minus. apply sum_ext. intros; rring. Qed.
Lemma dot_div_l n (x y : Rvec) (r : R) : dot n (fun i => (x i / r)%R) y = dot n x y / r.
Proof. unfold ndot. cbn [kmul RNum]. unfold Rdiv. rewrite <- sum_scal_r. apply sum_ext. intros; rring. Qed.
Lemma dot_nonneg n (x : Rvec) : 0 <= dot n x x.
Proof. unfold ndot. induction n as [|n IH]; [rewrite sum_0; rlra|]. rewrite sum_S. rcbn. pose proof (Rle_0_sqr (x n)) as S. unfold Rsqr in S. lra. Qed.
Lemma dot_zero n (x : Rvec) : dot n x x = 0 -> forall i, (i < n)%nat -> x i = 0.
Proof.
  unfold ndot. induction n as [|n IH]; [intros; lia|]. rewrite sum_S. intros H i Hi.
  pose proof (dot_nonneg n x) as P. unfold ndot in P. pose proof (Rle_0_sqr (x n)) as S. unfold Rsqr in S. rcbn.
  destruct (Nat.eq_dec i n) as [->|NE]; [|apply IH; [lra|lia]].
  assert (E : x n * x n = 0) by lra. apply Rmult_integral in E. tauto.
Qed.

Definition orthonormal (n m : nat) (q : nat -> Rvec) : Prop :=
  forall i j, (i < m)%nat -> (j < m)%nat -> dot n (q i) (q j) = @midentity RNum i j.
Lemma dot_comb_l n m (q : nat -> Rvec) (c : Rvec) (y : Rvec) :
  dot n (fun k => sum m (fun i => c i * q i k)) y = sum m (fun i => c i * dot n (q i) y).
Proof.
  unfold ndot. cbn [kmul RNum].
  transitivity (sum n (fun k => sum m (fun i => c i * q i k * y k))).
  { apply sum_ext. intros k _. rewrite <- sum_scal_r. reflexivity. }
  rewrite sum_swap. apply sum_ext. intros i _. rewrite <- sum_scal. apply sum_ext. intros; rring.
Qed.
(** n orthonormal vectors of R^n span it *)
Lemma orthonormal_span n (q : nat -> Rvec) (b : Rvec) : orthonormal n n q ->
  forall k, (k < n)%nat -> sum n (fun i => dot n (q i) b * q i k) = b k.
Proof.
  intros HO. destruct (dependent n (fun i => if Nat.eqb i n then b else q i)) as (c & (i0 & Hi0 & Ci0) & HC).
  assert (HC' : forall k, (k < n)%nat -> sum n (fun i => c i * q i k) = - (c n * b k)).
  { intros k Hk. specialize (HC k Hk). rewrite sum_S, Nat.eqb_refl in HC.
    rewrite (sum_ext n _ (fun i => c i * q i k)) in HC; [rlra|].
    intros i Hi. replace (Nat.eqb i n) with false by (symmetry; apply Nat.eqb_neq; lia). reflexivity. }
  assert (CJ : forall j, (j < n)%nat -> c j = - (c n * dot n (q j) b)).
  { intros j Hj. assert (X : dot n (fun k => sum n (fun i => c i * q i k)) (q j) = c j).
    { rewrite dot_comb_l. rewrite (sum_delta n j) by (try exact Hj; intros k Hk NE; rewrite HO, ident_ne by auto; rring).
      rewrite HO, ident_eq by auto. rring. }
    rewrite <- X. rewrite (dot_ext n _ _ (fun k => - (c n * b k)) (q j)) by auto.
    unfold ndot. cbn [kmul RNum].
    replace (- (c n * sum n (fun i => q j i * b i))) with ((- c n) * sum n (fun i => q j i * b i)) by rring.
    rewrite <- sum_scal. apply sum_ext. intros; rring. }
  assert (CN : c n <> 0).
  { intros E. destruct (Nat.eq_dec i0 n) as [->|NE]; [auto|]. apply Ci0. rewrite CJ by lia. rewrite E. rring. }
  intros k Hk. specialize (HC' k Hk).
  rewrite (sum_ext n _ (fun i => - c n * (dot n (q i) b * q i k))) in HC' by (intros i Hi; rewrite CJ by exact Hi; rring).
  rewrite sum_scal in HC'. apply Rmult_eq_reg_l with (- c n); [rewrite HC'; rring|rlra].
Qed.

(** ** The QR solver (C24) *)
Lemma qr_inner_spec n m : forall col next (Q : nat -> Rvec) (Rm : Rmat), (col < next)%nat ->
  let '(Q', R') := qr_inner n m col next Q Rm in
  (forall j i, Q' j i = if Nat.leb next j && Nat.ltb j (next + m) then Q j i - Q col i * dot n (Q col) (Q j) else Q j i) /\
  (forall i j, R' i j = if Nat.eqb i col && (Nat.leb next j && Nat.ltb j (next + m)) then dot n (Q col) (Q j) else Rm i j).
Proof.
  induction m as [|m IH]; intros col next Q Rm Hc; cbn [qr_inner].
  - split; intros; [destruct (Nat.leb_spec next j), (Nat.ltb_spec j (next + 0)); cbn; try reflexivity; lia|].
    destruct (Nat.leb_spec next j), (Nat.ltb_spec j (next + 0)), (Nat.eqb i col); cbn; try reflexivity; lia.
  - match goal with |- context [qr_inner n m col (S next) ?Q1 ?R1] => specialize (IH col (S next) Q1 R1 ltac:(lia)); destruct (qr_inner n m col (S next) Q1 R1) as [Q' R'] end.
    destruct IH as [IQ IR]. cbv beta in IQ, IR.
    replace (Nat.eqb col next) with false in IQ, IR by (symmetry; apply Nat.eqb_neq; lia).
    split.
    + intros j i. rewrite IQ. destruct (Nat.eqb_spec j next) as [->|NE].
      * replace (Nat.leb (S next) next) with false by (symmetry; apply Nat.leb_gt; lia). cbn [andb].
        rewrite Nat.leb_refl. replace (Nat.ltb next (next + S m)) with true by (symmetry; apply Nat.ltb_lt; lia). reflexivity.
      * replace (Nat.leb (S next) j) with (Nat.leb next j) by (destruct (Nat.leb_spec next j), (Nat.leb_spec (S next) j); lia || reflexivity).
        replace (next + S m)%nat with (S next + m)%nat by lia. reflexivity.
    + intros i j. rewrite IR. unfold mset. destruct (Nat.eqb_spec j next) as [->|NE].
      * replace (Nat.leb (S next) next) with false by (symmetry; apply Nat.leb_gt; lia). cbn [andb].
        rewrite Nat.leb_refl. replace (Nat.ltb next (next + S m)) with true by (symmetry; apply Nat.ltb_lt; lia).
        rewrite !andb_false_r. cbn. rewrite !andb_true_r. reflexivity.
      * replace (Nat.leb (S next) j) with (Nat.leb next j) by (destruct (Nat.leb_spec next j), (Nat.leb_spec (S next) j); lia || reflexivity).
        replace (next + S m)%nat with (S next + m)%nat by lia.
        rewrite andb_false_r. reflexivity.
Qed.

(** the state of the factorisation before column [col] *)
Record qr_inv (n col : nat) (A : Rmat) (Q : nat -> Rvec) (Rm : Rmat) : Prop := {
  qi_on : orthonormal n col Q;
  qi_perp : forall i j, (i < col)%nat -> (col <= j < n)%nat -> dot n (Q i) (Q j) = 0;
  qi_sum : forall i j, (i < n)%nat -> (j < n)%nat ->
    A i j = sum col (fun k => Rm k j * Q k i) + (if Nat.leb col j then Q j i else 0);
  qi_low : forall i j, (j < i)%nat -> Rm i j = 0;
  qi_diag : forall i, (i < col)%nat -> Rm i i <> 0
}.

Lemma leb_t a b : (a <= b)%nat -> Nat.leb a b = true. Proof. apply Nat.leb_le. Qed.
Lemma leb_f a b : (b < a)%nat -> Nat.leb a b = false. Proof. apply Nat.leb_gt. Qed.
Lemma ltb_t a b : (a < b)%nat -> Nat.ltb a b = true. Proof. apply Nat.ltb_lt. Qed.
Lemma ltb_f a b : (b <= a)%nat -> Nat.ltb a b = false. Proof. apply Nat.ltb_ge. Qed.
Lemma eqb_f a b : a <> b -> Nat.eqb a b = false. Proof. apply Nat.eqb_neq. Qed.

Lemma qr_step n col (A : Rmat) Q Rm : (col < n)%nat -> qr_inv n col A Q Rm ->
  let r := nnorm n (Q col) in
  r <> 0 ->
  let Q1 : nat -> Rvec := fun j => if Nat.eqb j col then (fun i => kdiv (Q col i) r) else Q j in
  let '(Q', R') := qr_inner n (n - S col) col (S col) Q1 (mset Rm col col r) in
  qr_inv n (S col) A Q' R'.
Proof.
  intros Hc [ON PE SU LO DI] r Hr Q1.
  pose proof (qr_inner_spec n (n - S col) col (S col) Q1 (mset Rm col col r) ltac:(lia)) as S.
  destruct (qr_inner n (n - Datatypes.S col) col (Datatypes.S col) Q1 (mset Rm col col r)) as [Q' R'].
  destruct S as [SQ SR].
  assert (RR : r * r = dot n (Q col) (Q col)).
  { unfold r, nnorm. cbn [ksqrt RNum]. apply sqrt_def, dot_nonneg. }
  (* the new columns *)
  assert (Qlow : forall j, (j < col)%nat -> forall i, Q' j i = Q j i).
  { intros j Hj i. rewrite SQ, leb_f by lia. cbn [andb]. unfold Q1. rewrite eqb_f by lia. reflexivity. }
  assert (Qcol : forall i, Q' col i = Q col i / r).
  { intros i. rewrite SQ, leb_f by lia. cbn [andb]. unfold Q1. rewrite Nat.eqb_refl. reflexivity. }
  assert (Qhigh : forall j, (col < j < n)%nat -> forall i, Q' j i = Q j i - Q col i / r * (dot n (Q col) (Q j) / r)).
  { intros j Hj i. rewrite SQ, leb_t, ltb_t by lia. cbn [andb]. unfold Q1. rewrite Nat.eqb_refl, eqb_f by lia.
    rewrite dot_div_l. reflexivity. }
  assert (Rcol : forall j, (col < j < n)%nat -> R' col j = dot n (Q col) (Q j) / r).
  { intros j Hj. rewrite SR, Nat.eqb_refl, leb_t, ltb_t by lia. cbn [andb]. unfold Q1. rewrite Nat.eqb_refl, eqb_f by lia.
    apply dot_div_l. }
  assert (Rcc : R' col col = r).
  { rewrite SR, Nat.eqb_refl, leb_f by lia. cbn [andb]. unfold mset. rewrite Nat.eqb_refl. reflexivity. }
  assert (Roth : forall i j, i <> col -> R' i j = Rm i j).
  { intros i j Hi. rewrite SR, eqb_f by exact Hi. cbn [andb]. unfold mset. rewrite eqb_f by exact Hi. reflexivity. }
  assert (Rlow : forall j, (j < col)%nat -> R' col j = 0).
  { intros j Hj. rewrite SR, Nat.eqb_refl, leb_f by lia. cbn [andb]. unfold mset. rewrite (eqb_f j col) by lia.
    rewrite andb_false_r. apply LO. lia. }
  assert (Dcol : forall j, (j < col)%nat -> dot n (Q' j) (Q' col) = 0).
  { intros j Hj. rewrite (dot_ext n _ _ (Q j) (fun i => Q col i / r)) by auto. rewrite dot_comm, dot_div_l, dot_comm, PE by lia.
    unfold Rdiv. rring. }
  constructor.
  - intros i j Hi Hj. destruct (Nat.eq_dec i col) as [->|NI], (Nat.eq_dec j col) as [->|NJ].
    + rewrite ident_eq. rewrite (dot_ext n _ _ (fun i => Q col i / r) (fun i => Q col i / r)) by auto.
      rewrite dot_div_l, dot_comm, dot_div_l, <- RR. rfield. exact Hr.
    + rewrite dot_comm, Dcol by lia. rewrite ident_ne by lia. reflexivity.
    + rewrite Dcol by lia. rewrite ident_ne by lia. reflexivity.
    + rewrite (dot_ext n _ _ (Q i) (Q j)) by (intros; apply Qlow; lia). apply ON; lia.
  - intros i j Hi Hj. destruct (Nat.eq_dec i col) as [->|NI].
    + rewrite (dot_ext n _ _ (fun i => Q col i / r) (fun i => Q j i - Q col i / r * (dot n (Q col) (Q j) / r))) by (auto; intros; apply Qhigh; lia).
      rewrite (dot_sub_r n (fun i => Q col i / r) (Q j) (fun i => Q col i / r)).
      rewrite (dot_div_l n (Q col) (Q j)), (dot_div_l n (Q col) (fun i => Q col i / r)), (dot_comm n (Q col) (fun i => Q col i / r)), (dot_div_l n (Q col) (Q col)), <- RR.
      rfield. exact Hr.
    + rewrite (dot_ext n _ _ (Q i) (fun k => Q j k - Q col k / r * (dot n (Q col) (Q j) / r))) by (intros; try apply Qlow; try apply Qhigh; lia).
      rewrite (dot_sub_r n (Q i) (Q j) (fun i => Q col i / r)), PE by lia.
      rewrite (dot_comm n (Q i)), dot_div_l, dot_comm, PE by lia. unfold Rdiv. rring.
  - intros i j Hi Hj. rewrite SU by assumption. rewrite sum_S, Qcol.
    rewrite (sum_ext col (fun k => R' k j * Q' k i) (fun k => Rm k j * Q k i)) by (intros k Hk; rewrite Roth, Qlow by lia; reflexivity).
    destruct (Nat.eq_dec j col) as [->|NJ].
    + rewrite leb_t, leb_f by lia. rewrite Rcc. rfield. exact Hr.
    + destruct (Nat.lt_ge_cases j col) as [L|L].
      * rewrite !leb_f by lia. rewrite Rlow by lia. rring.
      * rewrite !leb_t by lia. rewrite Rcol, Qhigh by lia. rfield. exact Hr.
  - intros i j Hij. destruct (Nat.eq_dec i col) as [->|NI]; [apply Rlow; lia|]. rewrite Roth by exact NI. apply LO. exact Hij.
  - intros i Hi. destruct (Nat.eq_dec i col) as [->|NI]; [rewrite Rcc; exact Hr|]. rewrite Roth by exact NI. apply DI. lia.
Qed.

(** the columns of A are linearly independent *)
Definition independent (n : nat) (A : Rmat) : Prop :=
  forall x : Rvec, (forall i, (i < n)%nat -> mvmul n A x i = 0) -> forall i, (i < n)%nat -> x i = 0.

(** an upper triangular system with the given right-hand side has a solution *)
Lemma tri_solve m (Rm : Rmat) (y : Rvec) : (forall i j, (j < i)%nat -> Rm i j = 0) -> (forall i, (i < m)%nat -> Rm i i <> 0) ->
  exists z : Rvec, forall i, (i < m)%nat -> sum m (fun k => Rm i k * z k) = y i.
Proof.
  intros LO. revert y. induction m as [|m IH]; intros y DI; [exists (fun _ => 0); intros; lia|].
  destruct (IH (fun i => y i - Rm i m * (y m / Rm m m))) as [z Hz]; [intros; apply DI; lia|].
  exists (fun k => if Nat.eqb k m then y m / Rm m m else z k). intros i Hi. rewrite sum_S, Nat.eqb_refl.
  rewrite (sum_ext m _ (fun k => Rm i k * z k)) by (intros k Hk; rewrite eqb_f by lia; reflexivity).
  destruct (Nat.eq_dec i m) as [->|NE].
  - rewrite sum_zero by (intros k Hk; rewrite LO by lia; rring). specialize (DI m ltac:(lia)). rfield. exact DI.
  - rewrite Hz by lia. rring.
Qed.
Lemma tri_zero m (Rm : Rmat) (x : Rvec) : (forall i j, (j < i)%nat -> Rm i j = 0) -> (forall i, (i < m)%nat -> Rm i i <> 0) ->
  (forall i, (i < m)%nat -> sum m (fun k => Rm i k * x k) = 0) -> forall i, (i < m)%nat -> x i = 0.
Proof.
  intros LO. induction m as [|m IH]; intros DI H i Hi; [lia|].
  assert (XM : x m = 0).
  { specialize (H m ltac:(lia)). rewrite sum_S, sum_zero in H by (intros k Hk; rewrite LO by lia; rring).
    specialize (DI m ltac:(lia)). assert (Rm m m * x m = 0) by rlra. apply Rmult_integral in H0. tauto. }
  destruct (Nat.eq_dec i m) as [->|NE]; [exact XM|].
  apply IH; [intros; apply DI; lia| |lia]. intros j Hj. specialize (H j ltac:(lia)). rewrite sum_S, XM in H. rlra.
Qed.

Lemma qr_outer_spec n (A : Rmat) m : forall col Q Rm, (col + m = n)%nat -> qr_inv n col A Q Rm ->
  match qr_outer n m col Q Rm with
  | Some (Q', R') => qr_inv n n A Q' R'
  | None => ~ independent n A
  end.
Proof.
  induction m as [|m IH]; intros col Q Rm HS I; cbn [qr_outer].
  - assert (col = n) as -> by lia. exact I.
  - destruct (Reqb_spec (nnorm n (Q col)) 0) as [E|E]; change (keqb (nnorm n (Q col)) k0) with (Reqb (nnorm n (Q col)) 0).
    + unfold Reqb. destruct (Req_EM_T _ _); [|contradiction]. intros IND.
      (* the column is a combination of the previous ones *)
      assert (Z : forall i, (i < n)%nat -> Q col i = 0).
      { apply dot_zero. unfold nnorm in E. cbn [ksqrt RNum] in E. apply sqrt_eq_0 in E; [exact E|apply dot_nonneg]. }
      destruct I as [ON PE SU LO DI].
      destruct (tri_solve col Rm (fun i => Rm i col) LO DI) as [z Hz].
      set (x := fun k => if Nat.ltb k col then - z k else if Nat.eqb k col then 1 else 0).
      assert (X : x col = 0).
      { apply (IND x); [|lia]. intros i Hi. unfold mvmul. cbn [kmul RNum].
        assert (SP : forall (p d : nat) g, (forall k, (p <= k)%nat -> g k = 0) -> sum (p + d) g = sum p g).
        { intros p d g Hg. induction d as [|d IHd]; [rewrite Nat.add_0_r; reflexivity|].
          rewrite Nat.add_succ_r, sum_S, IHd, Hg by lia. rring. }
        replace n with (S col + (n - S col))%nat by lia. rewrite SP.
        2:{ intros k Hk. unfold x. rewrite ltb_f, eqb_f by lia. rring. }
        rewrite sum_S. unfold x at 2. rewrite Nat.ltb_irrefl, Nat.eqb_refl.
        rewrite (SU i col) by lia. rewrite leb_t, Z by lia.
        transitivity (sum col (fun k => - (sum col (fun j => Rm j k * Q j i) * z k)) + sum col (fun k => Rm k col * Q k i)).
        { rewrite Rmult_1_r, Rplus_0_r. f_equal. apply sum_ext. intros k Hk. unfold x. rewrite ltb_t by lia.
          rewrite (SU i k) by lia. rewrite leb_f by lia. rring. }
        rewrite (sum_ext col (fun k => Rm k col * Q k i) (fun j => sum col (fun k => Rm j k * z k * Q j i))).
        2:{ intros k Hk. rewrite <- Hz by exact Hk. rewrite <- sum_scal_r. reflexivity. }
        rewrite sum_swap, <- sum_plus. apply sum_zero. intros k Hk.
        rewrite <- sum_scal_r. replace (- sum col (fun j => Rm j k * Q j i * z k)) with ((-1) * sum col (fun j => Rm j k * Q j i * z k)) by rring.
        rewrite <- sum_scal, <- sum_plus. apply sum_zero. intros; rring. }
      unfold x in X. rewrite Nat.ltb_irrefl, Nat.eqb_refl in X. rlra.
    + unfold Reqb. destruct (Req_EM_T _ _); [contradiction|].
      pose proof (qr_step n col A Q Rm ltac:(lia) I E) as ST. cbv zeta in ST.
      match goal with |- match (let '(_, _) := ?Y in _) with _ => _ end =>
        assert (ST' : let '(Q', R') := Y in qr_inv n (S col) A Q' R') by exact ST; clear ST; destruct Y as [Q' R'] end.
      apply IH; [lia|exact ST'].
Qed.

Lemma qr_start n (A : Rmat) : qr_inv n 0 A (fun j i => A i j) (fun _ _ => 0).
Proof.
  constructor; unfold orthonormal; try (intros; lia); try reflexivity. intros i j Hi Hj. rewrite sum_0. symmetry. apply Rplus_0_l.
Qed.

(** the factorisation *)
Lemma qr_factors n (A : Rmat) s : qr_solver n A = Some s ->
  (forall i j, (i < n)%nat -> (j < n)%nat -> qr_original n s i j = A i j) /\
  orthonormal n n (qr_QT s) /\
  (forall i j, (j < i)%nat -> qr_R s i j = 0) /\ (forall i, (i < n)%nat -> qr_R s i i <> 0).
Proof.
  unfold qr_solver. pose proof (qr_outer_spec n A n 0 _ _ eq_refl (qr_start n A)) as H.
  change (@k0 RNum) with 0 in *.
  destruct (qr_outer n n 0 (fun j i => A i j) (fun _ _ => 0)) as [[Q Rm]|]; [|discriminate].
  intros E. injection E as <-. cbn [qr_QT qr_R]. destruct H as [ON _ SU LO DI]. split; [|split; [|split]]; try assumption.
  intros i j Hi Hj. unfold qr_original, mmul, mtrans. cbn [qr_QT qr_R kmul RNum]. rewrite SU by assumption.
  rewrite leb_f by lia. rewrite Rplus_0_r. apply sum_ext. intros; rring.
Qed.

Lemma factors_independent n (A : Rmat) s : qr_solver n A = Some s -> independent n A.
Proof.
  intros H. destruct (qr_factors n A s H) as (OR & ON & LO & DI). intros x HX.
  apply (tri_zero n (qr_R s) x LO DI). intros i Hi.
  (* multiply by QT *)
  assert (E : forall k, (k < n)%nat -> mvmul n A x k = sum n (fun l => sum n (fun j => qr_R s l j * x j) * qr_QT s l k)).
  { intros k Hk. unfold mvmul. cbn [kmul RNum].
    rewrite (sum_ext n _ (fun j => sum n (fun l => qr_R s l j * x j * qr_QT s l k))).
    - rewrite sum_swap. apply sum_ext. intros l _. rewrite <- sum_scal_r. reflexivity.
    - intros j Hj. rewrite <- OR by assumption. unfold qr_original, mmul, mtrans. cbn [kmul RNum]. rewrite <- sum_scal_r.
      apply sum_ext. intros; rring. }
  assert (D : dot n (fun k => sum n (fun l => sum n (fun j => qr_R s l j * x j) * qr_QT s l k)) (qr_QT s i) = sum n (fun j => qr_R s i j * x j)).
  { rewrite (dot_comb_l n n (qr_QT s) (fun l => sum n (fun j => qr_R s l j * x j)) (qr_QT s i)).
    rewrite (sum_delta n i) by (try exact Hi; intros k Hk NE; rewrite ON, ident_ne by auto; rring).
    rewrite ON, ident_eq by auto. rring. }
  rewrite <- D. unfold ndot. apply sum_zero. intros k Hk. cbn [kmul RNum]. rewrite <- E by exact Hk. rewrite HX by exact Hk. rring.
Qed.

Lemma qr_valid_iff n (A : Rmat) : qr_valid (qr_solver n A) = true <-> independent n A.
Proof.
  destruct (qr_solver n A) as [s|] eqn:E; cbn.
  - split; [intros _; exact (factors_independent n A s E)|reflexivity].
  - split; [discriminate|]. intros IND. exfalso. revert E. unfold qr_solver.
    pose proof (qr_outer_spec n A n 0 _ _ eq_refl (qr_start n A)) as H.
    change (@k0 RNum) with 0 in *.
    destruct (qr_outer n n 0 (fun j i => A i j) (fun _ _ => 0)) as [[Q Rm]|]; [discriminate|]. intros _. exact (H IND).
Qed.

(** back substitution *)
Lemma back_inner_spec m : forall col row (Rm : Rmat) (x : Rvec) c,
  back_inner m col row Rm x c = c - sum m (fun k => Rm row (col + k)%nat * x (col + k)%nat).
Proof.
  induction m as [|m IH]; intros col row Rm x c; cbn [back_inner]; [rewrite sum_0; rring|].
  rewrite IH. rewrite (sum_skip m 0) by lia. rewrite Nat.add_0_r.
  rewrite (sum_ext m (fun i => Rm row (col + skip 0 i)%nat * x (col + skip 0 i)%nat) (fun k => Rm row (S col + k)%nat * x (S col + k)%nat)).
  2:{ intros k _. rewrite skip_ge by lia. replace (col + S k)%nat with (S col + k)%nat by lia. reflexivity. }
  cbn [ksub kmul RNum]. rring.
Qed.
Lemma sum_split m d f : sum (m + d) f = sum m f + sum d (fun k => f (m + k)%nat).
Proof. induction d as [|d IH]; [rewrite Nat.add_0_r, sum_0; rring|]. rewrite Nat.add_succ_r, !sum_S, IH. rring. Qed.
Lemma back_spec n (Rm : Rmat) (c : Rvec) : (forall i j, (j < i)%nat -> Rm i j = 0) -> (forall i, (i < n)%nat -> Rm i i <> 0) ->
  forall row x, (row <= n)%nat ->
  (forall i, (row <= i < n)%nat -> sum n (fun k => Rm i k * x k) = c i) ->
  forall i, (i < n)%nat -> sum n (fun k => Rm i k * back n row Rm c x k) = c i.
Proof.
  intros LO DI. induction row as [|r IH]; intros x Hr Hx i Hi; cbn [back]; [apply Hx; lia|].
  apply IH; [lia| |exact Hi]. clear i Hi. intros i Hi.
  assert (T : forall z : Rvec, sum n (fun k => Rm i k * z k) = sum (n - i) (fun k => Rm i (i + k)%nat * z (i + k)%nat)).
  { intros z. replace n with (i + (n - i))%nat at 1 by lia. rewrite sum_split.
    rewrite sum_zero by (intros k Hk; rewrite LO by lia; rring). rring. }
  destruct (Nat.eq_dec i r) as [->|NE].
  - rewrite T. replace (n - r)%nat with (S (n - S r)) by lia. rewrite (sum_skip _ 0) by lia. rewrite Nat.add_0_r.
    unfold vset at 1. rewrite Nat.eqb_refl. rewrite back_inner_spec. cbn [kdiv RNum].
    rewrite (sum_ext (n - S r) (fun i => Rm r (r + skip 0 i)%nat * (@vset RNum) x r _ (r + skip 0 i)%nat) (fun k => Rm r (S r + k)%nat * x (S r + k)%nat)).
    2:{ intros k Hk. rewrite skip_ge by lia. replace (r + S k)%nat with (S r + k)%nat by lia. unfold vset. rewrite eqb_f by lia. reflexivity. }
    rfield. apply DI. lia.
  - rewrite <- (Hx i) by lia. rewrite !T. apply sum_ext. intros k Hk. unfold vset. rewrite eqb_f by lia. reflexivity.
Qed.

Lemma qr_solve_spec n (A : Rmat) (b : Rvec) : independent n A ->
  exists x, qr_solve n (qr_solver n A) b = Ret x /\
    (forall i, (i < n)%nat -> mvmul n A x i = b i) /\
    forall y : Rvec, (forall i, (i < n)%nat -> mvmul n A y i = b i) -> forall i, (i < n)%nat -> y i = x i.
Proof.
  intros IND. pose proof (proj2 (qr_valid_iff n A) IND) as V. destruct (qr_solver n A) as [s|] eqn:E; [|discriminate].
  destruct (qr_factors n A s E) as (OR & ON & LO & DI). cbn [qr_solve]. eexists. split; [reflexivity|].
  set (x := back n n (qr_R s) (mvmul n (qr_QT s) b) (fun _ => k0)).
  assert (SOL : forall i, (i < n)%nat -> mvmul n A x i = b i).
  { intros i Hi. rewrite <- (orthonormal_span n (qr_QT s) b ON i Hi).
    pose proof (back_spec n (qr_R s) (mvmul n (qr_QT s) b) LO DI n (fun _ => 0) ltac:(lia) ltac:(intros; lia)) as B.
    change (@k0 RNum) with 0 in x. fold x in B.
    unfold mvmul at 1. cbn [kmul RNum].
    rewrite (sum_ext n _ (fun k => sum n (fun l => qr_R s l k * x k * qr_QT s l i))).
    - rewrite sum_swap. apply sum_ext. intros l Hl. rewrite sum_scal_r, B by exact Hl. reflexivity.
    - intros k Hk. rewrite <- OR by assumption. unfold qr_original, mmul, mtrans. cbn [kmul RNum]. rewrite <- sum_scal_r. apply sum_ext. intros; rring. }
  split; [exact SOL|]. intros y HY i Hi.
  assert (y i - x i = 0); [|rlra]. apply (IND (fun i => y i - x i)); [|exact Hi]. intros j Hj.
  pose proof (HY j Hj) as H1. pose proof (SOL j Hj) as H2. unfold mvmul in *. cbn [kmul RNum] in *.
  rewrite <- (Rminus_diag_eq (sum n (fun k => A j k * y k)) (sum n (fun k => A j k * x k))) by (rewrite H1, H2; reflexivity).
  rewrite <- sum_minus. apply sum_ext. intros; rring.
Qed.
Lemma qr_solve_throws n (A : Rmat) (b : Rvec) : ~ independent n A -> qr_solve n (qr_solver n A) b = Throw.
Proof.
  intros H. destruct (qr_solver n A) as [s|] eqn:E; [|reflexivity]. exfalso. apply H. exact (factors_independent n A s E).
Qed.
