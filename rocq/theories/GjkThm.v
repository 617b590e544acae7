(** The GJK loop (C33). *)
From Coq Require Import ZArith List Bool Reals Lra Psatz Lia Arith.
From Verif Require Import Num Outcome Box Mat MatFacts MatSolve Geom GeomClosest GeomPoly GeomArea GeomExamples Gjk GjkFacts.
Import ListNotations.
Local Open Scope R_scope.

(** ** Common points from weights *)
Lemma hull3 vs (a b c : Rv) x y z : hull vs a -> hull vs b -> hull vs c -> 0 <= x -> 0 <= y -> 0 <= z -> x + y + z = 1 ->
  hull vs (rv (x * vx a + y * vx b + z * vx c) (x * vy a + y * vy b + z * vy c)).
Proof.
  intros Ha Hb Hc X Y Z S. destruct (Req_dec z 1) as [E|NE].
  - replace x with 0 by lra. replace y with 0 by lra. subst z.
    replace (rv _ _) with c; [exact Hc|]. apply v_ext; unfold rv; cbn [vx vy]; rring.
  - set (t := y / (x + y)). assert (P : 0 < x + y) by lra.
    assert (T : 0 <= t <= 1).
    { assert (E : t * (x + y) = y) by (unfold t; field; lra). clearbody t. nra. }
    pose proof (hull_mix _ _ _ z (hull_mix _ _ _ t Ha Hb T) Hc ltac:(lra)) as H.
    replace (rv (x * vx a + y * vx b + z * vx c) (x * vy a + y * vy b + z * vy c)) with
      (rv ((1 - z) * vx (rv ((1 - t) * vx a + t * vx b) ((1 - t) * vy a + t * vy b)) + z * vx c)
          ((1 - z) * vy (rv ((1 - t) * vx a + t * vx b) ((1 - t) * vy a + t * vy b)) + z * vy c)); [exact H|].
    assert (E1 : (1 - z) * (1 - t) = x) by (unfold t; replace (1 - z) with (x + y) by lra; field; lra).
    assert (E2 : (1 - z) * t = y) by (unfold t; replace (1 - z) with (x + y) by lra; field; lra).
    unfold rv. cbn [vx vy]. rcbn. f_equal.
    + transitivity ((1 - z) * (1 - t) * vx a + (1 - z) * t * vx b + z * vx c); [ring|rewrite E1, E2; reflexivity].
    + transitivity ((1 - z) * (1 - t) * vy a + (1 - z) * t * vy b + z * vy c); [ring|rewrite E1, E2; reflexivity].
Qed.

Lemma meet3 A B (a b c : Rv) x y z : In a (diffs A B) -> In b (diffs A B) -> In c (diffs A B) ->
  0 <= x -> 0 <= y -> 0 <= z -> 0 < x + y + z ->
  x * vx a + y * vx b + z * vx c = 0 -> x * vy a + y * vy b + z * vy c = 0 -> meet A B.
Proof.
  intros Ia Ib Ic X Y Z S Ex Ey.
  apply in_diffs in Ia as (a1 & a2 & A1 & A2 & ->). apply in_diffs in Ib as (b1 & b2 & B1 & B2 & ->).
  apply in_diffs in Ic as (c1 & c2 & C1 & C2 & ->). ung.
  set (s := x + y + z) in *. set (x' := x / s). set (y' := y / s). set (z' := z / s).
  assert (NS : s <> 0) by lra.
  assert (X' : 0 <= x') by (unfold x'; apply Rmult_le_pos; [lra|left; apply Rinv_0_lt_compat; lra]).
  assert (Y' : 0 <= y') by (unfold y'; apply Rmult_le_pos; [lra|left; apply Rinv_0_lt_compat; lra]).
  assert (Z' : 0 <= z') by (unfold z'; apply Rmult_le_pos; [lra|left; apply Rinv_0_lt_compat; lra]).
  assert (S' : x' + y' + z' = 1) by (unfold x', y', z', s in *; field; exact NS).
  exists (rv (x' * vx a1 + y' * vx b1 + z' * vx c1) (x' * vy a1 + y' * vy b1 + z' * vy c1)). split.
  - apply hull3; auto using hull_vertex.
  - replace (rv _ _) with (rv (x' * vx a2 + y' * vx b2 + z' * vx c2) (x' * vy a2 + y' * vy b2 + z' * vy c2)).
    + apply hull3; auto using hull_vertex.
    + unfold rv. f_equal; unfold x', y', z'; apply (Rmult_eq_reg_l s); auto;
      [replace (s * (x / s * vx a1 + y / s * vx b1 + z / s * vx c1)) with (x * vx a1 + y * vx b1 + z * vx c1) by (field; exact NS);
       replace (s * (x / s * vx a2 + y / s * vx b2 + z / s * vx c2)) with (x * vx a2 + y * vx b2 + z * vx c2) by (field; exact NS); lra
      |replace (s * (x / s * vy a1 + y / s * vy b1 + z / s * vy c1)) with (x * vy a1 + y * vy b1 + z * vy c1) by (field; exact NS);
       replace (s * (x / s * vy a2 + y / s * vy b2 + z / s * vy c2)) with (x * vy a2 + y * vy b2 + z * vy c2) by (field; exact NS); lra].
Qed.

(** ** What the loop returns *)
Section Loop.
Context (A B : list Rv) (NA : A <> []) (NB : B <> []).

(** the flat simplex found by the first three directions: v, q, p *)
Definition start (dir v q p : Rv) : Prop :=
  supports A B dir p /\ supports A B (vperp dir) v /\ cr q p = 0 /\
  ((0 < dotR p dir /\ supports A B (vopp p) q /\ dotR q p <= 0) \/ zero p).
Definition caught (dir : Rv) (s : @simplex RNum) : Prop :=
  let a := sx_p0 s in let b := sx_p1 s in let c := sx_p2 s in
  bdry A B a /\ bdry A B b /\ bdry A B c /\ covers a b c /\ (orient2 a b c <> 0 \/ start dir a b c).
Definition verdict (dir : Rv) (s : @simplex RNum) (r : bool) : Prop :=
  if r then caught dir s else exists d, apart A B d.

Lemma bdry_in p : bdry A B p -> In p (diffs A B).
Proof. intros (d & _ & I & _). exact I. Qed.
Lemma caught_meet dir s : caught dir s -> meet A B.
Proof.
  destruct s as [a b c n0 n1 n2 dr it kp]. unfold caught. cbn [sx_p0 sx_p1 sx_p2].
  intros (Ha & Hb & Hc & (C1 & C2 & C3) & [O|(_ & _ & P & [(PP & _ & Q)|[Zx Zy]])]).
  - apply (meet3 A B a b c (osign a b c * cr b c) (osign a b c * cr c a) (osign a b c * cr a b)); auto using bdry_in.
    + destruct (osign_spec a b c) as [[Q E]|[Q E]]; rewrite E; unfold orient2 in *; lra.
    + unfold cr. ring.
    + unfold cr. ring.
  - apply (meet3 A B a b c 0 (dotR c c) (- dotR b c)); auto using bdry_in; try lra.
    + unfold dotR. nra.
    + assert (NC : ~ zero c) by (intros [X Y]; unfold dotR in PP; rewrite X, Y in PP; lra). pose proof (dotR_pos c NC). lra.
    + transitivity (- vy c * - cr b c); [unfold dotR, cr; ring|rewrite P; ring].
    + transitivity (vx c * - cr b c); [unfold dotR, cr; ring|rewrite P; ring].
  - apply (meet3 A B a b c 0 0 1); auto using bdry_in; try lra; rewrite ?Zx, ?Zy; ring.
Qed.

Lemma has3 a b c dir k v : v <> a -> v <> b -> v <> c -> sx_has (tri a b c dir (S (S (S k)))) v = false.
Proof.
  intros H1 H2 H3. unfold sx_has, tri. cbn [sx_iter sx_p0 sx_p1 sx_p2 Nat.min firstn existsb].
  destruct (vall_eq a v) eqn:E1; [apply vall_R in E1; congruence|].
  destruct (vall_eq b v) eqn:E2; [apply vall_R in E2; congruence|].
  destruct (vall_eq c v) eqn:E3; [apply vall_R in E3; congruence|]. destruct k; reflexivity.
Qed.
Lemma contains_no a b c dir k : ~ covers a b c -> sx_contains (tri a b c dir k) = false.
Proof. intros H. destruct (sx_contains _) eqn:E; [|reflexivity]. apply contains_spec in E. contradiction. Qed.
Lemma sup_bdry d v : ~ zero d -> supports A B d v -> bdry A B v.
Proof. intros. exists d. auto. Qed.

Lemma next_tri a b c dir k : sx_next (tri a b c dir (S (S (S k)))) =
  (nextd a b c, if Rlt_dec (osign a b c * cr a b) 0 then tri a b c dir (S (S (S k)))
     else Sx a b c (sx_n0 (tri a b c dir 3)) (sx_n1 (tri a b c dir 3)) (sx_n2 (tri a b c dir 3)) dir (S (S (S k))) true).
Proof.
  unfold sx_next, tri, nextd. cbn [sx_iter sx_p0 sx_p1 sx_p2 sx_n0 sx_n1 sx_n2 sx_dir].
  rewrite vdot_R, dotR_comm, perpc_dot. replace (cr a (vsub b a)) with (cr a b) by (unfold cr; ung; ring).
  cbn [kltb RNum]. change (@k0 RNum) with 0.
  destruct (Rltb_spec (osign a b c * cr a b) 0); destruct (Rlt_dec (osign a b c * cr a b) 0); try contradiction; reflexivity.
Qed.

Lemma loop_tri : forall fuel a b c dir k, bdry A B a -> bdry A B b -> bdry A B c -> orient2 a b c <> 0 ->
  0 <= osign a b c * cr b c -> ~ covers a b c -> (beyond A B (nextd a b c) a < fuel)%nat ->
  exists s r, gjk_loop fuel A B (tri a b c dir (S (S (S k)))) = Ret (s, r) /\ verdict dir s r.
Proof.
  induction fuel as [|fuel IH]; intros a b c dir k Ha Hb Hc O S NC F; [lia|].
  assert (OP : 0 < osign a b c * orient2 a b c) by (destruct (osign_spec a b c) as [[P E]|[P E]]; rewrite E; lra).
  (* the edge, its other end e, the point g behind it *)
  assert (EX : exists e g tau, bdry A B e /\ In g (diffs A B) /\
     (forall x, dotR x (nextd a b c) = tau * cr x (vsub e a)) /\ dotR a (nextd a b c) < 0 /\
     dotR g (nextd a b c) < dotR a (nextd a b c) /\ (e = b /\ g = c \/ e = c /\ g = b) /\
     forall v, (let s := snd (sx_next (tri a b c dir (Datatypes.S (Datatypes.S (Datatypes.S k))))) in sx_push s v) = tri v a e dir (Datatypes.S (Datatypes.S (Datatypes.S (Datatypes.S k))))).
  { rewrite next_tri. unfold nextd. destruct (Rlt_dec (osign a b c * cr a b) 0) as [L|L].
    - exists b, c, (osign a b c). split; [exact Hb|]. split; [apply bdry_in; exact Hc|]. split; [intros x; apply perpc_dot|].
      rewrite !perpc_dot. split; [|split; [|split; [left; auto|intros v; reflexivity]]].
      + replace (cr a (vsub b a)) with (cr a b) by (unfold cr; ung; ring). exact L.
      + apply Rminus_lt. replace (osign a b c * cr c (vsub b a) - osign a b c * cr a (vsub b a)) with (- (osign a b c * orient2 a b c)) by (unfold orient2, cr; ung; ring). lra.
    - assert (L2 : osign a b c * cr c a < 0).
      { destruct (Rlt_dec (osign a b c * cr c a) 0); [assumption|]. exfalso. apply NC. unfold covers. repeat split; lra. }
      exists c, b, (- osign a b c). split; [exact Hc|]. split; [apply bdry_in; exact Hb|]. split.
      { intros x. rewrite perpc_dot. unfold cr. ung. ring. }
      rewrite !perpc_dot. split; [|split; [|split; [right; auto|intros v; reflexivity]]].
      + replace (cr a (vsub a c)) with (cr c a) by (unfold cr; ung; ring). exact L2.
      + apply Rminus_lt. replace (osign a b c * cr b (vsub a c) - osign a b c * cr a (vsub a c)) with (- (osign a b c * orient2 a b c)) by (unfold orient2, cr; ung; ring). lra. }
  destruct EX as (e & g & tau & He & Ig & D & NEG & LG & EG & PU).
  assert (SE : fst (sx_next (tri a b c dir (Datatypes.S (Datatypes.S (Datatypes.S k))))) = nextd a b c) by (rewrite next_tri; reflexivity).
  cbn [gjk_loop]. destruct (sx_next (tri a b c dir (Datatypes.S (Datatypes.S (Datatypes.S k))))) as [d s] eqn:EN.
  cbn [fst snd] in SE, PU. subst d.
  assert (HAS : forall v, v <> a -> v <> b -> v <> c -> sx_has s v = false).
  { intros v H1 H2 H3. pose proof (has3 a b c dir k v H1 H2 H3) as H. rewrite next_tri in EN.
    destruct (Rlt_dec (osign a b c * cr a b) 0) in EN; injection EN as <-; exact H. }
  set (d := nextd a b c) in *. clearbody d. cbv zeta in PU.
  assert (ND : ~ zero d) by (intros [X Y]; unfold dotR in NEG; rewrite X, Y in NEG; lra).
  destruct (support_spec A B d NA NB ND) as (v & EV & SV). rewrite EV. cbn [obind]. rewrite PU.
  cbn [tri sx_iter Nat.ltb Nat.leb]. rewrite vdot_R. cbn [kltb RNum]. change (@k0 RNum) with 0.
  change (Sx v a e _ _ _ dir (Datatypes.S (Datatypes.S (Datatypes.S (Datatypes.S k)))) false) with (tri v a e dir (Datatypes.S (Datatypes.S (Datatypes.S (Datatypes.S k))))).
  destruct (Rltb_spec (dotR v d) 0) as [LV|LV].
  - destruct (turn_behind A B a e d v tau D NEG SV LV) as [NCV AP]. rewrite contains_no by exact NCV. cbn [andb orb].
    eexists _, false. split; [reflexivity|]. exists d. exact AP.
  - assert (LV' : 0 <= dotR v d) by lra.
    pose proof (same_level a e d tau D) as SL.
    assert (HG : dotR g d < 0) by lra.
    rewrite HAS.
    2,3,4: intros ->; destruct EG as [[-> ->]|[-> ->]]; lra.
    destruct (sx_contains (tri v a e dir _)) eqn:EC.
    + cbn [andb]. apply contains_spec in EC. eexists _, true. split; [reflexivity|].
      destruct (turn_shape a e d v tau D NEG LV') as [OV _].
      unfold verdict, caught, tri. cbn [sx_p0 sx_p1 sx_p2]. repeat split; eauto using sup_bdry; apply EC.
    + cbn [andb orb negb]. apply IH; auto.
      * eauto using sup_bdry.
      * apply (turn_shape a e d v tau D NEG LV').
      * apply (turn_shape a e d v tau D NEG LV').
      * intros CO. apply (contains_spec _ _ _ dir (Datatypes.S (Datatypes.S (Datatypes.S (Datatypes.S k))))) in CO. congruence.
      * assert (CO : ~ covers v a e).
        { intros CO. apply (contains_spec _ _ _ dir (Datatypes.S (Datatypes.S (Datatypes.S (Datatypes.S k))))) in CO. congruence. }
        pose proof (turn_shrinks A B a e d v tau D NEG SV g LV' Ha He Ig LG CO). lia.
Qed.

(** ** The first three directions *)
Lemma push_tt a b c dir k v : sx_push (tri a b c dir k) v = tri v a b dir (S k).
Proof. reflexivity. Qed.
Definition search_dir (dir : Rv) : Rv := if zero_dec dir then rv 1 0 else dir.
Lemma search_nz dir : ~ zero (search_dir dir).
Proof. unfold search_dir. destruct (zero_dec dir); [|assumption]. intros [X _]. cbn in X. lra. Qed.
Lemma new_dir dir : sx_dir (sx_new dir) = search_dir dir.
Proof.
  unfold sx_new, search_dir. cbn [sx_dir]. destruct (vall_eq dir v00) eqn:E.
  - apply vall_R in E. subst dir. destruct (zero_dec v00) as [|H]; [reflexivity|]. exfalso. apply H. split; reflexivity.
  - destruct (zero_dec dir) as [[X Y]|]; [|reflexivity]. exfalso.
    assert (E2 : dir = v00) by (apply v_ext; assumption). apply vall_R in E2. congruence.
Qed.
Lemma opp_nz d : ~ zero d -> ~ zero (vopp d).
Proof. unfold zero. intros H [X Y]. apply H. ung. lra. Qed.
Lemma perp_nz d : ~ zero d -> ~ zero (vperp d).
Proof. unfold zero. intros H [X Y]. apply H. ung. lra. Qed.
Lemma dot_opp a d : dotR a (vopp d) = - dotR a d.
Proof. unfold dotR. ung. ring. Qed.
Lemma sup_apart d v : supports A B d v -> dotR v d < 0 -> apart A B d.
Proof.
  intros [_ M] L x y I J. assert (K1 : In (vsub x y) (diffs A B)) by (apply in_diffs; eauto).
  pose proof (M _ K1) as H. rewrite dot_sub in H. lra.
Qed.
Lemma beyond_le d a : (beyond A B d a <= length (diffs A B))%nat.
Proof.
  unfold beyond. generalize (fun x => Rltb (dotR a d) (dotR x d)). intros f. induction (diffs A B) as [|x l IH]; [cbn; lia|].
  cbn. destruct (f x); cbn; lia.
Qed.

(** the shapes are not both inside one line across the search direction *)
Definition spread (dir : Rv) : Prop := exists a b, In a A /\ In b B /\ dotR a dir <> dotR b dir.

Lemma gjk_third fuel d0 p q : ~ zero d0 -> spread d0 -> supports A B d0 p -> 0 <= dotR p d0 ->
  (let d1 := if Rlt_dec 0 (dotR p d0) then vopp p else vopp d0 in supports A B d1 q /\ 0 <= dotR q d1) ->
  bdry A B q -> (length (diffs A B) + 1 < fuel)%nat ->
  exists s r, gjk_loop fuel A B (tri q p v00 d0 2) = Ret (s, r) /\ verdict d0 s r.
Proof.
  intros N0 SP SPp L0 D1 BQ F. destruct fuel as [|fuel]; [lia|].
  assert (BP : bdry A B p) by eauto using sup_bdry.
  cbn [gjk_loop]. unfold sx_next. cbn [tri sx_iter sx_p0 sx_p1 sx_dir].
  change (vcross p q) with (cr p q). cbn [keqb kltb RNum]. change (@k0 RNum) with 0.
  destruct (Reqb_spec (cr p q) 0) as [E0|E0].
  - (* p, q and the origin on one line *)
    destruct (support_spec A B (vperp d0) NA NB (perp_nz _ N0)) as (v & EV & SV). rewrite EV. cbn [obind].
    rewrite push_tt.
    assert (CASES : (0 < dotR p d0 /\ supports A B (vopp p) q /\ dotR q p <= 0) \/ zero p).
    { destruct (Rlt_dec 0 (dotR p d0)) as [L|L].
      - left. destruct D1 as [S1 P1]. rewrite dot_opp in P1. repeat split; auto; try apply S1. lra.
      - right. destruct D1 as [S1 P1]. rewrite dot_opp in P1. assert (Z : dotR p d0 = 0) by lra.
        destruct (zero_dec p) as [|NP]; [assumption|exfalso]. pose proof (dotR_pos p NP) as PP.
        assert (PQ : dotR p p * dotR q d0 = dotR q p * dotR p d0 + cr p d0 * cr p q) by (unfold dotR, cr; ring).
        rewrite E0, Z in PQ. assert (QZ : dotR q d0 = 0) by nra.
        destruct SP as (x & y & Ix & Iy & NE). apply NE.
        assert (K1 : In (vsub x y) (diffs A B)) by (apply in_diffs; eauto).
        pose proof (proj2 SPp _ K1) as H1. pose proof (proj2 S1 _ K1) as H2. rewrite !dot_opp, !dot_sub in H2. rewrite dot_sub in H1. lra. }
    assert (CQ : cr q p = 0) by (unfold cr in *; lra).
    assert (CV : covers v q p).
    { unfold covers. rewrite CQ. split; [|split; [|lra]].
      - destruct CASES as [(L & _ & QP)|[Zx Zy]].
        + assert (NP : ~ zero p) by (intros [X Y]; unfold dotR in L; rewrite X, Y in L; lra). pose proof (dotR_pos p NP) as PP.
          assert (E : dotR p p * cr v q = - dotR q p * cr p v) by (transitivity (- dotR q p * cr p v - dotR v p * cr q p); [unfold dotR, cr; ring|rewrite CQ; ring]).
          destruct (osign_spec v q p) as [[P X]|[P X]]; rewrite X; unfold orient2 in P; nra.
        + assert (cr p v = 0) by (unfold cr; rewrite Zx, Zy; ring).
          destruct (osign_spec v q p) as [[P X]|[P X]]; rewrite X; unfold orient2 in P; lra.
      - destruct CASES as [(L & _ & QP)|[Zx Zy]].
        + assert (NP : ~ zero p) by (intros [X Y]; unfold dotR in L; rewrite X, Y in L; lra). pose proof (dotR_pos p NP) as PP.
          assert (E : dotR p p * cr v q = - dotR q p * cr p v) by (transitivity (- dotR q p * cr p v - dotR v p * cr q p); [unfold dotR, cr; ring|rewrite CQ; ring]).
          destruct (osign_spec v q p) as [[P X]|[P X]]; rewrite X; unfold orient2 in P; nra.
        + assert (cr p v = 0) by (unfold cr; rewrite Zx, Zy; ring). rewrite H. lra. }
    assert (EC : sx_contains (tri v q p d0 3) = true) by (apply contains_spec; exact CV).
    rewrite EC. cbn [tri sx_iter Nat.ltb Nat.leb andb].
    eexists _, true. split; [reflexivity|]. unfold verdict, caught. cbn [sx_p0 sx_p1 sx_p2].
    split; [eauto using sup_bdry, perp_nz|]. split; [exact BQ|]. split; [exact BP|]. split; [exact CV|].
    right. split; [exact SPp|]. split; [exact SV|]. split; [exact CQ|exact CASES].
  - (* the edge q-p *)
    set (d := vperpc (vsub q p) (Rltb (cr p q) 0)).
    assert (D : forall x, dotR x d = (if Rltb (cr p q) 0 then -1 else 1) * cr x (vsub p q)).
    { intros x. unfold d. destruct (Rltb (cr p q) 0); cbn [vperpc]; unfold dotR, cr; ung; ring. }
    set (tau := if Rltb (cr p q) 0 then -1 else 1) in *.
    assert (NEG : dotR q d < 0).
    { rewrite D. replace (cr q (vsub p q)) with (- cr p q) by (unfold cr; ung; ring). unfold tau. destruct (Rltb_spec (cr p q) 0); lra. }
    clearbody d tau.
    assert (ND : ~ zero d) by (intros [X Y]; unfold dotR in NEG; rewrite X, Y in NEG; lra).
    destruct (support_spec A B d NA NB ND) as (v & EV & SV). rewrite EV. cbn [obind].
    rewrite push_tt. rewrite vdot_R. cbn [kltb RNum]. change (@k0 RNum) with 0.
    pose proof (same_level q p d tau D) as SL.
    destruct (Rltb_spec (dotR v d) 0) as [LV|LV].
    + destruct (turn_behind A B q p d v tau D NEG SV LV) as [NCV AP]. rewrite contains_no by exact NCV. rewrite andb_false_r.
      cbn [orb]. eexists _, false. split; [reflexivity|]. exists d. exact AP.
    + assert (LV' : 0 <= dotR v d) by lra.
      assert (HH : sx_has (tri q p v00 d0 2) v = false).
      { unfold sx_has, tri. cbn [sx_iter sx_p0 sx_p1 sx_p2 Nat.min firstn existsb].
        destruct (vall_eq q v) eqn:E1; [apply vall_R in E1; subst v; lra|].
        destruct (vall_eq p v) eqn:E2; [apply vall_R in E2; subst v; lra|]. reflexivity. }
      rewrite HH.
      destruct (turn_shape q p d v tau D NEG LV') as [OV SVs].
      destruct (sx_contains (tri v q p d0 3)) eqn:EC.
      * cbn [tri sx_iter Nat.ltb Nat.leb andb]. apply contains_spec in EC. eexists _, true. split; [reflexivity|].
        unfold verdict, caught. cbn [sx_p0 sx_p1 sx_p2]. split; [eauto using sup_bdry|]. split; [exact BQ|]. split; [exact BP|]. split; [exact EC|].
        left. exact OV.
      * rewrite andb_false_r. cbn [orb negb]. rewrite andb_false_r.
        apply loop_tri; eauto using sup_bdry.
        -- intros CO. apply (contains_spec _ _ _ d0 3) in CO. congruence.
        -- pose proof (beyond_le (nextd v q p) v). lia.
Qed.

Lemma gjk_runs fuel dir : spread (search_dir dir) -> (length (diffs A B) + 3 < fuel)%nat ->
  exists s r, gjk_loop fuel A B (sx_new dir) = Ret (s, r) /\ verdict (search_dir dir) s r.
Proof.
  intros SP F. destruct fuel as [|fuel]; [lia|]. set (d0 := search_dir dir) in *.
  assert (N0 : ~ zero d0) by apply search_nz.
  assert (E0 : sx_new dir = Sx v00 v00 v00 v00 v00 v00 d0 0 false) by (unfold d0; rewrite <- new_dir; reflexivity).
  rewrite E0. clearbody d0. clear E0.
  cbn [gjk_loop]. unfold sx_next. cbn [sx_iter sx_dir].
  destruct (support_spec A B d0 NA NB N0) as (p & EP & SPp). rewrite EP. cbn [obind]. rewrite push_tri.
  cbn [sx_p0 sx_p1 sx_keep sx_dir sx_iter tri Nat.ltb Nat.leb andb]. rewrite vdot_R. cbn [kltb RNum]. change (@k0 RNum) with 0.
  destruct (Rltb_spec (dotR p d0) 0) as [L|L]; cbn [orb].
  { eexists _, false. split; [reflexivity|]. exists d0. eapply sup_apart; eauto. }
  change (Sx p v00 v00 _ _ _ d0 1 false) with (tri p v00 v00 d0 1).
  destruct fuel as [|fuel]; [lia|]. cbn [gjk_loop]. unfold sx_next. cbn [tri sx_iter sx_dir sx_p0].
  rewrite vdot_R, dotR_comm. cbn [kltb RNum]. change (@k0 RNum) with 0.
  set (d1 := if Rltb 0 (dotR p d0) then vopp p else vopp d0).
  assert (E1 : d1 = if Rlt_dec 0 (dotR p d0) then vopp p else vopp d0).
  { unfold d1. destruct (Rltb_spec 0 (dotR p d0)); destruct (Rlt_dec 0 (dotR p d0)); try contradiction; reflexivity. }
  assert (N1 : ~ zero d1).
  { rewrite E1. destruct (Rlt_dec 0 (dotR p d0)) as [L'|L']; apply opp_nz; [|exact N0].
    intros [X Y]. unfold dotR in L'. rewrite X, Y in L'. lra. }
  destruct (support_spec A B d1 NA NB N1) as (q & EQ & SQ). rewrite EQ. cbn [obind]. rewrite push_tri.
  cbn [sx_p0 sx_p1 sx_keep sx_dir sx_iter tri Nat.ltb Nat.leb andb]. rewrite vdot_R. cbn [kltb RNum].
  destruct (Rltb_spec (dotR q d1) 0) as [LQ|LQ]; cbn [orb].
  { eexists _, false. split; [reflexivity|]. exists d1. eapply sup_apart; eauto. }
  change (Sx q p v00 _ _ _ d0 2 false) with (tri q p v00 d0 2).
  apply gjk_third; auto; try lra; [|eauto using sup_bdry|lia].
  cbv zeta. rewrite <- E1. split; [exact SQ|lra].
Qed.
End Loop.

Lemma diffs_length A B : length (diffs A B) = (length A * length B)%nat.
Proof.
  unfold diffs. induction A as [|a A IH]; [reflexivity|]. cbn [flat_map length]. rewrite app_length, map_length, IH. reflexivity.
Qed.

Theorem gjk_correct (A B : list Rv) (dir : Rv) fuel : A <> [] -> B <> [] -> spread A B (search_dir dir) ->
  (length A * length B + 3 < fuel)%nat ->
  exists g, make_gjk fuel A B dir = Ret g /\ (gk_hit g = true <-> meet A B) /\
    (gk_hit g = false -> exists d, apart A B d).
Proof.
  intros NA NB SP F. rewrite <- diffs_length in F. destruct (gjk_runs A B NA NB fuel dir SP F) as (s & r & E & V).
  unfold make_gjk. rewrite E. cbn [obind fst snd]. exists (Gk A B s r). split; [reflexivity|]. cbn [gk_hit].
  destruct r; cbn [verdict] in V.
  - split; [|discriminate]. split; [intros _; eapply caught_meet; eauto|reflexivity].
  - split; [|auto]. split; [discriminate|]. destruct V as (d & V). intros M. exfalso. exact (apart_not_meet A B d V M).
Qed.
