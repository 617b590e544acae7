(** The contact manifold of two overlapping convex colliders (C70-C72). *)
From Coq Require Import ZArith List Bool Reals Lra Psatz Lia Arith.
From Verif Require Import Num Outcome Box BoxFacts BoxOverlap BoxExamples Mat MatFacts MatSolve Geom GeomClosest GeomPoly GeomArea GeomExamples Transform TransformFacts Body BodyFacts Gjk GjkFacts GjkThm GjkEpa GjkExamples Constraint Contact Manifold ManifoldFacts.
Import ListNotations.
Local Open Scope R_scope.

(** ** What the penetration says about the two polygons *)
Lemma push_dir A B p : A <> [] -> B <> [] -> overlap A B -> pushes A B p -> ~ zero p /\
  (forall a b, In a A -> In b B -> dotR a p <= dotR b p + dotR p p) /\
  exists a1 b1 a2 b2, In a1 A /\ In b1 B /\ In a2 A /\ In b2 B /\ vsub a1 b1 <> vsub a2 b2 /\
    dotR a1 p = dotR b1 p + dotR p p /\ dotR a2 p = dotR b2 p + dotR p p /\ on_segment (vsub a1 b1) (vsub a2 b2) p.
Proof.
  intros NA NB OV ((n & f & t & ZN & HN & If & It & NE & Ef & Et & OS) & BALL).
  pose proof (dotR_pos n ZN) as PN. destruct (OV n ZN) as (a0 & b0 & Ia0 & Ib0 & L0). pose proof (HN a0 b0 Ia0 Ib0) as H0.
  assert (PP : 0 < dotR p n) by lra.
  assert (ZP : ~ zero p) by (intros [X Y]; unfold dotR in PP; rewrite X, Y in PP; lra).
  destruct (BALL n ZN) as (a & b & Ia & Ib & G0 & G1). pose proof (HN a b Ia Ib) as G2.
  pose proof (lagrange p n) as LG. assert (CR : cr p n = 0).
  { assert (cr p n * cr p n = 0) by nra. nra. }
  rewrite CR in LG. assert (PAR : forall x, dotR n n * dotR x p = dotR p n * dotR x n) by (intros x; apply par_dot; exact CR).
  split; [exact ZP|]. split.
  - intros a' b' Ia' Ib'. pose proof (HN a' b' Ia' Ib') as H. pose proof (PAR a') as E1. pose proof (PAR b') as E2.
    apply (Rmult_le_reg_l (dotR n n)); [exact PN|]. rewrite Rmult_plus_distr_l, E1, E2. nra.
  - apply in_diffs in If as (a1 & b1 & Ia1 & Ib1 & ->). apply in_diffs in It as (a2 & b2 & Ia2 & Ib2 & ->).
    exists a1, b1, a2, b2. rewrite dot_sub in Ef, Et. repeat split; auto.
    + apply (Rmult_eq_reg_l (dotR n n)); [|lra]. pose proof (PAR a1) as E1. pose proof (PAR b1) as E2. nra.
    + apply (Rmult_eq_reg_l (dotR n n)); [|lra]. pose proof (PAR a2) as E1. pose proof (PAR b2) as E2. nra.
Qed.

(** ** The contact points *)
Lemma contacts_spec rs k f t g h (normal : Rv) : convex rs -> (k < length rs)%nat -> edge_at rs (edge_to (length rs) k) = Ret (f, t) ->
  exists z u c1 c2 inc, In (z, f) (cyc rs) /\ In (t, u) (cyc rs) /\
    edge_clipInside (g, h) (z, f) = Ret c1 /\ edge_clipInside (g, h) (t, u) = Ret c2 /\
    compute_contacts rs (edge_to (length rs) k) (g, h) normal = Ret (inc, map (fun c => lb_closest (line_barycentric f t c)) inc) /\
    (length inc <= 2)%nat /\ NoDup inc /\
    (forall c, In c inc <-> (c = c1 \/ c = c2) /\ dotR (vsub c f) normal <= 0) /\
    (forall c, In c inc -> on_segment g h c).
Proof.
  intros CV KL EA. set (n := length rs) in *.
  assert (KP : ((k + n - 1) mod n < n)%nat) by (apply Nat.mod_upper_bound; lia).
  assert (KN : ((k + 1) mod n < n)%nat) by (apply Nat.mod_upper_bound; lia).
  destruct (edge_at_spec rs k KL) as (f' & t' & A1 & A2 & A3 & A4). fold n in A1, A3. rewrite EA in A1. injection A1 as <- <-.
  destruct (edge_at_spec rs _ KP) as (z & f' & B1 & B2 & B3 & B4). fold n in B1, B3. assert (f' = f) by congruence. subst f'.
  destruct (edge_at_spec rs _ KN) as (t' & u & C1 & C2 & C3 & C4). fold n in C1, C3. rewrite mod_back in C3 by exact KL. assert (t' = t) by congruence. subst t'.
  destruct (clip_nearest g h (z, f)) as (c1 & D1 & D2 & _). destruct (clip_nearest g h (t, u)) as (c2 & E1 & E2 & _).
  assert (DP : forall c, (vdot (vsub c f) (vopp normal) >=? k0)%num = if Rle_dec (dotR (vsub c f) normal) 0 then true else false).
  { intros c. assert (E : vdot (vsub c f) (vopp normal) = - dotR (vsub c f) normal) by (unfold dotR; ung; rring). rewrite E.
    cbn [kleb RNum]. change (@k0 RNum) with 0. unfold Rleb. destruct (Rle_dec 0 _); destruct (Rle_dec _ 0); auto; exfalso; rcbn; lra. }
  set (l1 := if Rle_dec (dotR (vsub c1 f) normal) 0 then [c1] else []).
  set (inc := if Rle_dec (dotR (vsub c2 f) normal) 0
              then match l1 with [] => [c2] | c :: _ => if vall_eq c c2 then l1 else l1 ++ [c2] end else l1).
  assert (EC : compute_contacts rs (edge_to n k) (g, h) normal = Ret (inc, map (fun c => lb_closest (line_barycentric f t c)) inc)).
  { unfold compute_contacts. fold n. rewrite edge_previous_spec, edge_next_spec by exact KL. cbn [obind]. rewrite B1, C1, EA. cbn [obind fst snd].
    rewrite D1, E1. cbn [obind]. rewrite !DP. unfold inc, l1. destruct (Rle_dec (dotR (vsub c1 f) normal) 0); destruct (Rle_dec (dotR (vsub c2 f) normal) 0); reflexivity. }
  assert (IN : forall c, In c inc <-> (c = c1 \/ c = c2) /\ dotR (vsub c f) normal <= 0).
  { intros c. unfold inc, l1. destruct (Rle_dec (dotR (vsub c1 f) normal) 0) as [L1|L1]; destruct (Rle_dec (dotR (vsub c2 f) normal) 0) as [L2|L2].
    - destruct (vall_eq c1 c2) eqn:V; [apply vall_R in V; subst c2|]; cbn; split; intuition (subst; auto).
    - cbn. split; [intros [<-|[]]; auto|]. intros [[->| ->] H]; auto; contradiction.
    - cbn. split; [intros [<-|[]]; auto|]. intros [[->| ->] H]; auto; contradiction.
    - cbn. split; [intros []|]. intros [[->| ->] H]; contradiction. }
  exists z, u, c1, c2, inc. split; [eapply nth_error_In; eauto|]. split; [eapply nth_error_In; eauto|]. split; [exact D1|]. split; [exact E1|].
  split; [exact EC|]. split; [|split; [|split]].
  - unfold inc, l1. destruct (Rle_dec (dotR (vsub c1 f) normal) 0); destruct (Rle_dec (dotR (vsub c2 f) normal) 0); try destruct (vall_eq _ _); cbn; lia.
  - unfold inc, l1. destruct (Rle_dec (dotR (vsub c1 f) normal) 0); destruct (Rle_dec (dotR (vsub c2 f) normal) 0); try (destruct (vall_eq c1 c2) eqn:V); repeat constructor; cbn; try tauto.
    intros [E|[]]. subst c2. assert (vall_eq c1 c1 = true) by (apply vall_R; reflexivity). congruence.
  - exact IN.
  - intros c I. apply IN in I as [[->| ->] _]; assumption.
Qed.

Definition boundary (vs : list Rv) (x : Rv) : Prop := exists f t, In (f, t) (cyc vs) /\ on_segment f t x.
Lemma on_segment_dot f t c d : on_segment f t c -> exists u, 0 <= u <= 1 /\ dotR c d = (1 - u) * dotR f d + u * dotR t d.
Proof. intros (u & U & X & Y). exists u. split; [exact U|]. unfold dotR. rewrite X, Y. ring. Qed.

Section Side.
(** V the reference polygon, whose side (f, t) faces d exactly; I the incident one *)
Context (V I : list Rv) (d : Rv) (ZD : ~ zero d) (CV : convex V) (CI : convex I).
Context (v w : Rv) (k j : nat) (f t g h : Rv) (FV : faces V d v k f t) (FI : faces I (vopp d) w j g h).
Context (Iw : In w I) (EX : coef (f, t) d = nrm d).
Let nor : Rv := edge_normalizedNormal (f, t).
Let n := length V.

Lemma ref_normal : vscale (N := RNum) (nrm d) nor = d /\ dotR f d = dotR v d /\ dotR t d = dotR v d.
Proof.
  pose proof (fa_ne _ _ _ _ _ _ FV) as NE. destruct (coef_eq f t d NE) as [E Z].
  destruct (coef_le f t d NE) as (_ & L & _). pose proof (L EX) as ZZ. pose proof (nrm_pos _ Z) as P. pose proof (nrm_pos _ ZD) as PD.
  rewrite EX in E. pose proof (nrm_sq d) as QD. pose proof (nrm_sq (vsub t f)) as QE.
  assert (NX : vx nor * nrm (vsub t f) = vy (vsub t f) /\ vy nor * nrm (vsub t f) = - vx (vsub t f)).
  { assert (EN : vnorm (edge_normal (f, t)) = nrm (vsub t f)).
    { unfold vnorm, nrm. cbn [ksqrt RNum]. f_equal. unfold edge_normal, edge_direction, dotR. cbn [fst snd]. ung. rring. }
    unfold nor, edge_normalizedNormal, vnormalized. rewrite EN. unfold edge_normal, edge_direction, vdivs. cbn [fst snd]. ung. rcbn.
    split; field; intros QQ; lra. }
  destruct NX as [NX NY]. split.
  - set (c := nrm (vsub t f)) in *. set (b := nrm d) in *. set (ex := vx (vsub t f)) in *. set (ey := vy (vsub t f)) in *.
    unfold dotR, cr in *. fold ex ey in ZZ, E, QE. clearbody c b ex ey.
    assert (CC : 0 < c * c) by nra.
    apply v_ext; unfold vscale; cbn [vx vy]; rcbn; (apply (Rmult_eq_reg_r (c * c)); [|intros QQ; lra]).
    + transitivity (vx nor * c * (b * c)); [ring|]. rewrite NX, E, QE.
      transitivity (vx d * (ex * ex + ey * ey) - ex * (vx d * ex + vy d * ey)); [rring|]. rewrite ZZ. rring.
    + transitivity (vy nor * c * (b * c)); [ring|]. rewrite NY, E, QE.
      transitivity (vy d * (ex * ex + ey * ey) - ey * (vx d * ex + vy d * ey)); [rring|]. rewrite ZZ. rring.
  - rewrite dotR_comm, dot_sub in ZZ. destruct (fa_end _ _ _ _ _ _ FV) as [->| ->]; split; lra.
Qed.
Lemma ref_dot x : dotR x d = nrm d * dotR x nor.
Proof. destruct ref_normal as [E _]. rewrite <- E at 1. unfold dotR, vscale. cbn [vx vy]. rring. Qed.

(** every contact is between the surface and the deepest point *)
Lemma ref_contacts : exists inc, let ref := map (fun c => lb_closest (line_barycentric f t c)) inc in
  compute_contacts V (edge_to n k) (g, h) nor = Ret (inc, ref) /\ (length inc <= 2)%nat /\ NoDup inc /\
  (forall i c r, nth_error inc i = Some c -> nth_error ref i = Some r ->
     boundary I c /\ boundary V r /\ nearest (on_segment f t) c r /\
     0 <= dotR (vsub r c) nor /\ nrm d * dotR (vsub r c) nor <= dotR v d - dotR w d).
Proof.
  destruct (contacts_spec V k f t g h nor CV (fa_k _ _ _ _ _ _ FV) (fa_edge _ _ _ _ _ _ FV))
    as (z & u & c1 & c2 & inc & I1 & I2 & D1 & D2 & EC & L & ND & IN & ON).
  exists inc. cbv zeta. split; [exact EC|]. split; [exact L|]. split; [exact ND|]. intros i c r Ec Er.
  rewrite nth_error_map, Ec in Er. cbn [option_map] in Er. assert (ER : lb_closest (line_barycentric f t c) = r) by congruence. clear Er. pose proof (nth_error_In _ _ Ec) as Ic.
  pose proof (ON c Ic) as SC. apply IN in Ic as [_ DC].
  destruct (line_nearest f t c) as [_ NR]. cbv zeta in NR. rewrite ER in NR. clear ER.
  destruct ref_normal as (_ & TF & TT).
  assert (RD : dotR r d = dotR v d).
  { destruct (on_segment_dot f t r d (proj1 NR)) as (s & S & ->). rewrite TF, TT. ring. }
  assert (CD : dotR w d <= dotR c d).
  { destruct (on_segment_dot g h c d SC) as (s & S & ->). destruct (cyc_in _ _ (fa_in _ _ _ _ _ _ FI)) as [Ig Ih]. cbn [fst snd] in *.
    pose proof (fa_max _ _ _ _ _ _ FI g Ig) as Mg. pose proof (fa_max _ _ _ _ _ _ FI h Ih) as Mh.
    assert (OP : forall x, dotR x (vopp d) = - dotR x d) by (intros; unfold dotR; ung; rring). rewrite !OP in *. nra. }
  split; [exists g, h; split; [exact (fa_in _ _ _ _ _ _ FI)|exact SC]|]. split; [exists f, t; split; [exact (fa_in _ _ _ _ _ _ FV)|exact (proj1 NR)]|].
  split; [exact NR|]. pose proof (nrm_pos _ ZD) as PD.
  assert (FR : dotR f nor = dotR r nor).
  { apply (Rmult_eq_reg_l (nrm d)); [|intros QQ; lra]. rewrite <- !ref_dot. lra. }
  rewrite !dot_sub in *. split; [lra|]. rewrite Rmult_minus_distr_l, <- !ref_dot. lra.
Qed.

(** ** the reference side between two sides perpendicular to it *)
Definition squared : Prop := forall z u, In (z, f) (cyc V) -> In (t, u) (cyc V) ->
  (exists s, 0 < s /\ forall x, side (z, f) x = s * dotR (vsub t f) (vsub x f)) /\
  (exists s, 0 < s /\ forall x, side (t, u) x = - s * dotR (vsub t f) (vsub x t)).
(** either the incident side is parallel to the reference one, or the deepest
    point is above it *)
Lemma deepest_found inc ref : squared -> (coef (g, h) (vopp d) = nrm d \/ dotR (vsub t f) f <= dotR (vsub t f) w <= dotR (vsub t f) t) ->
  dotR w d <= dotR v d ->
  compute_contacts V (edge_to n k) (g, h) nor = Ret (inc, ref) ->
  exists i c r, nth_error inc i = Some c /\ nth_error ref i = Some r /\ nrm d * dotR (vsub r c) nor = dotR v d - dotR w d.
Proof.
  intros SQ CASES DEEP EC0.
  destruct (contacts_spec V k f t g h nor CV (fa_k _ _ _ _ _ _ FV) (fa_edge _ _ _ _ _ _ FV))
    as (z & u & c1 & c2 & inc' & I1 & I2 & D1 & D2 & EC & L & ND & IN & ON).
  fold n in EC. rewrite EC in EC0. injection EC0 as E1 E2. subst inc'.
  assert (FIND : forall c, In c inc -> dotR c d = dotR w d -> exists i c r, nth_error inc i = Some c /\ nth_error ref i = Some r /\ nrm d * dotR (vsub r c) nor = dotR v d - dotR w d).
  { intros c Ic DC. destruct (In_nth_error _ _ Ic) as (i & Ei). exists i, c, (lb_closest (line_barycentric f t c)).
    split; [exact Ei|]. split; [rewrite <- E2, nth_error_map, Ei; reflexivity|].
    destruct (line_nearest f t c) as [_ NR]. cbv zeta in NR. destruct ref_normal as (_ & TF & TT).
    destruct (on_segment_dot f t _ d (proj1 NR)) as (s & S & RD). rewrite TF, TT in RD.
    rewrite dot_sub, Rmult_minus_distr_l, <- !ref_dot. rewrite RD, DC. ring. }
  destruct ref_normal as (_ & TF & TT). pose proof (nrm_pos _ ZD) as PD.
  assert (BEHIND : forall c, dotR c d = dotR w d -> dotR (vsub c f) nor <= 0).
  { intros c DC. rewrite dot_sub. apply (Rmult_le_reg_l (nrm d)); [exact PD|]. rewrite Rmult_minus_distr_l, <- !ref_dot. lra. }
  assert (OP : forall x, dotR x (vopp d) = - dotR x d) by (intros; unfold dotR; ung; rring).
  pose proof (fa_ne _ _ _ _ _ _ FI) as NG.
  destruct CASES as [PAR|BETW].
  - (* parallel sides *)
    assert (ON1 : on_segment g h c1).
    { destruct (clip_nearest g h (z, f)) as (c & X & Y & _). congruence. }
    destruct (coef_le g h (vopp d) NG) as (_ & LL & _).
    assert (NO : nrm (vopp d) = nrm d) by (unfold nrm; f_equal; unfold dotR; ung; rring).
    rewrite <- NO in PAR. pose proof (LL PAR) as Z. rewrite dotR_comm, OP, dot_sub in Z.
    assert (DG : dotR g d = dotR w d /\ dotR h d = dotR w d) by (destruct (fa_end _ _ _ _ _ _ FI) as [->| ->]; split; lra).
    assert (DC : dotR c1 d = dotR w d).
    { destruct (on_segment_dot g h c1 d ON1) as (s & S & ->). destruct DG as [-> ->]. ring. }
    apply (FIND c1); [apply IN; split; [auto|apply BEHIND; exact DC]|exact DC].
  - destruct (SQ z u I1 I2) as [(s1 & S1 & H1) (s2 & S2 & H2)]. set (e := vsub t f) in *.
    rewrite clip_eq in D1, D2. injection D1 as D1. injection D2 as D2.
    assert (NZ : dotR e g <> dotR e h).
    { intros E. pose proof (fa_pos _ _ _ _ _ _ FI) as P. destruct (coef_eq g h (vopp d) NG) as [Q Z]. apply nrm_pos in Z.
      assert (0 < cr (vopp d) (vsub h g)) by nra.
      assert (DE : dotR e d = 0) by (unfold e; rewrite dot_sub; lra).
      assert (ID : dotR e e * cr (vopp d) (vsub h g) = cr e d * (dotR e h - dotR e g) + dotR e d * cr e (vsub g h)) by (unfold cr, dotR; ung; rring).
      rewrite E, DE in ID. assert (ZE : ~ zero e).
      { intros [X Y]. apply (fa_ne _ _ _ _ _ _ FV). unfold e in *. apply v_ext; ung; rcbn; lra. }
      pose proof (dotR_pos e ZE). nra. }
    assert (CW : c1 = w \/ c2 = w).
    { assert (G1 : side (z, f) g - side (z, f) h = s1 * (dotR e g - dotR e h)) by (rewrite !H1; unfold dotR; ung; rring).
      assert (G2 : side (t, u) g - side (t, u) h = - s2 * (dotR e g - dotR e h)) by (rewrite !H2; unfold dotR; ung; rring).
      assert (K1 : side (z, f) g = s1 * (dotR e g - dotR e f)) by (rewrite !H1; unfold dotR; ung; rring).
      assert (K2 : side (t, u) g = - s2 * (dotR e g - dotR e t)) by (rewrite !H2; unfold dotR; ung; rring).
      destruct (Req_EM_T (side (z, f) g) (side (z, f) h)) as [E|_]; [exfalso; apply NZ; nra|].
      destruct (Req_EM_T (side (t, u) g) (side (t, u) h)) as [E|_]; [exfalso; apply NZ; nra|].
      rewrite G1, K1 in D1. rewrite G2, K2 in D2.
      set (a := dotR e g) in *. set (b := dotR e h) in *. set (lo := dotR e f) in *. set (hi := dotR e t) in *.
      assert (T1 : s1 * (a - lo) / (s1 * (a - b)) = (a - lo) / (a - b)) by (field; split; intros ZZ; lra).
      assert (T2 : - s2 * (a - hi) / (- s2 * (a - b)) = (a - hi) / (a - b)) by (field; split; intros ZZ; lra).
      rewrite T1 in D1. rewrite T2 in D2.
      assert (C0 : forall q, q <= 0 -> at_param g h (clamp01 q) = g).
      { intros q Q. replace (clamp01 q) with 0; [apply at_param_0|]. unfold clamp01. destruct (Rlt_dec q 0); [reflexivity|]. destruct (Rlt_dec 1 q); lra. }
      assert (C1 : forall q, 1 <= q -> at_param g h (clamp01 q) = h).
      { intros q Q. replace (clamp01 q) with 1; [apply at_param_1|]. unfold clamp01. destruct (Rlt_dec q 0); [lra|]. destruct (Rlt_dec 1 q); lra. }
      assert (QL : forall x, (a - x) / (a - b) * (a - b) = a - x) by (intros x; field; intros ZZ; apply NZ; lra).
      pose proof (QL lo) as Q1. pose proof (QL hi) as Q2. set (q1 := (a - lo) / (a - b)) in *. set (q2 := (a - hi) / (a - b)) in *. clearbody q1 q2.
      destruct (fa_end _ _ _ _ _ _ FI) as [->| ->]; fold a b in BETW; destruct (Rlt_dec a b) as [LT|GE].
      - left. rewrite <- D1. apply C0. nra.
      - right. rewrite <- D2. apply C0. nra.
      - right. rewrite <- D2. apply C1. nra.
      - left. rewrite <- D1. apply C1. nra. }
    apply (FIND w); [|reflexivity]. apply IN. split; [destruct CW; auto|]. apply BEHIND. reflexivity.
Qed.
End Side.

(** ** update *)
Lemma overlap_boxes A B : A <> [] -> B <> [] -> overlap A B -> exists ba bb, box_of_vertices A = Some ba /\ box_of_vertices B = Some bb /\ box_overlaps ba bb = true.
Proof.
  intros NA NB OV. destruct (box_of_vertices A) as [ba|] eqn:EA; [|apply box_of_vertices_none in EA; contradiction].
  destruct (box_of_vertices B) as [bb|] eqn:EB; [|apply box_of_vertices_none in EB; contradiction].
  exists ba, bb. split; [reflexivity|]. split; [reflexivity|].
  assert (OK : forall vs : list Rv, Forall (okv okR) vs) by (intros; apply Forall_forall; intros; split; exact Logic.I).
  destruct (box_of_vertices_spec A ba (OK A) EA) as (_ & IA & _). destruct (box_of_vertices_spec B bb (OK B) EB) as (_ & IB & _).
  assert (IN : forall (v : Rv) b, inside v b -> vx (bmin b) <= vx v <= vx (bmax b) /\ vy (bmin b) <= vy v <= vy (bmax b)).
  { intros v b (H1 & H2 & H3 & H4). cbn [kltb RNum] in *. unfold Rltb in *.
    repeat match goal with H : (if Rlt_dec ?x ?y then true else false) = false |- _ => destruct (Rlt_dec x y); [discriminate|] end. rcbn. lra. }
  assert (G : forall d : Rv, ~ zero d -> exists a b, inside a ba /\ inside b bb /\ dotR b d < dotR a d).
  { intros d ZD. destruct (OV d ZD) as (a & b & Ia & Ib & L). exists a, b. auto. }
  destruct (G (rv 1 0)) as (a1 & b1 & Ia1 & Ib1 & L1); [intros [X _]; cbn in X; rcbn; lra|].
  destruct (G (rv (-1) 0)) as (a2 & b2 & Ia2 & Ib2 & L2); [intros [X _]; cbn in X; rcbn; lra|].
  destruct (G (rv 0 1)) as (a3 & b3 & Ia3 & Ib3 & L3); [intros [_ X]; cbn in X; rcbn; lra|].
  destruct (G (rv 0 (-1))) as (a4 & b4 & Ia4 & Ib4 & L4); [intros [_ X]; cbn in X; rcbn; lra|].
  apply IN in Ia1, Ib1, Ia2, Ib2, Ia3, Ib3, Ia4, Ib4. unfold dotR, rv in *. cbn [vx vy] in *.
  change (@K RNum) with R in *.
  apply R_overlaps_spec. exists (rv (Rmax (vx (bmin ba)) (vx (bmin bb))) (Rmax (vy (bmin ba)) (vy (bmin bb)))).
  split; [split; exact Logic.I|]. unfold rv, Rmax. split; apply R_inside; cbn [vx vy]; destruct (Rle_dec _ _), (Rle_dec _ _); lra.
Qed.

(** p is a shortest translation of B after which a line separates A and B *)
Definition shortest_exit (A B : list Rv) (p : Rv) : Prop :=
  (exists n, ~ zero n /\ forall a b, In a A -> In b (moved p B) -> dotR a n <= dotR b n) /\
  (forall t, dotR t t < dotR p p -> overlap A (moved t B)).

Lemma pen_facts A B dir fuel : A <> [] -> B <> [] -> overlap A B -> (length A * length B + 3 < fuel)%nat ->
  exists g p, make_gjk fuel A B dir = Ret g /\ gjk_penetration fuel g = Ret p /\ pushes A B p /\ shortest_exit A B p.
Proof.
  intros NA NB OV F. destruct (epa_core A B dir fuel NA NB OV F) as (g & p & E1 & _ & E2 & PU).
  destruct (epa_correct A B dir fuel NA NB OV F) as (g' & p' & E1' & _ & E2' & _ & S1 & S2).
  assert (g' = g) by congruence. subst g'. assert (p' = p) by congruence. subst p'. exists g, p. repeat split; auto; apply PU.
Qed.

(** the two sides found, and which is the reference *)
Record manifold_of (A B : list Rv) (p : Rv) (ref0 : bool) (inc ref : list Rv) : Prop := {
  mo_len : (length inc <= 2)%nat;
  mo_nd : NoDup inc;
  mo_pts : forall i c r, nth_error inc i = Some c -> nth_error ref i = Some r ->
     boundary (if ref0 then B else A) c /\ boundary (if ref0 then A else B) r /\
     exists depth, 0 <= depth <= nrm p /\ depth * nrm p = dotR (vsub r c) (if ref0 then p else vopp p) }.

Lemma vopp_nz (d : Rv) : ~ zero d -> ~ zero (vopp d).
Proof. unfold zero. intros H [X Y]. apply H. ung. rcbn. lra. Qed.
Lemma nrm_opp (d : Rv) : nrm (vopp d) = nrm d.
Proof. unfold nrm. f_equal. unfold dotR. ung. rring. Qed.
Lemma dot_opp (x d : Rv) : dotR x (vopp d) = - dotR x d.
Proof. unfold dotR. ung. rring. Qed.
Lemma vopp_opp (d : Rv) : vopp (vopp d) = d.
Proof. apply v_ext; ung; rring. Qed.

Lemma veq_dec (a b : Rv) : a = b \/ a <> b.
Proof.
  destruct (Req_dec (vx a) (vx b)) as [X|X]; [|right; intros ->; congruence].
  destruct (Req_dec (vy a) (vy b)) as [Y|Y]; [left; apply v_ext; auto|right; intros ->; congruence].
Qed.
(** a line along a side of a convex polygon passes through no further vertex *)
Lemma side_ends V (d f t a : Rv) : convex V -> ~ zero d -> In (f, t) (cyc V) -> In a V -> dotR t d = dotR f d -> dotR a d = dotR f d -> a = f \/ a = t.
Proof.
  intros CV ZD IE Ia ET EA. destruct (veq_dec a f) as [|N1]; [auto|]. destruct (veq_dec a t) as [|N2]; [auto|]. exfalso.
  assert (S0 : 0 < side (f, t) a) by (apply CV; auto). unfold side in S0. cbn [fst snd] in S0. pose proof (dotR_pos d ZD) as PD.
  assert (ID : dotR d d * cr (vsub t f) (vsub a f) = dotR (vsub t f) d * cr d (vsub a f) - cr d (vsub t f) * dotR (vsub a f) d) by (unfold cr, dotR; ring).
  assert (Z1 : dotR (vsub t f) d = 0) by (unfold dotR in *; ung; rcbn; lra).
  assert (Z2 : dotR (vsub a f) d = 0) by (unfold dotR in *; ung; rcbn; lra).
  rewrite Z1, Z2 in ID. nra.
Qed.

Lemma seg_order (f t : Rv) : dotR (vsub t f) f <= dotR (vsub t f) t.
Proof.
  assert (E : dotR (vsub t f) t - dotR (vsub t f) f = dotR (vsub t f) (vsub t f)) by (unfold dotR; ung; rring).
  assert (0 <= dotR (vsub t f) (vsub t f)) by (unfold dotR; nra). lra.
Qed.
(** moving perpendicularly to the side *)
Lemma seg_shift (e a1 a2 b1 b2 p : Rv) : dotR e p = 0 -> on_segment (vsub a1 b1) (vsub a2 b2) p -> exists u, 0 <= u <= 1 /\
  (1 - u) * dotR e a1 + u * dotR e a2 = (1 - u) * dotR e b1 + u * dotR e b2.
Proof.
  intros Z0 (u & U & UX & UY). exists u. split; [exact U|]. unfold dotR in *. rewrite UX, UY in Z0. revert Z0. ung. rcbn. intros Z0.
  change (@K RNum) with R in *. lra.
Qed.

(** what is found for a penetration p *)
Definition square_at (V : list Rv) : Prop := forall f t, In (f, t) (cyc V) -> squared V f t.
Lemma update_found A B p fuel m p0 p1 g : convex A -> convex B -> ~ zero p ->
  (forall a b, In a A -> In b B -> dotR a p <= dotR b p + dotR p p) ->
  (exists a1 b1 a2 b2, In a1 A /\ In b1 B /\ In a2 A /\ In b2 B /\ vsub a1 b1 <> vsub a2 b2 /\
    dotR a1 p = dotR b1 p + dotR p p /\ dotR a2 p = dotR b2 p + dotR p p /\ on_segment (vsub a1 b1) (vsub a2 b2) p) ->
  make_gjk fuel A B (if Nat.eqb (mf_n m) 0 then vsub (p_centroid p1) (p_centroid p0)
    else rot_apply (t_rot (to_world (if negb (mf_ref0 m) then p1 else p0))) (mf_normal m)) = Ret g -> gjk_penetration fuel g = Ret p ->
  (exists ba bb, box_of_vertices A = Some ba /\ box_of_vertices B = Some bb /\ box_overlaps ba bb = true) ->
  mf_minPen m * mf_minPen m <= dotR p p ->
  exists (ref0 : bool) nor inc ref, vscale (N := RNum) (nrm p) nor = (if ref0 then p else vopp p) /\
    length ref = length inc /\ manifold_of A B p ref0 inc ref /\
    (square_at A -> square_at B -> exists i c r, nth_error inc i = Some c /\ nth_error ref i = Some r /\
       dotR (vsub r c) (if ref0 then p else vopp p) = dotR p p) /\
    man_update fuel m p0 p1 A B =
      Ret (Mf (length inc) (fun b : bool => put (if b then map (tf_apply (to_local p1)) (if ref0 then inc else ref) else map (tf_apply (to_local p0)) (if ref0 then ref else inc)) (mf_c m b))
             (rot_apply (t_rot (to_local (if negb ref0 then p1 else p0))) nor) ref0 (mf_minPen m)).
Proof.
  intros CA CB ZP HP (a1 & b1 & a2 & b2 & Ia1 & Ib1 & Ia2 & Ib2 & NE & E1 & E2 & OS) EG EP (ba & bb & EA & EB & EO) MP.
  pose proof (vopp_nz p ZP) as ZP'.
  destruct (contact_edge_faces A p CA ZP) as (k & v & f & t & CE1 & Iv & FA).
  destruct (contact_edge_faces B (vopp p) CB ZP') as (j & w & gg & h & CE2 & Iw & FB).
  pose proof (fa_max _ _ _ _ _ _ FA) as MA. pose proof (fa_max _ _ _ _ _ _ FB) as MB.
  assert (MB' : forall x, In x B -> dotR w p <= dotR x p) by (intros x Ix; pose proof (MB x Ix) as H; rewrite !dot_opp in H; lra).
  assert (DEPTH : dotR v p - dotR w p = dotR p p).
  { pose proof (HP v w Iv Iw). pose proof (MA a1 Ia1). pose proof (MB' b1 Ib1). lra. }
  pose proof (MA a1 Ia1) as Ma1. pose proof (MA a2 Ia2) as Ma2. pose proof (MB' b1 Ib1) as Mb1. pose proof (MB' b2 Ib2) as Mb2.
  pose proof (nrm_pos p ZP) as NP. pose proof (nrm_sq p) as NQ. pose proof (dotR_pos p ZP) as PP.
  assert (SD : man_update fuel m p0 p1 A B =
    (let* cs := (if Rlt_dec (coef (gg, h) (vopp p)) (coef (f, t) p) then compute_contacts A (edge_to (length A) k) (gg, h) (edge_normalizedNormal (f, t))
                 else compute_contacts B (edge_to (length B) j) (f, t) (edge_normalizedNormal (gg, h))) in
     let '(inc, ref) := cs in
     let ref0 := if Rlt_dec (coef (gg, h) (vopp p)) (coef (f, t) p) then true else false in
     Ret (Mf (length inc) (fun b : bool => put (if b then map (tf_apply (to_local p1)) (if ref0 then inc else ref) else map (tf_apply (to_local p0)) (if ref0 then ref else inc)) (mf_c m b))
             (rot_apply (t_rot (to_local (if negb ref0 then p1 else p0))) (if ref0 then edge_normalizedNormal (f, t) else edge_normalizedNormal (gg, h))) ref0 (mf_minPen m)))%out).
  { unfold man_update. rewrite EA, EB. cbn [of_option obind]. rewrite EO. cbn [negb]. rewrite EG. cbn [obind]. rewrite EP. cbn [obind].
    assert (NS : (vnormsq p <? mf_minPen m * mf_minPen m)%num = false).
    { cbn [kltb RNum]. unfold vnormsq. rewrite vdot_R. unfold Rltb. destruct (Rlt_dec _ _); [rcbn; lra|reflexivity]. }
    rewrite NS, CE1, CE2. cbn [obind]. rewrite (fa_edge _ _ _ _ _ _ FA), (fa_edge _ _ _ _ _ _ FB). cbn [obind].
    fold (coef (f, t) p) (coef (gg, h) (vopp p)). cbn [kltb RNum]. unfold Rltb.
    destruct (Rlt_dec (coef (gg, h) (vopp p)) (coef (f, t) p)); reflexivity. }
  destruct (coef_le f t p (fa_ne _ _ _ _ _ _ FA)) as (LA & _). destruct (coef_le gg h (vopp p) (fa_ne _ _ _ _ _ _ FB)) as (LB & _). rewrite nrm_opp in LB.
  pose proof (fa_tie _ _ _ _ _ _ FA) as TA. pose proof (fa_tie _ _ _ _ _ _ FB) as TB. rewrite nrm_opp in TB.
  assert (TIE : coef (f, t) p = nrm p \/ (coef (gg, h) (vopp p) = nrm p)).
  { assert (EqA : forall x, In x A -> dotR x p = dotR v p -> x = v \/ coef (f, t) p = nrm p).
    { intros x Ix Ex. destruct (Req_dec (vx x) (vx v)) as [X|X]; [destruct (Req_dec (vy x) (vy v)) as [Y|Y]|]; [left; apply v_ext; auto| |];
        right; apply TA; exists x; (split; [exact Ix|split; [|exact Ex]]); intros ->; congruence. }
    assert (EqB : forall x, In x B -> dotR x p = dotR w p -> x = w \/ coef (gg, h) (vopp p) = nrm p).
    { intros x Ix Ex. destruct (Req_dec (vx x) (vx w)) as [X|X]; [destruct (Req_dec (vy x) (vy w)) as [Y|Y]|]; [left; apply v_ext; auto| |];
        right; apply TB; exists x; (split; [exact Ix|split; [|rewrite !dot_opp; lra]]); intros ->; congruence. }
    destruct (EqA a1 Ia1 ltac:(lra)) as [->|]; [|auto]. destruct (EqA a2 Ia2 ltac:(lra)) as [->|]; [|auto].
    destruct (EqB b1 Ib1 ltac:(lra)) as [->|]; [|auto]. destruct (EqB b2 Ib2 ltac:(lra)) as [->|]; [|auto]. congruence. }
  destruct (Rlt_dec (coef (gg, h) (vopp p)) (coef (f, t) p)) as [LT|GE].
  - (* the reference is A *)
    assert (EX : coef (f, t) p = nrm p) by (destruct TIE; lra).
    destruct (ref_normal A p ZP v k f t FA EX) as (NO & TF & TT). set (nor := edge_normalizedNormal (f, t)) in *.
    destruct (ref_contacts A B p ZP CA v w k j f t gg h FA FB EX) as (inc & EC & L & ND & PT). fold nor in EC, PT. cbv zeta in EC, PT.
    set (ref := map (fun c => lb_closest (line_barycentric f t c)) inc) in *.
    exists true, nor, inc, ref. split; [exact NO|]. split; [apply map_length|]. split; [|split].
    + constructor; auto. intros i c r Ec Er. destruct (PT i c r Ec Er) as (P1 & P2 & _ & P3 & P4). split; [exact P1|]. split; [exact P2|].
      exists (dotR (vsub r c) nor). rewrite DEPTH in P4. split; [split; [exact P3|]; apply (Rmult_le_reg_l (nrm p)); lra|].
      rewrite (ref_dot A p ZP v k f t FA EX). fold nor. ring.
    + intros SQ _. destruct (deepest_found A B p ZP CA v w k j f t gg h FA FB Iw EX inc ref) as (i & c & r & Ec & Er & ED); auto.
      * apply SQ. exact (fa_in _ _ _ _ _ _ FA).
      * (* the deepest point is above the reference side *)
        destruct (Req_dec (coef (gg, h) (vopp p)) (nrm p)) as [Q|Q]; [left; exact Q|right].
        assert (EqB : forall x, In x B -> dotR x p = dotR w p -> x = w).
        { intros x Ix Ex. destruct (Req_dec (vx x) (vx w)) as [X|X]; [destruct (Req_dec (vy x) (vy w)) as [Y|Y]|]; [apply v_ext; auto| |];
            exfalso; apply Q; apply TB; exists x; (split; [exact Ix|split; [|rewrite !dot_opp; lra]]); intros ->; congruence. }
        assert (b1 = w) by (apply EqB; auto; lra). assert (b2 = w) by (apply EqB; auto; lra). subst b1 b2.
        assert (ENDS : forall a, In a A -> dotR a p = dotR v p -> a = f \/ a = t).
        { intros a Ia Ea. apply (side_ends A p f t a CA ZP (fa_in _ _ _ _ _ _ FA) Ia); lra. }
        assert (BE : forall a, In a A -> dotR a p = dotR v p -> dotR (vsub t f) f <= dotR (vsub t f) a <= dotR (vsub t f) t).
        { pose proof (seg_order f t) as G.
          intros a Ia Ea. destruct (ENDS a Ia Ea) as [-> | ->]; lra. }
        pose proof (BE a1 Ia1 ltac:(lra)) as G1. pose proof (BE a2 Ia2 ltac:(lra)) as G2.
        assert (Z0 : dotR (vsub t f) p = 0) by (rewrite dot_sub; lra).
        destruct (seg_shift (vsub t f) _ _ _ _ p Z0 OS) as (u & U & EW). nra.
      * lra.
      * exists i, c, r. split; [exact Ec|]. split; [exact Er|]. rewrite (ref_dot A p ZP v k f t FA EX (vsub r c)). fold nor. fold nor in ED. lra.
    + rewrite SD, EC. cbn [obind]. reflexivity.
  - (* the reference is B *)
    assert (EX : coef (gg, h) (vopp p) = nrm (vopp p)) by (rewrite nrm_opp; destruct TIE; lra).
    assert (FA' : faces A (vopp (vopp p)) v k f t) by (rewrite vopp_opp; exact FA).
    destruct (ref_normal B (vopp p) ZP' w j gg h FB EX) as (NO & TF & TT). set (nor := edge_normalizedNormal (gg, h)) in *. rewrite nrm_opp in NO.
    destruct (ref_contacts B A (vopp p) ZP' CB w v j k gg h f t FB FA' EX) as (inc & EC & L & ND & PT). fold nor in EC, PT. cbv zeta in EC, PT.
    set (ref := map (fun c => lb_closest (line_barycentric gg h c)) inc) in *.
    assert (DEPTH' : dotR w (vopp p) - dotR v (vopp p) = dotR p p) by (rewrite !dot_opp; lra).
    exists false, nor, inc, ref. split; [exact NO|]. split; [apply map_length|]. split; [|split].
    + constructor; auto. intros i c r Ec Er. destruct (PT i c r Ec Er) as (P1 & P2 & _ & P3 & P4). split; [exact P1|]. split; [exact P2|].
      exists (dotR (vsub r c) nor). rewrite DEPTH', nrm_opp in P4. split; [split; [exact P3|]; apply (Rmult_le_reg_l (nrm p)); lra|].
      rewrite (ref_dot B (vopp p) ZP' w j gg h FB EX), nrm_opp. fold nor. ring.
    + intros _ SQ. destruct (deepest_found B A (vopp p) ZP' CB w v j k gg h f t FB FA' Iv EX inc ref) as (i & c & r & Ec & Er & ED); auto.
      * apply SQ. exact (fa_in _ _ _ _ _ _ FB).
      * rewrite vopp_opp, nrm_opp. destruct (Req_dec (coef (f, t) p) (nrm p)) as [Q|Q]; [left; exact Q|right].
        assert (EqA : forall x, In x A -> dotR x p = dotR v p -> x = v).
        { intros x Ix Ex. destruct (Req_dec (vx x) (vx v)) as [X|X]; [destruct (Req_dec (vy x) (vy v)) as [Y|Y]|]; [apply v_ext; auto| |];
            exfalso; apply Q; apply TA; exists x; (split; [exact Ix|split; [|exact Ex]]); intros ->; congruence. }
        assert (a1 = v) by (apply EqA; auto; lra). assert (a2 = v) by (apply EqA; auto; lra). subst a1 a2.
        rewrite !dot_opp in TF, TT.
        assert (ENDS : forall b, In b B -> dotR b p = dotR w p -> b = gg \/ b = h).
        { intros a Ia Ea. apply (side_ends B p gg h a CB ZP (fa_in _ _ _ _ _ _ FB) Ia); lra. }
        assert (BE : forall b, In b B -> dotR b p = dotR w p -> dotR (vsub h gg) gg <= dotR (vsub h gg) b <= dotR (vsub h gg) h).
        { pose proof (seg_order gg h) as G.
          intros b Ib Eb. destruct (ENDS b Ib Eb) as [-> | ->]; lra. }
        pose proof (BE b1 Ib1 ltac:(lra)) as G1. pose proof (BE b2 Ib2 ltac:(lra)) as G2.
        assert (Z0 : dotR (vsub h gg) p = 0) by (rewrite dot_sub; lra).
        destruct (seg_shift (vsub h gg) _ _ _ _ p Z0 OS) as (u & U & EW). nra.
      * rewrite !dot_opp. lra.
      * exists i, c, r. split; [exact Ec|]. split; [exact Er|]. rewrite (ref_dot B (vopp p) ZP' w j gg h FB EX (vsub r c)), nrm_opp. fold nor. fold nor in ED. rewrite nrm_opp in ED. lra.
    + rewrite SD, EC. cbn [obind]. reflexivity.
Qed.

(** ** The contacts in the world *)
(** what the frame of a manifold tells the contact constraint; [p] is the
    translation separating the second collider from the first *)
Record contact_frame (A B : list Rv) (p : Rv) (F : frame (N := RNum)) : Prop := {
  cf_count : (fr_n F <= 2)%nat;
  cf_normal : vscale (N := RNum) (nrm p) (fr_normal F) = vopp p;
  cf_tangent : fr_tangent F = vperp (fr_normal F);
  cf_first : forall i, (i < fr_n F)%nat -> boundary A (fr_c F false i);
  cf_second : forall i, (i < fr_n F)%nat -> boundary B (fr_c F true i);
  cf_depth : forall i, (i < fr_n F)%nat -> 0 <= dotR (vsub (fr_c F true i) (fr_c F false i)) (fr_normal F) <= nrm p;
  cf_distinct : fr_n F = 2%nat -> exists b, fr_c F b 0%nat <> fr_c F b 1%nat }.
Definition full_depth (p : Rv) (F : frame (N := RNum)) : Prop :=
  exists i, (i < fr_n F)%nat /\ dotR (vsub (fr_c F true i) (fr_c F false i)) (fr_normal F) = nrm p.

Lemma world_transform p : is_rotation (p_rot p) -> is_transform (to_world p).
Proof. intros H. unfold to_world. apply it_Tt, it_tr, H. Qed.

Theorem update_overlapping A B fuel (m : manifold (N := RNum)) p0 p1 : convex A -> convex B -> is_rotation (p_rot p0) -> is_rotation (p_rot p1) ->
  overlap A B -> (length A * length B + 3 < fuel)%nat ->
  exists m' p, man_update fuel m p0 p1 A B = Ret m' /\ shortest_exit A B p /\ mf_minPen m' = mf_minPen m /\
    let F := frame_of m' (to_world p0) (to_world p1) in
    (dotR p p < mf_minPen m * mf_minPen m -> fr_n F = 0%nat) /\
    (mf_minPen m * mf_minPen m <= dotR p p -> contact_frame A B p F /\ (square_at A -> square_at B -> full_depth p F)).
Proof.
  intros CA CB R0 R1 OV FU. pose proof (convex_ne A CA) as NA. pose proof (convex_ne B CB) as NB.
  pose proof (overlap_boxes A B NA NB OV) as BX.
  set (dir := if Nat.eqb (mf_n m) 0 then vsub (p_centroid p1) (p_centroid p0)
    else rot_apply (t_rot (to_world (if negb (mf_ref0 m) then p1 else p0))) (mf_normal m)).
  destruct (pen_facts A B dir fuel NA NB OV FU) as (g & p & EG & EP & PU & SE).
  destruct (push_dir A B p NA NB OV PU) as (ZP & HP & WIT). pose proof (nrm_pos p ZP) as NP. pose proof (nrm_sq p) as NQ.
  destruct (Rlt_dec (dotR p p) (mf_minPen m * mf_minPen m)) as [LT|GE].
  - exists (mf_clear m), p. split; [|split; [exact SE|split; [reflexivity|split; [reflexivity|intros H; exfalso; lra]]]].
    destruct BX as (ba & bb & EA & EB & EO).
    unfold man_update. rewrite EA, EB. cbn [of_option obind]. rewrite EO. cbn [negb]. fold dir. rewrite EG. cbn [obind]. rewrite EP. cbn [obind].
    assert (NS : (vnormsq p <? mf_minPen m * mf_minPen m)%num = true).
    { cbn [kltb RNum]. unfold vnormsq. rewrite vdot_R. unfold Rltb. destruct (Rlt_dec _ _); [reflexivity|rcbn; lra]. }
    rewrite NS. reflexivity.
  - assert (MP : mf_minPen m * mf_minPen m <= dotR p p) by lra.
    destruct (update_found A B p fuel m p0 p1 g CA CB ZP HP WIT EG EP BX MP) as (ref0 & nor & inc & ref & NO & LR & MO & FD & EU).
    eexists. exists p. split; [exact EU|]. split; [exact SE|]. split; [reflexivity|]. cbv zeta. split; [intros H; exfalso; lra|]. intros _.
    set (F := frame_of _ _ _).
    assert (FN : fr_n F = length inc) by reflexivity.
    assert (W0 : is_transform (to_world p0)) by (apply world_transform; exact R0).
    assert (W1 : is_transform (to_world p1)) by (apply world_transform; exact R1).
    assert (NORM : vscale (N := RNum) (nrm p) (fr_normal F) = vopp p /\ fr_tangent F = vperp (fr_normal F)).
    { unfold F, frame_of. cbn [mf_ref0 mf_normal fr_normal fr_tangent].
      assert (EN : rot_apply (t_rot (if negb ref0 then to_world p1 else to_world p0)) (rot_apply (t_rot (to_local (if negb ref0 then p1 else p0))) nor) = nor).
      { unfold to_local. destruct ref0; cbn [negb]; apply inv_rot; assumption. }
      rewrite EN. destruct ref0.
      - split; [|reflexivity]. transitivity (vopp (vscale (N := RNum) (nrm p) nor)); [apply v_ext; ung; rring|rewrite NO; reflexivity].
      - split; [exact NO|reflexivity]. }
    destruct NORM as [NRM TAN].
    assert (PTS : forall i, (i < length inc)%nat -> exists c r, nth_error inc i = Some c /\ nth_error ref i = Some r /\
              fr_c F ref0 i = c /\ fr_c F (negb ref0) i = r).
    { intros i Hi. destruct (nth_error inc i) as [c|] eqn:Ec; [|apply nth_error_None in Ec; lia].
      destruct (nth_error ref i) as [r|] eqn:Er; [|apply nth_error_None in Er; lia].
      exists c, r. split; [reflexivity|]. split; [reflexivity|]. unfold F, frame_of. cbn [fr_c mf_c].
      unfold put, to_local. destruct ref0; cbn [negb]; rewrite !nth_error_map, Ec, Er; cbn [option_map]; split; apply inv_tf; assumption. }
    assert (DOT : forall i c r, fr_c F ref0 i = c -> fr_c F (negb ref0) i = r ->
              nrm p * dotR (vsub (fr_c F true i) (fr_c F false i)) (fr_normal F) = dotR (vsub r c) (if ref0 then p else vopp p)).
    { intros i c r Ec Er.
      assert (SC : forall x : Rv, nrm p * dotR x (fr_normal F) = dotR x (vopp p)).
      { intros x. rewrite <- NRM. unfold dotR, vscale. cbn [vx vy]. rring. }
      rewrite SC. destruct ref0; cbn [negb] in Er; rewrite Ec, Er; [|reflexivity]. unfold dotR. ung. rring. }
    split.
    + constructor; auto.
      * rewrite FN. apply MO.
      * rewrite FN. intros i Hi. destruct (PTS i Hi) as (c & r & Ec & Er & HC & HR). destruct (mo_pts _ _ _ _ _ _ MO i c r Ec Er) as (B1 & B2 & _).
        destruct ref0; cbn [negb] in HR; rewrite ?HC, ?HR; assumption.
      * rewrite FN. intros i Hi. destruct (PTS i Hi) as (c & r & Ec & Er & HC & HR). destruct (mo_pts _ _ _ _ _ _ MO i c r Ec Er) as (B1 & B2 & _).
        destruct ref0; cbn [negb] in HR; rewrite ?HC, ?HR; assumption.
      * rewrite FN. intros i Hi. destruct (PTS i Hi) as (c & r & Ec & Er & HC & HR).
        destruct (mo_pts _ _ _ _ _ _ MO i c r Ec Er) as (_ & _ & dep & D1 & D2). rewrite <- (DOT i c r HC HR) in D2.
        set (q := dotR _ (fr_normal F)) in *. clearbody q. assert (dep = q) by (apply (Rmult_eq_reg_l (nrm p)); lra). lra.
      * rewrite FN. intros L2. exists ref0. destruct (PTS 0%nat) as (c & r & Ec & Er & HC & HR); [lia|]. destruct (PTS 1%nat) as (c' & r' & Ec' & Er' & HC' & HR'); [lia|].
        rewrite HC, HC'. pose proof (mo_nd _ _ _ _ _ _ MO) as ND. rewrite NoDup_nth_error in ND. intros ->.
        assert (0 = 1)%nat by (apply ND; [lia|congruence]). discriminate.
    + intros SA SB. destruct (FD SA SB) as (i & c & r & Ec & Er & ED). exists i.
      assert (Hi : (i < length inc)%nat) by (apply nth_error_Some; congruence). split; [exact Hi|].
      destruct (PTS i Hi) as (c' & r' & Ec' & Er' & HC & HR). assert (Xc : c' = c) by congruence. assert (Xr : r' = r) by congruence. rewrite Xc in HC. rewrite Xr in HR.
      pose proof (DOT i c r HC HR) as D. rewrite ED in D. apply (Rmult_eq_reg_l (nrm p)); lra.
Qed.

(** ** Two rectangles *)
Definition rectangle (vs : list Rv) : Prop := exists (o u : Rv) (s : R), ~ zero u /\ 0 < s /\
  vs = [o; vadd o u; vadd (vadd o u) (vscale (N := RNum) s (vperp u)); vadd o (vscale (N := RNum) s (vperp u))].

Lemma rectangle_convex vs : rectangle vs -> convex vs.
Proof.
  intros (o & u & s & ZU & S & ->). pose proof (dotR_pos u ZU) as PU. destruct o as [a b], u as [x y]. unfold dotR in PU. cbn [vx vy] in PU.
  change (@K RNum) with R in *. assert (PS : 0 < s * (x * x + y * y)) by (apply Rmult_lt_0_compat; lra).
  assert (PS2 : 0 < s * s * (x * x + y * y)) by (apply Rmult_lt_0_compat; nra).
  split; [cbn; lia|]. split.
  - repeat constructor; cbn [In]; intros H; repeat destruct H as [H|H]; try contradiction; injection H; ung; rcbn; intros; change (@K RNum) with R in *; nra.
  - intros e w IE Iw N1 N2. unfold cyc in IE. cbn in IE, Iw.
    repeat destruct IE as [<- | IE]; try contradiction; repeat destruct Iw as [<- | Iw]; try contradiction;
      cbn [fst snd] in N1, N2; try (exfalso; apply N1; reflexivity); try (exfalso; apply N2; reflexivity);
      unfold side, cr; cbn [fst snd]; ung; rcbn; change (@K RNum) with R in *; nra.
Qed.
Lemma rectangle_square vs : rectangle vs -> square_at vs.
Proof.
  intros RE. pose proof (rectangle_convex vs RE) as (_ & ND & _). destruct RE as (o & u & s & ZU & S & E).
  assert (PI : 0 < / s) by (apply Rinv_0_lt_compat; exact S).
  assert (EE : forall f t z w, In (f, t) (cyc vs) -> In (z, f) (cyc vs) -> In (t, w) (cyc vs) ->
     exists r, 0 < r /\ vsub z f = vscale (N := RNum) r (vperp (vsub t f)) /\ vsub w t = vscale (N := RNum) r (vperp (vsub t f))).
  { intros f t z w I0 I1 I2. subst vs. revert ND. set (v1 := vadd o u). set (v2 := vadd v1 (vscale (N := RNum) s (vperp u))). set (v3 := vadd o (vscale (N := RNum) s (vperp u))).
    fold v1 v2 v3 in I0, I1, I2. intros ND. unfold cyc in *. cbn in I0, I1, I2.
    assert (D01 : o <> v1 /\ o <> v2 /\ o <> v3 /\ v1 <> v2 /\ v1 <> v3 /\ v2 <> v3).
    { inversion_clear ND as [|? ? N1 N2]. inversion_clear N2 as [|? ? N3 N4]. inversion_clear N4 as [|? ? N5 _]. cbn in *. intuition congruence. }
    destruct D01 as (D1 & D2 & D3 & D4 & D5 & D6).
    assert (EQ : forall x y : R, x = y -> x = y) by auto.
    destruct I0 as [I0|[I0|[I0|[I0|[]]]]]; apply pair_equal_spec in I0; destruct I0 as [<- <-];
      (destruct I1 as [I1|[I1|[I1|[I1|[]]]]]; apply pair_equal_spec in I1; destruct I1 as [<- I1]; try congruence);
      (destruct I2 as [I2|[I2|[I2|[I2|[]]]]]; apply pair_equal_spec in I2; destruct I2 as [I2 <-]; try congruence);
      [exists (/ s)|exists s|exists (/ s)|exists s]; (split; [assumption|]); unfold v2, v3, v1; split; apply v_ext; ung; rcbn; change (@K RNum) with R in *; field; lra. }
  intros f t I0 z w I1 I2. destruct (EE f t z w I0 I1 I2) as (r & PR & E1 & E2). split; exists r; (split; [exact PR|]); intros x.
  - assert (Ez : z = vadd f (vscale (N := RNum) r (vperp (vsub t f)))) by (rewrite <- E1; apply v_ext; ung; rring).
    rewrite Ez. unfold side, cr, dotR. cbn [fst snd]. ung. rring.
  - assert (Ew : w = vadd t (vscale (N := RNum) r (vperp (vsub t f)))) by (rewrite <- E2; apply v_ext; ung; rring).
    rewrite Ew. unfold side, cr, dotR. cbn [fst snd]. ung. rring.
Qed.

Theorem update_rectangles A B fuel (m : manifold (N := RNum)) p0 p1 : rectangle A -> rectangle B -> is_rotation (p_rot p0) -> is_rotation (p_rot p1) ->
  overlap A B -> (length A * length B + 3 < fuel)%nat ->
  exists m' p, man_update fuel m p0 p1 A B = Ret m' /\ shortest_exit A B p /\
    (mf_minPen m * mf_minPen m <= dotR p p -> full_depth p (frame_of m' (to_world p0) (to_world p1))).
Proof.
  intros RA RB R0 R1 OV F. destruct (update_overlapping A B fuel m p0 p1) as (m' & p & E & SE & _ & _ & H); auto using rectangle_convex.
  exists m', p. split; [exact E|]. split; [exact SE|]. intros MP. apply H; auto using rectangle_square.
Qed.

(** ** Colliders which do not meet *)
Lemma convex_solid V : convex V -> solid V.
Proof.
  intros (L & ND & C). destruct V as [|a [|b [|c l]]]; cbn in L; try lia. exists a, b, c.
  split; [cbn; auto|]. split; [cbn; auto|]. split; [cbn; auto|].
  assert (S0 : 0 < side (a, b) c).
  { apply C; [unfold cyc; cbn; auto|cbn; auto| |]; cbn [fst snd]; intros ->; inversion_clear ND as [|? ? N1 N2].
    - apply N1. cbn. auto.
    - inversion_clear N2 as [|? ? N3 N4]. apply N3. cbn. auto. }
  unfold side, orient2, cr in *. cbn [fst snd] in *. revert S0. ung. rcbn. change (@K RNum) with R in *. intros S0 Q. nra.
Qed.

Theorem update_separate A B fuel (m : manifold (N := RNum)) p0 p1 : convex A -> convex B -> ~ meet A B -> (mf_minPen m : R) <> 0 -> (length A * length B + 3 < fuel)%nat ->
  exists m', man_update fuel m p0 p1 A B = Ret m' /\ fr_n (frame_of m' (to_world p0) (to_world p1)) = 0%nat /\ mf_minPen m' = mf_minPen m.
Proof.
  intros CA CB NM MP FU. pose proof (convex_ne A CA) as NA. pose proof (convex_ne B CB) as NB. exists (mf_clear m). split; [|split; reflexivity].
  unfold man_update. destruct (box_of_vertices A) as [ba|] eqn:EA; [|apply box_of_vertices_none in EA; contradiction].
  destruct (box_of_vertices B) as [bb|] eqn:EB; [|apply box_of_vertices_none in EB; contradiction]. cbn [of_option obind].
  destruct (box_overlaps ba bb); [|reflexivity]. cbn [negb].
  match goal with |- context [make_gjk fuel A B ?d] => destruct (gjk_solid A B d fuel) as (g & EG & HIT & _); auto using convex_solid end.
  rewrite EG. cbn [obind]. unfold gjk_penetration. destruct (gk_hit g) eqn:HI; [exfalso; apply NM, HIT; reflexivity|]. cbn [obind].
  assert (NS : (vnormsq v00 <? mf_minPen m * mf_minPen m)%num = true).
  { cbn [kltb RNum]. unfold vnormsq. rewrite vdot_R. unfold dotR, v00, Rltb. cbn [vx vy]. destruct (Rlt_dec _ _) as [|NL]; [reflexivity|exfalso]. apply NL. rcbn. nra. }
  rewrite NS. reflexivity.
Qed.

(** with a minimum penetration of 0, colliders which do not meet but whose boxes
    overlap make the update throw *)
Theorem update_zero A B fuel (m : manifold (N := RNum)) p0 p1 ba bb : convex A -> convex B -> ~ meet A B -> (mf_minPen m : R) = 0 -> (length A * length B + 3 < fuel)%nat ->
  box_of_vertices A = Some ba -> box_of_vertices B = Some bb -> box_overlaps ba bb = true ->
  man_update fuel m p0 p1 A B = Throw.
Proof.
  intros CA CB NM MP FU EA EB EO. pose proof (convex_ne A CA) as NA. pose proof (convex_ne B CB) as NB.
  unfold man_update. rewrite EA, EB. cbn [of_option obind]. rewrite EO. cbn [negb].
  match goal with |- context [make_gjk fuel A B ?d] => destruct (gjk_solid A B d fuel) as (g & EG & HIT & _); auto using convex_solid end.
  rewrite EG. cbn [obind]. unfold gjk_penetration. destruct (gk_hit g) eqn:HI; [exfalso; apply NM, HIT; reflexivity|]. cbn [obind].
  assert (NS : (vnormsq v00 <? mf_minPen m * mf_minPen m)%num = false).
  { cbn [kltb RNum]. unfold vnormsq. rewrite vdot_R. unfold dotR, v00, Rltb. cbn [vx vy]. destruct (Rlt_dec _ _) as [NL|]; [exfalso|reflexivity]. revert NL. rewrite MP. rcbn. lra. }
  rewrite NS. unfold contact_edge, furthest.
  assert (Z : vany_ne0 (N := RNum) v00 = false).
  { unfold vany_ne0, v00. cbn. unfold Reqb. destruct (Req_EM_T 0 0); [reflexivity|lra]. }
  rewrite Z. reflexivity.
Qed.

(** the tolerance is the combination of the materials and never changes *)
Lemma update_minPen {N : Num} {TR : Trig N} fuel (m m' : manifold) p0 p1 A B : man_update fuel m p0 p1 A B = Ret m' -> mf_minPen m' = mf_minPen m.
Proof.
  unfold man_update. destruct (of_option (box_of_vertices A)); cbn [obind]; try discriminate.
  destruct (of_option (box_of_vertices B)); cbn [obind]; try discriminate.
  destruct (negb _); [intros [= <-]; reflexivity|]. destruct (make_gjk _ _ _ _); cbn [obind]; try discriminate.
  destruct (gjk_penetration _ _); cbn [obind]; try discriminate. destruct (_ <? _)%num; [intros [= <-]; reflexivity|].
  repeat (match goal with |- obind ?x _ = _ -> _ => destruct x; cbn [obind]; try discriminate end).
  match goal with |- (let '(i, r) := ?x in _) = _ -> _ => destruct x end. intros [= <-]. reflexivity.
Qed.
Theorem manifold_tolerance {N : Num} {TR : Trig N} fuel (pen0 pen1 : comb) p0 p1 A B (ms : list (nat * position * position * list vec2 * list vec2)) (m m' : manifold) :
  make_manifold fuel pen0 pen1 p0 p1 A B = Ret m ->
  fold_left (fun om u => match om with Ret m => let '(f, q0, q1, a, b) := u in man_update f m q0 q1 a b | o => o end) ms (Ret m) = Ret m' ->
  mf_minPen m' = cb_value (comb_combine pen0 pen1).
Proof.
  intros E H. apply update_minPen in E. cbn [mf_minPen] in E. rewrite <- E. clear E. revert m H. induction ms as [|[[[[f q0] q1] a] b] ms IH]; intros m H; cbn [fold_left] in H.
  - injection H as <-. reflexivity.
  - destruct (man_update f m q0 q1 a b) as [m1| | |] eqn:U.
    + rewrite (IH m1 H). eapply update_minPen, U.
    + exfalso. clear -H. induction ms as [|[[[[? ?] ?] ?] ?] ms IH]; cbn in H; [discriminate|auto].
    + exfalso. clear -H. induction ms as [|[[[[? ?] ?] ?] ?] ms IH]; cbn in H; [discriminate|auto].
    + exfalso. clear -H. induction ms as [|[[[[? ?] ?] ?] ?] ms IH]; cbn in H; [discriminate|auto].
Qed.
