(** Facts on clipping, on the side of a convex polygon facing a direction, and
    on the contact points (C69-C72). *)
From Coq Require Import ZArith List Bool Reals Lra Psatz Lia Arith.
From Verif Require Import Num Outcome Box Mat MatFacts MatSolve Geom GeomClosest GeomPoly GeomArea GeomExamples Transform TransformFacts Body Gjk GjkFacts GjkEpa Constraint Contact Manifold.
Import ListNotations.
Local Open Scope R_scope.

(** ** clipInside *)
(** signed distance of x to the line through o, times the length of o *)
Definition side (o : Rv * Rv) (x : Rv) : R := cr (vsub (snd o) (fst o)) (vsub x (fst o)).
Definition at_param (g h : Rv) (u : R) : Rv := rv (vx g + (vx h - vx g) * u) (vy g + (vy h - vy g) * u).
Lemma at_param_on g h u : 0 <= u <= 1 -> on_segment g h (at_param g h u).
Proof. intros U. exists u. split; [exact U|]. unfold at_param, rv. cbn [vx vy]. split; rring. Qed.
Lemma at_param_0 g h : at_param g h 0 = g.
Proof. apply v_ext; unfold at_param, rv; cbn [vx vy]; rring. Qed.
Lemma at_param_1 g h : at_param g h 1 = h.
Proof. apply v_ext; unfold at_param, rv; cbn [vx vy]; rring. Qed.
Lemma clamp01_in u : 0 <= clamp01 u <= 1.
Proof. unfold clamp01. destruct (Rlt_dec u 0); [lra|]. destruct (Rlt_dec 1 u); lra. Qed.

Lemma clip_eq (g h : Rv) (o : Rv * Rv) : edge_clipInside (g, h) o =
  Ret (if Req_EM_T (side o g) (side o h) then g else at_param g h (clamp01 (side o g / (side o g - side o h)))).
Proof.
  destruct o as [a b]. unfold edge_clipInside. cbn [fst snd].
  assert (D : vdot (edge_direction (g, h)) (edge_normal (a, b)) = side (a, b) g - side (a, b) h).
  { unfold edge_normal, edge_direction, side, cr. cbn [fst snd]. unfold edge_direction. cbn [fst snd]. ung. rring. }
  rewrite D. cbn [keqb RNum]. change (@k0 RNum) with 0. destruct (Reqb_spec (side (a, b) g - side (a, b) h) 0) as [E|E].
  - destruct (Req_EM_T _ _) as [|N]; [reflexivity|exfalso; apply N; lra].
  - destruct (Req_EM_T _ _) as [N|_]; [exfalso; apply E; lra|].
    rewrite solve2_eq.
    + cbn [obind]. change (@k1 RNum) with 1. rewrite kclamp01. unfold at_param. cbn [vx].
      match goal with |- Ret (vadd g (vscale (clamp01 ?t) _)) = Ret (rv (_ + _ * clamp01 ?s) _) => assert (T : t = s) end.
      { clear - E. unfold side, cr, det2, edge_direction in *. cbn [fst snd m00 m01 m10 m11] in *. ung. rcbn. field. intros Z. apply E. rcbn. lra. }
      rewrite T. f_equal.
    + unfold det2. cbn [m00 m01 m10 m11]. intros Z. apply E. rewrite <- Z. unfold side, cr, edge_direction. cbn [fst snd]. ung. ring.
Qed.
Lemma side_param o g h u : side o (at_param g h u) = side o g + (side o h - side o g) * u.
Proof. unfold side, cr, at_param, rv. ung. ring. Qed.
(** a point of the edge nearest to the line *)
Lemma clip_nearest (g h : Rv) (o : Rv * Rv) : exists c, edge_clipInside (g, h) o = Ret c /\ on_segment g h c /\
  (forall q, on_segment g h q -> Rabs (side o c) <= Rabs (side o q)) /\ (side o g = side o h -> c = g).
Proof.
  rewrite clip_eq. eexists. split; [reflexivity|].
  assert (Q : forall q, on_segment g h q -> exists u, 0 <= u <= 1 /\ q = at_param g h u).
  { intros q (u & U & X & Y). exists u. split; [exact U|]. apply v_ext; unfold at_param, rv; cbn [vx vy]; rcbn; lra. }
  destruct (Req_EM_T (side o g) (side o h)) as [E|N].
  - split; [exists 0; split; [lra|]; split; rring|]. split; [|reflexivity].
    intros q Hq. destruct (Q q Hq) as (u & U & ->). rewrite side_param, <- E. replace (side o g + (side o g - side o g) * u) with (side o g) by ring. lra.
  - split; [apply at_param_on, clamp01_in|]. split; [|congruence].
    intros q Hq. destruct (Q q Hq) as (u & U & ->). rewrite !side_param. set (a := side o g) in *. set (b := side o h) in *.
    set (t := a / (a - b)). assert (T : a + (b - a) * t = 0) by (unfold t; field; intros Z; apply N; lra). clearbody t.
    unfold clamp01. destruct (Rlt_dec t 0) as [T0|T0]; [|destruct (Rlt_dec 1 t) as [T1|T1]].
    + replace (a + (b - a) * 0) with a by ring. replace a with ((a - b) * t) by lra.
      replace ((a - b) * t + (b - (a - b) * t) * u) with ((a - b) * (t - u)) by nra.
      rewrite !Rabs_mult. apply Rmult_le_compat_l; [apply Rabs_pos|]. rewrite !Rabs_left1 by lra. lra.
    + replace (a + (b - a) * 1) with b by ring. replace b with ((a - b) * (t - 1)) at 1 by lra.
      replace (a + (b - a) * u) with ((a - b) * (t - u)) by nra.
      rewrite !Rabs_mult. apply Rmult_le_compat_l; [apply Rabs_pos|]. rewrite !Rabs_right by lra. lra.
    + rewrite T, Rabs_R0. apply Rabs_pos.
Qed.

(** ** Convex polygons: counterclockwise, every vertex not on an edge strictly on its left *)
Definition convex (vs : list Rv) : Prop := (3 <= length vs)%nat /\ NoDup vs /\
  forall e w, In e (cyc vs) -> In w vs -> w <> fst e -> w <> snd e -> 0 < side e w.
Lemma convex_ne vs : convex vs -> vs <> [].
Proof. intros (H & _) ->. cbn in H. lia. Qed.

(** the edge iterators *)
Lemma cyc_nth {T} (vs : list T) k : (k < length vs)%nat -> exists f t,
  nth_error (cyc vs) k = Some (f, t) /\ nth_error vs ((k + length vs - 1) mod length vs) = Some f /\ nth_error vs k = Some t.
Proof.
  destruct vs as [|v vs]; [cbn; lia|]. intros H. rewrite cyc_cons. destruct k as [|k].
  - exists (last vs v), v. split; [reflexivity|]. split; [|reflexivity]. rewrite Nat.mod_small by (cbn [length]; lia).
    replace (0 + length (v :: vs) - 1)%nat with (length vs) by (cbn [length]; lia). apply nth_error_last.
  - replace (S k + length (v :: vs) - 1)%nat with (k + 1 * length (v :: vs))%nat by (cbn [length]; lia).
    rewrite Nat.mod_add, Nat.mod_small by (cbn [length] in *; lia). cbn [nth_error].
    assert (L : (k < length vs)%nat) by (cbn [length] in H; lia). clear H.
    assert (G : forall vs (v : T) k, (k < length vs)%nat -> exists f t, nth_error (path v vs) k = Some (f, t) /\ nth_error (v :: vs) k = Some f /\ nth_error vs k = Some t).
    { clear. induction vs as [|x vs IH]; intros v k H; [cbn in H; lia|]. destruct k as [|k]; [exists v, x; auto|].
      cbn [path nth_error] in *. apply IH. cbn [length] in H. lia. }
    apply G. exact L.
Qed.
Lemma edge_at_spec (vs : list Rv) k : (k < length vs)%nat -> exists f t, edge_at vs (edge_to (length vs) k) = Ret (f, t) /\
  nth_error (cyc vs) k = Some (f, t) /\ nth_error vs ((k + length vs - 1) mod length vs) = Some f /\ nth_error vs k = Some t.
Proof.
  intros H. destruct (cyc_nth vs k H) as (f & t & E1 & E2 & E3). exists f, t. split; [|auto].
  unfold edge_at, edge_to, deref. cbn [fst snd]. rewrite E2, E3. reflexivity.
Qed.
Lemma find_to_spec (vs : list Rv) es v k : NoDup vs -> nth_error vs k = Some v -> (forall j, (j <= k)%nat -> nth_error es j = Some (edge_to (length vs) j)) ->
  find_to vs es v = Ret (Some (edge_to (length vs) k)).
Proof.
  intros ND E. assert (KL : (k < length vs)%nat) by (apply nth_error_Some; congruence).
  enough (G : forall i es, (i <= k)%nat -> (forall j, (i <= j <= k)%nat -> nth_error es (j - i) = Some (edge_to (length vs) j)) ->
    find_to vs es v = Ret (Some (edge_to (length vs) k))).
  { intros H. apply (G O); [lia|]. intros j J. rewrite Nat.sub_0_r. apply H. lia. }
  intros i. remember (k - i)%nat as m eqn:M. revert i M. induction m as [|m IH]; intros i M fs I H.
  - assert (i = k) by lia. subst i. pose proof (H k ltac:(lia)) as H0. rewrite Nat.sub_diag in H0. destruct fs as [|e fs]; [discriminate|]. injection H0 as ->.
    cbn [find_to]. destruct (edge_at_spec vs k KL) as (f & t & -> & _ & _ & E3). cbn [obind snd].
    assert (t = v) by congruence. subst t. assert (X : vall_eq v v = true) by (apply vall_R; reflexivity). rewrite X. reflexivity.
  - pose proof (H i ltac:(lia)) as H0. rewrite Nat.sub_diag in H0. destruct fs as [|e fs]; [discriminate|]. injection H0 as ->.
    cbn [find_to]. destruct (edge_at_spec vs i ltac:(lia)) as (f & t & -> & _ & _ & E3). cbn [obind snd].
    destruct (vall_eq t v) eqn:X.
    + exfalso. apply vall_R in X. subst t. assert (i = k) by (apply (proj1 (NoDup_nth_error vs) ND); [lia|congruence]). lia.
    + apply (IH (S i)); [lia|lia|]. intros j J. specialize (H j ltac:(lia)). replace (j - i)%nat with (S (j - S i)) in H by lia. exact H.
Qed.

(** ** The side facing a direction *)
Definition coef (e : Rv * Rv) (d : Rv) : R := vdot (edge_normalizedNormal e) d.
Definition nrm (d : Rv) : R := sqrt (dotR d d).
Lemma nrm_pos d : ~ zero d -> 0 < nrm d.
Proof. intros H. apply sqrt_lt_R0, dotR_pos, H. Qed.
Lemma nrm_sq d : nrm d * nrm d = dotR d d.
Proof. apply sqrt_sqrt. unfold dotR. nra. Qed.
Lemma coef_eq f t d : f <> t -> coef (f, t) d * nrm (vsub t f) = cr d (vsub t f) /\ ~ zero (vsub t f).
Proof.
  intros NE. assert (Z : ~ zero (vsub t f)).
  { intros [X Y]. apply NE. apply v_ext; ung; rcbn; lra. }
  split; [|exact Z]. pose proof (nrm_pos _ Z) as P.
  assert (E : vnorm (edge_normal (f, t)) = nrm (vsub t f)).
  { unfold vnorm, nrm. cbn [ksqrt RNum]. f_equal. unfold edge_normal, edge_direction, dotR. cbn [fst snd]. ung. rring. }
  unfold coef, edge_normalizedNormal, vnormalized. rewrite E. unfold edge_normal, edge_direction, cr. cbn [fst snd]. unfold vdivs. ung. rcbn.
  field. intros ZZ. lra.
Qed.
Lemma coef_le f t d : f <> t -> coef (f, t) d <= nrm d /\ (coef (f, t) d = nrm d -> dotR d (vsub t f) = 0) /\
  (dotR d (vsub t f) = 0 -> 0 <= cr d (vsub t f) -> coef (f, t) d = nrm d).
Proof.
  intros NE. destruct (coef_eq f t d NE) as [E Z]. pose proof (nrm_pos _ Z) as P. pose proof (nrm_sq (vsub t f)) as Q.
  pose proof (nrm_sq d) as QD. pose proof (sqrt_pos (dotR d d)) as PD. fold (nrm d) in PD.
  pose proof (lagrange d (vsub t f)) as L. rewrite <- E, <- Q, <- QD in L. set (a := coef (f, t) d) in *. set (b := nrm d) in *. set (c := nrm (vsub t f)) in *.
  set (x := dotR d (vsub t f)) in *. clearbody a b c x.
  assert (L2 : a * a * (c * c) + x * x = b * b * (c * c)) by lra. assert (CC : 0 < c * c) by nra. split; [|split].
  - destruct (Rle_dec a b) as [|N]; [assumption|exfalso]. assert (b * b < a * a) by nra. nra.
  - intros ->. assert (x * x = 0) by lra. nra.
  - intros -> H. rewrite <- E in H. assert (a * a = b * b) by nra. assert (0 <= a) by nra. nra.
Qed.

Record faces (vs : list Rv) (d v : Rv) (k : nat) (f t : Rv) : Prop := {
  fa_k : (k < length vs)%nat;
  fa_edge : edge_at vs (edge_to (length vs) k) = Ret (f, t);
  fa_in : In (f, t) (cyc vs);
  fa_max : forall w, In w vs -> dotR w d <= dotR v d;
  fa_end : v = f \/ v = t;
  fa_ne : f <> t;
  fa_pos : 0 < coef (f, t) d;
  fa_tie : coef (f, t) d = nrm d <-> exists w, In w vs /\ w <> v /\ dotR w d = dotR v d }.
Lemma mod_back n j : (j < n)%nat -> (((j + 1) mod n + n - 1) mod n = j)%nat.
Proof.
  intros H. destruct (Nat.eq_dec (j + 1) n) as [E|E].
  - rewrite E, Nat.mod_same, Nat.mod_small by lia. lia.
  - rewrite (Nat.mod_small (j + 1)) by lia. replace (j + 1 + n - 1)%nat with (j + 1 * n)%nat by lia. rewrite Nat.mod_add, Nat.mod_small; lia.
Qed.
Lemma mod_fwd n j : (j < n)%nat -> (((j + n - 1) mod n + 1) mod n = j)%nat.
Proof.
  intros H. destruct j as [|j].
  - rewrite (Nat.mod_small (0 + n - 1)) by lia. replace (0 + n - 1 + 1)%nat with n by lia. apply Nat.mod_same. lia.
  - replace (S j + n - 1)%nat with (j + 1 * n)%nat by lia. rewrite Nat.mod_add, (Nat.mod_small j), Nat.mod_small; lia.
Qed.
(** the corner at v: x before, y after *)
Lemma corner vs x v y d : convex vs -> In (x, v) (cyc vs) -> In (v, y) (cyc vs) -> x <> v -> v <> y -> x <> y ->
  ~ zero d -> (forall w, In w vs -> dotR w d <= dotR v d) ->
  0 < cr (vsub v x) (vsub y v) /\ 0 <= dotR d (vsub v x) /\ dotR d (vsub y v) <= 0 /\
  (0 < cr d (vsub v x) \/ 0 < cr d (vsub y v)) /\
  (forall w, In w vs -> w <> v -> dotR w d = dotR v d -> dotR d (vsub v x) = 0 \/ dotR d (vsub y v) = 0) /\
  (dotR d (vsub v x) = 0 -> 0 < cr d (vsub v x)) /\ (dotR d (vsub y v) = 0 -> 0 < cr d (vsub y v)).
Proof.
  intros (_ & _ & CV) I1 I2 N1 N2 N3 ZD MX.
  destruct (cyc_in _ _ I1) as [Ix Iv]. destruct (cyc_in _ _ I2) as [_ Iy]. cbn [fst snd] in *.
  pose proof (CV (x, v) y I1 Iy (fun e => N3 (eq_sym e)) (fun e => N2 (eq_sym e))) as C. unfold side in C. cbn [fst snd] in C.
  assert (C' : cr (vsub v x) (vsub y x) = cr (vsub v x) (vsub y v)) by (unfold cr; ung; rring). rewrite C' in C. clear C'.
  pose proof (MX x Ix) as Mx. pose proof (MX y Iy) as My.
  assert (D1 : 0 <= dotR d (vsub v x)) by (rewrite dotR_comm, dot_sub; lra).
  assert (D2 : dotR d (vsub y v) <= 0) by (rewrite dotR_comm, dot_sub; lra).
  pose proof (dotR_pos d ZD) as PD.
  assert (ID : dotR d d * cr (vsub v x) (vsub y v) = dotR d (vsub v x) * cr d (vsub y v) - cr d (vsub v x) * dotR d (vsub y v)) by (unfold cr, dotR; ring).
  assert (PC : 0 < dotR d d * cr (vsub v x) (vsub y v)) by nra.
  split; [exact C|]. split; [exact D1|]. split; [exact D2|]. split; [|split; [|split]].
  - destruct (Rlt_dec 0 (cr d (vsub v x))) as [|G1]; [left; assumption|]. right.
    destruct (Rlt_dec 0 (cr d (vsub y v))) as [|G2]; [assumption|exfalso]. nra.
  - intros w Iw NW EW. destruct (Req_dec (dotR d (vsub v x)) 0) as [|Z1]; [left; assumption|]. right.
    destruct (Req_dec (dotR d (vsub y v)) 0) as [|Z2]; [assumption|exfalso].
    assert (W0 : dotR d (vsub w v) = 0) by (rewrite dotR_comm, dot_sub; lra).
    destruct (Req_dec (cr (vsub v x) (vsub w v)) 0) as [E1|E1].
    + (* w = x *)
      destruct (Req_dec (vx w) (vx x)) as [Xx|Xx]; [destruct (Req_dec (vy w) (vy x)) as [Yy|Yy]|].
      * assert (w = x) by (apply v_ext; assumption). subst w. apply Z1. rewrite dotR_comm, dot_sub. lra.
      * pose proof (CV (x, v) w I1 Iw (fun e => Yy (f_equal vy e)) NW) as S1. unfold side in S1. cbn [fst snd] in S1.
        assert (E' : cr (vsub v x) (vsub w x) = cr (vsub v x) (vsub w v)) by (unfold cr; ung; rring). lra.
      * pose proof (CV (x, v) w I1 Iw (fun e => Xx (f_equal vx e)) NW) as S1. unfold side in S1. cbn [fst snd] in S1.
        assert (E' : cr (vsub v x) (vsub w x) = cr (vsub v x) (vsub w v)) by (unfold cr; ung; rring). lra.
    + assert (NX : w <> x) by (intros ->; apply E1; unfold cr; ung; rring).
      assert (NY : w <> y) by (intros ->; apply Z2; rewrite dotR_comm, dot_sub; lra).
      pose proof (CV (x, v) w I1 Iw NX NW) as S1. pose proof (CV (v, y) w I2 Iw NW NY) as S2. unfold side in S1, S2. cbn [fst snd] in S1, S2.
      assert (E' : cr (vsub v x) (vsub w x) = cr (vsub v x) (vsub w v)) by (unfold cr; ung; rring). rewrite E' in S1.
      assert (PL : cr (vsub v x) (vsub y v) * dotR d (vsub w v) = cr (vsub v x) (vsub w v) * dotR d (vsub y v) - cr (vsub y v) (vsub w v) * dotR d (vsub v x)) by (unfold cr, dotR; ring).
      rewrite W0 in PL. nra.
  - intros E. rewrite E in ID. nra.
  - intros E. rewrite E in ID. nra.
Qed.

Lemma contact_edge_faces vs d : convex vs -> ~ zero d -> exists k v f t,
  contact_edge vs d = Ret (edge_to (length vs) k) /\ In v vs /\ faces vs d v k f t.
Proof.
  intros CV ZD. pose proof (convex_ne _ CV) as NE. destruct (furthest_R vs d ZD NE) as (l1 & v & l2 & SPL & EF & _ & MX').
  assert (Iv : In v vs) by (rewrite SPL; apply in_elt). clear l1 l2 SPL.
  pose proof CV as (L3 & ND & CC). destruct (In_nth_error _ _ Iv) as (j & EJ).
  assert (JL : (j < length vs)%nat) by (apply nth_error_Some; congruence).
  destruct (all_edges_nth (length vs)) as (es & EE & LE & HE); [lia|].
  assert (JN : ((j + 1) mod length vs < length vs)%nat) by (apply Nat.mod_upper_bound; lia).
  destruct (edge_at_spec vs j JL) as (x & v' & A1 & A2 & A3 & A4). assert (v' = v) by congruence. subst v'.
  destruct (edge_at_spec vs _ JN) as (v' & y & B1 & B2 & B3 & B4). rewrite mod_back in B3 by exact JL. assert (v' = v) by congruence. subst v'.
  pose proof (proj1 (NoDup_nth_error vs) ND) as INJ.
  assert (N1 : x <> v).
  { intros ->. assert (E : ((j + length vs - 1) mod length vs = j)%nat) by (apply INJ; [apply Nat.mod_upper_bound; lia|congruence]).
    pose proof (mod_fwd _ _ JL) as M. rewrite E in M. destruct (Nat.eq_dec (j + 1) (length vs)) as [Q|Q].
    - rewrite Q, Nat.mod_same in M; lia.
    - rewrite Nat.mod_small in M; lia. }
  assert (N2 : v <> y).
  { intros <-. assert (E : ((j + 1) mod length vs = j)%nat) by (apply INJ; [exact JN|congruence]).
    destruct (Nat.eq_dec (j + 1) (length vs)) as [Q|Q]; [rewrite Q, Nat.mod_same in E; lia|rewrite Nat.mod_small in E; lia]. }
  assert (N3 : x <> y).
  { intros ->. assert (E : ((j + length vs - 1) mod length vs = (j + 1) mod length vs)%nat) by (apply INJ; [apply Nat.mod_upper_bound; lia|congruence]).
    destruct j as [|j].
    - rewrite !Nat.mod_small in E; lia.
    - replace (S j + length vs - 1)%nat with (j + 1 * length vs)%nat in E by lia. rewrite Nat.mod_add, Nat.mod_small in E by lia.
      destruct (Nat.eq_dec (S j + 1) (length vs)) as [Q|Q]; [rewrite Q, Nat.mod_same in E; lia|rewrite Nat.mod_small in E; lia]. }
  assert (I1 : In (x, v) (cyc vs)) by (eapply nth_error_In; eauto). assert (I2 : In (v, y) (cyc vs)) by (eapply nth_error_In; eauto).
  destruct (corner vs x v y d CV I1 I2 N1 N2 N3 ZD MX') as (C & D1 & D2 & PO & TI & P1 & P2).
  destruct (cyc_in _ _ I1) as [Ix _]. destruct (cyc_in _ _ I2) as [_ Iy]. cbn [fst snd] in *.
  destruct (coef_eq x v d N1) as [Q1 Z1]. destruct (coef_eq v y d N2) as [Q2 Z2]. apply nrm_pos in Z1, Z2.
  destruct (coef_le x v d N1) as (L1 & LL1 & LR1). destruct (coef_le v y d N2) as (L2 & LL2 & LR2).
  assert (T1 : coef (x, v) d = nrm d -> exists w, In w vs /\ w <> v /\ dotR w d = dotR v d).
  { intros E. exists x. split; [exact Ix|]. split; [exact N1|]. pose proof (LL1 E) as H. rewrite dotR_comm, dot_sub in H. lra. }
  assert (T2 : coef (v, y) d = nrm d -> exists w, In w vs /\ w <> v /\ dotR w d = dotR v d).
  { intros E. exists y. split; [exact Iy|]. split; [congruence|]. pose proof (LL2 E) as H. rewrite dotR_comm, dot_sub in H. lra. }
  assert (TT : (exists w, In w vs /\ w <> v /\ dotR w d = dotR v d) -> coef (x, v) d = nrm d \/ coef (v, y) d = nrm d).
  { intros (w & Iw & NW & EW). destruct (TI w Iw NW EW) as [E|E]; [left; apply LR1|right; apply LR2]; auto; [apply P1 in E|apply P2 in E]; lra. }
  assert (BOTH : ~ (coef (x, v) d = nrm d /\ coef (v, y) d = nrm d)).
  { intros [E1 E2]. apply LL1 in E1. apply LL2 in E2. assert (ID : dotR d d * cr (vsub v x) (vsub y v) = dotR d (vsub v x) * cr d (vsub y v) - cr d (vsub v x) * dotR d (vsub y v)) by (unfold cr, dotR; ring).
    rewrite E1, E2 in ID. pose proof (dotR_pos d ZD). nra. }
  assert (CE : contact_edge vs d = if Rlt_dec (coef (x, v) d) (coef (v, y) d) then Ret (edge_to (length vs) ((j + 1) mod length vs)) else Ret (edge_to (length vs) j)).
  { unfold contact_edge. rewrite EF. cbn [obind]. rewrite EE. cbn [obind]. rewrite (find_to_spec vs es v j ND EJ) by (intros i I; apply HE; lia).
    cbn [obind]. rewrite edge_next_spec by exact JL. cbn [obind]. rewrite A1, B1. cbn [obind]. fold (coef (x, v) d) (coef (v, y) d).
    cbn [kltb RNum]. unfold Rltb. destruct (Rlt_dec _ _); reflexivity. }
  destruct (Rlt_dec (coef (x, v) d) (coef (v, y) d)) as [LT|GE].
  - exists ((j + 1) mod length vs)%nat, v, v, y. split; [exact CE|]. split; [exact Iv|]. constructor; auto.
    + destruct PO as [PO|PO]; [rewrite <- Q1 in PO|rewrite <- Q2 in PO]; nra.
    + split; [exact T2|]. intros T. destruct (TT T) as [E|E]; [|exact E]. lra.
  - exists j, v, x, v. split; [exact CE|]. split; [exact Iv|]. constructor; auto.
    + destruct PO as [PO|PO]; [rewrite <- Q1 in PO|rewrite <- Q2 in PO]; nra.
    + split; [exact T1|]. intros T. destruct (TT T) as [E|E]; [exact E|]. lra.
Qed.
