(** Closest points on segments and triangles, support points (C27-C29). *)
From Coq Require Import ZArith List Bool Reals Lra Psatz Lia Arith.
From Verif Require Import Num Outcome Box Mat MatFacts MatSolve Geom.
Import ListNotations.
Local Open Scope R_scope.

Ltac ung := unfold vnormsq, vperp_cw, khalf in *; unfold vdot, vcross, vperp, vadd, vsub, vscale, vdivs, vopp, rv, k0, k1, k2 in *;
  cbn [K kadd ksub kmul kdiv kopp kofZ RNum vx vy lb_closest lb_u lb_v] in *; change (@K RNum) with R in *.

Ltac co := repeat match goal with p : @vec2 RNum |- _ => destruct p as [? ?] end;
  cbn [vx vy] in *; change (@K RNum) with R in *.
Lemma sqn (x : R) : 0 <= x * x.
Proof. exact (Rle_0_sqr x). Qed.
(** squared distance *)
Definition dist2 (p q : Rv) : R := (vx p - vx q) * (vx p - vx q) + (vy p - vy q) * (vy p - vy q).
(** points of a segment and of a triangle *)
Definition on_segment (A B p : Rv) : Prop :=
  exists t, 0 <= t <= 1 /\ vx p = (1 - t) * vx A + t * vx B /\ vy p = (1 - t) * vy A + t * vy B.
Definition in_triangle (A B C p : Rv) : Prop :=
  exists a b c, 0 <= a /\ 0 <= b /\ 0 <= c /\ a + b + c = 1 /\
    vx p = a * vx A + b * vx B + c * vx C /\ vy p = a * vy A + b * vy B + c * vy C.
(** the point of a set nearest to Q *)
Definition nearest (S : Rv -> Prop) (Q p : Rv) : Prop := S p /\ forall q, S q -> dist2 Q p <= dist2 Q q.

(** ** C27 *)
Definition clamp01 (t : R) : R := if Rlt_dec t 0 then 0 else if Rlt_dec 1 t then 1 else t.
Lemma kclamp01 (t : R) : @kclamp RNum t 0 1 = clamp01 t.
Proof.
  unfold kclamp, kmin, kmax, clamp01. cbn [kltb RNum]. unfold Rltb.
  destruct (Rlt_dec t 0); [destruct (Rlt_dec 1 0); [lra|reflexivity]|]. destruct (Rlt_dec 1 t); reflexivity.
Qed.
Lemma clamp01_range t : 0 <= clamp01 t <= 1.
Proof. unfold clamp01. repeat destruct (Rlt_dec _ _); lra. Qed.

Definition line_t (A B Q : Rv) : R :=
  ((vx Q - vx A) * (vx B - vx A) + (vy Q - vy A) * (vy B - vy A)) / dist2 B A.
Lemma line_eq (A B Q : Rv) : dist2 B A <> 0 -> line_barycentric A B Q =
  LB (rv (vx A + (vx B - vx A) * clamp01 (line_t A B Q)) (vy A + (vy B - vy A) * clamp01 (line_t A B Q)))
     (1 - line_t A B Q) (line_t A B Q).
Proof.
  intros H. unfold line_barycentric. change (@k0 RNum) with 0. change (@k1 RNum) with 1. rewrite kclamp01.
  assert (E : vnormsq (vsub B A) = dist2 B A) by (unfold dist2; ung; rring).
  rewrite E. cbn [keqb RNum]. destruct (Reqb_spec (dist2 B A) 0); [contradiction|].
  assert (T : (vdot (vsub Q A) (vsub B A) / dist2 B A)%num = line_t A B Q) by (unfold line_t; ung; f_equal; rring).
  rewrite T. reflexivity.
Qed.
Lemma dist2_zero p q : dist2 p q = 0 -> p = q.
Proof.
  destruct p as [px py], q as [qx qy]. unfold dist2. cbn. intros H.
  assert (A : px - qx = 0) by (apply Rsqr_0_uniq; unfold Rsqr; pose proof (Rle_0_sqr (px - qx)); pose proof (Rle_0_sqr (py - qy)); unfold Rsqr in *; lra).
  assert (B : py - qy = 0) by (apply Rsqr_0_uniq; unfold Rsqr; pose proof (Rle_0_sqr (px - qx)); pose proof (Rle_0_sqr (py - qy)); unfold Rsqr in *; lra).
  f_equal; [exact (Rminus_diag_uniq _ _ A)|exact (Rminus_diag_uniq _ _ B)].
Qed.
Lemma line_eq0 (A B Q : Rv) : dist2 B A = 0 -> B = A /\ line_barycentric A B Q = LB A 1 0.
Proof.
  intros H. assert (BA : B = A) by exact (dist2_zero _ _ H).
  split; [exact BA|]. subst B. unfold line_barycentric. change (@k0 RNum) with 0. change (@k1 RNum) with 1. rewrite kclamp01.
  assert (E : vnormsq (vsub A A) = 0) by (ung; rring). rewrite E. cbn [keqb RNum]. destruct (Reqb_spec 0 0); [|lra].
  destruct A as [ax ay]. ung. f_equal; [f_equal; rring|rring].
Qed.
Lemma dist2_nonneg p q : 0 <= dist2 p q.
Proof. unfold dist2. apply Rplus_le_le_0_compat; apply sqn. Qed.
Lemma dist2_sym p q : dist2 p q = dist2 q p.
Proof. unfold dist2. ring. Qed.


(** the variational inequality *)
Definition vi (Q p V : Rv) : R := (vx Q - vx p) * (vx V - vx p) + (vy Q - vy p) * (vy V - vy p).
Lemma vi_nearest Q p q : vi Q p q <= 0 -> dist2 Q p <= dist2 Q q.
Proof. unfold vi, dist2. intros H. pose proof (sqn (vx q - vx p)). pose proof (sqn (vy q - vy p)). co. nra. Qed.
Lemma nearest_tri A B C Q p : in_triangle A B C p -> vi Q p A <= 0 -> vi Q p B <= 0 -> vi Q p C <= 0 ->
  nearest (in_triangle A B C) Q p.
Proof.
  intros HP HA HB HC. split; [exact HP|]. intros q (a & b & c & Ha & Hb & Hc & S & Ex & Ey).
  apply vi_nearest. assert (E : vi Q p q = a * vi Q p A + b * vi Q p B + c * vi Q p C).
  { unfold vi. rewrite Ex, Ey. replace c with (1 - a - b) by lra. ring. }
  rewrite E. nra.
Qed.
Lemma nearest_seg A B Q p : on_segment A B p -> vi Q p A <= 0 -> vi Q p B <= 0 -> nearest (on_segment A B) Q p.
Proof.
  intros HP HA HB. split; [exact HP|]. intros q (t & Ht & Ex & Ey). apply vi_nearest.
  assert (E : vi Q p q = (1 - t) * vi Q p A + t * vi Q p B) by (unfold vi; rewrite Ex, Ey; ring).
  rewrite E. nra.
Qed.

(** the projection of Q on the line *)
Lemma line_t_spec A B Q : dist2 B A <> 0 -> line_t A B Q * dist2 B A = vi Q A B.
Proof. intros H. unfold line_t, vi. field. exact H. Qed.

Lemma line_nearest (A B Q : Rv) :
  let l := line_barycentric A B Q in
  lb_u l + lb_v l = 1 /\ nearest (on_segment A B) Q (lb_closest l).
Proof.
  destruct (Req_dec (dist2 B A) 0) as [Z|NZ].
  - destruct (line_eq0 A B Q Z) as [BA E]. subst B. rewrite E. cbn [lb_u lb_v lb_closest]. split; [lra|].
    apply nearest_seg; [exists 0; repeat split; lra| |]; unfold vi; lra.
  - rewrite line_eq by exact NZ. cbn [lb_u lb_v lb_closest]. split; [lra|].
    pose proof (line_t_spec A B Q NZ) as T. set (t := line_t A B Q) in *. clearbody t.
    assert (P : 0 < dist2 B A) by (pose proof (dist2_nonneg B A); lra).
    apply nearest_seg.
    + exists (clamp01 t). split; [apply clamp01_range|]. cbn. split; ring.
    + unfold vi in *. cbn. unfold clamp01, dist2 in *. clear NZ. co. destruct (Rlt_dec t 0); [|destruct (Rlt_dec 1 t)]; nra.
    + unfold vi in *. cbn. unfold clamp01, dist2 in *. clear NZ. co. destruct (Rlt_dec t 0); [|destruct (Rlt_dec 1 t)]; nra.
Qed.

(** ** C28 *)
Definition rcross (a b : Rv) : R := vx a * vy b - vy a * vx b.
(** twice the signed area *)
Definition area2 (A B C : Rv) : R := (vx B - vx A) * (vy C - vy A) - (vy B - vy A) * (vx C - vx A).
Definition sgn (A B C : Rv) : R := if Rlt_dec (area2 A B C) (- (1 / 1000000)) then -1 else 1.

Lemma orientation_sign A B C : (match orientation (N := RNum) A B C keps with Negative => true | _ => false end) =
  if Rlt_dec (area2 A B C) (- (1 / 1000000)) then true else false.
Proof.
  unfold orientation. assert (E : vcross (vsub B A) (vsub C B) = area2 A B C) by (unfold area2; ung; rring). rewrite E.
  unfold interval_contains, keps. cbn [kabs ksub kadd kleb kltb kdiv kofZ k0 RNum]. rcbn.
  rewrite Rabs_pos_eq by lra. unfold k0. cbn [kofZ RNum].
  destruct (Rlt_dec (area2 A B C) (- (1 / 1000000))); rcmp; cbn; try reflexivity; exfalso; lra.
Qed.

Lemma line_signs A B Q : dist2 B A <> 0 -> let l := line_barycentric A B Q in
  lb_v l * dist2 B A = vi Q A B /\ lb_u l * dist2 B A = vi Q B A.
Proof.
  intros H. rewrite line_eq by exact H. cbn [lb_u lb_v]. split; [apply line_t_spec; exact H|].
  rewrite Rmult_minus_distr_r, line_t_spec by exact H. unfold vi, dist2. ring.
Qed.
Lemma area2_cyc A B C : area2 B C A = area2 A B C.
Proof. unfold area2. ring. Qed.

(** vertex lemmas, relative to the vertex: X(c,a) > 0 *)
Lemma vertex1 s cx cy ax ay qx qy : s * s = 1 -> 0 < s * (cx * ay - cy * ax) ->
  s * (cx * qy - cy * qx) < 0 -> cx * qx + cy * qy < 0 -> 0 < ax * qx + ay * qy -> s * (qx * ay - qy * ax) < 0.
Proof.
  intros S XA XQ CQ AQ.
  assert (NP : 0 < cx * cx + cy * cy).
  { destruct (Rle_lt_dec (cx * cx + cy * cy) 0); [|assumption]. exfalso. pose proof (sqn cx). pose proof (sqn cy).
    assert (cx = 0) by (apply Rsqr_0_uniq; unfold Rsqr; lra). assert (cy = 0) by (apply Rsqr_0_uniq; unfold Rsqr; lra).
    subst. lra. }
  assert (I2 : (cx * cx + cy * cy) * (ax * qx + ay * qy) =
    (cx * ax + cy * ay) * (cx * qx + cy * qy) + (s * (cx * ay - cy * ax)) * (s * (cx * qy - cy * qx))).
  { transitivity ((cx * ax + cy * ay) * (cx * qx + cy * qy) + (s * s) * ((cx * ay - cy * ax) * (cx * qy - cy * qx))); [rewrite S|]; ring. }
  assert (I1 : (cx * cx + cy * cy) * (s * (qx * ay - qy * ax)) =
    (cx * qx + cy * qy) * (s * (cx * ay - cy * ax)) - (s * (cx * qy - cy * qx)) * (cx * ax + cy * ay)) by ring.
  set (n := cx * cx + cy * cy) in *. set (aq := ax * qx + ay * qy) in *. set (xa := s * (cx * ay - cy * ax)) in *.
  set (xq := s * (cx * qy - cy * qx)) in *. set (cq := cx * qx + cy * qy) in *. set (ca := cx * ax + cy * ay) in *.
  set (xqa := s * (qx * ay - qy * ax)) in *. clearbody n aq xa xq cq ca xqa. clear S.
  assert (CA : ca < 0).
  { destruct (Rlt_le_dec ca 0); [assumption|]. exfalso. assert (0 < n * aq) by (apply Rmult_lt_0_compat; assumption). nra. }
  destruct (Rlt_le_dec xqa 0); [assumption|]. exfalso. nra.
Qed.
Lemma vertex2 s cx cy ax ay qx qy : s * s = 1 -> 0 < s * (cx * ay - cy * ax) ->
  s * (qx * ay - qy * ax) < 0 -> ax * qx + ay * qy < 0 -> 0 < cx * qx + cy * qy -> s * (cx * qy - cy * qx) < 0.
Proof.
  intros S XA XQ AQ CQ.
  assert (H := vertex1 (- s) ax ay cx cy qx qy).
  assert (E : - s * (qx * cy - qy * cx) < 0); [apply H; lra|lra].
Qed.

Lemma vertexP1 s V C A Q : s * s = 1 -> 0 < s * area2 V C A -> s * area2 V C Q < 0 -> vi Q V C < 0 -> 0 < vi Q V A ->
  s * area2 V Q A < 0.
Proof.
  intros S P H1 H2 H3. pose proof (vertex1 s (vx C - vx V) (vy C - vy V) (vx A - vx V) (vy A - vy V) (vx Q - vx V) (vy Q - vy V) S) as L.
  unfold area2, vi in *. co. apply L; lra.
Qed.
Lemma vertexP2 s V C A Q : s * s = 1 -> 0 < s * area2 V C A -> s * area2 V Q A < 0 -> vi Q V A < 0 -> 0 < vi Q V C ->
  s * area2 V C Q < 0.
Proof.
  intros S P H1 H2 H3. pose proof (vertex2 s (vx C - vx V) (vy C - vy V) (vx A - vx V) (vy A - vy V) (vx Q - vx V) (vy Q - vy V) S) as L.
  unfold area2, vi in *. co. apply L; lra.
Qed.

(** an edge seen from outside with the query behind one of its ends: then all
    three areas are negative *)
Lemma tri_chain s A B C Q : s * s = 1 -> 0 < s * area2 A B C ->
  ~ (vi Q A B <= 0 /\ vi Q A C <= 0) -> ~ (vi Q B A <= 0 /\ vi Q B C <= 0) -> ~ (vi Q C B <= 0 /\ vi Q C A <= 0) ->
  ~ (s * area2 Q C A <= 0 /\ 0 <= vi Q A C /\ 0 <= vi Q C A) ->
  ~ (s * area2 Q A B <= 0 /\ 0 <= vi Q B A /\ 0 <= vi Q A B) ->
  s * area2 Q B C < 0 -> vi Q C B < 0 \/ vi Q B C < 0 -> False.
Proof.
  intros S P RA RB RC ECA EAB U H.
  assert (SUM : s * area2 Q B C + s * area2 Q C A + s * area2 Q A B = s * area2 A B C) by (unfold area2; ring).
  destruct H as [H|H].
  - assert (0 < vi Q C A) by lra.
    assert (V : s * area2 Q C A < 0).
    { rewrite (area2_cyc Q C A) || rewrite <- (area2_cyc Q C A). apply (vertexP2 s C A B Q S); try assumption; try (unfold area2 in *; lra). }
    assert (0 < vi Q A B) by lra.
    assert (W : s * area2 Q A B < 0).
    { rewrite <- (area2_cyc Q A B). apply (vertexP2 s A B C Q S); try assumption; try (unfold area2 in *; lra). }
    lra.
  - assert (0 < vi Q B A) by lra.
    assert (W : s * area2 Q A B < 0).
    { rewrite (area2_cyc B Q A) . apply (vertexP1 s B C A Q S); try assumption; try (unfold area2 in *; lra). }
    assert (0 < vi Q A C) by lra.
    assert (V : s * area2 Q C A < 0).
    { rewrite (area2_cyc A Q C). apply (vertexP1 s A B C Q S); try assumption; try (unfold area2 in *; lra). }
    lra.
Qed.
Lemma tri_core s A B C Q : s * s = 1 -> 0 < s * area2 A B C ->
  ~ (vi Q A B <= 0 /\ vi Q A C <= 0) -> ~ (vi Q B A <= 0 /\ vi Q B C <= 0) -> ~ (vi Q C B <= 0 /\ vi Q C A <= 0) ->
  ~ (s * area2 Q B C <= 0 /\ 0 <= vi Q C B /\ 0 <= vi Q B C) ->
  ~ (s * area2 Q C A <= 0 /\ 0 <= vi Q A C /\ 0 <= vi Q C A) ->
  ~ (s * area2 Q A B <= 0 /\ 0 <= vi Q B A /\ 0 <= vi Q A B) ->
  0 <= s * area2 Q B C /\ 0 <= s * area2 Q C A /\ 0 <= s * area2 Q A B.
Proof.
  intros S P RA RB RC EBC ECA EAB.
  pose proof (area2_cyc A B C) as Y1. pose proof (area2_cyc B C A) as Y2.
  repeat split; apply Rnot_lt_le; intros U.
  - apply (tri_chain s A B C Q); try tauto. lra.
  - apply (tri_chain s B C A Q); try tauto; try (rewrite Y1; assumption). lra.
  - apply (tri_chain s C A B Q); try tauto; try (rewrite Y2, Y1; assumption). lra.
Qed.

Lemma dist2_pos_of_area s A B C : 0 < s * area2 A B C -> dist2 B A <> 0 /\ dist2 C B <> 0 /\ dist2 A C <> 0.
Proof.
  intros P. repeat split; intros E; apply dist2_zero in E; subst; unfold area2 in P; co; nra.
Qed.
Lemma sgn_pos A B C : 0 < area2 A B C \/ area2 A B C < - (1 / 1000000) ->
  sgn A B C * sgn A B C = 1 /\ 0 < sgn A B C * area2 A B C.
Proof. intros H. unfold sgn. destruct (Rlt_dec _ _); split; lra. Qed.

Lemma rdiv_le0 x d y : 0 < d -> x * d = y -> (x <= 0 <-> y <= 0).
Proof. intros D <-. split; intros; nra. Qed.
Lemma rdiv_ge0 x d y : 0 < d -> x * d = y -> (0 <= x <-> 0 <= y).
Proof. intros D <-. split; intros; nra. Qed.
Lemma Rleb_iff x y : Rleb x y = true <-> x <= y.
Proof. destruct (Rleb_spec x y); split; auto; try discriminate; lra. Qed.

Lemma edge_nearest s A B C Q : s * s = 1 -> 0 < s * area2 A B C -> s * area2 Q B C <= 0 -> 0 <= vi Q C B -> 0 <= vi Q B C ->
  nearest (in_triangle A B C) Q (lb_closest (line_barycentric B C Q)).
Proof.
  intros S P U HC HB. destruct (dist2_pos_of_area s A B C P) as (_ & NZ & _).
  assert (D : 0 < dist2 C B) by (pose proof (dist2_nonneg C B); lra).
  destruct (line_signs B C Q NZ) as [LV LU]. rewrite line_eq in * by exact NZ. cbn [lb_u lb_v lb_closest] in *.
  set (t := line_t B C Q) in *. clearbody t.
  assert (T : 0 <= t <= 1) by (split; nra).
  assert (CT : clamp01 t = t) by (unfold clamp01; repeat destruct (Rlt_dec _ _); lra). rewrite CT.
  apply nearest_tri.
  - exists 0, (1 - t), t. cbn. repeat split; try lra; ring.
  - set (p := rv _ _).
    assert (E : vi Q p A * dist2 C B = (s * area2 Q B C) * (s * area2 A B C)).
    { transitivity ((s * s) * (area2 Q B C * area2 A B C)); [rewrite S|ring].
      assert (E : vi Q p A * dist2 C B = area2 Q B C * area2 A B C + (t * dist2 C B - vi Q B C) *
         (t * dist2 C B - vi A B C)) by (subst p; unfold vi, dist2, area2; cbn; ring).
      rewrite E, LV. ring. }
    nra.
  - unfold vi, dist2 in *. cbn. co. nra.
  - unfold vi, dist2 in *. cbn. co. nra.
Qed.

Lemma triangle_ok (A B C Q : Rv) : 0 < area2 A B C \/ area2 A B C < - (1 / 1000000) ->
  exists p u v w, triangle_barycentric A B C Q = Ret (p, u, v, w) /\
    2 * u = sgn A B C * area2 Q B C /\ 2 * v = sgn A B C * area2 Q C A /\ 2 * w = sgn A B C * area2 Q A B /\
    nearest (in_triangle A B C) Q p.
Proof.
  intros HA. destruct (sgn_pos A B C HA) as [S P].
  destruct (dist2_pos_of_area _ A B C P) as (N1 & N2 & N3).
  assert (D1 : 0 < dist2 B A) by (pose proof (dist2_nonneg B A); lra).
  assert (D2 : 0 < dist2 C B) by (pose proof (dist2_nonneg C B); lra).
  assert (D3 : 0 < dist2 A C) by (pose proof (dist2_nonneg A C); lra).
  destruct (line_signs A B Q N1) as [VAB UAB]. destruct (line_signs B C Q N2) as [VBC UBC]. destruct (line_signs C A Q N3) as [VCA UCA].
  pose proof (rdiv_le0 _ _ _ D1 VAB) as L1. pose proof (rdiv_le0 _ _ _ D1 UAB) as L2.
  pose proof (rdiv_le0 _ _ _ D2 VBC) as L3. pose proof (rdiv_le0 _ _ _ D2 UBC) as L4.
  pose proof (rdiv_le0 _ _ _ D3 VCA) as L5. pose proof (rdiv_le0 _ _ _ D3 UCA) as L6.
  pose proof (rdiv_ge0 _ _ _ D1 VAB) as G1. pose proof (rdiv_ge0 _ _ _ D1 UAB) as G2.
  pose proof (rdiv_ge0 _ _ _ D2 VBC) as G3. pose proof (rdiv_ge0 _ _ _ D2 UBC) as G4.
  pose proof (rdiv_ge0 _ _ _ D3 VCA) as G5. pose proof (rdiv_ge0 _ _ _ D3 UCA) as G6.
  clear VAB UAB VBC UBC VCA UCA N1 N2 N3.
  pose proof (edge_nearest _ A B C Q S P) as EA.
  assert (P2 : 0 < sgn A B C * area2 B C A) by (rewrite area2_cyc; exact P).
  assert (P3 : 0 < sgn A B C * area2 C A B) by (rewrite area2_cyc, area2_cyc; exact P).
  pose proof (edge_nearest _ B C A Q S P2) as EB. pose proof (edge_nearest _ C A B Q S P3) as EC.
  pose proof (tri_core _ A B C Q S P) as CORE.
  unfold triangle_barycentric.
  pose proof (orientation_sign A B C) as OS. set (o := orientation A B C keps) in *. clearbody o.
  assert (NEG : forall x y : R, 2 * x = y -> 2 * (match o with Negative => - x | _ => x end) = sgn A B C * y).
  { intros x y E. unfold sgn. destruct (Rlt_dec _ _); destruct o; try discriminate; lra. }
  assert (HU := NEG (khalf (N := RNum) * vcross (vsub B Q) (vsub C Q)) (area2 Q B C)).
  assert (HV := NEG (khalf (N := RNum) * vcross (vsub C Q) (vsub A Q)) (area2 Q C A)).
  assert (HW := NEG (khalf (N := RNum) * vcross (vsub A Q) (vsub B Q)) (area2 Q A B)).
  specialize (HU ltac:(unfold area2; ung; rfield)). specialize (HV ltac:(unfold area2; ung; rfield)). specialize (HW ltac:(unfold area2; ung; rfield)).
  cbv zeta. 
  match type of HU with 2 * ?x = _ => change (match o with Negative => (- (khalf * vcross (vsub B Q) (vsub C Q)))%num | _ => (khalf * vcross (vsub B Q) (vsub C Q))%num end) with x; generalize dependent x end. intros u HU.
  match type of HV with 2 * ?x = _ => change (match o with Negative => (- (khalf * vcross (vsub C Q) (vsub A Q)))%num | _ => (khalf * vcross (vsub C Q) (vsub A Q))%num end) with x; generalize dependent x end. intros v HV.
  match type of HW with 2 * ?x = _ => change (match o with Negative => (- (khalf * vcross (vsub A Q) (vsub B Q)))%num | _ => (khalf * vcross (vsub A Q) (vsub B Q))%num end) with x; generalize dependent x end. intros w HW.
  clear OS NEG.
  set (lAB := line_barycentric A B Q) in *. set (lBC := line_barycentric B C Q) in *. set (lCA := line_barycentric C A Q) in *. clearbody lAB lBC lCA.
  set (uu := sgn A B C * area2 Q B C) in *. set (vv := sgn A B C * area2 Q C A) in *. set (ww := sgn A B C * area2 Q A B) in *.
  assert (SUM : uu + vv + ww = sgn A B C * area2 A B C) by (subst uu vv ww; unfold area2; ring).
  assert (BX : uu * vx A + vv * vx B + ww * vx C = (uu + vv + ww) * vx Q) by (subst uu vv ww; unfold area2; ring).
  assert (BY : uu * vy A + vv * vy B + ww * vy C = (uu + vv + ww) * vy Q) by (subst uu vv ww; unfold area2; ring).
  assert (PS : 0 < uu + vv + ww) by (rewrite SUM; exact P).
  clearbody uu vv ww.
  assert (FIN : forall p, nearest (in_triangle A B C) Q p -> exists p' u' v' w', (Ret (p, u, v, w) : outcome (Rv * R * R * R)) = Ret (p', u', v', w') /\
    2 * u' = uu /\ 2 * v' = vv /\ 2 * w' = ww /\ nearest (in_triangle A B C) Q p').
  { intros p Hp. exists p, u, v, w. auto. }
  assert (VI0 : forall X, vi Q X X = 0) by (intros; unfold vi; ring).
  assert (INA : in_triangle A B C A) by (exists 1, 0, 0; repeat split; lra || ring).
  assert (INB : in_triangle A B C B) by (exists 0, 1, 0; repeat split; lra || ring).
  assert (INC : in_triangle A B C C) by (exists 0, 0, 1; repeat split; lra || ring).
  cbn [kleb RNum]. change (@k0 RNum) with 0.
  match goal with |- context [if ?b then _ else _] => destruct b eqn:E1 end.
  { apply FIN, nearest_tri; rewrite ?VI0; try lra; try exact INA; apply andb_prop in E1 as [X Y]; apply Rleb_iff in X, Y; tauto. }
  match goal with |- context [if ?b then _ else _] => destruct b eqn:E2 end.
  { apply FIN, nearest_tri; rewrite ?VI0; try lra; try exact INB; apply andb_prop in E2 as [X Y]; apply Rleb_iff in X, Y; tauto. }
  match goal with |- context [if ?b then _ else _] => destruct b eqn:E3 end.
  { apply FIN, nearest_tri; rewrite ?VI0; try lra; try exact INC; apply andb_prop in E3 as [X Y]; apply Rleb_iff in X, Y; tauto. }
  match goal with |- context [if ?b then _ else _] => destruct b eqn:E4 end.
  { apply FIN. rewrite !andb_true_iff, !Rleb_iff in E4. apply EA; [lra|tauto|tauto]. }
  match goal with |- context [if ?b then _ else _] => destruct b eqn:E5 end.
  { apply FIN. rewrite !andb_true_iff, !Rleb_iff in E5.
    assert (HH : nearest (in_triangle B C A) Q (lb_closest lCA)) by (apply EB; [lra|tauto|tauto]).
    destruct HH as [(a & b & c & ?) HH]. split; [exists c, a, b; repeat split; lra|].
    intros q (a' & b' & c' & ?). apply HH. exists b', c', a'. repeat split; lra. }
  match goal with |- context [if ?b then _ else _] => destruct b eqn:E6 end.
  { apply FIN. rewrite !andb_true_iff, !Rleb_iff in E6.
    assert (HH : nearest (in_triangle C A B) Q (lb_closest lAB)) by (apply EC; [lra|tauto|tauto]).
    destruct HH as [(a & b & c & ?) HH]. split; [exists b, c, a; repeat split; lra|].
    intros q (a' & b' & c' & ?). apply HH. exists c', a', b'. repeat split; lra. }
  apply not_true_iff_false in E1, E2, E3, E4, E5, E6.
  rewrite !andb_true_iff, !Rleb_iff in E1.
  rewrite !andb_true_iff, !Rleb_iff in E2.
  rewrite !andb_true_iff, !Rleb_iff in E3.
  rewrite !andb_true_iff, !Rleb_iff in E4.
  rewrite !andb_true_iff, !Rleb_iff in E5.
  rewrite !andb_true_iff, !Rleb_iff in E6.
  assert (IU : u <= 0 <-> uu <= 0) by lra. assert (IV : v <= 0 <-> vv <= 0) by lra. assert (IW : w <= 0 <-> ww <= 0) by lra.
  destruct CORE as (C1 & C2 & C3); try tauto.
  match goal with |- context [if ?b then _ else _] => replace b with true end.
  2:{ symmetry. rewrite !andb_true_iff, !Rleb_iff. repeat split; lra. }
  apply FIN, nearest_tri; try (unfold vi; ring_simplify; lra).
  exists (uu / (uu + vv + ww)), (vv / (uu + vv + ww)), (ww / (uu + vv + ww)).
  assert (IP : 0 < / (uu + vv + ww)) by (apply Rinv_0_lt_compat; exact PS).
  repeat split.
  1-3: unfold Rdiv; apply Rmult_le_pos; lra.
  - field. lra.
  - transitivity ((uu * vx A + vv * vx B + ww * vx C) / (uu + vv + ww)); [rewrite BX|]; rcbn; (field; lra) || (apply Rminus_diag_uniq; field; lra).
  - transitivity ((uu * vy A + vv * vy B + ww * vy C) / (uu + vv + ww)); [rewrite BY|]; rcbn; (field; lra) || (apply Rminus_diag_uniq; field; lra).
Qed.

(** the closest point is Q exactly when Q is inside *)
Lemma nearest_self S Q p : nearest S Q p -> (p = Q <-> S Q).
Proof.
  intros [Sp H]. split; [intros <-; exact Sp|]. intros SQ. symmetry. apply dist2_zero.
  specialize (H Q SQ). pose proof (dist2_nonneg Q p). assert (Z : dist2 Q Q = 0) by (unfold dist2; ring). lra.
Qed.
