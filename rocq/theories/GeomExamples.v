(** Concrete instances for the geometry theorems. *)
From Coq Require Import ZArith List Bool Reals Lra Psatz Lia Arith Permutation.
From Verif Require Import Num Outcome Box Mat MatFacts MatSolve Geom GeomClosest GeomPoly GeomArea.
Import ListNotations.
Local Open Scope R_scope.

(** C27: query beyond B *)
Lemma ex_line : lb_closest (line_barycentric (rv 0 0) (rv 2 0) (rv 5 1)) = rv 2 0 /\ lb_v (line_barycentric (rv 0 0) (rv 2 0) (rv 5 1)) = 5 / 2.
Proof.
  rewrite line_eq by (unfold dist2; cbn; lra).
  assert (T : line_t (rv 0 0) (rv 2 0) (rv 5 1) = 5 / 2) by (unfold line_t, dist2; cbn; lra).
  rewrite T. unfold clamp01. destruct (Rlt_dec _ _); [exfalso; lra|]. destruct (Rlt_dec _ _); [|exfalso; lra].
  cbn. unfold rv. split; [f_equal; rcbn; lra|reflexivity].
Qed.

(** C28: a clockwise triangle whose doubled area is within the tolerance *)
Definition tiny : R := 1 / 2000.
Lemma tiny_line A B Q t : dist2 B A <> 0 -> 0 <= t <= 1 -> t * dist2 B A = vi Q A B ->
  line_barycentric A B Q = LB (rv (vx A + (vx B - vx A) * t) (vy A + (vy B - vy A) * t)) (1 - t) t.
Proof.
  intros D T E. rewrite line_eq by exact D. pose proof (line_t_spec A B Q D) as L.
  assert (X : line_t A B Q = t) by (apply (Rmult_eq_reg_r (dist2 B A)); [congruence|exact D]). rewrite X.
  assert (CT : clamp01 t = t) by (unfold clamp01; repeat destruct (Rlt_dec _ _); lra). rewrite CT. reflexivity.
Qed.
Lemma tiny_wrong : exists p u v w,
  triangle_barycentric (rv 0 0) (rv 0 tiny) (rv tiny 0) (rv (tiny / 4) (tiny / 4)) = Ret (p, u, v, w) /\
  p = rv (tiny / 2) (tiny / 2) /\ p <> rv (tiny / 4) (tiny / 4) /\
  in_triangle (rv 0 0) (rv 0 tiny) (rv tiny 0) (rv (tiny / 4) (tiny / 4)).
Proof.
  set (A := rv 0 0). set (B := rv 0 tiny). set (C := rv tiny 0). set (Q := rv (tiny / 4) (tiny / 4)).
  assert (TP : 0 < tiny) by (unfold tiny; lra).
  unfold triangle_barycentric.
  pose proof (orientation_sign A B C) as OS.
  assert (AR : area2 A B C = - tiny * tiny) by (unfold area2, A, B, C; cbn; ring).
  rewrite AR in OS. destruct (Rlt_dec (- tiny * tiny) (- (1 / 1000000))) as [L|L]; [exfalso; unfold tiny in L; lra|].
  rewrite (tiny_line A B Q (1 / 4)), (tiny_line B C Q (1 / 2)), (tiny_line C A Q (3 / 4)).
  2,5,8: unfold dist2, A, B, C; cbn; nra.
  2,4,6: lra.
  2-4: unfold dist2, vi, A, B, C, Q; cbn; field.
  cbn [lb_u lb_v lb_closest].
  destruct (orientation A B C keps); try discriminate OS; clear OS L AR.
  all: cbn [kleb RNum]; change (@k0 RNum) with 0.
  all: destruct (Rleb_spec (1 / 4) 0); [lra|]; cbn [andb];
    destruct (Rleb_spec (1 - 1 / 4) 0); [lra|]; cbn [andb];
    destruct (Rleb_spec (1 - 1 / 2) 0); [lra|]; cbn [andb];
    destruct (Rleb_spec 0 (1 - 1 / 2)); [|lra]; destruct (Rleb_spec 0 (1 / 2)); [|lra]; rewrite !andb_true_r;
    match goal with |- context [Rleb ?x 0] => replace (Rleb x 0) with true end.
  2,4: match goal with |- _ = Rleb ?x 0 => destruct (Rleb_spec x 0) as [|G]; [reflexivity|]; exfalso; apply G;
      unfold B, C, Q; ung; unfold tiny; lra end.
  all: do 4 eexists; split; [reflexivity|]; (split; [unfold B, C; cbn; unfold rv; f_equal; field|]);
    (split; [unfold B, C, Q; cbn; intros E; injection E; lra|]);
    exists (1 / 2), (1 / 4), (1 / 4); unfold A, B, C, Q; cbn; repeat split; lra.
Qed.
(** C28: an ordinary clockwise triangle is handled *)
Lemma ex_tri : area2 (rv 0 0) (rv 0 2) (rv 2 0) < - (1 / 1000000).
Proof. unfold area2. cbn. lra. Qed.

(** C29: the first of two tied vertices *)
Lemma ex_furthest : furthest [rv 0 0; rv 1 2; rv 1 3] (rv 1 0) = Ret (rv 1 2).
Proof.
  unfold furthest, vany_ne0. cbn [vx vy rv keqb RNum]. unfold rv. cbn [vx vy]. change (@k0 RNum) with 0.
  destruct (Reqb_spec 1 0); [lra|]. cbn [negb orb]. cbn [furthest_loop]. ung. cbn [kltb RNum].
  destruct (Rltb_spec (0 + 0 * 1 + 0 * 0) (0 + 0 * 1 + 0 * 0)); [lra|].
  destruct (Rltb_spec (0 + 0 * 1 + 0 * 0) (0 + 1 * 1 + 2 * 0)); [|lra].
  destruct (Rltb_spec (0 + 1 * 1 + 2 * 0) (0 + 1 * 1 + 3 * 0)); [lra|]. reflexivity.
Qed.

(** C30, C31: a clockwise triangle *)
Definition cw_tri : list Rv := [rv 0 0; rv 0 3; rv 3 0].
Lemma ex_cw : exists P, make_polygon cw_tri = Ret P /\ gp_degenerate (pg_props P) = false /\ gp_area (pg_props P) = 9 / 2 /\
  pg_vertices P = [rv 3 0; rv 0 3; rv 0 0].
Proof.
  unfold make_polygon. change (Nat.leb 3 (length cw_tri)) with true. cbv iota. rewrite geo_properties_eq by discriminate.
  assert (SA : s_a cw_tri = -9) by (unfold s_a, cw_tri; cbn; unfold e_c; cbn; rcbn; ring). rewrite SA. unfold props_of.
  destruct (Req_EM_T (-9) 0); [lra|]. cbn [obind gp_area kltb RNum]. change (@k0 RNum) with 0. destruct (Rltb_spec (-9 / 2) 0); [|lra].
  eexists. split; [reflexivity|]. split; [reflexivity|]. split; [cbn; ung; lra|]. reflexivity.
Qed.
Lemma ex_cw_props : exists p, geo_properties cw_tri = Ret p /\ gp_degenerate p = false.
Proof.
  rewrite geo_properties_eq by discriminate.
  assert (SA : s_a cw_tri = -9) by (unfold s_a, cw_tri; cbn; unfold e_c; cbn; rcbn; ring). rewrite SA. unfold props_of.
  destruct (Req_EM_T (-9) 0); [lra|]. eexists. split; reflexivity.
Qed.

(** packaged statements *)
Lemma triangle_nearest (A B C Q : Rv) : 0 < area2 A B C \/ area2 A B C < - (1 / 1000000) ->
  exists p u v w, triangle_barycentric A B C Q = Ret (p, u, v, w) /\
    nearest (in_triangle A B C) Q p /\ (p = Q <-> in_triangle A B C Q).
Proof.
  intros H. destruct (triangle_ok A B C Q H) as (p & u & v & w & E & _ & _ & _ & NR). exists p, u, v, w.
  split; [exact E|]. split; [exact NR|]. apply nearest_self. exact NR.
Qed.
Lemma triangle_weights (A B C Q p : Rv) u v w : 0 < area2 A B C \/ area2 A B C < - (1 / 1000000) ->
  triangle_barycentric A B C Q = Ret (p, u, v, w) ->
  2 * (u + v + w) = Rabs (area2 A B C) /\
  u * vx A + v * vx B + w * vx C = (u + v + w) * vx Q /\ u * vy A + v * vy B + w * vy C = (u + v + w) * vy Q.
Proof.
  intros H E. destruct (triangle_ok A B C Q H) as (p' & u' & v' & w' & E' & U & V & W & _). rewrite E in E'. injection E' as <- <- <- <-.
  assert (U' : u = sgn A B C * area2 Q B C / 2) by lra. assert (V' : v = sgn A B C * area2 Q C A / 2) by lra. assert (W' : w = sgn A B C * area2 Q A B / 2) by lra.
  destruct (sgn_pos A B C H) as [S P].
  assert (SU : sgn A B C * area2 A B C = Rabs (area2 A B C)).
  { unfold sgn in *. destruct (Rlt_dec _ _); [rewrite Rabs_left by lra|rewrite Rabs_right by lra]; lra. }
  rewrite <- SU, U', V', W'. unfold area2. repeat split; rfield.
Qed.
Lemma furthest_R (vs : list Rv) (d : Rv) : ~ (vx d = 0 /\ vy d = 0) -> vs <> [] ->
  exists l1 v l2, vs = l1 ++ v :: l2 /\ furthest vs d = Ret v /\
    (forall x, In x l1 -> dotR x d < dotR v d) /\ (forall x, In x vs -> dotR x d <= dotR v d).
Proof.
  intros D NE. assert (ND : vany_ne0 d = true).
  { unfold vany_ne0. cbn [keqb RNum]. change (@k0 RNum) with 0. destruct (Reqb_spec (vx d) 0); destruct (Reqb_spec (vy d) 0); tauto. }
  destruct (furthest_spec (N := RNum) (ok := okR) vs d ND NE) as (l1 & v & l2 & E1 & E2 & E3 & E4); [intros; exact I|].
  assert (DD : forall x : Rv, vdot x d = dotR x d) by (intros; unfold dotR; ung; rring).
  exists l1, v, l2. split; [exact E1|]. split; [exact E2|]. split; intros x I.
  - specialize (E3 x I). rewrite !DD in E3. cbn [kltb RNum] in E3. destruct (Rltb_spec (dotR x d) (dotR v d)); [assumption|discriminate].
  - specialize (E4 x I). rewrite !DD in E4. cbn [kltb RNum] in E4. destruct (Rltb_spec (dotR v d) (dotR x d)); [discriminate|lra].
Qed.
Lemma edges_cover {N : Num} (vs : list vec2) : vs <> [] -> exists es, edge_vertices vs = Ret es /\ length es = length vs /\
  forall k, (k < length vs)%nat -> exists f t, nth_error es k = Some (f, t) /\ nth_error vs k = Some t /\
    nth_error vs ((k + length vs - 1) mod length vs) = Some f.
Proof.
  intros NE. exists (cyc vs). split; [apply edge_vertices_spec; exact NE|]. destruct vs as [|v vs]; [congruence|].
  assert (PL : forall p l, length (path (T := vec2) p l) = length l) by (intros p l; revert p; induction l; intros; cbn; auto).
  assert (PN : forall l p k, (k < length l)%nat -> exists f t, nth_error (path (T := vec2) p l) k = Some (f, t) /\ nth_error l k = Some t /\ nth_error (p :: l) k = Some f).
  { induction l as [|x l IH]; intros p k Hk; [cbn in Hk; lia|]. destruct k as [|k]; [exists p, x; repeat split|].
    cbn in Hk. destruct (IH x k ltac:(lia)) as (f & t & A & B & C). exists f, t. repeat split; assumption. }
  rewrite cyc_cons. split; [cbn; rewrite PL; reflexivity|]. intros k Hk.
  destruct k as [|k].
  - exists (last vs v), v. repeat split. cbn [length] in *. rewrite Nat.mod_small by lia.
    replace (0 + S (length vs) - 1)%nat with (length vs) by lia. apply nth_error_last.
  - cbn [length] in *. destruct (PN vs v k ltac:(lia)) as (f & t & A & B & C). exists f, t. repeat split; try assumption.
    replace (S k + S (length vs) - 1)%nat with (k + 1 * S (length vs))%nat by lia. rewrite Nat.mod_add, Nat.mod_small by lia. exact C.
Qed.
