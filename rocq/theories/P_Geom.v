(** Properties C27-C32: closest points, support points, polygons, edges.
    [Rv] are real 2D points, [rv x y] builds one.  Spec notions (GeomClosest.v):
    [on_segment], [in_triangle] (convex combinations), [dist2], [nearest S Q p]
    (p is in S and no point of S is closer to Q), [area2] (twice the signed area). *)
From Coq Require Import ZArith List Bool Reals Permutation.
From Verif Require Import Num Outcome Box Mat MatFacts MatSolve Geom GeomClosest GeomPoly GeomArea GeomExamples BoxScale.
Import ListNotations.
Local Open Scope R_scope.

(** C27; A = B is allowed *)
Theorem C27_segment_nearest : forall A B Q : Rv, let l := line_barycentric A B Q in
  lb_u l + lb_v l = 1 /\ nearest (on_segment A B) Q (lb_closest l).
Proof. exact line_nearest. Qed.
Print Assumptions C27_segment_nearest.
Example C27_example : lb_closest (line_barycentric (rv 0 0) (rv 2 0) (rv 5 1)) = rv 2 0 /\
  lb_v (line_barycentric (rv 0 0) (rv 2 0) (rv 5 1)) = 5 / 2.
Proof. exact ex_line. Qed.

(** C28: counter-clockwise triangles of any size, clockwise ones of doubled area
    above the tolerance 1e-6 *)
Theorem C28_triangle_nearest : forall A B C Q : Rv, 0 < area2 A B C \/ area2 A B C < - (1 / 1000000) ->
  exists p u v w, triangle_barycentric A B C Q = Ret (p, u, v, w) /\
    nearest (in_triangle A B C) Q p /\ (p = Q <-> in_triangle A B C Q).
Proof. exact triangle_nearest. Qed.
Print Assumptions C28_triangle_nearest.

(** the weights are the barycentric coordinates of Q, up to the positive factor area *)
Theorem C28_weights : forall (A B C Q p : Rv) u v w, 0 < area2 A B C \/ area2 A B C < - (1 / 1000000) ->
  triangle_barycentric A B C Q = Ret (p, u, v, w) ->
  2 * (u + v + w) = Rabs (area2 A B C) /\
  u * vx A + v * vx B + w * vx C = (u + v + w) * vx Q /\ u * vy A + v * vy B + w * vy C = (u + v + w) * vy Q.
Proof. exact triangle_weights. Qed.
Print Assumptions C28_weights.
Example C28_example : area2 (rv 0 0) (rv 0 2) (rv 2 0) < - (1 / 1000000).
Proof. exact ex_tri. Qed.

(** a clockwise triangle within the tolerance, with Q inside: Q is not returned *)
Theorem C28_tiny_clockwise_refuted : exists p u v w,
  triangle_barycentric (rv 0 0) (rv 0 tiny) (rv tiny 0) (rv (tiny / 4) (tiny / 4)) = Ret (p, u, v, w) /\
  p = rv (tiny / 2) (tiny / 2) /\ p <> rv (tiny / 4) (tiny / 4) /\
  in_triangle (rv 0 0) (rv 0 tiny) (rv tiny 0) (rv (tiny / 4) (tiny / 4)).
Proof. exact tiny_wrong. Qed.
Print Assumptions C28_tiny_clockwise_refuted.

(** C29, exact arithmetic *)
Theorem C29_support : forall (vs : list Rv) (d : Rv), ~ (vx d = 0 /\ vy d = 0) -> vs <> [] ->
  exists l1 v l2, vs = l1 ++ v :: l2 /\ furthest vs d = Ret v /\
    (forall x, In x l1 -> dotR x d < dotR v d) /\ (forall x, In x vs -> dotR x d <= dotR v d).
Proof. exact furthest_R. Qed.
Print Assumptions C29_support.

(** C29 for any arithmetic whose comparisons are a total order on the computed
    dot products, binary32 without NaN included *)
Theorem C29_support_any : forall (N : Num) (ok : K -> Prop), OrdLaws N ok -> forall (vs : list vec2) (d : vec2),
  vany_ne0 d = true -> vs <> [] -> (forall x, In x vs -> ok (vdot x d)) ->
  exists l1 v l2, vs = l1 ++ v :: l2 /\ furthest vs d = Ret v /\
    (forall x, In x l1 -> kltb (vdot x d) (vdot v d) = true) /\
    (forall x, In x vs -> kltb (vdot v d) (vdot x d) = false).
Proof. exact @furthest_spec. Qed.
Print Assumptions C29_support_any.
Theorem C29_zero_direction : forall (N : Num) (vs : list vec2) (d : vec2),
  keqb (vx d) k0 = true -> keqb (vy d) k0 = true -> furthest vs d = Throw.
Proof. exact @furthest_zero. Qed.
Print Assumptions C29_zero_direction.
Example C29_example : furthest [rv 0 0; rv 1 2; rv 1 3] (rv 1 0) = Ret (rv 1 2).
Proof. exact ex_furthest. Qed.

(** C30 *)
Theorem C30_first_vertex : forall l1 l2 : list Rv, geo_properties (l1 ++ l2) = geo_properties (l2 ++ l1).
Proof. exact geo_rotate. Qed.
Print Assumptions C30_first_vertex.
Theorem C30_direction : forall (vs : list Rv) p, geo_properties vs = Ret p -> gp_degenerate p = false ->
  geo_properties (rev vs) = Ret (GP (gp_centroid p) (- gp_area p) (gp_moment p) false).
Proof. exact geo_reverse. Qed.
Print Assumptions C30_direction.
Theorem C30_polygon_direction : forall (vs : list Rv) P, make_polygon vs = Ret P -> gp_degenerate (pg_props P) = false ->
  exists P', make_polygon (rev vs) = Ret P' /\ pg_props P' = pg_props P.
Proof. exact polygon_reverse. Qed.
Print Assumptions C30_polygon_direction.
Theorem C30_translation : forall (t : Rv) (vs : list Rv) p, geo_properties vs = Ret p -> gp_degenerate p = false ->
  geo_properties (map (fun v => vadd v t) vs) = Ret (GP (vadd (gp_centroid p) t) (gp_area p) (gp_moment p) false).
Proof. exact geo_translate. Qed.
Print Assumptions C30_translation.
(** zero-area vertex lists stay so *)
Theorem C30_degenerate : forall (t : Rv) (vs : list Rv) p, geo_properties vs = Ret p -> gp_degenerate p = true ->
  exists p', geo_properties (map (fun v => vadd v t) vs) = Ret p' /\ gp_degenerate p' = true /\ gp_area p' = gp_area p.
Proof. exact geo_translate_deg. Qed.
Print Assumptions C30_degenerate.
Theorem C30_box : forall (dx dy : R) (c : Rv), 0 < dx -> 0 < dy ->
  polygon_box (rv dx dy) c =
  Ret (Poly (GP c (dx * dy) (dx * dy * (dx * dx + dy * dy) / 12) false) (box_vertices (rv dx dy) c)).
Proof. exact box_props. Qed.
Print Assumptions C30_box.
(** triangles, and cutting a polygon along the chord from a to b: these two
    determine area and centroid of every polygon *)
Theorem C30_triangle : forall (A B C : Rv) p, geo_properties [A; B; C] = Ret p -> gp_degenerate p = false ->
  gp_area p = area2 A B C / 2 /\ vx (gp_centroid p) = (vx A + vx B + vx C) / 3 /\ vy (gp_centroid p) = (vy A + vy B + vy C) / 3.
Proof. exact triangle_props. Qed.
Print Assumptions C30_triangle.
Theorem C30_chord : forall (a : Rv) l1 b l2 (p p1 p2 : geo_props (N := RNum)), geo_properties (a :: l1 ++ b :: l2) = Ret p ->
  geo_properties (a :: l1 ++ [b]) = Ret p1 -> geo_properties (b :: l2 ++ [a]) = Ret p2 ->
  gp_degenerate p = false -> gp_degenerate p1 = false -> gp_degenerate p2 = false ->
  gp_area p = gp_area p1 + gp_area p2 /\
  gp_area p * vx (gp_centroid p) = gp_area p1 * vx (gp_centroid p1) + gp_area p2 * vx (gp_centroid p2) /\
  gp_area p * vy (gp_centroid p) = gp_area p1 * vy (gp_centroid p1) + gp_area p2 * vy (gp_centroid p2).
Proof. exact area_chord. Qed.
Print Assumptions C30_chord.
Example C30_example : exists p, geo_properties cw_tri = Ret p /\ gp_degenerate p = false.
Proof. exact ex_cw_props. Qed.

(** C31; [s_a] is twice the signed area of a vertex list *)
Theorem C31_polygon : forall vs : list Rv, (3 <= length vs)%nat -> exists P, make_polygon vs = Ret P /\
  Permutation (pg_vertices P) vs /\ 0 <= s_a (pg_vertices P) /\ 0 <= gp_area (pg_props P) /\
  (gp_degenerate (pg_props P) = false -> geo_properties (pg_vertices P) = Ret (pg_props P)) /\
  (gp_degenerate (pg_props P) = true <-> s_a (pg_vertices P) = 0) /\
  (gp_degenerate (pg_props P) = true -> gp_area (pg_props P) = 0 /\ pg_vertices P = vs).
Proof. exact polygon_ret. Qed.
Print Assumptions C31_polygon.
(** any arithmetic *)
Theorem C31_vertices_any : forall (N : Num) (vs : list vec2) P, make_polygon vs = Ret P ->
  (3 <= length (pg_vertices P))%nat /\ (pg_vertices P = vs \/ pg_vertices P = rev vs).
Proof. exact @polygon_vertices. Qed.
Print Assumptions C31_vertices_any.
Theorem C31_throws : forall (N : Num) (vs : list vec2), (length vs < 3)%nat -> make_polygon vs = Throw.
Proof. exact @polygon_throws. Qed.
Print Assumptions C31_throws.
Theorem C31_otherwise_succeeds : forall (N : Num) (vs : list vec2), (3 <= length vs)%nat -> exists P, make_polygon vs = Ret P.
Proof. exact @polygon_ok. Qed.
Print Assumptions C31_otherwise_succeeds.
Example C31_example : exists P, make_polygon cw_tri = Ret P /\ gp_degenerate (pg_props P) = false /\
  gp_area (pg_props P) = 9 / 2 /\ pg_vertices P = [rv 3 0; rv 0 3; rv 0 0].
Proof. exact ex_cw. Qed.

(** C32: edge k of a non-empty shape arrives at vertex k from its cyclic predecessor *)
Theorem C32_edges : forall (N : Num) (vs : list vec2), vs <> [] -> exists es, edge_vertices vs = Ret es /\ length es = length vs /\
  forall k, (k < length vs)%nat -> exists f t, nth_error es k = Some (f, t) /\ nth_error vs k = Some t /\
    nth_error vs ((k + length vs - 1) mod length vs) = Some f.
Proof. exact @edges_cover. Qed.
Print Assumptions C32_edges.
(** [edge_to n k]: the edge arriving at vertex k *)
Theorem C32_next_previous : forall n k, (k < n)%nat ->
  edge_next n (edge_to n k) = Ret (edge_to n ((k + 1) mod n)) /\
  edge_previous n (edge_to n k) = Ret (edge_to n ((k + n - 1) mod n)).
Proof. exact (fun n k H => conj (edge_next_spec n k H) (edge_previous_spec n k H)). Qed.
Print Assumptions C32_next_previous.
Theorem C32_inverse : forall n k, (k < n)%nat ->
  (let* e := edge_next n (edge_to n k) in edge_previous n e)%out = Ret (edge_to n k) /\
  (let* e := edge_previous n (edge_to n k) in edge_next n e)%out = Ret (edge_to n k).
Proof. exact edge_inverse. Qed.
Print Assumptions C32_inverse.
Example C32_example : all_edges 4 = Ret [(3, 0); (0, 1); (1, 2); (2, 3)]%nat.
Proof. exact eq_refl. Qed.
(** [left_of e p]: twice the signed area of the triangle from, to, p *)
Theorem C32_sides : forall (e : Rv * Rv) (p : Rv), fst e <> snd e ->
  (edge_isInside e p = true <-> 0 < left_of e p) /\ (edge_isOutside e p = true <-> left_of e p < 0) /\
  (edge_isInside e p = false /\ edge_isOutside e p = false <->
     exists t, p = rv (vx (fst e) + t * (vx (snd e) - vx (fst e))) (vy (fst e) + t * (vy (snd e) - vy (fst e)))).
Proof. exact edge_sides. Qed.
Print Assumptions C32_sides.
Example C32_example_sides : edge_isInside (rv 0 0, rv 2 0) (rv 1 1) = true /\ edge_isOutside (rv 0 0, rv 2 0) (rv 1 1) = false /\ left_of (rv 0 0, rv 2 0) (rv 1 1) = 2.
Proof. exact ex_sides. Qed.
