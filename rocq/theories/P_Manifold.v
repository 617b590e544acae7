(** Properties C69-C72: the points and the normal of a contact.  Colliders are
    their transformed vertex lists.  Spec notions: [on_segment], [cyc vs] the sides
    of a polygon and [overlap], [meet], [apart], [moved] as for C67;
    [side o x] the side of the line through the edge o on which x lies, scaled by
    the length of o; [convex vs] at least three different vertices, all strictly on
    the left of every side they are not on; [boundary vs x] x is on a side;
    [shortest_exit A B p] after moving B by p a line separates A and B, and after
    any shorter move they overlap; [rectangle]; [contact_frame A B p F] and
    [full_depth p F] (ManifoldThm.v) what F reports to the solver. *)
From Coq Require Import ZArith List Bool Reals.
From Verif Require Import Num Outcome Box Mat MatFacts MatSolve Geom GeomClosest GeomPoly GeomArea Transform TransformFacts Body Gjk GjkFacts GjkThm GjkEpa GjkExamples Constraint Contact Manifold ManifoldFacts ManifoldThm ManifoldExamples.
Import ListNotations.
Local Open Scope R_scope.

(** C69: clipInside *)
Theorem C69_clip : forall (g h : Rv) (o : Rv * Rv), exists c, edge_clipInside (g, h) o = Ret c /\ on_segment g h c /\
  (forall q, on_segment g h q -> Rabs (side o c) <= Rabs (side o q)) /\ (side o g = side o h -> c = g).
Proof. exact clip_nearest. Qed.
Print Assumptions C69_clip.
(** a crossing line, a line beyond the end and a parallel line *)
Example C69_example : clip32 (0, 0)%Z (8, 4)%Z (4, -1)%Z (4, 9)%Z (4, 2)%Z = true /\ clip32 (0, 0)%Z (8, 4)%Z (12, -1)%Z (12, 9)%Z (8, 4)%Z = true /\
  clip32 (0, 0)%Z (8, 4)%Z (0, 9)%Z (2, 10)%Z (0, 0)%Z = true.
Proof. exact clip_ex. Qed.

(** C70: the manifold of two overlapping convex colliders, whatever it held before *)
Theorem C70_contacts : forall A B fuel (m : manifold (N := RNum)) p0 p1, convex A -> convex B -> is_rotation (p_rot p0) -> is_rotation (p_rot p1) ->
  overlap A B -> (length A * length B + 3 < fuel)%nat ->
  exists m' p, man_update fuel m p0 p1 A B = Ret m' /\ shortest_exit A B p /\ mf_minPen m' = mf_minPen m /\
    let F := frame_of m' (to_world p0) (to_world p1) in
    (dotR p p < mf_minPen m * mf_minPen m -> fr_n F = 0%nat) /\
    (mf_minPen m * mf_minPen m <= dotR p p -> contact_frame A B p F).
Proof. exact update_contacts. Qed.
Print Assumptions C70_contacts.
Example C70_example : convex (pts RNum 1 sq) /\ convex (pts RNum 1 sq2) /\ is_rotation (mk_rot (N := RNum) 0) /\
  overlap (pts RNum 1 sq) (pts RNum 1 sq2) /\
  frm_is 1 2 sq sq2 [((4, 4), (3, 4)); ((4, 1), (3, 1))]%Z (-1, 0)%Z (0, -1)%Z = true.
Proof. exact ex_contacts. Qed.

(** the tolerance is the one of the two materials combined, after any updates *)
Theorem C70_tolerance : forall (N : Num) (TR : Trig N) fuel (pen0 pen1 : comb) p0 p1 A B (us : list (nat * position * position * list vec2 * list vec2)) (m m' : manifold),
  make_manifold fuel pen0 pen1 p0 p1 A B = Ret m ->
  fold_left (fun om u => match om with Ret m => let '(f, q0, q1, a, b) := u in man_update f m q0 q1 a b | o => o end) us (Ret m) = Ret m' ->
  mf_minPen m' = cb_value (comb_combine pen0 pen1).
Proof. exact @manifold_tolerance. Qed.
Print Assumptions C70_tolerance.

(** C71: rectangles always get a contact as deep as the penetration *)
Theorem C71_rectangles : forall A B fuel (m : manifold (N := RNum)) p0 p1, rectangle A -> rectangle B -> is_rotation (p_rot p0) -> is_rotation (p_rot p1) ->
  overlap A B -> (length A * length B + 3 < fuel)%nat ->
  exists m' p, man_update fuel m p0 p1 A B = Ret m' /\ shortest_exit A B p /\
    (mf_minPen m * mf_minPen m <= dotR p p -> full_depth p (frame_of m' (to_world p0) (to_world p1))).
Proof. exact update_rectangles. Qed.
Print Assumptions C71_rectangles.
Example C71_example : rectangle (pts RNum 1 sq) /\ rectangle (pts RNum 1 sq2) /\ overlap (pts RNum 1 sq) (pts RNum 1 sq2).
Proof. exact (conj rect_sq (conj rect_sq2 overlap_sq)). Qed.
(** ... but two triangles overlapping by 2 get no contact although only 1/2 is tolerated *)
Theorem C71_any_convex_refuted : convex (pts RNum 1 zA) /\ convex (pts RNum 1 zB) /\ overlap (pts RNum 1 zA) (pts RNum 1 zB) /\
  pen_is 1 zA zB (1, 0)%Z (0, 2)%Z = Some true /\ count32 1 2 zA zB = Some 0%nat.
Proof. exact no_contact. Qed.
Print Assumptions C71_any_convex_refuted.

(** C72: colliders which do not meet get no contact *)
Theorem C72_separate : forall A B fuel (m : manifold (N := RNum)) p0 p1, convex A -> convex B -> ~ meet A B -> (mf_minPen m : R) <> 0 ->
  (length A * length B + 3 < fuel)%nat ->
  exists m', man_update fuel m p0 p1 A B = Ret m' /\ fr_n (frame_of m' (to_world p0) (to_world p1)) = 0%nat /\ mf_minPen m' = mf_minPen m.
Proof. exact update_separate. Qed.
Print Assumptions C72_separate.
(** ... with a tolerated penetration of 0 the update throws *)
Theorem C72_zero_throws : forall A B fuel (m : manifold (N := RNum)) p0 p1 ba bb, convex A -> convex B -> ~ meet A B -> (mf_minPen m : R) = 0 ->
  (length A * length B + 3 < fuel)%nat ->
  box_of_vertices A = Some ba -> box_of_vertices B = Some bb -> box_overlaps ba bb = true ->
  man_update fuel m p0 p1 A B = Throw.
Proof. exact update_zero. Qed.
Print Assumptions C72_zero_throws.
Example C72_example : convex (pts RNum 1 tA) /\ convex (pts RNum 1 tB) /\ ~ meet (pts RNum 1 tA) (pts RNum 1 tB) /\
  upd_throws 0 1 tA tB = true /\ count32 1 2 tA tB = Some 0%nat.
Proof. exact zero_throws. Qed.
(** ... and colliders which only touch can make it throw *)
Theorem C72_touching_refuted : convex (pts RNum 1 low2) /\ convex (pts RNum 1 up2) /\
  (forall a b, In a (pts RNum 1 low2) -> In b (pts RNum 1 up2) -> dotR a (rv 1 0) <= dotR b (rv 1 0)) /\
  upd_throws 1 2 low2 up2 = true.
Proof. exact touching_throws. Qed.
Print Assumptions C72_touching_refuted.
