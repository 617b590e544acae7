(** Properties C33, C67, C68: collision detection, penetration and separation.
    Shapes are their vertex lists.  Spec notions (GjkFacts.v, GjkEpa.v, GjkExamples.v):
    [hull vs] the convex hull, [meet A B] a common point of the hulls,
    [apart A B d] the direction d separates strictly, [overlap A B] no line
    separates even weakly, [moved t B] B translated by t, [solid vs] three
    vertices not on one line, [spread A B d] not all of A and B on one line
    across d. *)
From Coq Require Import ZArith List Bool Reals.
From Verif Require Import Num Outcome Box Mat MatFacts MatSolve Geom GeomClosest GeomPoly GeomArea Gjk GjkFacts GjkThm GjkEpa GjkSep GjkExamples.
Import ListNotations.
Local Open Scope R_scope.

(** C33: exact arithmetic, any search direction *)
Theorem C33_decision : forall (A B : list Rv) (dir : Rv) fuel, solid A \/ solid B -> A <> [] -> B <> [] ->
  (length A * length B + 3 < fuel)%nat ->
  exists g, make_gjk fuel A B dir = Ret g /\ (gk_hit g = true <-> meet A B) /\
    (gk_hit g = false -> exists d, apart A B d).
Proof. exact gjk_solid. Qed.
Print Assumptions C33_decision.
Example C33_example : solid (pts RNum 1 sq) /\ meet (pts RNum 1 sq) (pts RNum 1 [(3, 1); (7, 1); (4, 4)]%Z).
Proof. exact (conj solid_sq meet_sq). Qed.

(** flat shapes too, unless they lie on one line across the search direction *)
Theorem C33_decision_flat : forall (A B : list Rv) (dir : Rv) fuel, A <> [] -> B <> [] -> spread A B (search_dir dir) ->
  (length A * length B + 3 < fuel)%nat ->
  exists g, make_gjk fuel A B dir = Ret g /\ (gk_hit g = true <-> meet A B) /\
    (gk_hit g = false -> exists d, apart A B d).
Proof. exact gjk_correct. Qed.
Print Assumptions C33_decision_flat.

(** segments on one line across the search direction: disjoint, reported as colliding *)
Theorem C33_on_a_line_refuted : says 1 [(0, 1); (0, 2)]%Z [(0, 3); (0, 4)]%Z (1, 0)%Z true = true /\
  apart (pts RNum 1 [(0, 1); (0, 2)]%Z) (pts RNum 1 [(0, 3); (0, 4)]%Z) (pt RNum 1 (0, 1)%Z).
Proof. exact flat_wrong. Qed.
Print Assumptions C33_on_a_line_refuted.
(** in binary32 the products of small coordinates vanish: disjoint squares reported as colliding *)
Theorem C33_binary32_refuted : says (2 ^ 78) sq sqU (1, 0)%Z true = true /\
  apart (pts RNum (2 ^ 78) sq) (pts RNum (2 ^ 78) sqU) (pt RNum 1 (0, 1)%Z) /\ solid (pts RNum (2 ^ 78) sq).
Proof. exact tiny_hit. Qed.
Print Assumptions C33_binary32_refuted.

(** C67: translating the second shape by the penetration makes the shapes touch
    without overlapping, and no shorter translation stops the overlap *)
Theorem C67_penetration_minimal : forall (A B : list Rv) (dir : Rv) fuel, overlap A B -> (length A * length B + 3 < fuel)%nat ->
  exists g p, make_gjk fuel A B dir = Ret g /\ gk_hit g = true /\ gjk_penetration fuel g = Ret p /\
    meet A (moved p B) /\
    (exists n, ~ zero n /\ forall a b, In a A -> In b (moved p B) -> dotR a n <= dotR b n) /\
    (forall t, dotR t t < dotR p p -> overlap A (moved t B)).
Proof. exact epa_solid. Qed.
Print Assumptions C67_penetration_minimal.
Example C67_example : overlap (pts RNum 1 sq) (pts RNum 1 sq2) /\
  says 1 sq sq2 (1, 0)%Z true = true /\ pen_is 1 sq sq2 (1, 0)%Z (1, 0)%Z = Some true.
Proof. exact (conj overlap_sq pen_sq). Qed.
(** ... and without a common point it is zero *)
Theorem C67_zero : forall (A B : list Rv) (dir : Rv) fuel, solid A \/ solid B -> A <> [] -> B <> [] -> ~ meet A B ->
  (length A * length B + 3 < fuel)%nat -> exists g, make_gjk fuel A B dir = Ret g /\ gk_hit g = false /\ gjk_penetration fuel g = Ret (rv 0 0).
Proof. exact pen_zero. Qed.
Print Assumptions C67_zero.
Example C67_zero_example : solid (pts RNum 1 sq) /\ apart (pts RNum 1 sq) (pts RNum 1 sq3) (pt RNum 1 (1, 0)%Z) /\
  pen_is 1 sq sq3 (1, 0)%Z (0, 0)%Z = Some true.
Proof. exact (conj solid_sq pen_sq3). Qed.
(** touching triangles are reported as colliding and penetration() throws *)
Theorem C67_touching_throws_refuted : says 1 low2 up2 (1, 0)%Z true = true /\ pen_throws 1 low2 up2 (1, 0)%Z = true /\
  solid (pts RNum 1 low2) /\ solid (pts RNum 1 up2) /\ meet (pts RNum 1 low2) (pts RNum 1 up2).
Proof. exact touch_throws. Qed.
Print Assumptions C67_touching_throws_refuted.

(** C68: what separation() returns brings the first shape in contact *)
Theorem C68_separation_reaches : forall (A B : list Rv) (dir : Rv) fuel fuel' g r, solid A \/ solid B -> A <> [] -> B <> [] ->
  (length A * length B + 3 < fuel)%nat -> make_gjk fuel A B dir = Ret g -> gjk_separation fuel' g = Ret r ->
  meet (moved r A) B.
Proof. exact sep_solid. Qed.
Print Assumptions C68_separation_reaches.
Example C68_example : solid (pts RNum 1 sq) /\ says 1 sq sq3 (1, 0)%Z false = true /\ sep_is 1 sq sq3 (1, 0)%Z (2, 0)%Z = Some true.
Proof. exact (conj solid_sq sep_sq). Qed.
(** it is not the shortest such translation: (1, 0) is returned, (1/5, 2/5) is enough *)
Theorem C68_not_shortest_refuted : says 1 tA tB (1, 0)%Z false = true /\ sep_is 1 tA tB (1, 0)%Z (1, 0)%Z = Some true /\
  solid (pts RNum 1 tA) /\ meet (moved (rv (1 / 5) (2 / 5)) (pts RNum 1 tA)) (pts RNum 1 tB).
Proof. exact sep_long. Qed.
Print Assumptions C68_not_shortest_refuted.
(** and it throws for some disjoint triangles *)
Theorem C68_throws_refuted : says 1 tA tC (1, 0)%Z false = true /\ sep_throws 1 tA tC (1, 0)%Z = true /\
  solid (pts RNum 1 tA) /\ solid (pts RNum 1 tC).
Proof. exact sep_fails. Qed.
Print Assumptions C68_throws_refuted.
