(** Properties C01, C05-C09 and C87. *)
From Coq Require Import ZArith List Bool Reals Permutation.
From Verif Require Import Num Outcome Algo AlgoFacts Box BoxFacts BoxOverlap BoxExamples MatSolve BoxScale.
Import ListNotations.

(** C01 *)
Theorem C01_boolean_sort : forall (A : Type) (p : A -> bool) (l : list A) (i j fuel : nat),
  i <= j -> j <= length l -> j - i <= fuel ->
  exists l' m, boolean_sort fuel p l i j = Ret (l', m) /\
    i <= m <= j /\ length l' = length l /\ Permutation l l' /\
    (forall k, (k < i \/ j <= k) -> nth_error l' k = nth_error l k) /\
    (forall k x, i <= k < m -> nth_error l' k = Some x -> p x = true) /\
    (forall k x, m <= k < j -> nth_error l' k = Some x -> p x = false).
Proof. exact (fun A p l i j fuel H1 H2 H3 => boolean_sort_spec p (j - i) l i j fuel H1 H2 (le_n _) H3). Qed.
Print Assumptions C01_boolean_sort.

Example C01_example :
  boolean_sort 6 Nat.even [1; 2; 3; 4; 5; 6] 0 6 = Ret ([6; 2; 4; 5; 3; 1], 3).
Proof. exact eq_refl. Qed.

(** C05 *)
Theorem C05_overlaps_iff_common_point : forall a b : @box RNum,
  box_overlaps a b = true <-> exists p, inside p a /\ inside p b.
Proof. exact R_overlaps_iff. Qed.
Print Assumptions C05_overlaps_iff_common_point.

Theorem C05_overlaps_sym : forall a b : @box RNum, box_overlaps a b = box_overlaps b a.
Proof. exact R_overlaps_sym. Qed.
Print Assumptions C05_overlaps_sym.

Theorem C05_invalid_overlaps_nothing : forall (N : Num) (a b : box),
  box_valid a = false -> box_overlaps a b = false /\ box_overlaps b a = false.
Proof. exact @invalid_overlaps. Qed.
Print Assumptions C05_invalid_overlaps_nothing.

Example C05_example_touch : box_overlaps (rbox 0 0 1 1) (rbox 1 1 2 2) = true.
Proof. exact R_point_touch. Qed.
Example C05_example_apart : box_overlaps (rbox 0 0 1 1) (rbox 2 0 3 1) = false.
Proof. exact R_point_apart. Qed.

(** C06 *)
Theorem C06_grid_exact : forall (e : Z) (a b : @box F32),
  (-149 <= e <= 103)%Z -> box_on_grid e a -> box_on_grid e b ->
  (box_overlaps a b = true <-> exists p, inside p (boxR a) /\ inside p (boxR b)).
Proof. exact grid_overlaps_real. Qed.
Print Assumptions C06_grid_exact.

Theorem C06_touching_missed_refuted :
  exists a b : @box F32, finite_box a = true /\ finite_box b = true /\
    (exists p, inside p (boxR a) /\ inside p (boxR b)) /\ box_overlaps a b = false.
Proof. exact touch_missed. Qed.
Print Assumptions C06_touching_missed_refuted.

Theorem C06_disjoint_reported_refuted :
  exists a b : @box F32, finite_box a = true /\ finite_box b = true /\
    ~ (exists p, inside p (boxR a) /\ inside p (boxR b)) /\ box_overlaps a b = true.
Proof. exact far_reported. Qed.
Print Assumptions C06_disjoint_reported_refuted.

Example C06_example :
  box_on_grid (-2) ex_quarter_a /\ box_on_grid (-2) ex_quarter_b /\
  box_overlaps ex_quarter_a ex_quarter_b = true.
Proof. exact ex_quarter. Qed.

(** C07, for the reals (no condition) and for binary32 without NaN *)
Theorem C07_combined_least : forall (N : Num) (ok : K -> Prop) (L : OrdLaws N ok) (a b c : box),
  okbox ok a -> okbox ok b -> okbox ok c ->
  ((subset_points ok a c /\ subset_points ok b c) <-> subset_points ok (box_combined a b) c).
Proof. exact @combined_least_iff. Qed.
Print Assumptions C07_combined_least.

Theorem C07_combined_contains : forall (N : Num) (ok : K -> Prop) (L : OrdLaws N ok) (a b : box),
  okbox ok a -> okbox ok b ->
  subset_points ok a (box_combined a b) /\ subset_points ok b (box_combined a b).
Proof. exact @combined_contains_both. Qed.
Print Assumptions C07_combined_contains.

Theorem C07_combined_laws : forall (N : Num) (ok : K -> Prop) (L : OrdLaws N ok) (a b c : box),
  okbox ok a -> okbox ok b -> okbox ok c ->
  box_eqb (box_combined a b) (box_combined b a) = true /\
  box_eqb (box_combined a (box_combined b c)) (box_combined (box_combined a b) c) = true /\
  box_eqb (box_combined a a) a = true /\
  (box_valid b = false -> box_eqb (box_combined a b) a = true /\ box_eqb (box_combined b a) a = true).
Proof. exact @combined_laws. Qed.
Print Assumptions C07_combined_laws.

Theorem C07_equality_is_same_points : forall (N : Num) (ok : K -> Prop) (L : OrdLaws N ok) (a b : box),
  okbox ok a -> okbox ok b -> (box_eqb a b = true <-> same_points ok a b).
Proof. exact @box_eqb_spec. Qed.
Print Assumptions C07_equality_is_same_points.

Theorem C07_instances : OrdLaws RNum okR /\ OrdLaws F32 fok.
Proof. exact (conj RNum_ord F32_ord). Qed.
Print Assumptions C07_instances.

Example C07_example : okbox fok ex_quarter_a /\ okbox fok ex_quarter_b /\
  box_eqb (box_combined ex_quarter_a ex_quarter_b) (fbox (fofZ 0) (fq (-3) 4) (fofZ 100) (fofZ 1)) = true.
Proof. exact ex_combined. Qed.

(** C08 *)
Theorem C08_contains_iff : forall (N : Num) (ok : K -> Prop) (L : OrdLaws N ok) (a b : box),
  okbox ok a -> okbox ok b ->
  (box_contains a b = true <->
   box_valid a = true /\ box_valid b = true /\ subset_points ok b a).
Proof. exact @box_contains_spec. Qed.
Print Assumptions C08_contains_iff.

Example C08_example :
  box_contains (fbox (fofZ 0) (fofZ 0) (fofZ 2) (fofZ 2)) (fbox (fofZ 0) (fofZ 1) (fofZ 2) (fofZ 1)) = true /\
  box_contains (fbox (fofZ 0) (fofZ 0) (fofZ 2) (fofZ 2)) (@invalid_box F32) = false.
Proof. exact ex_contains. Qed.

(** C09 *)
Theorem C09_vertex_box_tightest : forall (N : Num) (ok : K -> Prop) (L : OrdLaws N ok) vs b,
  Forall (okv ok) vs -> box_of_vertices vs = Some b ->
  okbox ok b /\ (forall v, In v vs -> inside v b) /\
  (forall c, okbox ok c -> (forall v, In v vs -> inside v c) -> subset_points ok b c).
Proof. exact @box_of_vertices_spec. Qed.
Print Assumptions C09_vertex_box_tightest.

Theorem C09_sides_attained : forall (N : Num) vs b, box_of_vertices vs = Some b ->
  (exists v, In v vs /\ vx (bmin b) = vx v) /\ (exists v, In v vs /\ vy (bmin b) = vy v) /\
  (exists v, In v vs /\ vx (bmax b) = vx v) /\ (exists v, In v vs /\ vy (bmax b) = vy v).
Proof. exact @box_of_vertices_attained. Qed.
Print Assumptions C09_sides_attained.

Theorem C09_indeterminate_iff_empty : forall (N : Num) (vs : list vec2),
  box_of_vertices vs = None <-> vs = [].
Proof. exact @box_of_vertices_none. Qed.
Print Assumptions C09_indeterminate_iff_empty.

Example C09_example : ex_vertices_claim.
Proof. exact ex_vertices. Qed.

(** C87: exact arithmetic.  [homothety c r q]: q moved to r times its distance from c *)
Theorem C87_scaled : forall (b : @box RNum) (r : R), (0 < r)%R ->
  (forall p, inside p (box_scaled b r) <-> exists q, inside q b /\ p = homothety (midpoint b) r q) /\
  midpoint (box_scaled b r) = midpoint b /\
  ((1 <= r)%R -> box_valid b = true -> box_contains (box_scaled b r) b = true) /\
  ((r <= 1)%R -> box_valid b = true -> box_contains b (box_scaled b r) = true).
Proof. exact scaled_spec. Qed.
Print Assumptions C87_scaled.
(** binary32: the ratio 1 need not give the box back *)
Theorem C87_ratio_one_refuted : exists b : @box F32, finite_box b = true /\ box_valid b = true /\ box_eqb (box_scaled b (fofZ 1)) b = false.
Proof. exact scaled_one_moves. Qed.
Print Assumptions C87_ratio_one_refuted.
Example C87_example : @box_scaled RNum (Box (rv 1 2) (rv 3 8)) 2%R = Box (rv 0 (-1)) (rv 4 11).
Proof. exact ex_scaled. Qed.
