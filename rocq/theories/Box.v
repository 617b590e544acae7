(** Model of [Vec2] (the part used here), [Interval] and [BoundingBox]. *)
From Coq Require Import ZArith List Bool.
From Verif Require Import Num.
Import ListNotations.
Local Open Scope num_scope.

Section Model.
Context {N : Num}.

(** include/Simu/math/Matrix.hpp: Vector<float,2>.  Only the two coordinates
    are kept; row/column shape plays no role. *)
Record vec2 := V2 { vx : K; vy : K }.

(** Matrix.inl.hpp: element-wise operators on Vec2. *)
Definition vadd (a b : vec2) := V2 (vx a + vx b) (vy a + vy b).
Definition vsub (a b : vec2) := V2 (vx a - vx b) (vy a - vy b).
Definition vopp (a : vec2) := V2 (- vx a) (- vy a).
(** scalar * vector (Matrix.inl.hpp operator*(U, Matrix): element-wise
    [mat[i] * scalar]) *)
Definition vscale (s : K) (a : vec2) := V2 (vx a * s) (vy a * s).
Definition vdivs (a : vec2) (s : K) := V2 (vx a / s) (vy a / s).
(** std::abs/min/max overloads, Matrix.inl.hpp:780-828 *)
Definition vabs (a : vec2) := V2 (kabs (vx a)) (kabs (vy a)).
Definition vmin (a b : vec2) := V2 (kmin (vx a) (vx b)) (kmin (vy a) (vy b)).
Definition vmax (a b : vec2) := V2 (kmax (vx a) (vx b)) (kmax (vy a) (vy b)).

(** [all(a >= b)]: Matrix.inl.hpp:704-709 defines >= as the negation of <. *)
Definition vall_ge (a b : vec2) : bool := negb (vx a <? vx b) && negb (vy a <? vy b).
(** [all(a <= b)]: <= is the negation of >, Matrix.inl.hpp:683-689. *)
Definition vall_le (a b : vec2) : bool := negb (vx b <? vx a) && negb (vy b <? vy a).
(** [all(a == b)] *)
Definition vall_eq (a b : vec2) : bool := (vx a =? vx b) && (vy a =? vy b).

(** ** include/Simu/math/Interval.hpp *)

(** Interval<float>::contains, line 54 (plain float comparisons). *)
Definition interval_contains (mn mx v : K) : bool := (mn <=? v) && (v <=? mx).

(** Interval<T>::overlaps, lines 56-74, one coordinate of T = Vec2.  The
    comparison [dist <= span] is the matrix one, i.e. [!(dist > span)]. *)
Definition interval_overlaps (mn mx omn omx : K) : bool :=
  let span := (mx - mn) + (omx - omn) in
  let dist := kabs ((mx + mn) - (omx + omn)) in
  negb (span <? dist).

(** ** include/Simu/physics/BoundingBox.hpp and src/Simu/physics/BoundingBox.cpp *)

(** BoundingBox.hpp:125-126 *)
Record box := Box { bmin : vec2; bmax : vec2 }.

(** BoundingBox() : BoundingBox(Vec2{1, 0}, Vec2{0, 0}), BoundingBox.hpp:52 *)
Definition invalid_box : box := Box (V2 k1 k0) (V2 k0 k0).

(** isValid, BoundingBox.hpp:77 *)
Definition box_valid (b : box) : bool := vall_ge (bmax b) (bmin b).

(** center, BoundingBox.hpp:92 *)
Definition box_center (b : box) : vec2 := vdivs (vadd (bmax b) (bmin b)) k2.

(** scaled, BoundingBox.cpp:33-40 *)
Definition box_scaled (b : box) (ratio : K) : box :=
  let tr p := vadd (box_center b) (vscale ratio (vsub p (box_center b))) in
  Box (tr (bmin b)) (tr (bmax b)).

(** operator==, BoundingBox.hpp:110-116 *)
Definition box_eqb (a b : box) : bool :=
  if negb (box_valid a) && negb (box_valid b) then true
  else vall_eq (bmin a) (bmin b) && vall_eq (bmax a) (bmax b).

(** overlaps, BoundingBox.cpp:43-49 *)
Definition box_overlaps (a b : box) : bool :=
  if negb (box_valid a) || negb (box_valid b) then false
  else interval_overlaps (vx (bmin a)) (vx (bmax a)) (vx (bmin b)) (vx (bmax b))
    && interval_overlaps (vy (bmin a)) (vy (bmax a)) (vy (bmin b)) (vy (bmax b)).

(** combined, BoundingBox.cpp:60-69 *)
Definition box_combined (a b : box) : box :=
  if negb (box_valid a) then b
  else if negb (box_valid b) then a
  else Box (vmin (bmin a) (bmin b)) (vmax (bmax a) (bmax b)).

(** contains, BoundingBox.cpp:51-57 *)
Definition box_contains (a b : box) : bool :=
  if negb (box_valid a) || negb (box_valid b) then false
  else box_eqb (box_combined a b) a.

(** BoundingBox(It begin, It end), BoundingBox.hpp:130-143.  An empty range
    returns with [min_]/[max_] never written: [None] stands for a box with
    indeterminate coordinates. *)
Definition box_of_vertices (vs : list vec2) : option box :=
  match vs with
  | [] => None
  | v :: rest =>
      Some (fold_left (fun b p => Box (vmin (bmin b) p) (vmax (bmax b) p)) rest (Box v v))
  end.

(** RTree::area, include/Simu/physics/RTree.hpp:395-402 *)
Definition box_area (b : box) : K :=
  if negb (box_valid b) then k0
  else let stretch := vsub (bmax b) (bmin b) in vx stretch * vy stretch.

End Model.

Arguments vec2 : clear implicits.
Arguments vec2 {N}.
Arguments box : clear implicits.
Arguments box {N}.
