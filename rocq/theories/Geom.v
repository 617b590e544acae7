(** Model of the geometry code: vector operations, closest points, edges,
    polygon properties, support points.  include/Simu/math/{Matrix.inl,
    BarycentricCoordinates, Geometry, Geometry.inl, Edges, Polygon,
    Polygon.inl}.hpp and src/Simu/math/{BarycentricCoordinates, Geometry}.cpp. *)
From Coq Require Import ZArith List Bool.
From Verif Require Import Num Outcome Box Mat.
Import ListNotations.
Local Open Scope num_scope.

Section Model.
Context {N : Num}.

(** ** Vec2 operations, Matrix.inl.hpp:590-634 *)
(** dot: sum starts at 0 *)
Definition vdot (a b : vec2) : K := k0 + vx a * vx b + vy a * vy b.
Definition vnormsq (a : vec2) : K := vdot a a.
Definition vnorm (a : vec2) : K := ksqrt (vnormsq a).
Definition vnormalized (a : vec2) : vec2 := vdivs a (vnorm a).
(** perp(v, clockwise) *)
Definition vperp (v : vec2) : vec2 := V2 (- vy v) (vx v).
Definition vperp_cw (v : vec2) : vec2 := vopp (vperp v).
Definition vcross (a b : vec2) : K := vx a * vy b - vy a * vx b.
(** [any(v != 0)]: != is the negation of == *)
Definition vany_ne0 (v : vec2) : bool := negb (vx v =? k0) || negb (vy v =? k0).
(** Algo.hpp:33-36 *)
Definition kclamp (v lo hi : K) : K := kmin (kmax v lo) hi.
(** the literal 0.5f *)
Definition khalf : K := k1 / k2.

(** ** LineBarycentric, BarycentricCoordinates.hpp:57-73 *)
Record line_bary := LB { lb_closest : vec2; lb_u : K; lb_v : K }.
Definition line_barycentric (A B Q : vec2) : line_bary :=
  let AB := vsub B A in
  let nrm := vnormsq AB in
  let t := if nrm =? k0 then k0 else vdot (vsub Q A) AB / nrm in
  LB (vadd A (vscale (kclamp t k0 k1) AB)) (k1 - t) t.

(** ** orientation, Geometry.cpp:30-41 *)
Inductive orient := Positive | Collinear | Negative.
Definition orientation (v0 v1 v2 : vec2) (epsilon : K) : orient :=
  let c := vcross (vsub v1 v0) (vsub v2 v1) in
  if interval_contains (k0 - kabs epsilon) (k0 + kabs epsilon) c then Collinear
  else if c >? k0 then Positive else Negative.

(** ** TriangleBarycentric, BarycentricCoordinates.cpp:31-71.
    The result is (closestPoint, u, v, w); the line coordinates are recomputed
    by the reader with [line_barycentric]. *)
Definition triangle_barycentric (A B C Q : vec2) : outcome (vec2 * K * K * K) :=
  let AB := line_barycentric A B Q in
  let BC := line_barycentric B C Q in
  let CA := line_barycentric C A Q in
  let sign := orientation A B C keps in
  let u := khalf * vcross (vsub B Q) (vsub C Q) in
  let v := khalf * vcross (vsub C Q) (vsub A Q) in
  let w := khalf * vcross (vsub A Q) (vsub B Q) in
  let neg x := match sign with Negative => - x | _ => x end in
  let u := neg u in
  let v := neg v in
  let w := neg w in
  let ret p := Ret (p, u, v, w) in
  if (lb_v AB <=? k0) && (lb_u CA <=? k0) then ret A
  else if (lb_u AB <=? k0) && (lb_v BC <=? k0) then ret B
  else if (lb_u BC <=? k0) && (lb_v CA <=? k0) then ret C
  else if (u <=? k0) && (lb_u BC >=? k0) && (lb_v BC >=? k0) then ret (lb_closest BC)
  else if (v <=? k0) && (lb_u CA >=? k0) && (lb_v CA >=? k0) then ret (lb_closest CA)
  else if (w <=? k0) && (lb_u AB >=? k0) && (lb_v AB >=? k0) then ret (lb_closest AB)
  else if (u >=? k0) && (v >=? k0) && (w >=? k0) then ret Q
  else Throw.

(** ** furthestVertexInDirection, Geometry.hpp:103-121.  Dereferencing begin()
    of an empty geometry is UB. *)
Fixpoint furthest_loop (d : vec2) (vs : list vec2) (best : vec2) (maxDist : K) : vec2 :=
  match vs with
  | [] => best
  | v :: vs =>
      let dist := vdot v d in
      if dist >? maxDist then furthest_loop d vs v dist else furthest_loop d vs best maxDist
  end.
Definition furthest (vs : list vec2) (d : vec2) : outcome vec2 :=
  if vany_ne0 d then
    match vs with
    | [] => UB
    | v :: _ => Ret (furthest_loop d vs v (vdot v d))
    end
  else Throw.

(** ** Edges, Edges.hpp:34-181.  An iterator into a geometry of n vertices is
    its index; end() is n; an Edge is the pair of iterators (from, to). *)
Definition edge := (nat * nat)%type.
Definition edge_eqb (a b : edge) : bool := Nat.eqb (fst a) (fst b) && Nat.eqb (snd a) (snd b).
(** begin(), lines 131-136: std::prev(end()) needs a vertex *)
Definition edges_begin (n : nat) : outcome edge := match n with O => UB | S m => Ret (m, 0) end.
(** end(), lines 138-143 *)
Definition edges_end (n : nat) : outcome edge := match n with O => UB | S m => Ret (m, n) end.
(** Iterator::operator++, lines 109-113; incrementing the past-the-end vertex
    iterator is UB *)
Definition edge_incr (n : nat) (e : edge) : outcome edge :=
  if Nat.ltb (snd e) n then Ret (snd e, S (snd e)) else UB.
(** next, lines 146-150 *)
Definition edge_next (n : nat) (e : edge) : outcome edge :=
  (let* e' := edge_incr n e in
   let* en := edges_end n in
   if edge_eqb e' en then edges_begin n else Ret e')%out.
(** previous, lines 152-160 *)
Definition edge_previous (n : nat) (e : edge) : outcome edge :=
  match fst e with
  | O => edges_begin n
  | S f => Ret (f, S f)
  end.
(** a range-for over the edges *)
Fixpoint edges_loop (fuel n : nat) (e : edge) : outcome (list edge) :=
  (let* en := edges_end n in
   if edge_eqb e en then Ret []
   else match fuel with
        | O => Fuel
        | S fuel =>
            let* e' := edge_incr n e in
            let* rest := edges_loop fuel n e' in
            Ret (e :: rest)
        end)%out.
Definition all_edges (n : nat) : outcome (list edge) :=
  (let* b := edges_begin n in edges_loop n n b)%out.
(** the vertices of an edge; dereferencing end() is UB *)
Definition deref (vs : list vec2) (i : nat) : outcome vec2 := of_option (nth_error vs i).
Fixpoint deref_edges (vs : list vec2) (es : list edge) : outcome (list (vec2 * vec2)) :=
  match es with
  | [] => Ret []
  | e :: es =>
      (let* f := deref vs (fst e) in
       let* t := deref vs (snd e) in
       let* rest := deref_edges vs es in
       Ret ((f, t) :: rest))%out
  end.
Definition edge_vertices (vs : list vec2) : outcome (list (vec2 * vec2)) :=
  (let* es := all_edges (length vs) in deref_edges vs es)%out.

(** Edge members, Edges.hpp:52-90, on the pair of end points *)
Definition edge_direction (e : vec2 * vec2) : vec2 := vsub (snd e) (fst e).
Definition edge_normal (e : vec2 * vec2) : vec2 := vperp_cw (edge_direction e).
Definition edge_normalizedNormal (e : vec2 * vec2) : vec2 := vnormalized (edge_normal e).
Definition edge_distsq (e : vec2 * vec2) (p : vec2) : K :=
  vnormsq (vsub (lb_closest (line_barycentric (fst e) (snd e) p)) p).
Definition edge_isOutside (e : vec2 * vec2) (p : vec2) : bool := vdot (edge_normal e) (vsub p (snd e)) >? k0.
Definition edge_isInside (e : vec2 * vec2) (p : vec2) : bool := vdot (vopp (edge_normal e)) (vsub p (snd e)) >? k0.
Definition edge_clipInside (e o : vec2 * vec2) : outcome vec2 :=
  if vdot (edge_direction e) (edge_normal o) =? k0 then Ret (fst e)
  else
    let d := edge_direction e in
    let od := edge_direction o in
    (let* c := solve2 (make_solver2 (M2 (vx d) (vx od) (vy d) (vy od))) (vsub (fst o) (fst e)) in
     Ret (vadd (fst e) (vscale (kclamp (vx c) k0 k1) d)))%out.

(** ** GeometricProperties, Geometry.inl.hpp:33-64 *)
Record geo_props := GP { gp_centroid : vec2; gp_area : K; gp_moment : K; gp_degenerate : bool }.
Fixpoint geo_loop (es : list (vec2 * vec2)) (area : K) (cen : vec2) (mom : K) : K * vec2 * K :=
  match es with
  | [] => (area, cen, mom)
  | (f, t) :: es =>
      let c := vcross f t in
      geo_loop es (area + c) (vadd cen (vscale c (vadd f t)))
        (mom + c * (vnormsq f + vdot f t + vnormsq t))
  end.
Definition geo_properties (vs : list vec2) : outcome geo_props :=
  (let* es := edge_vertices vs in
   let '(area, cen, mom) := geo_loop es k0 (V2 k0 k0) k0 in
   if area =? k0 then Ret (GP cen area mom true)
   else
     let area := area / k2 in
     let cen := vdivs cen (kofZ 6 * area) in
     let mom := mom / kofZ 12 in
     let mom := mom - area * vnormsq cen in
     Ret (GP cen area (kabs mom) false))%out.

(** ** Polygon, Polygon.inl.hpp:32-49 and Polygon.hpp:64-75 *)
Record polygon := Poly { pg_props : geo_props; pg_vertices : list vec2 }.
Definition make_polygon (vs : list vec2) : outcome polygon :=
  if Nat.leb 3 (length vs) then
    (let* p := geo_properties vs in
     if gp_area p <? k0 then
       Ret (Poly (GP (gp_centroid p) (gp_area p * - k1) (gp_moment p) (gp_degenerate p)) (rev vs))
     else Ret (Poly p vs))%out
  else Throw.
Definition box_vertices (dim center : vec2) : list vec2 :=
  let w := vx dim / k2 in
  let h := vy dim / k2 in
  [vadd center (V2 (- w) (- h)); vadd center (V2 w (- h)); vadd center (V2 w h); vadd center (V2 (- w) h)].
Definition polygon_box (dim center : vec2) : outcome polygon := make_polygon (box_vertices dim center).

End Model.
