(** Model of include/Simu/math/Gjk.hpp and Gjk.inl.hpp.  The two shapes are their
    vertex lists; nIterations is unbounded. *)
From Coq Require Import ZArith List Bool.
From Verif Require Import Num Outcome Box Mat Geom.
Import ListNotations.
Local Open Scope num_scope.

Section Model.
Context {N : Num}.
Definition v00 : vec2 := V2 k0 k0.
(** perp(v, clockwise), Matrix.inl.hpp:616-620 *)
Definition vperpc (v : vec2) (cw : bool) : vec2 := if cw then vperp_cw v else vperp v.

(** ** Simplex, Gjk.hpp:36-61: pointStack, normals, initialSearchDir_, nIterations,
    keepBottomPoint_ *)
Record simplex := Sx {
  sx_p0 : vec2; sx_p1 : vec2; sx_p2 : vec2;
  sx_n0 : vec2; sx_n1 : vec2; sx_n2 : vec2;
  sx_dir : vec2; sx_iter : nat; sx_keep : bool }.

(** the constructor, Gjk.inl.hpp:36-40 *)
Definition sx_new (dir : vec2) : simplex :=
  Sx v00 v00 v00 v00 v00 v00 (if vall_eq dir v00 then V2 k1 k0 else dir) 0 false.

(** pushPoint, lines 42-64 *)
Definition sx_push (s : simplex) (v : vec2) : simplex :=
  let p1 := if sx_keep s then sx_p2 s else sx_p1 s in
  let a := v in
  let b := sx_p0 s in
  let c := p1 in
  let ab := vsub b a in
  let bc := vsub c b in
  let ca := vsub a c in
  let pos := vcross ab bc >=? k0 in
  Sx a b c (vperpc ab pos) (vperpc ca pos) (vperpc bc pos) (sx_dir s) (S (sx_iter s)) false.

(** nextDirection, lines 66-101; the mutable keepBottomPoint_ is part of the result *)
Definition sx_next (s : simplex) : vec2 * simplex :=
  match sx_iter s with
  | 0%nat => (sx_dir s, s)
  | 1%nat => (if vdot (sx_dir s) (sx_p0 s) >? k0 then vopp (sx_p0 s) else vopp (sx_dir s), s)
  | 2%nat =>
      let e := vsub (sx_p0 s) (sx_p1 s) in
      let k := vcross (sx_p1 s) (sx_p0 s) in
      (if k =? k0 then vperp (sx_dir s) else vperpc e (k <? k0), s)
  | _ =>
      if vdot (sx_n0 s) (sx_p0 s) <? k0 then (sx_n0 s, s)
      else (sx_n1 s, Sx (sx_p0 s) (sx_p1 s) (sx_p2 s) (sx_n0 s) (sx_n1 s) (sx_n2 s) (sx_dir s) (sx_iter s) true)
  end.

(** hasPoint, lines 103-111 *)
Definition sx_has (s : simplex) (v : vec2) : bool :=
  existsb (fun p => vall_eq p v) (firstn (Nat.min (sx_iter s) 3) [sx_p0 s; sx_p1 s; sx_p2 s]).

(** containsOrigin, lines 114-119 *)
Definition sx_contains (s : simplex) : bool :=
  (vdot (sx_p0 s) (sx_n0 s) >=? k0) && (vdot (sx_p0 s) (sx_n1 s) >=? k0) && (vdot (sx_p1 s) (sx_n2 s) >=? k0).

(** Gjk::furthestVertexInDirection, lines 272-277 *)
Definition gjk_support (A B : list vec2) (d : vec2) : outcome vec2 :=
  (let* a := furthest A d in
   let* b := furthest B (vopp d) in
   Ret (vsub a b))%out.

(** ** Gjk, Gjk.hpp:92-138 *)
Record gjk := Gk { gk_a : list vec2; gk_b : list vec2; gk_sx : simplex; gk_hit : bool }.

(** the loop of the constructor, lines 171-200; [done_] ends it.  The order of
    the assignments to areColliding_ is kept: a point behind the origin writes
    false, a simplex containing the origin overwrites it with true. *)
Fixpoint gjk_loop (fuel : nat) (A B : list vec2) (s : simplex) : outcome (simplex * bool) :=
  match fuel with
  | O => Fuel
  | S fuel =>
      let '(d, s) := sx_next s in
      (let* v := gjk_support A B d in
       let behind := vdot v d <? k0 in
       let isNew := negb (sx_has s v) in
       let s := sx_push s v in
       if Nat.ltb 2 (sx_iter s) && sx_contains s then Ret (s, true)
       else if behind || (Nat.ltb 2 (sx_iter s) && negb isNew) then Ret (s, false)
       else gjk_loop fuel A B s)%out
  end.
Definition make_gjk (fuel : nat) (A B : list vec2) (dir : vec2) : outcome gjk :=
  (let* r := gjk_loop fuel A B (sx_new dir) in Ret (Gk A B (fst r) (snd r)))%out.

(** separation, lines 202-238 *)
Fixpoint sep_loop (fuel : nat) (A B : list vec2) (s : simplex) : outcome simplex :=
  match fuel with
  | O => Fuel
  | S fuel =>
      let '(d, s) := sx_next s in
      (let* v := gjk_support A B d in
       if sx_has s v then Ret s else sep_loop fuel A B (sx_push s v))%out
  end.
Definition gjk_separation (fuel : nat) (g : gjk) : outcome vec2 :=
  if gk_hit g then Ret v00
  else
    (let* s := sep_loop fuel (gk_a g) (gk_b g) (gk_sx g) in
     match sx_iter s with
     | 1%nat => Ret (vopp (sx_p0 s))
     | 2%nat => Ret (vopp (lb_closest (line_barycentric (sx_p0 s) (sx_p1 s) v00)))
     | _ =>
         let* r := triangle_barycentric (sx_p0 s) (sx_p1 s) (sx_p2 s) v00 in
         let '(p, _, _, _) := r in Ret (vopp p)
     end)%out.

(** ** Polytope, Gjk.hpp:64-73; its constructor, Gjk.inl.hpp:122-134 *)
Definition polytope_of (s : simplex) : list vec2 :=
  let l := [sx_p0 s; sx_p1 s; sx_p2 s] in
  match orientation (sx_p0 s) (sx_p1 s) (sx_p2 s) k0 with Negative => rev l | _ => l end.
(** vertices.insert(begin + i, v) *)
Definition insert_at (i : nat) (v : vec2) (l : list vec2) : list vec2 := firstn i l ++ v :: skipn i l.
(** addVertex, lines 136-163: the new vertices, or None for false; [to] is where.toIt() *)
Definition add_vertex (P : list vec2) (to : nat) (e : vec2 * vec2) (v : vec2) : option (list vec2) :=
  if edge_isOutside e v then
    if existsb (fun w => vall_eq w v) P then None else Some (insert_at to v P)
  else None.

(** the closest edge, lines 253-263: its toIt() and end points *)
Fixpoint best_edge (es : list (edge * (vec2 * vec2))) (best : edge * (vec2 * vec2)) (d : K) : edge * (vec2 * vec2) :=
  match es with
  | [] => best
  | e :: es =>
      let de := edge_distsq (snd e) v00 in
      if de <? d then best_edge es e de else best_edge es best d
  end.
Definition polytope_edges (P : list vec2) : outcome (list (edge * (vec2 * vec2))) :=
  (let* es := all_edges (length P) in
   let* vs := deref_edges P es in
   Ret (combine es vs))%out.
(** penetration, lines 240-270 *)
Fixpoint epa_loop (fuel : nat) (A B : list vec2) (P : list vec2) : outcome vec2 :=
  match fuel with
  | O => Fuel
  | S fuel =>
      (let* es := polytope_edges P in
       let* e0 := of_option (hd_error es) in
       let best := best_edge es e0 (edge_distsq (snd e0) v00) in
       let* v := gjk_support A B (edge_normal (snd best)) in
       match add_vertex P (snd (fst best)) (snd best) v with
       | Some P => epa_loop fuel A B P
       | None => Ret (lb_closest (line_barycentric (fst (snd best)) (snd (snd best)) v00))
       end)%out
  end.
Definition gjk_penetration (fuel : nat) (g : gjk) : outcome vec2 :=
  if gk_hit g then epa_loop fuel (gk_a g) (gk_b g) (polytope_of (gk_sx g)) else Ret v00.

End Model.
