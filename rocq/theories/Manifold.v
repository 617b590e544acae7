(** Model of ContactManifold::update and its helpers,
    include/Simu/physics/ContactManifold.hpp:54-105, 185-246.  A collider is the
    list of its transformed vertices, a body its position. *)
From Coq Require Import ZArith List Bool.
From Verif Require Import Num Outcome Box Mat Geom Transform Body Gjk Constraint Contact.
Import ListNotations.
Local Open Scope num_scope.

Section Model.
Context {N : Num} {TR : Trig N}.

(** *it for an edge iterator *)
Definition edge_at (vs : list vec2) (e : edge) : outcome (vec2 * vec2) :=
  (let* f := deref vs (fst e) in
   let* t := deref vs (snd e) in
   Ret (f, t))%out.
(** std::find_if over the edges for the first one ending in v, lines 202-204 *)
Fixpoint find_to (vs : list vec2) (es : list edge) (v : vec2) : outcome (option edge) :=
  match es with
  | [] => Ret None
  | e :: es =>
      (let* ft := edge_at vs e in
       if vall_eq (snd ft) v then Ret (Some e) else find_to vs es v)%out
  end.
(** computeContactEdge, lines 196-213; next(end()) increments a past-the-end iterator *)
Definition contact_edge (vs : list vec2) (d : vec2) : outcome edge :=
  (let* v := furthest vs d in
   let* es := all_edges (length vs) in
   let* found := find_to vs es v in
   match found with
   | None => UB
   | Some previous =>
       let* next := edge_next (length vs) previous in
       let* ep := edge_at vs previous in
       let* en := edge_at vs next in
       if vdot (edge_normalizedNormal en) d >? vdot (edge_normalizedNormal ep) d then Ret next else Ret previous
   end)%out.

(** computeContacts, lines 215-246: the points on the incident edge and those on
    the reference edge; [rs] are the vertices of the reference collider, [re] its
    edge, [ie] the end points of the incident edge, [normal] is contactNormal_ *)
Definition compute_contacts (rs : list vec2) (re : edge) (ie : vec2 * vec2) (normal : vec2)
  : outcome (list vec2 * list vec2) :=
  (let* pre := edge_previous (length rs) re in
   let* nxt := edge_next (length rs) re in
   let* previousOfRef := edge_at rs pre in
   let* nextOfRef := edge_at rs nxt in
   let* ref := edge_at rs re in
   let n := vopp normal in
   let* c1 := edge_clipInside ie previousOfRef in
   let* c2 := edge_clipInside ie nextOfRef in
   let l1 := if vdot (vsub c1 (fst ref)) n >=? k0 then [c1] else [] in
   let inc := if vdot (vsub c2 (fst ref)) n >=? k0
              then match l1 with
                   | [] => [c2]
                   | c :: _ => if vall_eq c c2 then l1 else l1 ++ [c2]
                   end
              else l1 in
   Ret (inc, map (fun c => lb_closest (line_barycentric (fst ref) (snd ref) c)) inc))%out.

(** the contacts_ array after a write of the first entries; the later entries,
    never read, keep their value *)
Definition put (l : list vec2) (old : nat -> vec2) : nat -> vec2 :=
  fun i => match nth_error l i with Some v => v | None => old i end.
Definition mf_clear (m : manifold) : manifold := Mf 0 (mf_c m) (mf_normal m) (mf_ref0 m) (mf_minPen m).

(** update, lines 54-105; [A] and [B] are the vertices of colliders_[0] and
    colliders_[1], [p0] and [p1] the positions of their bodies; [fuel] bounds the
    iterations of GJK and EPA.  The bounding box of a collider is the one of its
    vertices (Collider.hpp:163-171). *)
Definition man_update (fuel : nat) (m : manifold) (p0 p1 : position) (A B : list vec2) : outcome manifold :=
  let pos (one : bool) := if one then p1 else p0 in
  let searchDir :=
    if Nat.eqb (mf_n m) 0 then vsub (p_centroid p1) (p_centroid p0)
    else rot_apply (t_rot (to_world (pos (negb (mf_ref0 m))))) (mf_normal m) in
  (let* ba := of_option (box_of_vertices A) in
   let* bb := of_option (box_of_vertices B) in
   if negb (box_overlaps ba bb) then Ret (mf_clear m)
   else
     let* g := make_gjk fuel A B searchDir in
     let* mtv := gjk_penetration fuel g in
     if vnormsq mtv <? mf_minPen m * mf_minPen m then Ret (mf_clear m)
     else
       let* e1 := contact_edge A mtv in
       let* e2 := contact_edge B (vopp mtv) in
       let* v1 := edge_at A e1 in
       let* v2 := edge_at B e2 in
       let normal1 := edge_normalizedNormal v1 in
       let normal2 := edge_normalizedNormal v2 in
       let ref0 := vdot normal1 mtv >? vdot normal2 (vopp mtv) in
       let normal := if ref0 then normal1 else normal2 in
       let* cs := (if ref0 then compute_contacts A e1 v2 normal else compute_contacts B e2 v1 normal) in
       let '(inc, ref) := cs in
       let local (one : bool) (l : list vec2) := map (tf_apply (to_local (pos one))) l in
       let c0 := local false (if ref0 then ref else inc) in
       let c1 := local true (if ref0 then inc else ref) in
       Ret (Mf (length inc) (fun b => put (if b then c1 else c0) (mf_c m b))
              (rot_apply (t_rot (to_local (pos (negb ref0)))) normal) ref0 (mf_minPen m)))%out.

(** the constructor, lines 41-47 *)
Definition make_manifold (fuel : nat) (pen0 pen1 : comb) (p0 p1 : position) (A B : list vec2) : outcome manifold :=
  man_update fuel (Mf 0 (fun _ _ => V2 k0 k0) (V2 k0 k0) true (cb_value (comb_combine pen0 pen1))) p0 p1 A B.

End Model.
