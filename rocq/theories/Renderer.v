(** Model of OpenGlRenderer's batching and of Renderer::drawPoint / drawLine,
    src/Simu/app/Renderer.cpp and include/Simu/app/Renderer.hpp.  The OpenGL
    calls are replaced by a log of the buffers handed to glDrawElements; shaders
    and the camera uniform are not modelled. *)
From Coq Require Import ZArith List Bool.
From Verif Require Import Num Outcome Box Geom.
Import ListNotations.
Local Open Scope Z_scope.
Local Open Scope outcome_scope.

(** static_cast<Uint16> and static_cast<Uint8> *)
Definition u16 (z : Z) : Z := z mod 65536.
Definition u8 (z : Z) : Z := z mod 256.

Section Batches.
(** positions and colours *)
Context {P C : Type}.
Definition vertex : Type := (P * C)%type.
(** what one flush uploads: the vertex buffer and the element buffer *)
Record batch := Batch { bt_verts : list vertex; bt_inds : list Z }.
(** vertices_ and indices_, Renderer.hpp:158-159, and the batches drawn so far *)
Record renderer := Rdr { rd_verts : list vertex; rd_inds : list Z; rd_out : list batch }.
Definition new_renderer : renderer := Rdr [] [] [].
(** maxVertices_, Renderer.hpp:160 *)
Definition maxVertices : Z := 1024.
Definition vsize (l : list vertex) : Z := Z.of_nat (length l).

(** OpenGlRenderer::flush, lines 308-349 *)
Definition flush (r : renderer) : renderer :=
  Rdr [] [] (rd_out r ++ [Batch (rd_verts r) (rd_inds r)]).

(** the while loop of lines 297-302: the indices it appends *)
Fixpoint fan_loop (fuel : nat) (center index fin : Z) : outcome (list Z) :=
  if index <? fin then
    match fuel with
    | O => Fuel
    | S fuel =>
        let* rest := fan_loop fuel center (u16 (index + 1)) fin in
        Ret (center :: u16 (index - 1) :: index :: rest)
    end
  else Ret [].

(** OpenGlRenderer::drawPolygon, lines 280-306.  65536 turns of a Uint16 loop
    counter are enough for any loop that ends. *)
Definition loop_fuel : nat := Z.to_nat 65536.
Definition draw_polygon (center : P) (vertices : list P) (color : C) (r : renderer) : outcome renderer :=
  if Z.of_nat (length vertices) <? 3 then Throw
  else
    let centerIndex := u16 (vsize (rd_verts r)) in
    let vs := rd_verts r ++ (center, color) :: map (fun v => (v, color)) vertices in
    let fin := u16 (vsize vs) in
    let* rest := fan_loop loop_fuel centerIndex (u16 (centerIndex + 2)) fin in
    let r' := Rdr vs (rd_inds r ++ [centerIndex; u16 (fin - 1); u16 (centerIndex + 1)] ++ rest) (rd_out r) in
    Ret (if vsize vs >=? maxVertices then flush r' else r').

(** The calls a client makes. *)
Inductive draw_op := DrawPolygon (center : P) (vertices : list P) (color : C) | Flush.
Definition run_draw (o : draw_op) (r : renderer) : outcome renderer :=
  match o with
  | DrawPolygon c vs col => draw_polygon c vs col r
  | Flush => Ret (flush r)
  end.
Fixpoint run_draws (l : list draw_op) (r : renderer) : outcome renderer :=
  match l with
  | [] => Ret r
  | o :: l => let* r' := run_draw o r in run_draws l r'
  end.
End Batches.
Arguments vertex : clear implicits.
Arguments batch : clear implicits.
Arguments renderer : clear implicits.
Arguments draw_op : clear implicits.

(** Renderer::drawPoint, lines 115-126: the loop [for (Uint8 i = 0; i <
    getPointPrecision(); ++i)] collecting P + pointOffsets_[i]; [f i] stands for
    that point and [precision] for pointOffsets_.size(). *)
Section Points.
Context {P : Type}.
Fixpoint point_loop (fuel : nat) (precision : Z) (f : Z -> P) (i : Z) : outcome (list P) :=
  if i <? precision then
    match fuel with
    | O => Fuel
    | S fuel => let* rest := point_loop fuel precision f (u8 (i + 1)) in Ret (f i :: rest)
    end
  else Ret [].
End Points.
(** Renderer::setPointPrecision, Renderer.hpp:102-106: the new precision *)
Definition set_point_precision (new old : Z) : Z := if new >=? 3 then new else old.

Section Lines.
Context {N : Num}.
Local Open Scope num_scope.
(** Renderer::drawLine with the default square tip, lines 88-113: centre and
    vertices given to drawPolygon *)
Definition draw_line (lineWidth : K) (A B : vec2) : outcome (vec2 * list vec2) :=
  if negb (negb (vx A =? vx B) || negb (vy A =? vy B)) then Throw
  else
    let n := vdivs (vscale lineWidth (vnormalized (vperp (vsub B A)))) k2 in
    Ret (vdivs (vadd A B) k2, [vadd A n; vadd B n; vsub B n; vsub A n]).
End Lines.
