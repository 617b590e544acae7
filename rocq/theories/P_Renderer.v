(** Properties C55, C60, C61: the renderer.  The vocabulary ([drawn]: what
    glDrawElements does with the uploaded buffers; [fan]: the triangles of a
    polygon; [op_tris]: those of a call) is in [RendererFacts.v]. *)
From Coq Require Import ZArith List Reals Lra.
From Verif Require Import Num Outcome Box Geom Renderer RendererFacts.
Import ListNotations.
Local Open Scope Z_scope.

(** C55 *)
Theorem C55_batches_draw_the_fans : forall (P C : Type) (ops : list (draw_op P C)),
  Forall (op_ok 64511) ops ->
  exists r, run_draws ops new_renderer = Ret r /\ drawn (rd_out (flush r)) = Some (flat_map op_tris ops).
Proof. exact @batches_ok. Qed.
Print Assumptions C55_batches_draw_the_fans.

Theorem C55_too_few_vertices_throw : forall (P C : Type) (c : P) (vs : list P) (col : C) (r : renderer P C),
  Z.of_nat (length vs) < 3 -> draw_polygon c vs col r = Throw.
Proof. exact @draw_throws. Qed.
Print Assumptions C55_too_few_vertices_throw.

(** beyond the limit the 16-bit indices wrap: 65535 vertices give one triangle *)
Theorem C55_any_size_refuted : exists (ops : list (draw_op Z Z)) r, Forall (op_ok 65535) ops /\
  run_draws ops new_renderer = Ret r /\ drawn (rd_out (flush r)) <> Some (flat_map op_tris ops).
Proof. exact wrap_refuted. Qed.
Print Assumptions C55_any_size_refuted.

Definition ex_ops : list (draw_op Z Z) :=
  [DrawPolygon 0 [1; 2; 3; 4] 7; DrawPolygon 10 [11; 12; 13] 8; Flush; DrawPolygon 20 [21; 22; 23] 9].
Example C55_example : Forall (op_ok 64511) ex_ops /\
  match run_draws ex_ops new_renderer with
  | Ret r => map (@bt_inds Z Z) (rd_out (flush r)) =
      [[0; 4; 1; 0; 1; 2; 0; 2; 3; 0; 3; 4; 5; 8; 6; 5; 6; 7; 5; 7; 8]; [0; 3; 1; 0; 1; 2; 0; 2; 3]]
  | _ => False
  end /\
  map (fun '(a, b, c) => (fst a, fst b, fst c)) (fan 10 [11; 12; 13] 8) = [(10, 13, 11); (10, 11, 12); (10, 12, 13)].
Proof. repeat split; try (vm_compute; reflexivity). repeat constructor; vm_compute; discriminate. Qed.

(** C60 *)
Theorem C60_point_ends : forall (P : Type) (f : Z -> P) (precision : Z), 0 <= precision <= 255 ->
  point_loop 256 precision f 0 = Ret (map (fun k => f (Z.of_nat k)) (seq 0 (Z.to_nat precision))).
Proof. exact @point_ok. Qed.
Print Assumptions C60_point_ends.

Theorem C60_large_precision_never_ends : forall (P : Type) (f : Z -> P) (precision : Z), 256 <= precision ->
  forall fuel, point_loop fuel precision f 0 = Fuel.
Proof. exact (fun P f precision H fuel => point_endless f precision H fuel 0 (conj (Z.le_refl 0) (eq_refl : 0 < 256))). Qed.
Print Assumptions C60_large_precision_never_ends.

(** after any calls of setPointPrecision the precision is the last one of at
    least 3 that was asked for, so a point is always a polygon *)
Theorem C60_precision : forall (calls : list Z) (p0 : Z), 3 <= p0 ->
  let p := fold_left (fun old new => set_point_precision new old) calls p0 in
  3 <= p /\ p = last (filter (fun q => 3 <=? q) calls) p0.
Proof. exact (fun calls p0 H => conj (precision_3 calls p0 H) (precision_last calls p0)). Qed.
Print Assumptions C60_precision.

Example C60_example : set_point_precision 300 12 = 300 /\ set_point_precision 24 12 = 24 /\
  point_loop 256 4 (fun i => 10 * i) 0 = Ret [0; 10; 20; 30].
Proof. repeat split. Qed.

(** C61 *)
Local Open Scope R_scope.
Theorem C61_line_is_a_rectangle : forall (w : R) (A B : @vec2 RNum), A <> B -> 0 <= w ->
  exists c p q r s, @draw_line RNum w A B = Ret (c, [p; q; r; s]) /\
    @vadd RNum c c = @vadd RNum A B /\
    Forall (fun e => @vdot RNum (@vsub RNum (fst e) (snd e)) (@vsub RNum B A) = 0 /\
                     @vnormsq RNum (@vsub RNum (fst e) (snd e)) = (w / 2) * (w / 2))
      [(p, A); (q, B); (r, B); (s, A)] /\
    @vsub RNum q p = @vsub RNum B A /\ @vsub RNum r s = @vsub RNum B A /\
    @vadd RNum p s = @vadd RNum A A.
Proof. exact draw_line_quad. Qed.
Print Assumptions C61_line_is_a_rectangle.

Theorem C61_zero_length_throws : forall (w : R) (A : @vec2 RNum), @draw_line RNum w A A = Throw.
Proof. exact draw_line_throws. Qed.
Print Assumptions C61_zero_length_throws.

Example C61_example : @V2 RNum 0 0 <> @V2 RNum 3 4 /\ 0 <= 2.
Proof. split; [|lra]. intros H. injection H. lra. Qed.
