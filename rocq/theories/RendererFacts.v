(** What the GPU is asked to draw, and the facts about batching. *)
From Coq Require Import ZArith List Bool Lia Reals Lra.
From Verif Require Import Num Outcome Box Geom Renderer.
Import ListNotations.
Local Open Scope Z_scope.

(** ** Specification *)
Section Spec.
Context {P C : Type}.
Local Notation vert := (vertex P C).
Local Notation op := (draw_op P C).
(** glDrawElements(GL_TRIANGLES): three indices at a time into the vertex
    buffer; None if an index is outside the buffer or the count is not a
    multiple of three *)
Definition fetch (vs : list vert) (i : Z) : option vert :=
  if i <? 0 then None else nth_error vs (Z.to_nat i).
Fixpoint triangles (vs : list vert) (is : list Z) : option (list (vert * vert * vert)) :=
  match is with
  | [] => Some []
  | a :: b :: c :: rest =>
      match fetch vs a, fetch vs b, fetch vs c, triangles vs rest with
      | Some x, Some y, Some z, Some l => Some ((x, y, z) :: l)
      | _, _, _, _ => None
      end
  | _ => None
  end.
Fixpoint drawn (l : list (batch P C)) : option (list (vert * vert * vert)) :=
  match l with
  | [] => Some []
  | b :: l => match triangles (bt_verts b) (bt_inds b), drawn l with
              | Some x, Some y => Some (x ++ y) | _, _ => None end
  end.
(** the triangles of a polygon: the centre with each pair of cyclically
    consecutive vertices *)
Fixpoint consecutive (first : P) (l : list P) : list (P * P) :=
  match l with
  | [] => []
  | [x] => [(x, first)]
  | x :: (y :: _) as r => (x, y) :: consecutive first r
  end.
Definition cyclic_pairs (l : list P) : list (P * P) :=
  match l with [] => [] | x :: _ => consecutive x l end.
Definition tri (c : P) (col : C) (e : P * P) : vert * vert * vert := ((c, col), (fst e, col), (snd e, col)).
(** the closing triangle comes first *)
Definition fan (c : P) (vs : list P) (col : C) : list (vert * vert * vert) :=
  match rev (cyclic_pairs vs) with
  | [] => []
  | closing :: others => tri c col closing :: map (tri c col) (rev others)
  end.
Definition op_tris (o : op) : list (vert * vert * vert) :=
  match o with DrawPolygon c vs col => fan c vs col | Flush => [] end.
Definition op_ok (limit : Z) (o : op) : Prop :=
  match o with DrawPolygon _ vs _ => 3 <= Z.of_nat (length vs) <= limit | Flush => True end.
End Spec.

(** ** Proofs *)
Section Facts.
Context {P C : Type}.
Local Notation vert := (vertex P C).
Local Notation op := (draw_op P C).
Local Notation rdr := (renderer P C).

Lemma u16_id z : 0 <= z < 65536 -> u16 z = z.
Proof. intros H. unfold u16. apply Z.mod_small. exact H. Qed.

Definition loop_tris (c : Z) (start : nat) (n : nat) : list Z :=
  flat_map (fun i => [c; Z.of_nat i - 1; Z.of_nat i]) (seq start n).

Lemma fan_loop_ok fuel c start n : (n <= fuel)%nat -> (1 <= start)%nat ->
  Z.of_nat start + Z.of_nat n <= 65535 -> 0 <= c ->
  fan_loop fuel c (Z.of_nat start) (Z.of_nat start + Z.of_nat n) = Ret (loop_tris c start n).
Proof.
  revert start n. induction fuel as [|fuel IH]; intros start n Hn H1 Hmax Hc.
  - assert (n = 0%nat) by lia. subst n. cbn [fan_loop].
    replace (Z.of_nat start <? Z.of_nat start + Z.of_nat 0) with false
      by (symmetry; apply Z.ltb_ge; lia). reflexivity.
  - destruct n as [|n].
    + cbn [fan_loop]. replace (Z.of_nat start <? Z.of_nat start + Z.of_nat 0) with false
        by (symmetry; apply Z.ltb_ge; lia). reflexivity.
    + cbn [fan_loop]. replace (Z.of_nat start <? Z.of_nat start + Z.of_nat (S n)) with true
        by (symmetry; apply Z.ltb_lt; lia).
      rewrite (u16_id (Z.of_nat start + 1)) by lia. rewrite (u16_id (Z.of_nat start - 1)) by lia.
      replace (Z.of_nat start + 1) with (Z.of_nat (S start)) by lia.
      replace (Z.of_nat start + Z.of_nat (S n)) with (Z.of_nat (S start) + Z.of_nat n) by lia.
      rewrite IH by lia. reflexivity.
Qed.

Lemma fetch_nat (vs : list vert) n : fetch vs (Z.of_nat n) = nth_error vs n.
Proof.
  unfold fetch. replace (Z.of_nat n <? 0) with false by (symmetry; apply Z.ltb_ge; lia).
  now rewrite Nat2Z.id.
Qed.

Lemma triangles_app (vs : list vert) a b x y :
  triangles vs a = Some x -> triangles vs b = Some y -> triangles vs (a ++ b) = Some (x ++ y).
Proof.
  revert x. assert (G : forall n a x, (length a <= n)%nat ->
    triangles vs a = Some x -> triangles vs b = Some y -> triangles vs (a ++ b) = Some (x ++ y)).
  { clear a. induction n as [|n IH]; intros a x Hl Ha Hb.
    - destruct a; [|cbn in Hl; lia]. cbn in Ha. injection Ha as <-. exact Hb.
    - destruct a as [|p [|q [|r a]]]; cbn [triangles] in Ha; try discriminate.
      { injection Ha as <-. exact Hb. }
      cbn [app triangles].
      destruct (fetch vs p); [|discriminate]. destruct (fetch vs q); [|discriminate].
      destruct (fetch vs r); [|discriminate].
      destruct (triangles vs a) eqn:E; [|discriminate]. injection Ha as <-.
      rewrite (IH a l) by (cbn in Hl; auto; lia). reflexivity. }
  intros x. apply (G (length a)). lia.
Qed.

Lemma triangles_extend (vs more : list vert) a x :
  triangles vs a = Some x -> triangles (vs ++ more) a = Some x.
Proof.
  revert x. assert (G : forall n a x, (length a <= n)%nat ->
    triangles vs a = Some x -> triangles (vs ++ more) a = Some x).
  { assert (F : forall i v, fetch vs i = Some v -> fetch (vs ++ more) i = Some v).
    { intros i v. unfold fetch. destruct (i <? 0); [discriminate|]. intros H.
      rewrite nth_error_app1; [exact H|]. apply nth_error_Some. congruence. }
    clear a. induction n as [|n IH]; intros a x Hl Ha.
    - destruct a; [exact Ha|cbn in Hl; lia].
    - destruct a as [|p [|q [|r a]]]; cbn [triangles] in Ha |- *; try discriminate; [exact Ha|].
      destruct (fetch vs p) eqn:E1; [|discriminate]. destruct (fetch vs q) eqn:E2; [|discriminate].
      destruct (fetch vs r) eqn:E3; [|discriminate].
      destruct (triangles vs a) eqn:E; [|discriminate].
      rewrite (F _ _ E1), (F _ _ E2), (F _ _ E3), (IH a l) by (cbn in Hl; auto; lia). exact Ha. }
  intros x. apply (G (length a)). lia.
Qed.

(** the loop's triangles: vertices [start-1], [start], ... of the buffer *)
Lemma loop_triangles (pre : list vert) (c : P) (col : C) (l : list P) first :
  triangles (pre ++ (c, col) :: map (fun v => (v, col)) (first ++ l))
    (loop_tris (Z.of_nat (length pre)) (length pre + 1 + length first) (length l)) =
  match rev first with
  | [] => match l with [] => Some [] | _ :: _ => triangles (pre ++ (c, col) :: map (fun v => (v, col)) (first ++ l))
    (loop_tris (Z.of_nat (length pre)) (length pre + 1 + length first) (length l)) end
  | p :: _ => Some (map (tri c col) (combine (p :: removelast l) l))
  end.
Proof.
  revert first. induction l as [|v l IH]; intros first.
  - cbn. destruct (rev first); reflexivity.
  - destruct (rev first) as [|p rf] eqn:Er; [reflexivity|].
    unfold loop_tris. cbn [length seq flat_map]. change [?a; ?b; ?d] with ([a; b; d]).
    set (vs := pre ++ (c, col) :: map (fun v => (v, col)) (first ++ v :: l)).
    assert (Fc : fetch vs (Z.of_nat (length pre)) = Some (c, col)).
    { rewrite fetch_nat. unfold vs. rewrite nth_error_app2 by lia. now rewrite Nat.sub_diag. }
    assert (Ef : first = rev rf ++ [p]).
    { rewrite <- (rev_involutive first), Er. reflexivity. }
    assert (Hlen : length first = S (length rf)).
    { rewrite Ef, app_length, rev_length. cbn. lia. }
    assert (Fp : fetch vs (Z.of_nat (length pre + 1 + length first) - 1) = Some (p, col)).
    { replace (Z.of_nat (length pre + 1 + length first) - 1) with (Z.of_nat (length pre + 1 + length rf)) by lia.
      rewrite fetch_nat. unfold vs. rewrite nth_error_app2 by lia.
      replace (length pre + 1 + length rf - length pre)%nat with (S (length rf)) by lia. cbn [nth_error].
      rewrite Ef, map_app, map_app, <- app_assoc. rewrite nth_error_app2 by (rewrite map_length, rev_length; lia).
      rewrite map_length, rev_length, Nat.sub_diag. reflexivity. }
    assert (Fv : fetch vs (Z.of_nat (length pre + 1 + length first)) = Some (v, col)).
    { rewrite fetch_nat. unfold vs. rewrite nth_error_app2 by lia.
      replace (length pre + 1 + length first - length pre)%nat with (S (length first)) by lia. cbn [nth_error].
      rewrite map_app. rewrite nth_error_app2 by (rewrite map_length; lia).
      rewrite map_length, Nat.sub_diag. reflexivity. }
    cbn [app triangles]. rewrite Fc, Fp, Fv.
    specialize (IH (first ++ [v])). rewrite <- app_assoc in IH. cbn [app] in IH. fold vs in IH.
    rewrite app_length in IH. cbn [length] in IH. rewrite Nat.add_assoc, (Nat.add_comm _ 1) in IH.
    cbn [Nat.add] in IH. unfold loop_tris in IH. rewrite rev_app_distr in IH. cbn [rev app] in IH.
    rewrite IH. f_equal. cbn [combine map]. destruct l; reflexivity.
Qed.

Lemma consecutive_spec (first a : P) l :
  consecutive first (a :: l) = combine (a :: l) (l ++ [first]).
Proof.
  revert a. induction l as [|b l IH]; intros a; [reflexivity|].
  change (consecutive first (a :: b :: l)) with ((a, b) :: consecutive first (b :: l)).
  rewrite IH. reflexivity.
Qed.

Lemma combine_snoc {A B} (l : list A) (m : list B) a b : length l = length m ->
  combine (l ++ [a]) (m ++ [b]) = combine l m ++ [(a, b)].
Proof. revert m. induction l as [|x l IH]; intros [|y m] H; cbn in *; try lia; [reflexivity|]. now rewrite IH by lia. Qed.

Lemma fan_spec (c : P) (a : P) (l : list P) (col : C) :
  fan c (a :: l) col = tri c col (last l a, a) :: map (tri c col) (combine (a :: removelast l) l).
Proof.
  unfold fan, cyclic_pairs. rewrite consecutive_spec.
  destruct l as [|b l] using rev_ind; [reflexivity|]. clear IHl.
  rewrite last_last, removelast_last.
  change (a :: l ++ [b]) with ((a :: l) ++ [b]). 
  rewrite combine_snoc by (rewrite app_length; cbn; lia).
  rewrite rev_app_distr. cbn [rev app]. rewrite rev_involutive. reflexivity.
Qed.

Lemma drawn_app (l m : list (batch P C)) x y : drawn l = Some x -> drawn m = Some y -> drawn (l ++ m) = Some (x ++ y).
Proof.
  revert x. induction l as [|b l IH]; intros x Hl Hm; cbn in *; [injection Hl as <-; exact Hm|].
  destruct (triangles (bt_verts b) (bt_inds b)); [|discriminate].
  destruct (drawn l); [|discriminate]. injection Hl as <-. rewrite (IH _ eq_refl Hm). now rewrite app_assoc.
Qed.

(** between two calls: the batch under construction is small and decodes, and
    together with what was flushed gives the triangles drawn so far *)
Definition good (r : rdr) (t : list (vert * vert * vert)) : Prop :=
  vsize (rd_verts r) < maxVertices /\
  exists x y, drawn (rd_out r) = Some x /\ triangles (rd_verts r) (rd_inds r) = Some y /\ t = x ++ y.

Lemma flush_good r t x y : drawn (rd_out r) = Some x -> triangles (rd_verts r) (rd_inds r) = Some y ->
  t = x ++ y -> good (flush r) t.
Proof.
  intros Hx Hy ->. split; [reflexivity|]. exists (x ++ y), []. repeat split.
  - cbn [flush rd_out]. apply drawn_app; [exact Hx|]. cbn. rewrite Hy. now rewrite app_nil_r.
  - now rewrite app_nil_r.
Qed.

Lemma draw_good c vs col r t : good r t -> 3 <= Z.of_nat (length vs) <= 64511 ->
  exists r', draw_polygon c vs col r = Ret r' /\ good r' (t ++ fan c vs col).
Proof.
  intros [Hs (x & y & Hx & Hy & ->)] Hn.
  unfold maxVertices, vsize in Hs.
  unfold draw_polygon. replace (Z.of_nat (length vs) <? 3) with false by (symmetry; apply Z.ltb_ge; lia).
  set (pre := rd_verts r) in *. set (nv := pre ++ (c, col) :: map (fun v => (v, col)) vs).
  assert (Hnv : vsize nv = Z.of_nat (length pre) + 1 + Z.of_nat (length vs)).
  { unfold vsize, nv. rewrite app_length. cbn [length]. rewrite map_length. lia. }
  destruct vs as [|a l]; [cbn in Hn; lia|]. destruct l as [|b l]; [cbn in Hn; lia|].
  rewrite Hnv. unfold vsize. rewrite (u16_id (Z.of_nat (length pre))) by lia.
  rewrite (u16_id (Z.of_nat (length pre) + 1 + _)) by lia.
  rewrite (u16_id (Z.of_nat (length pre) + 2)), (u16_id (_ - 1)), (u16_id (Z.of_nat (length pre) + 1)) by lia.
  set (l1 := b :: l) in *.
  replace (Z.of_nat (length pre) + 2) with (Z.of_nat (length pre + 1 + length [a])) by (cbn [length]; lia).
  replace (Z.of_nat (length pre) + 1 + Z.of_nat (length (a :: l1)))
    with (Z.of_nat (length pre + 1 + length [a]) + Z.of_nat (length l1)) by (cbn [length]; lia).
  rewrite fan_loop_ok.
  2: { unfold loop_fuel. cbn [length] in Hn. change (length l1) with (S (length l)) in *. lia. }
  2: { lia. }
  2: { cbn [length] in *. lia. }
  2: { lia. }
  cbn [obind].
  set (new := [Z.of_nat (length pre); Z.of_nat (length pre + 1 + length [a]) + Z.of_nat (length l1) - 1;
               Z.of_nat (length pre) + 1] ++ loop_tris (Z.of_nat (length pre)) (length pre + 1 + length [a]) (length l1)).
  assert (Hnew : triangles nv new = Some (fan c (a :: l1) col)).
  { rewrite fan_spec. unfold new. cbn [app triangles].
    pose proof (loop_triangles pre c col l1 [a]) as Hl. cbn [rev app] in Hl. fold nv in Hl. rewrite Hl.
    assert (F1 : fetch nv (Z.of_nat (length pre)) = Some (c, col)).
    { rewrite fetch_nat. unfold nv. rewrite nth_error_app2 by lia. now rewrite Nat.sub_diag. }
    assert (F2 : fetch nv (Z.of_nat (length pre) + 1) = Some (a, col)).
    { replace (Z.of_nat (length pre) + 1) with (Z.of_nat (length pre + 1)) by lia.
      rewrite fetch_nat. unfold nv. rewrite nth_error_app2 by lia.
      replace (length pre + 1 - length pre)%nat with 1%nat by lia. reflexivity. }
    assert (F3 : fetch nv (Z.of_nat (length pre + 1 + length [a]) + Z.of_nat (length l1) - 1) = Some (last l1 a, col)).
    { replace (Z.of_nat (length pre + 1 + length [a]) + Z.of_nat (length l1) - 1)
        with (Z.of_nat (length pre + (S (length l1)))) by (cbn [length]; lia).
      rewrite fetch_nat. unfold nv. rewrite nth_error_app2 by lia.
      replace (length pre + S (length l1) - length pre)%nat with (S (length l1)) by lia. cbn [nth_error].
      assert (El : l1 = removelast l1 ++ [last l1 a]) by (apply app_removelast_last; unfold l1; discriminate).
      rewrite El at 1 2. cbn [map]. rewrite map_app, app_length. cbn [length map].
      replace (length (removelast l1) + 1)%nat with (S (length (removelast l1))) by lia. cbn [nth_error].
      rewrite nth_error_app2 by (rewrite map_length; lia). rewrite map_length, Nat.sub_diag. reflexivity. }
    rewrite F1, F2, F3. reflexivity. }
  assert (Hall : triangles nv (rd_inds r ++ new) = Some (y ++ fan c (a :: l1) col)).
  { apply triangles_app; [|exact Hnew]. unfold nv. apply triangles_extend. exact Hy. }
  eexists. split; [reflexivity|].
  set (r1 := Rdr nv (rd_inds r ++ new) (rd_out r)).
  destruct (Z.geb_spec (Z.of_nat (length pre + 1 + length [a]) + Z.of_nat (length l1)) maxVertices) as [Hge|Hlt].
  - apply (flush_good r1 _ x (y ++ fan c (a :: l1) col)); [exact Hx|exact Hall|now rewrite app_assoc].
  - split.
    + change (vsize nv < maxVertices). rewrite Hnv. cbn [length] in *. lia.
    + exists x, (y ++ fan c (a :: l1) col). repeat split; [exact Hx|exact Hall|now rewrite app_assoc].
Qed.

Lemma run_good (ops : list op) (r : rdr) t : good r t -> Forall (op_ok 64511) ops ->
  exists r', run_draws ops r = Ret r' /\ good r' (t ++ flat_map op_tris ops).
Proof.
  revert r t. induction ops as [|o ops IH]; intros r t G H; cbn [run_draws flat_map].
  - exists r. split; [reflexivity|]. now rewrite app_nil_r.
  - inversion H as [|? ? Ho Hops]; subst. destruct o as [c vs col|]; cbn [run_draw op_tris].
    + destruct (draw_good c vs col r t G Ho) as (r1 & E1 & G1). rewrite E1. cbn [obind].
      destruct (IH r1 _ G1 Hops) as (r2 & E2 & G2). exists r2. split; [exact E2|]. now rewrite app_assoc.
    + destruct G as [Hs (x & y & Hx & Hy & ->)]. cbn [obind app].
      apply IH; [|exact Hops]. apply (flush_good r _ x y Hx Hy eq_refl).
Qed.

Lemma batches_ok (ops : list op) : Forall (op_ok 64511) ops ->
  exists r, run_draws ops new_renderer = Ret r /\ drawn (rd_out (flush r)) = Some (flat_map op_tris ops).
Proof.
  intros H. destruct (run_good ops new_renderer [] ) as (r & E & [_ (x & y & Hx & Hy & Ht)]); [|exact H|].
  { split; [reflexivity|]. exists [], []. repeat split. }
  exists r. split; [exact E|]. cbn [app] in Ht. rewrite Ht. cbn [flush rd_out].
  apply drawn_app; [exact Hx|]. cbn. rewrite Hy. now rewrite app_nil_r.
Qed.

(** fewer than three vertices: an exception, and nothing is drawn *)
Lemma draw_throws c vs col (r : rdr) : Z.of_nat (length vs) < 3 -> draw_polygon c vs col r = Throw.
Proof. intros H. unfold draw_polygon. now replace (Z.of_nat (length vs) <? 3) with true by (symmetry; apply Z.ltb_lt; lia). Qed.

(** ** The wrap-around *)
Lemma wraps (p : P) (col : C) (l : list P) : Z.of_nat (length l) = 65535 ->
  exists r, draw_polygon p l col new_renderer = Ret r /\
    exists t, drawn (rd_out (flush r)) = Some t /\ length t = 1%nat.
Proof.
  intros L. unfold draw_polygon. rewrite L. cbn [rd_verts new_renderer app].
  set (vs := (p, col) :: map (fun v => (v, col)) l).
  assert (Lv : vsize vs = 65536). { unfold vsize, vs. cbn [length]. rewrite map_length. lia. }
  change (@vsize P C []) with 0. rewrite Lv.
  change (65535 <? 3) with false. cbn [rd_inds new_renderer app].
  change (u16 65536) with 0. change (u16 0) with 0. change (u16 (0 + 2)) with 2.
  change (u16 (0 - 1)) with 65535. change (u16 (0 + 1)) with 1.
  generalize loop_fuel. intros fuel.
  assert (Ef : fan_loop fuel 0 2 0 = Ret []) by (destruct fuel; reflexivity).
  rewrite Ef. cbn [obind]. change (65536 >=? maxVertices) with true.
  eexists. split; [reflexivity|]. cbn [flush rd_out rd_verts rd_inds app drawn bt_verts bt_inds triangles].
  assert (F : forall i, 0 <= i < 65536 -> exists v, fetch vs i = Some v).
  { intros i Hi. unfold fetch. replace (i <? 0) with false by (symmetry; apply Z.ltb_ge; lia).
    destruct (nth_error vs (Z.to_nat i)) eqn:E; [eauto|]. apply nth_error_None in E.
    unfold vsize, vertex in *. lia. }
  clearbody vs.
  destruct (F 0) as [v0 E0]; [lia|]. destruct (F 65535) as [v1 E1]; [lia|]. destruct (F 1) as [v2 E2]; [lia|].
  cbn [rd_out new_renderer app drawn bt_verts bt_inds triangles]. rewrite E0, E1, E2. eexists. split; [reflexivity|]. reflexivity.
Qed.
Lemma fan_length c (vs : list P) (col : C) : length (fan c vs col) = length vs.
Proof.
  destruct vs as [|a l]; [reflexivity|]. rewrite fan_spec. cbn [length]. rewrite map_length, combine_length.
  cbn [length]. destruct l as [|b l] using rev_ind; [reflexivity|]. rewrite removelast_last, app_length. cbn [length]. lia.
Qed.
End Facts.

Lemma wrap_refuted : exists (ops : list (draw_op Z Z)) r, Forall (op_ok 65535) ops /\
  run_draws ops new_renderer = Ret r /\ drawn (rd_out (flush r)) <> Some (flat_map op_tris ops).
Proof.
  assert (H : exists l : list Z, Z.of_nat (length l) = 65535).
  { exists (repeat 0 (Z.to_nat 65535)). rewrite repeat_length, Z2Nat.id; [reflexivity|discriminate]. }
  destruct H as [l Hl].
  destruct (wraps 0 0 l Hl) as (r & E & t & D & L).
  exists [DrawPolygon 0 l 0], r. repeat split.
  - constructor; [|constructor]. unfold op_ok. lia.
  - cbn [run_draws run_draw]. rewrite E. reflexivity.
  - rewrite D. intros H. injection H as H. apply (f_equal (@length _)) in H.
    rewrite L in H. cbn [flat_map op_tris] in H. rewrite app_nil_r, fan_length in H. lia.
Qed.

(** ** drawPoint *)
Section PointFacts.
Context {P : Type}.
Lemma point_loop_ok fuel (f : Z -> P) precision i : precision <= 255 -> 0 <= i -> (Z.to_nat (precision - i) <= fuel)%nat ->
  point_loop fuel precision f i = Ret (map (fun k => f (i + Z.of_nat k)) (seq 0 (Z.to_nat (precision - i)))).
Proof.
  intros Hp. revert i. induction fuel as [|fuel IH]; intros i Hi Hf.
  - cbn [point_loop]. replace (i <? precision) with false by (symmetry; apply Z.ltb_ge; lia).
    replace (Z.to_nat (precision - i)) with 0%nat by lia. reflexivity.
  - cbn [point_loop]. destruct (Z.ltb_spec i precision) as [Hlt|Hge].
    + unfold u8. rewrite Z.mod_small by lia. rewrite IH by lia. cbn [obind].
      replace (Z.to_nat (precision - i)) with (S (Z.to_nat (precision - (i + 1)))) by lia.
      cbn [seq map]. rewrite Z.add_0_r. f_equal. f_equal. rewrite <- seq_shift, map_map.
      apply map_ext. intros k. f_equal. lia.
    + replace (Z.to_nat (precision - i)) with 0%nat by lia. reflexivity.
Qed.
Lemma point_ok (f : Z -> P) precision : 0 <= precision <= 255 ->
  point_loop 256 precision f 0 = Ret (map (fun k => f (Z.of_nat k)) (seq 0 (Z.to_nat precision))).
Proof.
  intros H. rewrite (point_loop_ok 256 f precision 0) by lia. rewrite Z.sub_0_r. reflexivity.
Qed.
Lemma point_endless (f : Z -> P) precision : 256 <= precision -> forall fuel i, 0 <= i < 256 ->
  point_loop fuel precision f i = Fuel.
Proof.
  intros H fuel. induction fuel as [|fuel IH]; intros i Hi; cbn [point_loop];
    replace (i <? precision) with true by (symmetry; apply Z.ltb_lt; lia); [reflexivity|].
  rewrite IH; [reflexivity|]. unfold u8. apply Z.mod_pos_bound. lia.
Qed.
End PointFacts.

(** ** drawLine, exact arithmetic *)
Local Open Scope R_scope.
Local Notation Rv := (@vec2 RNum).
Lemma draw_line_throws w (A : Rv) : @draw_line RNum w A A = Throw.
Proof. unfold draw_line. cbn. rcmp; try congruence; reflexivity. Qed.
Lemma draw_line_quad w (A B : Rv) : A <> B -> 0 <= w ->
  exists c p q r s, @draw_line RNum w A B = Ret (c, [p; q; r; s]) /\
    @vadd RNum c c = @vadd RNum A B /\
    Forall (fun e => @vdot RNum (@vsub RNum (fst e) (snd e)) (@vsub RNum B A) = 0 /\
                     @vnormsq RNum (@vsub RNum (fst e) (snd e)) = (w / 2) * (w / 2))
      [(p, A); (q, B); (r, B); (s, A)] /\
    @vsub RNum q p = @vsub RNum B A /\ @vsub RNum r s = @vsub RNum B A /\
    @vadd RNum p s = @vadd RNum A A.
Proof.
  intros Hne Hw. destruct A as [ax ay], B as [bx by_].
  assert (Hd : (bx - ax) * (bx - ax) + (by_ - ay) * (by_ - ay) > 0).
  { pose proof (Rle_0_sqr (bx - ax)) as S1. pose proof (Rle_0_sqr (by_ - ay)) as S2.
    destruct (Req_dec ax bx) as [Hx|Hx].
    - assert (Hy : ay <> by_) by congruence.
      pose proof (Rsqr_pos_lt (by_ - ay) (Rminus_eq_contra _ _ (not_eq_sym Hy))) as S3. unfold Rsqr in *. lra.
    - pose proof (Rsqr_pos_lt (bx - ax) (Rminus_eq_contra _ _ (not_eq_sym Hx))) as S3. unfold Rsqr in *. lra. }
  unfold draw_line. cbn [vx vy kleb keqb RNum].
  assert (Ht : negb (negb (Reqb ax bx) || negb (Reqb ay by_)) = false).
  { rcmp; cbn; try reflexivity. exfalso. apply Hne. congruence. }
  cbn in Ht |- *. rewrite Ht.
  do 5 eexists. split; [reflexivity|].
  unfold vdivs, vscale, vnormalized, vdivs, vperp, vnorm, vnormsq, vdot, vadd, vsub. cbn. unfold k2. cbn. set (n := sqrt _).
  assert (Hn : n * n = (bx - ax) * (bx - ax) + (by_ - ay) * (by_ - ay)).
  { unfold n. rewrite sqrt_sqrt; [ring|]. nra. }
  assert (Hp : n > 0). { unfold n. apply sqrt_lt_R0. nra. }
  unfold vadd, vsub. cbn.
  assert (E : ((bx - ax) * (bx - ax) + (by_ - ay) * (by_ - ay)) * (/ n * / n) = 1).
  { rewrite <- Hn. field. lra. }
  repeat split.
  - f_equal; field.
  - repeat constructor; cbn; try (field; lra).
    all: transitivity ((w / 2 * (w / 2)) * (((bx - ax) * (bx - ax) + (by_ - ay) * (by_ - ay)) * (/ n * / n))); [field; lra|rewrite E; ring].
  - f_equal; ring.
  - f_equal; ring.
  - f_equal; ring.
Qed.

Local Open Scope Z_scope.
(** ** the point precision over any calls of setPointPrecision *)
Lemma last_snoc (A : Type) (l : list A) a d : last (l ++ [a]) d = a.
Proof. induction l as [|b l IH]; [reflexivity|]. cbn [app last]. destruct (l ++ [a]) eqn:E; [destruct l; discriminate E|exact IH]. Qed.
Lemma precision_last (calls : list Z) (p0 : Z) :
  fold_left (fun old new => set_point_precision new old) calls p0 = last (filter (fun p => 3 <=? p) calls) p0.
Proof.
  induction calls as [|c calls IH] using rev_ind; [reflexivity|].
  rewrite fold_left_app, filter_app. cbn [fold_left filter]. unfold set_point_precision at 1. rewrite Z.geb_leb.
  destruct (3 <=? c); [rewrite last_snoc; reflexivity|rewrite app_nil_r; exact IH].
Qed.
Lemma precision_3 (calls : list Z) (p0 : Z) : 3 <= p0 -> 3 <= fold_left (fun old new => set_point_precision new old) calls p0.
Proof.
  revert p0. induction calls as [|c calls IH]; intros p0 H; [exact H|]. cbn [fold_left]. apply IH. unfold set_point_precision. rewrite Z.geb_leb.
  destruct (Z.leb_spec 3 c); assumption.
Qed.
