(** Cases for the statements on ContactManifold, C69-C72. *)
From Coq Require Import ZArith List Bool Reals Lra Psatz Lia Arith.
From Verif Require Import Num Outcome Box BoxFacts BoxOverlap BoxExamples Mat MatFacts MatSolve Geom GeomClosest GeomPoly GeomArea GeomExamples Transform TransformFacts Body BodyFacts Gjk GjkFacts GjkThm GjkEpa GjkSep GjkExamples Constraint ConstraintThm Contact Manifold ManifoldFacts ManifoldThm.
Import ListNotations.
Local Open Scope R_scope.

(** a body at rest with its origin at (x, y), not rotated *)
Definition at_xy (N : Num) (p : Z * Z) : @position N := Pos (pt N 1 p) (Rot (kofZ 0) (kofZ 1) (kofZ 0)) (V2 (kofZ 0) (kofZ 0)).
Definition fresh (N : Num) (num den : Z) : @manifold N := Mf 0 (fun _ _ => V2 k0 k0) (V2 k0 k0) true (kofZ num / kofZ den)%num.
(** the second body is at (1, 0): the initial search direction is (1, 0) *)
Definition upd32 (num den : Z) (A B : list (Z * Z)) : outcome (@manifold F32) :=
  man_update (N := F32) 60 (fresh F32 num den) (at_xy F32 (0, 0)%Z) (at_xy F32 (1, 0)%Z) (pts F32 1 A) (pts F32 1 B).
Definition frm32 (num den : Z) (A B : list (Z * Z)) : option (@frame F32) :=
  match upd32 num den A B with Ret m => Some (frame_of m (to_world (at_xy F32 (0, 0)%Z)) (to_world (at_xy F32 (1, 0)%Z))) | _ => None end.
(** the frame has these contacts, normal and tangent *)
Definition frm_is (num den : Z) (A B : list (Z * Z)) (cs : list ((Z * Z) * (Z * Z))) (nor tan : Z * Z) : bool :=
  match frm32 num den A B with
  | Some F =>
      Nat.eqb (fr_n F) (length cs) && same32 (fr_normal F) (pt F32 1 nor) && same32 (fr_tangent F) (pt F32 1 tan) &&
      forallb (fun k => match nth_error cs k with
                        | Some (a, b) => same32 (fr_c F false k) (pt F32 1 a) && same32 (fr_c F true k) (pt F32 1 b)
                        | None => true end) (seq 0 (length cs))
  | None => false
  end.
Definition count32 (num den : Z) (A B : list (Z * Z)) : option nat := option_map (@fr_n F32) (frm32 num den A B).
Definition upd_throws (num den : Z) (A B : list (Z * Z)) : bool := match upd32 num den A B with Throw => true | _ => false end.


Lemma rect_sq : rectangle (pts RNum 1 sq).
Proof.
  exists (rv 0 0), (rv 4 0), 1. split; [intros [X _]; cbn in X; lra|]. split; [lra|].
  unfold pts, sq, pt, rv. cbn [map fst snd kofZ kdiv RNum]. ung. repeat (apply f_equal2; [apply v_ext; cbn [vx vy]; rcbn; lra|]). reflexivity.
Qed.
Lemma rect_sq2 : rectangle (pts RNum 1 sq2).
Proof.
  exists (rv 3 1), (rv 4 0), 1. split; [intros [X _]; cbn in X; lra|]. split; [lra|].
  unfold pts, sq2, pt, rv. cbn [map fst snd kofZ kdiv RNum]. ung. repeat (apply f_equal2; [apply v_ext; cbn [vx vy]; rcbn; lra|]). reflexivity.
Qed.
Lemma rect_sq3 : rectangle (pts RNum 1 sq3).
Proof.
  exists (rv 6 1), (rv 4 0), 1. split; [intros [X _]; cbn in X; lra|]. split; [lra|].
  unfold pts, sq3, pt, rv. cbn [map fst snd kofZ kdiv RNum]. ung. repeat (apply f_equal2; [apply v_ext; cbn [vx vy]; rcbn; lra|]). reflexivity.
Qed.
Lemma frm_sq : frm_is 1 2 sq sq2 [((4, 4), (3, 4)); ((4, 1), (3, 1))]%Z (-1, 0)%Z (0, -1)%Z = true.
Proof. vm_compute. reflexivity. Qed.
Lemma apart_sq3 : apart (pts RNum 1 sq) (pts RNum 1 sq3) (pt RNum 1 (1, 0)%Z).
Proof.
  apply apart_pts; [reflexivity|]. intros a b Ia Ib. cbn in Ia, Ib.
  repeat (destruct Ia as [<-|Ia]; [repeat (destruct Ib as [<-|Ib]; [reflexivity|]); contradiction|]). contradiction.
Qed.

(** two triangles overlapping by 2, without contact *)
Definition zA : list (Z * Z) := [(-2, -6); (6, -5); (2, -1)]%Z.
Definition zB : list (Z * Z) := [(-4, -1); (-2, -3); (3, -3)]%Z.
Lemma tri_convex (a b c : Z * Z) : (0 < (fst b - fst a) * (snd c - snd a) - (snd b - snd a) * (fst c - fst a))%Z -> convex (pts RNum 1 [a; b; c]).
Proof.
  destruct a as [ax ay], b as [bx by_], c as [cx cy]. cbn [fst snd]. intros H. apply IZR_lt in H.
  rewrite minus_IZR, !mult_IZR, !minus_IZR in H. unfold pts, pt. cbn [map fst snd kofZ kdiv RNum].
  set (xa := IZR ax) in *. set (ya := IZR ay) in *. set (xb := IZR bx) in *. set (yb := IZR by_) in *. set (xc := IZR cx) in *. set (yc := IZR cy) in *.
  clearbody xa ya xb yb xc yc. unfold Rdiv. rewrite Rinv_1, !Rmult_1_r. split; [cbn; lia|]. split.
  - repeat constructor; cbn [In]; intros Q; repeat destruct Q as [Q|Q]; try contradiction; injection Q; intros; subst; lra.
  - intros e w IE Iw N1 N2. unfold cyc in IE. cbn in IE, Iw.
    repeat destruct IE as [<- | IE]; try contradiction; repeat destruct Iw as [<- | Iw]; try contradiction;
      cbn [fst snd] in N1, N2; try (exfalso; apply N1; reflexivity); try (exfalso; apply N2; reflexivity);
      unfold side, cr; cbn [fst snd]; ung; rcbn; change (@K RNum) with R in *; lra.
Qed.
Lemma convex_zA : convex (pts RNum 1 zA). Proof. apply tri_convex. reflexivity. Qed.
Lemma convex_zB : convex (pts RNum 1 zB). Proof. apply tri_convex. reflexivity. Qed.
(** (2, -3) is inside the first and on a side of the second *)
Lemma overlap_z : overlap (pts RNum 1 zA) (pts RNum 1 zB).
Proof.
  intros d ND. destruct d as [x y]. change (@K RNum) with R in *. fold (rv x y) in *.
  assert (XB : exists b, In b (pts RNum 1 zB) /\ dotR b (rv x y) <= 2 * x - 3 * y).
  { destruct (Rle_dec 0 x); [exists (pt RNum 1 (-2, -3)%Z)|exists (pt RNum 1 (3, -3)%Z)]; (split; [apply in_map; cbn; tauto|]);
      unfold dotR, pt, rv; cbn [vx vy kofZ kdiv RNum fst snd]; change (@K RNum) with R in *; lra. }
  assert (XA : exists a, In a (pts RNum 1 zA) /\ 2 * x - 3 * y < dotR a (rv x y)).
  { assert (N : x <> 0 \/ y <> 0).
    { destruct (Req_dec x 0) as [E|E]; [|auto]. destruct (Req_dec y 0) as [E'|E']; [|auto]. exfalso. apply ND. split; assumption. }
    destruct (Rlt_dec 0 y) as [P|P]; [exists (pt RNum 1 (2, -1)%Z)|destruct (Rle_dec 0 x) as [Q|Q]; [exists (pt RNum 1 (6, -5)%Z)|exists (pt RNum 1 (-2, -6)%Z)]];
      (split; [apply in_map; cbn; tauto|]); unfold dotR, pt, rv; cbn [vx vy kofZ kdiv RNum fst snd]; change (@K RNum) with R in *; destruct N; lra. }
  destruct XA as (a & Ia & La), XB as (b & Ib & Lb). exists a, b. split; [exact Ia|]. split; [exact Ib|]. lra.
Qed.
Lemma no_contact : convex (pts RNum 1 zA) /\ convex (pts RNum 1 zB) /\ overlap (pts RNum 1 zA) (pts RNum 1 zB) /\
  pen_is 1 zA zB (1, 0)%Z (0, 2)%Z = Some true /\ count32 1 2 zA zB = Some 0%nat.
Proof. split; [exact convex_zA|]. split; [exact convex_zB|]. split; [exact overlap_z|]. split; vm_compute; reflexivity. Qed.

(** triangles sharing only a vertex *)
Lemma convex_low2 : convex (pts RNum 1 low2). Proof. apply tri_convex. reflexivity. Qed.
Lemma convex_up2 : convex (pts RNum 1 up2). Proof. apply tri_convex. reflexivity. Qed.
Lemma touching_throws : convex (pts RNum 1 low2) /\ convex (pts RNum 1 up2) /\
  (forall a b, In a (pts RNum 1 low2) -> In b (pts RNum 1 up2) -> dotR a (rv 1 0) <= dotR b (rv 1 0)) /\
  upd_throws 1 2 low2 up2 = true.
Proof.
  split; [exact convex_low2|]. split; [exact convex_up2|]. split; [|vm_compute; reflexivity].
  intros a b Ia Ib. cbn in Ia, Ib. repeat destruct Ia as [<- | Ia]; try contradiction; repeat destruct Ib as [<- | Ib]; try contradiction;
    unfold dotR, pt, rv; cbn [vx vy kofZ kdiv RNum fst snd]; change (@K RNum) with R in *; lra.
Qed.

(** triangles which do not meet although their boxes overlap *)
Lemma apart_t : apart (pts RNum 1 tA) (pts RNum 1 tB) (pt RNum 1 (1, 2)%Z).
Proof.
  apply apart_pts; [reflexivity|]. intros a b Ia Ib. cbn in Ia, Ib.
  repeat (destruct Ia as [<-|Ia]; [repeat (destruct Ib as [<-|Ib]; [reflexivity|]); contradiction|]). contradiction.
Qed.
Lemma zero_throws : convex (pts RNum 1 tA) /\ convex (pts RNum 1 tB) /\ ~ meet (pts RNum 1 tA) (pts RNum 1 tB) /\
  upd_throws 0 1 tA tB = true /\ count32 1 2 tA tB = Some 0%nat.
Proof.
  split; [apply tri_convex; reflexivity|]. split; [apply tri_convex; reflexivity|]. split; [exact (apart_not_meet _ _ _ apart_t)|].
  split; vm_compute; reflexivity.
Qed.

(** clipInside *)
Definition clip32 (g h c d r : Z * Z) : bool :=
  match edge_clipInside (N := F32) (pt F32 1 g, pt F32 1 h) (pt F32 1 c, pt F32 1 d) with Ret x => same32 x (pt F32 1 r) | _ => false end.
Lemma clip_ex : clip32 (0, 0)%Z (8, 4)%Z (4, -1)%Z (4, 9)%Z (4, 2)%Z = true /\ clip32 (0, 0)%Z (8, 4)%Z (12, -1)%Z (12, 9)%Z (8, 4)%Z = true /\
  clip32 (0, 0)%Z (8, 4)%Z (0, 9)%Z (2, 10)%Z (0, 0)%Z = true.
Proof. split; [|split]; vm_compute; reflexivity. Qed.

(** the statements as listed *)
Theorem update_contacts A B fuel (m : manifold (N := RNum)) p0 p1 : convex A -> convex B -> is_rotation (p_rot p0) -> is_rotation (p_rot p1) ->
  overlap A B -> (length A * length B + 3 < fuel)%nat ->
  exists m' p, man_update fuel m p0 p1 A B = Ret m' /\ shortest_exit A B p /\ mf_minPen m' = mf_minPen m /\
    let F := frame_of m' (to_world p0) (to_world p1) in
    (dotR p p < mf_minPen m * mf_minPen m -> fr_n F = 0%nat) /\
    (mf_minPen m * mf_minPen m <= dotR p p -> contact_frame A B p F).
Proof.
  intros CA CB R0 R1 OV F. destruct (update_overlapping A B fuel m p0 p1 CA CB R0 R1 OV F) as (m' & p & E & SE & MP & H1 & H2).
  exists m', p. split; [exact E|]. split; [exact SE|]. split; [exact MP|]. split; [exact H1|]. intros L. apply H2, L.
Qed.
Lemma ex_contacts : convex (pts RNum 1 sq) /\ convex (pts RNum 1 sq2) /\ is_rotation (mk_rot (N := RNum) 0) /\
  overlap (pts RNum 1 sq) (pts RNum 1 sq2) /\
  frm_is 1 2 sq sq2 [((4, 4), (3, 4)); ((4, 1), (3, 1))]%Z (-1, 0)%Z (0, -1)%Z = true.
Proof.
  split; [apply rectangle_convex, rect_sq|]. split; [apply rectangle_convex, rect_sq2|]. split; [apply ir_mk|].
  split; [exact overlap_sq|exact frm_sq].
Qed.
