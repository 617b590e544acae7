(** Witnesses for the statements on Gjk: computed in binary32 on small integers. *)
From Coq Require Import ZArith List Bool Reals Lra Psatz Lia Arith.
From Verif Require Import Num Outcome Box Mat MatFacts MatSolve Geom GeomClosest GeomPoly GeomArea GeomExamples Gjk GjkFacts GjkThm GjkEpa GjkSep.
Import ListNotations.
Local Open Scope R_scope.

(** points with coordinates x/den, y/den *)
Definition pt (N : Num) (den : Z) (p : Z * Z) : @vec2 N := V2 (kofZ (fst p) / kofZ den)%num (kofZ (snd p) / kofZ den)%num.
Definition pts (N : Num) (den : Z) (l : list (Z * Z)) : list (@vec2 N) := map (pt N den) l.
Definition same32 (p q : @vec2 F32) : bool := vall_eq p q.

Definition run32 (den : Z) (A B : list (Z * Z)) (dir : Z * Z) : option (@gjk F32) :=
  match make_gjk (N := F32) 60 (pts F32 den A) (pts F32 den B) (pt F32 1 dir) with Ret g => Some g | _ => None end.
Definition says (den : Z) (A B : list (Z * Z)) (dir : Z * Z) (hit : bool) : bool :=
  match run32 den A B dir with Some g => Bool.eqb (gk_hit g) hit | None => false end.
(** penetration / separation: Some b for a value equal to p or not, None for a throw *)
Definition pen_is (den : Z) (A B : list (Z * Z)) (dir p : Z * Z) : option bool :=
  match run32 den A B dir with
  | Some g => match gjk_penetration 60 g with Ret r => Some (same32 r (pt F32 den p)) | _ => None end
  | None => None
  end.
Definition pen_throws (den : Z) (A B : list (Z * Z)) (dir : Z * Z) : bool :=
  match run32 den A B dir with Some g => match gjk_penetration 60 g with Throw => true | _ => false end | None => false end.
Definition sep_is (den : Z) (A B : list (Z * Z)) (dir p : Z * Z) : option bool :=
  match run32 den A B dir with
  | Some g => match gjk_separation 60 g with Ret r => Some (same32 r (pt F32 den p)) | _ => None end
  | None => None
  end.
Definition sep_throws (den : Z) (A B : list (Z * Z)) (dir : Z * Z) : bool :=
  match run32 den A B dir with Some g => match gjk_separation 60 g with Throw => true | _ => false end | None => false end.

Definition sq : list (Z * Z) := [(0, 0); (4, 0); (4, 4); (0, 4)]%Z.
Definition sq2 : list (Z * Z) := [(3, 1); (7, 1); (7, 5); (3, 5)]%Z.
Definition sq3 : list (Z * Z) := [(6, 1); (10, 1); (10, 5); (6, 5)]%Z.
Definition low2 : list (Z * Z) := [(0, 0); (1, 1); (0, 1)]%Z.
Definition up2 : list (Z * Z) := [(1, 1); (3, 1); (3, 3)]%Z.
Definition tA : list (Z * Z) := [(1, 0); (1, 1); (0, 0)]%Z.
Definition tB : list (Z * Z) := [(0, 2); (2, 1); (1, 3)]%Z.
Definition tC : list (Z * Z) := [(2, 1); (2, 3); (0, 2)]%Z.

Definition sqU : list (Z * Z) := [(1, 6); (5, 6); (5, 10); (1, 10)]%Z.

(** ** Solid shapes: three vertices not on a line *)
Definition solid (vs : list Rv) : Prop := exists a b c, In a vs /\ In b vs /\ In c vs /\ orient2 a b c <> 0.
Lemma orient2_line a b c d k : ~ zero d -> dotR a d = k -> dotR b d = k -> dotR c d = k -> orient2 a b c = 0.
Proof.
  intros ND H1 H2 H3. pose proof (dotR_pos d ND) as PD.
  assert (E : dotR d d * orient2 a b c = (dotR b d - dotR a d) * (cr d c - cr d b) - (dotR c d - dotR b d) * (cr d b - cr d a)) by (unfold orient2, dotR, cr; ring).
  rewrite H1, H2, H3 in E. nra.
Qed.
Lemma solid_ne vs : solid vs -> vs <> [].
Proof. intros (a & b & c & I & _) ->. exact I. Qed.
Lemma solid_spread A B d : (solid A \/ solid B) -> A <> [] -> B <> [] -> ~ zero d -> spread A B d.
Proof.
  intros S NA NB ND. destruct A as [|a0 A']; [congruence|]. destruct B as [|b0 B']; [congruence|].
  set (A := a0 :: A') in *. set (B := b0 :: B') in *.
  assert (Ia0 : In a0 A) by (left; reflexivity). assert (Ib0 : In b0 B) by (left; reflexivity).
  destruct S as [(a & b & c & Ia & Ib & Ic & O)|(a & b & c & Ia & Ib & Ic & O)].
  - destruct (Req_dec (dotR a d) (dotR b0 d)) as [E1|]; [|exists a, b0; auto].
    destruct (Req_dec (dotR b d) (dotR b0 d)) as [E2|]; [|exists b, b0; auto].
    destruct (Req_dec (dotR c d) (dotR b0 d)) as [E3|]; [|exists c, b0; auto].
    exfalso. apply O. eapply orient2_line; eauto.
  - destruct (Req_dec (dotR a d) (dotR a0 d)) as [E1|]; [|exists a0, a; auto].
    destruct (Req_dec (dotR b d) (dotR a0 d)) as [E2|]; [|exists a0, b; auto].
    destruct (Req_dec (dotR c d) (dotR a0 d)) as [E3|]; [|exists a0, c; auto].
    exfalso. apply O. eapply orient2_line; eauto.
Qed.
Theorem gjk_solid (A B : list Rv) (dir : Rv) fuel : solid A \/ solid B -> A <> [] -> B <> [] ->
  (length A * length B + 3 < fuel)%nat ->
  exists g, make_gjk fuel A B dir = Ret g /\ (gk_hit g = true <-> meet A B) /\
    (gk_hit g = false -> exists d, apart A B d).
Proof. intros S NA NB F. apply gjk_correct; auto. apply solid_spread; auto using search_nz. Qed.

Lemma overlap_ne A B : overlap A B -> A <> [] /\ B <> [].
Proof.
  intros OV. destruct (OV (rv 1 0)) as (a & b & Ia & Ib & _); [intros [X _]; cbn in X; lra|].
  split; intros ->; contradiction.
Qed.
Theorem epa_solid (A B : list Rv) (dir : Rv) fuel : overlap A B -> (length A * length B + 3 < fuel)%nat ->
  exists g p, make_gjk fuel A B dir = Ret g /\ gk_hit g = true /\ gjk_penetration fuel g = Ret p /\
    meet A (moved p B) /\
    (exists n, ~ zero n /\ forall a b, In a A -> In b (moved p B) -> dotR a n <= dotR b n) /\
    (forall t, dotR t t < dotR p p -> overlap A (moved t B)).
Proof. intros OV F. destruct (overlap_ne A B OV). apply epa_correct; auto. Qed.
(** without a common point the penetration is zero *)
Theorem pen_zero (A B : list Rv) (dir : Rv) fuel : solid A \/ solid B -> A <> [] -> B <> [] -> ~ meet A B ->
  (length A * length B + 3 < fuel)%nat -> exists g, make_gjk fuel A B dir = Ret g /\ gk_hit g = false /\ gjk_penetration fuel g = Ret (rv 0 0).
Proof.
  intros S NA NB NM F. destruct (gjk_solid A B dir fuel S NA NB F) as (g & E & H & _). exists g. split; [exact E|].
  unfold gjk_penetration. destruct (gk_hit g); [exfalso; apply NM, H; reflexivity|]. split; reflexivity.
Qed.
Theorem sep_solid (A B : list Rv) (dir : Rv) fuel fuel' g r : solid A \/ solid B -> A <> [] -> B <> [] ->
  (length A * length B + 3 < fuel)%nat -> make_gjk fuel A B dir = Ret g -> gjk_separation fuel' g = Ret r ->
  meet (moved r A) B.
Proof. intros S NA NB F. apply sep_correct; auto. apply solid_spread; auto using search_nz. Qed.

(** ** Witnesses *)
Local Ltac nz := let H := fresh in intros H; unfold orient2, cr, pt in H; cbn [fst snd vx vy kofZ kdiv RNum] in H; change (@K RNum) with R in *; lra.

Definition triple (l : list (Z * Z)) (a b c : Z * Z) : Prop := In a l /\ In b l /\ In c l.
Lemma triple_solid den l a b c : triple l a b c -> orient2 (pt RNum den a) (pt RNum den b) (pt RNum den c) <> 0 -> solid (pts RNum den l).
Proof. intros (I & J & K1) O. exists (pt RNum den a), (pt RNum den b), (pt RNum den c). repeat split; auto; apply in_map; assumption. Qed.

Lemma solid_sq : solid (pts RNum 1 sq).
Proof. apply (triple_solid 1 _ (0, 0)%Z (4, 0)%Z (4, 4)%Z); [cbv; tauto|nz]. Qed.
Lemma meet_sq : meet (pts RNum 1 sq) (pts RNum 1 [(3, 1); (7, 1); (4, 4)]%Z).
Proof. exists (pt RNum 1 (4, 4)%Z). split; apply hull_vertex; cbn; auto 6. Qed.
Lemma overlap_sq : overlap (pts RNum 1 sq) (pts RNum 1 sq2).
Proof.
  intros d ND. destruct d as [x y].
  assert (X : forall a b, In a sq -> In b sq2 -> 0 < IZR (fst a - fst b) * x + IZR (snd a - snd b) * y ->
    exists a b, In a (pts RNum 1 sq) /\ In b (pts RNum 1 sq2) /\ dotR b (V2 x y) < dotR a (V2 x y)).
  { intros a b Ia Ib L. exists (pt RNum 1 a), (pt RNum 1 b). repeat split; try (apply in_map; assumption).
    rewrite !minus_IZR in L. unfold dotR, pt. cbn [vx vy kofZ kdiv RNum fst snd]. change (@K RNum) with R in *. lra. }
  assert (N : x <> 0 \/ y <> 0).
  { destruct (Req_dec x 0) as [E|E]; [|auto]. destruct (Req_dec y 0) as [E'|E']; [|auto]. exfalso. apply ND. split; assumption. }
  change (@K RNum) with R in *.
  destruct (Rle_dec 0 x), (Rle_dec 0 y).
  - apply (X (4, 4)%Z (3, 1)%Z); [cbn; tauto|cbn; tauto|]. cbn [fst snd Z.sub Z.add Z.opp Z.pos_sub]. simpl. destruct N; lra.
  - apply (X (4, 0)%Z (3, 5)%Z); [cbn; tauto|cbn; tauto|]. simpl. lra.
  - apply (X (0, 4)%Z (7, 1)%Z); [cbn; tauto|cbn; tauto|]. simpl. lra.
  - apply (X (0, 0)%Z (7, 5)%Z); [cbn; tauto|cbn; tauto|]. simpl. lra.
Qed.
Lemma pen_sq : says 1 sq sq2 (1, 0)%Z true = true /\ pen_is 1 sq sq2 (1, 0)%Z (1, 0)%Z = Some true.
Proof. split; vm_compute; reflexivity. Qed.
Lemma sep_sq : says 1 sq sq3 (1, 0)%Z false = true /\ sep_is 1 sq sq3 (1, 0)%Z (2, 0)%Z = Some true.
Proof. split; vm_compute; reflexivity. Qed.

Lemma apart_pts den A B d : (0 < den)%Z -> (forall a b, In a A -> In b B -> fst a * fst d + snd a * snd d < fst b * fst d + snd b * snd d)%Z ->
  apart (pts RNum den A) (pts RNum den B) (pt RNum 1 d).
Proof.
  intros D H a b Ia Ib. unfold pts in *. apply in_map_iff in Ia as (a' & <- & Ia). apply in_map_iff in Ib as (b' & <- & Ib).
  specialize (H a' b' Ia Ib). apply IZR_lt in H. rewrite !plus_IZR, !mult_IZR in H. apply IZR_lt in D.
  unfold dotR, pt. cbn [vx vy kofZ kdiv RNum]. change (@K RNum) with R in *.
  assert (P : 0 < / IZR den) by (apply Rinv_0_lt_compat; exact D).
  unfold Rdiv. rewrite Rinv_1. set (i := / IZR den) in *. clearbody i. nra.
Qed.

Lemma pen_sq3 : apart (pts RNum 1 sq) (pts RNum 1 sq3) (pt RNum 1 (1, 0)%Z) /\ pen_is 1 sq sq3 (1, 0)%Z (0, 0)%Z = Some true.
Proof.
  split; [|vm_compute; reflexivity]. apply apart_pts; [reflexivity|]. intros a b Ia Ib. cbn in Ia, Ib.
  repeat (destruct Ia as [<-|Ia]; [repeat (destruct Ib as [<-|Ib]; [reflexivity|]); contradiction|]). contradiction.
Qed.

(** flat shapes on one line across the search direction *)
Lemma flat_wrong : says 1 [(0, 1); (0, 2)]%Z [(0, 3); (0, 4)]%Z (1, 0)%Z true = true /\
  apart (pts RNum 1 [(0, 1); (0, 2)]%Z) (pts RNum 1 [(0, 3); (0, 4)]%Z) (pt RNum 1 (0, 1)%Z).
Proof.
  split; [vm_compute; reflexivity|]. apply apart_pts; [lia|].
  intros a b [<-|[<-|[]]] [<-|[<-|[]]]; reflexivity.
Qed.
(** squares of side 2^-76 in binary32 *)
Lemma tiny_hit : says (2 ^ 78) sq sqU (1, 0)%Z true = true /\
  apart (pts RNum (2 ^ 78) sq) (pts RNum (2 ^ 78) sqU) (pt RNum 1 (0, 1)%Z) /\ solid (pts RNum (2 ^ 78) sq).
Proof.
  split; [vm_compute; reflexivity|]. split.
  - apply apart_pts; [reflexivity|]. intros a b Ia Ib. cbn in Ia, Ib.
    repeat (destruct Ia as [<-|Ia]; [repeat (destruct Ib as [<-|Ib]; [reflexivity|]); contradiction|]). contradiction.
  - apply (triple_solid _ _ (0, 0)%Z (4, 0)%Z (4, 4)%Z); [cbv; tauto|].
    assert (P : 0 < / IZR (2 ^ 78)) by (apply Rinv_0_lt_compat, IZR_lt; reflexivity).
    unfold orient2, cr, pt. cbn [vx vy fst snd kofZ kdiv RNum]. unfold Rdiv. set (i := / IZR (2 ^ 78)) in *. clearbody i. change (@K RNum) with R in *. intros H. nra.
Qed.
(** touching triangles: reported as colliding, penetration throws *)
Lemma touch_throws : says 1 low2 up2 (1, 0)%Z true = true /\ pen_throws 1 low2 up2 (1, 0)%Z = true /\
  solid (pts RNum 1 low2) /\ solid (pts RNum 1 up2) /\ meet (pts RNum 1 low2) (pts RNum 1 up2).
Proof.
  split; [vm_compute; reflexivity|]. split; [vm_compute; reflexivity|]. split; [|split].
  - apply (triple_solid 1 _ (0, 0)%Z (1, 1)%Z (0, 1)%Z); [cbv; tauto|nz].
  - apply (triple_solid 1 _ (1, 1)%Z (3, 1)%Z (3, 3)%Z); [cbv; tauto|nz].
  - exists (pt RNum 1 (1, 1)%Z). split; apply hull_vertex; cbn; auto 6.
Qed.
(** disjoint triangles: (1, 0) is returned, (1/5, 2/5) is enough *)
Lemma sep_long : says 1 tA tB (1, 0)%Z false = true /\ sep_is 1 tA tB (1, 0)%Z (1, 0)%Z = Some true /\
  solid (pts RNum 1 tA) /\ meet (moved (rv (1 / 5) (2 / 5)) (pts RNum 1 tA)) (pts RNum 1 tB).
Proof.
  split; [vm_compute; reflexivity|]. split; [vm_compute; reflexivity|]. split.
  - apply (triple_solid 1 _ (1, 0)%Z (1, 1)%Z (0, 0)%Z); [cbv; tauto|nz].
  - exists (vadd (pt RNum 1 (1, 1)%Z) (rv (1 / 5) (2 / 5))). split.
    + apply hull_vertex. cbn. auto.
    + pose proof (hull_mix (pts RNum 1 tB) (pt RNum 1 (0, 2)%Z) (pt RNum 1 (2, 1)%Z) (3 / 5)) as H.
      match type of H with _ -> _ -> _ -> hull _ ?x => assert (E : vadd (pt RNum 1 (1, 1)%Z) (rv (1 / 5) (2 / 5)) = x) end.
      { apply v_ext; unfold pt, rv; ung; cbn [fst snd kofZ kdiv RNum vx vy]; rcbn; field. }
      rewrite E. apply H; [apply hull_vertex; cbn; auto|apply hull_vertex; cbn; auto|lra].
Qed.
Lemma sep_fails : says 1 tA tC (1, 0)%Z false = true /\ sep_throws 1 tA tC (1, 0)%Z = true /\
  solid (pts RNum 1 tA) /\ solid (pts RNum 1 tC).
Proof.
  split; [vm_compute; reflexivity|]. split; [vm_compute; reflexivity|]. split.
  - apply (triple_solid 1 _ (1, 0)%Z (1, 1)%Z (0, 0)%Z); [cbv; tauto|nz].
  - apply (triple_solid 1 _ (2, 1)%Z (2, 3)%Z (0, 2)%Z); [cbv; tauto|nz].
Qed.
