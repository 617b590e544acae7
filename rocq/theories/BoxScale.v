(** Scaled boxes (C87), linear operations on matrices (C22), sides of an edge (C32). *)
From Coq Require Import ZArith List Bool Reals Lra Psatz.
From Verif Require Import Num Outcome Box BoxFacts BoxExamples Mat MatFacts MatSolve Geom GeomClosest.
Local Open Scope R_scope.

Definition midpoint (b : @box RNum) : Rv := rv ((vx (bmin b) + vx (bmax b)) / 2) ((vy (bmin b) + vy (bmax b)) / 2).
(** [homothety c r q]: the image of q when everything is enlarged r times around c *)
Definition homothety (c : Rv) (r : R) (q : Rv) : Rv := rv (vx c + r * (vx q - vx c)) (vy c + r * (vy q - vy c)).

Lemma scaled_corners b r : bmin (@box_scaled RNum b r) = homothety (midpoint b) r (bmin b) /\ bmax (@box_scaled RNum b r) = homothety (midpoint b) r (bmax b).
Proof.
  destruct b as [[x0 y0] [x1 y1]]. unfold box_scaled, homothety, midpoint, box_center, vdivs, vadd, vsub, vscale, rv, k2. cbn [bmin bmax vx vy kadd kdiv kofZ ksub kmul RNum].
  split; apply (f_equal2 (@V2 RNum)); rfield.
Qed.
Lemma inside_R (p : Rv) (b : @box RNum) : inside p b <-> vx (bmin b) <= vx p <= vx (bmax b) /\ vy (bmin b) <= vy p <= vy (bmax b).
Proof.
  unfold inside. cbn [kltb RNum]. unfold Rltb.
  destruct (Rlt_dec (vx p) (vx (bmin b))), (Rlt_dec (vx (bmax b)) (vx p)), (Rlt_dec (vy p) (vy (bmin b))), (Rlt_dec (vy (bmax b)) (vy p));
    split; intros H; decompose [and] H; try discriminate; try (exfalso; lra); repeat split; lra.
Qed.
Lemma scale_axis m M r x : 0 < r -> let c := (m + M) / 2 in
  c + r * (m - c) <= x <= c + r * (M - c) <-> m <= c + / r * (x - c) <= M.
Proof.
  intros R0. cbv zeta. set (c := (m + M) / 2). set (y := c + / r * (x - c)).
  assert (E : x = c + r * (y - c)) by (unfold y; field; lra). rewrite E.
  split; intros [A B]; split; try nra.
Qed.
Lemma scaled_spec (b : @box RNum) (r : R) : 0 < r ->
  (forall p, inside p (box_scaled b r) <-> exists q, inside q b /\ p = homothety (midpoint b) r q) /\
  midpoint (box_scaled b r) = midpoint b /\
  (1 <= r -> box_valid b = true -> box_contains (box_scaled b r) b = true) /\
  (r <= 1 -> box_valid b = true -> box_contains b (box_scaled b r) = true).
Proof.
  intros R0. destruct (scaled_corners b r) as [E0 E1]. destruct b as [[x0 y0] [x1 y1]]. unfold midpoint in *. cbn [bmin bmax vx vy rv homothety] in *.
  assert (SP : forall p : Rv, inside p (@box_scaled RNum (Box (rv x0 y0) (rv x1 y1)) r) <->
     exists q, inside q (Box (rv x0 y0) (rv x1 y1)) /\ p = homothety (rv ((x0 + x1) / 2) ((y0 + y1) / 2)) r q).
  { intros p. rewrite inside_R. unfold rv in *. rewrite E0, E1. cbn [vx vy homothety]. unfold homothety, rv. cbn [vx vy].
    rewrite !scale_axis by exact R0. split.
    - intros [A B]. exists (rv ((x0 + x1) / 2 + / r * (vx p - (x0 + x1) / 2)) ((y0 + y1) / 2 + / r * (vy p - (y0 + y1) / 2))).
      split; [apply inside_R; cbn; split; assumption|]. destruct p as [px py]. cbn. change (@K RNum) with R in *. apply (f_equal2 (@V2 RNum)); rfield; lra.
    - intros (q & I & ->). apply inside_R in I. cbn in I |- *. change (@K RNum) with R in *.
      destruct q as [qx qy]. cbn in I |- *. change (@K RNum) with R in *.
      replace ((x0 + x1) / 2 + / r * ((x0 + x1) / 2 + r * (qx - (x0 + x1) / 2) - (x0 + x1) / 2)) with qx by (field; lra).
      replace ((y0 + y1) / 2 + / r * ((y0 + y1) / 2 + r * (qy - (y0 + y1) / 2) - (y0 + y1) / 2)) with qy by (field; lra). exact I. }
  split; [exact SP|]. split.
  { unfold rv in *. rewrite E0, E1. unfold homothety, rv. cbn [vx vy]. apply (f_equal2 (@V2 RNum)); rfield. }
  change (V2 x0 y0) with (rv x0 y0) in *. change (V2 x1 y1) with (rv x1 y1) in *.
  assert (OKB : forall b : @box RNum, okbox okR b) by (intros; repeat split).
  split; intros R1 V; pose proof V as V'; apply (box_valid_inside (ok := okR)) in V; auto; apply inside_R in V; cbn in V; change (@K RNum) with R in *;
    (apply (box_contains_spec (ok := okR)); auto).
  - split; [|split; [exact V'|]].
    + apply (box_valid_inside (ok := okR)); auto. apply inside_R. rewrite E0, E1. cbn. change (@K RNum) with R in *. nra.
    + intros p _ I. apply inside_R in I. apply inside_R. rewrite E0, E1. cbn in I |- *. change (@K RNum) with R in *. nra.
  - split; [exact V'|]. split.
    + apply (box_valid_inside (ok := okR)); auto. apply inside_R. rewrite E0, E1. cbn. change (@K RNum) with R in *. nra.
    + intros p _ I. apply inside_R in I. apply inside_R. rewrite E0, E1 in I. cbn in I |- *. change (@K RNum) with R in *. nra.
Qed.
(** in binary32 even the ratio 1 moves the corners: the corner 1 of [1, 10^8] becomes 0 *)
Lemma scaled_one_moves : exists b : @box F32, finite_box b = true /\ box_valid b = true /\ box_eqb (box_scaled b (fofZ 1)) b = false.
Proof. exists (fbox (fofZ 1) (fofZ 1) (fofZ 100000000) (fofZ 100000000)). vm_compute. auto. Qed.
Lemma ex_scaled : @box_scaled RNum (Box (rv 1 2) (rv 3 8)) 2 = Box (rv 0 (-1)) (rv 4 11).
Proof. unfold box_scaled, box_center, vdivs, vadd, vsub, vscale, rv, k2. cbn [bmin bmax vx vy kadd kdiv kofZ ksub kmul RNum]. apply (f_equal2 (@Box RNum)); apply (f_equal2 (@V2 RNum)); rfield. Qed.

(** ** Linear operations *)
Lemma mat_linear n (A B : Rmat) (x : Rvec) (s : R) i j :
  msub A B i j = madd A (mopp B) i j /\ madd A (mopp A) i j = 0 /\
  mmul n (@mscale RNum s A) B i j = @mscale RNum s (mmul n A B) i j /\ mmul n A (@mscale RNum s B) i j = @mscale RNum s (mmul n A B) i j /\
  mmul n (mopp A) B i j = mopp (mmul n A B) i j /\
  mvmul n (msub A B) x i = mvmul n A x i - mvmul n B x i /\
  mvmul n (@mscale RNum s A) x i = s * mvmul n A x i /\
  (s <> 0 -> @mscale RNum s (@mdivs RNum A s) i j = A i j /\ @mdivs RNum (@mscale RNum s A) s i j = A i j).
Proof.
  assert (KS : forall (f g : nat -> R) m (c : R), (forall k, g k = f k * c) -> @ksum RNum m g = @ksum RNum m f * c).
  { intros f g m c H. induction m as [|m IH]; cbn [ksum]; unfold k0 in *; cbn [kofZ kadd RNum] in *; [rring|]. rewrite IH, H. rring. }
  unfold msub, madd, mopp, mscale, mdivs, mmul, mvmul. cbn [ksub kadd kopp kmul kdiv RNum].
  split; [rring|]. split; [rring|]. split; [apply KS; intros; rring|]. split; [apply KS; intros; rring|].
  split.
  { rewrite (KS (fun k => A i k * B k j) (fun k => - A i k * B k j) n (-1)) by (intros; rring). change (@K RNum) with R in *. ring. }
  split.
  { induction n as [|n IH]; cbn [ksum]; unfold k0; cbn [kofZ kadd RNum]; [rring|]. cbn [kofZ kadd RNum] in IH. rewrite IH. rring. }
  split; [rewrite (KS (fun k => A i k * x k) _ n s) by (intros; rring); apply Rmult_comm|].
  intros S0. change (@K RNum) with R in *. split; field; exact S0.
Qed.

(** ** Sides of an edge *)
(** twice the signed area of the triangle from, to, p: positive when p lies to the left *)
Definition left_of (e : Rv * Rv) (p : Rv) : R :=
  (vx (snd e) - vx (fst e)) * (vy p - vy (fst e)) - (vy (snd e) - vy (fst e)) * (vx p - vx (fst e)).
Lemma edge_sides (e : Rv * Rv) (p : Rv) : fst e <> snd e ->
  (edge_isInside e p = true <-> 0 < left_of e p) /\ (edge_isOutside e p = true <-> left_of e p < 0) /\
  (edge_isInside e p = false /\ edge_isOutside e p = false <->
     exists t, p = rv (vx (fst e) + t * (vx (snd e) - vx (fst e))) (vy (fst e) + t * (vy (snd e) - vy (fst e)))).
Proof.
  intros NE. destruct e as [[ax ay] [bx by_]], p as [x y]. unfold left_of. cbn [fst snd vx vy] in *. change (@K RNum) with R in *.
  set (c := (bx - ax) * (y - ay) - (by_ - ay) * (x - ax)).
  assert (E1 : edge_isInside (rv ax ay, rv bx by_) (rv x y) = Rltb 0 c).
  { unfold edge_isInside, edge_normal, edge_direction, vperp_cw, vperp, vdot, vopp, vsub, k0, rv. cbn [fst snd vx vy kltb kadd kmul ksub kopp kofZ RNum]. unfold c. f_equal. rring. }
  assert (E2 : edge_isOutside (rv ax ay, rv bx by_) (rv x y) = Rltb 0 (- c)).
  { unfold edge_isOutside, edge_normal, edge_direction, vperp_cw, vperp, vdot, vopp, vsub, k0, rv. cbn [fst snd vx vy kltb kadd kmul ksub kopp kofZ RNum]. unfold c. f_equal. rring. }
  unfold rv in E1, E2. rewrite E1, E2. unfold Rltb.
  split; [destruct (Rlt_dec 0 c); split; intros; try reflexivity; try discriminate; try lra|].
  split; [destruct (Rlt_dec 0 (- c)); split; intros; try reflexivity; try discriminate; try lra|].
  assert (ZE : c = 0 <-> exists t, rv x y = rv (ax + t * (bx - ax)) (ay + t * (by_ - ay))).
  { split.
    - intros Z. destruct (Req_dec bx ax) as [EX|EX].
      + assert (by_ <> ay) by (intros EY; apply NE; rewrite EX, EY; reflexivity).
        assert (XA : x = ax). { unfold c in Z. rewrite EX in Z. assert (P : (by_ - ay) * (x - ax) = 0) by lra. apply Rmult_integral in P. destruct P; lra. }
        exists ((y - ay) / (by_ - ay)). apply (f_equal2 (@V2 RNum)); [rewrite EX, XA; rring|change (@K RNum) with R; field; lra].
      + exists ((x - ax) / (bx - ax)). apply (f_equal2 (@V2 RNum)); change (@K RNum) with R; [field; lra|].
        assert (Q : y - ay = (x - ax) / (bx - ax) * (by_ - ay)). { apply Rmult_eq_reg_l with (bx - ax); [|lra]. unfold c in Z. transitivity ((by_ - ay) * (x - ax)); [lra|field; lra]. } lra.
    - intros (t & E). injection E as -> ->. unfold c. ring. }
  split.
  - intros [A B]. apply ZE. destruct (Rlt_dec 0 c), (Rlt_dec 0 (- c)); try discriminate; lra.
  - intros E. apply ZE in E. rewrite E. destruct (Rlt_dec 0 0), (Rlt_dec 0 (- 0)); try lra; auto.
Qed.
Lemma ex_sides : edge_isInside (rv 0 0, rv 2 0) (rv 1 1) = true /\ edge_isOutside (rv 0 0, rv 2 0) (rv 1 1) = false /\ left_of (rv 0 0, rv 2 0) (rv 1 1) = 2.
Proof.
  assert (NE : fst (rv 0 0, rv 2 0) <> snd (rv 0 0, rv 2 0)) by (intros H; injection H; lra).
  assert (L : left_of (rv 0 0, rv 2 0) (rv 1 1) = 2) by (unfold left_of; cbn; change (@K RNum) with R in *; ring).
  destruct (edge_sides _ (rv 1 1) NE) as (A & B & _). split; [apply A; rewrite L; lra|]. split; [|exact L].
  destruct (edge_isOutside _ _); [|reflexivity]. destruct B as [B _]. specialize (B eq_refl). rewrite L in B. lra.
Qed.
