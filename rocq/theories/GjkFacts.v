(** GJK in exact arithmetic (C33): the loop ends and its answer is right. *)
From Coq Require Import ZArith List Bool Reals Lra Psatz Lia Arith.
From Verif Require Import Num Outcome Box Mat MatFacts MatSolve Geom GeomClosest GeomPoly GeomArea GeomExamples Gjk.
Import ListNotations.
Local Open Scope R_scope.

(** ** Specification *)
(** the smallest convex set containing the vertices *)
Inductive hull (vs : list Rv) : Rv -> Prop :=
| hull_vertex v : In v vs -> hull vs v
| hull_mix p q t : hull vs p -> hull vs q -> 0 <= t <= 1 ->
    hull vs (rv ((1 - t) * vx p + t * vx q) ((1 - t) * vy p + t * vy q)).
(** the shapes have a common point *)
Definition meet (A B : list Rv) : Prop := exists p, hull A p /\ hull B p.
(** the direction d separates A from B *)
Definition apart (A B : list Rv) (d : Rv) : Prop := forall a b, In a A -> In b B -> dotR a d < dotR b d.

Lemma hull_below vs d c : (forall v, In v vs -> dotR v d < c) -> forall p, hull vs p -> dotR p d < c.
Proof.
  intros H p Hp. induction Hp as [v I|p q t Hp IHp Hq IHq T]; [auto|].
  unfold dotR, rv in *. cbn [vx vy] in *. rcbn. destruct (Req_dec t 0) as [->|]; nra.
Qed.
Lemma hull_le vs d c : (forall v, In v vs -> dotR v d <= c) -> forall p, hull vs p -> dotR p d <= c.
Proof.
  intros H p Hp. induction Hp as [v I|p q t Hp IHp Hq IHq T]; [auto|].
  unfold dotR, rv in *. cbn [vx vy] in *. rcbn. nra.
Qed.
Lemma hull_nonempty vs p : hull vs p -> vs <> [].
Proof. intros H. induction H; auto. intros ->. inversion H. Qed.

(** the largest value of a linear function on a list *)
Lemma max_at (vs : list Rv) (d : Rv) : vs <> [] -> exists v, In v vs /\ forall x, In x vs -> dotR x d <= dotR v d.
Proof.
  induction vs as [|v vs IH]; [congruence|]. intros _. destruct vs as [|w vs].
  - exists v. split; [left; reflexivity|]. intros x [<-|[]]. lra.
  - destruct IH as (m & I & M); [congruence|]. destruct (Rle_dec (dotR v d) (dotR m d)) as [L|L].
    + exists m. split; [right; exact I|]. intros x [<-|J]; auto.
    + exists v. split; [left; reflexivity|]. intros x [<-|J]; [lra|]. pose proof (M x J). lra.
Qed.
Lemma apart_not_meet A B d : apart A B d -> ~ meet A B.
Proof.
  intros H (p & HA & HB). pose proof (hull_nonempty _ _ HA) as NA.
  destruct (max_at A d NA) as (m & I & M).
  assert (X : dotR p d <= dotR m d) by (apply (hull_le A); auto).
  assert (Y : - dotR p d < - dotR m d).
  { replace (- dotR p d) with (dotR p (rv (- vx d) (- vy d))) by (unfold dotR, rv; cbn; rcbn; ring).
    apply (hull_below B); [|exact HB]. intros b J. pose proof (H m b I J).
    unfold dotR, rv in *. cbn [vx vy] in *. rcbn. lra. }
  lra.
Qed.

(** ** Vectors *)
Definition cr (a b : Rv) : R := vx a * vy b - vy a * vx b.
Definition zero (v : Rv) : Prop := vx v = 0 /\ vy v = 0.
Lemma vdot_R (a b : Rv) : vdot a b = dotR a b.
Proof. unfold dotR. ung. rring. Qed.
Lemma vcross_R (a b : Rv) : vcross a b = cr a b.
Proof. reflexivity. Qed.
Lemma dotR_comm a b : dotR a b = dotR b a.
Proof. unfold dotR. ring. Qed.
Lemma dotR_pos v : ~ zero v -> 0 < dotR v v.
Proof.
  unfold zero, dotR. intros H. destruct (Req_dec (vx v) 0) as [X|X].
  - assert (Y : vy v <> 0) by (intros Y; apply H; auto). nra.
  - nra.
Qed.
Lemma zero_dec v : {zero v} + {~ zero v}.
Proof.
  unfold zero. destruct (Req_EM_T (vx v) 0) as [X|X]; [|right; tauto].
  destruct (Req_EM_T (vy v) 0) as [Y|Y]; [left; auto|right; tauto].
Qed.
Lemma v_ext (a b : Rv) : vx a = vx b -> vy a = vy b -> a = b.
Proof. destruct a, b. cbn. intros -> ->. reflexivity. Qed.
Lemma vany_R (d : Rv) : ~ zero d -> vany_ne0 d = true.
Proof.
  intros H. unfold vany_ne0. cbn [keqb RNum]. change (@k0 RNum) with 0.
  destruct (Reqb_spec (vx d) 0); destruct (Reqb_spec (vy d) 0); cbn; auto. exfalso. apply H. split; auto.
Qed.
Lemma vall_R (a b : Rv) : vall_eq a b = true <-> a = b.
Proof.
  unfold vall_eq. cbn [keqb RNum]. destruct (Reqb_spec (vx a) (vx b)); destruct (Reqb_spec (vy a) (vy b)); cbn; split; intros H; try congruence.
  - apply v_ext; assumption.
Qed.

(** two independent directions determine a vector *)
Lemma indep (d e y : Rv) : cr d e <> 0 -> dotR y d = 0 -> dotR y e = 0 -> zero y.
Proof.
  unfold cr, dotR, zero. intros C H1 H2. split; apply (Rmult_eq_reg_l (vx d * vy e - vy d * vx e)); auto.
  - transitivity (vy e * (vx y * vx d + vy y * vy d) - vy d * (vx y * vx e + vy y * vy e)); [ring|rewrite H1, H2; ring].
  - transitivity (vx d * (vx y * vx e + vy y * vy e) - vx e * (vx y * vx d + vy y * vy d)); [ring|rewrite H1, H2; ring].
Qed.

Lemma par_dot (u d x : Rv) : cr u d = 0 -> dotR d d * dotR x u = dotR u d * dotR x d.
Proof.
  intros P. transitivity (dotR u d * dotR x d - cr d x * cr u d); [unfold cr, dotR; ring|]. rewrite P. ring.
Qed.

(** the key step: with d the direction across the edge a-e, g behind it and v
    beyond it, nothing beyond the edge v-a is behind the edge a-e *)
Lemma shrink_core (B V X G d d' u : Rv) :
  dotR B d = 0 -> 0 < dotR V d -> dotR G d < 0 -> dotR V d' = 0 -> dotR B d' < 0 -> 0 < dotR X d' -> dotR X d <= 0 ->
  ~ zero u -> dotR B u <= 0 -> dotR V u <= 0 -> dotR X u <= 0 -> dotR G u <= 0 -> False.
Proof.
  intros Bd Vd Gd Ve Be Xe Xd NU Bu Vu Xu Gu.
  set (be := dotR X d' / dotR B d'). set (ga := dotR X d / dotR V d).
  assert (EB : be * dotR B d' = dotR X d') by (unfold be; field; lra).
  assert (EG : ga * dotR V d = dotR X d) by (unfold ga; field; lra).
  assert (HB : be < 0) by (clearbody be; nra).
  assert (HG : ga <= 0) by (clearbody ga; nra).
  clearbody be ga.
  assert (C : cr d d' <> 0).
  { intros C. assert (dotR d d * dotR B d' = 0).
    { unfold cr, dotR in *. replace ((vx d * vx d + vy d * vy d) * (vx B * vx d' + vy B * vy d')) with
        ((vx d * vx d' + vy d * vy d') * (vx B * vx d + vy B * vy d) + (vx d * vy d' - vy d * vx d') * (vx d * vy B - vy d * vx B)) by ring.
      rewrite Bd, C. ring. }
    assert (ND : ~ zero d) by (intros [Z1 Z2]; unfold dotR in Vd; rewrite Z1, Z2 in Vd; lra).
    pose proof (dotR_pos d ND). nra. }
  set (Y := rv (vx X - be * vx B - ga * vx V) (vy X - be * vy B - ga * vy V)).
  assert (ZY : zero Y).
  { apply (indep d d'); [exact C| |]; unfold Y, dotR, rv in *; cbn [vx vy]; rcbn.
    - transitivity ((vx X * vx d + vy X * vy d) - be * (vx B * vx d + vy B * vy d) - ga * (vx V * vx d + vy V * vy d)); [ring|].
      rewrite Bd, <- EG. ring.
    - transitivity ((vx X * vx d' + vy X * vy d') - be * (vx B * vx d' + vy B * vy d') - ga * (vx V * vx d' + vy V * vy d')); [ring|].
      rewrite Ve, <- EB. ring. }
  destruct ZY as [Zx Zy]. unfold Y, rv in Zx, Zy. cbn [vx vy] in Zx, Zy. rcbn.
  assert (EX : dotR X u = be * dotR B u + ga * dotR V u).
  { unfold dotR. replace (vx X) with (be * vx B + ga * vx V) by lra. replace (vy X) with (be * vy B + ga * vy V) by lra. ring. }
  assert (B0 : dotR B u = 0) by nra.
  (* u is parallel to d *)
  assert (PAR : cr u d = 0).
  { destruct (Req_dec (cr u d) 0) as [E|NE]; [exact E|]. exfalso.
    destruct (indep u d B NE B0 Bd) as [Z1 Z2]. unfold dotR in Be. rewrite Z1, Z2 in Be. lra. }
  assert (SV : dotR d d * dotR V u = dotR u d * dotR V d).
  { apply par_dot. exact PAR. }
  assert (SG : dotR d d * dotR G u = dotR u d * dotR G d).
  { apply par_dot. exact PAR. }
  assert (ND : ~ zero d) by (intros [Z1 Z2]; unfold dotR in Vd; rewrite Z1, Z2 in Vd; lra).
  pose proof (dotR_pos d ND) as PD.
  assert (UD : dotR u d = 0) by nra.
  apply NU. apply (indep d (rv (- vy d) (vx d))).
  - unfold cr, rv, dotR in *. cbn [vx vy]. rcbn. lra.
  - exact UD.
  - unfold cr, rv, dotR in *. cbn [vx vy]. rcbn. lra.
Qed.

(** ** Support points *)
Definition diffs (A B : list Rv) : list Rv := flat_map (fun a => map (vsub a) B) A.
Lemma in_diffs A B x : In x (diffs A B) <-> exists a b, In a A /\ In b B /\ x = vsub a b.
Proof.
  unfold diffs. rewrite in_flat_map. split.
  - intros (a & I & J). apply in_map_iff in J as (b & <- & J). eauto.
  - intros (a & b & I & J & ->). exists a. split; [exact I|]. apply in_map. exact J.
Qed.
Lemma dot_sub a b d : dotR (vsub a b) d = dotR a d - dotR b d.
Proof. unfold dotR. ung. ring. Qed.
Lemma cr_sub_l a b d : cr (vsub a b) d = cr a d - cr b d.
Proof. unfold cr. ung. ring. Qed.
Lemma cr_sub_r a b d : cr d (vsub a b) = cr d a - cr d b.
Proof. unfold cr. ung. ring. Qed.
(** p is a farthest point in direction d *)
Definition supports (A B : list Rv) (d p : Rv) : Prop := In p (diffs A B) /\ forall x, In x (diffs A B) -> dotR x d <= dotR p d.

Lemma support_spec A B d : A <> [] -> B <> [] -> ~ zero d -> exists v, gjk_support A B d = Ret v /\ supports A B d v.
Proof.
  intros NA NB ND. assert (ND' : ~ zero (vopp d)).
  { unfold zero in *. intros [X Y]. apply ND. ung. lra. }
  destruct (furthest_R A d) as (l1 & a & l2 & EA & FA & _ & MA); [intros H; apply ND; exact H|exact NA|].
  destruct (furthest_R B (vopp d)) as (m1 & b & m2 & EB & FB & _ & MB); [intros H; apply ND'; exact H|exact NB|].
  exists (vsub a b). unfold gjk_support. rewrite FA. cbn [obind]. rewrite FB. cbn [obind]. split; [reflexivity|].
  assert (IA : In a A) by (rewrite EA; apply in_or_app; right; left; reflexivity).
  assert (IB : In b B) by (rewrite EB; apply in_or_app; right; left; reflexivity).
  split; [apply in_diffs; eauto|]. intros x I. apply in_diffs in I as (a' & b' & Ia & Ib & ->).
  rewrite !dot_sub. pose proof (MA a' Ia). pose proof (MB b' Ib). unfold dotR in *. ung. lra.
Qed.

(** ** The state of the loop *)
Definition osign (a b c : Rv) : R := if Rle_dec 0 (cr (vsub b a) (vsub c b)) then 1 else -1.
Definition tri (a b c dir : Rv) (it : nat) : @simplex RNum :=
  let pos := (vcross (vsub b a) (vsub c b) >=? k0)%num in
  Sx a b c (vperpc (vsub b a) pos) (vperpc (vsub a c) pos) (vperpc (vsub c b) pos) dir it false.
Lemma push_tri s v : sx_push s v = tri v (sx_p0 s) (if sx_keep s then sx_p2 s else sx_p1 s) (sx_dir s) (S (sx_iter s)).
Proof. reflexivity. Qed.

Lemma perpc_dot a b c (w x : Rv) :
  dotR x (vperpc w ((vcross (vsub b a) (vsub c b) >=? k0)%num)) = osign a b c * cr x w.
Proof.
  change (vcross (vsub b a) (vsub c b)) with (cr (vsub b a) (vsub c b)). unfold osign. cbn [kleb RNum]. change (@k0 RNum) with 0.
  destruct (Rleb_spec 0 (cr (vsub b a) (vsub c b))); destruct (Rle_dec 0 (cr (vsub b a) (vsub c b))); try contradiction; cbn [vperpc];
  unfold cr, dotR; ung; ring.
Qed.
Definition orient2 (a b c : Rv) : R := cr a b + cr b c + cr c a.
Lemma orient2_eq a b c : cr (vsub b a) (vsub c b) = orient2 a b c.
Proof. unfold orient2, cr. ung. ring. Qed.
Lemma osign_spec a b c : (0 <= orient2 a b c /\ osign a b c = 1) \/ (orient2 a b c < 0 /\ osign a b c = -1).
Proof. unfold osign. rewrite orient2_eq. destruct (Rle_dec 0 (orient2 a b c)); [left|right]; split; auto; lra. Qed.

(** containsOrigin in terms of cross products *)
Definition covers (a b c : Rv) : Prop :=
  0 <= osign a b c * cr a b /\ 0 <= osign a b c * cr c a /\ 0 <= osign a b c * cr b c.
Lemma contains_spec a b c dir it : sx_contains (tri a b c dir it) = true <-> covers a b c.
Proof.
  unfold sx_contains, tri. cbn [sx_p0 sx_p1 sx_p2 sx_n0 sx_n1 sx_n2]. rewrite !vdot_R, !perpc_dot.
  cbn [kleb RNum]. change (@k0 RNum) with 0. unfold covers.
  replace (cr a (vsub b a)) with (cr a b) by (unfold cr; ung; ring).
  replace (cr a (vsub a c)) with (cr c a) by (unfold cr; ung; ring).
  replace (cr b (vsub c b)) with (cr b c) by (unfold cr; ung; ring).
  repeat match goal with |- context [Rleb ?x ?y] => destruct (Rleb_spec x y) end; cbn; split; intros H; try discriminate; try tauto; try lra.
Qed.
(** a point on one side of every vertex is not in the triangle *)
Lemma not_covers a b c d : orient2 a b c <> 0 -> dotR a d < 0 -> dotR b d < 0 -> dotR c d < 0 -> ~ covers a b c.
Proof.
  intros O Ha Hb Hc (C1 & C2 & C3).
  set (x := osign a b c * cr b c) in *. set (y := osign a b c * cr c a) in *. set (z := osign a b c * cr a b) in *.
  assert (S : 0 < x + y + z).
  { unfold x, y, z. destruct (osign_spec a b c) as [[P E]|[P E]]; rewrite E; unfold orient2 in *; lra. }
  assert (E : x * dotR a d + y * dotR b d + z * dotR c d = 0).
  { unfold x, y, z, cr, dotR. ring. }
  clearbody x y z. assert (x * dotR a d <= 0) by nra. assert (y * dotR b d <= 0) by nra. assert (z * dotR c d <= 0) by nra.
  assert (x = 0) by nra. assert (y = 0) by nra. assert (z = 0) by nra. lra.
Qed.
(** nor is the origin in a flat triangle with an edge whose line misses it *)
Lemma not_covers_flat a b c : orient2 a b c = 0 -> cr b c <> 0 -> ~ covers a b c.
Proof.
  intros O NE (C1 & C2 & C3). destruct (osign_spec a b c) as [[P E]|[P E]]; [|lra]. rewrite E in *. unfold orient2 in O. lra.
Qed.

(** ** One turn around an edge *)
Definition beyond (A B : list Rv) (d a : Rv) : nat := length (filter (fun x => Rltb (dotR a d) (dotR x d)) (diffs A B)).
Definition bdry (A B : list Rv) (p : Rv) : Prop := exists d, ~ zero d /\ supports A B d p.

Lemma filter_shrinks {T} (f g : T -> bool) (l : list T) v :
  (forall x, In x l -> f x = true -> g x = true) -> In v l -> g v = true -> f v = false ->
  (length (filter f l) < length (filter g l))%nat.
Proof.
  assert (LE : forall m, (forall x, In x m -> f x = true -> g x = true) -> (length (filter f m) <= length (filter g m))%nat).
  { induction m as [|x m IH]; intros H; [cbn; lia|]. cbn. assert (IH' := IH (fun y I => H y (or_intror I))).
    pose proof (H x (or_introl eq_refl)) as Hx. destruct (f x); [rewrite (Hx eq_refl); cbn; lia|destruct (g x); cbn; lia]. }
  induction l as [|x l IH]; intros H I Gv Fv; [contradiction|]. cbn.
  assert (H' : forall y, In y l -> f y = true -> g y = true) by (intros y J; apply H; right; exact J).
  destruct I as [->|I].
  - rewrite Gv, Fv. cbn. pose proof (LE l H'). lia.
  - pose proof (IH H' I Gv Fv). pose proof (H x (or_introl eq_refl)) as Hx. destruct (f x); [rewrite (Hx eq_refl); cbn; lia|destruct (g x); cbn; lia].
Qed.

Definition nextd (a b c : Rv) : Rv :=
  let pos := (vcross (vsub b a) (vsub c b) >=? k0)%num in
  if Rlt_dec (osign a b c * cr a b) 0 then vperpc (vsub b a) pos else vperpc (vsub a c) pos.

Section Turn.
Variables (A B : list Rv).
Variables (a e d v : Rv) (tau : R).
(** d is across the line a-e and points to the side of the origin; v is the
    farthest point in that direction *)
Hypothesis D : forall x, dotR x d = tau * cr x (vsub e a).
Hypothesis NEG : dotR a d < 0.
Hypothesis SUP : supports A B d v.

Lemma tau_nz : tau <> 0.
Proof. intros E. rewrite D, E in NEG. lra. Qed.
Lemma same_level : dotR e d = dotR a d.
Proof. rewrite !D. f_equal. unfold cr. ung. ring. Qed.
Lemma line_misses : tau * cr a e = dotR a d.
Proof. rewrite D. f_equal. unfold cr. ung. ring. Qed.
Lemma turn_orient : tau * orient2 v a e = dotR a d - dotR v d.
Proof. rewrite !D. unfold orient2, cr. ung. ring. Qed.
Lemma turn_behind : dotR v d < 0 -> ~ covers v a e /\ apart A B d.
Proof.
  intros L. split.
  - destruct (Req_dec (orient2 v a e) 0) as [O|O].
    + apply not_covers_flat; [exact O|]. intros Z. pose proof line_misses as E. rewrite Z in E. lra.
    + apply (not_covers v a e d); auto. rewrite same_level. exact NEG.
  - intros x y I J. assert (K1 : In (vsub x y) (diffs A B)) by (apply in_diffs; eauto).
    pose proof (proj2 SUP _ K1) as M. rewrite dot_sub in M. lra.
Qed.
Lemma turn_shape : 0 <= dotR v d -> orient2 v a e <> 0 /\ 0 <= osign v a e * cr a e.
Proof.
  intros L. pose proof turn_orient as T. pose proof line_misses as M. pose proof tau_nz as TN. split; [nra|].
  destruct (osign_spec v a e) as [[P E]|[P E]]; rewrite E; destruct (Rlt_dec tau 0); nra.
Qed.
Lemma turn_new x : 0 <= dotR v d -> dotR x d < 0 -> x <> v.
Proof. intros H1 H2 ->. lra. Qed.

(** with a third point g behind the edge, fewer points are beyond the next edge *)
Lemma turn_shrinks g : 0 <= dotR v d -> bdry A B a -> bdry A B e -> In g (diffs A B) -> dotR g d < dotR a d ->
  ~ covers v a e -> (beyond A B (nextd v a e) v < beyond A B d a)%nat.
Proof.
  intros L (ua & NUa & Ia & SA) (ue & NUe & Ie & SE) Ig Lg NC. destruct (turn_shape L) as [O S].
  pose proof same_level as SL. destruct SUP as [Iv _].
  assert (OP : 0 < osign v a e * orient2 v a e) by (destruct (osign_spec v a e) as [[P E]|[P E]]; rewrite E; lra).
  unfold beyond. apply (filter_shrinks _ _ _ v).
  2: exact Iv.
  2: destruct (Rltb_spec (dotR a d) (dotR v d)); [reflexivity|lra].
  2: destruct (Rltb_spec (dotR v (nextd v a e)) (dotR v (nextd v a e))); [lra|reflexivity].
  intros x Ix. destruct (Rltb_spec (dotR v (nextd v a e)) (dotR x (nextd v a e))) as [Lx|]; [|discriminate]. intros _.
  destruct (Rltb_spec (dotR a d) (dotR x d)) as [|Nx]; [reflexivity|exfalso].
  unfold nextd in Lx. destruct (Rlt_dec (osign v a e * cr v a) 0) as [C|C].
  - (* the edge v-a, around a *)
    apply (shrink_core (vsub e a) (vsub v a) (vsub x a) (vsub g a) d
      (vperpc (vsub a v) (vcross (vsub a v) (vsub e a) >=? k0)%num) ua); rewrite ?dot_sub; auto; try lra.
    + rewrite !perpc_dot. unfold cr. ung. ring.
    + rewrite !perpc_dot. replace (osign v a e * cr e (vsub a v) - osign v a e * cr a (vsub a v)) with (- (osign v a e * orient2 v a e)) by (unfold orient2, cr; ung; ring). lra.
    + assert (E : dotR a (vperpc (vsub a v) (vcross (vsub a v) (vsub e a) >=? k0)%num) = dotR v (vperpc (vsub a v) (vcross (vsub a v) (vsub e a) >=? k0)%num)).
      { rewrite !perpc_dot. f_equal. unfold cr. ung. ring. }
      lra.
    + pose proof (SA _ Ie). lra.
    + pose proof (SA _ Iv). lra.
    + pose proof (SA _ Ix). lra.
    + pose proof (SA _ Ig). lra.
  - (* the edge v-e, around e *)
    assert (CE : osign v a e * cr e v < 0).
    { destruct (Rlt_dec (osign v a e * cr e v) 0); [assumption|]. exfalso. apply NC. unfold covers. repeat split; lra. }
    apply (shrink_core (vsub a e) (vsub v e) (vsub x e) (vsub g e) d
      (vperpc (vsub v e) (vcross (vsub a v) (vsub e a) >=? k0)%num) ue); rewrite ?dot_sub; auto; try lra.
    + rewrite !perpc_dot. unfold cr. ung. ring.
    + rewrite !perpc_dot. replace (osign v a e * cr a (vsub v e) - osign v a e * cr e (vsub v e)) with (- (osign v a e * orient2 v a e)) by (unfold orient2, cr; ung; ring). lra.
    + assert (E : dotR e (vperpc (vsub v e) (vcross (vsub a v) (vsub e a) >=? k0)%num) = dotR v (vperpc (vsub v e) (vcross (vsub a v) (vsub e a) >=? k0)%num)).
      { rewrite !perpc_dot. f_equal. unfold cr. ung. ring. }
      lra.
    + pose proof (SE _ Ia). lra.
    + pose proof (SE _ Iv). lra.
    + pose proof (SE _ Ix). lra.
    + pose proof (SE _ Ig). lra.
Qed.
End Turn.
