(** The penetration vector in exact arithmetic (C67): when the shapes overlap,
    the loop ends with a shortest translation that makes them only touch. *)
From Coq Require Import ZArith List Bool Reals Lra Psatz Lia Arith.
From Verif Require Import Num Outcome Box Mat MatFacts MatSolve Geom GeomClosest GeomPoly GeomArea GeomExamples Gjk GjkFacts GjkThm.
Import ListNotations.
Local Open Scope R_scope.

(** ** Specification *)
(** no line separates the shapes, even weakly *)
Definition overlap (A B : list Rv) : Prop :=
  forall d, ~ zero d -> exists a b, In a A /\ In b B /\ dotR b d < dotR a d.
Definition moved (t : Rv) (B : list Rv) : list Rv := map (fun b => vadd b t) B.

(** ** The edges of the polytope *)
Lemma combine_nth_error {S T} (l : list S) (m : list T) k x : nth_error (combine l m) k = Some x ->
  nth_error l k = Some (fst x) /\ nth_error m k = Some (snd x).
Proof.
  revert m k. induction l as [|a l IH]; intros [|b m] [|k]; cbn; try discriminate.
  - intros [= <-]. auto.
  - apply IH.
Qed.
Lemma path_length {T} (p : T) vs : length (path p vs) = length vs.
Proof. revert p. induction vs as [|v vs IH]; intros p; [reflexivity|]. cbn. rewrite IH. reflexivity. Qed.
Lemma cyc_length {T} (vs : list T) : length (cyc vs) = length vs.
Proof. destruct vs; [reflexivity|]. cbn [cyc]. apply path_length. Qed.
Lemma polytope_edges_spec (P : list Rv) : P <> [] -> exists L, polytope_edges P = Ret L /\ map snd L = cyc P /\
  forall k x, nth_error L k = Some x -> snd (fst x) = k.
Proof.
  intros NE. assert (LP : (0 < length P)%nat) by (destruct P; [congruence|cbn; lia]).
  destruct (all_edges_nth (length P) LP) as (es & E & LE & NT).
  pose proof (edge_vertices_spec P NE) as EV. unfold edge_vertices in EV. rewrite E in EV. cbn [obind] in EV.
  exists (combine es (cyc P)). unfold polytope_edges. rewrite E. cbn [obind]. rewrite EV. cbn [obind].
  split; [reflexivity|]. split.
  - clear -LE. revert es LE. assert (LC : length (cyc P) = length P) by apply cyc_length. rewrite <- LC. clear LC.
    generalize (cyc P). intros l. induction l as [|x l IH]; intros [|e es]; cbn; intros H; try discriminate; [reflexivity|].
    rewrite IH by lia. reflexivity.
  - intros k x H. apply combine_nth_error in H as [H1 H2].
    assert (LK : (k < length P)%nat) by (rewrite <- LE; apply nth_error_Some; congruence).
    rewrite (NT k LK) in H1. injection H1 as <-. reflexivity.
Qed.

Definition d2 (e : Rv * Rv) : R := edge_distsq e v00.
Lemma best_edge_spec : forall (es : list (edge * (Rv * Rv))) b, let r := best_edge es b (edge_distsq (snd b) v00) in
  (r = b \/ In r es) /\ d2 (snd r) <= d2 (snd b) /\ forall e, In e es -> d2 (snd r) <= d2 (snd e).
Proof.
  induction es as [|e es IH]; intros b; cbn [best_edge].
  - split; [left; reflexivity|]. split; [lra|]. intros e [].
  - cbv zeta. cbn [kltb RNum]. fold (d2 (snd e)). fold (d2 (snd b)). destruct (Rltb_spec (d2 (snd e)) (d2 (snd b))) as [L|L].
    + destruct (IH e) as (H1 & H2 & H3). fold (d2 (snd e)) in *. set (r := best_edge es e (d2 (snd e))) in *.
      split; [destruct H1 as [->|H1]; [right; left; reflexivity|right; right; exact H1]|].
      split; [lra|]. intros x [<-|I]; auto.
    + destruct (IH b) as (H1 & H2 & H3). fold (d2 (snd b)) in *. set (r := best_edge es b (d2 (snd b))) in *.
      split; [destruct H1 as [->|H1]; [left; reflexivity|right; right; exact H1]|].
      split; [lra|]. intros x [<-|I]; [lra|auto].
Qed.

(** the nearest point of an edge *)
Definition near (e : Rv * Rv) : Rv := lb_closest (line_barycentric (fst e) (snd e) v00).
Lemma near_spec e : on_segment (fst e) (snd e) (near e) /\ d2 e = dotR (near e) (near e) /\
  forall q, on_segment (fst e) (snd e) q -> d2 e <= dotR q q.
Proof.
  destruct (line_nearest (fst e) (snd e) v00) as [_ [H1 H2]]. fold (near e) in *.
  assert (E : forall q : Rv, dist2 v00 q = dotR q q) by (intros q; unfold dist2, v00, dotR; cbn [vx vy]; unfold k0; rcbn; ring).
  assert (E2 : d2 e = dotR (near e) (near e)).
  { unfold d2, edge_distsq. fold (near e). unfold dotR, v00. ung. ring. }
  split; [exact H1|]. split; [exact E2|]. intros q Hq. rewrite E2, <- !E. auto.
Qed.

(** ** Facts about three vectors *)
Lemma pluck (f v n t : Rv) : cr f n * cr v t = cr f v * cr n t + cr f t * cr v n.
Proof. unfold cr. ring. Qed.
Lemma cr_anti a b : cr a b = - cr b a.
Proof. unfold cr. ring. Qed.
Lemma cr_self a : cr a a = 0.
Proof. unfold cr. ring. Qed.
Lemma lagrange a b : dotR a b * dotR a b + cr a b * cr a b = dotR a a * dotR b b.
Proof. unfold dotR, cr. ring. Qed.

Section Epa.
Context (A B : list Rv) (NA : A <> []) (NB : B <> []) (OV : overlap A B).

Lemma sup_pos d p : ~ zero d -> supports A B d p -> 0 < dotR p d.
Proof.
  intros ND [_ M]. destruct (OV d ND) as (a & b & Ia & Ib & L).
  assert (I : In (vsub a b) (diffs A B)) by (apply in_diffs; eauto). pose proof (M _ I) as H. rewrite dot_sub in H. lra.
Qed.
Lemma bdry_nz p : bdry A B p -> ~ zero p.
Proof. intros (d & ND & S) [X Y]. pose proof (sup_pos d p ND S) as P. unfold dotR in P. rewrite X, Y in P. lra. Qed.
(** boundary points on one ray coincide *)
Lemma same_ray p q : bdry A B p -> bdry A B q -> cr p q = 0 -> 0 < dotR p q -> p = q.
Proof.
  intros Hp Hq C D. pose proof (bdry_nz _ Hp) as Zp. pose proof (bdry_nz _ Hq) as Zq.
  pose proof (dotR_pos p Zp) as Pp. pose proof (dotR_pos q Zq) as Pq.
  destruct Hp as (d & ND & Sd). destruct Hq as (e & NE & Se).
  pose proof (sup_pos d p ND Sd) as X1. pose proof (sup_pos e q NE Se) as X2.
  pose proof (proj2 Sd q (proj1 Se)) as Y1. pose proof (proj2 Se p (proj1 Sd)) as Y2.
  (* q = k p with k >= 1 from e and k <= 1 from d *)
  assert (E1 : dotR p p * dotR q d = dotR p q * dotR p d) by (transitivity (dotR p q * dotR p d + cr p d * cr p q); [unfold dotR, cr; ring|rewrite C; ring]).
  assert (E2 : dotR p p * dotR q e = dotR p q * dotR p e) by (transitivity (dotR p q * dotR p e + cr p e * cr p q); [unfold dotR, cr; ring|rewrite C; ring]).
  assert (L1 : dotR p q <= dotR p p) by nra.
  assert (PE : 0 < dotR p e) by nra.
  assert (L2 : dotR p p <= dotR p q) by nra.
  assert (EQ : dotR p p = dotR p q) by lra.
  apply v_ext; apply (Rmult_eq_reg_l (dotR p p)); try lra.
  - transitivity (dotR p q * vx p - vy p * cr p q); [rewrite C, <- EQ; ring|unfold dotR, cr; ring].
  - transitivity (dotR p q * vy p + vx p * cr p q); [rewrite C, <- EQ; ring|unfold dotR, cr; ring].
Qed.

(** a point beyond the edge f-t is strictly between the directions of f and t *)
Lemma sector_l f t v : bdry A B f -> In t (diffs A B) -> In v (diffs A B) -> 0 <= cr f t -> cr f t < cr v t + cr f v -> 0 < cr f v.
Proof.
  intros (d & ND & S) It Iv C L. destruct (Rlt_dec 0 (cr f v)) as [|N]; [assumption|exfalso].
  pose proof (sup_pos d f ND S) as X. pose proof (proj2 S t It) as Y. pose proof (proj2 S v Iv) as Z.
  assert (E : cr v t * dotR f d = cr f t * dotR v d - cr f v * dotR t d) by (unfold cr, dotR; ring).
  nra.
Qed.
Lemma sector_r f t v : bdry A B t -> In f (diffs A B) -> In v (diffs A B) -> 0 <= cr f t -> cr f t < cr v t + cr f v -> 0 < cr v t.
Proof.
  intros (d & ND & S) If Iv C L. destruct (Rlt_dec 0 (cr v t)) as [|N]; [assumption|exfalso].
  pose proof (sup_pos d t ND S) as X. pose proof (proj2 S f If) as Y. pose proof (proj2 S v Iv) as Z.
  assert (E : cr f v * dotR t d = cr f t * dotR v d - cr v t * dotR f d) by (unfold cr, dotR; ring).
  nra.
Qed.

(** ** Invariant *)
(** two independent supporting directions *)
Definition sharp (p : Rv) : Prop := exists d e, cr d e <> 0 /\ supports A B d p /\ supports A B e p.
Definition etype (e : Rv * Rv) : Prop :=
  0 < cr (fst e) (snd e) \/ (cr (fst e) (snd e) = 0 /\ dotR (fst e) (snd e) < 0) \/ (fst e = snd e /\ sharp (fst e)).
(** directions seen through an edge from the origin: closed, and from f to just before t *)
Definition seen (e : Rv * Rv) (n : Rv) : Prop := 0 <= cr (fst e) n /\ 0 <= cr n (snd e) /\ fst e <> snd e.
Definition hseen (e : Rv * Rv) (n : Rv) : Prop :=
  (0 < cr (fst e) n /\ 0 < cr n (snd e)) \/ (cr (fst e) n = 0 /\ 0 < dotR (fst e) n /\ fst e <> snd e).
Definition disj (e e' : Rv * Rv) : Prop := forall n, ~ (hseen e n /\ hseen e' n).

Record poly (P : list Rv) : Prop := {
  po_ne : P <> [];
  po_bdry : forall x, In x P -> bdry A B x;
  po_type : forall e, In e (cyc P) -> etype e;
  po_cover : forall n, ~ zero n -> exists e, In e (cyc P) /\ seen e n;
  po_uniq : ForallOrdPairs disj (cyc P);
  po_out : forall x, In x P -> exists y, In (x, y) (cyc P) /\ x <> y }.

Lemma path_in {T} (p : T) vs e : In e (path p vs) -> (fst e = p \/ In (fst e) vs) /\ In (snd e) vs.
Proof.
  revert p. induction vs as [|v vs IH]; intros p; [intros []|]. cbn. intros [<-|I]; [cbn; auto|].
  destruct (IH v I) as [[E|J] K1]; [rewrite E; auto|auto].
Qed.
Lemma last_in {T} (l : list T) d : l <> [] -> In (last l d) l.
Proof.
  induction l as [|x l IH]; [congruence|]. intros _. destruct l as [|y l]; [left; reflexivity|].
  right. apply IH. congruence.
Qed.
Lemma cyc_in {T} (vs : list T) e : In e (cyc vs) -> In (fst e) vs /\ In (snd e) vs.
Proof.
  destruct vs as [|v vs]; [intros []|]. intros I. assert (I' : In e (path (last vs v) (v :: vs))) by exact I.
  apply path_in in I' as [[E|J] K1]; [|auto]. split; [|exact K1]. rewrite E.
  destruct vs as [|w vs]; [left; reflexivity|]. right. apply last_in. congruence.
Qed.

(** ** The ball inside *)
Lemma ball P r : poly P -> 0 < r -> (forall e, In e (cyc P) -> r <= d2 e) ->
  forall n, ~ zero n -> exists x, In x P /\ 0 <= dotR x n /\ r * dotR n n <= dotR x n * dotR x n.
Proof.
  intros HP R0 HM n ND. destruct (po_cover P HP n ND) as ([f t] & I & S1 & S2 & NE). cbn [fst snd] in *.
  destruct (cyc_in _ _ I) as [If It]. cbn [fst snd] in If, It. pose proof (HM _ I) as D.
  destruct (near_spec (f, t)) as (_ & _ & NR). cbn [fst snd] in NR.
  pose proof (dotR_pos n ND) as PN.
  destruct (po_type P HP _ I) as [C|[[C DD]|[E _]]]; cbn [fst snd] in *; [|exfalso|contradiction].
  - set (S := cr n t + cr f n).
    assert (SP : 0 < S).
    { unfold S. destruct (Req_dec (cr f n) 0) as [E1|]; [|lra]. destruct (Req_dec (cr n t) 0) as [E2|]; [|lra]. exfalso.
      apply ND.
      assert (Ex : cr f t * vx n = cr n t * vx f + cr f n * vx t) by (unfold cr; ring).
      assert (Ey : cr f t * vy n = cr n t * vy f + cr f n * vy t) by (unfold cr; ring).
      rewrite E1, E2 in Ex, Ey. split; nra. }
    set (la := cr f t / S). assert (LS : la * S = cr f t) by (unfold la; field; lra).
    assert (LP : 0 < la) by (unfold la; apply Rdiv_lt_0_compat; lra).
    set (q := rv (la * vx n) (la * vy n)).
    assert (OQ : on_segment f t q).
    { exists (cr f n / S). assert (T : cr f n / S * S = cr f n) by (field; lra). assert (FS : cr f n <= S) by (unfold S; lra). set (u := cr f n / S) in *. split; [clearbody S u; nra|].
      unfold q, rv. cbn [vx vy]. split; apply (Rmult_eq_reg_r S); try lra.
      - transitivity (cr f t * vx n); [rewrite <- LS; rcbn; ring|].
        transitivity (cr n t * vx f + cr f n * vx t); [unfold cr; ring|]. transitivity ((S - u * S) * vx f + u * S * vx t); [rewrite T; unfold S; ring|ring].
      - transitivity (cr f t * vy n); [rewrite <- LS; rcbn; ring|].
        transitivity (cr n t * vy f + cr f n * vy t); [unfold cr; ring|]. transitivity ((S - u * S) * vy f + u * S * vy t); [rewrite T; unfold S; ring|ring]. }
    pose proof (NR q OQ) as RQ.
    assert (QQ : dotR q q = la * la * dotR n n) by (unfold q, dotR, rv; cbn [vx vy]; rcbn; ring).
    assert (QN : dotR q n = la * dotR n n) by (unfold q, dotR, rv; cbn [vx vy]; rcbn; ring).
    assert (MX : exists x, In x P /\ dotR q n <= dotR x n).
    { destruct OQ as (s & Hs & Ex & Ey). assert (EQ : dotR q n = (1 - s) * dotR f n + s * dotR t n) by (unfold dotR; rewrite Ex, Ey; ring).
      destruct (Rle_dec (dotR f n) (dotR t n)) as [L|L]; [exists t|exists f]; split; auto; rewrite EQ; nra. }
    destruct MX as (x & Ix & Lx). exists x. split; [exact Ix|].
    assert (XP : 0 < dotR q n) by (rewrite QN; nra). split; [lra|].
    assert (Z : r <= la * la * dotR n n) by lra.
    apply Rle_trans with (dotR q n * dotR q n); [rewrite QN|]; nra.
  - (* the origin is on the edge *)
    assert (OZ : on_segment f t (rv 0 0)).
    { pose proof (bdry_nz f (po_bdry P HP f If)) as Zf. pose proof (dotR_pos f Zf) as PF.
      exists (dotR f f / (dotR f f - dotR f t)).
      assert (PS : 0 < dotR f f - dotR f t) by lra.
      assert (T : dotR f f / (dotR f f - dotR f t) * (dotR f f - dotR f t) = dotR f f) by (field; lra).
      set (u := dotR f f / (dotR f f - dotR f t)) in *. split; [clearbody u; nra|]. unfold rv. cbn [vx vy].
      split; apply (Rmult_eq_reg_r (dotR f f - dotR f t)); try lra.
      - transitivity (0 : R); [rcbn; ring|]. symmetry.
        transitivity ((dotR f f - dotR f t) * vx f - (u * (dotR f f - dotR f t)) * vx f + (u * (dotR f f - dotR f t)) * vx t); [ring|].
        rewrite T. transitivity (- vy f * cr f t); [unfold dotR, cr; ring|rewrite C; ring].
      - transitivity (0 : R); [rcbn; ring|]. symmetry.
        transitivity ((dotR f f - dotR f t) * vy f - (u * (dotR f f - dotR f t)) * vy f + (u * (dotR f f - dotR f t)) * vy t); [ring|].
        rewrite T. transitivity (vx f * cr f t); [unfold dotR, cr; ring|rewrite C; ring]. }
    pose proof (NR _ OZ) as Z. unfold dotR at 1, rv in Z. cbn [vx vy] in Z. rcbn. lra.
Qed.

(** ** Adding a vertex *)
Lemma cyc_split {T} (l1 l2 : list T) (t : T) : exists z, cyc (l1 ++ t :: l2) = path z l1 ++ (last l1 z, t) :: path t l2 /\
  forall v, cyc (l1 ++ v :: t :: l2) = path z l1 ++ (last l1 z, v) :: (v, t) :: path t l2.
Proof.
  exists (last (t :: l2) t). split.
  - rewrite (cyc_path _ t) by (destruct l1; discriminate). rewrite (last_app_ne l1 (t :: l2) t t) by discriminate.
    rewrite path_app. reflexivity.
  - intros v. rewrite (cyc_path _ t) by (destruct l1; discriminate). rewrite (last_app_ne l1 (v :: t :: l2) t t) by discriminate.
    rewrite path_app. reflexivity.
Qed.
Lemma fop_insert {T} (R0 : T -> T -> Prop) X e e1 e2 Y :
  (forall x, R0 x e -> R0 x e1 /\ R0 x e2) -> (forall x, R0 e x -> R0 e1 x /\ R0 e2 x) -> R0 e1 e2 ->
  ForallOrdPairs R0 (X ++ e :: Y) -> ForallOrdPairs R0 (X ++ e1 :: e2 :: Y).
Proof.
  intros H1 H2 H3. induction X as [|x X IH]; cbn; intros H; inversion H as [|? ? F G]; subst.
  - constructor; [constructor; [exact H3|]|constructor; [|exact G]]; eapply Forall_impl; try exact F; intros y Hy; apply H2 in Hy; tauto.
  - constructor; [|apply IH; exact G]. apply Forall_app in F as [F1 F2]. inversion F2 as [|? ? F3 F4]; subst.
    apply Forall_app. split; [exact F1|]. apply H1 in F3 as [G1 G2]. repeat constructor; auto.
Qed.

(** the outside test *)
Lemma outside_spec f t v : edge_isOutside (f, t) v = true <-> cr f t < cr v t + cr f v.
Proof.
  unfold edge_isOutside, edge_normal, edge_direction. cbn [fst snd]. cbn [kltb RNum]. change (@k0 RNum) with 0.
  assert (E : vdot (vperp_cw (vsub t f)) (vsub v t) = cr v t + cr f v - cr f t) by (unfold cr; ung; rring).
  rewrite E. destruct (Rltb_spec 0 (cr v t + cr f v - cr f t)); split; intros H; try reflexivity; try discriminate; lra.
Qed.

Lemma insert_poly l1 t l2 f v : poly (l1 ++ t :: l2) -> nth_error (cyc (l1 ++ t :: l2)) (length l1) = Some (f, t) ->
  bdry A B v -> 0 < cr f v -> 0 < cr v t -> 0 <= cr f t -> poly (l1 ++ v :: t :: l2).
Proof.
  intros HP EN BV FV VT FT. destruct (cyc_split l1 l2 t) as (z & C1 & C2). specialize (C2 v).
  rewrite C1, nth_error_app2, path_length, Nat.sub_diag in EN by (rewrite path_length; lia). injection EN as EF.
  rewrite EF in C1, C2. set (X := path z l1) in *. set (Y := path t l2) in *. clearbody X Y.
  assert (SUB : forall e, In e (cyc (l1 ++ v :: t :: l2)) <-> e = (f, v) \/ e = (v, t) \/ In e X \/ In e Y).
  { intros e. rewrite C2, in_app_iff. cbn [In]. split; [intros [H|[H|[H|H]]]|intros [H|[H|[H|H]]]]; auto. }
  assert (OLD : forall e, In e (cyc (l1 ++ t :: l2)) <-> e = (f, t) \/ In e X \/ In e Y).
  { intros e. rewrite C1, in_app_iff. cbn [In]. split; [intros [H|[H|H]]|intros [H|[H|H]]]; auto. }
  assert (NFV : f <> v) by (intros ->; rewrite cr_self in FV; lra).
  assert (NVT : v <> t) by (intros ->; rewrite cr_self in VT; lra).
  assert (NFT : f <> t) by (intros ->; pose proof (cr_anti v t); lra).
  assert (S1 : forall n, hseen (f, v) n -> hseen (f, t) n).
  { intros n [[G1 G2]|(G1 & G2 & G3)]; cbn [fst snd] in *.
    - left. cbn [fst snd]. split; [exact G1|]. pose proof (pluck f v n t). pose proof (cr_anti n v). nra.
    - right. auto. }
  assert (S2 : forall n, hseen (v, t) n -> hseen (f, t) n).
  { intros n [[G1 G2]|(G1 & G2 & G3)]; cbn [fst snd] in *; left; cbn [fst snd].
    - split; [|exact G2]. pose proof (pluck f v n t). nra.
    - assert (PV : 0 < dotR v v) by (apply dotR_pos; apply bdry_nz; exact BV).
      assert (E1 : dotR v v * cr f n = dotR v n * cr f v + dotR f v * cr v n) by (unfold dotR, cr; ring).
      assert (E2 : dotR v v * cr n t = dotR v n * cr v t - dotR v t * cr v n) by (unfold dotR, cr; ring).
      rewrite G1 in E1, E2. split; nra. }
  assert (S3 : forall n, ~ (hseen (f, v) n /\ hseen (v, t) n)).
  { intros n [[[G1 G2]|(G1 & G2 & G3)] [[H1 H2]|(H1 & H2 & H3)]]; cbn [fst snd] in *.
    - pose proof (cr_anti n v). lra.
    - pose proof (cr_anti n v). lra.
    - assert (PF : ~ zero f) by (intros [Z1 Z2]; unfold dotR in G2; rewrite Z1, Z2 in G2; lra). pose proof (dotR_pos f PF).
      assert (E1 : dotR f f * cr v n = dotR f n * cr v f + dotR v f * cr f n) by (unfold dotR, cr; ring).
      pose proof (cr_anti v f). rewrite G1 in E1. nra.
    - assert (PF : ~ zero f) by (intros [Z1 Z2]; unfold dotR in G2; rewrite Z1, Z2 in G2; lra). pose proof (dotR_pos f PF).
      assert (E1 : dotR f f * cr v n = dotR f n * cr v f + dotR v f * cr f n) by (unfold dotR, cr; ring).
      pose proof (cr_anti v f). rewrite G1 in E1. nra. }
  constructor.
  - destruct l1; discriminate.
  - intros x I. apply in_app_iff in I as [I|[<-|I]]; [|exact BV|]; apply (po_bdry _ HP); apply in_app_iff; auto.
  - intros e I. apply SUB in I as [-> | [-> | I]]; [left; exact FV|left; exact VT|]. apply (po_type _ HP). apply OLD. auto.
  - intros n ND. destruct (po_cover _ HP n ND) as (e & I & SE). apply OLD in I as [->|I].
    + destruct SE as (E1 & E2 & _). cbn [fst snd] in *. destruct (Rle_dec 0 (cr n v)) as [L|L].
      * exists (f, v). split; [apply SUB; auto|]. split; [exact E1|split; [exact L|exact NFV]].
      * exists (v, t). split; [apply SUB; auto|]. split; [cbn; pose proof (cr_anti n v); lra|split; [exact E2|exact NVT]].
    + exists e. split; [apply SUB; tauto|exact SE].
  - rewrite C2. apply (fop_insert disj X (f, t)).
    + intros x H. split; intros n [H1 H2]; apply (H n); auto.
    + intros x H. split; intros n [H1 H2]; apply (H n); auto.
    + exact S3.
    + rewrite <- C1. apply (po_uniq _ HP).
  - intros x I. apply in_app_iff in I as [I|[<-|I]].
    2: { exists t. split; [apply SUB; auto|exact NVT]. }
    1,2: destruct (po_out _ HP x) as (y & J & NE); [apply in_app_iff; auto|]; apply OLD in J as [J|J];
      [injection J as -> ->; exists v; split; [apply SUB; auto|exact NFV]|exists y; split; [apply SUB; tauto|exact NE]].
Qed.

(** a vertex beyond an edge is a new one *)
Lemma outside_new P f t v : poly P -> In (f, t) (cyc P) -> 0 < cr f v -> 0 < cr v t -> In v P -> False.
Proof.
  intros HP I FV VT IV. destruct (po_out _ HP v IV) as (y & J & NE).
  assert (H1 : hseen (f, t) v) by (left; auto).
  assert (PV : 0 < dotR v v) by (apply dotR_pos; apply bdry_nz; apply (po_bdry _ HP); exact IV).
  assert (H2 : hseen (v, y) v) by (right; cbn [fst snd]; rewrite cr_self; auto).
  assert (ND : (f, t) <> (v, y)) by (intros [= -> ->]; rewrite cr_self in FV; lra).
  destruct (ForallOrdPairs_In (po_uniq _ HP) _ _ I J) as [E|[H|H]]; [contradiction|apply (H v); auto|apply (H v); auto].
Qed.

(** ** The loop *)
Definition missing (P : list Rv) : nat := length (filter (fun x => negb (existsb (fun w => vall_eq w x) P)) (diffs A B)).
Definition pushes (p : Rv) : Prop :=
  (exists n f t, ~ zero n /\ (forall a b, In a A -> In b B -> dotR a n <= dotR b n + dotR p n) /\
     In f (diffs A B) /\ In t (diffs A B) /\ f <> t /\ dotR f n = dotR p n /\ dotR t n = dotR p n /\ on_segment f t p) /\
  (forall n, ~ zero n -> exists a b, In a A /\ In b B /\ 0 <= dotR a n - dotR b n /\
     dotR p p * dotR n n <= (dotR a n - dotR b n) * (dotR a n - dotR b n)).

Lemma has_in (P : list Rv) v : existsb (fun w => vall_eq w v) P = true <-> In v P.
Proof.
  rewrite existsb_exists. split.
  - intros (x & I & E). apply vall_R in E. subst. exact I.
  - intros I. exists v. split; [exact I|apply vall_R; reflexivity].
Qed.
Lemma nth_split_eq {T} (l : list T) k x : nth_error l k = Some x -> exists l1 l2, l = l1 ++ x :: l2 /\ length l1 = k.
Proof. apply nth_error_split. Qed.

Lemma best_exists P : poly P -> exists L e0 k f t, polytope_edges P = Ret L /\ hd_error L = Some e0 /\
  let best := best_edge L e0 (edge_distsq (snd e0) v00) in
  snd (fst best) = k /\ snd best = (f, t) /\ nth_error (cyc P) k = Some (f, t) /\
  (forall e, In e (cyc P) -> d2 (f, t) <= d2 e).
Proof.
  intros HP. destruct (polytope_edges_spec P (po_ne _ HP)) as (L & E & EM & EK).
  assert (NL : exists e0 L', L = e0 :: L').
  { destruct L as [|e0 L']; [|eauto]. exfalso. destruct P as [|x P]; [exact (po_ne _ HP eq_refl)|].
    cbn in EM. discriminate. }
  destruct NL as (e0 & L' & ->). set (L := e0 :: L') in *.
  destruct (best_edge_spec L e0) as (H1 & H2 & H3). cbv zeta in *. set (best := best_edge L e0 (edge_distsq (snd e0) v00)) in *.
  assert (IB : In best L) by (destruct H1 as [->|H1]; [left; reflexivity|exact H1]).
  destruct (In_nth_error _ _ IB) as (k & NK). destruct (snd best) as [f t] eqn:EB.
  exists L, e0, k, f, t. split; [exact E|]. split; [reflexivity|]. split; [apply EK; exact NK|].
  split; [exact EB|]. split.
  - rewrite <- EM, nth_error_map, NK. cbn. f_equal. exact EB.
  - intros e I. rewrite <- EM in I. apply in_map_iff in I as (x & <- & I). apply H3. exact I.
Qed.

(** the best edge is not a doubled vertex *)
Lemma best_proper P f t : poly P -> In (f, t) (cyc P) -> (forall e, In e (cyc P) -> d2 (f, t) <= d2 e) ->
  f <> t /\ 0 <= cr f t.
Proof.
  intros HP I M. destruct (po_type _ HP _ I) as [C|[[C D]|[E SH]]]; cbn [fst snd] in *.
  - split; [|lra]. intros ->. rewrite cr_self in C. lra.
  - split; [|lra]. intros ->. pose proof (dotR_pos t). destruct (zero_dec t) as [[Z1 Z2]|Z]; [unfold dotR in D; rewrite Z1, Z2 in D; lra|].
    apply H in Z. lra.
  - subst t. exfalso. destruct (cyc_in _ _ I) as [If _]. cbn in If.
    pose proof (bdry_nz _ (po_bdry _ HP f If)) as Zf. pose proof (dotR_pos f Zf) as PF.
    destruct (near_spec (f, f)) as ((u & _ & Ux & Uy) & ED & _). cbn [fst snd] in *.
    assert (EF : d2 (f, f) = dotR f f).
    { rewrite ED. f_equal; apply v_ext; rewrite ?Ux, ?Uy; rring. }
    destruct SH as (d & e & C & Sd & Se).
    assert (FL : forall d', ~ zero d' -> supports A B d' f -> cr f d' = 0).
    { intros d' ND Sd'. destruct (ball P (dotR f f) HP PF) with (n := d') as (x & Ix & X0 & XX).
      - intros e' I'. rewrite <- EF. auto.
      - exact ND.
      - pose proof (proj2 Sd' x (bdry_in A B x (po_bdry _ HP x Ix))) as LE. pose proof (lagrange f d') as LG. nra. }
    assert (Zd : ~ zero d) by (intros [Z1 Z2]; apply C; unfold cr; rewrite Z1, Z2; ring).
    assert (Ze : ~ zero e) by (intros [Z1 Z2]; apply C; unfold cr; rewrite Z1, Z2; ring).
    pose proof (FL d Zd Sd) as F1. pose proof (FL e Ze Se) as F2.
    apply C. assert (E : dotR f f * cr d e = dotR f d * cr f e - dotR f e * cr f d) by (unfold dotR, cr; ring).
    rewrite F1, F2 in E. nra.
Qed.

Lemma epa_runs : forall fuel P, poly P -> (missing P < fuel)%nat -> exists p, epa_loop fuel A B P = Ret p /\ pushes p.
Proof.
  induction fuel as [|fuel IH]; intros P HP F; [lia|]. cbn [epa_loop].
  destruct (best_exists P HP) as (L & e0 & k & f & t & EL & EH & EK & EB & EN & EM). cbv zeta in *.
  rewrite EL. cbn [obind]. rewrite EH. cbn [of_option obind]. rewrite EB.
  assert (I : In (f, t) (cyc P)) by (eapply nth_error_In; eauto).
  destruct (best_proper P f t HP I EM) as [NE CF].
  destruct (cyc_in _ _ I) as [If It]. cbn [fst snd] in If, It.
  set (nn := edge_normal (f, t)).
  assert (DN : forall x, dotR x nn = cr x t - cr x f) by (intros x; unfold nn, edge_normal, edge_direction, cr, dotR; cbn [fst snd]; ung; ring).
  assert (ZN : ~ zero nn).
  { intros [Z1 Z2]. apply NE. unfold nn, edge_normal, edge_direction in *. cbn [fst snd] in *. apply v_ext; ung; lra. }
  destruct (support_spec A B nn NA NB ZN) as (v & EV & SV). rewrite EV. cbn [obind]. rewrite EK.
  unfold add_vertex. destruct (edge_isOutside (f, t) v) eqn:EO.
  - apply outside_spec in EO.
    pose proof (sector_l f t v (po_bdry _ HP f If) (bdry_in A B t (po_bdry _ HP t It)) (proj1 SV) CF EO) as FV.
    pose proof (sector_r f t v (po_bdry _ HP t It) (bdry_in A B f (po_bdry _ HP f If)) (proj1 SV) CF EO) as VT.
    destruct (existsb (fun w => vall_eq w v) P) eqn:EX.
    + exfalso. apply has_in in EX. exact (outside_new P f t v HP I FV VT EX).
    + assert (NK : exists x, nth_error P k = Some x).
      { destruct (nth_error P k) eqn:E; [eauto|]. exfalso. apply nth_error_None in E. rewrite <- cyc_length in E.
        apply nth_error_None in E. congruence. }
      destruct NK as (x & NK). destruct (nth_split_eq P k x NK) as (l1 & l2 & EP & LK).
      assert (x = t).
      { destruct (cyc_split l1 l2 x) as (z & C1 & _). rewrite EP, C1, nth_error_app2, path_length, LK, Nat.sub_diag in EN by (rewrite path_length; lia).
        cbn in EN. congruence. }
      subst x. assert (EI : insert_at k v P = l1 ++ v :: t :: l2).
      { unfold insert_at. rewrite EP, <- LK, firstn_app, Nat.sub_diag, firstn_all, skipn_app, Nat.sub_diag, skipn_all. cbn.
        rewrite app_nil_r. reflexivity. }
      apply IH.
      * rewrite EI. apply (insert_poly l1 t l2 f v); auto; try (rewrite <- EP; auto; rewrite LK; exact EN). eauto using sup_bdry.
      * enough (missing (insert_at k v P) < missing P)%nat by lia. rewrite EI. unfold missing. apply (filter_shrinks _ _ _ v).
        -- intros y _ H. apply negb_true_iff in H. apply negb_true_iff. destruct (existsb (fun w => vall_eq w y) P) eqn:E; [|reflexivity].
           apply has_in in E. exfalso. assert (Y : In y (l1 ++ v :: t :: l2)).
           { rewrite EP in E. apply in_app_iff in E as [E|E]; apply in_app_iff; [left; exact E|right; right; exact E]. }
           apply has_in in Y. congruence.
        -- exact (proj1 SV).
        -- rewrite EX. reflexivity.
        -- apply negb_false_iff. apply has_in. apply in_app_iff. right. left. reflexivity.
  - (* nothing beyond the edge *)
    eexists. split; [reflexivity|]. destruct (near_spec (f, t)) as (OS & ED & _). fold (near (f, t)). set (p := near (f, t)) in *.
    cbn [fst snd] in *.
    assert (LV : dotR v nn <= cr f t).
    { rewrite DN. destruct (Rle_dec (cr v t - cr v f) (cr f t)) as [|N]; [assumption|].
      assert (O : edge_isOutside (f, t) v = true) by (apply outside_spec; rewrite (cr_anti f v); lra). congruence. }
    assert (PN : dotR p nn = cr f t).
    { rewrite DN. destruct OS as (u & _ & Ux & Uy). unfold cr. rewrite Ux, Uy. ring. }
    split.
    + exists nn, f, t. split; [exact ZN|]. split; [|repeat split].
      * intros a b Ia Ib. assert (K1 : In (vsub a b) (diffs A B)) by (apply in_diffs; eauto).
        pose proof (proj2 SV _ K1) as H. rewrite dot_sub in H. lra.
      * apply bdry_in. apply (po_bdry _ HP). exact If.
      * apply bdry_in. apply (po_bdry _ HP). exact It.
      * exact NE.
      * rewrite PN, DN, cr_self. ring.
      * rewrite PN, DN, cr_self, (cr_anti t f). ring.
      * exact OS.
    + intros n ND. destruct (Rlt_dec 0 (dotR p p)) as [L0|L0].
      * destruct (ball P (dotR p p) HP L0) with (n := n) as (x & Ix & X0 & XX); [intros e J; rewrite <- ED; apply EM; exact J|exact ND|].
        pose proof (bdry_in A B x (po_bdry _ HP x Ix)) as J. apply in_diffs in J as (a & b & Ia & Ib & ->).
        exists a, b. rewrite dot_sub in *. auto.
      * destruct (OV n ND) as (a & b & Ia & Ib & LT). exists a, b. split; [exact Ia|]. split; [exact Ib|]. split; [lra|].
        assert (PP : dotR p p = 0) by (unfold dotR in *; nra). rewrite PP. nra.
Qed.

(** ** The polytope built from the simplex *)
Definition proper (f t : Rv) : Prop := 0 <= cr f t /\ (cr f t = 0 -> dotR f t < 0).
Lemma proper_type f t : proper f t -> etype (f, t).
Proof. intros [C D]. unfold etype. cbn [fst snd]. destruct (Req_dec (cr f t) 0) as [E|E]; [right; left; auto|left; lra]. Qed.
Lemma proper_ne f t : bdry A B f -> proper f t -> f <> t.
Proof.
  intros BF [C D] ->. rewrite cr_self in D. pose proof (dotR_pos t (bdry_nz t BF)). lra.
Qed.
Lemma disj_next f g t : bdry A B f -> proper f g -> disj (f, g) (g, t).
Proof.
  intros BF [C D] n [H1 H2]. pose proof (dotR_pos f (bdry_nz f BF)) as PF. pose proof (cr_anti n g) as AN.
  destruct H1 as [[G1 G2]|(G1 & G2 & G3)]; cbn [fst snd] in *.
  - destruct H2 as [[H1 H2]|(H1 & H2 & H3)]; cbn [fst snd] in *; lra.
  - assert (E1 : dotR f f * cr g n = dotR g f * cr f n - dotR f n * cr f g) by (unfold dotR, cr; ring).
    assert (E2 : dotR f f * dotR g n = dotR f g * dotR f n + cr f g * cr f n) by (unfold dotR, cr; ring).
    rewrite G1 in E1, E2. destruct H2 as [[H1 H2]|(H1 & H2 & H3)]; cbn [fst snd] in *; [nra|].
    rewrite H1 in E1. assert (Z : cr f g = 0) by nra. pose proof (D Z). nra.
Qed.
Lemma disj_sym e e' : disj e e' -> disj e' e.
Proof. intros H n [H1 H2]. apply (H n). auto. Qed.

Lemma turn3 a b c al be ga : al * a + be * b + ga * c = 0 -> 0 <= al -> 0 <= be -> 0 <= ga -> 0 < al + be + ga ->
  (0 <= c /\ a <= 0) \/ (0 <= a /\ b <= 0) \/ (0 <= b /\ c <= 0).
Proof.
  intros E H1 H2 H3 H. destruct (Rle_dec 0 a) as [A0|A0].
  - destruct (Rle_dec b 0) as [B0|B0]; [auto|]. destruct (Rle_dec c 0) as [C0|C0]; [right; right; split; lra|].
    destruct (Rle_dec a 0) as [D0|D0]; [left; split; lra|exfalso].
    assert (0 <= al * a) by nra. assert (0 <= be * b) by nra. assert (0 <= ga * c) by nra.
    assert (al = 0) by nra. assert (be = 0) by nra. assert (ga = 0) by nra. lra.
  - destruct (Rle_dec 0 c) as [C0|C0]; [left; split; lra|]. destruct (Rle_dec 0 b) as [B0|B0]; [right; right; split; lra|exfalso].
    assert (al * a <= 0) by nra. assert (be * b <= 0) by nra. assert (ga * c <= 0) by nra.
    assert (al = 0) by nra. assert (be = 0) by nra. assert (ga = 0) by nra. lra.
Qed.
Lemma triangle_poly x y z : bdry A B x -> bdry A B y -> bdry A B z ->
  0 <= cr x y -> 0 <= cr y z -> 0 <= cr z x -> 0 < cr x y + cr y z + cr z x -> poly [x; y; z].
Proof.
  intros Bx By Bz C1 C2 C3 S.
  assert (PR : forall f t o, bdry A B f -> bdry A B t -> 0 <= cr f t -> 0 <= cr t o -> 0 <= cr o f -> 0 < cr f t + cr t o + cr o f -> proper f t).
  { intros f t o BF BT D1 D2 D3 DS. split; [exact D1|]. intros Z. pose proof (dotR_pos f (bdry_nz f BF)) as PF. pose proof (dotR_pos t (bdry_nz t BT)) as PT.
    assert (E1 : cr t o * dotR f t + cr o f * dotR t t = - cr f t * dotR o t) by (unfold dotR, cr; ring).
    assert (E2 : cr t o * dotR f f + cr o f * dotR f t = - cr f t * dotR o f) by (unfold dotR, cr; ring).
    rewrite Z in *. destruct (Rlt_dec (dotR f t) 0) as [|N]; [assumption|exfalso].
    destruct (Req_dec (cr t o) 0) as [E|E]; nra. }
  assert (P1 : proper z x) by (apply (PR z x y); auto; lra).
  assert (P2 : proper x y) by (apply (PR x y z); auto; lra).
  assert (P3 : proper y z) by (apply (PR y z x); auto; lra).
  pose proof (proper_ne _ _ Bz P1) as N1. pose proof (proper_ne _ _ Bx P2) as N2. pose proof (proper_ne _ _ By P3) as N3.
  constructor.
  - discriminate.
  - intros u [<-|[<-|[<-|[]]]]; assumption.
  - intros e [<-|[<-|[<-|[]]]]; apply proper_type; assumption.
  - intros n ND. cbn [cyc path last]. unfold seen.
    assert (E : cr y z * cr x n + cr z x * cr y n + cr x y * cr z n = 0) by (unfold cr; ring).
    pose proof (cr_anti n x). pose proof (cr_anti n y). pose proof (cr_anti n z).
    assert (CH : (0 <= cr z n /\ cr x n <= 0) \/ (0 <= cr x n /\ cr y n <= 0) \/ (0 <= cr y n /\ cr z n <= 0)).
    { apply (turn3 (cr x n) (cr y n) (cr z n) (cr y z) (cr z x) (cr x y)); auto; lra. }
    destruct CH as [[L1 L2]|[[L1 L2]|[L1 L2]]]; [exists (z, x)|exists (x, y)|exists (y, z)]; (split; [cbn; tauto|cbn [fst snd]; repeat split; auto; lra]).
  - cbn [cyc path last]. repeat constructor.
    + apply disj_next; assumption.
    + apply disj_sym. apply disj_next; assumption.
    + apply disj_next; assumption.
  - intros u [<-|[<-|[<-|[]]]]; [exists y|exists z|exists x]; (split; [cbn; tauto|assumption]).
Qed.

Lemma segment_poly p q v : bdry A B p -> bdry A B q -> cr q p = 0 -> dotR q p < 0 ->
  (v = p /\ sharp p \/ v = q /\ sharp q) -> poly [v; q; p].
Proof.
  intros Bp Bq C D V. assert (C' : cr p q = 0) by (pose proof (cr_anti p q); lra).
  assert (P1 : proper p q) by (split; [lra|intros _; rewrite dotR_comm; exact D]).
  assert (P2 : proper q p) by (split; [lra|intros _; exact D]).
  pose proof (proper_ne _ _ Bp P1) as N1. pose proof (proper_ne _ _ Bq P2) as N2.
  assert (SELF : forall u e, disj (u, u) e).
  { intros u e n [[[H1 H2]|(_ & _ & H)] _]; cbn [fst snd] in *; [pose proof (cr_anti n u); lra|congruence]. }
  assert (EDGES : exists u, sharp u /\ (cyc [v; q; p] = [(u, u); (p, q); (q, p)] \/ cyc [v; q; p] = [(p, q); (u, u); (q, p)]) /\ (u = p \/ u = q)).
  { destruct V as [[-> SH]|[-> SH]]; [exists p|exists q]; (split; [exact SH|]); cbn; auto. }
  destruct EDGES as (u & SH & EC & EU).
  assert (IN : forall e, In e (cyc [v; q; p]) <-> e = (u, u) \/ e = (p, q) \/ e = (q, p)).
  { intros e. destruct EC as [-> | ->]; cbn [In]; intuition congruence. }
  constructor.
  - discriminate.
  - intros x [<-|[<-|[<-|[]]]]; auto. destruct V as [[-> _]|[-> _]]; assumption.
  - intros e I. apply IN in I as [->|[-> | ->]]; [right; right; auto|apply proper_type; exact P1|apply proper_type; exact P2].
  - intros n ND. pose proof (dotR_pos p (bdry_nz p Bp)) as PP.
    assert (E : dotR p p * cr q n = dotR q p * cr p n) by (transitivity (dotR q p * cr p n - dotR p n * cr p q); [unfold dotR, cr; ring|rewrite C'; ring]).
    pose proof (cr_anti n p). pose proof (cr_anti n q).
    destruct (Rle_dec 0 (cr p n)) as [L|L]; [exists (p, q)|exists (q, p)]; (split; [apply IN; tauto|]); unfold seen; cbn [fst snd]; repeat split; auto; nra.
  - pose proof (disj_next p q p Bp P1) as DD. destruct EC as [-> | ->]; repeat constructor; auto using disj_sym.
  - intros x I. assert (X : x = p \/ x = q) by (destruct I as [<-|[<-|[<-|[]]]]; auto; destruct V as [[-> _]|[-> _]]; auto).
    destruct X as [-> | ->]; [exists q|exists p]; (split; [apply IN; tauto|assumption]).
Qed.

Lemma caught_poly dir s : caught A B dir s -> poly (polytope_of s).
Proof.
  destruct s as [v q p n0 n1 n2 dr it kp]. unfold caught, polytope_of. cbn [sx_p0 sx_p1 sx_p2].
  intros (Bv & Bq & Bp & (C1 & C2 & C3) & OS).
  assert (EO : orientation v q p k0 = if Rltb (orient2 v q p) 0 then Negative else if Rltb 0 (orient2 v q p) then Positive else Collinear).
  { unfold orientation. change (vcross (vsub q v) (vsub p q)) with (cr (vsub q v) (vsub p q)). rewrite orient2_eq.
    unfold interval_contains. cbn [kltb kleb ksub kadd kabs RNum]. change (@k0 RNum) with 0. rewrite Rabs_R0.
    repeat match goal with |- context [Rleb ?a ?b] => destruct (Rleb_spec a b) | |- context [Rltb ?a ?b] => destruct (Rltb_spec a b) end; cbn; try reflexivity; exfalso; lra. }
  rewrite EO.
  destruct (Rltb_spec (orient2 v q p) 0) as [L|L].
  - destruct (osign_spec v q p) as [[P E]|[P E]]; [lra|]. rewrite E in *. cbn [rev app].
    pose proof (cr_anti v q). pose proof (cr_anti q p). pose proof (cr_anti p v). unfold orient2 in *.
    apply triangle_poly; auto; lra.
  - destruct (osign_spec v q p) as [[P E]|[P E]]; [|lra]. rewrite E in *.
    destruct (Rltb_spec 0 (orient2 v q p)) as [L'|L'].
    + unfold orient2 in *. apply triangle_poly; auto; lra.
    + assert (Z : orient2 v q p = 0) by lra. destruct OS as [OS|OS]; [contradiction|].
      destruct OS as (Sp & Sv & CQ & [(PD & SQ & QP)|ZP]); [|exfalso; exact (bdry_nz p Bp ZP)].
      pose proof (dotR_pos p (bdry_nz p Bp)) as PP. pose proof (dotR_pos q (bdry_nz q Bq)) as PQ.
      assert (LQ : dotR q p * dotR q p + cr q p * cr q p = dotR q q * dotR p p) by (unfold dotR, cr; ring).
      assert (QN : dotR q p < 0) by (rewrite CQ in LQ; nra).
      assert (ND : ~ zero dir) by (intros [X Y]; unfold dotR in PD; rewrite X, Y in PD; lra).
      assert (CV : cr p v = 0).
      { assert (E1 : dotR p p * cr v q = - dotR q p * cr p v) by (transitivity (- dotR q p * cr p v - dotR v p * cr q p); [unfold dotR, cr; ring|rewrite CQ; ring]).
        unfold orient2 in Z. rewrite CQ in Z. nra. }
      apply segment_poly; auto.
      pose proof (dotR_pos v (bdry_nz v Bv)) as PV.
      assert (LV : dotR p v * dotR p v + cr p v * cr p v = dotR p p * dotR v v) by (unfold dotR, cr; ring).
      assert (LV2 : dotR p p * dotR q v = dotR q p * dotR p v) by (transitivity (dotR q p * dotR p v + cr p v * cr p q); [unfold dotR, cr; ring|rewrite CV; ring]).
      assert (LC : dotR p p * cr q v = dotR q p * cr p v + dotR p v * cr q p) by (unfold dotR, cr; ring).
      rewrite CV, CQ in LC. rewrite CV in LV.
      destruct (Rlt_dec 0 (dotR p v)) as [LP|LP].
      * left. assert (EV : v = p) by (symmetry; apply same_ray; auto). split; [exact EV|]. subst v.
        exists dir, (vperp dir). split; [|auto]. pose proof (dotR_pos dir ND). replace (cr dir (vperp dir)) with (dotR dir dir) by (unfold cr, dotR; ung; ring). lra.
      * right. assert (PN : dotR p v <> 0) by (intros Z0; rewrite Z0 in LV; nra).
        assert (CQV : cr q v = 0) by nra. assert (DQV : 0 < dotR q v) by nra.
        assert (EV : v = q) by (symmetry; apply same_ray; assumption). split; [exact EV|]. subst v.
        exists (vopp p), (vperp dir). split; [|auto]. replace (cr (vopp p) (vperp dir)) with (- dotR p dir) by (unfold cr, dotR; ung; ring). lra.
Qed.

Lemma missing_le P : (missing P <= length (diffs A B))%nat.
Proof.
  unfold missing. generalize (fun x => negb (existsb (fun w => vall_eq w x) P)). intros f.
  induction (diffs A B) as [|x l IH]; [cbn; lia|]. cbn. destruct (f x); cbn; lia.
Qed.
End Epa.

Lemma moved_hull t B p : hull B p -> hull (moved t B) (vadd p t).
Proof.
  intros H. induction H as [v I|p q u Hp IHp Hq IHq T].
  - apply hull_vertex. unfold moved. apply in_map_iff. eauto.
  - assert (E : vadd (rv ((1 - u) * vx p + u * vx q) ((1 - u) * vy p + u * vy q)) t =
      rv ((1 - u) * vx (vadd p t) + u * vx (vadd q t)) ((1 - u) * vy (vadd p t) + u * vy (vadd q t))) by (apply v_ext; unfold rv; ung; rring).
    rewrite E. apply hull_mix; assumption.
Qed.

Theorem epa_core (A B : list Rv) (dir : Rv) fuel : A <> [] -> B <> [] -> overlap A B ->
  (length A * length B + 3 < fuel)%nat ->
  exists g p, make_gjk fuel A B dir = Ret g /\ gk_hit g = true /\ gjk_penetration fuel g = Ret p /\ pushes A B p.
Proof.
  intros NA NB OV F. assert (SP : spread A B (search_dir dir)).
  { destruct (OV _ (search_nz dir)) as (a & b & Ia & Ib & L). exists a, b. repeat split; auto. lra. }
  rewrite <- diffs_length in F. destruct (gjk_runs A B NA NB fuel dir SP F) as (s & r & E & V).
  assert (r = true).
  { destruct r; [reflexivity|exfalso]. cbn in V. destruct V as (d & AP).
    destruct (zero_dec d) as [[Zx Zy]|Zd].
    - destruct A as [|a A']; [congruence|]. destruct B as [|b B']; [congruence|].
      pose proof (AP a b (or_introl eq_refl) (or_introl eq_refl)) as H. unfold dotR in H. rewrite Zx, Zy in H. lra.
    - destruct (OV d Zd) as (a & b & Ia & Ib & L). pose proof (AP a b Ia Ib). lra. }
  subst r. cbn in V. pose proof (caught_poly A B OV _ _ V) as HP.
  destruct (epa_runs A B NA NB OV fuel (polytope_of s) HP) as (p & EP & PU).
  { pose proof (missing_le A B (polytope_of s)). lia. }
  exists (Gk A B s true), p. unfold make_gjk. rewrite E. cbn [obind fst snd]. repeat split; auto; apply PU.
Qed.
Theorem epa_correct (A B : list Rv) (dir : Rv) fuel : A <> [] -> B <> [] -> overlap A B ->
  (length A * length B + 3 < fuel)%nat ->
  exists g p, make_gjk fuel A B dir = Ret g /\ gk_hit g = true /\ gjk_penetration fuel g = Ret p /\
    meet A (moved p B) /\
    (exists n, ~ zero n /\ forall a b, In a A -> In b (moved p B) -> dotR a n <= dotR b n) /\
    (forall t, dotR t t < dotR p p -> overlap A (moved t B)).
Proof.
  intros NA NB OV F. destruct (epa_core A B dir fuel NA NB OV F) as (g & p & EG & EH & EP & (n & f & t & ZN & HN & If & It & _ & _ & _ & OS) & BALL).
  exists g, p. split; [exact EG|]. split; [exact EH|]. split; [exact EP|]. split; [|split].
  - apply in_diffs in If as (a1 & b1 & Ia1 & Ib1 & ->). apply in_diffs in It as (a2 & b2 & Ia2 & Ib2 & ->).
    destruct OS as (u & U & Ux & Uy).
    exists (rv ((1 - u) * vx a1 + u * vx a2) ((1 - u) * vy a1 + u * vy a2)). split; [apply hull_mix; auto using hull_vertex|].
    assert (EE : rv ((1 - u) * vx a1 + u * vx a2) ((1 - u) * vy a1 + u * vy a2) =
      vadd (rv ((1 - u) * vx b1 + u * vx b2) ((1 - u) * vy b1 + u * vy b2)) p).
    { apply v_ext; unfold rv; ung; [rewrite Ux|rewrite Uy]; ung; rring. }
    rewrite EE. apply moved_hull. apply hull_mix; auto using hull_vertex.
  - exists n. split; [exact ZN|]. intros a b Ia Ib. unfold moved in Ib. apply in_map_iff in Ib as (b0 & <- & Ib).
    pose proof (HN a b0 Ia Ib) as H. replace (dotR (vadd b0 p) n) with (dotR b0 n + dotR p n) by (unfold dotR; ung; ring). exact H.
  - intros t' LT d ND. destruct (BALL d ND) as (a & b & Ia & Ib & H0 & H1). exists a, (vadd b t'). split; [exact Ia|].
    split; [unfold moved; apply in_map_iff; eauto|]. replace (dotR (vadd b t') d) with (dotR b d + dotR t' d) by (unfold dotR; ung; ring).
    pose proof (dotR_pos d ND) as PD.
    assert (LG : dotR t' d * dotR t' d + cr t' d * cr t' d = dotR t' t' * dotR d d) by (unfold dotR, cr; ring).
    set (h := dotR a d - dotR b d) in *. assert (HH : dotR t' d < h) by nra. unfold h in HH. lra.
Qed.
