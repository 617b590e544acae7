(** The separation vector in exact arithmetic (C68): what a value it returns
    guarantees. *)
From Coq Require Import ZArith List Bool Reals Lra Psatz Lia Arith.
From Verif Require Import Num Outcome Box Mat MatFacts MatSolve Geom GeomClosest GeomPoly GeomArea GeomExamples Gjk GjkFacts GjkThm GjkEpa.
Import ListNotations.
Local Open Scope R_scope.

(** the translation of a difference of the hulls *)
Definition mix3 (a b c p : Rv) : Prop := exists x y z, 0 <= x /\ 0 <= y /\ 0 <= z /\ 0 < x + y + z /\
  x * vx a + y * vx b + z * vx c = (x + y + z) * vx p /\ x * vy a + y * vy b + z * vy c = (x + y + z) * vy p.
Lemma diffs_moved A B r a : In a (diffs A B) -> In (vadd a r) (diffs (moved r A) B).
Proof.
  intros I. apply in_diffs in I as (x & y & Ix & Iy & ->). apply in_diffs. exists (vadd x r), y.
  split; [unfold moved; apply in_map_iff; eauto|]. split; [exact Iy|]. apply v_ext; ung; rring.
Qed.
Lemma mix3_meet A B a b c p : In a (diffs A B) -> In b (diffs A B) -> In c (diffs A B) -> mix3 a b c p ->
  meet (moved (vopp p) A) B.
Proof.
  intros Ia Ib Ic (x & y & z & X & Y & Z & S & Ex & Ey).
  apply (meet3 (moved (vopp p) A) B (vadd a (vopp p)) (vadd b (vopp p)) (vadd c (vopp p)) x y z); auto using diffs_moved.
  - ung. lra.
  - ung. lra.
Qed.
Lemma mix3_seg a b c p : on_segment a b p -> mix3 a b c p.
Proof. intros (u & U & Ux & Uy). exists (1 - u), u, 0. rewrite Ux, Uy. repeat split; try lra; ring. Qed.
Lemma mix3_rot a b c p : mix3 a b c p -> mix3 b c a p.
Proof. intros (x & y & z & X & Y & Z & S & Ex & Ey). exists y, z, x. repeat split; lra. Qed.
Lemma mix3_vertex a b c : mix3 a b c a.
Proof. exists 1, 0, 0. repeat split; try lra; ring. Qed.

(** signs of the line coordinates of the origin *)
Lemma line_signs0 a b : let l := line_barycentric a b v00 in
  (dist2 b a <> 0 -> (lb_v l <= 0 <-> dotR a a <= dotR a b) /\ (lb_u l <= 0 <-> dotR b b <= dotR a b)) /\
  (dist2 b a = 0 -> 0 <= lb_u l /\ 0 <= lb_v l) /\ lb_u l + lb_v l = 1.
Proof.
  cbv zeta. split; [|split; [|apply line_nearest]].
  - intros NZ. rewrite line_eq by exact NZ. cbn [lb_u lb_v]. pose proof (line_t_spec a b v00 NZ) as T. set (t := line_t a b v00) in *. clearbody t.
    assert (PD : 0 < dist2 b a) by (pose proof (dist2_nonneg b a); lra).
    assert (EV : vi v00 a b = dotR a a - dotR a b) by (unfold vi, v00, dotR; ung; ring).
    assert (ED : dist2 b a = dotR a a - 2 * dotR a b + dotR b b) by (unfold dist2, dotR; ung; ring).
    rewrite EV in T. split; split; intros H; nra.
  - intros Z. destruct (line_eq0 a b v00 Z) as [_ ->]. cbn [lb_u lb_v]. lra.
Qed.

(** the origin on the line through three points, outside every edge and every vertex region *)
Lemma line_impossible a b c : cr a b = 0 -> cr b c = 0 -> cr c a = 0 ->
  let l1 := line_barycentric a b v00 in let l2 := line_barycentric b c v00 in let l3 := line_barycentric c a v00 in
  ~ (lb_v l1 <= 0 /\ lb_u l3 <= 0) -> ~ (lb_u l1 <= 0 /\ lb_v l2 <= 0) -> ~ (lb_u l2 <= 0 /\ lb_v l3 <= 0) ->
  ~ (0 <= lb_u l2 /\ 0 <= lb_v l2) -> ~ (0 <= lb_u l3 /\ 0 <= lb_v l3) -> ~ (0 <= lb_u l1 /\ 0 <= lb_v l1) -> False.
Proof.
  intros C1 C2 C3 l1 l2 l3 V1 V2 V3 S2 S3 S1.
  destruct (line_signs0 a b) as (A1 & A2 & A3). destruct (line_signs0 b c) as (B1 & B2 & B3). destruct (line_signs0 c a) as (D1 & D2 & D3).
  fold l1 in A1, A2, A3. fold l2 in B1, B2, B3. fold l3 in D1, D2, D3.
  assert (N1 : dist2 b a <> 0) by (intros Z; apply S1; auto). assert (N2 : dist2 c b <> 0) by (intros Z; apply S2; auto).
  assert (N3 : dist2 a c <> 0) by (intros Z; apply S3; auto).
  destruct (A1 N1) as [A4 A5]. destruct (B1 N2) as [B4 B5]. destruct (D1 N3) as [D4 D5].
  rewrite (dotR_comm c a) in D4, D5. set (ab := dotR a b) in *. set (bc := dotR b c) in *. set (ac := dotR a c) in *.
  clearbody l1 l2 l3. clear A1 A2 B1 B2 D1 D2.
  rewrite A4, D5 in V1. rewrite A5, B4 in V2. rewrite B5, D4 in V3.
  destruct (Rle_dec (dotR a a) ab), (Rle_dec (dotR b b) ab), (Rle_dec (dotR b b) bc), (Rle_dec (dotR c c) bc), (Rle_dec (dotR c c) ac), (Rle_dec (dotR a a) ac); try tauto; exfalso; try lra; intuition lra.
Qed.

Lemma inside_mix a b c e u v w : e * e = 1 -> u = 1 / 2 * (e * cr b c) -> v = 1 / 2 * (e * cr c a) -> w = 1 / 2 * (e * cr a b) ->
  0 <= u -> 0 <= v -> 0 <= w -> mix3 a b c v00 \/ (cr a b = 0 /\ cr b c = 0 /\ cr c a = 0).
Proof.
  intros E EU EV EW U V W. destruct (Rlt_dec 0 (u + v + w)) as [L|L].
  - left. exists u, v, w. repeat split; auto; rewrite EU, EV, EW; unfold v00; cbn [vx vy]; change (@k0 RNum) with 0; unfold cr; field.
  - right. assert (Z : forall x, 1 / 2 * (e * x) = 0 -> x = 0) by (intros x H; nra).
    repeat split; apply Z; lra.
Qed.
Lemma tri_mix a b c p u v w : triangle_barycentric a b c v00 = Ret (p, u, v, w) -> mix3 a b c p.
Proof.
  pose proof (line_nearest a b v00) as [_ [N1 _]]. pose proof (line_nearest b c v00) as [_ [N2 _]]. pose proof (line_nearest c a v00) as [_ [N3 _]].
  assert (X : exists e, e * e = 1 /\ triangle_barycentric a b c v00 =
    let u := 1 / 2 * (e * cr b c) in let v := 1 / 2 * (e * cr c a) in let w := 1 / 2 * (e * cr a b) in
    let AB := line_barycentric a b v00 in let BC := line_barycentric b c v00 in let CA := line_barycentric c a v00 in
    if Rleb (lb_v AB) 0 && Rleb (lb_u CA) 0 then Ret (a, u, v, w)
    else if Rleb (lb_u AB) 0 && Rleb (lb_v BC) 0 then Ret (b, u, v, w)
    else if Rleb (lb_u BC) 0 && Rleb (lb_v CA) 0 then Ret (c, u, v, w)
    else if Rleb u 0 && Rleb 0 (lb_u BC) && Rleb 0 (lb_v BC) then Ret (lb_closest BC, u, v, w)
    else if Rleb v 0 && Rleb 0 (lb_u CA) && Rleb 0 (lb_v CA) then Ret (lb_closest CA, u, v, w)
    else if Rleb w 0 && Rleb 0 (lb_u AB) && Rleb 0 (lb_v AB) then Ret (lb_closest AB, u, v, w)
    else if Rleb 0 u && Rleb 0 v && Rleb 0 w then Ret (v00, u, v, w) else Throw).
  { assert (HC : forall x y, (khalf * vcross (vsub x v00) (vsub y v00))%num = 1 / 2 * cr x y).
    { intros x y. unfold v00, cr, khalf. ung. change (@k0 RNum) with 0. rfield. }
    unfold triangle_barycentric. rewrite !HC. destruct (orientation a b c keps).
    1, 2: exists 1; split; [ring|]; rewrite !Rmult_1_l; reflexivity.
    exists (-1). split; [ring|].
    replace (1 / 2 * (-1 * cr b c)) with (- (1 / 2 * cr b c)) by field.
    replace (1 / 2 * (-1 * cr c a)) with (- (1 / 2 * cr c a)) by field.
    replace (1 / 2 * (-1 * cr a b)) with (- (1 / 2 * cr a b)) by field.
    reflexivity. }
  destruct X as (e & E & ->). cbv zeta.
  pose proof (inside_mix a b c e _ _ _ E eq_refl eq_refl eq_refl) as IM.
  pose proof (line_impossible a b c) as LI. cbv zeta in LI.
  set (U := 1 / 2 * (e * cr b c)) in *. set (V := 1 / 2 * (e * cr c a)) in *. set (W := 1 / 2 * (e * cr a b)) in *.
  set (AB := line_barycentric a b v00) in *. set (BC := line_barycentric b c v00) in *. set (CA := line_barycentric c a v00) in *.
  assert (UZ : cr b c = 0 -> U = 0) by (intros Z; unfold U; rewrite Z; ring).
  assert (VZ : cr c a = 0 -> V = 0) by (intros Z; unfold V; rewrite Z; ring).
  assert (WZ : cr a b = 0 -> W = 0) by (intros Z; unfold W; rewrite Z; ring).
  clearbody U V W AB BC CA.
  assert (D2 : forall x y, (Rleb x 0 && Rleb y 0)%bool = true <-> x <= 0 /\ y <= 0) by (intros x y; rewrite andb_true_iff, !Rleb_iff; reflexivity).
  destruct (Rleb (lb_v AB) 0 && Rleb (lb_u CA) 0)%bool eqn:B1; [intros [= <- _ _ _]; apply mix3_vertex|].
  destruct (Rleb (lb_u AB) 0 && Rleb (lb_v BC) 0)%bool eqn:B2; [intros [= <- _ _ _]; apply mix3_rot, mix3_rot, mix3_vertex|].
  destruct (Rleb (lb_u BC) 0 && Rleb (lb_v CA) 0)%bool eqn:B3; [intros [= <- _ _ _]; apply mix3_rot, mix3_vertex|].
  destruct (Rleb U 0 && Rleb 0 (lb_u BC) && Rleb 0 (lb_v BC))%bool eqn:B4; [intros [= <- _ _ _]; apply mix3_rot, mix3_rot, mix3_seg; exact N2|].
  destruct (Rleb V 0 && Rleb 0 (lb_u CA) && Rleb 0 (lb_v CA))%bool eqn:B5; [intros [= <- _ _ _]; apply mix3_rot, mix3_seg; exact N3|].
  destruct (Rleb W 0 && Rleb 0 (lb_u AB) && Rleb 0 (lb_v AB))%bool eqn:B6; [intros [= <- _ _ _]; apply mix3_seg; exact N1|].
  destruct (Rleb 0 U && Rleb 0 V && Rleb 0 W)%bool eqn:B7; [|discriminate]. intros [= <- _ _ _].
  apply andb_true_iff in B7 as [B7 H3]. apply andb_true_iff in B7 as [H1 H2]. apply Rleb_iff in H1, H2, H3.
  destruct (IM H1 H2 H3) as [M|(Z1 & Z2 & Z3)]; [exact M|exfalso].
  specialize (UZ Z2). specialize (VZ Z3). specialize (WZ Z1).
  assert (NB : forall b : bool, b = false -> ~ b = true) by (intros bb -> H; discriminate).
  apply (LI Z1 Z2 Z3); rewrite <- ?D2; try (apply NB; assumption).
  - intros [G1 G2]. apply NB in B4. apply B4. rewrite !andb_true_iff, !Rleb_iff. repeat split; lra.
  - intros [G1 G2]. apply NB in B5. apply B5. rewrite !andb_true_iff, !Rleb_iff. repeat split; lra.
  - intros [G1 G2]. apply NB in B6. apply B6. rewrite !andb_true_iff, !Rleb_iff. repeat split; lra.
Qed.

(** ** The points of the simplex *)
Definition good (A B : list Rv) (s : @simplex RNum) : Prop :=
  ((1 <= sx_iter s)%nat -> In (sx_p0 s) (diffs A B)) /\ ((2 <= sx_iter s)%nat -> In (sx_p1 s) (diffs A B)) /\
  ((3 <= sx_iter s)%nat -> In (sx_p2 s) (diffs A B)) /\ (sx_keep s = true -> (3 <= sx_iter s)%nat).
Lemma good_push A B s v : good A B s -> In v (diffs A B) -> good A B (sx_push s v).
Proof.
  intros (G0 & G1 & G2 & G3) I. unfold good, sx_push. cbn [sx_iter sx_p0 sx_p1 sx_p2 sx_keep].
  repeat split; intros; auto; try discriminate; try (apply G0; lia).
  destruct (sx_keep s); [apply G2; auto|apply G1; lia].
Qed.
Lemma good_next A B s : good A B s -> good A B (snd (sx_next s)) /\ sx_iter (snd (sx_next s)) = sx_iter s.
Proof.
  intros G. unfold sx_next. destruct (sx_iter s) as [|[|[|k]]] eqn:E; cbn [snd]; auto.
  destruct (vdot (sx_n0 s) (sx_p0 s) <? k0)%num; cbn [snd]; auto. split; [|reflexivity].
  destruct G as (G0 & G1 & G2 & G3). unfold good. cbn [sx_iter sx_p0 sx_p1 sx_p2 sx_keep]. rewrite ?E in *. repeat split; intros; auto; lia.
Qed.
Lemma support_in A B d v : gjk_support A B d = Ret v -> In v (diffs A B).
Proof.
  unfold gjk_support. intros E. destruct (furthest A d) as [a| | |] eqn:EA; try discriminate. cbn [obind] in E.
  destruct (furthest B (vopp d)) as [b| | |] eqn:EB; try discriminate. cbn [obind] in E. injection E as <-.
  assert (F : forall (vs : list Rv) d' x, furthest vs d' = Ret x -> In x vs).
  { intros vs d' x. unfold furthest. destruct (vany_ne0 d'); [|discriminate]. destruct vs as [|y vs]; [discriminate|].
    intros H. apply (f_equal (fun o => match o with Ret z => z | _ => x end)) in H. cbv beta iota in H. rewrite <- H. clear H. assert (L : forall l best m, In best (y :: vs) -> (forall z, In z l -> In z (y :: vs)) -> In (furthest_loop d' l best m) (y :: vs)).
    { induction l as [|z l IH]; intros best m I S; [exact I|]. cbn [furthest_loop]. destruct (_ <? _)%num; apply IH; auto using in_cons; try (apply S; left; reflexivity); intros; apply S; right; assumption. }
    apply (L (y :: vs) y _); auto. left. reflexivity. }
  apply in_diffs. exists a, b. eauto.
Qed.
Lemma good_loop A B : forall fuel s s' r, gjk_loop fuel A B s = Ret (s', r) -> good A B s -> good A B s' /\ (1 <= sx_iter s')%nat.
Proof.
  induction fuel as [|fuel IH]; intros s s' r E G; [discriminate|]. cbn [gjk_loop] in E.
  pose proof (good_next A B s G) as [G1 _]. destruct (sx_next s) as [d s1]. cbn [snd] in G1.
  destruct (gjk_support A B d) as [v| | |] eqn:EV; try discriminate. cbn [obind] in E. apply support_in in EV.
  pose proof (good_push A B s1 v G1 EV) as G2.
  destruct (_ && sx_contains _)%bool; [injection E as <- <-; split; [exact G2|cbn; lia]|].
  destruct (_ || _)%bool; [injection E as <- <-; split; [exact G2|cbn; lia]|]. eapply IH; eauto.
Qed.
Lemma good_sep A B : forall fuel s s', sep_loop fuel A B s = Ret s' -> good A B s -> (1 <= sx_iter s)%nat -> good A B s' /\ (1 <= sx_iter s')%nat.
Proof.
  induction fuel as [|fuel IH]; intros s s' E G L; [discriminate|]. cbn [sep_loop] in E.
  pose proof (good_next A B s G) as [G1 L1]. destruct (sx_next s) as [d s1]. cbn [snd] in G1, L1.
  destruct (gjk_support A B d) as [v| | |] eqn:EV; try discriminate. cbn [obind] in E. apply support_in in EV.
  destruct (sx_has s1 v); [injection E as <-; split; [exact G1|lia]|].
  apply (IH _ _ E); [apply good_push; assumption|cbn; lia].
Qed.

Theorem sep_correct (A B : list Rv) (dir : Rv) fuel fuel' g r : A <> [] -> B <> [] -> spread A B (search_dir dir) ->
  (length A * length B + 3 < fuel)%nat -> make_gjk fuel A B dir = Ret g -> gjk_separation fuel' g = Ret r ->
  meet (moved r A) B.
Proof.
  intros NA NB SP F EG ER. destruct (gjk_correct A B dir fuel NA NB SP F) as (g' & E' & HIT & _).
  rewrite EG in E'. injection E' as <-. unfold gjk_separation in ER.
  unfold make_gjk in EG. destruct (gjk_loop fuel A B (sx_new dir)) as [[s h]| | |] eqn:EL; try discriminate.
  cbn in EG. injection EG as <-. cbn [gk_hit gk_a gk_b gk_sx] in *. destruct h.
  - injection ER as <-. destruct (proj1 HIT eq_refl) as (p & HA & HB). exists p. split; [|exact HB].
    apply moved_hull with (t := v00) in HA. replace (vadd p v00) with p in HA; [exact HA|]. apply v_ext; unfold v00; ung; rring.
  - assert (G0 : good A B (sx_new dir)) by (unfold good, sx_new; cbn; repeat split; intros; try lia; discriminate).
    destruct (good_loop A B _ _ _ _ EL G0) as [G1 L1].
    destruct (sep_loop fuel' A B s) as [s'| | |] eqn:ES; try discriminate. cbn [obind] in ER.
    destruct (good_sep A B _ _ _ ES G1 L1) as [(H0 & H1 & H2 & _) L2].
    destruct (sx_iter s') as [|[|[|k]]]; [lia|injection ER as <-|injection ER as <-|].
    + apply (mix3_meet A B (sx_p0 s') (sx_p0 s') (sx_p0 s')); auto. apply mix3_vertex.
    + apply (mix3_meet A B (sx_p0 s') (sx_p1 s') (sx_p0 s')); auto. apply mix3_seg.
      apply (line_nearest (sx_p0 s') (sx_p1 s') v00).
    + destruct (triangle_barycentric _ _ _ _) as [[[[p u] v] w]| | |] eqn:ET; try discriminate. cbn [obind] in ER. injection ER as <-.
      apply (mix3_meet A B (sx_p0 s') (sx_p1 s') (sx_p2 s')); auto; try (apply H1; lia); try (apply H2; lia). eapply tri_mix; eauto.
Qed.
