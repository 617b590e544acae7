(** Area, centroid and inertia of polygons (C30, C31). *)
From Coq Require Import ZArith List Bool Reals Lra Psatz Lia Arith Permutation.
From Verif Require Import Num Outcome Box Mat MatFacts MatSolve Geom GeomClosest GeomPoly.
Import ListNotations.
Local Open Scope R_scope.

Definition Redge : Type := (Rv * Rv)%type.
Definition esum (f : Redge -> R) (es : list Redge) : R := fold_right (fun e acc => f e + acc) 0 es.
Definition e_c (e : Redge) : R := vx (fst e) * vy (snd e) - vy (fst e) * vx (snd e).
Definition e_x (e : Redge) : R := (vx (fst e) + vx (snd e)) * e_c e.
Definition e_y (e : Redge) : R := (vy (fst e) + vy (snd e)) * e_c e.
Definition dotR (a b : Rv) : R := vx a * vx b + vy a * vy b.
Definition e_m (e : Redge) : R := e_c e * (dotR (fst e) (fst e) + dotR (fst e) (snd e) + dotR (snd e) (snd e)).

Lemma geo_loop_sum (es : list Redge) : forall a c m, geo_loop (N := RNum) es a c m =
  (a + esum e_c es, rv (vx c + esum e_x es) (vy c + esum e_y es), m + esum e_m es).
Proof.
  induction es as [|[f t] es IH]; intros a c m.
  - cbn. destruct c. unfold rv. cbn. rewrite !Rplus_0_r. reflexivity.
  - cbn [geo_loop]. rewrite IH. cbn [esum fold_right]. fold (esum e_c es) (esum e_x es) (esum e_y es) (esum e_m es).
    unfold e_x, e_y, e_m, e_c, dotR. cbn [fst snd]. ung. f_equal; [f_equal; [rring|]|rring]. f_equal; rring.
Qed.

Lemma esum_perm f es es' : Permutation es es' -> esum f es = esum f es'.
Proof. induction 1; cbn; try lra; unfold esum in *; congruence. Qed.
Lemma esum_map f g es : esum f (map g es) = esum (fun e => f (g e)) es.
Proof. induction es; cbn; [reflexivity|]. unfold esum in *. rewrite IHes. reflexivity. Qed.
Lemma esum_ext f g es : (forall e, f e = g e) -> esum f es = esum g es.
Proof. intros H. induction es; cbn; [reflexivity|]. unfold esum in *. rewrite H, IHes. reflexivity. Qed.
Lemma esum_add f g es : esum (fun e => f e + g e) es = esum f es + esum g es.
Proof. induction es; cbn; [lra|]. unfold esum in *. rewrite IHes. lra. Qed.
Lemma esum_scale k f es : esum (fun e => k * f e) es = k * esum f es.
Proof. induction es; cbn; [lra|]. unfold esum in *. rewrite IHes. lra. Qed.
Lemma esum_app f a b : esum f (a ++ b) = esum f a + esum f b.
Proof. induction a; cbn; [unfold esum; lra|]. unfold esum in *. rewrite IHa. lra. Qed.
(** telescoping around the loop *)
Lemma esum_path_tele (h : Rv -> R) p vs : esum (fun e => h (snd e) - h (fst e)) (path p vs) = h (last vs p) - h p.
Proof.
  revert p. induction vs as [|x vs IH]; intros p; cbn [path esum fold_right]; [cbn; lra|].
  fold (esum (fun e : Redge => h (snd e) - h (fst e)) (path x vs)). rewrite IH, last_cons_nd. cbn. lra.
Qed.
Lemma esum_cyc_tele (h : Rv -> R) vs : esum (fun e => h (snd e) - h (fst e)) (cyc vs) = 0.
Proof.
  destruct vs as [|v vs]; [reflexivity|]. rewrite cyc_cons. cbn [esum fold_right].
  fold (esum (fun e : Redge => h (snd e) - h (fst e)) (path v vs)). rewrite esum_path_tele. cbn. lra.
Qed.

(** closed form of the properties *)
Definition s_a vs := esum e_c (cyc vs).
Definition s_x vs := esum e_x (cyc vs).
Definition s_y vs := esum e_y (cyc vs).
Definition s_m vs := esum e_m (cyc vs).
Definition props_of (a x y m : R) : geo_props (N := RNum) :=
  if Req_EM_T a 0 then GP (rv x y) a m true
  else let cx := x / (3 * a) in let cy := y / (3 * a) in
       GP (rv cx cy) (a / 2) (Rabs (m / 12 - a / 2 * (cx * cx + cy * cy))) false.
Lemma geo_properties_eq (vs : list Rv) : vs <> [] -> geo_properties vs = Ret (props_of (s_a vs) (s_x vs) (s_y vs) (s_m vs)).
Proof.
  intros H. unfold geo_properties. rewrite edge_vertices_spec by exact H. cbn [obind].
  rewrite (geo_loop_sum (cyc vs) k0 (V2 k0 k0) k0). fold (s_a vs) (s_x vs) (s_y vs) (s_m vs).
  change (@k0 RNum) with 0. cbn [vx vy]. change (@vx RNum) with (@vx RNum).
  unfold rv. cbn [vx vy]. rewrite !Rplus_0_l. unfold props_of. cbn [keqb RNum].
  destruct (Reqb_spec (s_a vs) 0) as [E|E]; destruct (Req_EM_T (s_a vs) 0); try contradiction; [reflexivity|].
  unfold rv. f_equal. ung. f_equal; [f_equal|].
  - rfield. exact E.
  - rfield. exact E.
  - cbn [kabs RNum]. f_equal. rfield. exact E.
Qed.
Lemma geo_empty {N : Num} : geo_properties [] = UB.
Proof. reflexivity. Qed.

(** rotation *)
Lemma sums_perm vs vs' : Permutation (cyc vs) (cyc vs') ->
  s_a vs = s_a vs' /\ s_x vs = s_x vs' /\ s_y vs = s_y vs' /\ s_m vs = s_m vs'.
Proof. intros P. unfold s_a, s_x, s_y, s_m. repeat split; apply esum_perm; exact P. Qed.
Lemma geo_rotate (l1 l2 : list Rv) : geo_properties (l1 ++ l2) = geo_properties (l2 ++ l1).
Proof.
  destruct l1 as [|x l1]; [rewrite app_nil_r; reflexivity|].
  rewrite !geo_properties_eq by (destruct l2; discriminate).
  destruct (sums_perm _ _ (cyc_rotate (x :: l1) l2)) as (-> & -> & -> & ->). reflexivity.
Qed.
(** reversal *)
Lemma esum_rev f vs : (forall a b, f (b, a) = - f (a, b)) -> esum f (cyc (rev vs)) = - esum f (cyc vs).
Proof.
  intros H. rewrite (esum_perm _ _ _ (cyc_rev vs)), esum_map.
  transitivity (-1 * esum f (cyc vs)); [|ring]. rewrite <- esum_scale. apply esum_ext. intros [a b]. cbn [fst snd]. rewrite H. ring.
Qed.
Lemma sums_rev vs : s_a (rev vs) = - s_a vs /\ s_x (rev vs) = - s_x vs /\ s_y (rev vs) = - s_y vs /\ s_m (rev vs) = - s_m vs.
Proof.
  unfold s_a, s_x, s_y, s_m. repeat split; apply esum_rev; intros a b; unfold e_x, e_y, e_m, e_c, dotR; cbn [fst snd]; rring.
Qed.
Lemma rev_ne {T} (vs : list T) : vs <> [] -> rev vs <> [].
Proof. intros H E. apply H. rewrite <- (rev_involutive vs), E. reflexivity. Qed.
Lemma geo_reverse (vs : list Rv) p : geo_properties vs = Ret p -> gp_degenerate p = false ->
  geo_properties (rev vs) = Ret (GP (gp_centroid p) (- gp_area p) (gp_moment p) false).
Proof.
  intros E D. assert (NE : vs <> []) by (intros ->; discriminate).
  rewrite geo_properties_eq in E by exact NE. rewrite geo_properties_eq by (apply rev_ne; exact NE).
  destruct (sums_rev vs) as (-> & -> & -> & ->). injection E as <-. unfold props_of in *.
  destruct (Req_EM_T (s_a vs) 0); [discriminate D|]. destruct (Req_EM_T (- s_a vs) 0); [exfalso; lra|].
  cbn [gp_centroid gp_area gp_moment gp_degenerate].
  assert (EX : - s_x vs / (3 * - s_a vs) = s_x vs / (3 * s_a vs)) by (field; assumption).
  assert (EY : - s_y vs / (3 * - s_a vs) = s_y vs / (3 * s_a vs)) by (field; assumption).
  rewrite EX, EY. f_equal. f_equal; [rcbn; lra|]. rewrite <- Rabs_Ropp. f_equal. field. assumption.
Qed.
Lemma geo_reverse_deg (vs : list Rv) p : geo_properties vs = Ret p -> gp_degenerate p = true ->
  exists p', geo_properties (rev vs) = Ret p' /\ gp_degenerate p' = true /\ gp_area p' = 0 /\ gp_area p = 0.
Proof.
  intros E D. assert (NE : vs <> []) by (intros ->; discriminate).
  rewrite geo_properties_eq in E by exact NE. rewrite geo_properties_eq by (apply rev_ne; exact NE).
  destruct (sums_rev vs) as (-> & -> & -> & ->). injection E as <-. unfold props_of in *.
  destruct (Req_EM_T (s_a vs) 0); [|discriminate D]. eexists. split; [reflexivity|].
  destruct (Req_EM_T (- s_a vs) 0); [|exfalso; lra]. cbn. lra.
Qed.

(** translation *)
Definition tr (t : Rv) (v : Rv) : Rv := vadd v t.
Lemma sums_tr t vs : s_a (map (tr t) vs) = s_a vs /\
  s_x (map (tr t) vs) = s_x vs + 3 * vx t * s_a vs /\ s_y (map (tr t) vs) = s_y vs + 3 * vy t * s_a vs /\
  s_m (map (tr t) vs) = s_m vs + 4 * (vx t * s_x vs + vy t * s_y vs) + 6 * dotR t t * s_a vs.
Proof.
  unfold s_a, s_x, s_y, s_m. rewrite !cyc_map, !esum_map.
  destruct t as [p q]. unfold tr, dotR. cbn [vx vy].
  pose (X := fun v : Rv => vx v). pose (Y := fun v : Rv => vy v).
  split; [|split; [|split]].
  - transitivity (esum (fun e => e_c e + (X (snd e) - X (fst e)) * - q + (Y (snd e) - Y (fst e)) * p) (cyc vs)).
    { apply esum_ext. intros [f g]. unfold e_c, X, Y. cbn [fst snd]. ung. rring. }
    rewrite !esum_add.
    rewrite (esum_ext (fun e => (X (snd e) - X (fst e)) * - q) (fun e => - q * (X (snd e) - X (fst e)))) by (intros; ring).
    rewrite (esum_ext (fun e => (Y (snd e) - Y (fst e)) * p) (fun e => p * (Y (snd e) - Y (fst e)))) by (intros; ring).
    rewrite !esum_scale, !esum_cyc_tele. ring.
  - pose (h := fun v : Rv => p * p * 2 * vy v - q * vx v * vx v - q * p * 2 * vx v + p * vx v * vy v : R).
    transitivity (esum (fun e => e_x e + 3 * p * e_c e + (h (snd e) - h (fst e))) (cyc vs)).
    { apply esum_ext. intros [f g]. unfold e_x, e_c, h. cbn [fst snd]. ung. rring. }
    rewrite !esum_add, esum_scale, esum_cyc_tele. ring.
  - pose (h := fun v : Rv => p * vy v * vy v + p * q * 2 * vy v - q * q * 2 * vx v - q * vx v * vy v : R).
    transitivity (esum (fun e => e_y e + 3 * q * e_c e + (h (snd e) - h (fst e))) (cyc vs)).
    { apply esum_ext. intros [f g]. unfold e_y, e_c, h. cbn [fst snd]. ung. rring. }
    rewrite !esum_add, esum_scale, esum_cyc_tele. ring.
  - pose (h := fun v : Rv => (p * vy v - q * vx v) * (vx v * vx v + vy v * vy v) + 3 * (p * vy v - q * vx v) * (p * vx v + q * vy v)
        + 3 * (p * p + q * q) * (p * vy v - q * vx v) : R).
    transitivity (esum (fun e => e_m e + 4 * p * e_x e + 4 * q * e_y e + 6 * (p * p + q * q) * e_c e + (h (snd e) - h (fst e))) (cyc vs)).
    { apply esum_ext. intros [f g]. unfold e_m, e_x, e_y, e_c, dotR, h. cbn [fst snd]. ung. rring. }
    rewrite !esum_add, !esum_scale, esum_cyc_tele. ring.
Qed.
Lemma map_ne {T U} (f : T -> U) (vs : list T) : vs <> [] -> map f vs <> [].
Proof. destruct vs; [congruence|discriminate]. Qed.
Lemma geo_translate (t : Rv) (vs : list Rv) p : geo_properties vs = Ret p -> gp_degenerate p = false ->
  geo_properties (map (fun v => vadd v t) vs) = Ret (GP (vadd (gp_centroid p) t) (gp_area p) (gp_moment p) false).
Proof.
  intros E D. assert (NE : vs <> []) by (intros ->; discriminate). change (fun v => vadd v t) with (tr t).
  rewrite geo_properties_eq in E by exact NE. rewrite geo_properties_eq by (apply map_ne; exact NE).
  destruct (sums_tr t vs) as (-> & -> & -> & ->). injection E as <-. unfold props_of in *.
  destruct (Req_EM_T (s_a vs) 0) as [|NZ]; [discriminate D|].
  cbn [gp_centroid gp_area gp_moment gp_degenerate]. f_equal. f_equal.
  - unfold rv, vadd. cbn [vx vy kadd RNum]. f_equal; rfield; assumption.
  - f_equal. unfold dotR. co. rfield. assumption.
Qed.
Lemma geo_translate_deg (t : Rv) (vs : list Rv) p : geo_properties vs = Ret p -> gp_degenerate p = true ->
  exists p', geo_properties (map (fun v => vadd v t) vs) = Ret p' /\ gp_degenerate p' = true /\ gp_area p' = gp_area p.
Proof.
  intros E D. assert (NE : vs <> []) by (intros ->; discriminate). change (fun v => vadd v t) with (tr t).
  rewrite geo_properties_eq in E by exact NE. rewrite geo_properties_eq by (apply map_ne; exact NE).
  destruct (sums_tr t vs) as (-> & -> & -> & ->). injection E as <-. unfold props_of in *.
  destruct (Req_EM_T (s_a vs) 0) as [|NZ]; [|discriminate D]. eexists. split; [reflexivity|]. split; reflexivity.
Qed.

(** ** Polygons *)
Definition signed_area2 (vs : list Rv) : R := s_a vs.

Lemma polygon_ret (vs : list Rv) : (3 <= length vs)%nat -> exists P, make_polygon vs = Ret P /\
  Permutation (pg_vertices P) vs /\ 0 <= s_a (pg_vertices P) /\ 0 <= gp_area (pg_props P) /\
  (gp_degenerate (pg_props P) = false -> geo_properties (pg_vertices P) = Ret (pg_props P)) /\
  (gp_degenerate (pg_props P) = true <-> s_a (pg_vertices P) = 0) /\
  (gp_degenerate (pg_props P) = true -> gp_area (pg_props P) = 0 /\ pg_vertices P = vs).
Proof.
  intros H. unfold make_polygon. destruct (Nat.leb_spec 3 (length vs)); [|lia].
  assert (NE : vs <> []) by (intros ->; cbn in H; lia).
  pose proof (geo_properties_eq vs NE) as E. rewrite E. cbn [obind].
  set (p := props_of _ _ _ _) in *.
  assert (AP : gp_degenerate p = false -> gp_area p = s_a vs / 2) by (subst p; unfold props_of; destruct (Req_EM_T _ _); [discriminate|reflexivity]).
  assert (DP : gp_degenerate p = true -> gp_area p = 0 /\ s_a vs = 0) by (subst p; unfold props_of; destruct (Req_EM_T _ _); [cbn; auto|discriminate]).
  assert (D0 : s_a vs = 0 -> gp_degenerate p = true) by (subst p; unfold props_of; destruct (Req_EM_T _ _); [reflexivity|contradiction]).
  clearbody p. cbn [kltb RNum]. change (@k0 RNum) with 0. destruct (Rltb_spec (gp_area p) 0) as [L|L].
  - eexists. split; [reflexivity|]. cbn [pg_vertices pg_props gp_degenerate gp_area].
    assert (D : gp_degenerate p = false) by (destruct (gp_degenerate p); [destruct (DP eq_refl); lra|reflexivity]).
    specialize (AP D). destruct (sums_rev vs) as (SR & _).
    split; [symmetry; apply Permutation_rev|]. rewrite SR. split; [lra|]. split; [ung; lra|].
    split; [|split].
    + intros _. rewrite (geo_reverse vs p E D). f_equal. rewrite D. f_equal. ung. lra.
    + rewrite D. split; [discriminate|]. lra.
    + congruence.
  - eexists. split; [reflexivity|]. cbn [pg_vertices pg_props].
    split; [reflexivity|]. destruct (gp_degenerate p) eqn:D.
    + destruct (DP eq_refl) as [Z1 Z2]. repeat split; try lra; auto.
    + specialize (AP eq_refl). repeat split; try lra; auto; try congruence.
Qed.
Lemma polygon_throws {N : Num} (vs : list vec2) : (length vs < 3)%nat -> make_polygon vs = Throw.
Proof. intros H. unfold make_polygon. destruct (Nat.leb_spec 3 (length vs)); [lia|reflexivity]. Qed.
(** for any arithmetic: the constructor keeps the vertices up to reversal *)
Lemma polygon_vertices {N : Num} (vs : list vec2) P : make_polygon vs = Ret P ->
  (3 <= length (pg_vertices P))%nat /\ (pg_vertices P = vs \/ pg_vertices P = rev vs).
Proof.
  unfold make_polygon. destruct (Nat.leb_spec 3 (length vs)); [|discriminate].
  destruct (geo_properties vs) as [p| | |]; cbn [obind]; try discriminate.
  destruct (kltb (gp_area p) k0); intros [= <-]; cbn [pg_vertices]; [rewrite rev_length|]; auto.
Qed.
Lemma polygon_ok {N : Num} (vs : list vec2) : (3 <= length vs)%nat -> exists P, make_polygon vs = Ret P.
Proof.
  intros H. unfold make_polygon. destruct (Nat.leb_spec 3 (length vs)); [|lia].
  unfold geo_properties. rewrite edge_vertices_spec by (intros ->; cbn in H; lia). cbn [obind].
  destruct (geo_loop (cyc vs) k0 (V2 k0 k0) k0) as [[a c] m]. destruct (a =? k0)%num; cbn [obind gp_area]; destruct (_ <? k0)%num; eauto.
Qed.
(** traversal direction *)
Lemma polygon_reverse (vs : list Rv) P : make_polygon vs = Ret P -> gp_degenerate (pg_props P) = false ->
  exists P', make_polygon (rev vs) = Ret P' /\ pg_props P' = pg_props P.
Proof.
  unfold make_polygon. rewrite rev_length. destruct (Nat.leb_spec 3 (length vs)); [|discriminate].
  destruct (geo_properties vs) as [p| | |] eqn:E; cbn [obind]; try discriminate.
  intros HP D. assert (DD : gp_degenerate p = false).
  { destruct (gp_area p <? k0)%num in HP; injection HP as <-; exact D. }
  assert (NE : vs <> []) by (intros ->; discriminate).
  assert (NZ : gp_area p <> 0).
  { pose proof (geo_properties_eq vs NE) as E'. rewrite E in E'. injection E' as ->. unfold props_of in *.
    destruct (Req_EM_T (s_a vs) 0); [discriminate|]. cbn. lra. }
  rewrite (geo_reverse vs p E DD). cbn [obind gp_area gp_centroid gp_moment gp_degenerate]. cbn [kltb RNum] in *. change (@k0 RNum) with 0 in *.
  destruct (Rltb_spec (gp_area p) 0); destruct (Rltb_spec (- gp_area p) 0); try (exfalso; lra); injection HP as <-; eexists; (split; [reflexivity|]); cbn [pg_props].
  - rewrite DD. f_equal. ung. lra.
  - destruct p as [c a m d]. cbn in DD |- *. subst d. f_equal. ung. lra.
Qed.

(** ** boxes *)
Lemma box_props (dx dy : R) (c : Rv) : 0 < dx -> 0 < dy ->
  polygon_box (rv dx dy) c = Ret (Poly (GP c (dx * dy) (dx * dy * (dx * dx + dy * dy) / 12) false) (box_vertices (rv dx dy) c)).
Proof.
  intros HX HY. unfold polygon_box, make_polygon. change (Nat.leb 3 (length (box_vertices (rv dx dy) c))) with true. cbv iota.
  rewrite geo_properties_eq by discriminate. cbn [obind].
  set (vs := box_vertices (rv dx dy) c).
  assert (SA : s_a vs = 2 * (dx * dy)).
  { unfold s_a, vs. cbn. unfold e_c. cbn. rcbn. field. }
  assert (SX : s_x vs = 6 * vx c * (dx * dy)).
  { unfold s_x, vs. cbn. unfold e_x, e_c. cbn. rcbn. field. }
  assert (SY : s_y vs = 6 * vy c * (dx * dy)).
  { unfold s_y, vs. cbn. unfold e_y, e_c. cbn. rcbn. field. }
  assert (SM : s_m vs = dx * dy * (dx * dx + dy * dy) + 12 * dx * dy * (vx c * vx c + vy c * vy c)).
  { unfold s_m, vs. cbn. unfold e_m, e_c, dotR. cbn. rcbn. field. }
  rewrite SA, SX, SY, SM. assert (P : 0 < dx * dy) by (apply Rmult_lt_0_compat; assumption).
  unfold props_of. destruct (Req_EM_T (2 * (dx * dy)) 0); [exfalso; lra|].
  cbn [gp_area]. cbn [kltb RNum]. change (@k0 RNum) with 0. destruct (Rltb_spec (2 * (dx * dy) / 2) 0); [exfalso; lra|].
  f_equal. f_equal. f_equal.
  - destruct c as [cx cy]. unfold rv. cbn [vx vy]. f_equal; rfield; lra.
  - rfield.
  - assert (E : (dx * dy * (dx * dx + dy * dy) + 12 * dx * dy * (vx c * vx c + vy c * vy c)) / 12 -
      2 * (dx * dy) / 2 * (6 * vx c * (dx * dy) / (3 * (2 * (dx * dy))) * (6 * vx c * (dx * dy) / (3 * (2 * (dx * dy)))) +
        6 * vy c * (dx * dy) / (3 * (2 * (dx * dy))) * (6 * vy c * (dx * dy) / (3 * (2 * (dx * dy))))) = dx * dy * (dx * dx + dy * dy) / 12) by (field; lra).
    refine (eq_trans (f_equal Rabs E) _). apply Rabs_pos_eq.
    assert (0 <= dx * dx + dy * dy) by nra. assert (0 <= dx * dy * (dx * dx + dy * dy)) by (apply Rmult_le_pos; lra). lra.
Qed.

(** ** triangles and cutting along a chord determine the area and the centroid *)
Lemma triangle_props (A B C : Rv) p : geo_properties [A; B; C] = Ret p -> gp_degenerate p = false ->
  gp_area p = area2 A B C / 2 /\ vx (gp_centroid p) = (vx A + vx B + vx C) / 3 /\ vy (gp_centroid p) = (vy A + vy B + vy C) / 3.
Proof.
  rewrite geo_properties_eq by discriminate. intros [= <-].
  assert (SA : s_a [A; B; C] = area2 A B C) by (unfold s_a, area2; cbn; unfold e_c; cbn; rcbn; ring).
  assert (SX : s_x [A; B; C] = area2 A B C * (vx A + vx B + vx C)) by (unfold s_x, area2; cbn; unfold e_x, e_c; cbn; rcbn; ring).
  assert (SY : s_y [A; B; C] = area2 A B C * (vy A + vy B + vy C)) by (unfold s_y, area2; cbn; unfold e_y, e_c; cbn; rcbn; ring).
  rewrite SA, SX, SY. unfold props_of. destruct (Req_EM_T _ _); [discriminate|]. intros _. cbn.
  repeat split; rfield; assumption.
Qed.
Lemma sum_chord f a l1 b l2 : (forall x y, f (y, x) = - f (x, y)) ->
  esum f (cyc (a :: l1 ++ b :: l2)) = esum f (cyc (a :: l1 ++ [b])) + esum f (cyc (b :: l2 ++ [a])).
Proof.
  intros H. rewrite !cyc_cons. rewrite (last_app_ne l1 (b :: l2) a a), (last_app_ne l1 [b] a a), (last_app_ne l2 [a] b b) by discriminate.
  rewrite !path_app. rewrite (last_cons_nd b l2 a). change (last [b] a) with b. change (last [a] b) with a. cbn [path].
  cbn [esum fold_right]. fold (esum f (path a l1 ++ [(last l1 a, b)])) (esum f (path b l2 ++ [(last l2 b, a)]))
    (esum f (path a l1 ++ (last l1 a, b) :: path b l2)). rewrite !esum_app. cbn [esum fold_right]. fold (esum f (path b l2)).
  rewrite (H a b). lra.
Qed.
Lemma area_chord (a : Rv) l1 b l2 (p p1 p2 : geo_props (N := RNum)) : geo_properties (a :: l1 ++ b :: l2) = Ret p ->
  geo_properties (a :: l1 ++ [b]) = Ret p1 -> geo_properties (b :: l2 ++ [a]) = Ret p2 ->
  gp_degenerate p = false -> gp_degenerate p1 = false -> gp_degenerate p2 = false ->
  gp_area p = gp_area p1 + gp_area p2 /\
  gp_area p * vx (gp_centroid p) = gp_area p1 * vx (gp_centroid p1) + gp_area p2 * vx (gp_centroid p2) /\
  gp_area p * vy (gp_centroid p) = gp_area p1 * vy (gp_centroid p1) + gp_area p2 * vy (gp_centroid p2).
Proof.
  rewrite !geo_properties_eq by discriminate. intros [= <-] [= <-] [= <-].
  assert (SA : s_a (a :: l1 ++ b :: l2) = s_a (a :: l1 ++ [b]) + s_a (b :: l2 ++ [a])) by (apply sum_chord; intros; unfold e_c; cbn [fst snd]; rring).
  assert (SX : s_x (a :: l1 ++ b :: l2) = s_x (a :: l1 ++ [b]) + s_x (b :: l2 ++ [a])) by (apply sum_chord; intros; unfold e_x, e_c; cbn [fst snd]; rring).
  assert (SY : s_y (a :: l1 ++ b :: l2) = s_y (a :: l1 ++ [b]) + s_y (b :: l2 ++ [a])) by (apply sum_chord; intros; unfold e_y, e_c; cbn [fst snd]; rring).
  unfold props_of. destruct (Req_EM_T (s_a (a :: l1 ++ b :: l2)) 0); [discriminate|].
  destruct (Req_EM_T (s_a (a :: l1 ++ [b])) 0); [discriminate|]. destruct (Req_EM_T (s_a (b :: l2 ++ [a])) 0); [discriminate|].
  intros _ _ _. cbn [gp_area gp_centroid rv vx vy]. unfold rv. cbn [vx vy]. split; [lra|].
  assert (C : forall s x : R, s <> 0 -> s / 2 * (x / (3 * s)) = x / 6) by (intros; field; assumption).
  rewrite !C by assumption. lra.
Qed.
