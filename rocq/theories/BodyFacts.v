(** Mass properties, impulses, gravity, sleeping, materials, profiler
    (C37-C39, C43, C53, C54). *)
From Coq Require Import ZArith List Bool Reals Lra Psatz Lia Arith Permutation.
From Verif Require Import Num Outcome Box Mat MatFacts MatSolve Geom GeomClosest GeomPoly GeomArea Transform TransformFacts Body.
Import ListNotations.
Local Open Scope R_scope.

Notation Rmp := (@mass_props RNum).
Notation Rbody := (@body RNum).
Notation Rcoll := (@collider RNum).

(** ** C37 *)
(** a mass with its centroid, or the zero element *)
Definition mp_wf (p : Rmp) : Prop := 0 < mp_m p \/ p = mp_zero.
(** moment of inertia about a point *)
Definition inertia_about (p : Rmp) (q : Rv) : R := mp_I p + mp_m p * dist2 (mp_c p) q.

Lemma mp_eq (a b : Rmp) : mp_m a = mp_m b -> mp_I a = mp_I b -> vx (mp_c a) = vx (mp_c b) -> vy (mp_c a) = vy (mp_c b) -> a = b.
Proof. destruct a as [m I [x y]], b as [m' I' [x' y']]. cbn. intros -> -> -> ->. reflexivity. Qed.
Lemma mp_add_pos (a b : Rmp) : mp_m a + mp_m b <> 0 ->
  mp_m (mp_add a b) = mp_m a + mp_m b /\
  vx (mp_c (mp_add a b)) = (mp_m a * vx (mp_c a) + mp_m b * vx (mp_c b)) / (mp_m a + mp_m b) /\
  vy (mp_c (mp_add a b)) = (mp_m a * vy (mp_c a) + mp_m b * vy (mp_c b)) / (mp_m a + mp_m b) /\
  mp_I (mp_add a b) = mp_I a + mp_m a * dotR (mp_c a) (mp_c a) + (mp_I b + mp_m b * dotR (mp_c b) (mp_c b))
     - (mp_m a + mp_m b) * dotR (mp_c (mp_add a b)) (mp_c (mp_add a b)).
Proof.
  intros H. unfold mp_add. cbn [keqb RNum]. change (@k0 RNum) with 0. cbn [kadd RNum].
  destruct (Reqb_spec (mp_m a + mp_m b) 0); [contradiction|]. cbn [mp_m mp_I mp_c]. unfold dotR. ung.
  split; [reflexivity|]. split; [rfield; exact H|]. split; [rfield; exact H|]. rring.
Qed.
Lemma mp_add_zero (a b : Rmp) : mp_m a + mp_m b = 0 -> mp_add a b = mp_zero.
Proof.
  intros H. unfold mp_add. cbn [keqb RNum]. change (@k0 RNum) with 0. cbn [kadd RNum].
  destruct (Reqb_spec (mp_m a + mp_m b) 0); [|contradiction]. unfold mp_zero. change (@k0 RNum) with 0. rewrite H. reflexivity.
Qed.
Lemma wf_nonneg p : mp_wf p -> 0 <= mp_m p.
Proof. intros [H| ->]; [lra|]. unfold mp_zero. cbn. lra. Qed.
Lemma wf_zero p : mp_wf p -> mp_m p = 0 -> p = mp_zero.
Proof. intros [H|H]; [lra|auto]. Qed.
Lemma mp_zero_wf : mp_wf mp_zero.
Proof. right. reflexivity. Qed.
Lemma mp_add_wf a b : mp_wf a -> mp_wf b -> mp_wf (mp_add a b).
Proof.
  intros A B. pose proof (wf_nonneg a A). pose proof (wf_nonneg b B).
  destruct (Req_dec (mp_m a + mp_m b) 0) as [E|E]; [right; apply mp_add_zero; exact E|].
  left. destruct (mp_add_pos a b E) as [M _]. rewrite M. lra.
Qed.
(** mass and inertia about any point add up; the centroid is the weighted mean *)
Lemma mp_add_spec a b q : mp_wf a -> mp_wf b -> let c := mp_add a b in
  mp_m c = mp_m a + mp_m b /\
  mp_m c * vx (mp_c c) = mp_m a * vx (mp_c a) + mp_m b * vx (mp_c b) /\
  mp_m c * vy (mp_c c) = mp_m a * vy (mp_c a) + mp_m b * vy (mp_c b) /\
  inertia_about c q = inertia_about a q + inertia_about b q.
Proof.
  intros A B c. pose proof (wf_nonneg a A). pose proof (wf_nonneg b B).
  destruct (Req_dec (mp_m a + mp_m b) 0) as [E|E].
  - assert (a = mp_zero) by (apply wf_zero; [exact A|lra]). assert (b = mp_zero) by (apply wf_zero; [exact B|lra]). subst a b c.
    rewrite mp_add_zero by exact E. unfold inertia_about, mp_zero. cbn. repeat split; rring.
  - destruct (mp_add_pos a b E) as (M & X & Y & J). fold c in M, X, Y, J.
    assert (X' : mp_m c * vx (mp_c c) = mp_m a * vx (mp_c a) + mp_m b * vx (mp_c b)) by (rewrite M, X; rfield; exact E).
    assert (Y' : mp_m c * vy (mp_c c) = mp_m a * vy (mp_c a) + mp_m b * vy (mp_c b)) by (rewrite M, Y; rfield; exact E).
    split; [exact M|]. split; [exact X'|]. split; [exact Y'|].
    unfold inertia_about. rewrite J, <- M. unfold dist2, dotR.
    transitivity (mp_I a + mp_m a * (vx (mp_c a) * vx (mp_c a) + vy (mp_c a) * vy (mp_c a)) + (mp_I b + mp_m b * (vx (mp_c b) * vx (mp_c b) + vy (mp_c b) * vy (mp_c b)))
      - 2 * vx q * (mp_m c * vx (mp_c c)) - 2 * vy q * (mp_m c * vy (mp_c c)) + mp_m c * (vx q * vx q + vy q * vy q)); [rring|].
    rewrite X', Y', M. rring.
Qed.
(** these facts determine the result *)
Lemma mp_unique a b : mp_wf a -> mp_wf b -> mp_m a = mp_m b ->
  mp_m a * vx (mp_c a) = mp_m b * vx (mp_c b) -> mp_m a * vy (mp_c a) = mp_m b * vy (mp_c b) ->
  (forall q, inertia_about a q = inertia_about b q) -> a = b.
Proof.
  intros A B M X Y J. destruct A as [A| ->].
  - rewrite <- M in X, Y. apply Rmult_eq_reg_l in X; [|lra]. apply Rmult_eq_reg_l in Y; [|lra].
    apply mp_eq; auto. specialize (J (mp_c a)). unfold inertia_about in J. rewrite <- M in J.
    assert (E : dist2 (mp_c b) (mp_c a) = dist2 (mp_c a) (mp_c a)) by (unfold dist2; rewrite X, Y; reflexivity). rewrite E in J. lra.
  - symmetry. apply wf_zero; [exact B|]. rewrite <- M. reflexivity.
Qed.
Lemma mp_comm a b : mp_wf a -> mp_wf b -> mp_add a b = mp_add b a.
Proof.
  intros A B. pose proof (fun q => mp_add_spec a b q A B) as S1. pose proof (fun q => mp_add_spec b a q B A) as S2. cbv zeta in *.
  apply mp_unique; auto using mp_add_wf.
  - destruct (S1 (mp_c a)) as (-> & _). destruct (S2 (mp_c a)) as (-> & _). lra.
  - destruct (S1 (mp_c a)) as (_ & -> & _). destruct (S2 (mp_c a)) as (_ & -> & _). lra.
  - destruct (S1 (mp_c a)) as (_ & _ & -> & _). destruct (S2 (mp_c a)) as (_ & _ & -> & _). lra.
  - intros q. destruct (S1 q) as (_ & _ & _ & ->). destruct (S2 q) as (_ & _ & _ & ->). lra.
Qed.
Lemma mp_assoc a b c : mp_wf a -> mp_wf b -> mp_wf c -> mp_add (mp_add a b) c = mp_add a (mp_add b c).
Proof.
  intros A B C. pose proof (fun q => mp_add_spec a b q A B) as S1. pose proof (fun q => mp_add_spec b c q B C) as S2.
  pose proof (fun q => mp_add_spec (mp_add a b) c q (mp_add_wf _ _ A B) C) as S3.
  pose proof (fun q => mp_add_spec a (mp_add b c) q A (mp_add_wf _ _ B C)) as S4. cbv zeta in *.
  apply mp_unique; auto using mp_add_wf.
  - destruct (S3 (mp_c a)) as (-> & _), (S4 (mp_c a)) as (-> & _), (S1 (mp_c a)) as (-> & _), (S2 (mp_c a)) as (-> & _). lra.
  - destruct (S3 (mp_c a)) as (_ & -> & _), (S4 (mp_c a)) as (_ & -> & _), (S1 (mp_c a)) as (_ & -> & _), (S2 (mp_c a)) as (_ & -> & _). lra.
  - destruct (S3 (mp_c a)) as (_ & _ & -> & _), (S4 (mp_c a)) as (_ & _ & -> & _), (S1 (mp_c a)) as (_ & _ & -> & _), (S2 (mp_c a)) as (_ & _ & -> & _). lra.
  - intros q. destruct (S3 q) as (_ & _ & _ & ->), (S4 q) as (_ & _ & _ & ->), (S1 q) as (_ & _ & _ & ->), (S2 q) as (_ & _ & _ & ->). lra.
Qed.
Lemma mp_neutral a : mp_wf a -> mp_add a mp_zero = a /\ mp_add mp_zero a = a.
Proof.
  intros A. assert (E : mp_add a mp_zero = a); [|split; [exact E|rewrite mp_comm; auto using mp_zero_wf]].
  pose proof (fun q => mp_add_spec a mp_zero q A mp_zero_wf) as S. cbv zeta in S.
  apply mp_unique; auto using mp_add_wf, mp_zero_wf; try intros q.
  - destruct (S (mp_c a)) as (-> & _). unfold mp_zero. cbn. rcbn. lra.
  - destruct (S (mp_c a)) as (_ & -> & _). unfold mp_zero. cbn. rcbn. lra.
  - destruct (S (mp_c a)) as (_ & _ & -> & _). unfold mp_zero. cbn. rcbn. lra.
  - destruct (S q) as (_ & _ & _ & ->). unfold inertia_about, mp_zero. cbn. rcbn. lra.
Qed.

(** the combination of a list, in list order as the code folds it *)
Definition mp_sum (ps : list Rmp) : Rmp := fold_left mp_add ps mp_zero.
Lemma fold_wf ps : Forall mp_wf ps -> forall acc, mp_wf acc -> mp_wf (fold_left mp_add ps acc).
Proof. induction 1; intros acc A; [exact A|]. apply IHForall. apply mp_add_wf; assumption. Qed.
Lemma fold_out ps : Forall mp_wf ps -> forall acc, mp_wf acc -> fold_left mp_add ps acc = mp_add acc (mp_sum ps).
Proof.
  unfold mp_sum. induction 1 as [|p ps Hp Hps IH]; intros acc A; cbn [fold_left]; [symmetry; apply mp_neutral; exact A|].
  rewrite IH by (apply mp_add_wf; assumption). rewrite (IH (mp_add mp_zero p)) by (apply mp_add_wf; auto using mp_zero_wf).
  destruct (mp_neutral p Hp) as [_ ->]. apply mp_assoc; auto. apply fold_wf; auto using mp_zero_wf.
Qed.
Lemma mp_sum_perm ps qs : Permutation ps qs -> Forall mp_wf ps -> mp_sum ps = mp_sum qs.
Proof.
  induction 1; intros F; auto.
  - inversion F; subst. unfold mp_sum. cbn [fold_left]. destruct (mp_neutral x) as [_ ->]; [assumption|].
    rewrite !fold_out; auto. { rewrite IHPermutation; auto. } { eapply Permutation_Forall; eassumption. }
  - inversion F as [|? ? Hy F']; subst. inversion F' as [|? ? Hx F'']; subst. unfold mp_sum. cbn [fold_left].
    destruct (mp_neutral x) as [_ ->]; [assumption|]. destruct (mp_neutral y) as [_ ->]; [assumption|].
    rewrite (mp_comm y x) by assumption. reflexivity.
  - rewrite IHPermutation1 by assumption. apply IHPermutation2. eapply Permutation_Forall; eassumption.
Qed.

(** ** bodies: histories of addCollider / removeCollider *)
Inductive body_op := BAdd (c : Rcoll) | BRemove (id : nat) | BImpulse (J r : Rv) | BVel (v : Rv) | BAng (w : R).
Definition body_step (b : Rbody) (o : body_op) : outcome Rbody :=
  match o with
  | BAdd c => add_collider b c
  | BRemove id => remove_collider b id
  | BImpulse J r => Ret (apply_impulse b J r)
  | BVel v => Ret (set_vel b v)
  | BAng w => Ret (set_ang b w)
  end.
Fixpoint body_run (os : list body_op) (b : Rbody) : outcome Rbody :=
  match os with [] => Ret b | o :: os => (let* b' := body_step b o in body_run os b')%out end.

(** shapes as Polygon provides them give positive mass *)
Definition coll_ok (c : Rcoll) : Prop := exists p, c_props c = Ret p /\ 0 < mp_m p.
Lemma c_props_update T (c : Rcoll) : c_props (c_update T c) = c_props c.
Proof. reflexivity. Qed.
Lemma coll_ok_polygon id (vs : list Rv) P (w : list Rv) (d : R) : make_polygon vs = Ret P -> gp_degenerate (pg_props P) = false -> 0 < d ->
  exists p : Rmp, c_props (@Coll RNum id (pg_vertices P) d w) = Ret p /\ mp_m p = gp_area (pg_props P) * d /\ 0 < mp_m p /\
    mp_c p = gp_centroid (pg_props P).
Proof.
  intros H D HD. destruct (Nat.le_gt_cases 3 (length vs)) as [L|L]; [|rewrite polygon_throws in H by exact L; discriminate].
  destruct (polygon_ret vs L) as (P' & E & _ & _ & A & G & Z & _). rewrite H in E. injection E as <-.
  unfold c_props, mp_of. cbn [c_local c_density]. cbn [kltb RNum]. change (@k0 RNum) with 0.
  destruct (Rltb_spec 0 d); [|contradiction]. rewrite (G D). cbn [obind]. rewrite D. eexists. split; [reflexivity|]. cbn [mp_m mp_c]. split; [reflexivity|].
  split; [|reflexivity]. apply Rmult_lt_0_compat; [|exact HD].
  assert (NE : pg_vertices P <> []) by (intros E0; rewrite E0 in G; specialize (G D); discriminate).
  specialize (G D). rewrite geo_properties_eq in G by exact NE. injection G as G. rewrite <- G in *. unfold props_of in *.
  destruct (Req_EM_T (s_a (pg_vertices P)) 0) as [Z0|Z0]; [discriminate D|]. cbn in *. lra.
Qed.
Definition props_list (cs : list Rcoll) : list Rmp :=
  map (fun c => match c_props c with Ret p => p | _ => mp_zero end) cs.
Lemma sum_props_eq cs : Forall coll_ok cs -> forall acc, sum_props cs acc = Ret (fold_left mp_add (props_list cs) acc).
Proof.
  induction 1 as [|c cs (p & E & _) _ IH]; intros acc; [reflexivity|]. cbn [sum_props props_list map fold_left]. rewrite E. cbn [obind].
  apply IH.
Qed.
Lemma props_list_wf cs : Forall coll_ok cs -> Forall mp_wf (props_list cs).
Proof. induction 1 as [|c cs (p & E & P) _ IH]; constructor; [rewrite E; left; exact P|exact IH]. Qed.
Lemma props_list_update T cs : props_list (map (c_update T) cs) = props_list cs.
Proof. unfold props_list. rewrite map_map. apply map_ext. intros c. rewrite c_props_update. reflexivity. Qed.
Lemma erase_sub f (cs : list Rcoll) P : Forall P cs -> Forall P (erase_first f cs).
Proof. induction 1; cbn; [constructor|]. destruct (f x); [assumption|constructor; assumption]. Qed.

(** the invariant: properties are those of the current colliders, the local
    centroid is theirs *)
Definition body_inv (b : Rbody) : Prop :=
  Forall coll_ok (b_colliders b) /\ b_props b = mp_sum (props_list (b_colliders b)) /\
  is_rotation (p_rot (b_pos b)) /\
  (b_colliders b <> [] -> p_lc (b_pos b) = mp_c (b_props b)).
Definition ops_ok (o : body_op) : Prop := match o with BAdd c => coll_ok c | _ => True end.

Lemma coll_ok_update T c : coll_ok c -> coll_ok (c_update T c).
Proof. intros (p & E & P). exists p. rewrite c_props_update. auto. Qed.
Lemma Forall_update T cs : Forall coll_ok cs -> Forall coll_ok (map (c_update T) cs).
Proof. induction 1; constructor; auto using coll_ok_update. Qed.
Lemma recentre_inv b cs p old : Forall coll_ok cs -> p = mp_sum (props_list cs) -> is_rotation (p_rot (b_pos b)) ->
  body_inv (recentre (set_colliders b cs p) old).
Proof.
  intros F E R. unfold body_inv, recentre, b_update. cbn. split; [apply Forall_update; exact F|].
  split; [rewrite props_list_update; exact E|]. split; [exact R|]. intros _. reflexivity.
Qed.
Lemma body_step_inv b o b' : body_inv b -> ops_ok o -> body_step b o = Ret b' -> body_inv b'.
Proof.
  intros (F & S & R & L) OK. destruct o as [c|id|J r|v|w]; cbn [body_step ops_ok] in *.
  - unfold add_collider, add_collider_full, colliders_add. destruct OK as (p & E & P). rewrite E. intros [= <-].
    apply recentre_inv; [apply Forall_app; split; [exact F|constructor; [exists p; auto|constructor]]| |exact R].
    rewrite S. unfold props_list. rewrite map_app. unfold mp_sum. rewrite fold_left_app. cbn [map fold_left]. rewrite E. reflexivity.
  - unfold remove_collider. set (cs := erase_first _ _).
    assert (F' : Forall coll_ok cs) by (apply erase_sub; exact F).
    rewrite sum_props_eq by exact F'. cbn [obind]. fold (mp_sum (props_list cs)). clearbody cs. destruct cs as [|c cs'].
    + intros [= <-]. unfold body_inv. cbn. repeat split; auto. congruence.
    + intros [= <-]. apply recentre_inv; auto.
  - intros [= <-]. repeat split; auto.
  - intros [= <-]. repeat split; auto.
  - intros [= <-]. repeat split; auto.
Qed.
Lemma body_run_inv os : Forall ops_ok os -> forall b b', body_inv b -> body_run os b = Ret b' -> body_inv b'.
Proof.
  induction 1 as [|o os Ho Hos IH]; intros b b' I; cbn [body_run]; [intros [= <-]; exact I|].
  destruct (body_step b o) as [b1| | |] eqn:E; cbn [obind]; try discriminate. intros H. eapply IH; [|exact H]. eapply body_step_inv; eassumption.
Qed.
Lemma body_step_total b o : body_inv b -> ops_ok o -> exists b', body_step b o = Ret b'.
Proof.
  intros (F & S & R & L) OK. destruct o as [c|id|J r|v|w]; cbn [body_step ops_ok] in *; try (eexists; reflexivity).
  - unfold add_collider, add_collider_full, colliders_add. destruct OK as (p & E & P). rewrite E. eexists; reflexivity.
  - unfold remove_collider. rewrite sum_props_eq by (apply erase_sub; exact F). cbn [obind]. destruct (erase_first _ _); eexists; reflexivity.
Qed.
Lemma body_run_total os : Forall ops_ok os -> forall b, body_inv b -> exists b', body_run os b = Ret b'.
Proof.
  induction 1 as [|o os Ho Hos IH]; intros b I; cbn [body_run]; [eexists; reflexivity|].
  destruct (body_step_total b o I Ho) as (b1 & E). rewrite E. cbn [obind]. apply IH. eapply body_step_inv; eassumption.
Qed.
Lemma new_body_inv pos theta dom : body_inv (new_body pos (mk_rot theta) dom).
Proof. unfold body_inv, new_body. cbn. repeat split; try constructor. Qed.

Lemma body_props_history pos theta dom os b : Forall ops_ok os -> body_run os (new_body pos (mk_rot theta) dom) = Ret b ->
  b_props b = mp_sum (props_list (b_colliders b)) /\
  (b_colliders b <> [] -> p_lc (b_pos b) = mp_c (b_props b)).
Proof. intros F H. destruct (body_run_inv os F _ _ (new_body_inv pos theta dom) H) as (_ & A & _ & B). auto. Qed.
(** two histories ending with the same colliders, in any order *)
Lemma body_props_order pos theta dom pos' theta' dom' os os' b b' :
  Forall ops_ok os -> Forall ops_ok os' ->
  body_run os (new_body pos (mk_rot theta) dom) = Ret b -> body_run os' (new_body pos' (mk_rot theta') dom') = Ret b' ->
  Permutation (map (fun c => (c_local c, c_density c)) (b_colliders b)) (map (fun c => (c_local c, c_density c)) (b_colliders b')) ->
  b_props b = b_props b'.
Proof.
  intros F F' H H' P.
  destruct (body_run_inv os F _ _ (new_body_inv pos theta dom) H) as (W & A & _).
  destruct (body_run_inv os' F' _ _ (new_body_inv pos' theta' dom') H') as (W' & A' & _).
  rewrite A, A'. apply mp_sum_perm; [|apply props_list_wf; exact W].
  assert (E : forall cs : list Rcoll, props_list cs = map (fun e => match mp_of (fst e) (snd e) with Ret p => p | _ => mp_zero end) (map (fun c => (c_local c, c_density c)) cs)).
  { intros cs. unfold props_list. rewrite map_map. reflexivity. }
  rewrite !E. apply Permutation_map. exact P.
Qed.

(** ** C38 *)
Lemma impulse_momentum (b : Rbody) (J r : Rv) : b_mass b <> 0 -> b_inertia b <> 0 -> let b' := apply_impulse b J r in
  b_mass b' * vx (b_vel b') = b_mass b * vx (b_vel b) + vx J /\
  b_mass b' * vy (b_vel b') = b_mass b * vy (b_vel b) + vy J /\
  b_inertia b' * b_ang b' = b_inertia b * b_ang b + (vx r * vy J - vy r * vx J) /\
  b_pos b' = b_pos b /\ b_mass b' = b_mass b /\ b_inertia b' = b_inertia b.
Proof.
  intros M I b'. subst b'. unfold apply_impulse, set_ang, set_vel, b_mass, b_inertia, b_invInertia, b_invMass in *. cbn [b_props b_vel b_ang b_pos].
  unfold b_mass, b_inertia in *. cbn [b_props]. ung. repeat split; rfield; assumption.
Qed.
(** momenta about a point o *)
Definition lin_x (b : Rbody) : R := b_mass b * vx (b_vel b).
Definition lin_y (b : Rbody) : R := b_mass b * vy (b_vel b).
Definition ang_mom (o : Rv) (b : Rbody) : R :=
  b_inertia b * b_ang b + b_mass b * rcross (vsub (b_centroid b) o) (b_vel b).
Lemma impulse_pair (a b : Rbody) (J p o : Rv) : b_mass a <> 0 -> b_inertia a <> 0 -> b_mass b <> 0 -> b_inertia b <> 0 ->
  let a' := apply_impulse a J (vsub p (b_centroid a)) in
  let b' := apply_impulse b (vopp J) (vsub p (b_centroid b)) in
  lin_x a' + lin_x b' = lin_x a + lin_x b /\ lin_y a' + lin_y b' = lin_y a + lin_y b /\
  ang_mom o a' + ang_mom o b' = ang_mom o a + ang_mom o b.
Proof.
  intros MA IA MB IB a' b'.
  destruct (impulse_momentum a J (vsub p (b_centroid a)) MA IA) as (AX & AY & AW & AP & AM & AI).
  destruct (impulse_momentum b (vopp J) (vsub p (b_centroid b)) MB IB) as (BX & BY & BW & BP & BM & BI).
  fold a' in AX, AY, AW, AP, AM, AI. fold b' in BX, BY, BW, BP, BM, BI.
  unfold lin_x, lin_y, ang_mom.
  assert (CA : b_centroid a' = b_centroid a) by (unfold b_centroid; rewrite AP; reflexivity).
  assert (CB : b_centroid b' = b_centroid b) by (unfold b_centroid; rewrite BP; reflexivity).
  rewrite CA, CB. set (ca := b_centroid a) in *. set (cb := b_centroid b) in *. clearbody ca cb. unfold rcross.
  assert (EX : vx (vopp J) = - vx J) by reflexivity. assert (EY : vy (vopp J) = - vy J) by reflexivity. rewrite EX, EY in *.
  split; [rewrite AX, BX; rring|]. split; [rewrite AY, BY; rring|].
  transitivity (b_inertia a' * b_ang a' + b_inertia b' * b_ang b' + (vx (vsub ca o) * (b_mass a' * vy (b_vel a')) - vy (vsub ca o) * (b_mass a' * vx (b_vel a')))
    + (vx (vsub cb o) * (b_mass b' * vy (b_vel b')) - vy (vsub cb o) * (b_mass b' * vx (b_vel b')))); [rring|].
  rewrite AX, AY, AW, BX, BY, BW. ung. rring.
Qed.

(** ** C39 *)
Lemma rot_world (p : position (N := RNum)) : t_rot (to_world p) = p_rot p.
Proof. reflexivity. Qed.
Definition sum_by (f : Rmp -> R) (ps : list Rmp) : R := fold_right (fun p acc => f p + acc) 0 ps.
Lemma sum_by_perm f ps qs : Permutation ps qs -> sum_by f ps = sum_by f qs.
Proof. induction 1; cbn; try lra; unfold sum_by in *; congruence. Qed.
Lemma mp_sum_cons p ps : mp_wf p -> Forall mp_wf ps -> mp_sum (p :: ps) = mp_add p (mp_sum ps).
Proof. intros P F. unfold mp_sum. cbn [fold_left]. destruct (mp_neutral p P) as [_ ->]. apply fold_out; assumption. Qed.
Lemma mp_sum_wf ps : Forall mp_wf ps -> mp_wf (mp_sum ps).
Proof. intros F. apply fold_wf; auto using mp_zero_wf. Qed.
Lemma mp_sum_totals ps : Forall mp_wf ps -> mp_m (mp_sum ps) = sum_by mp_m ps /\
  mp_m (mp_sum ps) * vx (mp_c (mp_sum ps)) = sum_by (fun p => mp_m p * vx (mp_c p)) ps /\
  mp_m (mp_sum ps) * vy (mp_c (mp_sum ps)) = sum_by (fun p => mp_m p * vy (mp_c p)) ps.
Proof.
  induction 1 as [|p ps P F IH]; [unfold mp_sum, mp_zero; cbn; rcbn; repeat split; lra|].
  rewrite mp_sum_cons by assumption. destruct (mp_add_spec p (mp_sum ps) (mp_c p) P (mp_sum_wf ps F)) as (M & X & Y & _). cbv zeta in *.
  destruct IH as (IM & IX & IY). rewrite X, Y, M, IX, IY, IM. cbn. repeat split; reflexivity.
Qed.

(** effect of gravity on one body over the colliders in any order: velocities
    after the visited ones *)
Definition set_motion (b : Rbody) (v : Rv) (w : R) : Rbody :=
  Body (b_pos b) v w (b_colliders b) (b_props b) (b_dominance b) false (b_immobile b).
Definition torque (b : Rbody) (g : Rv) (dt : R) (p : Rmp) : R :=
  rcross (rot_apply (p_rot (b_pos b)) (vsub (mp_c p) (p_lc (b_pos b)))) g * mp_m p * dt / b_inertia b.

Lemma gravity_one (g : Rv) dt (b : Rbody) v w (c : Rcoll) p : c_props c = Ret p -> b_mass b <> 0 -> b_inertia b <> 0 ->
  gravity_apply g dt (set_motion b v w) c =
  Ret (set_motion b (vadd v (@vscale RNum (mp_m p * dt / b_mass b) g)) (w + torque b g dt p)).
Proof.
  intros E M I. unfold gravity_apply. rewrite E. cbn [obind]. f_equal.
  unfold apply_force, apply_impulse, set_ang, set_vel, set_motion, lever. cbn [b_pos b_vel b_ang b_colliders b_props b_dominance b_asleep b_immobile].
  rewrite rot_world. unfold torque, rcross, b_invMass, b_invInertia, b_mass, b_inertia in *. cbn [b_props].
  set (r := rot_apply _ _). clearbody r. ung. f_equal; [f_equal; rfield; assumption|rfield; assumption].
Qed.

Definition active (b : Rbody) : bool := negb (b_asleep b) && negb (b_structural b).
Definition own (k : nat) (cs : list (nat * Rcoll)) : list Rcoll := map snd (filter (fun e => Nat.eqb (fst e) k) cs).
Lemma set_motion_self b : active b = true -> set_motion b (b_vel b) (b_ang b) = b.
Proof. destruct b. unfold active, set_motion. cbn. destruct b_asleep; cbn; [discriminate|reflexivity]. Qed.
Lemma active_motion b v w : active b = true -> active (set_motion b v w) = true.
Proof. destruct b. unfold active, set_motion. cbn. destruct b_asleep; cbn; [discriminate|auto]. Qed.

Lemma field_run (g : Rv) dt (cs : list (nat * Rcoll)) : forall bs,
  (forall i c, In (i, c) cs -> active (bs i) = true -> coll_ok c /\ b_mass (bs i) <> 0 /\ b_inertia (bs i) <> 0) ->
  exists bs', apply_field (gravity_apply g dt) cs bs = Ret bs' /\
  forall k, (active (bs k) = false -> bs' k = bs k) /\
    (active (bs k) = true -> let ps := props_list (own k cs) in
       bs' k = set_motion (bs k) (vadd (b_vel (bs k)) (@vscale RNum (sum_by mp_m ps * dt / b_mass (bs k)) g))
                 (b_ang (bs k) + sum_by (torque (bs k) g dt) ps)).
Proof.
  induction cs as [|[i c] cs IH]; intros bs OK.
  - exists bs. split; [reflexivity|]. intros k. split; [auto|]. intros A. cbn.
    rewrite <- (set_motion_self (bs k) A) at 1. unfold set_motion. f_equal; [|rcbn; lra].
    unfold Rdiv. destruct (b_vel (bs k)) as [x y]. ung. f_equal; rring.
  - cbn [apply_field]. fold (active (bs i)). destruct (active (bs i)) eqn:AI.
    + destruct (OK i c (or_introl eq_refl) AI) as ((p & EP & PM) & MN & IN).
      pose proof (gravity_one g dt (bs i) (b_vel (bs i)) (b_ang (bs i)) c p EP MN IN) as G1. rewrite (set_motion_self _ AI) in G1.
      rewrite G1. cbn [obind]. set (b1 := set_motion _ _ _).
      destruct (IH (upd bs i b1)) as (bs' & R & S).
      { intros j d I A. unfold upd in *. destruct (Nat.eqb_spec j i) as [->|NE]; [|apply OK; [right; exact I|exact A]].
        split; [apply (OK i d); [right; exact I|exact AI]|]. split; assumption. }
      exists bs'. split; [exact R|]. intros k. destruct (S k) as [S1 S2]. unfold upd in S1, S2. unfold own. cbn [filter fst].
      destruct (Nat.eqb_spec k i) as [E|NE]; [subst k|].
      * rewrite Nat.eqb_refl. cbn [map snd props_list]. fold (own i cs) (props_list (own i cs)). rewrite EP.
        split; [congruence|]. intros _. rewrite S2 by (apply active_motion; exact AI). cbv zeta. cbn [sum_by fold_right].
        fold (sum_by mp_m (props_list (own i cs))). unfold b1, set_motion. cbn [b_pos b_vel b_ang b_colliders b_props b_dominance b_immobile].
        assert (T : forall q, torque {| b_pos := b_pos (bs i); b_vel := vadd (b_vel (bs i)) (@vscale RNum (mp_m p * dt / b_mass (bs i)) g);
             b_ang := b_ang (bs i) + torque (bs i) g dt p; b_colliders := b_colliders (bs i); b_props := b_props (bs i);
             b_dominance := b_dominance (bs i); b_asleep := false; b_immobile := b_immobile (bs i) |} g dt q = torque (bs i) g dt q) by reflexivity.
        f_equal.
        -- set (s := sum_by mp_m _). clearbody s. unfold b_mass in *. cbn [b_props]. ung. f_equal; rfield; assumption.
        -- assert (ST : forall l, sum_by (torque {| b_pos := b_pos (bs i); b_vel := vadd (b_vel (bs i)) (@vscale RNum (mp_m p * dt / b_mass (bs i)) g);
             b_ang := b_ang (bs i) + torque (bs i) g dt p; b_colliders := b_colliders (bs i); b_props := b_props (bs i);
             b_dominance := b_dominance (bs i); b_asleep := false; b_immobile := b_immobile (bs i) |} g dt) l = sum_by (torque (bs i) g dt) l) by reflexivity.
           rewrite ST. unfold sum_by. rcbn. lra.
      * destruct (Nat.eqb_spec i k); [congruence|]. fold (own k cs). split; assumption.
    + destruct (IH bs) as (bs' & R & S); [intros; apply OK; [right|]; assumption|]. exists bs'. split; [exact R|].
      intros k. destruct (S k) as [S1 S2]. split; [exact S1|]. intros A. unfold own. cbn [filter fst].
      destruct (Nat.eqb_spec i k); [congruence|]. apply S2. exact A.
Qed.

Lemma torque_sum (b : Rbody) g dt ps : b_inertia b <> 0 -> sum_by (torque b g dt) ps =
  rcross (rot_apply (p_rot (b_pos b)) (rv (sum_by (fun p => mp_m p * vx (mp_c p)) ps - sum_by mp_m ps * vx (p_lc (b_pos b)))
                                          (sum_by (fun p => mp_m p * vy (mp_c p)) ps - sum_by mp_m ps * vy (p_lc (b_pos b))))) g * dt / b_inertia b.
Proof.
  intros I. induction ps as [|p ps IH]; unfold sum_by in *; cbn [fold_right].
  - unfold rcross, rot_apply, rv. cbn. rcbn. field. exact I.
  - rewrite IH. unfold torque, rcross, rot_apply. ung. rfield. exact I.
Qed.

(** the Gravity field over one step *)
Lemma gravity_step (g : Rv) (dt : R) (bs : nat -> Rbody) (cs : list (nat * Rcoll)) :
  (forall k, body_inv (bs k)) ->
  (forall k, Permutation (own k cs) (b_colliders (bs k))) ->
  (forall k, active (bs k) = true -> b_colliders (bs k) <> [] -> b_inertia (bs k) <> 0) ->
  exists bs', apply_field (gravity_apply g dt) cs bs = Ret bs' /\
  forall k, (active (bs k) = false -> bs' k = bs k) /\
    (active (bs k) = true -> b_colliders (bs k) <> [] ->
       vx (b_vel (bs' k)) = vx (b_vel (bs k)) + vx g * dt /\ vy (b_vel (bs' k)) = vy (b_vel (bs k)) + vy g * dt /\
       b_ang (bs' k) = b_ang (bs k) /\ b_pos (bs' k) = b_pos (bs k)).
Proof.
  intros INV PERM IN.
  assert (MASS : forall k, b_colliders (bs k) <> [] -> b_mass (bs k) <> 0 /\ b_mass (bs k) = sum_by mp_m (props_list (b_colliders (bs k)))).
  { intros k NE. destruct (INV k) as (F & S & _ & _). unfold b_mass. rewrite S.
    destruct (mp_sum_totals _ (props_list_wf _ F)) as (M & _). split; [|exact M]. rewrite M.
    destruct (b_colliders (bs k)) as [|c l]; [congruence|]. inversion F as [|? ? (p & E & P) F']; subst. cbn. rewrite E.
    assert (N0 : 0 <= sum_by mp_m (props_list l)).
    { clear -F'. induction F' as [|x l (q & E & Q) _ IH]; cbn; [lra|]. rewrite E. fold (props_list l) in *. cbn. unfold sum_by in *. rcbn. lra. }
    unfold sum_by in N0. fold (props_list l). rcbn. lra. }
  assert (INOWN : forall i c, In (i, c) cs -> In c (b_colliders (bs i))).
  { intros i c I. apply (Permutation_in c (PERM i)). unfold own. apply in_map_iff. exists (i, c). split; [reflexivity|]. apply filter_In. split; [exact I|]. apply Nat.eqb_refl. }
  destruct (field_run g dt cs bs) as (bs' & R & S).
  { intros i c I A. specialize (INOWN i c I). assert (NE : b_colliders (bs i) <> []) by (intros E; rewrite E in INOWN; destruct INOWN).
    destruct (INV i) as (F & _). split; [rewrite Forall_forall in F; apply F; exact INOWN|]. split; [apply MASS; exact NE|apply IN; assumption]. }
  exists bs'. split; [exact R|]. intros k. destruct (S k) as [S1 S2]. split; [exact S1|]. intros A NE.
  specialize (S2 A). cbv zeta in S2. destruct (MASS k NE) as [M0 M1]. pose proof (IN k A NE) as I0.
  assert (PP : Permutation (props_list (own k cs)) (props_list (b_colliders (bs k)))) by (apply Permutation_map, PERM).
  destruct (INV k) as (F & SP & _ & LC). specialize (LC NE).
  destruct (mp_sum_totals _ (props_list_wf _ F)) as (MT & MX & MY). rewrite <- SP in MT, MX, MY. fold (b_mass (bs k)) in MT, MX, MY.
  rewrite torque_sum in S2 by exact I0. rewrite !(sum_by_perm _ _ _ PP) in S2. rewrite <- MX, <- MY, <- MT, <- LC in S2.
  rewrite S2. unfold set_motion. cbn [b_vel b_ang b_pos]. ung. unfold rcross, rot_apply. cbn [vx vy].
  repeat split; rfield; assumption.
Qed.
