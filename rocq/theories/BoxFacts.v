(** Geometry of bounding boxes: specification ([inside]) and lemmas. *)
From Coq Require Import ZArith List Bool Reals Lra Lia Psatz.
From Verif Require Import Num Box.
Import ListNotations.

(** ** Specification: the points of a box. *)
Section Spec.
Context {N : Num}.

(** [p] is a point of [b]: no coordinate is below the minimum or above the
    maximum. *)
Definition inside (p : vec2) (b : box) : Prop :=
  kltb (vx p) (vx (bmin b)) = false /\ kltb (vx (bmax b)) (vx p) = false /\
  kltb (vy p) (vy (bmin b)) = false /\ kltb (vy (bmax b)) (vy p) = false.

Definition okv (ok : K -> Prop) (v : vec2) : Prop := ok (vx v) /\ ok (vy v).
Definition okbox (ok : K -> Prop) (b : box) : Prop := okv ok (bmin b) /\ okv ok (bmax b).

(** The same set of points. *)
Definition same_points (ok : K -> Prop) (a b : box) : Prop :=
  forall p, okv ok p -> (inside p a <-> inside p b).
(** [a]'s points are points of [b]. *)
Definition subset_points (ok : K -> Prop) (a b : box) : Prop :=
  forall p, okv ok p -> inside p a -> inside p b.
(** A common point. *)
Definition share_point (ok : K -> Prop) (a b : box) : Prop :=
  exists p, okv ok p /\ inside p a /\ inside p b.
End Spec.

(** ** Order lemmas *)
Section Ord.
Context {N : Num} {ok : K -> Prop} {L : OrdLaws N ok}.

Lemma ord_lt_le_trans a b c : ok a -> ok b -> ok c ->
  kltb a b = true -> kltb c b = false -> kltb a c = true.
Proof.
  intros A B C H1 H2. destruct (kltb a c) eqn:E; [reflexivity|].
  rewrite (ord_trans b c a B C A H2 E) in H1. discriminate.
Qed.

Lemma kmin_ok a b : ok a -> ok b -> ok (kmin a b).
Proof. unfold kmin; intros; destruct (kltb b a); assumption. Qed.
Lemma kmax_ok a b : ok a -> ok b -> ok (kmax a b).
Proof. unfold kmax; intros; destruct (kltb a b); assumption. Qed.

(** x is not below min(a,b)  iff  it is not below a or not below b *)
Lemma kmin_ge a b x : ok a -> ok b -> ok x ->
  kltb x (kmin a b) = false <-> kltb x a = false \/ kltb x b = false.
Proof.
  intros A B X. unfold kmin. destruct (kltb b a) eqn:E.
  - split; intros H; [right; exact H|]. destruct H as [H|H]; [|exact H].
    apply (ord_trans b a x); auto. apply ord_asym; auto.
  - split; intros H; [left; exact H|]. destruct H as [H|H]; [exact H|].
    apply (ord_trans a b x); auto.
Qed.
Lemma kmax_le a b x : ok a -> ok b -> ok x ->
  kltb (kmax a b) x = false <-> kltb a x = false \/ kltb b x = false.
Proof.
  intros A B X. unfold kmax. destruct (kltb a b) eqn:E.
  - split; intros H; [right; exact H|]. destruct H as [H|H]; [|exact H].
    apply (ord_trans x a b); auto. apply ord_asym; auto.
  - split; intros H; [left; exact H|]. destruct H as [H|H]; [exact H|].
    apply (ord_trans x b a); auto.
Qed.
Lemma kmin_le_l a b : ok a -> ok b -> kltb a (kmin a b) = false.
Proof. intros; apply kmin_ge; auto. left. apply ord_irrefl; auto. Qed.
Lemma kmin_le_r a b : ok a -> ok b -> kltb b (kmin a b) = false.
Proof. intros; apply kmin_ge; auto. right. apply ord_irrefl; auto. Qed.
Lemma kmax_ge_l a b : ok a -> ok b -> kltb (kmax a b) a = false.
Proof. intros; apply kmax_le; auto. left. apply ord_irrefl; auto. Qed.
Lemma kmax_ge_r a b : ok a -> ok b -> kltb (kmax a b) b = false.
Proof. intros; apply kmax_le; auto. right. apply ord_irrefl; auto. Qed.
Lemma kmin_glb a b x : ok a -> ok b -> ok x ->
  kltb a x = false -> kltb b x = false -> kltb (kmin a b) x = false.
Proof. unfold kmin; intros; destruct (kltb b a); assumption. Qed.
Lemma kmax_lub a b x : ok a -> ok b -> ok x ->
  kltb x a = false -> kltb x b = false -> kltb x (kmax a b) = false.
Proof. unfold kmax; intros; destruct (kltb a b); assumption. Qed.

(** ** Boxes *)
Lemma box_valid_inside b : okbox ok b ->
  box_valid b = true <-> inside (bmin b) b.
Proof.
  intros [[A1 A2] [B1 B2]]. unfold box_valid, vall_ge, inside.
  rewrite andb_true_iff, !negb_true_iff.
  rewrite !ord_irrefl by assumption. tauto.
Qed.

Lemma inside_valid p b : okbox ok b -> okv ok p -> inside p b -> box_valid b = true.
Proof.
  intros [[A1 A2] [B1 B2]] [P1 P2] (H1 & H2 & H3 & H4).
  unfold box_valid, vall_ge. rewrite andb_true_iff, !negb_true_iff. split.
  - apply (ord_trans (vx (bmin b)) (vx p) (vx (bmax b))); auto.
  - apply (ord_trans (vy (bmin b)) (vy p) (vy (bmax b))); auto.
Qed.

Lemma invalid_no_points p b : okbox ok b -> okv ok p -> box_valid b = false -> ~ inside p b.
Proof. intros O P V I. rewrite (inside_valid p b O P I) in V. discriminate. Qed.

Lemma okbox_invalid : okbox ok invalid_box.
Proof. repeat split; cbn; apply ord_ok0 || apply ord_ok1. Qed.
Lemma invalid_box_invalid : box_valid invalid_box = false.
Proof. unfold box_valid, vall_ge, invalid_box. cbn. rewrite ord_01. reflexivity. Qed.
Lemma okbox_combined a b : okbox ok a -> okbox ok b -> okbox ok (box_combined a b).
Proof.
  intros [[A1 A2] [A3 A4]] [[B1 B2] [B3 B4]]. unfold box_combined.
  destruct (negb (box_valid a)); [repeat split; assumption|].
  destruct (negb (box_valid b)); [repeat split; assumption|].
  repeat split; cbn; auto using kmin_ok, kmax_ok.
Qed.

Lemma combined_inside_l a b p : okbox ok a -> okbox ok b -> okv ok p ->
  inside p a -> inside p (box_combined a b).
Proof.
  intros OA OB P I. pose proof (inside_valid p a OA P I) as VA.
  unfold box_combined. rewrite VA. cbn [negb].
  destruct (box_valid b); cbn [negb]; [|exact I].
  destruct OA as [[A1 A2] [A3 A4]], OB as [[B1 B2] [B3 B4]], P as [P1 P2].
  destruct I as (I1 & I2 & I3 & I4).
  repeat split; cbn; (apply kmin_ge || apply kmax_le); auto.
Qed.
Lemma combined_inside_r a b p : okbox ok a -> okbox ok b -> okv ok p ->
  inside p b -> inside p (box_combined a b).
Proof.
  intros OA OB P I. pose proof (inside_valid p b OB P I) as VB.
  unfold box_combined. rewrite VB. cbn [negb].
  destruct (box_valid a); cbn [negb]; [|exact I].
  destruct OA as [[A1 A2] [A3 A4]], OB as [[B1 B2] [B3 B4]], P as [P1 P2].
  destruct I as (I1 & I2 & I3 & I4).
  repeat split; cbn; (apply kmin_ge || apply kmax_le); auto.
Qed.

Lemma subset_coords a c : okbox ok a -> okbox ok c -> box_valid a = true ->
  subset_points ok a c <->
  (kltb (vx (bmin a)) (vx (bmin c)) = false /\ kltb (vy (bmin a)) (vy (bmin c)) = false /\
   kltb (vx (bmax c)) (vx (bmax a)) = false /\ kltb (vy (bmax c)) (vy (bmax a)) = false).
Proof.
  intros [[A1 A2] [A3 A4]] [[C1 C2] [C3 C4]] V.
  unfold box_valid, vall_ge in V. rewrite andb_true_iff, !negb_true_iff in V.
  destruct V as [V1 V2]. split.
  - intros S.
    assert (Hmin : inside (bmin a) c).
    { apply S; [split; assumption|]. repeat split; auto; apply ord_irrefl; auto. }
    assert (Hmax : inside (bmax a) c).
    { apply S; [split; assumption|]. repeat split; auto; apply ord_irrefl; auto. }
    destruct Hmin as (M1 & M2 & M3 & M4), Hmax as (X1 & X2 & X3 & X4). auto.
  - intros (H1 & H2 & H3 & H4) p [P1 P2] (I1 & I2 & I3 & I4).
    repeat split.
    + apply (ord_trans (vx (bmin c)) (vx (bmin a)) (vx p)); auto.
    + apply (ord_trans (vx p) (vx (bmax a)) (vx (bmax c))); auto.
    + apply (ord_trans (vy (bmin c)) (vy (bmin a)) (vy p)); auto.
    + apply (ord_trans (vy p) (vy (bmax a)) (vy (bmax c))); auto.
Qed.

Lemma combined_least a b c : okbox ok a -> okbox ok b -> okbox ok c ->
  subset_points ok a c -> subset_points ok b c -> subset_points ok (box_combined a b) c.
Proof.
  intros OA OB OC SA SB. unfold box_combined.
  destruct (box_valid a) eqn:VA; cbn [negb]; [|exact SB].
  destruct (box_valid b) eqn:VB; cbn [negb]; [|exact SA].
  apply (subset_coords a c OA OC VA) in SA. apply (subset_coords b c OB OC VB) in SB.
  destruct OA as [[A1 A2] [A3 A4]], OB as [[B1 B2] [B3 B4]].
  assert (O' : okbox ok (Box (vmin (bmin a) (bmin b)) (vmax (bmax a) (bmax b)))).
  { repeat split; cbn; auto using kmin_ok, kmax_ok. }
  destruct SA as (S1 & S2 & S3 & S4), SB as (T1 & T2 & T3 & T4).
  pose proof OC as OC'. destruct OC as [[C1 C2] [C3 C4]].
  apply subset_coords; auto.
  - unfold box_valid, vall_ge in *. cbn. rewrite andb_true_iff, !negb_true_iff in *.
    destruct VA as [VA1 VA2]. split.
    + apply (ord_trans _ (vx (bmin a)) _); auto using kmin_ok, kmax_ok.
      * apply kmin_le_l; auto.
      * apply kmax_le; auto.
    + apply (ord_trans _ (vy (bmin a)) _); auto using kmin_ok, kmax_ok.
      * apply kmin_le_l; auto.
      * apply kmax_le; auto.
  - cbn. repeat split; (apply kmin_glb || apply kmax_lub); auto.
Qed.

Lemma same_points_refl a : same_points ok a a.
Proof. intros p _. tauto. Qed.
Lemma same_points_sym a b : same_points ok a b -> same_points ok b a.
Proof. intros H p P. rewrite (H p P). tauto. Qed.
Lemma same_points_trans a b c : same_points ok a b -> same_points ok b c -> same_points ok a c.
Proof. intros H1 H2 p P. rewrite (H1 p P). auto. Qed.

Lemma same_subset a b : same_points ok a b <-> subset_points ok a b /\ subset_points ok b a.
Proof.
  split.
  - intros H; split; intros p P I; apply (H p P); exact I.
  - intros [H1 H2] p P; split; [apply H1|apply H2]; exact P.
Qed.

Lemma same_points_valid a b : okbox ok a -> okbox ok b ->
  same_points ok a b -> box_valid a = box_valid b.
Proof.
  intros OA OB S.
  destruct (box_valid a) eqn:VA; destruct (box_valid b) eqn:VB; auto.
  - apply (box_valid_inside a OA) in VA. apply S in VA; [|apply OA].
    rewrite (inside_valid _ _ OB (proj1 OA) VA) in VB. discriminate.
  - apply (box_valid_inside b OB) in VB. apply S in VB; [|apply OB].
    rewrite (inside_valid _ _ OA (proj1 OB) VB) in VA. discriminate.
Qed.

Lemma vall_eq_spec a b : okv ok a -> okv ok b ->
  vall_eq a b = true <->
  (kltb (vx a) (vx b) = false /\ kltb (vx b) (vx a) = false /\
   kltb (vy a) (vy b) = false /\ kltb (vy b) (vy a) = false).
Proof.
  intros [A1 A2] [B1 B2]. unfold vall_eq.
  rewrite !ord_eqb by assumption.
  rewrite !andb_true_iff, !negb_true_iff. tauto.
Qed.

(** BoundingBox::operator== decides equality of point sets. *)
Lemma box_eqb_spec a b : okbox ok a -> okbox ok b ->
  box_eqb a b = true <-> same_points ok a b.
Proof.
  intros OA OB. unfold box_eqb.
  destruct (box_valid a) eqn:VA; destruct (box_valid b) eqn:VB; cbn [negb andb].
  - rewrite same_subset, (subset_coords a b OA OB VA), (subset_coords b a OB OA VB).
    rewrite andb_true_iff, (vall_eq_spec (bmin a)), (vall_eq_spec (bmax a));
      [tauto|apply OA|apply OB|apply OA|apply OB].
  - split; [|intros S; apply (same_points_valid a b OA OB) in S; congruence].
    rewrite andb_true_iff, (vall_eq_spec (bmin a)), (vall_eq_spec (bmax a));
      [|apply OA|apply OB|apply OA|apply OB].
    intros [H1 H2]. exfalso.
    destruct OA as [[A1 A2] [A3 A4]], OB as [[B1 B2] [B3 B4]].
    unfold box_valid, vall_ge in VA, VB.
    rewrite andb_true_iff, !negb_true_iff in VA.
    destruct H1 as (h1 & h2 & h3 & h4), H2 as (h5 & h6 & h7 & h8), VA as [V1 V2].
    rewrite (ord_trans (vx (bmin b)) (vx (bmax a)) (vx (bmax b))) in VB; auto.
    rewrite (ord_trans (vy (bmin b)) (vy (bmax a)) (vy (bmax b))) in VB; auto.
    + discriminate.
    + apply (ord_trans (vy (bmin b)) (vy (bmin a)) (vy (bmax a))); auto.
    + apply (ord_trans (vx (bmin b)) (vx (bmin a)) (vx (bmax a))); auto.
  - split; [|intros S; apply (same_points_valid a b OA OB) in S; congruence].
    rewrite andb_true_iff, (vall_eq_spec (bmin a)), (vall_eq_spec (bmax a));
      [|apply OA|apply OB|apply OA|apply OB].
    intros [H1 H2]. exfalso.
    destruct OA as [[A1 A2] [A3 A4]], OB as [[B1 B2] [B3 B4]].
    unfold box_valid, vall_ge in VA, VB.
    rewrite andb_true_iff, !negb_true_iff in VB.
    destruct H1 as (h1 & h2 & h3 & h4), H2 as (h5 & h6 & h7 & h8), VB as [V1 V2].
    rewrite (ord_trans (vx (bmin a)) (vx (bmax b)) (vx (bmax a))) in VA; auto.
    rewrite (ord_trans (vy (bmin a)) (vy (bmax b)) (vy (bmax a))) in VA; auto.
    + discriminate.
    + apply (ord_trans (vy (bmin a)) (vy (bmin b)) (vy (bmax b))); auto.
    + apply (ord_trans (vx (bmin a)) (vx (bmin b)) (vx (bmax b))); auto.
  - split; [|reflexivity]. intros _ p P. split; intros I; exfalso.
    + exact (invalid_no_points p a OA P VA I).
    + exact (invalid_no_points p b OB P VB I).
Qed.

Lemma combined_subset_l a b : okbox ok a -> okbox ok b -> subset_points ok a (box_combined a b).
Proof. intros OA OB p P I. apply combined_inside_l; auto. Qed.
Lemma combined_subset_r a b : okbox ok a -> okbox ok b -> subset_points ok b (box_combined a b).
Proof. intros OA OB p P I. apply combined_inside_r; auto. Qed.

Lemma subset_trans a b c : subset_points ok a b -> subset_points ok b c -> subset_points ok a c.
Proof. intros H1 H2 p P I. apply H2; auto. Qed.

Lemma combined_comm a b : okbox ok a -> okbox ok b ->
  same_points ok (box_combined a b) (box_combined b a).
Proof.
  intros OA OB. apply same_subset. split; apply combined_least;
    auto using okbox_combined, combined_subset_l, combined_subset_r.
Qed.
Lemma combined_assoc a b c : okbox ok a -> okbox ok b -> okbox ok c ->
  same_points ok (box_combined a (box_combined b c)) (box_combined (box_combined a b) c).
Proof.
  intros OA OB OC. apply same_subset. split.
  - apply combined_least; auto using okbox_combined.
    + eapply subset_trans; [apply combined_subset_l|apply combined_subset_l]; auto using okbox_combined.
    + apply combined_least; auto using okbox_combined.
      * eapply subset_trans; [apply combined_subset_r|apply combined_subset_l]; auto using okbox_combined.
      * apply combined_subset_r; auto using okbox_combined.
  - apply combined_least; auto using okbox_combined.
    + apply combined_least; auto using okbox_combined.
      * apply combined_subset_l; auto using okbox_combined.
      * eapply subset_trans; [apply combined_subset_l|apply combined_subset_r]; auto using okbox_combined.
    + eapply subset_trans; [apply combined_subset_r|apply combined_subset_r]; auto using okbox_combined.
Qed.
Lemma combined_idem a : okbox ok a -> same_points ok (box_combined a a) a.
Proof.
  intros OA. apply same_subset. split.
  - apply combined_least; auto; intros p P I; exact I.
  - apply combined_subset_l; auto.
Qed.
Lemma combined_invalid_l a b : box_valid a = false -> box_combined a b = b.
Proof. unfold box_combined; intros ->; reflexivity. Qed.
Lemma combined_invalid_r a b : okbox ok a -> okbox ok b -> box_valid b = false ->
  same_points ok (box_combined a b) a.
Proof.
  unfold box_combined; intros OA OB V. rewrite V. cbn [negb].
  destruct (box_valid a) eqn:E; cbn [negb]; [apply same_points_refl|].
  apply box_eqb_spec; auto. unfold box_eqb. rewrite V, E. reflexivity.
Qed.
Lemma combined_same a a' b b' : okbox ok a -> okbox ok a' -> okbox ok b -> okbox ok b' ->
  same_points ok a a' -> same_points ok b b' ->
  same_points ok (box_combined a b) (box_combined a' b').
Proof.
  intros OA OA' OB OB' SA SB. apply same_subset in SA, SB. destruct SA, SB.
  apply same_subset. split; apply combined_least; auto using okbox_combined.
  - eapply subset_trans; [eassumption|]. apply combined_subset_l; auto.
  - eapply subset_trans; [eassumption|]. apply combined_subset_r; auto.
  - eapply subset_trans; [eassumption|]. apply combined_subset_l; auto.
  - eapply subset_trans; [eassumption|]. apply combined_subset_r; auto.
Qed.

(** BoundingBox::contains is containment of non-empty point sets. *)
Lemma box_contains_spec a b : okbox ok a -> okbox ok b ->
  box_contains a b = true <->
  (box_valid a = true /\ box_valid b = true /\ subset_points ok b a).
Proof.
  intros OA OB. unfold box_contains.
  destruct (box_valid a) eqn:VA; cbn [negb orb]; [|split; [discriminate|intros [H _]; discriminate]].
  destruct (box_valid b) eqn:VB; cbn [negb orb]; [|split; [discriminate|intros [_ [H _]]; discriminate]].
  rewrite box_eqb_spec by auto using okbox_combined.
  rewrite same_subset. split.
  - intros [S1 S2]. split; [reflexivity|split; [reflexivity|]].
    eapply subset_trans; [|exact S1]. apply combined_subset_r; auto.
  - intros (_ & _ & S). split; [|apply combined_subset_l; auto].
    apply combined_least; auto. intros p P I; exact I.
Qed.

(** ** Vertex-range constructor *)
Definition step_box (b : box) (p : vec2) := Box (vmin (bmin b) p) (vmax (bmax b) p).

Lemma step_box_combined b p : okbox ok b -> okv ok p -> box_valid b = true ->
  step_box b p = box_combined b (Box p p).
Proof.
  intros OB [P1 P2] V. unfold box_combined, step_box. rewrite V. cbn [negb].
  assert (VP : box_valid (Box p p) = true).
  { unfold box_valid, vall_ge. cbn. rewrite !ord_irrefl by assumption. reflexivity. }
  rewrite VP. reflexivity.
Qed.
Lemma point_box_valid p : okv ok p -> box_valid (Box p p) = true.
Proof. intros [P1 P2]. unfold box_valid, vall_ge. cbn. rewrite !ord_irrefl by assumption. reflexivity. Qed.

Lemma fold_step_spec vs : forall b, okbox ok b -> box_valid b = true -> Forall (okv ok) vs ->
  let r := fold_left step_box vs b in
  okbox ok r /\ box_valid r = true /\ subset_points ok b r /\
  (forall v, In v vs -> inside v r) /\
  (forall c, okbox ok c -> subset_points ok b c -> (forall v, In v vs -> inside v c) ->
             subset_points ok r c).
Proof.
  induction vs as [|v vs IH]; intros b OB VB OVS; cbn [fold_left].
  - cbn zeta. split; [exact OB|]. split; [exact VB|]. split; [intros p P I; exact I|].
    split; [intros ? []|]. intros c _ S _; exact S.
  - inversion OVS as [|? ? OV OVS']; subst.
    assert (OP : okbox ok (Box v v)) by (split; exact OV).
    assert (E : step_box b v = box_combined b (Box v v)) by (apply step_box_combined; auto).
    assert (IV : inside v (Box v v)).
    { destruct OV. repeat split; cbn; apply ord_irrefl; auto. }
    assert (I' : inside v (step_box b v)).
    { rewrite E. apply combined_inside_r; auto. }
    assert (O' : okbox ok (step_box b v)) by (rewrite E; apply okbox_combined; auto).
    assert (V' : box_valid (step_box b v) = true) by (apply (inside_valid v); auto).
    specialize (IH (step_box b v) O' V' OVS'). cbn zeta in IH.
    destruct IH as (R1 & R2 & R3 & R4 & R5). cbn zeta.
    split; [exact R1|]. split; [exact R2|]. split.
    { eapply subset_trans; [|exact R3]. rewrite E. apply combined_subset_l; auto. }
    split.
    + intros w [->|W]; [apply R3; auto|apply R4; auto].
    + intros c OC SC HV. apply R5; auto.
      * rewrite E. apply combined_least; auto.
        intros p P Ip. destruct OC as [[c1 c2] [c3 c4]]. destruct OV as [v1 v2], P as [p1 p2].
        destruct (HV v (or_introl eq_refl)) as (h1 & h2 & h3 & h4).
        destruct Ip as (i1 & i2 & i3 & i4). cbn in *. repeat split.
        -- apply (ord_trans _ (vx v) _); auto.
        -- apply (ord_trans _ (vx v) _); auto.
        -- apply (ord_trans _ (vy v) _); auto.
        -- apply (ord_trans _ (vy v) _); auto.
      * intros w W. apply HV. right; exact W.
Qed.

Lemma box_of_vertices_spec vs b : Forall (okv ok) vs -> box_of_vertices vs = Some b ->
  okbox ok b /\ (forall v, In v vs -> inside v b) /\
  (forall c, okbox ok c -> (forall v, In v vs -> inside v c) -> subset_points ok b c).
Proof.
  destruct vs as [|v vs]; [discriminate|]. intros O E. cbn [box_of_vertices] in E.
  inversion O as [|? ? OV OVS]; subst.
  assert (OP : okbox ok (Box v v)) by (split; exact OV).
  pose proof (fold_step_spec vs (Box v v) OP (point_box_valid v OV) OVS) as S.
  cbn zeta in S. unfold step_box in S. injection E as <-.
  destruct S as (R1 & R2 & R3 & R4 & R5). split; [exact R1|]. split.
  - intros w [<-|W]; [|auto]. apply R3; auto. destruct OV. repeat split; cbn; apply ord_irrefl; auto.
  - intros c OC HV. apply R5; auto.
    + intros p P Ip. destruct OC as [[c1 c2] [c3 c4]]. destruct OV as [v1 v2], P as [p1 p2].
      destruct (HV v (or_introl eq_refl)) as (h1 & h2 & h3 & h4).
      destruct Ip as (i1 & i2 & i3 & i4). cbn in *. repeat split.
      * apply (ord_trans _ (vx v) _); auto.
      * apply (ord_trans _ (vx v) _); auto.
      * apply (ord_trans _ (vy v) _); auto.
      * apply (ord_trans _ (vy v) _); auto.
    + intros w W. apply HV. right; exact W.
Qed.

(** Each side of the box is the coordinate of some vertex (for any arithmetic). *)
Lemma fold_step_attained vs : forall b,
  let r := fold_left step_box vs b in
  (vx (bmin r) = vx (bmin b) \/ exists v, In v vs /\ vx (bmin r) = vx v) /\
  (vy (bmin r) = vy (bmin b) \/ exists v, In v vs /\ vy (bmin r) = vy v) /\
  (vx (bmax r) = vx (bmax b) \/ exists v, In v vs /\ vx (bmax r) = vx v) /\
  (vy (bmax r) = vy (bmax b) \/ exists v, In v vs /\ vy (bmax r) = vy v).
Proof.
  clear L ok. induction vs as [|v vs IH]; intros b; cbn [fold_left]; cbn zeta; [auto|].
  specialize (IH (step_box b v)). cbn zeta in IH. destruct IH as (H1 & H2 & H3 & H4).
  set (r := fold_left step_box vs (step_box b v)) in *. clearbody r.
  unfold step_box in H1, H2, H3, H4.
  cbn [bmin bmax vmin vmax vx vy] in H1, H2, H3, H4. unfold kmin, kmax in *.
  split; [|split; [|split]].
  - destruct H1 as [E|(w & W & E)]; [|right; exists w; split; [right; exact W|exact E]].
    destruct (kltb (vx v) (vx (bmin b))); [right; exists v; split; [left; reflexivity|exact E]|left; exact E].
  - destruct H2 as [E|(w & W & E)]; [|right; exists w; split; [right; exact W|exact E]].
    destruct (kltb (vy v) (vy (bmin b))); [right; exists v; split; [left; reflexivity|exact E]|left; exact E].
  - destruct H3 as [E|(w & W & E)]; [|right; exists w; split; [right; exact W|exact E]].
    destruct (kltb (vx (bmax b)) (vx v)); [right; exists v; split; [left; reflexivity|exact E]|left; exact E].
  - destruct H4 as [E|(w & W & E)]; [|right; exists w; split; [right; exact W|exact E]].
    destruct (kltb (vy (bmax b)) (vy v)); [right; exists v; split; [left; reflexivity|exact E]|left; exact E].
Qed.
Lemma box_of_vertices_attained vs b : box_of_vertices vs = Some b ->
  (exists v, In v vs /\ vx (bmin b) = vx v) /\ (exists v, In v vs /\ vy (bmin b) = vy v) /\
  (exists v, In v vs /\ vx (bmax b) = vx v) /\ (exists v, In v vs /\ vy (bmax b) = vy v).
Proof.
  clear L ok. destruct vs as [|v vs]; [discriminate|]. intros E. cbn [box_of_vertices] in E.
  pose proof (fold_step_attained vs (Box v v)) as S. cbn zeta in S. unfold step_box in S.
  injection E as <-. cbn [bmin bmax] in S.
  destruct S as (H1 & H2 & H3 & H4).
  split; [|split; [|split]].
  - destruct H1 as [E|(w & W & E)]; [exists v|exists w]; split; cbn; auto.
  - destruct H2 as [E|(w & W & E)]; [exists v|exists w]; split; cbn; auto.
  - destruct H3 as [E|(w & W & E)]; [exists v|exists w]; split; cbn; auto.
  - destruct H4 as [E|(w & W & E)]; [exists v|exists w]; split; cbn; auto.
Qed.

End Ord.
