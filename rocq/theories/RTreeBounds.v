(** Bounds of internal nodes: the union of the bounds below. *)
From stdpp Require Import base option list gmap fin_maps sorting.
From Verif Require Import Num Outcome Algo Box BoxFacts BoxOverlap RTree RTreeFun RTreeHeap RTreeRot RTreeRefit RTreeEdit RTreeExtract RTreeInsert RTreeIter RTreeOverlap RTreeCollide RTreeUpdate RTreeOps.

(** A class of boxes closed under union. *)
Class BoxClass (N : Num) (ok : K -> Prop) (P : box -> Prop) := {
  bc_ok : forall b, P b -> okbox ok b;
  bc_invalid : P invalid_box;
  bc_combined : forall a b, P a -> P b -> P (box_combined a b)
}.
Global Instance overlap_class N ok P : OverlapLaws N ok P -> BoxClass N ok P.
Proof. intros L. constructor; apply L. Qed.
Lemma okbox_class N ok : OrdLaws N ok -> BoxClass N ok (okbox ok).
Proof. intros L. constructor; auto using okbox_combined, okbox_invalid. Qed.

Section Bounds.
Context {N : Num} {ok : K -> Prop} {OL : OrdLaws N ok} {P : box -> Prop} {BC : BoxClass N ok P}.
Implicit Types (p q g : ptr) (t u v : tree) (c : ctx).
Notation "a ~~ b" := (same_points ok a b) (at level 70).

Lemma sp_refl a : a ~~ a. Proof. apply same_points_refl. Qed.
Lemma sp_sym a b : a ~~ b -> b ~~ a. Proof. apply same_points_sym. Qed.
Lemma sp_trans a b (c : box) : a ~~ b -> b ~~ c -> a ~~ c. Proof. apply same_points_trans. Qed.
Lemma sp_comb a a' b b' : P a -> P a' -> P b -> P b' -> a ~~ a' -> b ~~ b' -> box_combined a b ~~ box_combined a' b'.
Proof. intros. apply combined_same; auto using bc_ok. Qed.
Lemma sp_comm a b : P a -> P b -> box_combined a b ~~ box_combined b a.
Proof. intros. apply combined_comm; auto using bc_ok. Qed.
Lemma sp_assoc a b (c : box) : P a -> P b -> P c -> box_combined a (box_combined b c) ~~ box_combined (box_combined a b) c.
Proof. intros. apply combined_assoc; auto using bc_ok. Qed.

(** bounds equal to the union of the children's bounds, everywhere *)
Fixpoint good t : Prop :=
  match t with
  | Nil => True
  | Leaf _ b _ => P b
  | Bin _ b l r => P b /\ b ~~ box_combined (tbnd l) (tbnd r) /\ good l /\ good r
  end.
Lemma good_P t : good t -> P (tbnd t).
Proof. destruct t; cbn; [intros _; apply bc_invalid|auto|tauto]. Qed.
(** the same above a hole whose occupant has bounds [bh] *)
Fixpoint cgood (bh : box) c : Prop :=
  match c with
  | CTop => True
  | CIn s _ b sib c => P b /\ b ~~ box_combined bh (tbnd sib) /\ good sib /\ cgood b c
  end.
Lemma good_mk s p b t sib : P (tbnd t) -> good sib ->
  good (mk s p b t sib) <-> P b /\ b ~~ box_combined (tbnd t) (tbnd sib) /\ good t.
Proof.
  intros Pt Gs. pose proof (good_P _ Gs). destruct s; cbn; [tauto|].
  assert (X : b ~~ box_combined (tbnd sib) (tbnd t) <-> b ~~ box_combined (tbnd t) (tbnd sib)).
  { split; intros Y; (eapply sp_trans; [exact Y|]); apply sp_comm; auto. }
  tauto.
Qed.
Lemma tbnd_mk s p b t sib : tbnd (mk s p b t sib) = b.
Proof. destruct s; reflexivity. Qed.
Lemma good_mk_sub s p b t sib : good (mk s p b t sib) -> good t /\ good sib.
Proof. destruct s; cbn; tauto. Qed.

Lemma cgood_same b b' c : P b -> P b' -> b ~~ b' -> cgood b c -> cgood b' c.
Proof.
  intros Pb Pb' S. destruct c as [|s p bb sib c]; [auto|]. cbn. intros (A1 & A2 & A3 & A4).
  split; [exact A1|]. split; [|auto]. eapply sp_trans; [exact A2|]. pose proof (good_P _ A3).
  apply sp_comb; auto using sp_refl.
Qed.
Lemma good_plug c : forall t, good (plug t c) <-> good t /\ cgood (tbnd t) c.
Proof.
  induction c as [|s p b sib c IH]; intros t; cbn [plug cgood]; [tauto|].
  rewrite IH, tbnd_mk. split.
  - intros [G1 G2]. destruct (good_mk_sub _ _ _ _ _ G1) as [Gt Gs]. pose proof (good_P _ Gt).
    apply good_mk in G1; auto. tauto.
  - intros (Gt & Pb & S & Gs & C). pose proof (good_P _ Gt). rewrite good_mk by auto. tauto.
Qed.

Lemma rotate_good sl u v : good u -> good v ->
  good (rotate sl u v).1 /\ good (rotate sl u v).2 /\
  box_combined (tbnd (rotate sl u v).1) (tbnd (rotate sl u v).2) ~~ box_combined (tbnd u) (tbnd v).
Proof.
  intros Gu Gv. assert (D : good u /\ good v /\ box_combined (tbnd u) (tbnd v) ~~ box_combined (tbnd u) (tbnd v)) by auto using sp_refl.
  unfold rotate. destruct u as [|pu bu du|pu bu lu ru]; [exact D|..];
    (destruct v as [|pv bv dv|pv bv a b]; [exact D|exact D|]);
    (destruct (kltb _ _); [|exact D]); clear D;
    match goal with |- context [mk sl pv _ ?w _] => set (u := w) in * end;
    cbn [fst snd]; cbn [good] in Gv; destruct Gv as (Pv & Sv & Ga & Gb);
    pose proof (good_P _ Gu) as Pu; pose proof (good_P _ Ga) as Pa; pose proof (good_P _ Gb) as Pb;
    change (tbnd (Bin pv bv a b)) with bv; clearbody u;
    (split; [destruct sl; assumption|]); rewrite tbnd_mk;
    (split; [apply good_mk; [exact Pu|destruct sl; assumption|]; split; [apply bc_combined; destruct sl; assumption|];
       split; [apply sp_comm; destruct sl; assumption|exact Gu]|]);
    (eapply sp_trans; [|apply sp_comb; [exact Pu|exact Pu| |exact Pv|apply sp_refl|apply sp_sym; exact Sv]; apply bc_combined; assumption]);
    destruct sl.
  (* x=a,y=b: a+(b+u) ~ u+(a+b) *)
  1,3: (eapply sp_trans; [apply sp_assoc; assumption|]; apply sp_comm; [apply bc_combined|]; assumption).
  all: (eapply sp_trans; [apply sp_assoc; assumption|]; eapply sp_trans;
    [apply sp_comm; [apply bc_combined; assumption|assumption]|]; apply sp_comb; auto using sp_refl, bc_combined;
    apply sp_comm; assumption).
Qed.
Lemma rots_good l r : good l -> good r ->
  good (rots l r).1 /\ good (rots l r).2 /\
  box_combined (tbnd (rots l r).1) (tbnd (rots l r).2) ~~ box_combined (tbnd l) (tbnd r).
Proof.
  intros Gl Gr. unfold rots. cbn [fst snd].
  destruct (rotate_good L l r) as (A1 & A2 & A3); auto. set (a := rotate L l r) in *.
  destruct (rotate_good R a.1 a.2) as (B1 & B2 & B3); auto. set (b := rotate R a.1 a.2) in *.
  destruct (rotate_good L b.2 b.1) as (C1 & C2 & C3); auto. set (c := rotate L b.2 b.1) in *.
  destruct (rotate_good R c.1 c.2) as (D1 & D2 & D3); auto.
  split; [exact D2|]. split; [exact D1|].
  eapply sp_trans; [apply sp_comm; apply good_P; assumption|].
  eapply sp_trans; [exact D3|]. eapply sp_trans; [exact C3|].
  eapply sp_trans; [apply sp_comm; apply good_P; assumption|].
  eapply sp_trans; [exact B3|exact A3].
Qed.

Lemma refitN_good c : forall p b l r, P b -> good l -> good r -> cgood b c -> good (refitN p b l r c).
Proof.
  induction c as [|s q bq sib c IH]; intros p b l r Pb Gl Gr C; rewrite refitN_eq; cbn zeta;
    pose proof (good_P _ Gl) as Pl; pose proof (good_P _ Gr) as Pr;
    destruct (box_eqb _ b) eqn:Eb.
  1,3: apply good_plug; cbn [tbnd good]; (split; [|exact C]);
    (split; [exact Pb|]); (split; [|auto]); apply sp_sym; apply box_eqb_spec; auto using bc_ok, bc_combined.
  - destruct (rots_good l r) as (A1 & A2 & A3); auto. cbn [refitF good].
    split; [apply bc_combined; assumption|]. split; [apply sp_sym; exact A3|auto].
  - destruct (rots_good l r) as (A1 & A2 & A3); auto.
    destruct C as (Pq & Sq & Gs & C).
    assert (G' : good (Bin p (box_combined (tbnd l) (tbnd r)) (rots l r).1 (rots l r).2)).
    { cbn [good]. split; [apply bc_combined; assumption|]. split; [apply sp_sym; exact A3|auto]. }
    destruct s; cbn [refitF]; apply IH; assumption.
Qed.
Lemma refitF_good t b c : P b -> good t -> cgood b c -> good (refitF t c).
Proof.
  intros Pb Gt C. destruct c as [|s q bq sib c]; [exact Gt|]. destruct C as (Pq & Sq & Gs & C).
  destruct s; cbn [refitF]; apply refitN_good; assumption.
Qed.

Lemma addLeafF_good np u leaf c : good leaf -> good (plug u c) -> u <> Nil -> good (addLeafF np u leaf c).
Proof.
  intros GL G NU. apply good_plug in G. destruct G as [Gu C]. pose proof (good_P _ Gu) as Pu. pose proof (good_P _ GL) as PL.
  destruct u as [|p b d|p b tl tr]; [congruence| |].
  - cbn [addLeafF tbnd] in *. apply (refitF_good _ b); auto. cbn [good tbnd].
    split; [apply bc_combined; assumption|]. split; [apply sp_refl|auto].
  - cbn [addLeafF tbnd] in *. cbn [good] in Gu. destruct Gu as (_ & S & G1 & G2).
    destruct tl as [|? ? ?|? ? ? ?]; [|destruct tr..]; apply refitN_good; auto; cbn [good]; auto.
Qed.
Lemma extractF_good c p b d : good (plug (Leaf p b d) c) -> good (extractF c).
Proof.
  intros G. apply good_plug in G. destruct G as [Gu C]. destruct c as [|s g gb sib c]; [exact I|].
  destruct C as (Pg & S & Gs & C). destruct c as [|s2 g2 gb2 sib2 c].
  - cbn [extractF]. destruct sib as [|? ? ?|? ? ? ?], s; apply refitN_good; auto; cbn [good] in Gs |- *; tauto.
  - cbn [extractF]. apply (refitF_good _ gb); assumption.
Qed.

(** ** Union of leaves *)
Definition leafP (x : ptr * box * ptr) : Prop := P (lbnd x).
Lemma lunion_acc l : forall acc, P acc -> Forall leafP l ->
  P (fold_left (fun acc x => box_combined acc (lbnd x)) l acc) /\
  fold_left (fun acc x => box_combined acc (lbnd x)) l acc ~~ box_combined acc (lunion l).
Proof.
  induction l as [|x l IH]; intros acc Pa F; cbn [fold_left].
  - split; [exact Pa|]. apply sp_sym. apply (combined_invalid_r acc invalid_box); auto using bc_ok, bc_invalid.
    apply invalid_box_invalid.
  - apply Forall_cons in F as [Px F]. destruct (IH (box_combined acc (lbnd x))) as [I1 I2]; auto using bc_combined.
    split; [exact I1|]. eapply sp_trans; [exact I2|].
    destruct (IH invalid_box bc_invalid F) as [PI _].
    unfold lunion at 2. cbn [fold_left].
    destruct (IH (box_combined invalid_box (lbnd x))) as [J1 J2]; auto using bc_combined, bc_invalid.
    eapply sp_trans; [apply sp_sym, sp_assoc; auto|]. apply sp_comb; auto using sp_refl, bc_combined.
    eapply sp_trans; [|apply sp_sym; exact J2].
    rewrite (combined_invalid_l invalid_box) by apply invalid_box_invalid. apply sp_refl.
Qed.
Lemma lunion_P l : Forall leafP l -> P (lunion l).
Proof. intros F. apply (lunion_acc l invalid_box bc_invalid F). Qed.
Lemma lunion_cons x l : leafP x -> Forall leafP l -> lunion (x :: l) ~~ box_combined (lbnd x) (lunion l).
Proof.
  intros Px F. unfold lunion at 1. cbn [fold_left].
  rewrite (combined_invalid_l invalid_box) by apply invalid_box_invalid. apply lunion_acc; auto.
Qed.
Lemma lunion_app l1 l2 : Forall leafP l1 -> Forall leafP l2 ->
  lunion (l1 ++ l2) ~~ box_combined (lunion l1) (lunion l2).
Proof.
  intros F1 F2. unfold lunion at 1. rewrite fold_left_app. apply lunion_acc; [apply lunion_P; exact F1|exact F2].
Qed.
Lemma lunion_perm l1 l2 : Forall leafP l1 -> l1 ≡ₚ l2 -> lunion l1 ~~ lunion l2.
Proof.
  intros F Pm. assert (F2 : Forall leafP l2) by (rewrite <- Pm; exact F). revert F F2.
  induction Pm as [|x l1 l2 Pm IH|x y l|l1 l2 l3 P1 IH1 P2 IH2]; intros F1 F2.
  - apply sp_refl.
  - apply Forall_cons in F1 as [Px F1]. apply Forall_cons in F2 as [_ F2].
    eapply sp_trans; [apply lunion_cons; auto|]. eapply sp_trans; [|apply sp_sym, lunion_cons; auto].
    apply sp_comb; auto using sp_refl, lunion_P.
  - apply Forall_cons in F1 as [Py F1]. apply Forall_cons in F1 as [Px F1].
    eapply sp_trans; [apply lunion_cons; auto|]. eapply sp_trans; [|apply sp_sym, lunion_cons; auto].
    assert (PL := lunion_P _ F1).
    eapply sp_trans; [apply sp_comb; [exact Py|exact Py| |apply bc_combined; [exact Px|exact PL]|apply sp_refl|apply lunion_cons; auto]; apply lunion_P; constructor; auto|].
    eapply sp_trans; [|apply sp_comb; [exact Px|exact Px|apply bc_combined; [exact Py|exact PL]| |apply sp_refl|apply sp_sym, lunion_cons; auto]; apply lunion_P; constructor; auto].
    eapply sp_trans; [apply sp_assoc; auto|]. eapply sp_trans; [|apply sp_sym, sp_assoc; auto].
    apply sp_comb; auto using sp_refl, bc_combined. apply sp_comm; auto.
  - assert (F3 : Forall leafP l2) by (rewrite <- P1; exact F1). eapply sp_trans; eauto.
Qed.

Lemma good_leaves t : good t -> Forall leafP (leaves t) /\ tbnd t ~~ lunion (leaves t).
Proof.
  induction t as [|p b d|p b l IHl r IHr]; cbn [good leaves tbnd].
  - intros _. split; [constructor|apply sp_refl].
  - intros Pb. split; [repeat constructor; exact Pb|]. unfold lunion. cbn [fold_left lbnd fst snd].
    rewrite (combined_invalid_l invalid_box) by apply invalid_box_invalid. apply sp_refl.
  - intros (Pb & S & Gl & Gr). destruct (IHl Gl) as [Fl Sl]. destruct (IHr Gr) as [Fr Sr].
    split; [apply Forall_app; auto|]. eapply sp_trans; [exact S|].
    eapply sp_trans; [apply sp_comb; [| | | |exact Sl|exact Sr]; auto using good_P, lunion_P|].
    apply sp_sym, lunion_app; auto.
Qed.
Lemma ub_good t : Forall leafP (leaves t) -> RTreeCollide.ub t -> good t.
Proof.
  induction t as [|p b d|p b l IHl r IHr]; cbn [good leaves RTreeCollide.ub].
  - auto.
  - intros F _. apply Forall_cons in F. tauto.
  - intros F (( ll & lr & P1 & P2 & ->) & Ul & Ur). apply Forall_app in F as [Fl Fr].
    specialize (IHl Fl Ul). specialize (IHr Fr Ur).
    assert (Fl' : Forall leafP ll) by (rewrite P1; exact Fl).
    assert (Fr' : Forall leafP lr) by (rewrite P2; exact Fr).
    split; [auto using bc_combined, lunion_P|]. split; [|auto].
    apply sp_comb; auto using lunion_P, good_P.
    + eapply sp_trans; [apply lunion_perm; [exact Fl'|exact P1]|]. apply sp_sym. apply good_leaves, IHl.
    + eapply sp_trans; [apply lunion_perm; [exact Fr'|exact P2]|]. apply sp_sym. apply good_leaves, IHr.
Qed.
Lemma lunion_sub l x : Forall leafP l -> x ∈ l -> subset_points ok (lbnd x) (lunion l).
Proof.
  intros F Hx. apply elem_of_list_split in Hx. destruct Hx as (l1 & l2 & ->).
  apply Forall_app in F as [F1 F2]. pose proof F2 as F3. apply Forall_cons in F2 as [Px F2].
  assert (S : lunion (l1 ++ x :: l2) ~~ box_combined (lunion l1) (box_combined (lbnd x) (lunion l2))).
  { eapply sp_trans; [apply lunion_app; auto|]. apply sp_comb; auto using sp_refl, lunion_P, bc_combined, lunion_cons. }
  apply same_subset in S. destruct S as [_ S].
  eapply subset_trans; [|exact S]. eapply subset_trans; [|apply combined_subset_r; auto using bc_ok, lunion_P, bc_combined].
  apply combined_subset_l; auto using bc_ok, lunion_P.
Qed.

(** every subtree *)
Lemma good_sub t q : good t -> q ∈ ptrs t -> exists u c, t = plug u c /\ tptr u = Some q /\ good u.
Proof.
  intros G Hq. destruct (find_ctx t q Hq) as (u & c & -> & Eu). exists u, c. apply good_plug in G. tauto.
Qed.
End Bounds.

Section Mono.
Context {N : Num} {ok : K -> Prop} {OL : OrdLaws N ok} {P : box -> Prop} {VL : OverlapLaws N ok P}.
Implicit Types (p q : ptr) (t u : tree) (c : ctx).
Lemma good_mono a t : P a -> good (ok := ok) (P := P) t -> mono (box_overlaps a) t.
Proof.
  intros Pa. induction t as [|p b d|p b l IHl r IHr]; cbn [good mono]; auto.
  intros G. pose proof G as (Pb & S & Gl & Gr). split; [|auto].
  intros x Hx. destruct (good_leaves (Bin p b l r) G) as [F S2]. cbn [leaves tbnd] in F, S2.
  assert (Px : P (lbnd x)) by exact (proj1 (Forall_forall _ _) F x Hx).
  apply (ov_mono (ok := ok) (P := P)); auto. apply same_subset in S2. destruct S2 as [_ S2].
  eapply subset_trans; [|exact S2]. apply (lunion_sub (P := P)); assumption.
Qed.
Lemma queryF_spec a t : P a -> good (ok := ok) (P := P) t ->
  queryF a t = lptr <$> filter (fun x => box_overlaps a (lbnd x) = true) (leaves t).
Proof.
  intros Pa G. pose proof (good_mono a t Pa G) as Mn. clear G.
  induction t as [|p b d|p b l IHl r IHr]; cbn [queryF leaves].
  - reflexivity.
  - rewrite filter_cons. cbn [lbnd fst snd]. destruct (box_overlaps a b) eqn:Eb; destruct (decide _); try congruence; reflexivity.
  - cbn [mono] in Mn. destruct Mn as (Mb & Ml & Mr). rewrite filter_app, fmap_app.
    destruct (box_overlaps a b) eqn:Eb; [rewrite IHl, IHr by assumption; reflexivity|].
    rewrite !filter_none; [reflexivity|..]; intros x Hx Ho;
      (assert (false = true) by (apply (Mb x); [apply elem_of_app; auto|exact Ho]); congruence).
Qed.
Lemma upqueryF_spec a b c : P a -> cgood (ok := ok) (P := P) b c ->
  upqueryF a c ≡ₚ lptr <$> filter (fun x => box_overlaps a (lbnd x) = true) (cleaves c).
Proof.
  intros Pa. revert b. induction c as [|s p bb sib c IH]; intros b; cbn [cgood upqueryF cleaves]; [reflexivity|].
  intros (Pb & S & Gs & C). rewrite filter_app, fmap_app, (queryF_spec a sib Pa Gs), (IH _ C). reflexivity.
Qed.
End Mono.
