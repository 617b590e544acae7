(** Histories of RTree operations: safety and the bag they denote. *)
From stdpp Require Import base option list gmap fin_maps sorting.
From Verif Require Import Num Outcome Algo Box BoxFacts BoxOverlap RTree RTreeFun RTreeHeap RTreeRot RTreeRefit RTreeEdit RTreeExtract RTreeInsert RTreeIter RTreeOverlap RTreeCollide RTreeUpdate RTreeOps RTreeBounds RTreeSpec.

Section Hist.
Context {N : Num} {T : Type}.
Notation st := (st T).
Notation M := (@M N T).
Implicit Types (s : st) (h : gmap ptr node) (p q g : ptr) (t u : tree) (v : T) (c : ctx) (B : bag T).

Definition BRep s t B : Prop :=
  forall p b v, B !! p = Some (b, v) <-> exists d, (p, b, d) ∈ leaves t /\ dp s !! d = Some v.
Definition goodall (C : box -> Prop) t : Prop :=
  forall ok P, OrdLaws N ok -> BoxClass N ok P -> (forall b, C b -> P b) -> good (ok := ok) (P := P) t.
Record Inv (C : box -> Prop) s t B : Prop := {
  iv_rep : Rep s t;
  iv_bag : BRep s t B;
  iv_good : goodall C t
}.

Lemma lptr_inj (l : list (ptr * box * ptr)) x y : NoDup (lptr <$> l) -> x ∈ l -> y ∈ l -> lptr x = lptr y -> x = y.
Proof.
  induction l as [|z l IH]; cbn; intros ND Hx Hy E; [inversion Hx|].
  apply NoDup_cons in ND as [N1 ND]. apply elem_of_cons in Hx, Hy.
  destruct Hx as [->|Hx], Hy as [->|Hy]; auto; exfalso; apply N1.
  - rewrite E. apply elem_of_list_fmap. eauto.
  - rewrite <- E. apply elem_of_list_fmap. eauto.
Qed.
Lemma datas_inj (l : list (ptr * box * ptr)) x y : NoDup (datas l) -> x ∈ l -> y ∈ l -> x.2 = y.2 -> x = y.
Proof.
  unfold datas. induction l as [|z l IH]; cbn; intros ND Hx Hy E; [inversion Hx|].
  apply NoDup_cons in ND as [N1 ND]. apply elem_of_cons in Hx, Hy.
  destruct Hx as [->|Hx], Hy as [->|Hy]; auto; exfalso; apply N1.
  - rewrite E. apply elem_of_list_fmap. eauto.
  - rewrite <- E. apply elem_of_list_fmap. eauto.
Qed.
Lemma Rep_lptr s t : Rep s t -> NoDup (lptr <$> leaves t).
Proof. intros [[_ _ ND _ _] _]. apply leaves_nodup. exact ND. Qed.
Lemma Rep_data s t x : Rep s t -> x ∈ leaves t -> is_Some (dp s !! x.2).
Proof. intros [_ [_ DD]] Hx. apply DD. unfold datas. apply elem_of_list_fmap. eauto. Qed.
Lemma BRep_some s t B p : Rep s t -> BRep s t B -> is_Some (B !! p) <-> exists b d, (p, b, d) ∈ leaves t.
Proof.
  intros H HB. split.
  - intros [[b v] Hx]. apply HB in Hx. destruct Hx as (d & Hd & _). eauto.
  - intros (b & d & Hx). destruct (Rep_data s t _ H Hx) as [v Hv]. cbn in Hv. exists (b, v). apply HB. eauto.
Qed.
Lemma BRep_in s t B p : Rep s t -> BRep s t B -> is_Some (B !! p) <-> p ∈ lptr <$> leaves t.
Proof.
  intros H HB. rewrite (BRep_some s t B p H HB). rewrite elem_of_list_fmap. split.
  - intros (b & d & Hx). exists (p, b, d). auto.
  - intros ([[p' b] d] & -> & Hx). eauto.
Qed.

Lemma wf_good_top (C : box -> Prop) (r : ptr) : goodall C (Bin r invalid_box Nil Nil).
Proof.
  intros ok P OL BC HC. cbn. split; [apply bc_invalid|]. split; [|auto].
  rewrite combined_invalid_l by apply invalid_box_invalid. apply same_points_refl.
Qed.

Lemma construct_inv C E : exists s t, construct E = Ret s /\ Inv C s t ∅.
Proof.
  destruct (@construct_rep N T E) as (s & E1 & R1 & D1). exists s, (Bin (root s) invalid_box Nil Nil).
  split; [exact E1|]. constructor; [exact R1| |apply wf_good_top].
  intros p b v. rewrite lookup_empty. split; [discriminate|]. intros (d & X & _). inversion X.
Qed.

Definition keeps_root (o : hop T) : bool := match o with HClear => false | _ => true end.

Lemma step_inv C E o s t B : env_ok E -> Inv C s t B -> op_pre E s B o -> op_in C B o ->
  exists res s' t', run_op E o s = Ret (res, s') /\ Inv C s' t' (spec_step o res B) /\
    (keeps_root o = true -> root s' = root s).
Proof.
  intros HE [HR HB HG] PRE INC. pose proof (Rep_lptr _ _ HR) as NDL.
  assert (NDD : NoDup (datas (leaves t))) by (destruct HR as [_ [X _]]; exact X).
  destruct o as [b v|it|it b| |upd]; cbn [run_op op_pre op_in spec_step keeps_root] in *.
  - (* insert *)
    destruct (insert_rep E s t b v HE HR) as (p & dd & s' & t' & E1 & R1 & RR1 & L1 & Np & Hd & D1 & np & u & c & -> & NU & FT & ->).
    { apply PRE. apply (tree_bounds_rep []). apply HR. }
    exists (Some p), s', (addLeafF np u (Leaf p b dd) c). split; [rewrite (bind_ret _ _ _ _ _ E1); reflexivity|].
    split; [|auto]. constructor; [exact R1| |].
    + intros q b' v'. rewrite D1. destruct (decide (q = p)) as [->|NE].
      * rewrite lookup_insert. split.
        -- intros X. injection X as <- <-. exists dd. rewrite lookup_insert. split; [rewrite L1; left|reflexivity].
        -- intros (d & X & Y). rewrite L1 in X. apply elem_of_cons in X. destruct X as [X|X].
           ++ injection X as -> ->. rewrite lookup_insert in Y. congruence.
           ++ exfalso. apply Np. apply lptr_sub. apply elem_of_list_fmap. exists (p, b', d). auto.
      * rewrite lookup_insert_ne by congruence. rewrite (HB q b' v'). split; intros (d & X & Y); exists d.
        -- split; [rewrite L1; right; exact X|]. rewrite lookup_insert_ne; [exact Y|]. intros ->. rewrite Hd in Y. discriminate.
        -- rewrite L1 in X. apply elem_of_cons in X. destruct X as [X|X]; [congruence|]. split; [exact X|].
           destruct (Rep_data _ _ _ HR X) as [v0 Hv0]. cbn in Hv0.
           rewrite lookup_insert_ne in Y; [exact Y|]. intros <-. congruence.
    + intros ok P OL BC HC. apply addLeafF_good; auto. cbn. auto.
  - (* erase *)
    apply (BRep_some s t B it HR HB) in PRE. destruct PRE as (b & dd & Hx).
    destruct (extract_rep' s t it b dd (proj1 HR) Hx) as (c & X).
    destruct (elem_of_list_split _ _ Hx) as (l1 & l2 & EL).
    destruct (erase_rep s t l1 it b dd l2 c HR EL X) as (s' & E1 & R1 & RR1 & D1).
    destruct X as (-> & FT & L1 & _).
    exists (Some (hdp (root s) l2)), s', (extractF c). split; [rewrite (bind_ret _ _ _ _ _ E1); reflexivity|].
    split; [|auto]. rewrite L1 in NDL. cbn in NDL. apply NoDup_cons in NDL as [NL1 NL2].
    unfold datas in NDD. rewrite L1 in NDD. cbn in NDD. apply NoDup_cons in NDD as [ND1 ND2].
    constructor; [exact R1| |].
    + intros q b' v'. destruct (decide (q = it)) as [->|NE].
      * rewrite lookup_delete. split; [discriminate|]. intros (d & X & Y). exfalso. apply NL1.
        apply elem_of_list_fmap. exists (it, b', d). auto.
      * rewrite lookup_delete_ne by congruence. rewrite (HB q b' v'). split; intros (d & X & Y); exists d.
        -- rewrite L1 in X. apply elem_of_cons in X. destruct X as [X|X]; [congruence|]. split; [exact X|].
           rewrite D1. rewrite lookup_delete_ne; [exact Y|]. intros <-. apply ND1. apply elem_of_list_fmap. exists (q, b', dd). auto.
        -- split; [rewrite L1; right; exact X|]. rewrite D1 in Y. apply lookup_delete_Some in Y. tauto.
    + intros ok P OL BC HC. eapply extractF_good. apply HG; eauto.
  - (* update *)
    destruct PRE as [PRE1 PRE2]. apply (BRep_some s t B it HR HB) in PRE1. destruct PRE1 as (b0 & dd & Hx).
    destruct (extract_rep' s t it b0 dd (proj1 HR) Hx) as (c & X).
    destruct (elem_of_list_split _ _ Hx) as (l1 & l2 & EL).
    destruct (erase_rep s t l1 it b0 dd l2 c HR EL X) as (s1 & E1 & R1 & RR1 & D1).
    destruct (update_rep E s t it b0 dd b c HE HR X) as (s' & t' & E2 & R2 & RR2 & D2 & L2 & np & u & c2 & Eu & NU & FT2 & ->).
    { eapply PRE2; [exact E1|]. apply (tree_bounds_rep []). apply R1. }
    destruct X as (-> & FT & L1 & _).
    exists (Some it), s', (addLeafF np u (Leaf it b dd) c2). split; [rewrite (bind_ret _ _ _ _ _ E2); reflexivity|].
    split; [|auto].
    rewrite L1 in NDL. cbn in NDL. apply NoDup_cons in NDL as [NL1 NL2].
    constructor; [exact R2| |].
    + intros q b' v'. rewrite D2. destruct (decide (q = it)) as [->|NE].
      * rewrite lookup_alter. destruct (Rep_data _ _ _ HR Hx) as [v Hv]. cbn in Hv.
        assert (Hit : B !! it = Some (b0, v)) by (apply HB; eauto). rewrite Hit. cbn. split.
        -- intros X. injection X as <- <-. exists dd. split; [rewrite L2; left|exact Hv].
        -- intros (d & X & Y). rewrite L2 in X. apply elem_of_cons in X. destruct X as [X|X]; [congruence|].
           exfalso. apply NL1. apply elem_of_list_fmap. exists (it, b', d). auto.
      * rewrite lookup_alter_ne by congruence. rewrite (HB q b' v'). split; intros (d & X & Y); exists d; (split; [|exact Y]).
        -- rewrite L1 in X. apply elem_of_cons in X. destruct X as [X|X]; [congruence|]. rewrite L2. right. exact X.
        -- rewrite L2 in X. apply elem_of_cons in X. destruct X as [X|X]; [congruence|]. rewrite L1. right. exact X.
    + intros ok P OL BC HC. apply addLeafF_good; [cbn; auto| |exact NU]. rewrite <- Eu. eapply extractF_good. apply HG; eauto.
  - (* clear *)
    destruct (clear_rep E s t HE HR) as (s' & E1 & R1 & D1).
    exists None, s', (Bin (root s') invalid_box Nil Nil). split; [rewrite (bind_ret _ _ _ _ _ E1); reflexivity|].
    split; [|discriminate]. constructor; [exact R1| |apply wf_good_top].
    intros p b v. rewrite lookup_empty. split; [discriminate|]. intros (d & X & _). inversion X.
  - (* updateAndCollide *)
    destruct (collide_rep E upd s t HE HR) as (s' & t' & cs & E1 & R1 & L1 & D1 & RR1 & _ & SH).
    { intros [[p b] dd] El. destruct (Rep_data s t (p, b, dd) HR) as [v Hv]; [rewrite El; left|]. cbn in Hv.
      eapply (PRE p (b, v)); [|apply (tree_bounds_rep []); apply HR].
      apply map_eq. intros q. destruct (B !! q) as [[b' v']|] eqn:Eq.
      - apply HB in Eq. destruct Eq as (d & X & Y). rewrite El in X. apply elem_of_list_singleton in X.
        injection X as -> -> ->. rewrite lookup_singleton. congruence.
      - symmetry. apply lookup_singleton_None. intros <-.
        assert (X : B !! p = Some (b, v)) by (apply HB; exists dd; rewrite El; split; [left|exact Hv]). congruence. }
    exists None, s', t'. split; [rewrite (bind_ret _ _ _ _ _ E1); reflexivity|]. split; [|auto].
    constructor; [exact R1| |].
    + intros q b' v'. rewrite map_lookup_imap, D1. split.
      * destruct (B !! q) as [[b v]|] eqn:Eq; [|discriminate]. cbn. intros X. injection X as <- <-.
        apply HB in Eq. destruct Eq as (d & X & Y). exists d. split; [|exact Y]. rewrite L1.
        apply elem_of_list_fmap. exists (q, b, d). auto.
      * intros (d & X & Y). rewrite L1 in X. apply elem_of_list_fmap in X. destruct X as ([[p b] d'] & X & X2).
        unfold uf in X. cbn in X. injection X as -> -> ->.
        assert (Z : B !! p = Some (b, v')) by (apply HB; eauto). rewrite Z. reflexivity.
    + intros ok P OL BC HC.
      assert (F : Forall (leafP (P := P)) (leaves t')).
      { rewrite L1. apply Forall_fmap, Forall_forall. intros x Hx. unfold leafP. cbn. apply HC, INC.
        apply (BRep_in s t B _ HR HB). apply elem_of_list_fmap. eauto. }
      specialize (HG ok P OL BC HC).
      destruct (leaves t) as [|x [|y l]] eqn:El; cbn [length] in SH.
      * subst t'. exact HG.
      * destruct SH as (p & b & dd & np & X & ->). injection X as ->. cbn [addLeafF].
        rewrite L1 in F. apply Forall_cons in F as [F _]. apply refitN_good; [apply good_P; exact HG|exact F|exact I|exact I].
      * apply ub_good; assumption.
Qed.

Lemma steps_inv C os x y t : Inv C x.1 t x.2 -> steps C os x y ->
  exists t', Inv C y.1 t' y.2 /\ (forallb keeps_root os = true -> root y.1 = root x.1).
Proof.
  intros H HS. revert t H. induction HS as [x|o os x y z HO HS IH]; intros t H; [exists t; auto|].
  destruct HO as (E & res & HE & PRE & INC & RUN & EB).
  destruct (step_inv C E o x.1 t x.2 HE H PRE INC) as (res' & s' & t' & RUN' & H' & K').
  rewrite RUN in RUN'. injection RUN' as <- <-. rewrite <- EB in H'.
  destruct (IH t' H') as (t2 & H2 & K2). exists t2. split; [exact H2|].
  cbn. intros X. apply andb_true_iff in X. destruct X as [X1 X2]. rewrite K2, K'; auto.
Qed.
Lemma reach_inv C s B : reach C s B -> exists t, Inv C s t B.
Proof.
  intros (E & s0 & os & HE & EC & HS). destruct (construct_inv C E) as (s1 & t1 & EC1 & H1).
  rewrite EC in EC1. injection EC1 as <-. destruct (steps_inv C os (s0, ∅) (s, B) t1 H1 HS) as (t & H & _). eauto.
Qed.
End Hist.
