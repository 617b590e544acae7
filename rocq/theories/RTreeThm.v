(** The R-tree properties, derived from the invariant of [RTreeHist.v]. *)
From stdpp Require Import base option list gmap fin_maps sorting.
From Verif Require Import Num Outcome Algo Box BoxFacts BoxOverlap RTree RTreeFun RTreeHeap RTreeRot RTreeRefit RTreeEdit RTreeExtract RTreeInsert RTreeIter RTreeOverlap RTreeCollide RTreeUpdate RTreeOps RTreeBounds RTreeSpec RTreeHist.

Section Thm.
Context {N : Num} {T : Type}.
Notation st := (st T).
Notation M := (@M N T).
Implicit Types (s : st) (h : gmap ptr node) (p q g : ptr) (t u : tree) (v : T) (c : ctx) (B : bag T).

(** ** C10 *)
Lemma safe C E s B o : reach C s B -> env_ok E -> op_pre E s B o -> op_in C B o ->
  exists res s', run_op E o s = Ret (res, s') /\ reach C s' (spec_step o res B).
Proof.
  intros HR HE PRE INC. destruct (reach_inv _ _ _ HR) as [t H].
  destruct (step_inv C E o s t B HE H PRE INC) as (res & s' & t' & RUN & _ & _).
  exists res, s'. split; [exact RUN|]. destruct HR as (E0 & s0 & os & HE0 & EC & HS).
  exists E0, s0, (os ++ [o]). split; [exact HE0|]. split; [exact EC|].
  assert (X : step C o (s, B) (s', spec_step o res B)).
  { exists E, res. auto. }
  clear -HS X. remember (s0, ∅) as x. remember (s, B) as y. clear Heqx. revert Heqy.
  induction HS as [x|o' os x y z HO HS IH]; intros ->.
  - cbn. econstructor; [exact X|constructor].
  - cbn. econstructor; [exact HO|]. apply IH; [exact X|reflexivity].
Qed.

(** each allocated node of a represented tree has a place *)
Lemma rep_below h par t p q : rep h par t -> tptr t = Some p -> q ∈ ptrs t -> below h p q.
Proof.
  intros R Ep Hq.
  assert (G : forall t c par p0, rep h par t -> q ∈ ptrs t -> (forall p', tptr t = Some p' -> below h p0 p') -> below h p0 q).
  { clear. intros t _. induction t as [|p b dd|p b l IHl r IHr]; intros par p0 R Hq HB; cbn [ptrs rep] in *.
    - inversion Hq.
    - apply elem_of_list_singleton in Hq. subst. apply HB. reflexivity.
    - destruct R as (Rp & RL & RR). specialize (HB p eq_refl). apply elem_of_cons in Hq. destruct Hq as [->|Hq]; [exact HB|].
      apply elem_of_app in Hq. destruct Hq as [Hq|Hq]; [eapply IHl|eapply IHr]; eauto;
        intros p' Ep'; (eapply below_child; [exact HB|exact Rp|]); [left|right]; exact Ep'. }
  apply (G t CTop par p R Hq). intros p' Ep'. rewrite Ep in Ep'. injection Ep' as <-. apply below_refl.
  destruct (rep_lookup _ _ _ _ R Ep) as (n & Hn & _). eauto.
Qed.
(** the occupant of an address *)
Lemma rep_node h t q : rep h None t -> q ∈ ptrs t -> exists u c, t = plug u c /\ tptr u = Some q /\
  rep h (cptr c) u /\ rep_ctx h (tptr u) c.
Proof.
  intros R Hq. destruct (find_ctx t q Hq) as (u & c & -> & Eu). exists u, c. apply rep_plug in R. tauto.
Qed.
Lemma heap_ok_inv s t : RepX [] s t -> heap_ok s.
Proof.
  intros [RT RR ND DM WF]. destruct s as [h d r]. cbn [hp dp root app] in *. constructor; cbn [hp dp root].
  - destruct t as [| |p b l r']; [destruct WF..|]. cbn in RR. injection RR as ->. cbn in RT. destruct RT as (X & _).
    eexists; split; [exact X|]. auto.
  - intros p n q Hp Hc. assert (I1 : p ∈ ptrs t) by (apply DM; eauto).
    destruct (rep_node _ _ _ RT I1) as (u & c & -> & Eu & RU & RC).
    destruct u as [|p' b dd|p' b l r']; [discriminate|..]; cbn in Eu; injection Eu as ->; cbn in RU.
    + rewrite RU in Hp. injection Hp as <-. destruct Hc; discriminate.
    + destruct RU as (Rp & RL & RR'). rewrite Rp in Hp. injection Hp as <-. destruct Hc as [Hc|Hc]; cbn in Hc.
      * destruct (rep_lookup _ _ _ _ RL Hc) as (nq & Hq & Pq & _). eauto.
      * destruct (rep_lookup _ _ _ _ RR' Hc) as (nq & Hq & Pq & _). eauto.
  - intros p n q Hp Hpar. assert (I1 : p ∈ ptrs t) by (apply DM; eauto).
    destruct (rep_node _ _ _ RT I1) as (u & c & -> & Eu & RU & RC).
    destruct (rep_lookup _ _ _ _ RU Eu) as (n' & Hn' & Pn & _). rewrite Hp in Hn'. injection Hn' as <-.
    destruct c as [|sd g gb sib c]; cbn in Pn; [congruence|]. rewrite Hpar in Pn. injection Pn as ->.
    destruct RC as (Rg & _). eexists; split; [exact Rg|]. rewrite Eu. unfold child. cbn. destruct sd; cbn; auto.
  - intros p n q Hp Hl. assert (I1 : p ∈ ptrs t) by (apply DM; eauto).
    destruct (rep_node _ _ _ RT I1) as (u & c & -> & Eu & RU & RC).
    destruct u as [|p' b dd|p' b l r']; [discriminate|..]; cbn in Eu; injection Eu as ->; cbn in RU.
    + rewrite RU in Hp. injection Hp as <-. discriminate.
    + destruct RU as (Rp & RL & RR'). rewrite Rp in Hp. injection Hp as <-. cbn in Hl |- *. intros Hr.
      rewrite ptrs_plug in ND. cbn [ptrs] in ND. apply NoDup_app in ND as (ND & _ & _).
      apply NoDup_cons in ND as [_ ND]. apply NoDup_app in ND as (_ & ND & _).
      apply tptr_in in Hl, Hr. exact (ND _ Hl Hr).
  - intros p n Hp [dd Hd]. assert (I1 : p ∈ ptrs t) by (apply DM; eauto).
    destruct (rep_node _ _ _ RT I1) as (u & c & -> & Eu & RU & RC).
    destruct u as [|p' b dd'|p' b l r']; [discriminate|..]; cbn in Eu; injection Eu as ->; cbn in RU.
    + rewrite RU in Hp. injection Hp as <-. auto.
    + destruct RU as (Rp & _). rewrite Rp in Hp. injection Hp as <-. discriminate.
  - intros p n Hp Hd NE. assert (I1 : p ∈ ptrs t) by (apply DM; eauto).
    destruct (rep_node _ _ _ RT I1) as (u & c & -> & Eu & RU & RC).
    assert (NU : u <> Nil) by (intros ->; discriminate).
    pose proof (unplug_wf _ _ NU WF) as [FC FT].
    destruct c as [|sd g gb sib c]; [cbn in RR; congruence|].
    destruct u as [|p' b dd'|p' b l r']; [discriminate|..]; cbn in Eu; injection Eu as ->; cbn in RU.
    + rewrite RU in Hp. injection Hp as <-. discriminate.
    + destruct RU as (Rp & _). rewrite Rp in Hp. injection Hp as <-. cbn in FT |- *.
      destruct FT as [F1 F2]. destruct l, r'; cbn in *; try contradiction; eauto.
  - intros p Hp. eapply rep_below; [exact RT|exact RR|]. apply DM. exact Hp.
Qed.
Lemma reach_heap_ok C s B : reach C s B -> heap_ok s.
Proof. intros H. destruct (reach_inv _ _ _ H) as [t [[R _] _ _]]. eapply heap_ok_inv; exact R. Qed.

(** ** C11 *)
Lemma leaf_read s t p b dd v : Rep s t -> (p, b, dd) ∈ leaves t -> dp s !! dd = Some v ->
  bounds_it p s = Ret (b, s) /\ deref_it p s = Ret (v, s).
Proof.
  intros [[RT RR ND DM WF] _] Hx Hv. destruct (leaf_at_rep _ _ _ _ RT Hx) as [par Hp]. cbn [lptr lbnd fst snd] in Hp.
  destruct s as [h d r]. cbn [hp dp root] in *. split.
  - unfold bounds_it. rewrite (bind_rd _ _ _ _ _ _ Hp). reflexivity.
  - unfold deref_it. rewrite (bind_rd _ _ _ _ _ _ Hp). cbn. rewrite Hv. reflexivity.
Qed.
Lemma read_all_rep s t B l : Rep s t -> BRep s t B -> (forall x, x ∈ l -> x ∈ leaves t) ->
  exists L, read_all (lptr <$> l) s = Ret (L, s) /\ L.*1 = lptr <$> l /\ (forall p x, (p, x) ∈ L -> B !! p = Some x).
Proof.
  intros HR HB. induction l as [|[[p b] dd] l IH]; intros HL.
  - exists []. split; [reflexivity|]. split; [reflexivity|]. intros p x X. inversion X.
  - destruct IH as (L & E1 & F1 & G1); [intros x Hx; apply HL; right; exact Hx|].
    assert (Hx : (p, b, dd) ∈ leaves t) by (apply HL; left).
    destruct (Rep_data _ _ _ HR Hx) as [v Hv]. cbn in Hv.
    destruct (leaf_read s t p b dd v HR Hx Hv) as [R1 R2].
    exists ((p, (b, v)) :: L). cbn [fmap list_fmap read_all lptr fst snd].
    rewrite (bind_ret _ _ _ _ _ R1), (bind_ret _ _ _ _ _ R2), (bind_ret _ _ _ _ _ E1).
    split; [reflexivity|]. split; [cbn; f_equal; exact F1|].
    intros q x X. apply elem_of_cons in X. destruct X as [X|X]; [|auto]. injection X as -> ->. apply HB. eauto.
Qed.
Lemma contents_spec C s B : reach C s B ->
  exists L, contents s = Ret (L, s) /\ L ≡ₚ map_to_list B.
Proof.
  intros H. destruct (reach_inv _ _ _ H) as [t [HR HB HG]].
  destruct (read_all_rep s t B (leaves t) HR HB) as (L & E1 & F1 & G1); [auto|].
  exists L. split.
  - unfold contents. rewrite (bind_ret _ _ _ _ _ (iterate_all_rep _ _ _ (proj1 HR))). exact E1.
  - pose proof (Rep_lptr _ _ HR) as NDL. rewrite <- F1 in NDL.
    apply NoDup_Permutation; [eapply NoDup_fmap_1; exact NDL|apply NoDup_map_to_list|].
    intros [p x]. rewrite elem_of_map_to_list. split; [apply G1|].
    intros Hx. assert (X : p ∈ L.*1).
    { rewrite F1. apply (BRep_in s t B p HR HB). eauto. }
    apply elem_of_list_fmap in X. destruct X as ([p' x'] & -> & X). pose proof (G1 _ _ X) as Y. cbn in *. congruence.
Qed.
Lemma dom_perm C s B : reach C s B -> exists t, Inv C s t B /\ (lptr <$> leaves t) ≡ₚ elements (dom B).
Proof.
  intros H. destruct (reach_inv _ _ _ H) as [t I]. exists t. split; [exact I|]. destruct I as [HR HB HG].
  apply NoDup_Permutation; [apply (Rep_lptr _ _ HR)|apply NoDup_elements|].
  intros p. rewrite elem_of_elements, elem_of_dom. symmetry. apply (BRep_in s t B p HR HB).
Qed.
Lemma size_spec C s B : reach C s B -> tree_size s = Ret (size B, s) /\ isEmpty s = Ret (bool_decide (B = ∅), s).
Proof.
  intros H. destruct (dom_perm _ _ _ H) as (t & [HR HB HG] & PM).
  assert (L : length (leaves t) = size B).
  { rewrite <- (fmap_length lptr), PM. rewrite <- size_dom. reflexivity. }
  rewrite (size_rep _ _ _ (proj1 HR)), (isEmpty_rep _ _ _ (proj1 HR)), L. split; [reflexivity|].
  do 2 f_equal. apply bool_decide_ext. split; intros X.
  - apply map_size_empty_inv. rewrite <- L, X. reflexivity.
  - apply length_zero_iff_nil. rewrite L, X. apply map_size_empty.
Qed.

(** ** C12 *)
Lemma iterate_spec C s B : reach C s B ->
  exists l, iterate_all s = Ret (l, s) /\ NoDup l /\ (forall p, p ∈ l <-> is_Some (B !! p)) /\
    exists b e, begin_it s = Ret (b, s) /\ end_it s = Ret (e, s) /\ (b = e <-> B = ∅).
Proof.
  intros H. destruct (dom_perm _ _ _ H) as (t & [HR HB HG] & PM). exists (lptr <$> leaves t).
  split; [apply (iterate_all_rep _ _ _ (proj1 HR))|]. split; [apply (Rep_lptr _ _ HR)|].
  split; [intros p; symmetry; apply (BRep_in s t B p HR HB)|].
  exists (hdp (root s) (leaves t)), (root s). split; [apply (begin_rep _ _ _ (proj1 HR))|]. split; [reflexivity|].
  assert (X : leaves t = [] <-> B = ∅).
  { destruct (size_spec _ _ _ H) as [E1 _]. rewrite (size_rep _ _ _ (proj1 HR)) in E1. injection E1 as E1. split; intros X.
    - apply map_size_empty_inv. rewrite <- E1, X. reflexivity.
    - apply length_zero_iff_nil. rewrite E1, X. apply map_size_empty. }
  rewrite <- X. destruct (leaves t) as [|x l] eqn:El; cbn; [tauto|]. split; [|discriminate]. intros Ex.
  exfalso. destruct HR as [[RT RR ND DM WF] _]. cbn in ND.
  apply (root_not_leaf t (root s) WF ND RR). rewrite El, <- Ex. left.
Qed.

(** ** C13 *)
Lemma below_ptrs h par t p q : rep h par t -> tptr t = Some p -> below h p q <-> q ∈ ptrs t.
Proof.
  intros R Ep. split; [|apply (rep_below h par t p q R Ep)].
  induction 1 as [Ha|q n r HB IH Hq Hc]; [apply tptr_in; exact Ep|].
  clear HB. revert par p R Ep IH. induction t as [|p0 b0 dd|p0 b0 l IHl r0 IHr]; intros par p R Ep IH; cbn [ptrs rep] in *.
  - inversion IH.
  - apply elem_of_list_singleton in IH. subst. rewrite R in Hq. injection Hq as <-. destruct Hc; discriminate.
  - destruct R as (Rp & RL & RR). apply elem_of_cons in IH. destruct IH as [->|IH].
    + rewrite Rp in Hq. injection Hq as <-. right. apply elem_of_app. destruct Hc as [Hc|Hc]; cbn in Hc; apply tptr_in in Hc; auto.
    + right. apply elem_of_app in IH. apply elem_of_app. destruct IH as [IH|IH].
      * destruct l; [inversion IH|..]; left; eapply IHl; eauto; reflexivity.
      * destruct r0; [inversion IH|..]; right; eapply IHr; eauto; reflexivity.
Qed.
Lemma leaf_bounds_spec h par t p b : rep h par t -> tptr t = Some p ->
  leaf_bounds h p b <-> exists x, x ∈ leaves t /\ lbnd x = b.
Proof.
  intros R Ep. unfold leaf_bounds. split.
  - intros (q & n & HB & Hq & Hd & <-). apply (below_ptrs h par t p q R Ep) in HB. clear Ep.
    revert par R HB. induction t as [|p0 b0 dd|p0 b0 l IHl r0 IHr]; intros par R HB; cbn [ptrs rep leaves] in *.
    + inversion HB.
    + apply elem_of_list_singleton in HB. subst. rewrite R in Hq. injection Hq as <-. exists (p0, b0, dd). split; [left|reflexivity].
    + destruct R as (Rp & RL & RR). apply elem_of_cons in HB. destruct HB as [->|HB].
      * rewrite Rp in Hq. injection Hq as <-. destruct Hd; discriminate.
      * apply elem_of_app in HB. destruct HB as [HB|HB];
          [destruct (IHl _ RL HB) as (x & Hx & E)|destruct (IHr _ RR HB) as (x & Hx & E)]; exists x; rewrite elem_of_app; auto.
  - intros (x & Hx & <-). destruct (leaf_at_rep _ _ _ _ R Hx) as [par' Hp].
    exists (lptr x). eexists; split; [|split; [exact Hp|cbn; eauto]].
    apply (below_ptrs h par t p _ R Ep). apply lptr_sub. apply elem_of_list_fmap. eauto.
Qed.
Lemma lunion_least {ok : K -> Prop} {OL : OrdLaws N ok} (l : list (ptr * box * ptr)) b : Forall (leafP (P := okbox ok)) l ->
  okbox ok b -> (forall x, x ∈ l -> subset_points ok (lbnd x) b) -> subset_points ok (lunion l) b.
Proof.
  intros F Ob H.
  assert (G : forall acc, okbox ok acc -> subset_points ok acc b ->
     subset_points ok (fold_left (fun acc x => box_combined acc (lbnd x)) l acc) b).
  { revert H. induction l as [|x l IH]; intros H acc Oa Sa; cbn; [exact Sa|]. apply Forall_cons in F as [Fx F].
    apply IH; auto. { intros y Hy. apply H. right. exact Hy. } { apply okbox_combined; auto. }
    apply combined_least; auto. apply H. left. }
  apply G; [apply okbox_invalid|]. intros p Op Ip. exfalso.
  exact (invalid_no_points p invalid_box okbox_invalid Op invalid_box_invalid Ip).
Qed.
Lemma bounds_spec (ok : K -> Prop) (C : box -> Prop) s B : OrdLaws N ok -> (forall b, C b -> okbox ok b) -> reach C s B ->
  (forall p n, hp s !! p = Some n -> ndata n = None ->
     okbox ok (nbounds n) /\ is_union ok (leaf_bounds (hp s) p) (nbounds n)) /\
  exists b, tree_bounds s = Ret (b, s) /\
    is_union ok (fun x => exists p v, B !! p = Some (x, v)) b /\ (B = ∅ -> box_valid b = false).
Proof.
  intros OL HC H. destruct (reach_inv _ _ _ H) as [t [HR HB HG]].
  specialize (HG ok (okbox ok) OL (okbox_class N ok OL) HC). pose proof (okbox_class N ok OL) as BC.
  assert (GU : forall u, good (ok := ok) (P := okbox ok) u -> okbox ok (tbnd u) /\ is_union ok (fun b => exists x, x ∈ leaves u /\ lbnd x = b) (tbnd u)).
  { intros u G. destruct (good_leaves u G) as [F S]. split; [apply (good_P u G)|].
    apply same_subset in S. destruct S as [S1 S2]. split.
    - intros b (x & Hx & <-). eapply subset_trans; [|exact S2]. apply (lunion_sub (P := okbox ok)); assumption.
    - intros c Oc Hc. eapply subset_trans; [exact S1|]. apply lunion_least; auto. intros x Hx. apply Hc. eauto. }
  assert (EXT : forall S1 S2 b, (forall x, S1 x <-> S2 x) -> is_union ok S1 b -> is_union ok S2 b).
  { intros S1 S2 b X [U1 U2]. split; [intros x Hx; apply U1, X, Hx|]. intros c Oc Hc. apply U2; [exact Oc|].
    intros x Hx. apply Hc, X, Hx. }
  split.
  - intros p n Hp Hd. destruct HR as [[RT RR ND DM WF] _]. cbn in ND, DM.
    assert (I1 : p ∈ ptrs t) by (apply DM; eauto).
    destruct (rep_node _ _ _ RT I1) as (u & c & -> & Eu & RU & RC).
    apply good_plug in HG. destruct HG as [HG _].
    destruct (rep_lookup _ _ _ _ RU Eu) as (n' & Hn' & _ & Bn & _). rewrite Hp in Hn'. injection Hn' as <-. rewrite Bn.
    destruct (GU u HG) as [O U]. split; [exact O|]. eapply EXT; [|exact U]. intros x. symmetry.
    apply (leaf_bounds_spec _ _ _ _ _ RU Eu).
  - exists (tbnd t). split; [apply (tree_bounds_rep [] s t), HR|]. destruct (GU t HG) as [O U]. split.
    + eapply EXT; [|exact U]. intros x. split.
      * intros ([[p b] dd] & Hx & <-). destruct (Rep_data _ _ _ HR Hx) as [v Hv]. exists p, v. apply HB. eauto.
      * intros (p & v & Hx). apply HB in Hx. destruct Hx as (d & Hd & _). exists (p, x, d). auto.
    + intros ->. assert (EL : leaves t = []).
      { destruct (leaves t) as [|[[p b] dd] l] eqn:El; [reflexivity|]. exfalso.
        assert (X : is_Some ((∅ : bag T) !! p)) by (apply (BRep_some s t _ p HR HB); exists b, dd; rewrite El; left).
        rewrite lookup_empty in X. destruct X; discriminate. }
      destruct (good_leaves t HG) as [F S]. rewrite EL in S. apply same_points_valid in S; [|exact O|apply okbox_invalid].
      rewrite S. apply invalid_box_invalid.
Qed.
End Thm.

(** ** C14, C15 *)
Section Queries.
Context {N : Num} {T : Type} {ok : K -> Prop} {OL : OrdLaws N ok} {P : box -> Prop} {VL : OverlapLaws N ok P}.
Notation st := (st T).
Implicit Types (s : st) (p q : ptr) (t u : tree) (v : T) (c : ctx) (B : bag T).

Lemma filter_lptr_in f t s B p : Rep s t -> BRep s t B ->
  p ∈ lptr <$> filter (fun x => f (lbnd x) = true) (leaves t) <-> exists b v, B !! p = Some (b, v) /\ f b = true.
Proof.
  intros HR HB. rewrite elem_of_list_fmap. split.
  - intros ([[p' b] dd] & -> & X). apply elem_of_list_filter in X. destruct X as [X1 X2].
    destruct (Rep_data _ _ _ HR X2) as [v Hv]. exists b, v. split; [apply HB; eauto|exact X1].
  - intros (b & v & Hp & Hf). apply HB in Hp. destruct Hp as (d & Hd & _). exists (p, b, d). split; [reflexivity|].
    apply elem_of_list_filter. auto.
Qed.
Lemma NoDup_filter_lptr (f : (ptr * box * ptr) -> Prop) `{Df : forall x, Decision (f x)} (l : list (ptr * box * ptr)) :
  NoDup (lptr <$> l) -> NoDup (lptr <$> filter f l).
Proof.
  intros ND. induction l as [|x l IH]; [constructor|]. cbn in ND. apply NoDup_cons in ND as [N1 ND].
  rewrite filter_cons. destruct (decide (f x)); [|auto]. cbn. apply NoDup_cons. split; [|auto].
  intros X. apply N1. apply elem_of_list_fmap in X. destruct X as (y & E & Hy). apply elem_of_list_filter in Hy.
  apply elem_of_list_fmap. exists y. tauto.
Qed.
Lemma forEachIn_spec (C : box -> Prop) s B a : (forall b, C b -> P b) -> P a -> reach C s B ->
  exists l, forEachIn a s = Ret (l, s) /\ NoDup l /\
    forall p, p ∈ l <-> exists b v, B !! p = Some (b, v) /\ box_overlaps a b = true.
Proof.
  intros HC Pa H. destruct (reach_inv _ _ _ H) as [t [HR HB HG]].
  specialize (HG ok P OL (overlap_class N ok P VL) HC).
  exists (queryF a t). split; [apply (forEachIn_rep [] s t a), HR|].
  rewrite (queryF_spec a t Pa HG). split; [apply NoDup_filter_lptr, (Rep_lptr _ _ HR)|].
  intros p. apply (filter_lptr_in (box_overlaps a) t s B p HR HB).
Qed.
Lemma point_overlap (x : vec2) b : P (Box x x) -> P b -> box_overlaps (Box x x) b = true <-> inside x b.
Proof.
  intros Px Pb. rewrite (ovl_overlaps _ _ Px Pb). pose proof (ovl_ok _ Px) as [[O1 O2] _]. cbn in O1, O2.
  pose proof (ovl_ok _ Pb) as [[B1 B2] [B3 B4]]. split.
  - intros (y & [Y1 Y2] & (I1 & I2 & I3 & I4) & (J1 & J2 & J3 & J4)). cbn in *.
    repeat split; [apply (ord_trans _ (vx y) _)|apply (ord_trans _ (vx y) _)|apply (ord_trans _ (vy y) _)|apply (ord_trans _ (vy y) _)]; auto.
  - intros I. exists x. split; [split; assumption|]. split; [|exact I].
    repeat split; cbn; apply ord_irrefl; assumption.
Qed.
Lemma reach_P (C : box -> Prop) s B p b v : (forall b, C b -> P b) -> reach C s B -> B !! p = Some (b, v) -> P b.
Proof.
  intros HC H Hp. destruct (reach_inv _ _ _ H) as [t [HR HB HG]].
  specialize (HG ok P OL (overlap_class N ok P VL) HC). apply HB in Hp. destruct Hp as (d & Hd & _).
  destruct (good_leaves t HG) as [F _]. rewrite Forall_forall in F. apply (F _ Hd).
Qed.
Lemma forEachAt_spec (C : box -> Prop) s B (x : vec2) : (forall b, C b -> P b) -> P (Box x x) -> reach C s B ->
  exists l, forEachAt x s = Ret (l, s) /\ NoDup l /\
    forall p, p ∈ l <-> exists b v, B !! p = Some (b, v) /\ inside x b.
Proof.
  intros HC Px H. destruct (forEachIn_spec C s B (Box x x) HC Px H) as (l & E1 & ND & X).
  exists l. split; [exact E1|]. split; [exact ND|]. intros p. rewrite X. split; intros (b & v & Hp & Hb); exists b, v; (split; [exact Hp|]).
  - apply point_overlap in Hb; auto. eapply (reach_P C); eauto.
  - apply point_overlap; auto. eapply (reach_P C); eauto.
Qed.
Lemma forEachOverlapping_spec (C : box -> Prop) s B it a v : (forall b, C b -> P b) -> reach C s B -> B !! it = Some (a, v) ->
  exists l, forEachOverlapping it s = Ret (l, s) /\ NoDup l /\
    forall p, p ∈ l <-> p <> it /\ exists b v, B !! p = Some (b, v) /\ box_overlaps a b = true.
Proof.
  intros HC H Hit. pose proof (reach_P C s B it a v HC H Hit) as Pa. destruct (reach_inv _ _ _ H) as [t [HR HB HG]].
  specialize (HG ok P OL (overlap_class N ok P VL) HC). apply HB in Hit. destruct Hit as (d & Hd & _).
  destruct (leaf_ctx _ _ _ _ Hd) as [c Ec]. exists (upqueryF a c).
  split; [apply (forEachOverlapping_rep [] s t it a d c); [apply HR|exact Ec]|].
  pose proof HG as G2. rewrite Ec in G2. apply good_plug in G2. destruct G2 as [_ G2].
  pose proof (upqueryF_spec a _ c Pa G2) as PM.
  pose proof (Rep_lptr _ _ HR) as NDL. pose proof (leaves_plug c (Leaf it a d)) as LP. rewrite <- Ec in LP. cbn in LP.
  assert (ND2 : NoDup (lptr <$> (it, a, d) :: cleaves c)) by (rewrite <- LP; exact NDL).
  cbn in ND2. apply NoDup_cons in ND2 as [N1 ND2].
  split; [rewrite PM; apply NoDup_filter_lptr; exact ND2|].
  intros p. rewrite PM. split.
  - intros X. split.
    + intros ->. apply N1. apply elem_of_list_fmap in X. destruct X as (x & E & Hx). apply elem_of_list_filter in Hx.
      apply elem_of_list_fmap. exists x. tauto.
    + apply (filter_lptr_in (box_overlaps a) t s B p HR HB). apply elem_of_list_fmap in X. destruct X as (x & E & Hx).
      apply elem_of_list_filter in Hx. apply elem_of_list_fmap. exists x. split; [exact E|]. apply elem_of_list_filter.
      split; [tauto|]. rewrite LP. right. tauto.
  - intros [NE X]. apply (filter_lptr_in (box_overlaps a) t s B p HR HB) in X. apply elem_of_list_fmap in X.
    destruct X as (x & E & Hx). apply elem_of_list_filter in Hx. destruct Hx as [H1 H2]. rewrite LP in H2.
    apply elem_of_cons in H2. destruct H2 as [->|H2]; [cbn in E; congruence|].
    apply elem_of_list_fmap. exists x. split; [exact E|]. apply elem_of_list_filter. auto.
Qed.

(** the number of times a pair is reported *)
Lemma times_perm {A} `{EqDecision A} (x : A) l l' : l ≡ₚ l' -> times x l = times x l'.
Proof. intros PM. unfold times. rewrite PM. reflexivity. Qed.
Lemma times_app {A} `{EqDecision A} (x : A) l l' : times x (l ++ l') = times x l + times x l'.
Proof. unfold times. rewrite filter_app, app_length. reflexivity. Qed.
Lemma times_pair (p q p' : ptr) k : times (p, q) ((fun q => (p', q)) <$> k) = if decide (p' = p) then times q k else 0.
Proof.
  unfold times. induction k as [|y k IH]; cbn [fmap list_fmap]; [destruct (decide (p' = p)); reflexivity|].
  rewrite !filter_cons. destruct (decide (p' = p)) as [->|NE].
  - destruct (decide (y = q)) as [->|NE]; rewrite ?decide_True, ?decide_False by congruence; cbn; rewrite IH; reflexivity.
  - rewrite decide_False by congruence. exact IH.
Qed.
Lemma times_filter (f : ptr -> bool) q k : times q (filter (fun y => f y = true) k) = if f q then times q k else 0.
Proof.
  unfold times. induction k as [|y k IH]; [destruct (f q); reflexivity|]. rewrite !filter_cons.
  destruct (decide (y = q)) as [->|NE].
  - destruct (f q) eqn:F; cbn [decide]; [rewrite decide_True by reflexivity|rewrite decide_False by congruence]; [|exact IH].
    rewrite filter_cons, decide_True by reflexivity. cbn. rewrite IH. reflexivity.
  - destruct (decide (f y = true)); [rewrite filter_cons, decide_False by exact NE|]; exact IH.
Qed.
Lemma times_pairs_of bnd L its p q : NoDup (lptr <$> L) ->
  (forall x, x ∈ L -> lptr x = p -> times (p, q) (pairs_of bnd L its) = if box_overlaps (bnd q) (lbnd x) then times q its else 0) /\
  (p ∉ lptr <$> L -> times (p, q) (pairs_of bnd L its) = 0).
Proof.
  unfold pairs_of. induction L as [|x L IH]; intros ND.
  - split; [intros x X; inversion X|reflexivity].
  - cbn in ND. apply NoDup_cons in ND as [N1 ND]. destruct (IH ND) as [IH1 IH2]. cbn [mbind list_bind].
    rewrite times_app, times_pair. split.
    + intros y Hy <-. apply elem_of_cons in Hy. destruct Hy as [->|Hy].
      * rewrite decide_True by reflexivity. rewrite times_filter, IH2 by exact N1. lia.
      * rewrite decide_False. { rewrite (IH1 y Hy eq_refl). reflexivity. }
        intros E. apply N1. rewrite E. apply elem_of_list_fmap. eauto.
    + intros NI. cbn in NI. apply not_elem_of_cons in NI. rewrite decide_False by (intros E; destruct NI; congruence).
      rewrite IH2 by tauto. reflexivity.
Qed.
Lemma forEachOverlapping_list_spec (C : box -> Prop) s B its : (forall b, C b -> P b) -> reach C s B ->
  (forall q, q ∈ its -> is_Some (B !! q)) ->
  exists l, forEachOverlapping_list its s = Ret (l, s) /\
    (forall p q, (p, q) ∈ l -> is_Some (B !! p) /\ q ∈ its) /\
    forall p q bp vp bq vq, B !! p = Some (bp, vp) -> B !! q = Some (bq, vq) ->
      times (p, q) l = if box_overlaps bq bp then times q its else 0.
Proof.
  intros HC H Hits. destruct (reach_inv _ _ _ H) as [t [HR HB HG]].
  specialize (HG ok P OL (overlap_class N ok P VL) HC).
  assert (BA : forall q b v, B !! q = Some (b, v) -> bounds_at (hp s) q = b).
  { intros q b v Hq. apply HB in Hq. destruct Hq as (d & Hd & _). destruct HR as [[RT _ _ _ _] _].
    destruct (leaf_at_rep _ _ _ _ RT Hd) as [par Hp]. unfold bounds_at. cbn in Hp. rewrite Hp. reflexivity. }
  destruct (forEachOverlapping_list_rep [] s t its (proj1 HR)) as (res & E1 & PM).
  - intros q Hq. specialize (Hits q Hq). apply (BRep_some s t B q HR HB) in Hits. destruct Hits as (b & d & Hd).
    destruct HR as [[RT _ _ _ _] _]. destruct (leaf_at_rep _ _ _ _ RT Hd) as [par Hp]. cbn in Hp. eauto.
  - intros q Hq. destruct (Hits q Hq) as [[b v] Hb]. rewrite (BA q b v Hb). apply good_mono; [|exact HG].
    eapply (reach_P C); eauto.
  - exists res. split; [exact E1|]. split.
    + intros p q X. rewrite PM in X. unfold pairs_of in X. apply elem_of_list_bind in X. destruct X as (x & X & Hx).
      apply elem_of_list_fmap in X. destruct X as (q' & E & Hq). injection E as -> ->. apply elem_of_list_filter in Hq.
      split; [|tauto]. apply (BRep_in s t B _ HR HB). apply elem_of_list_fmap. eauto.
    + intros p q bp vp bq vq Hp Hq. rewrite (times_perm _ _ _ PM).
      pose proof Hp as Hp'. apply HB in Hp'. destruct Hp' as (d & Hd & _).
      destruct (times_pairs_of (bounds_at (hp s)) (leaves t) its p q (Rep_lptr _ _ HR)) as [X _].
      rewrite (X _ Hd eq_refl). rewrite (BA q bq vq Hq). reflexivity.
Qed.
End Queries.

(** ** C16 *)
Section Collide.
Context {N : Num} {T : Type}.
Notation st := (st T).
Implicit Types (s : st) (p q : ptr) (t u : tree) (v : T) (c : ctx) (B : bag T).

Lemma NoDup_upairs l : NoDup l -> NoDup (und <$> upairs l).
Proof.
  induction l as [|x l IH]; intros ND; cbn [upairs]; [constructor|]. apply NoDup_cons in ND as [N1 ND].
  rewrite fmap_app. apply NoDup_app. split; [|split; [|auto]].
  - apply NoDup_fmap_2_strong; [|apply NoDup_fmap_2; [intros ? ? E; congruence|exact ND]].
    intros y z Hy Hz E. apply elem_of_list_fmap in Hy, Hz. destruct Hy as (y' & -> & Hy), Hz as (z' & -> & Hz).
    destruct (und_cases x y') as [E1|E1], (und_cases x z') as [E2|E2]; congruence.
  - intros y Hy Hy'. apply elem_of_list_fmap in Hy. destruct Hy as (z & -> & Hz). apply elem_of_list_fmap in Hz.
    destruct Hz as (w & -> & Hw). apply elem_of_list_fmap in Hy'. destruct Hy' as ([a b] & E & Hab).
    destruct (elem_of_upairs l a b ND Hab) as (Ha & Hb & NE).
    destruct (und_cases x w) as [E1|E1], (und_cases a b) as [E2|E2]; rewrite E1, E2 in E; congruence.
Qed.
Lemma upairs_all l p q : p ∈ l -> q ∈ l -> p <> q -> und (p, q) ∈ und <$> upairs l.
Proof.
  intros Hp Hq NE. induction l as [|x l IH]; [inversion Hp|]. cbn [upairs]. rewrite fmap_app.
  apply elem_of_cons in Hp, Hq. apply elem_of_app.
  destruct Hp as [->|Hp], Hq as [->|Hq]; [congruence|left|left|right; auto].
  - apply elem_of_list_fmap. exists (x, q). split; [reflexivity|]. apply elem_of_list_fmap. eauto.
  - rewrite und_swap. apply elem_of_list_fmap. exists (x, p). split; [reflexivity|]. apply elem_of_list_fmap. eauto.
Qed.
Lemma reports_spec {ok : K -> Prop} {OL : OrdLaws N ok} {P : box -> Prop} {VL : OverlapLaws N ok P} upd l cs : NoDup l -> (forall p, p ∈ l -> P (upd p)) -> reports upd l cs ->
  NoDup (cs ++ (flipped <$> cs)) /\
  forall p q, (p, q) ∈ cs \/ (q, p) ∈ cs <-> p ∈ l /\ q ∈ l /\ p <> q /\ box_overlaps (upd p) (upd q) = true.
Proof.
  intros ND HP HR. unfold reports, calls_ok in HR.
  assert (EC : cross l [] = []) by (clear; induction l; cbn in *; auto). rewrite EC, app_nil_r in HR.
  assert (NDU : NoDup (und <$> cs)).
  { rewrite HR. apply NoDup_filter. apply NoDup_upairs. exact ND. }
  assert (SYM : forall p q, p ∈ l -> q ∈ l -> box_overlaps (upd p) (upd q) = box_overlaps (upd q) (upd p)).
  { intros p q Hp Hq. apply eq_true_iff_eq. rewrite !(ovl_overlaps _ _) by auto. unfold share_point. split; intros (x & ? & ? & ?); eauto. }
  assert (INV : forall p q, (p, q) ∈ cs -> p ∈ l /\ q ∈ l /\ p <> q /\ box_overlaps (upd p) (upd q) = true).
  { intros p q X. assert (Y : und (p, q) ∈ und <$> cs) by (apply elem_of_list_fmap; eauto).
    rewrite HR in Y. apply elem_of_list_filter in Y. destruct Y as [Y1 Y2].
    apply elem_of_list_fmap in Y2. destruct Y2 as ([a b] & E & Hab). destruct (elem_of_upairs l a b ND Hab) as (Ha & Hb & NE).
    assert (Z : (p = a /\ q = b) \/ (p = b /\ q = a)).
    { destruct (und_cases p q) as [E1|E1], (und_cases a b) as [E2|E2]; rewrite E1, E2 in E; injection E as -> ->; auto. }
    assert (Z2 : p ∈ l /\ q ∈ l /\ p <> q) by (destruct Z as [[-> ->]|[-> ->]]; auto). destruct Z2 as (Zp & Zq & Zn).
    split; [exact Zp|]. split; [exact Zq|]. split; [exact Zn|].
    unfold ovp in Y1. destruct (und_cases p q) as [E1|E1]; rewrite E1 in Y1; cbn in Y1; [exact Y1|]. rewrite SYM; auto. }
  assert (CSN : NoDup cs) by (eapply NoDup_fmap_1; exact NDU).
  split.
  - apply NoDup_app. split; [exact CSN|]. split.
    + intros [p q] X Y. apply elem_of_list_fmap in Y. destruct Y as ([a b] & E & Y). unfold flipped in E. cbn in E. injection E as -> ->.
      destruct (INV _ _ X) as (_ & _ & NE & _).
      apply elem_of_list_lookup in X, Y. destruct X as [i Hi], Y as [j Hj].
      assert (i = j).
      { eapply NoDup_lookup; [exact NDU| |]; rewrite list_lookup_fmap; [rewrite Hi; reflexivity|rewrite Hj; cbn; f_equal; apply und_swap]. }
      subst. rewrite Hi in Hj. congruence.
    + apply NoDup_fmap_2; [|exact CSN]. intros [a b] [a' b'] E. unfold flipped in E. cbn in E. congruence.
  - intros p q. split.
    + intros [X|X]; [apply INV; exact X|]. destruct (INV _ _ X) as (A1 & A2 & A3 & A4). rewrite SYM by auto. auto.
    + intros (Hp & Hq & NE & Ho). assert (X : und (p, q) ∈ und <$> cs).
      { rewrite HR. apply elem_of_list_filter. split; [|apply upairs_all; auto].
        unfold ovp. destruct (und_cases p q) as [E|E]; rewrite E; cbn; [exact Ho|]. rewrite SYM; auto. }
      apply elem_of_list_fmap in X. destruct X as ([a b] & E & Hab).
      destruct (und_cases p q) as [E1|E1], (und_cases a b) as [E2|E2]; rewrite E1, E2 in E; injection E as -> ->; auto.
Qed.
Lemma op_insert_ok E s t B upd : Inv (fun _ => True) s t B -> op_pre E s B (HCollide upd) ->
  forall x, leaves t = [x] -> insert_ok (tbnd t) (upd (lptr x)) = true.
Proof.
  intros [HR HB HG] PRE [[p b] dd] El. cbn in PRE. destruct (Rep_data s t (p, b, dd) HR) as [v Hv]; [rewrite El; left|]. cbn in Hv.
  apply (PRE p (b, v) (tbnd t)).
  - apply map_eq. intros q. destruct (decide (q = p)) as [->|NE].
    + rewrite lookup_singleton. apply HB. exists dd. rewrite El. split; [left|exact Hv].
    + rewrite lookup_singleton_ne by congruence. apply eq_None_not_Some. rewrite (BRep_in s t B q HR HB), El. cbn.
      intros X. apply elem_of_list_singleton in X. congruence.
  - apply (tree_bounds_rep [] s t), HR.
Qed.
Lemma Inv_weak C s t B : Inv C s t B -> Inv (fun _ => True) s t B.
Proof. intros [HR HB HG]. constructor; auto. intros ok P OL BC HC. apply (HG ok P OL BC). auto. Qed.
Lemma collide_spec C E s B upd : reach C s B -> env_ok E -> op_pre E s B (HCollide upd) -> op_in C B (HCollide upd) ->
  exists its cs s', updateAndCollide E upd s = Ret ((its, cs), s') /\
    NoDup its /\ (forall p, p ∈ its <-> is_Some (B !! p)) /\
    reach C s' (map_imap (fun it x => Some (upd it, x.2)) B) /\
    forall (ok : K -> Prop) (P : box -> Prop), OrdLaws N ok -> OverlapLaws N ok P -> (forall b, C b -> P b) ->
      NoDup (cs ++ (flipped <$> cs)) /\
      forall p q, (p, q) ∈ cs \/ (q, p) ∈ cs <->
        is_Some (B !! p) /\ is_Some (B !! q) /\ p <> q /\ box_overlaps (upd p) (upd q) = true.
Proof.
  intros HR HE PRE INC. destruct (reach_inv _ _ _ HR) as [t I]. pose proof (op_insert_ok E s t B upd (Inv_weak _ _ _ _ I) PRE) as IO.
  destruct (safe C E s B (HCollide upd) HR HE PRE INC) as (res & s2 & RUN & HR2). destruct I as [HRp HB HG].
  destruct (collide_rep E upd s t HE HRp IO) as (s' & t' & cs & E1 & R1 & L1 & D1 & RR1 & RP & _).
  exists (lptr <$> leaves t), cs, s'. split; [exact E1|]. split; [apply (Rep_lptr _ _ HRp)|].
  split; [intros p; symmetry; apply (BRep_in s t B p HRp HB)|].
  cbn [run_op] in RUN. rewrite (bind_ret _ _ _ _ _ E1) in RUN. injection RUN as <- <-. split; [exact HR2|].
  intros ok P OL VL HC.
  assert (HP : forall p, p ∈ lptr <$> leaves t -> P (upd p)).
  { intros p Hp. apply HC. apply (INC p). apply (BRep_in s t B p HRp HB). exact Hp. }
  destruct (reports_spec (P := P) upd _ cs (Rep_lptr _ _ HRp) HP) as [X1 X2].
  { apply (RP ok P OL VL). intros x Hx. apply HP. apply elem_of_list_fmap. eauto. }
  split; [exact X1|]. intros p q. rewrite X2, !(BRep_in s t B _ HRp HB). tauto.
Qed.

(** ** C17 *)
Lemma steps_follow C (os : list (hop T)) x y it b v : steps C os x y -> x.2 !! it = Some (b, v) -> existsb (kills it) os = false ->
  (exists s t, Inv C s t x.2 /\ s = x.1) ->
  y.2 !! it = Some (fold_left (rebound it) os b, v).
Proof.
  intros HS. revert b. induction HS as [x|o os x y z HO HS IH]; intros b Hit HK HI; [exact Hit|].
  cbn [existsb] in HK. apply orb_false_elim in HK. destruct HK as [K1 K2]. destruct HO as (E & res & HE & PRE & INC & RUN & EB).
  destruct HI as (s & t & HI & ->).
  destruct (step_inv C E o x.1 t x.2 HE HI PRE INC) as (res' & s' & t' & RUN' & H' & _).
  rewrite RUN in RUN'. injection RUN' as <- <-. rewrite <- EB in H'.
  cbn [fold_left]. apply IH; [|exact K2|eauto].
  rewrite EB. destruct o as [b' v'|q|q b'| |upd]; cbn [spec_step rebound kills] in *.
  - (* insert *)
    destruct res as [r|]; [|exact Hit].
    destruct (decide (r = it)) as [->|NE]; [|rewrite lookup_insert_ne by exact NE; exact Hit].
    exfalso. cbn in RUN. destruct HI as [HR HB HG].
    destruct (insert_rep E x.1 t b' v' HE HR) as (p & dd & s2 & t2 & E2 & R2 & RR2 & L2 & Np & _).
    { apply PRE. apply (tree_bounds_rep []). apply HR. }
    rewrite (bind_ret _ _ _ _ _ E2) in RUN. injection RUN as -> _.
    apply Np. assert (X : it ∈ lptr <$> leaves t) by (apply (BRep_in _ _ _ it HR HB); eauto). apply lptr_sub. exact X.
  - rewrite lookup_delete_ne; [exact Hit|]. apply bool_decide_eq_false in K1. exact K1.
  - case_bool_decide as Hq; [subst; rewrite lookup_alter, Hit; reflexivity|]. rewrite lookup_alter_ne by congruence. exact Hit.
  - discriminate.
  - rewrite map_lookup_imap, Hit. reflexivity.
Qed.
Lemma reach_Inv2 C s B : reach C s B -> exists s' t, Inv C s' t B /\ s' = s.
Proof. intros H. destruct (reach_inv _ _ _ H) as [t I]. eauto. Qed.
Lemma steps_app C (os os' : list (hop T)) x y z : steps C os x y -> steps C os' y z -> steps C (os ++ os') x z.
Proof. induction 1; intros H2; cbn; [exact H2|]. econstructor; eauto. Qed.
Lemma reach_steps C s B os s' B' : reach C s B -> steps C os (s, B) (s', B') -> reach C s' B'.
Proof. intros (E & s0 & os0 & HE & HC & HS) H. exists E, s0, (os0 ++ os). split; [exact HE|]. split; [exact HC|]. eapply steps_app; eauto. Qed.
Lemma iter_stable C s B (os : list (hop T)) s' B' it b v : reach C s B -> steps C os (s, B) (s', B') -> B !! it = Some (b, v) ->
  existsb (kills it) os = false ->
  deref_it it s' = Ret (v, s') /\ bounds_it it s' = Ret (fold_left (rebound it) os b, s').
Proof.
  intros HR HS Hit HK. pose proof (steps_follow C os _ _ it b v HS Hit HK (reach_Inv2 _ _ _ HR)) as F. cbn in F.
  destruct (reach_inv _ _ _ (reach_steps _ _ _ _ _ _ HR HS)) as [t [HRp HB HG]]. apply HB in F. destruct F as (d & Hd & Hv).
  destruct (leaf_read s' t it _ d v HRp Hd Hv) as [R1 R2]. auto.
Qed.
Lemma end_stable C s B (os : list (hop T)) s' B' : reach C s B -> steps C os (s, B) (s', B') ->
  forallb (fun o => match o with HClear => false | _ => true end) os = true ->
  exists e, end_it s = Ret (e, s) /\ end_it s' = Ret (e, s').
Proof.
  intros HR HS HK. destruct (reach_inv _ _ _ HR) as [t I].
  destruct (steps_inv C os (s, B) (s', B') t I HS) as (t' & I' & K). cbn in K.
  exists (root s). split; [reflexivity|]. unfold end_it, get_root. rewrite K; [reflexivity|]. exact HK.
Qed.

(** ** C18 *)
Lemma erase_spec C s B l1 it l2 : reach C s B -> iterate_all s = Ret (l1 ++ it :: l2, s) ->
  exists s', erase it s = Ret (match l2 with [] => root s | nx :: _ => nx end, s') /\
    root s' = root s /\ reach C s' (delete it B).
Proof.
  intros HR HI. destruct (reach_inv _ _ _ HR) as [t [HRp HB HG]].
  rewrite (iterate_all_rep [] s t (proj1 HRp)) in HI. injection HI as HI.
  apply fmap_app_inv in HI. destruct HI as (L1 & L2' & -> & E2 & EL). symmetry in E2. apply fmap_cons_inv in E2.
  destruct E2 as ([[p b] dd] & L2 & E3 & E4 & ->). cbn in E3. subst.
  assert (Hx : (p, b, dd) ∈ leaves t) by (rewrite EL; apply elem_of_app; right; left).
  destruct (extract_rep' s t p b dd (proj1 HRp) Hx) as (c & X).
  destruct (erase_rep s t L1 p b dd L2 c HRp EL X) as (s' & E1 & R1 & RR1 & D1).
  assert (PRE : is_Some (B !! p)) by (apply (BRep_some s t B p HRp HB); eauto).
  exists s'. split; [|split; [exact RR1|]].
  - cbn. rewrite E1. destruct L2; reflexivity.
  - set (E0 := @Env N fresh fresh (fun _ => 0)).
    assert (HE : env_ok E0) by (split; intros Y; apply is_fresh).
    destruct (safe C E0 s B (HErase p) HR HE PRE I) as (res & s2 & RUN & HR2). cbn in RUN, HR2.
    rewrite (bind_ret _ _ _ _ _ E1) in RUN. injection RUN as _ <-. exact HR2.
Qed.

(** ** C21 *)
Lemma owns_spec C s B : reach C s B ->
  (forall p q d, owns s p d -> owns s q d -> p = q) /\
  (forall d, is_Some (dp s !! d) <-> exists p, owns s p d) /\
  (forall p, (exists d, owns s p d) <-> is_Some (B !! p)).
Proof.
  intros HR. destruct (reach_inv _ _ _ HR) as [t [HRp HB HG]].
  assert (O : forall p d, owns s p d <-> exists b, (p, b, d) ∈ leaves t).
  { intros p d. destruct HRp as [[RT RR ND DM WF] _]. cbn in DM. split.
    - intros (n & Hn & Hd). assert (I1 : p ∈ ptrs t) by (apply DM; eauto).
      destruct (rep_node _ _ _ RT I1) as (u & c & -> & Eu & RU & RC).
      destruct u as [|p' b dd'|p' b l r']; [discriminate|..]; cbn in Eu; injection Eu as ->; cbn in RU.
      + rewrite RU in Hn. injection Hn as <-. cbn in Hd. injection Hd as ->. exists b. rewrite leaves_plug. left.
      + destruct RU as (Rp & _). rewrite Rp in Hn. injection Hn as <-. discriminate.
    - intros [b Hb]. destruct (leaf_at_rep _ _ _ _ RT Hb) as [par Hp]. cbn in Hp. eexists; split; [exact Hp|reflexivity]. }
  assert (NDD : NoDup (datas (leaves t))) by (destruct HRp as [_ [X _]]; exact X).
  split; [|split].
  - intros p q d Hp Hq. apply O in Hp, Hq. destruct Hp as [b Hb], Hq as [b' Hb'].
    pose proof (datas_inj _ _ _ NDD Hb Hb' eq_refl) as E. congruence.
  - intros d. destruct HRp as [_ [_ DD]]. rewrite DD. unfold datas. rewrite elem_of_list_fmap. split.
    + intros ([[p b] d'] & -> & Hx). exists p. apply O. eauto.
    + intros [p Hp]. apply O in Hp. destruct Hp as [b Hb]. exists (p, b, d). auto.
  - intros p. rewrite (BRep_some s t B p HRp HB). split.
    + intros [d Hd]. apply O in Hd. destruct Hd as [b Hb]. eauto.
    + intros (b & d & Hx). exists d. apply O. eauto.
Qed.
Lemma destroy_spec C s B : reach C s B -> exists s', destroy s = Ret (tt, s') /\ hp s' = ∅ /\ dp s' = ∅.
Proof. intros HR. destruct (reach_inv _ _ _ HR) as [t [HRp _ _]]. eapply destroy_rep; exact HRp. Qed.
Lemma clear_spec C E s B : reach C s B -> env_ok E -> exists s', clear E s = Ret (tt, s') /\ reach C s' ∅ /\
  dp s' = ∅ /\ exists n, hp s' = {[root s' := n]}.
Proof.
  intros HR HE. destruct (reach_inv _ _ _ HR) as [t [HRp _ _]].
  destruct (clear_rep E s t HE HRp) as (s' & E1 & R1 & D1).
  destruct (safe C E s B HClear HR HE I I) as (res & s2 & RUN & HR2). cbn in RUN, HR2.
  rewrite (bind_ret _ _ _ _ _ E1) in RUN. injection RUN as _ <-. exists s'. split; [exact E1|]. split; [exact HR2|].
  split; [exact D1|]. destruct R1 as [[RT _ _ DM _] _]. cbn in RT, DM. destruct RT as (Rp & _).
  eexists. apply map_eq. intros q. destruct (decide (q = root s')) as [->|NE].
  - rewrite lookup_singleton. exact Rp.
  - rewrite lookup_singleton_ne by congruence. apply eq_None_not_Some. rewrite DM. intros X.
    apply elem_of_cons in X. destruct X as [X|X]; [congruence|inversion X].
Qed.
End Collide.
