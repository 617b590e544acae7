(** OverlapList, and forEachOverlapping on a list of iterators. *)
From stdpp Require Import base option list gmap fin_maps sorting.
From Verif Require Import Num Outcome Algo AlgoFacts Box BoxFacts RTree RTreeFun RTreeHeap RTreeRot RTreeRefit RTreeEdit RTreeExtract RTreeInsert RTreeIter.

Section SortFacts.
Context {A : Type}.
Implicit Types (l : list A).

Lemma nth_error_lookup l k : nth_error l k = l !! k.
Proof. revert k. induction l; intros [|k]; cbn; auto. Qed.

Lemma boolean_sort_ext (p p' : A -> bool) fuel : forall l i j,
  (forall x, x ∈ l -> p x = p' x) -> boolean_sort fuel p l i j = boolean_sort fuel p' l i j.
Proof.
  induction fuel as [|fuel IH]; intros l i j H; cbn [boolean_sort]; destruct (Nat.eqb i j); auto.
  destruct (nth_error l i) as [x|] eqn:Ei; cbn; [|reflexivity].
  rewrite (H x). 2:{ rewrite nth_error_lookup in Ei. eapply elem_of_list_lookup_2. exact Ei. }
  destruct (p' x); [apply IH; exact H|]. destruct j as [|j]; [reflexivity|].
  destruct (swap_nth l i j) as [l'| | |] eqn:Es; cbn; try reflexivity.
  apply IH. intros y Hy. apply H. apply swap_perm in Es. rewrite Es. exact Hy.
Qed.

Lemma filter_ext_in (P Q : A -> Prop) `{DP : forall x, Decision (P x), DQ : forall x, Decision (Q x)} l :
  (forall x, x ∈ l -> P x <-> Q x) -> filter P l = filter Q l.
Proof.
  induction l as [|x l IH]; intros H; [reflexivity|].
  rewrite !filter_cons. assert (Hx := H x ltac:(left)).
  rewrite IH by (intros y Hy; apply H; right; exact Hy).
  destruct (decide (P x)), (decide (Q x)); tauto || reflexivity.
Qed.
Lemma filter_all (P : A -> Prop) `{DP : forall x, Decision (P x)} l :
  (forall x, x ∈ l -> P x) -> filter P l = l.
Proof.
  induction l as [|x l IH]; intros H; [reflexivity|].
  rewrite filter_cons_True by (apply H; left). f_equal. apply IH. intros y Hy. apply H. right. exact Hy.
Qed.
Lemma filter_none (P : A -> Prop) `{DP : forall x, Decision (P x)} l :
  (forall x, x ∈ l -> ~ P x) -> filter P l = [].
Proof.
  induction l as [|x l IH]; intros H; [reflexivity|].
  rewrite filter_cons_False by (apply H; left). apply IH. intros y Hy. apply H. right. exact Hy.
Qed.
Lemma boolean_sort_filter (p : A -> bool) l m : m <= length l ->
  exists l' m', boolean_sort m p l 0 m = Ret (l', m') /\
    m' <= m /\ length l' = length l /\ take m l' ≡ₚ take m l /\ drop m l' = drop m l /\
    take m' l' ≡ₚ filter (fun x => p x = true) (take m l) /\
    drop m' (take m l') ≡ₚ filter (fun x => p x = false) (take m l).
Proof.
  intros Hm. destruct (boolean_sort_spec p m l 0 m m) as (l' & m' & E & M & Len & P & Out & Tr & Fa); try lia.
  exists l', m'. split; [exact E|]. split; [lia|]. split; [exact Len|].
  assert (D : drop m l' = drop m l).
  { apply list_eq. intros k. rewrite !lookup_drop, <- !nth_error_lookup. apply Out. lia. }
  assert (TP : take m l' ≡ₚ take m l).
  { apply (Permutation_app_inv_r (drop m l)). rewrite <- D at 1. rewrite !take_drop. symmetry. exact P. }
  split; [exact TP|]. split; [exact D|].
  assert (S1 : take m l' = take m' l' ++ drop m' (take m l')).
  { rewrite <- (take_drop m' (take m l')) at 1. rewrite take_take. f_equal. f_equal. lia. }
  assert (F1 : Forall (fun x => p x = true) (take m' l')).
  { apply Forall_lookup. intros k x Hk. apply lookup_take_Some in Hk. destruct Hk as [Hk Hlt].
    apply (Tr k); [lia|]. rewrite nth_error_lookup. exact Hk. }
  assert (F2 : Forall (fun x => p x = false) (drop m' (take m l'))).
  { apply Forall_lookup. intros k x Hk. rewrite lookup_drop in Hk. apply lookup_take_Some in Hk. destruct Hk as [Hk Hlt].
    apply (Fa (m' + k)); [lia|]. rewrite nth_error_lookup. exact Hk. }
  split.
  - rewrite <- TP, S1, filter_app.
    assert (X1 : filter (fun x => p x = true) (take m' l') = take m' l').
    { clear -F1. induction F1 as [|x k Hx F IH]; [reflexivity|]. rewrite filter_cons_True by exact Hx. f_equal. exact IH. }
    assert (X2 : filter (fun x => p x = true) (drop m' (take m l')) = []).
    { clear -F2. induction F2 as [|x k Hx F IH]; [reflexivity|]. rewrite filter_cons_False by congruence. exact IH. }
    rewrite X1, X2, app_nil_r. reflexivity.
  - rewrite <- TP. rewrite S1 at 2. rewrite filter_app.
    assert (X1 : filter (fun x => p x = false) (take m' l') = []).
    { clear -F1. induction F1 as [|x k Hx F IH]; [reflexivity|]. rewrite filter_cons_False by congruence. exact IH. }
    assert (X2 : filter (fun x => p x = false) (drop m' (take m l')) = drop m' (take m l')).
    { clear -F2. induction F2 as [|x k Hx F IH]; [reflexivity|]. rewrite filter_cons_True by exact Hx. f_equal. exact IH. }
    rewrite X1, X2. reflexivity.
Qed.
End SortFacts.

Section OL.
Context {N : Num}.
Implicit Types (p q : ptr) (t u : tree) (o : overlap_list).

Definition ol_ok o : Prop := ol_middle o <= length (ol_nodes o).
(** same elements in the first [m] places, same list after them *)
Definition olrel (m : nat) (l l' : list ptr) : Prop :=
  length l' = length l /\ take m l' ≡ₚ take m l /\ drop m l' = drop m l.
Lemma olrel_refl m l : olrel m l l.
Proof. split; auto. Qed.
Lemma olrel_trans m l1 l2 l3 : olrel m l1 l2 -> olrel m l2 l3 -> olrel m l1 l3.
Proof.
  intros (A1 & A2 & A3) (B1 & B2 & B3). split; [congruence|]. split; [|congruence].
  rewrite B2. exact A2.
Qed.
Lemma olrel_mono m m' l l' : m <= m' -> olrel m l l' -> olrel m' l l'.
Proof.
  intros H (A1 & A2 & A3). split; [exact A1|].
  replace m' with (m + (m' - m)) by lia.
  split.
  - rewrite <- (take_take_drop l' m), <- (take_take_drop l m), A2, A3. reflexivity.
  - rewrite <- !drop_drop, A3. reflexivity.
Qed.
Lemma olrel_perm m l l' : olrel m l l' -> l' ≡ₚ l.
Proof. intros (_ & A2 & A3). rewrite <- (take_drop m l'), <- (take_drop m l), A2, A3. reflexivity. Qed.
Definition ol_sortF (bnd : ptr -> box) o (b : box) : overlap_list :=
  match boolean_sort (ol_middle o) (fun p => box_overlaps (bnd p) b) (ol_nodes o) 0 (ol_middle o) with
  | Ret (l, m) => OL l m
  | _ => o
  end.
Lemma ol_sortF_spec bnd o b : ol_ok o ->
  let o' := ol_sortF bnd o b in
  boolean_sort (ol_middle o) (fun p => box_overlaps (bnd p) b) (ol_nodes o) 0 (ol_middle o)
    = Ret (ol_nodes o', ol_middle o') /\
  ol_ok o' /\ ol_middle o' <= ol_middle o /\ ol_nodes o' ≡ₚ ol_nodes o /\
  olrel (ol_middle o) (ol_nodes o) (ol_nodes o') /\
  ol_overlapping o' ≡ₚ filter (fun p => box_overlaps (bnd p) b = true) (ol_overlapping o).
Proof.
  intros OK. destruct (boolean_sort_filter (fun p => box_overlaps (bnd p) b) (ol_nodes o) (ol_middle o) OK)
    as (l' & m' & E & M & Len & TP & D & F1 & F2).
  cbn zeta. unfold ol_sortF. rewrite E. cbn [ol_nodes ol_middle].
  split; [reflexivity|]. split; [unfold ol_ok in *; cbn; lia|]. split; [exact M|].
  split; [rewrite <- (take_drop (ol_middle o) l'), <- (take_drop (ol_middle o) (ol_nodes o)), TP, D; reflexivity|].
  split; [split; auto|]. unfold ol_overlapping. cbn. exact F1.
Qed.
Lemma ol_sortF_ext bnd bnd' o b : (forall p, p ∈ ol_nodes o -> bnd p = bnd' p) ->
  ol_sortF bnd o b = ol_sortF bnd' o b.
Proof.
  intros H. unfold ol_sortF. erewrite boolean_sort_ext; [reflexivity|].
  intros x Hx. cbn. rewrite H by exact Hx. reflexivity.
Qed.

(** forEachOverlapping(subRoot, list) on trees *)
Fixpoint subF (bnd : ptr -> box) u o : list (ptr * ptr) * overlap_list :=
  match u with
  | Nil => ([], o)
  | Leaf p _ _ => ((fun q => (p, q)) <$> ol_overlapping o, o)
  | Bin _ _ l r =>
      let a := subF bnd l (ol_sortF bnd o (tbnd l)) in
      let c := subF bnd r (ol_sortF bnd (ol_setMiddle a.2 (ol_middle o)) (tbnd r)) in
      (a.1 ++ c.1, c.2)
  end.

Lemma subF_rel bnd u : forall o, ol_ok o ->
  olrel (ol_middle o) (ol_nodes o) (ol_nodes (subF bnd u o).2) /\ ol_ok (subF bnd u o).2.
Proof.
  induction u as [|p b d|p b l IHl r IHr]; intros o OK; cbn [subF snd].
  - split; [apply olrel_refl|exact OK].
  - split; [apply olrel_refl|exact OK].
  - destruct (ol_sortF_spec bnd o (tbnd l) OK) as (_ & OK1 & M1 & _ & R1 & _).
    destruct (IHl _ OK1) as [R2 OK2].
    set (a := subF bnd l (ol_sortF bnd o (tbnd l))) in *.
    assert (RA : olrel (ol_middle o) (ol_nodes o) (ol_nodes a.2)).
    { eapply olrel_trans; [exact R1|]. eapply olrel_mono; [|exact R2]. exact M1. }
    assert (OK3 : ol_ok (ol_setMiddle a.2 (ol_middle o))).
    { unfold ol_ok in *. cbn. rewrite (proj1 RA). exact OK. }
    destruct (ol_sortF_spec bnd _ (tbnd r) OK3) as (_ & OK4 & M4 & _ & R4 & _).
    cbn [ol_setMiddle ol_middle ol_nodes] in M4, R4.
    destruct (IHr _ OK4) as [R5 OK5]. split; [|exact OK5].
    eapply olrel_trans; [exact RA|]. eapply olrel_trans; [exact R4|]. eapply olrel_mono; [|exact R5]. exact M4.
Qed.

(** nothing below a node satisfies [f] unless the node's bounds do *)
Fixpoint mono (f : box -> bool) u : Prop :=
  match u with
  | Bin _ b l r => (forall x, x ∈ leaves l ++ leaves r -> f (lbnd x) = true -> f b = true) /\ mono f l /\ mono f r
  | _ => True
  end.
Lemma mono_tbnd f u x : mono f u -> x ∈ leaves u -> f (lbnd x) = true -> f (tbnd u) = true.
Proof.
  destruct u as [|p b d|p b l r]; cbn [mono leaves tbnd].
  - intros _ H. inversion H.
  - intros _ H. apply elem_of_list_singleton in H. subst. auto.
  - intros (H & _ & _). apply H.
Qed.

Definition pairs_of (bnd : ptr -> box) (L : list (ptr * box * ptr)) (Q : list ptr) : list (ptr * ptr) :=
  L ≫= fun x => (fun q => (lptr x, q)) <$> filter (fun q => box_overlaps (bnd q) (lbnd x) = true) Q.
Global Instance pairs_of_proper bnd L : Proper (Permutation ==> Permutation) (pairs_of bnd L).
Proof.
  intros Q1 Q2 P. unfold pairs_of. induction L as [|x L IH]; [reflexivity|].
  cbn. rewrite P, IH. reflexivity.
Qed.
Lemma pairs_of_app bnd L1 L2 Q : pairs_of bnd (L1 ++ L2) Q = pairs_of bnd L1 Q ++ pairs_of bnd L2 Q.
Proof. apply bind_app. Qed.
Lemma pairs_of_filter bnd L Q b :
  (forall q x, q ∈ Q -> x ∈ L -> box_overlaps (bnd q) (lbnd x) = true -> box_overlaps (bnd q) b = true) ->
  pairs_of bnd L (filter (fun q => box_overlaps (bnd q) b = true) Q) = pairs_of bnd L Q.
Proof.
  intros H. unfold pairs_of.
  induction L as [|x L IH]; [reflexivity|]. cbn. f_equal.
  2:{ apply IH. intros q y Hq Hy. apply H; [exact Hq|right; exact Hy]. }
  f_equal. rewrite list_filter_filter. apply filter_ext_in.
  intros q Hq. split; [tauto|]. intros X. split; [exact X|].
  apply (H q x); [exact Hq|left|exact X].
Qed.

Lemma subF_pairs bnd u : forall o, ol_ok o ->
  (forall q, q ∈ ol_overlapping o -> mono (box_overlaps (bnd q)) u /\ box_overlaps (bnd q) (tbnd u) = true) ->
  (subF bnd u o).1 ≡ₚ pairs_of bnd (leaves u) (ol_overlapping o).
Proof.
  induction u as [|p b d|p b l IHl r IHr]; intros o OK H; cbn [subF fst leaves].
  - reflexivity.
  - unfold pairs_of. cbn. rewrite app_nil_r. apply fmap_Permutation.
    rewrite filter_all; [reflexivity|]. intros q Hq. apply (H q Hq).
  - rewrite pairs_of_app.
    destruct (ol_sortF_spec bnd o (tbnd l) OK) as (_ & OK1 & M1 & _ & R1 & F1).
    destruct (subF_rel bnd l _ OK1) as [R2 OK2].
    rewrite IHl; [|exact OK1|].
    2:{ intros q. rewrite F1, elem_of_list_filter. intros [Hq1 Hq2]. split; [|exact Hq1].
        apply (H q Hq2). }
    set (a := subF bnd l (ol_sortF bnd o (tbnd l))) in *.
    assert (RA : olrel (ol_middle o) (ol_nodes o) (ol_nodes a.2)).
    { eapply olrel_trans; [exact R1|]. eapply olrel_mono; [|exact R2]. exact M1. }
    assert (OK3 : ol_ok (ol_setMiddle a.2 (ol_middle o))).
    { unfold ol_ok in *. cbn. rewrite (proj1 RA). exact OK. }
    destruct (ol_sortF_spec bnd _ (tbnd r) OK3) as (_ & OK4 & M4 & _ & R4 & F4).
    assert (E3 : ol_overlapping (ol_setMiddle a.2 (ol_middle o)) ≡ₚ ol_overlapping o) by apply RA.
    rewrite E3 in F4.
    rewrite IHr; [|exact OK4|].
    2:{ intros q. rewrite F4, elem_of_list_filter. intros [Hq1 Hq2]. split; [|exact Hq1].
        apply (H q Hq2). }
    rewrite F1, F4. rewrite !pairs_of_filter; [reflexivity|..].
    + intros q x Hq Hx. apply mono_tbnd; [|exact Hx]. apply (H q Hq).
    + intros q x Hq Hx. apply mono_tbnd; [|exact Hx]. apply (H q Hq).
Qed.
End OL.

Section OLHeap.
Context {N : Num} {T : Type}.
Notation st := (st T).
Implicit Types (h : gmap ptr node) (p q : ptr) (t u : tree) (o : overlap_list).

Lemma all_alive_true h l : (forall p, p ∈ l -> is_Some (h !! p)) -> all_alive h l = true.
Proof.
  intros H. apply forallb_forall. intros p Hp. apply bool_decide_eq_true, H, elem_of_list_In. exact Hp.
Qed.
Lemma ol_overlapping_sub o p : p ∈ ol_overlapping o -> p ∈ ol_nodes o.
Proof. unfold ol_overlapping. rewrite <- (take_drop (ol_middle o) (ol_nodes o)) at 2. intros H. apply elem_of_app. left. exact H. Qed.

Lemma ol_sort_heap o b h d r : ol_ok o -> (forall p, p ∈ ol_nodes o -> is_Some (h !! p)) ->
  @ol_sort N T o b (St h d r) = Ret (ol_sortF (bounds_at h) o b, St h d r).
Proof.
  intros OK AL. unfold ol_sort. cbn [hp].
  rewrite all_alive_true by (intros p Hp; apply AL, ol_overlapping_sub, Hp).
  destruct (ol_sortF_spec (bounds_at h) o b OK) as (E & _). rewrite E.
  destruct (ol_sortF (bounds_at h) o b); reflexivity.
Qed.

Lemma sub_heap u : forall fuel h d r par p o,
  full u -> rep h par u -> tptr u = Some p -> depth u <= fuel -> ol_ok o ->
  (forall q, q ∈ ol_nodes o -> is_Some (h !! q)) ->
  @forEachOverlapping_sub N T fuel p o (St h d r) = Ret (subF (bounds_at h) u o, St h d r).
Proof.
  induction u as [|q b dd|q b ul IHl ur IHr]; intros fuel h d r par p o F R E HF OK AL; cbn [rep depth full tptr] in *.
  - contradiction.
  - injection E as <-. destruct fuel; cbn [forEachOverlapping_sub subF]; mstep; reflexivity.
  - injection E as <-. destruct F as [Fl Fr]. destruct R as (Eq & RL & RR). destruct fuel as [|fuel]; [lia|].
    cbn [forEachOverlapping_sub subF]. mstep. change (isLeaf _) with false. cbn iota.
    destruct (full_tptr _ Fl) as [pl El]. destruct (full_tptr _ Fr) as [pr Er]. rewrite El, Er in Eq. rewrite El.
    destruct (rep_lookup _ _ _ _ RL El) as (nl & Hl & _ & Bl & _).
    destruct (rep_lookup _ _ _ _ RR Er) as (nr & Hr & _ & Br & _).
    mstep. mstep. rewrite Bl.
    erewrite bind_ret by (apply ol_sort_heap; [exact OK|exact AL]).
    destruct (ol_sortF_spec (bounds_at h) o (tbnd ul) OK) as (_ & OK1 & M1 & P1 & R1 & _).
    assert (AL1 : forall q, q ∈ ol_nodes (ol_sortF (bounds_at h) o (tbnd ul)) -> is_Some (h !! q)).
    { intros x Hx. apply AL. rewrite <- P1. exact Hx. }
    erewrite bind_ret by (eapply IHl; [exact Fl|exact RL|exact El|lia|exact OK1|exact AL1]).
    destruct (subF_rel (bounds_at h) ul _ OK1) as [R2 OK2].
    set (a := subF (bounds_at h) ul (ol_sortF (bounds_at h) o (tbnd ul))) in *.
    assert (RA : olrel (ol_middle o) (ol_nodes o) (ol_nodes a.2)).
    { eapply olrel_trans; [exact R1|]. eapply olrel_mono; [|exact R2]. exact M1. }
    assert (OK3 : ol_ok (ol_setMiddle a.2 (ol_middle o))).
    { unfold ol_ok in *. cbn. rewrite (proj1 RA). exact OK. }
    assert (AL3 : forall q, q ∈ ol_nodes (ol_setMiddle a.2 (ol_middle o)) -> is_Some (h !! q)).
    { intros x Hx. apply AL. rewrite <- (olrel_perm _ _ _ RA). exact Hx. }
    mstep. mstep. mstep. rewrite Br.
    erewrite bind_ret by (apply ol_sort_heap; [exact OK3|exact AL3]).
    destruct (ol_sortF_spec (bounds_at h) _ (tbnd ur) OK3) as (_ & OK4 & M4 & P4 & R4 & _).
    assert (AL4 : forall q, q ∈ ol_nodes (ol_sortF (bounds_at h) (ol_setMiddle a.2 (ol_middle o)) (tbnd ur)) -> is_Some (h !! q)).
    { intros x Hx. apply AL3. rewrite <- P4. exact Hx. }
    erewrite bind_ret by (eapply IHr; [exact Fr|exact RR|exact Er|lia|exact OK4|exact AL4]).
    reflexivity.
Qed.

(** forEachOverlapping(iterators, func) of a tree [t] reports each element
    with each listed iterator whose bounds overlap it. *)
Lemma forEachOverlapping_list_rep X s t its : RepX X s t ->
  (forall q, q ∈ its -> is_Some (hp s !! q)) ->
  (forall q, q ∈ its -> mono (box_overlaps (bounds_at (hp s) q)) t) ->
  exists res, @forEachOverlapping_list N T its s = Ret (res, s) /\
    res ≡ₚ pairs_of (bounds_at (hp s)) (leaves t) its.
Proof.
  intros H AL MO. pose proof (RepX_size _ _ _ H) as SZ. pose proof (depth_le t) as DP. destruct H as [RT RR ND DM WF].
  destruct s as [h d r]. cbn [hp root] in *.
  destruct t as [|?|q b tl tr]; cbn [wf_root] in WF; try contradiction.
  cbn [tptr] in RR. injection RR as ->. destruct WF as [WL WR]. cbn [rep] in RT. destruct RT as (Eq & RL & RR).
  cbn [depth] in DP.
  unfold forEachOverlapping_list.
  rewrite (bind_ret _ _ _ (size h) (St h d r)) by reflexivity.
  rewrite (bind_ret _ _ _ r (St h d r)) by reflexivity.
  mstep.
  set (o := ol_of_list its).
  assert (OK : ol_ok o) by (unfold ol_ok, o; cbn; lia).
  assert (OV : ol_overlapping o = its) by (unfold o, ol_overlapping; cbn; apply take_ge; lia).
  set (mid := ol_middle o).
  assert (SL : exists a, (match tptr tl with
       | None => ret ([], o)
       | Some lp => bind (rd lp) (fun nl => bind (ol_sort o (nbounds nl)) (fun l => @forEachOverlapping_sub N T (size h) lp l))
       end) (St h d r) = Ret (a, St h d r) /\ olrel mid (ol_nodes o) (ol_nodes a.2) /\
       a.1 ≡ₚ pairs_of (bounds_at h) (leaves tl) its).
  { destruct WL as [->|FL].
    - exists ([], o). split; [reflexivity|]. split; [apply olrel_refl|reflexivity].
    - destruct (full_tptr _ FL) as [pl El]. rewrite El.
      destruct (rep_lookup _ _ _ _ RL El) as (nl & Hl & _ & Bl & _).
      mstep. rewrite Bl. erewrite bind_ret by (apply ol_sort_heap; [exact OK|exact AL]).
      destruct (ol_sortF_spec (bounds_at h) o (tbnd tl) OK) as (_ & OK1 & M1 & P1 & R1 & F1).
      eexists. split; [eapply sub_heap; [exact FL|exact RL|exact El|lia|exact OK1|]|].
      { intros x Hx. apply AL. change its with (ol_nodes o). rewrite <- P1. exact Hx. }
      destruct (subF_rel (bounds_at h) tl _ OK1) as [R2 OK2]. rewrite OV in F1. split.
      + eapply olrel_trans; [exact R1|]. eapply olrel_mono; [exact M1|exact R2].
      + rewrite subF_pairs; [|exact OK1|].
        * rewrite F1, pairs_of_filter; [reflexivity|].
          intros x y Hx Hy. apply mono_tbnd; [|exact Hy]. apply (MO x Hx).
        * intros x. rewrite F1, elem_of_list_filter. intros [Hx1 Hx2]. split; [|exact Hx1]. apply (MO x Hx2). }
  destruct SL as (a & Ea & Ra & Pa). rewrite (bind_ret _ _ _ _ _ Ea). mstep.
  assert (OK3 : ol_ok (ol_setMiddle a.2 mid)) by (unfold ol_ok in *; cbn; rewrite (proj1 Ra); exact OK).
  assert (AL3 : forall q, q ∈ ol_nodes (ol_setMiddle a.2 mid) -> is_Some (h !! q)).
  { intros x Hx. apply AL. change its with (ol_nodes o). rewrite <- (olrel_perm _ _ _ Ra). exact Hx. }
  assert (OV3 : ol_overlapping (ol_setMiddle a.2 mid) ≡ₚ its).
  { rewrite <- OV. apply Ra. }
  assert (SR : exists c, (match tptr tr with
       | None => ret ([], a.2)
       | Some rp => bind (rd rp) (fun nr => bind (ol_sort (ol_setMiddle a.2 mid) (nbounds nr)) (fun l => @forEachOverlapping_sub N T (size h) rp l))
       end) (St h d r) = Ret (c, St h d r) /\
       c.1 ≡ₚ pairs_of (bounds_at h) (leaves tr) its).
  { destruct WR as [->|FR].
    - exists ([], a.2). split; reflexivity.
    - destruct (full_tptr _ FR) as [pr Er]. rewrite Er.
      destruct (rep_lookup _ _ _ _ RR Er) as (nr & Hr & _ & Br & _).
      mstep. rewrite Br. erewrite bind_ret by (apply ol_sort_heap; [exact OK3|exact AL3]).
      destruct (ol_sortF_spec (bounds_at h) _ (tbnd tr) OK3) as (_ & OK1 & M1 & P1 & R1 & F1).
      eexists. split; [eapply sub_heap; [exact FR|exact RR|exact Er|lia|exact OK1|]|].
      { intros x Hx. apply AL3. rewrite <- P1. exact Hx. }
      rewrite OV3 in F1.
      rewrite subF_pairs; [|exact OK1|].
      + rewrite F1, pairs_of_filter; [reflexivity|].
        intros x y Hx Hy. apply mono_tbnd; [|exact Hy]. apply (MO x Hx).
      + intros x. rewrite F1, elem_of_list_filter. intros [Hx1 Hx2]. split; [|exact Hx1]. apply (MO x Hx2). }
  destruct SR as (c & Ec & Pc). rewrite (bind_ret _ _ _ _ _ Ec).
  eexists. split; [reflexivity|]. cbn [leaves]. rewrite pairs_of_app, Pa, Pc. reflexivity.
Qed.
End OLHeap.
