(** The recursion of updateAndCollide: rebuilding the tree from its leaves and
    reporting the colliding pairs. *)
From stdpp Require Import base option list gmap fin_maps sorting.
From Verif Require Import Num Outcome Algo AlgoFacts Box BoxFacts BoxOverlap RTree RTreeFun RTreeHeap RTreeRot RTreeRefit RTreeEdit RTreeExtract RTreeInsert RTreeIter RTreeOverlap.

Section Split.
Context {N : Num}.
Implicit Types (p q : ptr) (bnd : ptr -> box).

Lemma split_nodes_spec bnd nodes : 2 <= length nodes ->
  exists l m, split_nodes bnd nodes = Ret (l, m) /\ l ≡ₚ nodes /\ 1 <= m < length nodes.
Proof.
  intros H. unfold split_nodes.
  match goal with |- context [boolean_sort (length nodes) ?f nodes] => set (F := f) end.
  destruct (boolean_sort_filter F nodes (length nodes)) as (l & m & E & M & Len & P & _ & _ & _); [lia|].
  rewrite E. exists l. eexists. split; [reflexivity|]. split.
  { rewrite !take_ge in P by lia. exact P. }
  set (c := length nodes) in *. assert (D : c `div` 16 <= c / 2).
  { apply Nat.div_le_compat_l. lia. }
  assert (D2 : 2 * (c / 2) <= c) by (apply Nat.mul_div_le; lia).
  assert (D3 : 1 <= c / 2) by (apply Nat.div_le_lower_bound; lia).
  repeat case_bool_decide; lia.
Qed.
Lemma fold_left_ext_in {A B} (f f' : A -> B -> A) l : (forall a x, x ∈ l -> f a x = f' a x) ->
  forall a, fold_left f l a = fold_left f' l a.
Proof.
  induction l as [|x l IH]; intros H a; [reflexivity|]. cbn.
  rewrite (H a x) by left. apply IH. intros b y Hy. apply H. right. exact Hy.
Qed.
Lemma union_ext bnd bnd' l : (forall p, p ∈ l -> bnd p = bnd' p) -> union_bounds bnd l = union_bounds bnd' l.
Proof. intros H. unfold union_bounds. apply fold_left_ext_in. intros a x Hx. rewrite H by exact Hx. reflexivity. Qed.
Lemma split_ext bnd bnd' l : (forall p, p ∈ l -> bnd p = bnd' p) -> split_nodes bnd l = split_nodes bnd' l.
Proof.
  intros H. unfold split_nodes.
  rewrite (fold_left_ext_in _ (fun acc p => let c := box_center (bnd' p) in box_combined acc (Box c c)) l).
  2:{ intros a x Hx. rewrite H by exact Hx. reflexivity. }
  erewrite boolean_sort_ext; [reflexivity|]. intros x Hx. cbn. rewrite H by exact Hx. reflexivity.
Qed.
End Split.

(** ** Unordered pairs *)
Section Pairs.
Implicit Types (p q : ptr).
Definition und (x : ptr * ptr) : ptr * ptr := if (x.1 <=? x.2)%positive then x else (x.2, x.1).
Lemma und_swap p q : und (p, q) = und (q, p).
Proof.
  unfold und. cbn.
  destruct (Pos.leb_spec p q), (Pos.leb_spec q p); auto; try lia.
  assert (p = q) by lia. congruence.
Qed.
Fixpoint upairs (l : list ptr) : list (ptr * ptr) :=
  match l with [] => [] | x :: l => (pair x <$> l) ++ upairs l end.
Definition cross (l k : list ptr) : list (ptr * ptr) := l ≫= fun x => pair x <$> k.
Lemma upairs_app l k : upairs (l ++ k) ≡ₚ upairs l ++ upairs k ++ cross l k.
Proof.
  induction l as [|x l IH]; cbn [upairs app].
  - unfold cross. cbn. rewrite app_nil_r. reflexivity.
  - unfold cross in *. cbn. rewrite IH, fmap_app. solve_Permutation.
Qed.
Lemma upairs_perm l k : l ≡ₚ k -> und <$> upairs l ≡ₚ und <$> upairs k.
Proof.
  induction 1 as [|x l k P IH|x y l|l1 l2 l3 P1 IH1 P2 IH2]; cbn [upairs]; rewrite ?fmap_app.
  - reflexivity.
  - rewrite P at 1. rewrite IH. reflexivity.
  - cbn. rewrite (und_swap x y). solve_Permutation.
  - etransitivity; eauto.
Qed.
Lemma cross_swap l k : und <$> cross l k ≡ₚ und <$> cross k l.
Proof.
  induction l as [|x l IH]; unfold cross in *; cbn.
  - induction k; cbn; auto.
  - rewrite fmap_app, IH. clear IH.
    induction k as [|y k IH]; cbn; [reflexivity|].
    rewrite (und_swap x y), !fmap_app. rewrite <- IH. solve_Permutation.
Qed.
Lemma elem_of_upairs l p q : NoDup l -> (p, q) ∈ upairs l -> p ∈ l /\ q ∈ l /\ p <> q.
Proof.
  induction 1 as [|x l Hx ND IH]; cbn [upairs]; [intros H; inversion H|].
  rewrite elem_of_app, elem_of_list_fmap. intros [(y & E & Hy)|H].
  - injection E as -> ->. split; [left|]. split; [right; exact Hy|]. intros ->. contradiction.
  - destruct (IH H) as (A & B & C). split; [right; exact A|]. split; [right; exact B|exact C].
Qed.
Lemma und_cases p q : und (p, q) = (p, q) \/ und (p, q) = (q, p).
Proof. unfold und. cbn. destruct (p <=? q)%positive; auto. Qed.
End Pairs.

(** ** Bounds of unions *)
Section Union.
Context {N : Num} {ok : K -> Prop} {OL : OrdLaws N ok} {P : box -> Prop} {VL : OverlapLaws N ok P}.
Implicit Types (p q : ptr) (bnd : ptr -> box) (a b c : box).

Lemma ov_mono a b c : P a -> P b -> P c -> subset_points ok b c ->
  box_overlaps a b = true -> box_overlaps a c = true.
Proof.
  intros Pa Pb Pc S H. apply (ovl_overlaps a c Pa Pc). apply (ovl_overlaps a b Pa Pb) in H.
  destruct H as (x & Ox & I1 & I2). exists x. split; [exact Ox|]. split; [exact I1|]. apply S; assumption.
Qed.
Lemma ov_sym a b : P a -> P b -> box_overlaps a b = box_overlaps b a.
Proof.
  intros Pa Pb. apply eq_true_iff_eq. rewrite (ovl_overlaps a b Pa Pb), (ovl_overlaps b a Pb Pa).
  unfold share_point. split; intros (x & ? & ? & ?); exists x; auto.
Qed.
Lemma union_acc bnd l : (forall p, p ∈ l -> P (bnd p)) -> forall acc, P acc ->
  let b := fold_left (fun acc p => box_combined acc (bnd p)) l acc in
  P b /\ subset_points ok acc b /\ forall p, p ∈ l -> subset_points ok (bnd p) b.
Proof.
  induction l as [|x l IH]; intros H acc Pa; cbn [fold_left].
  - split; [exact Pa|]. split; [intros y _ Hy; exact Hy|]. intros p Hp. inversion Hp.
  - assert (Px : P (bnd x)) by (apply H; left).
    destruct (IH (fun p Hp => H p (elem_of_list_further _ _ _ Hp)) (box_combined acc (bnd x)) (ovl_combined _ _ Pa Px))
      as (A1 & A2 & A3).
    split; [exact A1|].
    split.
    + eapply subset_trans; [|exact A2]. apply combined_subset_l; apply (ovl_ok (P := P)); assumption.
    + intros p Hp. apply elem_of_cons in Hp. destruct Hp as [->|Hp]; [|apply A3; exact Hp].
      eapply subset_trans; [|exact A2]. apply combined_subset_r; apply (ovl_ok (P := P)); assumption.
Qed.
Lemma union_P bnd l : (forall p, p ∈ l -> P (bnd p)) -> P (union_bounds bnd l).
Proof. intros H. apply (union_acc bnd l H invalid_box). apply ovl_invalid. Qed.
Lemma union_sub bnd l p : (forall p, p ∈ l -> P (bnd p)) -> p ∈ l -> subset_points ok (bnd p) (union_bounds bnd l).
Proof. intros H. apply (union_acc bnd l H invalid_box). apply ovl_invalid. Qed.
Lemma union_single bnd p : union_bounds bnd [p] = bnd p.
Proof. cbn. apply combined_invalid_l. apply invalid_box_invalid. Qed.
End Union.

Section CrossFilter.
Context (ov : ptr * ptr -> Prop) `{Dov : forall x, Decision (ov x)}.
Implicit Types (l k : list ptr).
Lemma cross_cons x l k : cross (x :: l) k = (pair x <$> k) ++ cross l k.
Proof. reflexivity. Qed.
Lemma cross_app_l l1 l2 k : cross (l1 ++ l2) k = cross l1 k ++ cross l2 k.
Proof. apply bind_app. Qed.
Lemma cross_proper_l l1 l2 k : l1 ≡ₚ l2 -> cross l1 k ≡ₚ cross l2 k.
Proof. intros H. unfold cross. rewrite H. reflexivity. Qed.
Lemma cross_proper_r l k1 k2 : k1 ≡ₚ k2 -> cross l k1 ≡ₚ cross l k2.
Proof. intros H. induction l as [|x l IH]; [reflexivity|]. rewrite !cross_cons, IH, H. reflexivity. Qed.
Lemma cross_app_r l k1 k2 : cross l (k1 ++ k2) ≡ₚ cross l k1 ++ cross l k2.
Proof.
  induction l as [|x l IH]; [reflexivity|]. rewrite !cross_cons, IH, fmap_app. solve_Permutation.
Qed.
Lemma elem_of_cross l k p q : (p, q) ∈ cross l k <-> p ∈ l /\ q ∈ k.
Proof.
  unfold cross. rewrite elem_of_list_bind. split.
  - intros (x & H & Hx). apply elem_of_list_fmap in H. destruct H as (y & E & Hy). simplify_eq. auto.
  - intros [Hp Hq]. exists p. split; [|exact Hp]. apply elem_of_list_fmap. eauto.
Qed.
Lemma cross_filter (f : ptr -> Prop) `{Df : forall x, Decision (f x)} l k :
  (forall x q, x ∈ l -> q ∈ k -> ov (und (x, q)) -> f q) ->
  filter ov (und <$> cross l (filter f k)) = filter ov (und <$> cross l k).
Proof.
  induction l as [|x l IH]; intros H; [reflexivity|].
  rewrite !cross_cons, !fmap_app, !filter_app, IH.
  2:{ intros y q Hy. apply H. right. exact Hy. }
  f_equal. assert (Hx : forall q, q ∈ k -> ov (und (x, q)) -> f q) by (intros q; apply H; left). clear IH H.
  induction k as [|y k IH]; [reflexivity|].
  assert (IH' := IH (fun q Hq => Hx q (elem_of_list_further _ _ _ Hq))). clear IH.
  destruct (decide (f y)) as [Fy|Fy].
  - rewrite filter_cons_True by exact Fy. cbn [fmap list_fmap]. rewrite !filter_cons.
    destruct (decide (ov (und (x, y)))); [f_equal|]; exact IH'.
  - rewrite (filter_cons_False f) by exact Fy. cbn [fmap list_fmap].
    rewrite (filter_cons_False ov (und (x, y))); [exact IH'|]. intros X. apply Fy, Hx; [left|exact X].
Qed.
End CrossFilter.

(** ** The two collision lists *)
Section Halves.
Context {N : Num}.
Implicit Types (p q : ptr) (bnd : ptr -> box) (o : overlap_list).

Lemma ol_add_spec o p : ol_ok o ->
  ol_ok (ol_add o p) /\ ol_overlapping (ol_add o p) ≡ₚ ol_overlapping o ++ [p] /\
  ol_nodes (ol_add o p) ≡ₚ ol_nodes o ++ [p].
Proof.
  intros OK. unfold ol_ok, ol_overlapping, ol_add in *. cbn [ol_nodes ol_middle].
  assert (LT : length (take (ol_middle o) (ol_nodes o)) = ol_middle o) by (rewrite take_length; lia).
  split; [rewrite app_length; cbn; rewrite LT, drop_length; lia|]. split.
  - rewrite take_app_ge by lia. rewrite LT.
    replace (S (ol_middle o) - ol_middle o) with 1 by lia. cbn. rewrite take_0. reflexivity.
  - rewrite <- (take_drop (ol_middle o) (ol_nodes o)) at 3. solve_Permutation.
Qed.
Definition ol_addall (f : ptr -> bool) (l : list ptr) o : overlap_list :=
  fold_left (fun o p => if f p then ol_add o p else o) l o.
Lemma ol_addall_spec f l : forall o, ol_ok o ->
  ol_ok (ol_addall f l o) /\ ol_overlapping (ol_addall f l o) ≡ₚ ol_overlapping o ++ filter (fun p => f p = true) l /\
  ol_nodes (ol_addall f l o) ≡ₚ ol_nodes o ++ filter (fun p => f p = true) l.
Proof.
  induction l as [|x l IH]; intros o OK; cbn [ol_addall fold_left].
  - cbn. rewrite !app_nil_r. auto.
  - rewrite filter_cons. destruct (f x) eqn:E.
    + destruct (ol_add_spec o x OK) as (A1 & A2 & A3). destruct (IH _ A1) as (B1 & B2 & B3).
      unfold ol_addall in *. rewrite B2, B3, A2, A3. split; [exact B1|].
      destruct (decide (true = true)); [|congruence]. rewrite <- !app_assoc. split; reflexivity.
    + destruct (decide (false = true)); [congruence|]. apply IH. exact OK.
Qed.

(** RTree.hpp:702-722 *)
Definition halves bnd (coll : overlap_list) (l r : list ptr) : overlap_list * overlap_list :=
  let lb := union_bounds bnd l in
  let rb := union_bounds bnd r in
  let lc := ol_sortF bnd (ol_copy coll) lb in
  let rc := ol_sortF bnd coll rb in
  if box_overlaps lb rb then
    if bool_decide (length l < length r) then (lc, ol_addall (fun p => box_overlaps rb (bnd p)) l rc)
    else (ol_addall (fun p => box_overlaps lb (bnd p)) r lc, rc)
  else (lc, rc).

Lemma ol_copy_ok o : ol_ok (ol_copy o).
Proof. unfold ol_ok, ol_copy, ol_of_list. cbn. lia. Qed.
Lemma ol_copy_over o : ol_overlapping (ol_copy o) = ol_overlapping o.
Proof. unfold ol_copy, ol_of_list. unfold ol_overlapping at 1. cbn. apply take_ge. lia. Qed.

Lemma halves_struct bnd coll l r : ol_ok coll ->
  ol_ok (halves bnd coll l r).1 /\ ol_ok (halves bnd coll l r).2 /\
  (forall q, q ∈ ol_nodes (halves bnd coll l r).1 -> q ∈ ol_nodes coll \/ q ∈ r) /\
  (forall q, q ∈ ol_nodes (halves bnd coll l r).2 -> q ∈ ol_nodes coll \/ q ∈ l).
Proof.
  intros OK. unfold halves.
  destruct (ol_sortF_spec bnd (ol_copy coll) (union_bounds bnd l) (ol_copy_ok _)) as (_ & OK1 & _ & P1 & _ & _).
  destruct (ol_sortF_spec bnd coll (union_bounds bnd r) OK) as (_ & OK2 & _ & P2 & _ & _).
  set (lc := ol_sortF bnd (ol_copy coll) (union_bounds bnd l)) in *.
  set (rc := ol_sortF bnd coll (union_bounds bnd r)) in *.
  assert (S1 : forall q, q ∈ ol_nodes lc -> q ∈ ol_nodes coll).
  { intros q. rewrite P1. intros H. apply ol_overlapping_sub. exact H. }
  assert (S2 : forall q, q ∈ ol_nodes rc -> q ∈ ol_nodes coll) by (intros q; rewrite P2; auto).
  destruct (box_overlaps _ _); [case_bool_decide|]; cbn [fst snd].
  - destruct (ol_addall_spec (fun p => box_overlaps (union_bounds bnd r) (bnd p)) l rc OK2) as (A1 & _ & A3).
    split; [exact OK1|]. split; [exact A1|]. split; [auto|].
    intros q. rewrite A3, elem_of_app, elem_of_list_filter. intros [H'|[_ H']]; auto.
  - destruct (ol_addall_spec (fun p => box_overlaps (union_bounds bnd l) (bnd p)) r lc OK1) as (A1 & _ & A3).
    split; [exact A1|]. split; [exact OK2|]. split; [|auto].
    intros q. rewrite A3, elem_of_app, elem_of_list_filter. intros [H'|[_ H']]; auto.
  - split; [exact OK1|]. split; [exact OK2|]. split; intros q Hq; left; auto.
Qed.

Definition ovp bnd (x : ptr * ptr) : Prop := box_overlaps (bnd x.1) (bnd x.2) = true.
Global Instance ovp_dec bnd x : Decision (ovp bnd x).
Proof. unfold ovp. apply _. Defined.
(** the calls of onCollision for leaves [nodes] and collision candidates [A] *)
Definition calls_ok bnd (nodes A : list ptr) (cs : list (ptr * ptr)) : Prop :=
  und <$> cs ≡ₚ filter (ovp bnd) (und <$> (upairs nodes ++ cross nodes A)).

Lemma halves_calls {ok : K -> Prop} {OL : OrdLaws N ok} {P : box -> Prop} {VL : OverlapLaws N ok P}
    bnd coll l r nodes cl cr :
  ol_ok coll -> nodes ≡ₚ l ++ r ->
  (forall p, p ∈ nodes -> P (bnd p)) -> (forall q, q ∈ ol_overlapping coll -> P (bnd q)) ->
  (forall q, q ∈ ol_overlapping (halves bnd coll l r).1 -> P (bnd q) /\ box_overlaps (bnd q) (union_bounds bnd l) = true) /\
  (forall q, q ∈ ol_overlapping (halves bnd coll l r).2 -> P (bnd q) /\ box_overlaps (bnd q) (union_bounds bnd r) = true) /\
  (calls_ok bnd l (ol_overlapping (halves bnd coll l r).1) cl ->
   calls_ok bnd r (ol_overlapping (halves bnd coll l r).2) cr ->
   calls_ok bnd nodes (ol_overlapping coll) (cl ++ cr)).
Proof.
  intros OK PN HP HA.
  assert (Hl : forall p, p ∈ l -> P (bnd p)) by (intros p Hp; apply HP; rewrite PN; apply elem_of_app; auto).
  assert (Hr : forall p, p ∈ r -> P (bnd p)) by (intros p Hp; apply HP; rewrite PN; apply elem_of_app; auto).
  pose proof (union_P bnd l Hl) as Pl. pose proof (union_P bnd r Hr) as Pr.
  set (A := ol_overlapping coll) in *.
  (* membership in und-pairs *)
  assert (OV : forall x q, P (bnd x) -> P (bnd q) -> ovp bnd (und (x, q)) -> box_overlaps (bnd q) (bnd x) = true).
  { intros x q Px Pq. unfold ovp. destruct (und_cases x q) as [-> | ->]; cbn; [|auto].
    rewrite ov_sym by assumption. auto. }
  assert (CA : forall k b, (forall p, p ∈ k -> P (bnd p)) -> b = union_bounds bnd k ->
     forall x q, x ∈ k -> P (bnd q) -> ovp bnd (und (x, q)) -> box_overlaps (bnd q) b = true).
  { intros k b Hk -> x q Hx Pq Ho. apply (OV x q (Hk x Hx) Pq) in Ho.
    eapply ov_mono; [exact Pq|apply Hk; exact Hx|apply union_P; exact Hk|apply union_sub; [exact Hk|exact Hx]|exact Ho]. }
  unfold calls_ok, halves.
  destruct (ol_sortF_spec bnd (ol_copy coll) (union_bounds bnd l) (ol_copy_ok _)) as (_ & OK1 & _ & _ & _ & F1).
  destruct (ol_sortF_spec bnd coll (union_bounds bnd r) OK) as (_ & OK2 & _ & _ & _ & F2).
  set (lc := ol_sortF bnd (ol_copy coll) (union_bounds bnd l)) in *.
  set (rc := ol_sortF bnd coll (union_bounds bnd r)) in *.
  rewrite ol_copy_over in F1. fold A in F1, F2.
  set (lb := union_bounds bnd l) in *. set (rb := union_bounds bnd r) in *.
  assert (T1 : forall q, q ∈ ol_overlapping lc -> P (bnd q) /\ box_overlaps (bnd q) lb = true).
  { intros q. rewrite F1, elem_of_list_filter. intros [? ?]. auto. }
  assert (T2 : forall q, q ∈ ol_overlapping rc -> P (bnd q) /\ box_overlaps (bnd q) rb = true).
  { intros q. rewrite F2, elem_of_list_filter. intros [? ?]. auto. }
  assert (X1 : filter (ovp bnd) (und <$> cross l (filter (fun p => box_overlaps (bnd p) lb = true) A))
             = filter (ovp bnd) (und <$> cross l A)).
  { apply cross_filter. intros x q Hx Hq. apply (CA l lb Hl eq_refl); auto. }
  assert (X2 : filter (ovp bnd) (und <$> cross r (filter (fun p => box_overlaps (bnd p) rb = true) A))
             = filter (ovp bnd) (und <$> cross r A)).
  { apply cross_filter. intros x q Hx Hq. apply (CA r rb Hr eq_refl); auto. }
  assert (G : filter (ovp bnd) (und <$> upairs nodes ++ cross nodes A) ≡ₚ
     (filter (ovp bnd) (und <$> upairs l) ++ filter (ovp bnd) (und <$> cross l A)) ++
     (filter (ovp bnd) (und <$> upairs r) ++ filter (ovp bnd) (und <$> cross r A)) ++
     filter (ovp bnd) (und <$> cross l r)).
  { rewrite fmap_app. rewrite (upairs_perm _ _ PN), upairs_app. rewrite (cross_proper_l _ _ A PN), cross_app_l.
    rewrite !fmap_app, !filter_app. solve_Permutation. }
  destruct (box_overlaps lb rb) eqn:EO; [case_bool_decide as Hlen|]; cbn [fst snd].
  - destruct (ol_addall_spec (fun p => box_overlaps rb (bnd p)) l rc OK2) as (A1 & A2 & _).
    split; [exact T1|]. split.
    { intros q. rewrite A2, elem_of_app, elem_of_list_filter. intros [Hq|[Hq1 Hq2]]; [apply T2; exact Hq|].
      split; [apply Hl; exact Hq2|]. rewrite ov_sym; auto. }
    intros C1 C2. rewrite fmap_app, C1, C2, G. rewrite !fmap_app, !filter_app.
    rewrite (cross_proper_r l _ _ F1), X1. rewrite (cross_proper_r r _ _ A2).
    rewrite cross_app_r, (cross_proper_r r _ _ F2). rewrite fmap_app, filter_app, X2.
    rewrite (cross_filter (ovp bnd) (fun p => box_overlaps rb (bnd p) = true) r l).
    2:{ intros x q Hx Hq Ho. rewrite ov_sym by auto. apply (CA r rb Hr eq_refl x q); auto. }
    rewrite (cross_swap r l). rewrite <- !app_assoc. reflexivity.
  - destruct (ol_addall_spec (fun p => box_overlaps lb (bnd p)) r lc OK1) as (A1 & A2 & _).
    split.
    { intros q. rewrite A2, elem_of_app, elem_of_list_filter. intros [Hq|[Hq1 Hq2]]; [apply T1; exact Hq|].
      split; [apply Hr; exact Hq2|]. rewrite ov_sym; auto. }
    split; [exact T2|].
    intros C1 C2. rewrite fmap_app, C1, C2, G. rewrite !fmap_app, !filter_app.
    rewrite (cross_proper_r l _ _ A2), cross_app_r, (cross_proper_r l _ _ F1). rewrite fmap_app, filter_app, X1.
    rewrite (cross_proper_r r _ _ F2), X2.
    rewrite (cross_filter (ovp bnd) (fun p => box_overlaps lb (bnd p) = true) l r).
    2:{ intros x q Hx Hq Ho. rewrite ov_sym by auto. apply (CA l lb Hl eq_refl x q); auto. }
    solve_Permutation.
  - split; [exact T1|]. split; [exact T2|].
    intros C1 C2. rewrite fmap_app, C1, C2, G. rewrite !fmap_app, !filter_app.
    rewrite (cross_proper_r l _ _ F1), X1, (cross_proper_r r _ _ F2), X2.
    rewrite (filter_none _ (und <$> cross l r)).
    + rewrite app_nil_r. reflexivity.
    + intros z Hz Ho. apply elem_of_list_fmap in Hz. destruct Hz as ([x q] & -> & Hz).
      apply elem_of_cross in Hz. destruct Hz as [Hx Hq].
      assert (B : box_overlaps (bnd q) lb = true) by (apply (CA l lb Hl eq_refl x q); auto).
      rewrite ov_sym in B by auto.
      assert (B2 : box_overlaps lb rb = true).
      { eapply ov_mono; [exact Pl| |exact Pr| |exact B]; [apply Hr; exact Hq|]. apply union_sub; assumption. }
      congruence.
Qed.
End Halves.

(** ** The recursion on the heap *)
Section Rec.
Context {N : Num} {T : Type}.
Notation st := (st T).
Notation M := (@M N T).
Context (E : env).
Implicit Types (h : gmap ptr node) (p q : ptr) (u : tree) (o : overlap_list) (bnd : ptr -> box) (dat : ptr -> ptr).

Definition lunion (l : list (ptr * box * ptr)) : box :=
  fold_left (fun acc x => box_combined acc (lbnd x)) l invalid_box.
(** the bounds of every internal node are the union of those of its leaves *)
Fixpoint ub u : Prop :=
  match u with
  | Bin _ b l r =>
      (exists ll lr, ll ≡ₚ leaves l /\ lr ≡ₚ leaves r /\ b = box_combined (lunion ll) (lunion lr)) /\ ub l /\ ub r
  | _ => True
  end.
Definition lf bnd dat p : ptr * box * ptr := (p, bnd p, dat p).
Lemma union_lunion bnd dat l : union_bounds bnd l = lunion (lf bnd dat <$> l).
Proof.
  unfold union_bounds, lunion. generalize (@invalid_box N). induction l as [|x l IH]; intros b; [reflexivity|].
  cbn. apply IH.
Qed.
Definition leaf_at h bnd dat p : Prop :=
  exists par, h !! p = Some (Nd par None None (bnd p) (Some (dat p))).
Definition blank_at h p : Prop := exists b, h !! p = Some (Nd None None None b None).

Lemma uc_heap fuel : forall nodes coll bin h d r bnd dat,
  nodes <> [] -> length nodes <= S fuel -> length nodes <= S (length bin) ->
  NoDup (nodes ++ bin) ->
  (forall p, p ∈ nodes -> leaf_at h bnd dat p) ->
  (forall p, p ∈ bin -> blank_at h p) ->
  ol_ok coll ->
  (forall q, q ∈ ol_nodes coll -> is_Some (h !! q) /\ bounds_at h q = bnd q /\ q ∉ bin) ->
  exists h' u cs bin' used,
    @updateAndCollide_rec N T E fuel nodes coll bin (St h d r) = Ret ((tptr u, cs, bin'), St h' d r) /\
    full u /\ leaves u ≡ₚ lf bnd dat <$> nodes /\ ptrs u ≡ₚ nodes ++ used /\ bin = bin' ++ used /\
    length used = length nodes - 1 /\
    (2 <= length nodes -> tptr u = last bin /\ rep h' None u) /\
    (exists par, rep h' par u) /\ ub u /\
    (forall q, q ∉ nodes ++ used -> h' !! q = h !! q) /\
    (forall q, q ∉ used -> is_Some (h !! q) -> is_Some (h' !! q) /\ bounds_at h' q = bounds_at h q) /\
    (forall q, is_Some (h' !! q) <-> is_Some (h !! q)) /\
    (forall (ok : K -> Prop) (P : box -> Prop), OrdLaws N ok -> OverlapLaws N ok P ->
       (forall p, p ∈ nodes -> P (bnd p)) ->
       (forall q, q ∈ ol_overlapping coll -> P (bnd q) /\ box_overlaps (bnd q) (union_bounds bnd nodes) = true) ->
       calls_ok bnd nodes (ol_overlapping coll) cs).
Proof.
  induction fuel as [|fuel IH]; intros nodes coll bin h d r bnd dat NE HF HB ND HL HK OK HC.
  all: destruct nodes as [|p1 [|p2 nodes]]; [congruence| |].
  1,3: destruct (HL p1 ltac:(left)) as [par Hp1];
    exists h, (Leaf p1 (bnd p1) (dat p1)), ((fun q => (p1, q)) <$> ol_overlapping coll), bin, [];
    split; [reflexivity|]; split; [exact I|]; split; [reflexivity|]; split; [reflexivity|];
    split; [rewrite app_nil_r; reflexivity|]; split; [reflexivity|]; split; [cbn; lia|];
    split; [exists par; exact Hp1|]; split; [exact I|]; split; [auto|]; split; [auto|]; split; [tauto|];
    intros ok P OL VL HP HA; unfold calls_ok; cbn [upairs fmap list_fmap app];
    rewrite cross_cons; change (cross [] _) with (@nil (ptr * ptr)); rewrite app_nil_r;
    rewrite filter_all; [reflexivity|];
    intros z Hz; apply elem_of_list_fmap in Hz; destruct Hz as ([x q] & -> & Hz);
    apply elem_of_list_fmap in Hz; destruct Hz as (y & Ez & Hy); simplify_eq;
    destruct (HA y Hy) as [Py Oy]; rewrite union_single in Oy;
    assert (P1 : P (bnd p1)) by (apply HP; left);
    unfold ovp; destruct (und_cases p1 y) as [-> | ->]; cbn; [|exact Oy];
    rewrite ov_sym; auto.
  1: cbn in HF; lia.
  set (nn := p1 :: p2 :: nodes) in *.
  assert (N2 : 2 <= length nn) by (cbn; lia).
  (* take a node from the bin *)
  destruct (last bin) as [sr|] eqn:EL.
  2:{ apply last_None in EL. subst bin. cbn in HB. lia. }
  apply last_Some in EL. destruct EL as [bin0 ->].
  rewrite app_length in HB. cbn [length] in HB.
  destruct (HK sr) as [sb Hsr]; [apply elem_of_app; right; left|].
  destruct (split_nodes_spec bnd nn N2) as (sl & m & Esp & Psl & Hm).
  set (ln := take m sl). set (rn := drop m sl).
  assert (LS : length sl = length nn) by (apply Permutation_length; exact Psl).
  assert (Lln : length ln = m) by (unfold ln; rewrite take_length; lia).
  assert (Lrn : length rn = length nn - m) by (unfold rn; rewrite drop_length; lia).
  assert (PN : nn ≡ₚ ln ++ rn) by (unfold ln, rn; rewrite take_drop; symmetry; exact Psl).
  assert (Nln : ln <> []) by (intros X; apply length_zero_iff_nil in X; lia).
  assert (Nrn : rn <> []) by (intros X; apply length_zero_iff_nil in X; lia).
  assert (NDall : NoDup ((ln ++ rn) ++ bin0 ++ [sr])) by (eapply NoDup_perm; [|exact ND]; rewrite PN; reflexivity).
  assert (Hin : forall q, q ∈ nn <-> q ∈ ln \/ q ∈ rn) by (intros q; rewrite PN; apply elem_of_app).
  assert (BN : forall p, p ∈ nn -> bounds_at h p = bnd p).
  { intros p Hp. destruct (HL p Hp) as [par Hpp]. unfold bounds_at. rewrite Hpp. reflexivity. }
  change (updateAndCollide_rec E (S fuel) nn coll (bin0 ++ [sr])) with
    (bind (getNode E (bin0 ++ [sr])) (fun g =>
          let subRoot := g.1 in let bin := g.2 in
          bind (read_bounds nn) (fun bnd =>
          bind (lift (split_nodes bnd nn)) (fun sp =>
          let lnodes := take sp.2 sp.1 in
          let rnodes := drop sp.2 sp.1 in
          let leftBounds := union_bounds bnd lnodes in
          let rightBounds := union_bounds bnd rnodes in
          bind (set_bounds subRoot (box_combined leftBounds rightBounds)) (fun _ =>
          bind (ol_sort (ol_copy coll) leftBounds) (fun leftC =>
          bind (ol_sort coll rightBounds) (fun rightC =>
          let cs :=
            if box_overlaps leftBounds rightBounds then
              if bool_decide (length lnodes < length rnodes) then
                (leftC, ol_addall (fun p => box_overlaps rightBounds (bnd p)) lnodes rightC)
              else
                (ol_addall (fun p => box_overlaps leftBounds (bnd p)) rnodes leftC, rightC)
            else (leftC, rightC) in
          bind (updateAndCollide_rec E fuel lnodes cs.1 bin) (fun rl =>
          bind (set_left subRoot rl.1.1) (fun _ =>
          bind (updateAndCollide_rec E fuel rnodes cs.2 rl.2) (fun rr =>
          bind (set_right subRoot rr.1.1) (fun _ =>
          bind (rd subRoot) (fun n =>
          bind (match nleft n with Some l => set_parent l (Some subRoot) | None => ret tt end) (fun _ =>
          bind (rd subRoot) (fun n =>
          bind (match nright n with Some r => set_parent r (Some subRoot) | None => ret tt end) (fun _ =>
          @ret N T _ (Some subRoot, rl.1.2 ++ rr.1.2, rr.2)))))))))))))))).
  unfold getNode. rewrite last_snoc, removelast_last. rewrite bind_ret_l. cbn [fst snd].
  erewrite (bind_ret (read_bounds nn)).
  2:{ unfold read_bounds. cbn [hp]. rewrite all_alive_true; [reflexivity|].
      intros p Hp. destruct (HL p Hp) as [par Hpp]. eauto. }
  rewrite (split_ext _ bnd) by exact BN. rewrite Esp. cbn [lift]. 
  erewrite bind_ret by reflexivity. cbn zeta. cbn [fst snd]. fold ln rn.
  assert (UL : union_bounds (bounds_at h) ln = union_bounds bnd ln).
  { apply union_ext. intros p Hp. apply BN, Hin. auto. }
  assert (UR : union_bounds (bounds_at h) rn = union_bounds bnd rn).
  { apply union_ext. intros p Hp. apply BN, Hin. auto. }
  rewrite UL, UR.
  set (lb := union_bounds bnd ln). set (rb := union_bounds bnd rn).
  erewrite bind_ret by (apply run_set_bounds; exact Hsr). cbn [nparent nleft nright ndata].
  set (b0 := box_combined lb rb). set (h0 := <[sr := Nd None None None b0 None]> h).
  (* collisions are unaffected by sr *)
  assert (HC0 : forall q, q ∈ ol_nodes coll -> is_Some (h0 !! q) /\ bounds_at h0 q = bnd q /\ q <> sr).
  { intros q Hq. destruct (HC q Hq) as (C1 & C2 & C3). rewrite elem_of_app, elem_of_list_singleton in C3.
    unfold h0, bounds_at in *. rewrite lookup_insert_ne by (intros X; apply C3; right; congruence). tauto. }
  erewrite bind_ret by (apply ol_sort_heap; [apply ol_copy_ok|intros q Hq; apply HC0, ol_overlapping_sub, Hq]).
  erewrite bind_ret by (apply ol_sort_heap; [exact OK|intros q Hq; apply HC0, Hq]).
  rewrite (ol_sortF_ext _ bnd (ol_copy coll)) by (intros q Hq; apply HC0, ol_overlapping_sub, Hq).
  rewrite (ol_sortF_ext _ bnd coll) by (intros q Hq; apply HC0, Hq).
  assert (CS : (if box_overlaps lb rb
     then if bool_decide (length ln < length rn)
       then (ol_sortF bnd (ol_copy coll) lb, ol_addall (fun p => box_overlaps rb (bounds_at h p)) ln (ol_sortF bnd coll rb))
       else (ol_addall (fun p => box_overlaps lb (bounds_at h p)) rn (ol_sortF bnd (ol_copy coll) lb), ol_sortF bnd coll rb)
     else (ol_sortF bnd (ol_copy coll) lb, ol_sortF bnd coll rb)) = halves bnd coll ln rn).
  { unfold halves. fold lb rb. destruct (box_overlaps lb rb); [|reflexivity].
    case_bool_decide; f_equal; apply fold_left_ext_in; intros o x Hx; rewrite BN by (apply Hin; auto); reflexivity. }
  rewrite CS. clear CS.
  destruct (halves_struct bnd coll ln rn OK) as (OKL & OKR & SL & SR).
  (* left recursion *)
  assert (A0 : forall q, q <> sr -> h0 !! q = h !! q) by (intros q Hq; unfold h0; rewrite lookup_insert_ne; auto).
  assert (Nsr : sr ∉ ln /\ sr ∉ rn /\ sr ∉ bin0).
  { apply NoDup_app in NDall. destruct NDall as (_ & X1 & X2). apply NoDup_app in X2. destruct X2 as (_ & X2 & _).
    split; [|split]; intros X.
    - apply (X1 sr); [apply elem_of_app; auto|]. apply elem_of_app. right. left.
    - apply (X1 sr); [apply elem_of_app; auto|]. apply elem_of_app. right. left.
    - apply (X2 sr X). left. }
  destruct Nsr as (Nsl & Nsr & Nsb).
  assert (DLR : forall q, q ∈ ln -> q ∈ rn -> False).
  { intros q H1 H2. apply NoDup_app in NDall. destruct NDall as (X1 & _ & _). apply NoDup_app in X1.
    destruct X1 as (_ & X1 & _). exact (X1 q H1 H2). }
  assert (DNB : forall q, q ∈ nn -> q ∈ bin0 -> False).
  { intros q H1 H2. apply NoDup_app in ND. destruct ND as (_ & X1 & _). apply (X1 q H1). apply elem_of_app. auto. }
  edestruct (IH ln (halves bnd coll ln rn).1 bin0 h0 d r bnd dat) as
    (h1 & ul & cl & bin1 & usl & El & Fl & Ll & Pl & Bl & Ul & _ & (parl & Repl) & Ubl & Frl & Bdl & Aliv & Cl);
    [exact Nln|lia|lia| | | |exact OKL| |].
  { eapply (NoDup_perm (ln ++ bin0)); [reflexivity|]. apply NoDup_app in NDall. destruct NDall as (X1 & X2 & X3).
    apply NoDup_app in X1, X3. apply NoDup_app. split; [apply X1|]. split; [|apply X3].
    intros q Hq Hq2. apply (X2 q); apply elem_of_app; auto. }
  { intros p Hp. destruct (HL p) as [par Hpp]; [apply Hin; auto|]. exists par. rewrite A0; [exact Hpp|]. congruence. }
  { intros p Hp. destruct (HK p) as [b Hpp]; [apply elem_of_app; auto|]. exists b. rewrite A0; [exact Hpp|]. congruence. }
  { intros q Hq. destruct (SL q Hq) as [Hq'|Hq'].
    - destruct (HC0 q Hq') as (C1 & C2 & C3). split; [exact C1|]. split; [exact C2|].
      intros X. destruct (HC q Hq') as (_ & _ & C4). apply C4. apply elem_of_app. auto.
    - assert (Hqn : q ∈ nn) by (apply Hin; auto). destruct (HL q Hqn) as [par Hpp].
      unfold bounds_at. rewrite A0 by congruence. rewrite Hpp. split; [eauto|]. split; [reflexivity|].
      intros X. exact (DNB q Hqn X). }
  rewrite (bind_ret _ _ _ _ _ El). cbn [fst snd].
  (* set_left *)
  assert (Usub : forall q, q ∈ usl -> q ∈ bin0) by (intros q Hq; rewrite Bl; apply elem_of_app; auto).
  assert (Bsub : forall q, q ∈ bin1 -> q ∈ bin0) by (intros q Hq; rewrite Bl; apply elem_of_app; auto).
  assert (NDb : NoDup bin0).
  { apply NoDup_app in NDall. destruct NDall as (_ & _ & X). apply NoDup_app in X. apply X. }
  assert (DUB : forall q, q ∈ usl -> q ∈ bin1 -> False).
  { intros q H1 H2. rewrite Bl in NDb. apply NoDup_app in NDb. destruct NDb as (_ & X & _). exact (X q H2 H1). }
  assert (H1sr : h1 !! sr = Some (Nd None None None b0 None)).
  { rewrite Frl; [unfold h0; apply lookup_insert|]. rewrite elem_of_app. intros [X|X]; [auto|]. apply Nsb, Usub, X. }
  erewrite bind_ret by (apply run_set_left; exact H1sr). cbn [nparent nright nbounds ndata].
  set (h2 := <[sr := Nd None (tptr ul) None b0 None]> h1).
  assert (A2 : forall q, q <> sr -> h2 !! q = h1 !! q) by (intros q Hq; unfold h2; rewrite lookup_insert_ne; auto).
  (* right recursion *)
  assert (Lb : length bin0 = length bin1 + length usl) by (rewrite Bl, app_length; reflexivity).
  edestruct (IH rn (halves bnd coll ln rn).2 bin1 h2 d r bnd dat) as
    (h3 & ur & cr & bin2 & usr & Er & Fr & Lr & Pr & Br & Ur & _ & (parr & Repr) & Ubr & Frr & Bdr & Alir & Cr);
    [exact Nrn|lia|lia| | | |exact OKR| |].
  { apply NoDup_app in NDall. destruct NDall as (X1 & X2 & X3).
    apply NoDup_app in X1. apply NoDup_app. split; [apply X1|]. split.
    - intros q Hq Hq2. apply (X2 q); apply elem_of_app; auto.
    - rewrite Bl in NDb. apply NoDup_app in NDb. apply NDb. }
  { intros p Hp. destruct (HL p) as [par Hpp]; [apply Hin; auto|]. exists par.
    rewrite A2 by congruence. rewrite Frl; [rewrite A0 by congruence; exact Hpp|].
    rewrite elem_of_app. intros [X|X]; [exact (DLR p X Hp)|]. apply (DNB p); [apply Hin; auto|]. auto. }
  { intros p Hp. destruct (HK p) as [b Hpp]; [apply elem_of_app; auto|]. exists b.
    assert (p <> sr) by (intros ->; auto).
    rewrite A2 by congruence. rewrite Frl; [rewrite A0 by congruence; exact Hpp|].
    rewrite elem_of_app. intros [X|X]; [|exact (DUB p X Hp)]. apply (DNB p); [apply Hin; auto|auto]. }
  { intros q Hq.
    assert (HQ : (is_Some (h0 !! q) /\ bounds_at h0 q = bnd q) /\ q ∉ bin0 /\ q <> sr).
    { destruct (SR q Hq) as [Hq'|Hq'].
      - destruct (HC0 q Hq') as (C1 & C2 & C3). split; [auto|]. split; [|exact C3].
        intros X. destruct (HC q Hq') as (_ & _ & C4). apply C4. apply elem_of_app. auto.
      - assert (Hqn : q ∈ nn) by (apply Hin; auto). destruct (HL q Hqn) as [par Hpp].
        assert (q <> sr) by congruence.
        unfold bounds_at. rewrite A0 by congruence. rewrite Hpp. split; [split; eauto|]. split; [|assumption].
        intros X. exact (DNB q Hqn X). }
    destruct HQ as ((Q1 & Q2) & Q3 & Q4).
    destruct (Bdl q) as [Q5 Q6]; [intros X; apply Q3, Usub, X|exact Q1|].
    unfold bounds_at in *. rewrite A2 by exact Q4. split; [exact Q5|]. split; [congruence|]. auto. }
  rewrite (bind_ret _ _ _ _ _ Er). cbn [fst snd].
  (* set_right *)
  assert (UsubR : forall q, q ∈ usr -> q ∈ bin1) by (intros q Hq; rewrite Br; apply elem_of_app; auto).
  assert (H3sr : h3 !! sr = Some (Nd None (tptr ul) None b0 None)).
  { rewrite Frr; [unfold h2; apply lookup_insert|]. rewrite elem_of_app. intros [X|X]; [auto|]. apply Nsb, Bsub, UsubR, X. }
  erewrite bind_ret by (apply run_set_right; exact H3sr). cbn [nparent nleft nbounds ndata].
  destruct (full_tptr _ Fl) as [pl Epl]. destruct (full_tptr _ Fr) as [pr Epr].
  assert (Hpl : pl ∈ ptrs ul) by (apply tptr_in; exact Epl).
  assert (Hpr : pr ∈ ptrs ur) by (apply tptr_in; exact Epr).
  assert (DU : forall q, q ∈ ptrs ul -> q ∈ ptrs ur -> False).
  { intros q. rewrite Pl, Pr, !elem_of_app. intros [X|X] [Y|Y].
    - exact (DLR q X Y).
    - apply (DNB q); [apply Hin; auto|auto].
    - apply (DNB q); [apply Hin; auto|auto].
    - exact (DUB q X (UsubR q Y)). }
  assert (NSl : sr ∉ ptrs ul).
  { rewrite Pl, elem_of_app. intros [X|X]; auto. }
  assert (NSr : sr ∉ ptrs ur).
  { rewrite Pr, elem_of_app. intros [X|X]; auto. }
  assert (Dlr : pl <> pr) by (intros ->; exact (DU pr Hpl Hpr)).
  assert (Dls : pl <> sr) by congruence. assert (Drs : pr <> sr) by congruence.
  (* the left subtree in h3 *)
  assert (R3l : rep h3 parl ul).
  { eapply rep_frame; [|exact Repl]. intros q Hq. rewrite Frr.
    - apply A2. congruence.
    - rewrite elem_of_app. pose proof Hq as Hq2. rewrite Pl, elem_of_app in Hq2. intros [X|X].
      + apply (DU q Hq). rewrite Pr, elem_of_app. auto.
      + apply (DU q Hq). rewrite Pr, elem_of_app. auto. }
  destruct (rep_lookup _ _ _ _ R3l Epl) as (nl & Hnl & _ & Bnl & _).
  destruct (rep_lookup _ _ _ _ Repr Epr) as (nr & Hnr & _ & Bnr & _).
  rewrite Epl, Epr in *.
  set (h4 := <[sr := Nd None (Some pl) (Some pr) b0 None]> h3).
  assert (H4sr : h4 !! sr = Some (Nd None (Some pl) (Some pr) b0 None)) by (unfold h4; apply lookup_insert).
  rewrite (bind_rd sr _ h4 d r _ H4sr). cbn [nleft].
  assert (H4l : h4 !! pl = Some nl) by (unfold h4; rewrite lookup_insert_ne by congruence; exact Hnl).
  rewrite (bind_ret _ _ _ _ _ (run_set_parent pl nl (Some sr) h4 d r H4l)).
  set (h5 := <[pl := _]> h4).
  assert (H5sr : h5 !! sr = Some (Nd None (Some pl) (Some pr) b0 None)) by (unfold h5; rewrite lookup_insert_ne by congruence; exact H4sr).
  rewrite (bind_rd sr _ h5 d r _ H5sr). cbn [nright].
  assert (H5r : h5 !! pr = Some nr).
  { unfold h5, h4. rewrite !lookup_insert_ne by congruence. exact Hnr. }
  rewrite (bind_ret _ _ _ _ _ (run_set_parent pr nr (Some sr) h5 d r H5r)).
  set (h6 := <[pr := _]> h5).
  assert (H6sr : h6 !! sr = Some (Nd None (Some pl) (Some pr) b0 None)) by (unfold h6; rewrite lookup_insert_ne by congruence; exact H5sr).
  assert (NDl : NoDup (ptrs ul)).
  { eapply NoDup_perm; [symmetry; exact Pl|]. apply NoDup_app in NDall. destruct NDall as (X1 & X2 & X3).
    apply NoDup_app in X1. apply NoDup_app. split; [apply X1|]. split.
    - intros q Y1 Y2. apply (DNB q); [apply Hin; auto|auto].
    - rewrite Bl in NDb. apply NoDup_app in NDb. apply NDb. }
  assert (NDr : NoDup (ptrs ur)).
  { eapply NoDup_perm; [symmetry; exact Pr|]. apply NoDup_app in NDall. destruct NDall as (X1 & X2 & X3).
    apply NoDup_app in X1. apply NoDup_app. split; [apply X1|]. split.
    - intros q Y1 Y2. apply (DNB q); [apply Hin; auto|auto].
    - rewrite Bl in NDb. apply NoDup_app in NDb. destruct NDb as (Y & _ & _). rewrite Br in Y. apply NoDup_app in Y. apply Y. }
  assert (R6l : rep h6 (Some sr) ul).
  { eapply rep_frame; [|exact (rep_reparent h3 parl (Some sr) ul pl nl NDl R3l Epl Hnl)].
    intros q Hq. unfold h6, h5, h4. rewrite lookup_insert_ne by (intros <-; exact (DU pr Hq Hpr)).
    destruct (decide (q = pl)) as [->|Nq]; [rewrite !lookup_insert; reflexivity|].
    rewrite !lookup_insert_ne by congruence. reflexivity. }
  assert (R6r : rep h6 (Some sr) ur).
  { eapply rep_frame; [|exact (rep_reparent h3 parr (Some sr) ur pr nr NDr Repr Epr Hnr)].
    intros q Hq. unfold h6, h5, h4.
    destruct (decide (q = pr)) as [->|Nq]; [rewrite !lookup_insert; reflexivity|].
    rewrite !lookup_insert_ne by (congruence || (intros <-; exact (DU _ Hpl Hq))). reflexivity. }
  assert (A6 : forall q, q <> sr -> q <> pl -> q <> pr -> h6 !! q = h3 !! q).
  { intros q Q1 Q2 Q3. unfold h6, h5, h4. rewrite !lookup_insert_ne by congruence. reflexivity. }
  assert (B6 : forall q, q <> sr -> is_Some (h3 !! q) -> is_Some (h6 !! q) /\ bounds_at h6 q = bounds_at h3 q).
  { intros q Q1 Q2. destruct (decide (q = pr)) as [->|Q3].
    { unfold bounds_at, h6. rewrite lookup_insert, Hnr. cbn. eauto. }
    destruct (decide (q = pl)) as [->|Q4].
    { unfold bounds_at, h6, h5. rewrite lookup_insert_ne, lookup_insert, Hnl by congruence. cbn. eauto. }
    unfold bounds_at. rewrite A6 by assumption. auto. }
  exists h6, (Bin sr b0 ul ur), (cl ++ cr), bin2, (usr ++ usl ++ [sr]).
  split; [reflexivity|]. split; [cbn; auto|]. split.
  { cbn [leaves]. rewrite Ll, Lr, <- fmap_app, <- PN. reflexivity. }
  split. { cbn [ptrs]. rewrite Pl, Pr, PN. solve_Permutation. }
  split. { rewrite Bl, Br, <- !app_assoc. reflexivity. }
  split. { rewrite !app_length. cbn [length]. lia. }
  assert (RF : rep h6 None (Bin sr b0 ul ur)) by (cbn [rep]; rewrite Epl, Epr; auto).
  split. { intros _. split; [reflexivity|exact RF]. }
  split. { exists None. exact RF. }
  split.
  { cbn [ub]. split; [|auto]. exists (lf bnd dat <$> ln), (lf bnd dat <$> rn).
    split; [symmetry; exact Ll|]. split; [symmetry; exact Lr|].
    unfold b0, lb, rb. rewrite !(union_lunion bnd dat). reflexivity. }
  assert (InU : forall q, q ∈ ptrs ul \/ q ∈ ptrs ur \/ q = sr -> q ∈ nn ++ usr ++ usl ++ [sr]).
  { intros q. rewrite Pl, Pr, !elem_of_app, elem_of_list_singleton, Hin. tauto. }
  split.
  { intros q Hq. assert (Q : q <> sr /\ q ∉ ptrs ul /\ q ∉ ptrs ur).
    { split; [|split]; intros X; apply Hq, InU; auto. }
    destruct Q as (Q1 & Q2 & Q3).
    rewrite A6; [|exact Q1|congruence|congruence].
    rewrite Frr by (rewrite <- Pr; exact Q3). rewrite A2 by exact Q1.
    rewrite Frl by (rewrite <- Pl; exact Q2). apply A0. exact Q1. }
  split.
  { intros q. rewrite !elem_of_app, elem_of_list_singleton. intros Hq Hs.
    assert (Q0 : is_Some (h0 !! q) /\ bounds_at h0 q = bounds_at h q).
    { unfold bounds_at. rewrite A0 by tauto. auto. }
    destruct Q0 as [Q0 Q0'].
    destruct (Bdl q) as [Q1 Q1']; [tauto|exact Q0|].
    assert (Q2 : is_Some (h2 !! q) /\ bounds_at h2 q = bounds_at h1 q).
    { unfold bounds_at. rewrite A2 by tauto. auto. }
    destruct Q2 as [Q2 Q2'].
    destruct (Bdr q) as [Q3 Q3']; [tauto|exact Q2|].
    destruct (B6 q) as [Q4 Q4']; [tauto|exact Q3|].
    split; [exact Q4|]. congruence. }
  split.
  { intros q. destruct (decide (q = sr)) as [->|Qs]; [rewrite H6sr, Hsr; split; eauto|].
    rewrite <- (A0 q Qs), <- Aliv, <- (A2 q Qs), <- Alir.
    destruct (decide (q = pr)) as [->|Q3]; [unfold h6; rewrite lookup_insert, Hnr; split; eauto|].
    destruct (decide (q = pl)) as [->|Q4].
    { unfold h6, h5. rewrite lookup_insert_ne, lookup_insert, Hnl by congruence. split; eauto. }
    rewrite A6 by assumption. reflexivity. }
  intros ok P OL VL HP HA.
  destruct (halves_calls bnd coll ln rn nn cl cr OK PN HP (fun q Hq => proj1 (HA q Hq))) as (X1 & X2 & X3).
  apply X3.
  - eapply Cl; [exact OL|exact VL| |exact X1]. intros p Hp. apply HP, Hin. auto.
  - eapply Cr; [exact OL|exact VL| |exact X2]. intros p Hp. apply HP, Hin. auto.
Qed.
End Rec.
