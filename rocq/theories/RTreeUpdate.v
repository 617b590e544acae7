(** updateAndCollide on whole trees. *)
From stdpp Require Import base option list gmap fin_maps sorting.
From Verif Require Import Num Outcome Algo AlgoFacts Box BoxFacts BoxOverlap RTree RTreeFun RTreeHeap RTreeRot RTreeRefit RTreeEdit RTreeExtract RTreeInsert RTreeIter RTreeOverlap RTreeCollide.

Section Update.
Context {N : Num} {T : Type}.
Notation st := (st T).
Notation M := (@M N T).
Context (E : env).
Implicit Types (h : gmap ptr node) (p q : ptr) (t u : tree) (c : ctx) (s : st).

(** the context of a given position in the leaf order *)
Lemma leaf_split_gen t : forall c0 l1 p b (d : ptr) l2, leaves t = l1 ++ (p, b, d) :: l2 ->
  exists c, plug t c0 = plug (Leaf p b d) c /\ cbefore c = cbefore c0 ++ l1 /\ cafter c = l2 ++ cafter c0.
Proof.
  induction t as [|p' b' d'|p' b' l IHl r IHr]; intros c0 l1 p b d l2 EQ; cbn [leaves] in EQ.
  - destruct l1; discriminate.
  - destruct l1 as [|? [|? ?]]; try discriminate. injection EQ as -> -> -> <-. exists c0.
    rewrite app_nil_r. auto.
  - apply app_eq_app in EQ. destruct EQ as (k & [[EQ1 EQ2]|[EQ1 EQ2]]).
    + destruct k as [|y k].
      * cbn in EQ2. destruct (IHr (CIn R p' b' l c0) [] p b d l2) as (c & C1 & C2 & C3); [symmetry; exact EQ2|].
        exists c. split; [exact C1|]. cbn [cbefore cafter] in *. rewrite C2, C3, EQ1, !app_nil_r. auto.
      * cbn in EQ2. injection EQ2 as <- ->. destruct (IHl (CIn L p' b' r c0) l1 p b d k) as (c & C1 & C2 & C3); [exact EQ1|].
        exists c. split; [exact C1|]. cbn [cbefore cafter] in *. rewrite C2, C3, <- ?app_assoc. auto.
    + destruct (IHr (CIn R p' b' l c0) k p b d l2 EQ2) as (c & C1 & C2 & C3).
      exists c. split; [exact C1|]. cbn [cbefore cafter] in *. rewrite C2, C3, EQ1, <- ?app_assoc. auto.
Qed.
Lemma leaf_split t l1 p b (d : ptr) l2 : leaves t = l1 ++ (p, b, d) :: l2 ->
  exists c, t = plug (Leaf p b d) c /\ cbefore c = l1 /\ cafter c = l2.
Proof.
  intros H. destruct (leaf_split_gen t CTop l1 p b d l2 H) as (c & C1 & C2 & C3).
  exists c. cbn in *. rewrite app_nil_r in C3. auto.
Qed.

(** ** First loop *)
Definition uf (upd : ptr -> box) (x : ptr * box * ptr) : ptr * box * ptr := (lptr x, upd (lptr x), x.2).

Lemma set_leaf_bounds X s t p b dd c b' : RepX X s t -> t = plug (Leaf p b dd) c ->
  exists s', @set_bounds N T p b' s = Ret (tt, s') /\ RepX X s' (plug (Leaf p b' dd) c) /\
    dp s' = dp s /\ root s' = root s /\ hp s' = <[p := Nd (cptr c) None None b' (Some dd)]> (hp s).
Proof.
  intros [RT RR ND DM WF] ->. destruct s as [h d r]. cbn [hp dp root] in *.
  assert (FT : fits (Leaf p b dd) c) by (apply unplug_wf; [discriminate|exact WF]).
  apply rep_plug in RT. destruct RT as [RL RC]. cbn [rep] in RL.
  eexists. split; [apply run_set_bounds; exact RL|]. cbn [nparent nleft nright ndata hp dp root].
  split; [|auto].
  assert (ND' : NoDup (X ++ ptrs (Leaf p b' dd) ++ cptrs c)).
  { eapply NoDup_perm; [|exact ND]. rewrite ptrs_plug. reflexivity. }
  constructor; cbn [hp root].
  - apply rep_plug. split; [cbn; apply lookup_insert|].
    eapply rep_ctx_frame; [|exact RC]. intros q Hq. apply lookup_insert_ne.
    intros <-. apply NoDup_app in ND'. destruct ND' as (_ & _ & Y). cbn in Y. apply NoDup_cons in Y. tauto.
  - rewrite plug_root in *. exact RR.
  - eapply NoDup_perm; [|exact ND']. rewrite ptrs_plug. reflexivity.
  - intros q. rewrite lookup_insert_is_Some', DM, !ptrs_plug. cbn [ptrs]. split; [|auto].
    intros [<-|Y]; [|exact Y]. elems. auto.
  - apply plug_wf. destruct c; exact FT.
Qed.

Lemma update_all_rep upd X l2 : forall l1 s t fuel, RepX X s t -> leaves t = l1 ++ l2 -> length l2 <= fuel ->
  exists s' t', update_all fuel upd (hdp (root s) l2) s = Ret (lptr <$> l2, s') /\ RepX X s' t' /\
    leaves t' = l1 ++ (uf upd <$> l2) /\ ptrs t' = ptrs t /\ tbnd t' = tbnd t /\
    dp s' = dp s /\ root s' = root s.
Proof.
  induction l2 as [|x l2 IH]; intros l1 s t fuel H EL HF.
  - exists s, t. assert (Er : @update_all N T fuel upd (root s) s = Ret ([], s)).
    { destruct fuel; cbn [update_all]; unfold end_it; erewrite bind_ret by reflexivity; rewrite bool_decide_eq_true_2 by reflexivity; reflexivity. }
    cbn. rewrite app_nil_r in *. split; [exact Er|]. split; [exact H|]. auto.
  - destruct x as [[p b] dd]. cbn [length] in HF. destruct fuel as [|fuel]; [lia|].
    destruct (leaf_split _ _ _ _ _ _ EL) as (c & Ec & Cb & Ca).
    assert (NR : p <> root s).
    { intros ->. destruct H as [_ RR ND _ WF]. apply NoDup_app in ND. destruct ND as (_ & _ & ND).
      apply (root_not_leaf t (root s) WF ND RR). rewrite EL, fmap_app. apply elem_of_app. right. left. }
    destruct (set_leaf_bounds _ _ _ _ _ _ _ (upd p) H Ec) as (s1 & E1 & H1 & D1 & R1 & _).
    cbn [hdp update_all lptr fst]. unfold end_it. erewrite bind_ret by reflexivity.
    rewrite bool_decide_eq_false_2 by exact NR.
    rewrite (bind_ret _ _ _ _ _ E1).
    assert (EL1 : leaves (plug (Leaf p (upd p) dd) c) = l1 ++ (p, upd p, dd) :: l2).
    { rewrite leaves_plug_eq, Cb, Ca. reflexivity. }
    rewrite (bind_ret _ _ _ _ _ (next_rep _ _ _ _ (p, upd p, dd) _ H1 EL1)).
    destruct (IH (l1 ++ [(p, upd p, dd)]) s1 _ fuel H1) as (s2 & t2 & E2 & H2 & L2 & P2 & B2 & D2 & R2).
    { rewrite EL1, <- app_assoc. reflexivity. }
    { lia. }
    rewrite (bind_ret _ _ _ _ _ E2). exists s2, t2. split; [reflexivity|]. split; [exact H2|].
    split; [rewrite L2, <- app_assoc; reflexivity|].
    split; [rewrite P2, Ec; clear; generalize c|].
    { intros c'. assert (G : forall c u u', ptrs u = ptrs u' -> ptrs (plug u c) = ptrs (plug u' c)).
      { clear. induction c as [|s p b sib c IH]; intros u u' H; cbn [plug]; [exact H|]. apply IH. destruct s; cbn; rewrite H; reflexivity. }
      apply G. reflexivity. }
    split; [|split; congruence].
    rewrite B2, Ec. assert (NC : c <> CTop).
    { intros ->. destruct H as [_ _ _ _ WF]. rewrite Ec in WF. exact WF. }
    assert (G : forall c u u', tbnd u = tbnd u' \/ c <> CTop -> tbnd (plug u c) = tbnd (plug u' c)).
    { clear. induction c as [|s p b sib c IH]; intros u u' H; cbn [plug]; [destruct H; congruence|].
      apply IH. left. destruct s; reflexivity. }
    apply G. auto.
Qed.

(** ** Detaching the leaves *)
Lemma detach_all_heap L : forall t h d r, leaves t = L -> NoDup (ptrs t) -> rep h None t -> is_leaf t = false ->
  exists h' t', @detach_all N T (lptr <$> L) (St h d r) = Ret (tt, St h' d r) /\
    rep h' None t' /\ leaves t' = [] /\ ptrs t ≡ₚ (lptr <$> L) ++ ptrs t' /\ tptr t' = tptr t /\ tbnd t' = tbnd t /\
    (forall q, q ∉ ptrs t' -> h' !! q = h !! q) /\ (forall q, is_Some (h' !! q) <-> is_Some (h !! q)).
Proof.
  induction L as [|[[p b] dd] L IH]; intros t h d r EL ND RT NL.
  - exists h, t. cbn. split; [reflexivity|]. split; [exact RT|]. split; [exact EL|]. split; [reflexivity|]. split; [reflexivity|].
    split; [reflexivity|]. split; [auto|]. reflexivity.
  - destruct (leaf_split t [] p b dd L EL) as (c & -> & Cb & Ca).
    destruct c as [|s g gb sib c]; [discriminate|].
    apply rep_plug in RT. destruct RT as [RL RC]. cbn [rep cptr rep_ctx tptr] in RL, RC. destruct RC as (Eg & RS & RC).
    assert (ND' : NoDup (p :: g :: ptrs sib ++ cptrs c)).
    { eapply NoDup_perm; [|exact ND]. rewrite ptrs_plug. reflexivity. }
    assert (NSib : tptr sib <> Some p).
    { intros X. apply tptr_in in X. nodup ND'. tauto. }
    cbn [fmap list_fmap lptr fst detach_all].
    erewrite bind_ret by (eapply (run_set_handle s); [exact RL|reflexivity|exact Eg|exact NSib]).
    set (h1 := <[g := _]> h).
    destruct (IH (plug Nil (CIn s g gb sib c)) h1 d r) as (h2 & t2 & E2 & R2 & L2 & P2 & T2 & B2 & F2 & D2).
    { rewrite leaves_plug_eq, Cb, Ca. reflexivity. }
    { eapply (NoDup_perm (g :: ptrs sib ++ cptrs c)); [rewrite ptrs_plug; reflexivity|]. apply NoDup_cons in ND'. tauto. }
    { apply rep_plug. split; [exact I|]. cbn [rep_ctx tptr]. split; [|split].
      - unfold h1. rewrite lookup_insert. destruct s; reflexivity.
      - eapply rep_frame; [|exact RS]. nodup ND'. intros q Hq. unfold h1. apply lookup_insert_ne. intros <-. tauto.
      - eapply rep_ctx_frame; [|exact RC]. nodup ND'. intros q Hq. unfold h1. apply lookup_insert_ne. intros <-. tauto. }
    { clear. cbn [plug]. assert (G : forall c u, is_leaf u = false -> is_leaf (plug u c) = false).
      { clear. intros c0. induction c0 as [|s0 ? ? ? ? IH]; intros u H; cbn; [exact H|]. apply IH. destruct s0; reflexivity. }
      apply G. destruct s; reflexivity. }
    exists h2, t2. split; [exact E2|]. split; [exact R2|]. split; [exact L2|].
    rewrite ptrs_plug in P2. cbn [ptrs app] in P2.
    split. { rewrite ptrs_plug. cbn [ptrs app]. rewrite P2. reflexivity. }
    split. { rewrite T2, !plug_root. cbn [tptr]. reflexivity. }
    split. { rewrite B2. cbn [plug]. assert (G : forall c u u', tbnd u = tbnd u' -> tbnd (plug u c) = tbnd (plug u' c)).
      { clear. induction c as [|s p b sib c IH]; intros u u' H; cbn [plug]; [exact H|]. apply IH. destruct s; reflexivity. }
      apply G. destruct s; reflexivity. }
    assert (Gin : g ∈ (lptr <$> L) ++ ptrs t2) by (rewrite <- P2; left).
    assert (GL : g ∈ ptrs t2).
    { apply elem_of_app in Gin. destruct Gin as [X|X]; [|exact X]. exfalso.
      (* g is internal, hence not a leaf *)
      assert (EL' : lptr <$> leaves (plug (Leaf p b dd) (CIn s g gb sib c)) ≡ₚ p :: (lptr <$> leaves sib) ++ (lptr <$> cleaves c)).
      { rewrite leaves_plug. cbn. rewrite fmap_app. reflexivity. }
      rewrite EL in EL'. cbn in EL'. apply Permutation_cons_inv in EL'. rewrite EL' in X. apply elem_of_app in X.
      nodup ND'. destruct X as [X|X]; [apply lptr_sub in X; tauto|].
      assert (X' : g ∈ cptrs c); [|tauto].
      clear -X. induction c as [|s p b sib c IH]; cbn in *; [inversion X|].
      rewrite fmap_app in X. apply elem_of_app in X. right. apply elem_of_app.
      destruct X as [X|X]; [left; apply lptr_sub; exact X|right; apply IH; exact X]. }
    split.
    { intros q Hq. rewrite F2 by exact Hq. unfold h1. apply lookup_insert_ne. intros <-. contradiction. }
    intros q. rewrite D2. unfold h1. rewrite lookup_insert_is_Some'. split; [|auto]. intros [<-|X]; [|exact X]. rewrite Eg. eauto.
Qed.

(** ** Recycling the internal nodes *)
Fixpoint post t : list ptr :=
  match t with Nil => [] | Leaf p _ _ => [p] | Bin p _ l r => post l ++ post r ++ [p] end.
Lemma post_perm t : post t ≡ₚ ptrs t.
Proof. induction t as [| |p b l IHl r IHr]; cbn; try reflexivity. rewrite IHl, IHr. solve_Permutation. Qed.
Lemma recycle_heap t : forall fuel h d r par p bin, leaves t = [] -> NoDup (ptrs t) -> rep h par t -> tptr t = Some p ->
  depth t <= fuel ->
  exists h', @recycleSubTree N T fuel p bin (St h d r) = Ret (bin ++ post t, St h' d r) /\
    (forall q, q ∈ ptrs t -> blank_at h' q) /\ (forall q, q ∉ ptrs t -> h' !! q = h !! q).
Proof.
  induction t as [|lp lb ld|p b tl IHl tr IHr]; intros fuel h d r par p' bin EL ND RT EP HF; [discriminate|discriminate|].
  cbn [tptr] in EP. injection EP as <-. cbn [leaves] in EL. apply app_eq_nil in EL. destruct EL as [ELl ELr].
  cbn [rep ptrs depth] in *. destruct RT as (Ep & RL & RR). destruct fuel as [|fuel]; [lia|].
  rewrite NoDup_cons, not_elem_of_app, NoDup_app in ND. destruct ND as ((NL & NR) & NDL & NLR & NDR).
  cbn [recycleSubTree]. mstep.
  assert (SL : exists h1, (match tptr tl with Some l => @recycleSubTree N T fuel l bin | None => ret bin end) (St h d r)
    = Ret (bin ++ post tl, St h1 d r) /\ (forall q, q ∈ ptrs tl -> blank_at h1 q) /\ (forall q, q ∉ ptrs tl -> h1 !! q = h !! q)).
  { destruct (tptr tl) as [pl|] eqn:El.
    - apply (IHl fuel h d r (Some p)); auto. lia.
    - apply tptr_nil in El. subst. exists h. cbn. rewrite app_nil_r. split; [reflexivity|]. split; [|auto]. intros q Hq. inversion Hq. }
  destruct SL as (h1 & E1 & K1 & F1). rewrite (bind_ret _ _ _ _ _ E1).
  assert (Ep1 : h1 !! p = Some (Nd par (tptr tl) (tptr tr) b None)) by (rewrite F1; auto).
  mstep.
  assert (SR : exists h2, (match tptr tr with Some l => @recycleSubTree N T fuel l (bin ++ post tl) | None => ret (bin ++ post tl) end) (St h1 d r)
    = Ret ((bin ++ post tl) ++ post tr, St h2 d r) /\ (forall q, q ∈ ptrs tr -> blank_at h2 q) /\ (forall q, q ∉ ptrs tr -> h2 !! q = h1 !! q)).
  { destruct (tptr tr) as [pr|] eqn:Er.
    - apply (IHr fuel h1 d r (Some p)); auto; [|lia].
      eapply rep_frame; [|exact RR]. intros q Hq. apply F1. intros X. exact (NLR q X Hq).
    - apply tptr_nil in Er. subst. exists h1. cbn. rewrite app_nil_r. split; [reflexivity|]. split; [|auto]. intros q Hq. inversion Hq. }
  destruct SR as (h2 & E2 & K2 & F2). rewrite (bind_ret _ _ _ _ _ E2).
  assert (Ep2 : h2 !! p = Some (Nd par (tptr tl) (tptr tr) b None)) by (rewrite F2; auto).
  msteps. rewrite !insert_insert.
  exists (<[p := Nd None None None b None]> h2). split; [cbn [post]; rewrite <- !app_assoc; reflexivity|]. split.
  - intros q. elems. intros Hq. unfold blank_at.
    destruct (decide (q = p)) as [->|NE]; [rewrite lookup_insert; eauto|].
    rewrite lookup_insert_ne by auto.
    destruct (decide (q ∈ ptrs tr)) as [X|X]; [apply K2; exact X|].
    rewrite F2 by exact X. apply K1. tauto.
  - intros q. elems. intros Hq. rewrite lookup_insert_ne by (intros <-; tauto). rewrite F2, F1 by tauto. reflexivity.
Qed.

(** ** Deleting what is left in the bin *)
Lemma destroyBin_heap bin : forall h d r, NoDup bin -> (forall q, q ∈ bin -> blank_at h q) ->
  exists h', @destroyBin N T bin (St h d r) = Ret (tt, St h' d r) /\
    (forall q, q ∈ bin -> h' !! q = None) /\ (forall q, q ∉ bin -> h' !! q = h !! q).
Proof.
  induction bin as [|p bin IH]; intros h d r ND HB; cbn [destroyBin].
  - exists h. split; [reflexivity|]. split; [intros q Hq; inversion Hq|auto].
  - destruct (HB p ltac:(left)) as [b Hp]. apply NoDup_cons in ND. destruct ND as [NI ND].
    rewrite (bind_ret _ _ _ (size h) (St h d r)) by reflexivity.
    erewrite bind_ret by (eapply deleteNode_one; [|exact Hp]; destruct (size h) eqn:Es; [apply map_size_empty_inv in Es; subst h; rewrite lookup_empty in Hp; discriminate|lia]).
    destruct (IH (delete p h) d r ND) as (h' & E' & K' & F').
    { intros q Hq. destruct (HB q ltac:(right; exact Hq)) as [b' Hq']. exists b'. rewrite lookup_delete_ne; [exact Hq'|]. intros <-. contradiction. }
    exists h'. split; [exact E'|]. split.
    + intros q Hq. apply elem_of_cons in Hq. destruct Hq as [->|Hq]; [|apply K'; exact Hq].
      rewrite F' by exact NI. apply lookup_delete.
    + intros q Hq. rewrite not_elem_of_cons in Hq. rewrite F' by tauto. apply lookup_delete_ne. intros <-. tauto.
Qed.

Lemma full_count u : full u -> S (length (ptrs u)) = 2 * length (leaves u).
Proof.
  induction u as [|lp lb ld|p b l IHl r IHr]; cbn [full ptrs leaves length]; [contradiction|reflexivity|].
  intros [Fl Fr]. specialize (IHl Fl). specialize (IHr Fr). rewrite !app_length. lia.
Qed.
Lemma wf_count t : wf_root t -> 2 * length (leaves t) <= S (length (ptrs t)).
Proof.
  destruct t as [|lp lb ld|p b l r]; cbn [wf_root ptrs leaves length]; try contradiction.
  intros [[->|Fl] [->|Fr]]; rewrite !app_length; cbn [ptrs leaves length];
    repeat match goal with H : full _ |- _ => apply full_count in H end; lia.
Qed.

(** ** updateAndCollide *)
Lemma uf_lptr upd (l : list (ptr * box * ptr)) : lptr <$> (uf upd <$> l) = lptr <$> l.
Proof. rewrite <- list_fmap_compose. apply list_fmap_ext. reflexivity. Qed.
Lemma uf_datas upd (l : list (ptr * box * ptr)) : datas (uf upd <$> l) = datas l.
Proof. unfold datas. rewrite <- list_fmap_compose. apply list_fmap_ext. reflexivity. Qed.

(** the pairs to report *)
Definition reports (upd : ptr -> box) (l : list ptr) (cs : list (ptr * ptr)) : Prop :=
  calls_ok upd l [] cs.

Lemma leaf_at_rep h par t x : rep h par t -> x ∈ leaves t ->
  exists par', h !! lptr x = Some (Nd par' None None (lbnd x) (Some x.2)).
Proof.
  revert par. induction t as [|lp lb ld|p b l IHl r IHr]; intros par R Hx; cbn [leaves rep] in *.
  - inversion Hx.
  - apply elem_of_list_singleton in Hx. subst. exists par. exact R.
  - destruct R as (_ & RL & RR). apply elem_of_app in Hx. destruct Hx as [Hx|Hx]; eauto.
Qed.

Lemma updateAndCollide_rep upd s t : env_ok E -> RepX [] s t ->
  (forall x, leaves t = [x] -> insert_ok (tbnd t) (upd (lptr x)) = true) ->
  exists s' t' cs, updateAndCollide E upd s = Ret ((lptr <$> leaves t, cs), s') /\
    RepX [] s' t' /\ leaves t' ≡ₚ uf upd <$> leaves t /\ dp s' = dp s /\ root s' = root s /\
    (forall (ok : K -> Prop) (P : box -> Prop), OrdLaws N ok -> OverlapLaws N ok P ->
       (forall x, x ∈ leaves t -> P (upd (lptr x))) ->
       reports upd (lptr <$> leaves t) cs) /\
    match length (leaves t) with
    | 0 => (t' = t)
    | 1 => exists p b dd np, leaves t = [(p, b, dd)] /\
        t' = addLeafF np (Bin (root s) (tbnd t) Nil Nil) (Leaf p (upd p) dd) CTop
    | _ => ub t'
    end.
Proof.
  intros HE H IO. pose proof (RepX_size _ _ _ H) as SZ. pose proof (leaves_len t) as LL.
  unfold updateAndCollide. rewrite (bind_ret _ _ _ (size (hp s)) s) by reflexivity.
  rewrite (bind_ret _ _ _ _ _ (begin_rep _ _ _ H)).
  destruct (update_all_rep upd [] (leaves t) [] s t (size (hp s)) H eq_refl) as (s1 & t1 & E1 & H1 & L1 & P1 & B1 & D1 & R1); [lia|].
  rewrite (bind_ret _ _ _ _ _ E1). cbn [app] in L1.
  pose proof H1 as [RT1 RR1 ND1 DM1 WF1]. cbn [app] in ND1, DM1.
  destruct s1 as [h1 d1 r1]. cbn [hp dp root] in *. subst d1 r1.
  destruct (detach_all_heap (leaves t1) t1 h1 (dp s) (root s) eq_refl ND1 RT1) as
    (h2 & t2 & E2 & RT2 & L2 & P2 & TP2 & B2 & F2 & D2).
  { destruct t1; [reflexivity|contradiction|reflexivity]. }
  rewrite L1, uf_lptr in E2. rewrite (bind_ret _ _ _ _ _ E2).
  rewrite L1, uf_lptr in P2.
  destruct (leaves t) as [|[[p b] dd] [|y ls]] eqn:EL; cbn [fmap list_fmap length] in *.
  - (* no element *)
    eexists _, t, []. split; [reflexivity|]. 
    assert (Q : h2 = hp s).
    { change (Ret (tt, St h1 (dp s) (root s)) = Ret (tt, St h2 (dp s) (root s))) in E2. injection E2 as <-.
      assert (X : update_all (size (hp s)) upd (hdp (root s) []) s = Ret ([], s)).
      { destruct (size (hp s)); cbn [update_all hdp]; unfold end_it; erewrite bind_ret by reflexivity;
          rewrite bool_decide_eq_true_2 by reflexivity; reflexivity. }
      unfold hdp in *. cbn in E1, X. rewrite X in E1. injection E1 as E1. rewrite E1. reflexivity. }
    rewrite Q. destruct s as [h d r]. cbn [hp dp root] in *. split; [exact H|]. split; [rewrite EL; reflexivity|].
    split; [reflexivity|]. split; [reflexivity|]. split; [|reflexivity].
    intros; unfold reports, calls_ok; cbn; reflexivity.
  - (* one element: it is inserted again *)
    cbn [lptr fst] in *.
    assert (T2 : t2 = Bin (root s) (tbnd t) Nil Nil).
    { destruct t1 as [|?|r1 b1 l1 rr1]; cbn [wf_root] in WF1; try contradiction.
      cbn [tptr] in RR1. injection RR1 as ->.
      destruct t2 as [|?|r2 b2 l2 rr2]; cbn [leaves tptr tbnd] in *; try discriminate.
      injection TP2 as ->. subst b2. rewrite <- B1. f_equal.
      - cbn [ptrs] in P2. apply Permutation_length in P2. rewrite app_length in P2. cbn [length app] in P2.
        rewrite !app_length in P2. pose proof (wf_count (Bin (root s) b1 l1 rr1) WF1) as WC.
        assert (G : length (ptrs (Bin (root s) b1 l1 rr1)) = 2).
        { cbn [leaves] in L1. cbn [ptrs length]. rewrite app_length. destruct WF1 as [[->|Fl] [->|Fr]]; cbn [leaves ptrs length app] in *.
          - discriminate.
          - apply full_count in Fr. rewrite L1 in Fr. cbn in Fr. lia.
          - rewrite app_nil_r in L1. apply full_count in Fl. rewrite L1 in Fl. cbn in Fl. lia.
          - apply full_leaves in Fl, Fr. destruct (leaves l1) as [|? [|]], (leaves rr1); cbn in L1; congruence. }
        cbn [ptrs length] in G. rewrite app_length in G. destruct l2; [reflexivity|cbn in P2; lia|cbn in P2; lia].
      - cbn [ptrs] in P2. apply Permutation_length in P2. rewrite app_length in P2. cbn [length app] in P2.
        rewrite !app_length in P2.
        assert (G : length (ptrs (Bin (root s) b1 l1 rr1)) = 2).
        { cbn [leaves] in L1. cbn [ptrs length]. rewrite app_length. destruct WF1 as [[->|Fl] [->|Fr]]; cbn [leaves ptrs length app] in *.
          - discriminate.
          - apply full_count in Fr. rewrite L1 in Fr. cbn in Fr. lia.
          - rewrite app_nil_r in L1. apply full_count in Fl. rewrite L1 in Fl. cbn in Fl. lia.
          - apply full_leaves in Fl, Fr. destruct (leaves l1) as [|? [|]], (leaves rr1); cbn in L1; congruence. }
        cbn [ptrs length] in G. rewrite app_length in G. destruct rr2; [reflexivity|cbn in P2; lia|cbn in P2; lia]. }
    subst t2. cbn [ptrs app] in P2.
    destruct (leaf_at_rep h1 None t1 (p, upd p, dd) RT1) as [par Hp]; [rewrite L1; left|]. cbn [lptr lbnd fst snd] in Hp.
    assert (NR : p <> root s).
    { intros ->. pose proof (NoDup_perm _ _ P2 ND1) as X || pose proof (NoDup_perm _ _ (symmetry P2) ND1) as X.
      apply NoDup_cons in X. destruct X as [X _]. apply X. left. }
    assert (Hp2 : h2 !! p = Some (Nd par None None (upd p) (Some dd))).
    { rewrite F2; [exact Hp|]. cbn. intros X. apply elem_of_list_singleton in X. contradiction. }
    assert (RX : RepX [p] (St h2 (dp s) (root s)) (Bin (root s) (tbnd t) Nil Nil)).
    { constructor; cbn [hp root].
      - exact RT2.
      - reflexivity.
      - cbn. eapply NoDup_perm; [|exact ND1]. exact P2 || (symmetry; exact P2).
      - intros q. rewrite D2, DM1, P2. reflexivity.
      - split; left; reflexivity. }
    destruct (insert_node_rep E _ _ p par (upd p) dd HE RX Hp2) as (s3 & t3 & E3 & H3 & D3 & R3 & L3 & u & c & k & Ec & NU & FT & EF & Et3).
    { cbn [tbnd]. apply (IO (p, b, dd)). reflexivity. }
    rewrite (bind_ret _ _ _ _ _ E3). cbn [dp root leaves app] in *.
    exists s3, t3, []. split; [reflexivity|]. split; [exact H3|]. split; [rewrite L3; reflexivity|].
    split; [exact D3|]. split; [exact R3|]. split; [intros; unfold reports, calls_ok; cbn; reflexivity|].
    assert (Q : c = CTop /\ u = Bin (root s) (tbnd t) Nil Nil).
    { assert (X : length (ptrs (plug u c)) = 1) by (rewrite <- Ec; reflexivity).
      rewrite (Permutation_length (ptrs_plug c u)), app_length in X.
      destruct c as [|? ? ? ? ?]; [split; auto|]. destruct u; cbn in X; try congruence; lia. }
    destruct Q as [-> ->]. eauto 10.
  - (* at least two elements *)
    set (nodes := p :: lptr y :: (lptr <$> ls)) in *.
    assert (EN : lptr <$> leaves t1 = nodes) by (rewrite L1; cbn; rewrite uf_lptr; reflexivity).
    cbn [lptr fst]. change (p :: lptr y :: list_fmap _ _ lptr ls) with nodes.
    change (lptr (p, b, dd) :: lptr y :: list_fmap _ _ lptr ls) with nodes in P2.
    rewrite (bind_ret _ _ _ (root s) (St h2 (dp s) (root s))) by reflexivity.
    assert (ND12 : NoDup (nodes ++ ptrs t2)) by (eapply NoDup_perm; [|exact ND1]; exact P2 || (symmetry; exact P2)).
    pose proof ND12 as ND12'. apply NoDup_app in ND12'. destruct ND12' as (NDn & DNI & NDi).
    rewrite RR1 in TP2.
    destruct (recycle_heap t2 (size (hp s)) h2 (dp s) (root s) None (root s) [] L2 NDi RT2 TP2) as (h3 & E3 & K3 & F3).
    { pose proof (depth_le t2). apply Permutation_length in P2. rewrite app_length in P2. rewrite P1 in P2. lia. }
    cbn [app] in E3. rewrite (bind_ret _ _ _ _ _ E3).
    pose proof (post_perm t2) as PP.
    set (bnd := upd). set (dat := fun q => match h3 !! q with Some n => default 1%positive (ndata n) | None => 1%positive end).
    assert (LA : forall q, q ∈ nodes -> leaf_at h3 bnd dat q).
    { intros q Hq. unfold leaf_at, dat. pose proof Hq as Hq2. rewrite <- EN in Hq2. apply elem_of_list_fmap in Hq2.
      destruct Hq2 as (x & -> & Hx). destruct (leaf_at_rep _ _ _ _ RT1 Hx) as [par Hx'].
      rewrite F3 by (apply DNI; exact Hq). rewrite F2 by (apply DNI; exact Hq). rewrite Hx'. cbn. exists par.
      rewrite L1 in Hx. change (x ∈ uf upd <$> ((p, b, dd) :: y :: ls)) in Hx.
      apply elem_of_list_fmap in Hx. destruct Hx as (z & -> & _). reflexivity. }
    assert (DT : lf bnd dat <$> nodes = leaves t1).
    { rewrite <- EN. rewrite <- list_fmap_compose. rewrite <- (list_fmap_id (leaves t1)) at 2. apply list_fmap_ext.
      intros i x Hx. apply elem_of_list_lookup_2 in Hx. unfold compose, lf, dat. cbn [id].
      assert (Hn : lptr x ∈ nodes) by (rewrite <- EN; apply elem_of_list_fmap; eauto).
      destruct (leaf_at_rep _ _ _ _ RT1 Hx) as [par Hx'].
      rewrite F3 by (apply DNI; exact Hn). rewrite F2 by (apply DNI; exact Hn). rewrite Hx'. cbn.
      rewrite L1 in Hx. change (x ∈ uf upd <$> ((p, b, dd) :: y :: ls)) in Hx.
      apply elem_of_list_fmap in Hx. destruct Hx as (z & -> & _). reflexivity. }
    assert (CNT : length nodes <= S (length (post t2))).
    { rewrite (Permutation_length PP).
      assert (LP2 : length (ptrs t1) = length nodes + length (ptrs t2)) by (rewrite (Permutation_length P2), app_length; reflexivity).
      pose proof (wf_count t1 WF1) as WC. assert (X : length nodes = length (leaves t1)) by (rewrite <- EN, fmap_length; reflexivity). lia. }
    edestruct (uc_heap E (length nodes) nodes ol_empty (post t2) h3 (dp s) (root s) bnd dat) as
      (h4 & u & cs & bin' & used & E4 & FU & LU & PU & BU & LenU & TU & _ & UB & F4 & _ & A4 & CU);
      [discriminate|lia|exact CNT| |exact LA| |unfold ol_ok; cbn; lia| |].
    { eapply NoDup_perm; [|exact ND12]. rewrite PP. reflexivity. }
    { intros q Hq. apply K3. rewrite <- PP. exact Hq. }
    { cbn. intros q Hq. inversion Hq. }
    rewrite (bind_ret _ _ _ _ _ E4). cbn [fst snd].
    destruct TU as [TU RU]; [cbn; lia|].
    assert (LP : last (post t2) = Some (root s)).
    { destruct t2 as [|?|r2 b2 l2 rr2]; cbn [tptr post] in *; try discriminate. rewrite app_assoc, last_snoc. exact TP2. }
    rewrite LP in TU. rewrite TU. rewrite bind_deref.
    rewrite (bind_ret _ _ _ tt (St h4 (dp s) (root s))) by reflexivity.
    assert (NDb : NoDup (nodes ++ bin' ++ used)).
    { eapply NoDup_perm; [|exact ND12]. rewrite <- BU, PP. reflexivity. }
    apply NoDup_app in NDb. destruct NDb as (_ & DB1 & DB2). apply NoDup_app in DB2. destruct DB2 as (NDb' & DB2 & NDu).
    assert (NBU : forall q, q ∈ bin' -> q ∉ nodes ++ used).
    { intros q Hq. rewrite elem_of_app. intros [X|X]; [apply (DB1 q X); apply elem_of_app; auto|exact (DB2 q Hq X)]. }
    destruct (destroyBin_heap bin' h4 (dp s) (root s) NDb') as (h5 & E5 & K5 & F5).
    { intros q Hq. unfold blank_at. rewrite F4 by (apply NBU; exact Hq). apply K3. rewrite <- PP, BU. apply elem_of_app. auto. }
    rewrite (bind_ret _ _ _ _ _ E5).
    exists (St h5 (dp s) (root s)), u, cs. split; [reflexivity|]. split; [|split; [|split; [|split; [|split]]]].
    + constructor; cbn [hp root app].
      * eapply rep_frame; [|exact RU]. intros q Hq. apply F5. intros X. apply (NBU q X). rewrite <- PU. exact Hq.
      * exact TU.
      * eapply NoDup_perm; [symmetry; exact PU|]. apply NoDup_app. split; [exact NDn|]. split; [|exact NDu].
        intros q Q1 Q2. apply (DB1 q Q1). apply elem_of_app. auto.
      * intros q. destruct (decide (q ∈ bin')) as [X|X].
        -- rewrite K5 by exact X. split; [intros [? ?]; discriminate|]. intros Y. exfalso. apply (NBU q X). rewrite <- PU. exact Y.
        -- rewrite F5 by exact X. rewrite A4. assert (G : is_Some (h3 !! q) <-> is_Some (h2 !! q)).
           { destruct (decide (q ∈ ptrs t2)) as [Y|Y]; [|rewrite F3 by exact Y; reflexivity].
             destruct (K3 q Y) as [b' Hb']. rewrite Hb'. split; [|eauto]. intros _. eapply rep_alive; [exact RT2|exact Y]. }
           rewrite G, D2, DM1, P2, PU, !elem_of_app. rewrite <- PP, BU, elem_of_app. tauto.
      * destruct u as [|?|pu bu lu ru]; cbn [full] in FU; [contradiction| |].
        -- cbn [leaves] in LU. apply Permutation_length in LU. cbn in LU. discriminate.
        -- split; right; apply FU.
    + rewrite LU, DT, L1. reflexivity.
    + reflexivity.
    + reflexivity.
    + intros ok P OL VL HP. apply (CU ok P OL VL).
      * intros q Hq. rewrite <- EN, L1 in Hq.
        change (q ∈ lptr <$> (uf upd <$> ((p, b, dd) :: y :: ls))) in Hq.
        rewrite uf_lptr in Hq. apply elem_of_list_fmap in Hq. destruct Hq as (x & -> & Hx). apply HP. exact Hx.
      * cbn. intros q Hq. inversion Hq.
    + exact UB.
Qed.
End Update.
