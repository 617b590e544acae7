(** Deletion of nodes, addLeafTo and extract on the heap. *)
From stdpp Require Import base option list gmap fin_maps sorting.
From Verif Require Import Num Outcome Algo Box BoxFacts RTree RTreeFun RTreeHeap RTreeRot RTreeRefit.

(** Unpack a hypothesis [NoDup (a :: l ++ ...)] into non-membership facts. *)
Ltac nodup H :=
  repeat first
    [ rewrite NoDup_cons in H | rewrite NoDup_app in H
    | rewrite not_elem_of_app in H | rewrite not_elem_of_cons in H
    | rewrite elem_of_app in H | rewrite elem_of_cons in H ];
  repeat match goal with
         | X : _ /\ _ |- _ => destruct X
         end.
(** Normalise list membership, in the goal or in a hypothesis. *)
Ltac elems := repeat first [rewrite elem_of_app | rewrite elem_of_cons | rewrite elem_of_nil].
Ltac elems_in H :=
  repeat first [rewrite elem_of_app in H | rewrite elem_of_cons in H | rewrite elem_of_nil in H].
(** Prove that updates outside a region do not change it. *)
Ltac nd_false :=
  first [ tauto
        | congruence
        | match goal with X : forall x, x ∈ ?l -> x ∉ _, Y : ?z ∈ ?l |- False =>
            apply (X z Y); elems; tauto end ].
Ltac frame_tac :=
  intros; rewrite ?lookup_insert_ne;
  [reflexivity| ..]; (let E := fresh in intros E; subst; nd_false).

Section Edit.
Context {N : Num} {T : Type}.
Notation st := (st T).
Notation M := (@M N T).
Implicit Types (h : gmap ptr node) (p q g : ptr) (t u v : tree) (c : ctx) (d : gmap ptr T).

Lemma run_set_handle s h d r p par np ppar y b dt o :
  h !! p = Some np -> nparent np = Some par ->
  h !! par = Some (Nd ppar (lsl s (Some p) y) (lsl s y (Some p)) b dt) -> y <> Some p ->
  @set_handle N T p o (St h d r) =
  Ret (tt, St (<[par := Nd ppar (lsl s o y) (lsl s y o) b dt]> h) d r).
Proof.
  intros H1 E H2 NE. unfold set_handle.
  erewrite bind_ret by (eapply run_handle; eassumption). cbn [fst snd].
  erewrite run_wr_slot by eassumption. destruct s; reflexivity.
Qed.
Definition reparent (o : option ptr) (n : node) : node :=
  Nd o (nleft n) (nright n) (nbounds n) (ndata n).
Lemma run_replaceBy s h d r p par np ppar y b dt q nq :
  h !! p = Some np -> nparent np = Some par ->
  h !! par = Some (Nd ppar (lsl s (Some p) y) (lsl s y (Some p)) b dt) -> y <> Some p ->
  h !! q = Some nq -> par <> q ->
  @replaceBy N T p (Some q) (St h d r) =
  Ret (tt, St (<[q := reparent (Some par) nq]> (<[par := Nd ppar (lsl s (Some q) y) (lsl s y (Some q)) b dt]> h)) d r).
Proof.
  intros H1 E H2 NE Hq NQ. unfold replaceBy. mstep. rewrite E. mstep. unfold replaceChild.
  erewrite bind_ret by (eapply run_set_handle; eassumption).
  mstep. erewrite run_set_parent by lk. reflexivity.
Qed.
Lemma run_setLeft h d r p np q nq :
  h !! p = Some np -> h !! q = Some nq -> p <> q ->
  @setLeft N T p (Some q) (St h d r) =
  Ret (tt, St (<[q := reparent (Some p) nq]>
    (<[p := Nd (nparent np) (Some q) (nright np) (nbounds np) (ndata np)]> h)) d r).
Proof.
  intros Hp Hq NE. unfold setLeft. msteps. erewrite run_set_parent by lk. reflexivity.
Qed.
Lemma run_setRight h d r p np q nq :
  h !! p = Some np -> h !! q = Some nq -> p <> q ->
  @setRight N T p (Some q) (St h d r) =
  Ret (tt, St (<[q := reparent (Some p) nq]>
    (<[p := Nd (nparent np) (nleft np) (Some q) (nbounds np) (ndata np)]> h)) d r).
Proof.
  intros Hp Hq NE. unfold setRight. msteps. erewrite run_set_parent by lk. reflexivity.
Qed.

(** ** deleteNode *)
Fixpoint depth t : nat :=
  match t with Nil => 0 | Leaf _ _ _ => 1 | Bin _ _ l r => S (max (depth l) (depth r)) end.
Lemma depth_le t : depth t <= length (ptrs t).
Proof. induction t; cbn [depth ptrs length]; rewrite ?app_length; lia. Qed.
Definition datas (l : list (ptr * box * ptr)) : list ptr := snd <$> l.

Lemma deleteNode_heap t : forall fuel h d r par,
  depth t <= fuel -> NoDup (ptrs t) -> NoDup (datas (leaves t)) ->
  rep h par t -> (forall x, x ∈ datas (leaves t) -> is_Some (d !! x)) ->
  exists h' d', @deleteNode N T fuel (tptr t) (St h d r) = Ret (tt, St h' d' r) /\
    (forall q, q ∈ ptrs t -> h' !! q = None) /\
    (forall q, q ∉ ptrs t -> h' !! q = h !! q) /\
    (forall q, q ∈ datas (leaves t) -> d' !! q = None) /\
    (forall q, q ∉ datas (leaves t) -> d' !! q = d !! q).
Proof.
  induction t as [|p b dd|p b tl IHl tr IHr]; intros fuel h d r par HF ND NDD RT HD; cbn [tptr].
  - exists h, d. destruct fuel; cbn; repeat split; auto; intros q Hq; inversion Hq.
  - destruct fuel as [|fuel]; [cbn in HF; lia|]. cbn [deleteNode]. cbn [rep] in RT. mstep.
    erewrite bind_ret by (destruct fuel; reflexivity). mstep.
    erewrite bind_ret by (destruct fuel; reflexivity). mstep.
    destruct (HD dd) as [x Hx]; [left|].
    unfold bind, free_data, free_node. cbn [dp hp root]. rewrite Hx. cbn [dp hp root]. rewrite RT. cbn [dp hp root].
    exists (delete p h), (delete dd d). split; [reflexivity|]. cbn [ptrs leaves datas].
    cbn. repeat split; intros q Hq; rewrite ?elem_of_list_singleton in Hq; subst;
      rewrite ?lookup_delete, ?lookup_delete_ne by auto; auto.
  - destruct fuel as [|fuel]; [cbn in HF; lia|]. cbn [deleteNode].
    cbn [rep ptrs leaves] in *. unfold datas in *. rewrite fmap_app in NDD.
    setoid_rewrite fmap_app. setoid_rewrite fmap_app in HD.
    destruct RT as (Ep & RL & RR). cbn [depth] in HF.
    rewrite NoDup_cons, not_elem_of_app, NoDup_app in ND. destruct ND as ((NL & NR) & NDL & NLR & NDR).
    rewrite NoDup_app in NDD. destruct NDD as (DL & DLR & DR).
    mstep.
    destruct (IHl fuel h d r (Some p)) as (h1 & d1 & E1 & K1 & F1 & KD1 & FD1); auto; [lia| |].
    { intros x Hx. apply HD. apply elem_of_app. auto. }
    rewrite (bind_ret _ _ _ _ _ E1).
    assert (Ep1 : h1 !! p = Some (Nd par (tptr tl) (tptr tr) b None)) by (rewrite F1; auto).
    mstep.
    destruct (IHr fuel h1 d1 r (Some p)) as (h2 & d2 & E2 & K2 & F2 & KD2 & FD2); auto; [lia| | |].
    { eapply rep_frame; [|exact RR]. intros q Hq. apply F1. intros X. exact (NLR q X Hq). }
    { intros x Hx. rewrite FD1; [apply HD; apply elem_of_app; auto|]. intros X. exact (DLR x X Hx). }
    rewrite (bind_ret _ _ _ _ _ E2).
    assert (Ep2 : h2 !! p = Some (Nd par (tptr tl) (tptr tr) b None)) by (rewrite F2; auto).
    mstep. mstep.
    unfold free_node. cbn [hp]. rewrite Ep2.
    exists (delete p h2), d2. split; [reflexivity|]. repeat split; intros q Hq.
    + rewrite elem_of_cons, elem_of_app in Hq.
      destruct (decide (q = p)) as [->|NE]; [apply lookup_delete|].
      rewrite lookup_delete_ne by auto.
      destruct (decide (q ∈ ptrs tr)) as [X|X]; [auto|].
      rewrite F2 by auto. apply K1. tauto.
    + rewrite not_elem_of_cons, not_elem_of_app in Hq.
      rewrite lookup_delete_ne, F2, F1 by (tauto || (intros ->; tauto)). reflexivity.
    + rewrite elem_of_app in Hq.
      destruct (decide (q ∈ snd <$> leaves tr)) as [X|X]; [auto|].
      rewrite FD2 by auto. apply KD1. tauto.
    + rewrite not_elem_of_app in Hq. rewrite FD2, FD1; tauto.
Qed.

(** ** addLeafTo *)
Lemma addLeafF_full np t leaf c : full t \/ wf_root t -> addLeafF np t leaf c =
  match t with
  | Nil => Nil
  | Leaf q bq _ => refitF (Bin np (box_combined bq (tbnd leaf)) t leaf) c
  | Bin q bq l r =>
      if is_null (tptr l) then refitN q bq leaf r c
      else if is_null (tptr r) then refitN q bq l leaf c
      else refitN q bq (Bin np bq l r) leaf c
  end.
Proof.
  intros _. destruct t as [|q bq dq|q bq tl tr]; try reflexivity. destruct tl, tr; reflexivity.
Qed.

Context (E : @env N).

Lemma addLeafTo_heap h d r t c lp lpar lb ld :
  env_ok E ->
  fits t c -> t <> Nil -> NoDup (lp :: ptrs t ++ cptrs c) ->
  rep h (cptr c) t -> rep_ctx h (tptr t) c ->
  h !! lp = Some (Nd lpar None None lb (Some ld)) ->
  let np := new_node E (dom h) in
  let t' := addLeafF np t (Leaf lp lb ld) c in
  exists h', addLeafTo E (tptr t) lp (St h d r) = Ret (tt, St h' d r) /\
    rep h' None t' /\
    (forall q, q ∉ np :: lp :: ptrs t ++ cptrs c -> h' !! q = h !! q) /\
    (forall q, is_Some (h' !! q) <-> is_Some (h !! q) \/ q ∈ ptrs t').
Proof.
  intros [HE _] [FC FT] NN ND RT RC Hlp np t'.
  assert (Hnp : h !! np = None).
  { apply not_elem_of_dom. apply HE. }
  assert (ALt : forall q, q ∈ ptrs t -> is_Some (h !! q)) by eauto using rep_alive.
  assert (ALc : forall q, q ∈ cptrs c -> is_Some (h !! q)) by eauto using rep_ctx_alive.
  assert (NPt : np ∉ ptrs t) by (intros X; destruct (ALt _ X); congruence).
  assert (NPc : np ∉ cptrs c) by (intros X; destruct (ALc _ X); congruence).
  assert (NPl : np <> lp) by (intros X; rewrite X in Hnp; congruence).
  assert (HF : S (S (length (cptrs c))) <= size h).
  { destruct (tptr t) as [p|] eqn:Ep; [|apply tptr_nil in Ep; contradiction].
    apply (size_ge h (lp :: p :: cptrs c)).
    - pose proof (tptr_in _ _ Ep) as Ip. rewrite !NoDup_cons, NoDup_app, elem_of_app in *.
      rewrite elem_of_cons. destruct ND as (X & Y & Z & W). split; [|split; auto].
      intros [->|X']; tauto.
    - intros q. rewrite !elem_of_cons. intros [->|[->|Hq]]; eauto using tptr_in. }
  pose proof (clen_le c) as HC.
  unfold addLeafTo. rewrite (bind_ret _ _ _ (size h) (St h d r)) by reflexivity.
  set (fuel := size h) in *. clearbody fuel.
  destruct t as [|p b dd|p b tl tr]; [congruence| |]; cbn [tptr]; cbn [rep tptr ptrs] in *.
  - (* leaf *)
    mstep. mstep. change (isLeaf _) with true. cbn iota.
    destruct c as [|s g gb sib c]; [destruct FT|].
    cbn [rep_ctx cptr cptrs] in *. destruct RC as (Eg & RS & RC).
    mstep. fold np.
    rewrite (bind_ret _ _ _ np (St (<[np := Nd None None None (box_combined b lb) None]> h) d r))
      by reflexivity.
    cbn [app] in ND. pose proof ND as ND0. nodup ND0.
    assert (NPp : np <> p) by (intros X; apply NPt; rewrite X; left).
    assert (NPg : np <> g) by (intros X; apply NPc; rewrite X; left).
    assert (NSib : tptr sib <> Some p) by (intros X; apply tptr_in in X; contradiction).
    erewrite bind_ret by (eapply run_replaceBy; [lk|reflexivity|lk|exact NSib|lk|congruence]).
    cbn [reparent nparent nleft nright nbounds ndata].
    erewrite bind_ret by (eapply run_setLeft; [lk|lk|congruence]).
    cbn [reparent nparent nleft nright nbounds ndata].
    erewrite bind_ret by (eapply run_setRight; [lk|lk|congruence]).
    cbn [reparent nparent nleft nright nbounds ndata].
    mstep.
    match goal with |- context [refit _ _ (St ?x _ _)] => set (h1 := x) end.
    destruct (refitF_heap (CIn s g gb sib c) fuel h1 d r
               (Bin np (box_combined b lb) (Leaf p b dd) (Leaf lp lb ld)))
      as (h' & E' & R' & F' & D').
    + lia.
    + exact FC.
    + discriminate.
    + cbn. auto.
    + cbn [ptrs app]. rewrite NoDup_cons. split.
      * cbn [cptrs]. rewrite !not_elem_of_cons. rewrite not_elem_of_cons in NPc. tauto.
      * eapply NoDup_perm; [|exact ND]. cbn [app]. apply perm_swap.
    + cbn [rep tptr]. unfold h1. split; [lk|]. split; lk.
    + cbn [rep_ctx tptr]. unfold h1. split; [lk|]. rewrite not_elem_of_cons, not_elem_of_app in NPc.
      split; [eapply rep_frame; [|exact RS]|eapply rep_ctx_frame; [|exact RC]]; frame_tac.
    + assert (D1 : dom h1 = {[np]} ∪ dom h).
      { unfold h1. rewrite !dom_insert_L.
        assert (p ∈ dom h) by (apply elem_of_dom; eauto).
        assert (g ∈ dom h) by (apply elem_of_dom; eauto).
        assert (lp ∈ dom h) by (apply elem_of_dom; eauto). set_solver. }
      exists h'. split; [exact E'|]. split; [exact R'|]. split.
      * intros q Hq. rewrite F'.
        -- rewrite !not_elem_of_cons in Hq. unfold h1. rewrite !lookup_insert_ne; [reflexivity|..]; intros <-;
             rewrite ?elem_of_app, ?elem_of_cons in Hq; tauto.
        -- cbn [ptrs cptrs app]. cbn [app] in Hq. rewrite !not_elem_of_cons in *. tauto.
      * intros q. rewrite <- !elem_of_dom, D', D1. subst t'. cbn [addLeafF tbnd].
        rewrite refitF_ptrs. cbn [ptrs cptrs app]. rewrite elem_of_union, elem_of_singleton.
        rewrite !elem_of_cons. cbn [app] in *.
        split; [tauto|]. intros [X|[X|[X|[X|X]]]]; auto; subst; right; apply elem_of_dom; eauto.
        apply ALc. apply elem_of_cons. exact X.
  - (* internal node *)
    destruct RT as (Ep & RL & RR). mstep. mstep. change (isLeaf _) with false. cbn iota.
    assert (FK : kids_fit tl tr c) by (destruct c; exact FT).
    assert (NPp : np <> p) by (intros X; apply NPt; rewrite X; left).
    assert (NPlr : np ∉ ptrs tl ++ ptrs tr) by (intros X; apply NPt; right; exact X).
    rewrite not_elem_of_app in NPlr. destruct NPlr as [NPll NPrr].
    rewrite <- app_comm_cons, <- app_assoc in ND. pose proof ND as ND0. nodup ND0.
    assert (EF : t' = if is_null (tptr tl) then refitN p b (Leaf lp lb ld) tr c
      else if is_null (tptr tr) then refitN p b tl (Leaf lp lb ld) c
      else refitN p b (Bin np b tl tr) (Leaf lp lb ld) c).
    { subst t'. destruct tl, tr; reflexivity. }
    (* conclusion from a call of refit *)
    assert (FIN : forall h1 tl' tr', kids_fit tl' tr' c ->
      NoDup (ptrs (Bin p b tl' tr') ++ cptrs c) ->
      rep h1 (cptr c) (Bin p b tl' tr') -> rep_ctx h1 (Some p) c ->
      (forall q, q ∉ np :: lp :: p :: ptrs tl ++ ptrs tr -> h1 !! q = h !! q) ->
      (forall q, q ∈ ptrs (Bin p b tl' tr') -> q ∈ np :: lp :: p :: ptrs tl ++ ptrs tr) ->
      (forall q, is_Some (h1 !! q) <-> is_Some (h !! q) \/ q ∈ ptrs (Bin p b tl' tr')) ->
      t' = refitN p b tl' tr' c ->
      exists h', refit fuel (Some p) (St h1 d r) = Ret (tt, St h' d r) /\
        rep h' None t' /\
        (forall q, q ∉ np :: lp :: (p :: ptrs tl ++ ptrs tr) ++ cptrs c -> h' !! q = h !! q) /\
        (forall q, is_Some (h' !! q) <-> is_Some (h !! q) \/ q ∈ ptrs t')).
    { intros h1 tl' tr' FK' ND' R1 RC1 Fr1 Sub D1 ->.
      destruct (refit_heap c fuel h1 d r p b tl' tr') as (h' & E' & R' & F' & D'); auto; [lia|].
      exists h'. split; [exact E'|]. split; [exact R'|]. split.
      - intros q Hq. rewrite F', Fr1; [reflexivity| |].
        + intros X. apply Hq. elems. elems_in X. tauto.
        + intros X. apply Hq. rewrite elem_of_app in X.
          destruct X as [X|X]; [apply Sub in X; elems_in X|]; elems; tauto.
      - intros q. rewrite <- elem_of_dom, D', elem_of_dom, D1, refitN_ptrs, elem_of_app.
        split; [tauto|]. intros [X|[X|X]]; auto. }
    rewrite bind_assoc || idtac.
    destruct (tptr tl) as [pl|] eqn:El.
    2:{ (* left is null *)
      change (is_null None) with true in *. cbn iota in *.
      apply tptr_nil in El. subst tl.
      erewrite bind_ret by (eapply run_setLeft; [lk|lk|congruence]).
      cbn [reparent nparent nleft nright nbounds ndata].
      assert (c = CTop) as ->.
      { destruct c; [reflexivity|]. destruct FK as [[] _]. }
      apply FIN with (tl' := Leaf lp lb ld) (tr' := tr); auto.
      - split; [right; exact I|apply FK].
      - cbn [ptrs app] in *. eapply NoDup_perm; [|exact ND]. apply perm_swap.
      - cbn [rep tptr cptr]. split; [lk|]. split; [lk|].
        eapply rep_frame; [|exact RR]. frame_tac.
      - intros q Hq. rewrite !not_elem_of_cons in Hq. rewrite !lookup_insert_ne by intuition congruence.
        reflexivity.
      - intros q. cbn [ptrs app]. rewrite !elem_of_cons. tauto.
      - intros q. rewrite !lookup_insert_is_Some'. cbn [ptrs app]. rewrite !elem_of_cons.
        split; [intros [<-|[<-|X]]; eauto 10|].
        intros [X|[->|[->|X]]]; eauto 10.
        right. right. apply ALt. elems. auto. }
    change (is_null (Some pl)) with false in *. cbn iota in *.
    destruct (tptr tr) as [pr|] eqn:Er.
    2:{ (* right is null *)
      change (is_null None) with true in *. cbn iota in *.
      apply tptr_nil in Er. subst tr.
      erewrite bind_ret by (eapply run_setRight; [lk|lk|congruence]).
      cbn [reparent nparent nleft nright nbounds ndata].
      assert (c = CTop) as ->.
      { destruct c; [reflexivity|]. destruct FK as [_ []]. }
      apply FIN with (tl' := tl) (tr' := Leaf lp lb ld); auto.
      - split; [apply FK|right; exact I].
      - cbn [ptrs app] in *. eapply NoDup_perm; [|exact ND]. solve_Permutation.
      - cbn [rep tptr cptr]. rewrite El. split; [lk|]. split; [|lk].
        eapply rep_frame; [|exact RL]. frame_tac.
      - intros q Hq. rewrite !not_elem_of_cons in Hq. rewrite !lookup_insert_ne by intuition congruence.
        reflexivity.
      - intros q. cbn [ptrs app]. elems. tauto.
      - intros q. rewrite !lookup_insert_is_Some'. cbn [ptrs app]. elems.
        split; [intros [<-|[<-|X]]; eauto 10|].
        intros [X|[->|[X|[->|[]]]]]; eauto 10.
        right. right. apply ALt. elems. auto. }
    (* both children present: a new node takes them *)
    change (is_null (Some pr)) with false in *. cbn iota in *.
    mstep. 
    rewrite (bind_ret _ _ _ np (St (<[np := Nd None None None b None]> h) d r)) by reflexivity.
    mstep. mstep.
    pose proof (tptr_in _ _ El) as Il. pose proof (tptr_in _ _ Er) as Ir.
    destruct (rep_lookup _ _ _ _ RL El) as (nl & Hnl & Pl & Bl & Ll).
    destruct (rep_lookup _ _ _ _ RR Er) as (nr & Hnr & Pr & Br & Lr).
    assert (np <> pl) by (intros <-; contradiction).
    assert (np <> pr) by (intros <-; contradiction).
    assert (pl <> pr) by (intros <-;
      match goal with X : forall x, x ∈ ptrs tl -> _ |- _ => apply (X pl Il); elems; auto end).
    assert (p <> pl) by (intros <-; contradiction).
    assert (p <> pr) by (intros <-; contradiction).
    assert (lp <> pl) by (intros <-; contradiction).
    assert (lp <> pr) by (intros <-; contradiction).
    msteps. erewrite bind_ret by (eapply run_setLeft; [lk|lk|congruence]).
    cbn [reparent nparent nleft nright nbounds ndata]. msteps.
    msteps. erewrite bind_ret by (eapply run_setRight; [lk|lk|congruence]).
    cbn [reparent nparent nleft nright nbounds ndata]. msteps.
    msteps. erewrite bind_ret by (eapply run_setLeft; [lk|lk|congruence]).
    cbn [reparent nparent nleft nright nbounds ndata]. msteps.
    msteps. erewrite bind_ret by (eapply run_setRight; [lk|lk|congruence]).
    cbn [reparent nparent nleft nright nbounds ndata].
    apply FIN with (tl' := Bin np b tl tr) (tr' := Leaf lp lb ld); auto.
    + destruct c; cbn in FK |- *; [|tauto]. split; [right|right; exact I].
      destruct FK as [[->|F1] [->|F2]]; try discriminate. split; assumption.
    + cbn [ptrs]. eapply NoDup_perm with (l := np :: lp :: p :: ptrs tl ++ ptrs tr ++ cptrs c).
      { solve_Permutation. }
      rewrite NoDup_cons. split; [|exact ND]. elems. tauto.
    + cbn [rep tptr]. rewrite El, Er. split; [lk|]. split; [split; [lk|split]|lk].
      * eapply rep_frame; [|eapply (rep_reparent h _ (Some np) tl pl nl); eassumption].
        intros q Hq. destruct (decide (q = pl)) as [->|NE]; [lk|].
        frame_tac.
      * eapply rep_frame; [|eapply (rep_reparent h _ (Some np) tr pr nr); eassumption].
        intros q Hq. destruct (decide (q = pr)) as [->|NE]; [lk|].
        frame_tac.
    + eapply rep_ctx_frame; [|exact RC]. frame_tac.
    + intros q Hq. elems_in Hq. rewrite !lookup_insert_ne; [reflexivity|..]; intros <-; tauto.
    + intros q. cbn [ptrs]. elems. tauto.
    + intros q. rewrite !lookup_insert_is_Some'. cbn [ptrs]. elems.
      split.
      * intros [<-|[<-|[<-|[<-|[<-|[<-|[<-|[<-|[<-|X]]]]]]]]]; eauto 10.
      * intros [X|[->|[[->|[X|X]]|[->|[]]]]]; eauto 12; do 9 right; apply ALt; elems; auto.
Qed.
End Edit.
