(** The search of insert, and insert/extract at the level of whole trees. *)
From stdpp Require Import base option list gmap fin_maps sorting.
From Verif Require Import Num Outcome Algo Box BoxFacts RTree RTreeFun RTreeHeap RTreeRot RTreeRefit RTreeEdit RTreeExtract.

Section Fun2.
Context {N : Num}.
Implicit Types (p q g : ptr) (t u v : tree) (c : ctx).

(** every node below [u] with the total cost the search computes for it, [cc]
    being the cost induced in the ancestors and [b] the inserted box *)
Fixpoint costs (b : box) (cc : K) u : list (ptr * K) :=
  match u with
  | Nil => []
  | Leaf p bb _ => [(p, kadd cc (box_area (box_combined bb b)))]
  | Bin p bb l r =>
      let tot := kadd cc (box_area (box_combined bb b)) in
      let ind := ksub tot (box_area bb) in
      (p, tot) :: costs b ind l ++ costs b ind r
  end.
Lemma costs_ptrs b u : forall cc, fst <$> costs b cc u = ptrs u.
Proof.
  induction u as [| |p bb l IHl r IHr]; intros cc; cbn [costs ptrs]; try reflexivity.
  cbn. rewrite fmap_app, IHl, IHr. reflexivity.
Qed.

(** whole-tree facts about addLeafF and extractF *)
Lemma addLeafF_leaves np t leaf c : t <> Nil ->
  leaves (addLeafF np t leaf c) ≡ₚ leaves leaf ++ leaves (plug t c).
Proof.
  intros NN. rewrite leaves_plug. destruct t as [|p b d|p b tl tr]; [congruence| |].
  - cbn [addLeafF]. rewrite refitF_leaves. cbn [leaves]. solve_Permutation.
  - cbn [addLeafF leaves]. destruct tl as [|? ? ?|? ? ? ?]; [|destruct tr..];
      rewrite refitN_leaves; cbn [leaves]; solve_Permutation.
Qed.
Lemma addLeafF_ptrs np t leaf c : t <> Nil ->
  ptrs (addLeafF np t leaf c) ≡ₚ ptrs leaf ++ ptrs (plug t c) \/
  ptrs (addLeafF np t leaf c) ≡ₚ np :: ptrs leaf ++ ptrs (plug t c).
Proof.
  intros NN. rewrite ptrs_plug. destruct t as [|p b d|p b tl tr]; [congruence| |].
  - right. cbn [addLeafF]. rewrite refitF_ptrs. cbn [ptrs]. solve_Permutation.
  - cbn [addLeafF ptrs]. destruct tl as [|? ? ?|? ? ? ?]; [left|destruct tr; [left|right|right]..];
      rewrite refitN_ptrs; cbn [ptrs]; solve_Permutation.
Qed.
Lemma addLeafF_wf np t c lp lb ld : t <> Nil -> fits t c ->
  wf_root (addLeafF np t (Leaf lp lb ld) c).
Proof.
  intros NN [FC FT]. destruct t as [|p b d|p b tl tr]; [congruence| |].
  - cbn [addLeafF]. apply refitF_wf; [destruct c; [destruct FT|discriminate]|exact FC|cbn; auto].
  - assert (FK : kids_fit tl tr c) by (destruct c; exact FT). clear FT.
    cbn [addLeafF]. destruct tl as [|? ? ?|? ? ? ?]; [|destruct tr..]; apply refitN_wf; auto;
      destruct c; cbn in FK |- *; unfold nil_or_full in *; cbn in *; intuition (try discriminate).
Qed.
Lemma addLeafF_root np t c lp lb ld : t <> Nil -> (c = CTop -> wf_root t) ->
  tptr (addLeafF np t (Leaf lp lb ld) c) = tptr (plug t c).
Proof.
  intros NN W. rewrite plug_root. destruct t as [|p b d|p b tl tr]; [congruence| |].
  - cbn [addLeafF]. rewrite refitF_root. destruct c; [destruct W; reflexivity|reflexivity].
  - cbn [addLeafF]. destruct tl as [|? ? ?|? ? ? ?]; [|destruct tr..]; apply refitN_root.
Qed.

Lemma extractF_leaves c p b d : c <> CTop ->
  leaves (plug (Leaf p b d) c) ≡ₚ (p, b, d) :: leaves (extractF c).
Proof.
  intros NN. rewrite leaves_plug. cbn [leaves app]. apply Permutation_cons; [reflexivity|].
  destruct c as [|s g gb sib c]; [congruence|]. cbn [cleaves].
  destruct c as [|s2 g2 gb2 sib2 c].
  - cbn [extractF cleaves]. destruct sib, s; rewrite refitN_leaves; cbn [leaves cleaves]; solve_Permutation.
  - cbn [extractF]. rewrite refitF_leaves. reflexivity.
Qed.
Lemma extractF_sub c q : q ∈ ptrs (extractF c) -> q ∈ cptrs c.
Proof.
  destruct c as [|s g gb sib c]; [auto|].
  destruct c as [|s2 g2 gb2 sib2 c].
  - cbn [extractF cptrs]. destruct sib, s; rewrite refitN_ptrs; cbn [ptrs cptrs]; elems; tauto.
  - cbn [extractF]. rewrite refitF_ptrs. cbn [cptrs]. elems. tauto.
Qed.
Lemma extractF_nodup c : NoDup (cptrs c) -> NoDup (ptrs (extractF c)).
Proof.
  destruct c as [|s g gb sib c]; [constructor|]. intros ND.
  destruct c as [|s2 g2 gb2 sib2 c].
  - cbn [cptrs] in ND. rewrite app_nil_r in ND. cbn [extractF].
    assert (P : exists X, X ++ ptrs match sib with
       | Bin _ _ sl sr => match s with L => refitN g gb sl sr CTop | R => refitN g gb sr sl CTop end
       | _ => match s with L => refitN g gb Nil sib CTop | R => refitN g gb sib Nil CTop end end
       ≡ₚ g :: ptrs sib).
    { destruct sib as [| |p0 ? ? ?]; [exists []|exists []|exists [p0]]; destruct s; rewrite refitN_ptrs;
        cbn [ptrs cptrs]; solve_Permutation. }
    destruct P as [X P]. rewrite <- P in ND. apply NoDup_app in ND. tauto.
  - cbn [extractF]. rewrite refitF_ptrs. cbn [cptrs] in *.
    apply NoDup_cons in ND. tauto.
Qed.
Lemma extractF_wf c p b d : fits (Leaf p b d) c -> wf_root (extractF c).
Proof.
  intros [FC FT]. destruct c as [|s g gb sib c]; [destruct FT|].
  destruct c as [|s2 g2 gb2 sib2 c].
  - cbn in FC. cbn [extractF]. destruct sib as [|? ? ?|? ? sl sr], s; apply refitN_wf; try exact I; cbn;
      unfold nil_or_full in *; cbn in *; intuition (try discriminate).
  - rewrite cfull_CIn in FC. destruct FC as [FS FC]. cbn [extractF].
    apply refitF_wf; [discriminate|exact FC|exact FS].
Qed.
Lemma extractF_root c p b d : c <> CTop ->
  tptr (extractF c) = tptr (plug (Leaf p b d) c).
Proof.
  intros NN. rewrite plug_root. destruct c as [|s g gb sib c]; [congruence|].
  destruct c as [|s2 g2 gb2 sib2 c].
  - cbn [extractF croot]. destruct sib, s; apply refitN_root.
  - cbn [extractF croot]. rewrite refitF_root. reflexivity.
Qed.
End Fun2.

Section Insert.
Context {N : Num} {T : Type}.
Notation st := (st T).
Notation M := (@M N T).
Implicit Types (h : gmap ptr node) (p q g : ptr) (t u v : tree) (c : ctx) (d : gmap ptr T).
Context (E : @env N).

Definition qent (x : tree * K) : ptr * K := (default (1%positive : ptr) (tptr x.1), x.2).
Definition qsize (Q : list (tree * K)) : nat := sum_list ((fun x => length (ptrs x.1)) <$> Q).
Lemma qsize_app Q1 Q2 : qsize (Q1 ++ Q2) = qsize Q1 + qsize Q2.
Proof. unfold qsize. induction Q1; cbn in *; lia. Qed.

Definition qcosts (b : box) (Q : list (tree * K)) : list (ptr * K) :=
  Q ≫= fun x => costs b x.2 x.1.

(** what is pushed for an internal node *)
Definition kids (k : K) u : list (tree * K) :=
  match u with
  | Bin _ _ l r => (match l with Nil => [] | _ => [(l, k)] end) ++ (match r with Nil => [] | _ => [(r, k)] end)
  | _ => []
  end.

(** the search loop on trees *)
Fixpoint loopF (fuel : nat) (b : box) (Q : list (tree * K)) (best : option (ptr * K))
  : option (option (ptr * K)) :=
  match Q with
  | [] => Some best
  | _ =>
      match fuel with
      | 0 => None
      | S fuel =>
          let i := pq_top E (qent <$> Q) `mod` length Q in
          match Q !! i with
          | None => None
          | Some (u, cc) =>
              let Q := delete i Q in
              if cost_ge (kadd cc (box_area b)) best then Some best
              else
                let totalCost := kadd cc (box_area (box_combined (tbnd u) b)) in
                let best := if cost_lt totalCost best then Some (default (1%positive : ptr) (tptr u) : ptr, totalCost) else best in
                let ind := ksub totalCost (box_area (tbnd u)) in
                if cost_lt (kadd ind (box_area b)) best
                then loopF fuel b (Q ++ kids ind u) best
                else loopF fuel b Q best
          end
      end
  end.

Lemma insert_loop_S fuel leaf (q : list (ptr * K)) best : q <> [] ->
  @insert_loop N T E (S fuel) leaf q best =
  let i := pq_top E q `mod` length q in
  match q !! i with
  | None => ub
  | Some (cp, cc) =>
      let q := delete i q in
      bind (rd leaf) (fun nl =>
      if cost_ge (kadd cc (box_area (nbounds nl))) best then ret best
      else
        bind (rd cp) (fun nc =>
        let directCost := box_area (box_combined (nbounds nc) (nbounds nl)) in
        let totalCost := kadd cc directCost in
        let best := if cost_lt totalCost best then Some (cp, totalCost) else best in
        let inducedCost := ksub totalCost (box_area (nbounds nc)) in
        if cost_lt (kadd inducedCost (box_area (nbounds nl))) best then
          let q := match nleft nc with Some l => q ++ [(l, inducedCost)] | None => q end in
          let q := match nright nc with Some r => q ++ [(r, inducedCost)] | None => q end in
          insert_loop E fuel leaf q best
        else insert_loop E fuel leaf q best))
  end.
Proof. destruct q; [congruence|reflexivity]. Qed.
Lemma loopF_S fuel b Q best : Q <> [] ->
  loopF (S fuel) b Q best =
  let i := pq_top E (qent <$> Q) `mod` length Q in
  match Q !! i with
  | None => None
  | Some (u, cc) =>
      let Q := delete i Q in
      if cost_ge (kadd cc (box_area b)) best then Some best
      else
        let totalCost := kadd cc (box_area (box_combined (tbnd u) b)) in
        let best := if cost_lt totalCost best then Some (default (1%positive : ptr) (tptr u) : ptr, totalCost) else best in
        let ind := ksub totalCost (box_area (tbnd u)) in
        if cost_lt (kadd ind (box_area b)) best
        then loopF fuel b (Q ++ kids ind u) best
        else loopF fuel b Q best
  end.
Proof. destruct Q; [congruence|reflexivity]. Qed.

Lemma fmap_delete {A B} (f : A -> B) (l : list A) i : f <$> delete i l = delete i (f <$> l).
Proof. rewrite !delete_take_drop, fmap_app, fmap_take, fmap_drop. reflexivity. Qed.
Lemma mod_lookup {A} (Q : list A) i : Q <> [] -> exists x, Q !! (i `mod` length Q) = Some x.
Proof.
  intros NN. apply lookup_lt_is_Some_2. apply Nat.mod_upper_bound. destruct Q; [congruence|cbn; lia].
Qed.
Lemma delete_perm {A} (Q : list A) i x : Q !! i = Some x -> Q ≡ₚ x :: delete i Q.
Proof.
  intros H. rewrite <- (take_drop_middle Q i x H) at 1. rewrite delete_take_drop.
  symmetry. apply Permutation_middle.
Qed.
Global Instance qsize_proper : Proper (Permutation ==> eq) qsize.
Proof. intros Q1 Q2 P. induction P; unfold qsize in *; cbn in *; lia. Qed.
Lemma kids_size k u : qsize (kids k u) <= pred (length (ptrs u)).
Proof.
  destruct u as [|p b d|p b l r]; cbn [kids ptrs length]; try (unfold qsize; cbn; lia).
  rewrite qsize_app, app_length. destruct l, r; unfold qsize; cbn; lia.
Qed.
Lemma kids_rep h par k u x : rep h par u -> x ∈ kids k u -> x.1 <> Nil /\ exists par, rep h par x.1.
Proof.
  destruct u as [|p b d|p b l r]; cbn [kids]; try (intros _ H; inversion H; fail).
  intros (_ & RL & RR) H. apply elem_of_app in H.
  destruct H as [H|H]; [destruct l|destruct r]; apply elem_of_list_singleton in H || inversion H; subst;
    split; try discriminate; eauto.
Qed.
Lemma kids_push h par u p nu k (q : list (ptr * K)) : rep h par u -> tptr u = Some p -> h !! p = Some nu ->
  (let q := match nleft nu with Some l => q ++ [(l, k)] | None => q end in
   match nright nu with Some r => q ++ [(r, k)] | None => q end) = q ++ (qent <$> kids k u).
Proof.
  intros R Eu Hn. destruct u as [|p' b d|p' b l r]; [discriminate|..]; cbn [tptr] in Eu; injection Eu as ->;
    cbn [rep] in R.
  - rewrite R in Hn. injection Hn as <-. cbn. rewrite app_nil_r. reflexivity.
  - destruct R as (R & _). rewrite R in Hn. injection Hn as <-. cbn [nleft nright kids].
    rewrite fmap_app. destruct l, r; cbn; rewrite <- ?app_assoc, ?app_nil_r; reflexivity.
Qed.

Lemma insert_loop_loopF fuel : forall h d r leaf nl Q best,
  h !! leaf = Some nl ->
  (forall x, x ∈ Q -> x.1 <> Nil /\ exists par, rep h par x.1) ->
  qsize Q <= fuel ->
  exists best', insert_loop E fuel leaf (qent <$> Q) best (St h d r) = Ret (best', St h d r) /\
    loopF fuel (nbounds nl) Q best = Some best'.
Proof.
  induction fuel as [|fuel IH]; intros h d r leaf nl Q best Hl HQ HS.
  - destruct Q as [|x Q]; [exists best; auto|].
    exfalso. destruct (HQ x) as [NN _]; [left|].
    unfold qsize in HS. cbn in HS. destruct (x.1); [congruence|..]; cbn in HS; lia.
  - destruct (decide (Q = [])) as [->|NQ]; [exists best; auto|].
    rewrite insert_loop_S by (destruct Q; [congruence|discriminate]).
    rewrite loopF_S by assumption. cbn zeta. rewrite fmap_length.
    destruct (mod_lookup Q (pq_top E (qent <$> Q)) NQ) as [[u cc] Hi].
    set (i := pq_top E (qent <$> Q) `mod` length Q) in *.
    assert (HU : u <> Nil /\ exists par, rep h par u).
    { apply (HQ (u, cc)). eapply elem_of_list_lookup_2. exact Hi. }
    destruct HU as (NU & par & RU).
    destruct (tptr u) as [p|] eqn:Eu; [|apply tptr_nil in Eu; congruence].
    destruct (rep_lookup _ _ _ _ RU Eu) as (nu & Hnu & _ & Bu & _).
    pose proof (delete_perm _ _ _ Hi) as PD.
    assert (SZ : length (ptrs u) + qsize (delete i Q) <= S fuel).
    { rewrite PD in HS. unfold qsize in *. cbn in *. exact HS. }
    assert (Hd : forall x, x ∈ delete i Q -> x.1 <> Nil /\ exists par, rep h par x.1).
    { intros x Hx. apply HQ. rewrite PD. right. exact Hx. }
    assert (LP : 0 < length (ptrs u)) by (destruct u; [congruence|cbn; lia..]).
    rewrite list_lookup_fmap, Hi. cbn [fmap option_fmap option_map qent fst snd]. rewrite Eu.
    change (default (1%positive : ptr) (Some p)) with p. msteps.
    destruct (cost_ge _ best); [exists best; auto|].
    msteps. rewrite Bu.
    set (tot := kadd cc _). set (best1 := if cost_lt tot best then _ else best).
    rewrite <- fmap_delete.
    destruct (cost_lt _ best1).
    + erewrite kids_push by eassumption. rewrite <- fmap_app. apply IH; auto.
      * intros x Hx. apply elem_of_app in Hx. destruct Hx as [Hx|Hx]; [auto|].
        eapply kids_rep; eassumption.
      * rewrite qsize_app. pose proof (kids_size (ksub tot (box_area (tbnd u))) u). lia.
    + apply IH; auto. lia.
Qed.

Lemma qcosts_app b Q1 Q2 : qcosts b (Q1 ++ Q2) = qcosts b Q1 ++ qcosts b Q2.
Proof. unfold qcosts. apply bind_app. Qed.
Lemma qcosts_cons b x Q : qcosts b (x :: Q) = costs b x.2 x.1 ++ qcosts b Q.
Proof. reflexivity. Qed.
Global Instance qcosts_proper b : Proper (Permutation ==> Permutation) (qcosts b).
Proof. intros Q1 Q2 P. unfold qcosts. rewrite P. reflexivity. Qed.
(** the costs below an entry: its own and those of what it pushes *)
Lemma costs_kids b cc u : u <> Nil ->
  let tot := kadd cc (box_area (box_combined (tbnd u) b)) in
  costs b cc u = (default (1%positive : ptr) (tptr u), tot) :: qcosts b (kids (ksub tot (box_area (tbnd u))) u).
Proof.
  destruct u as [|p bb dd|p bb l r]; [congruence|reflexivity|]. intros _. cbn [costs tbnd tptr kids].
  cbn zeta. rewrite qcosts_app. f_equal. f_equal; [destruct l|destruct r]; cbn; rewrite ?app_nil_r; reflexivity.
Qed.

Lemma kids_not_nil k u x : x ∈ kids k u -> x.1 <> Nil.
Proof.
  destruct u as [|p b d|p b l r]; cbn [kids]; try (intros H; inversion H; fail).
  intros H. apply elem_of_app in H.
  destruct H as [H|H]; [destruct l|destruct r]; apply elem_of_list_singleton in H || inversion H; subst; discriminate.
Qed.

Lemma loopF_in fuel : forall b Q best best',
  (forall x, x ∈ Q -> x.1 <> Nil) ->
  loopF fuel b Q best = Some best' ->
  best' = best \/ exists x, best' = Some x /\ x ∈ qcosts b Q.
Proof.
  induction fuel as [|fuel IH]; intros b Q best best' HQ H.
  - destruct Q; cbn in H; [injection H as <-; auto|discriminate].
  - destruct (decide (Q = [])) as [->|NQ]; [cbn in H; injection H as <-; auto|].
    rewrite loopF_S in H by assumption. cbn zeta in H.
    destruct (Q !! _) as [[u cc]|] eqn:Hi; [|discriminate].
    pose proof (delete_perm _ _ _ Hi) as PD. set (D := delete _ Q) in *. clearbody D.
    assert (NU : u <> Nil) by (apply (HQ (u, cc)); rewrite PD; left).
    assert (HD : forall x, x ∈ D -> x.1 <> Nil) by (intros x Hx; apply HQ; rewrite PD; right; exact Hx).
    destruct (cost_ge _ best); [injection H as <-; auto|].
    assert (PQ : forall x, x ∈ qcosts b Q <-> x ∈ costs b cc u \/ x ∈ qcosts b D).
    { intros x. rewrite PD, qcosts_cons, elem_of_app. reflexivity. }
    rewrite costs_kids in PQ by assumption. cbn zeta in PQ.
    set (tot := kadd cc (box_area (box_combined (tbnd u) b))) in *.
    set (best1 := if cost_lt tot best then _ else best) in *.
    assert (B1 : best1 = best \/ exists x, best1 = Some x /\ x ∈ qcosts b Q).
    { unfold best1. destruct (cost_lt tot best); [right|auto]. eexists; split; [reflexivity|].
      apply PQ. left. left. }
    assert (X : best' = best1 \/ exists x, best' = Some x /\ x ∈ qcosts b Q).
    { destruct (cost_lt _ best1); apply IH in H.
      - destruct H as [->|(x & -> & Hx)]; [auto|]. right. exists x. split; [reflexivity|].
        rewrite qcosts_app, elem_of_app in Hx. apply PQ. rewrite elem_of_cons. tauto.
      - intros x Hx. apply elem_of_app in Hx. destruct Hx; eauto using kids_not_nil.
      - destruct H as [->|(x & -> & Hx)]; [auto|]. right. exists x. split; [reflexivity|].
        apply PQ. tauto.
      - assumption. }
    destruct X as [->|X]; auto.
Qed.
Lemma loopF_some fuel : forall b Q best best',
  loopF fuel b Q best = Some best' -> is_Some best -> is_Some best'.
Proof.
  induction fuel as [|fuel IH]; intros b Q best best' H HB.
  - destruct Q; cbn in H; [injection H as <-; auto|discriminate].
  - destruct (decide (Q = [])) as [->|NQ]; [cbn in H; injection H as <-; auto|].
    rewrite loopF_S in H by assumption. cbn zeta in H.
    destruct (Q !! _) as [[u cc]|] eqn:Hi; [|discriminate].
    destruct (cost_ge _ best); [injection H as <-; auto|].
    set (tot := kadd cc (box_area (box_combined (tbnd u) b))) in *.
    set (best1 := if cost_lt tot best then _ else best) in *.
    assert (B1 : is_Some best1) by (unfold best1; destruct (cost_lt tot best); eauto).
    destruct (cost_lt _ best1); eapply IH; eassumption.
Qed.

(** the condition under which insert finds a node *)
Definition insert_ok (rootb b : box) : bool :=
  negb (kgeInf (kadd k0 (box_area b))) && kltInf (kadd k0 (box_area (box_combined rootb b))).

Lemma loopF_ok fuel b t best' : t <> Nil -> insert_ok (tbnd t) b = true ->
  loopF fuel b [(t, k0)] None = Some best' -> exists p k, best' = Some (p, k) /\ (p, k) ∈ costs b k0 t.
Proof.
  intros NT OK H. unfold insert_ok in OK. apply andb_true_iff in OK. destruct OK as [O1 O2].
  apply negb_true_iff in O1.
  assert (S : is_Some best').
  { destruct fuel as [|fuel]; [discriminate|]. rewrite loopF_S in H by discriminate. cbn zeta in H.
    cbn [length] in H. rewrite Nat.mod_1_r in H. cbn [lookup list_lookup] in H.
    cbn [cost_ge] in H. rewrite O1 in H. cbn [cost_lt] in H. rewrite O2 in H.
    destruct (cost_lt _ _); eapply loopF_some; eauto. }
  destruct S as [[p k] ->]. exists p, k. split; [reflexivity|].
  apply loopF_in in H; [|intros x Hx; apply elem_of_list_singleton in Hx; subst; exact NT].
  destruct H as [H|(x & H & Hx)]; [discriminate|]. injection H as <-.
  rewrite qcosts_cons, app_nil_r in Hx || (unfold qcosts in Hx; cbn in Hx; rewrite app_nil_r in Hx). exact Hx.
Qed.
(** if the search returns nothing, the insertion is undefined *)

(** ** Whole trees *)
Record RepX (X : list ptr) (s : st) (t : tree) : Prop := {
  rx_rep : rep (hp s) None t;
  rx_root : tptr t = Some (root s);
  rx_nodup : NoDup (X ++ ptrs t);
  rx_dom : forall q, is_Some (hp s !! q) <-> q ∈ X ++ ptrs t;
  rx_wf : wf_root t
}.
Definition DRep (d : gmap ptr T) (l : list (ptr * box * ptr)) : Prop :=
  NoDup (datas l) /\ forall x, is_Some (d !! x) <-> x ∈ datas l.
Definition Rep (s : st) (t : tree) : Prop := RepX [] s t /\ DRep (dp s) (leaves t).

Global Instance DRep_proper d : Proper (Permutation ==> iff) (DRep d).
Proof.
  intros l1 l2 P. unfold DRep, datas. split; intros [H1 H2]; (split; [rewrite P in * || rewrite <- P in *; auto|]);
    intros x; rewrite H2, P; reflexivity.
Qed.

Lemma wf_root_not_nil t : wf_root t -> t <> Nil.
Proof. destruct t; cbn; [contradiction|discriminate|discriminate]. Qed.

Lemma leaf_ctx t p b (d : ptr) : (p, b, d) ∈ leaves t -> exists c, t = plug (Leaf p b d) c.
Proof.
  cut (forall c0, (p, b, d) ∈ leaves t -> exists c, plug t c0 = plug (Leaf p b d) c).
  { intros H X. destruct (H CTop X) as [c Hc]. exists c. exact Hc. }
  induction t as [|p' b' d'|p' b' l IHl r IHr]; intros c0 H; cbn [leaves] in H.
  - inversion H.
  - apply elem_of_list_singleton in H. injection H as -> -> ->. exists c0. reflexivity.
  - apply elem_of_app in H. destruct H as [H|H].
    + destruct (IHl (CIn L p' b' r c0) H) as [c Hc]. exists c. exact Hc.
    + destruct (IHr (CIn R p' b' l c0) H) as [c Hc]. exists c. exact Hc.
Qed.

Lemma insert_node_rep s t lp lpar lb ld :
  env_ok E -> RepX [lp] s t -> hp s !! lp = Some (Nd lpar None None lb (Some ld)) ->
  insert_ok (tbnd t) lb = true ->
  exists s' t', insert_node E lp s = Ret (lp, s') /\ RepX [] s' t' /\
    dp s' = dp s /\ root s' = root s /\ leaves t' ≡ₚ (lp, lb, ld) :: leaves t /\
    exists u c k, t = plug u c /\ u <> Nil /\ fits u c /\
      loopF (size (hp s)) lb [(t, k0)] None = Some (Some (default (1%positive : ptr) (tptr u), k)) /\
      t' = addLeafF (new_node E (dom (hp s))) u (Leaf lp lb ld) c.
Proof.
  intros HE [RT RR ND DM WF] Hlp OK. destruct s as [h d r]. cbn [hp dp root] in *.
  pose proof (wf_root_not_nil _ WF) as NT.
  unfold insert_node.
  rewrite (bind_ret _ _ _ r (St h d r)) by reflexivity.
  rewrite (bind_ret _ _ _ (size h) (St h d r)) by reflexivity.
  destruct (insert_loop_loopF (size h) h d r lp _ [(t, k0)] None Hlp) as (best & E1 & E2).
  { intros x Hx. apply elem_of_list_singleton in Hx. subst x. eauto. }
  { unfold qsize. cbn. rewrite Nat.add_0_r. apply size_ge; [apply NoDup_app in ND; tauto|].
    intros q Hq. apply DM. right. exact Hq. }
  assert (EQ : qent <$> [(t, k0)] = [(r, k0)]) by (cbn; unfold qent; cbn; rewrite RR; reflexivity).
  rewrite EQ in E1. rewrite (bind_ret _ _ _ _ _ E1). cbn [nbounds] in E2.
  destruct (loopF_ok _ _ _ _ NT OK E2) as (p & k & -> & Hp).
  assert (Ip : p ∈ ptrs t).
  { rewrite <- (costs_ptrs lb t k0). apply elem_of_list_fmap. exists (p, k). auto. }
  destruct (find_ctx t p Ip) as (u & c & -> & Eu).
  assert (NU : u <> Nil) by (intros ->; discriminate).
  pose proof (unplug_wf _ _ NU WF) as FT.
  apply rep_plug in RT. destruct RT as [RU RC].
  cbn [fmap option_fmap option_map fst].
  assert (ND' : NoDup (lp :: ptrs u ++ cptrs c)).
  { eapply NoDup_perm; [|exact ND]. cbn. rewrite ptrs_plug. reflexivity. }
  destruct (addLeafTo_heap E h d r u c lp lpar lb ld HE FT NU ND' RU RC Hlp) as (h' & E' & R' & F' & D').
  rewrite Eu in E'. rewrite (bind_ret _ _ _ _ _ E').
  set (np := new_node E (dom h)) in *. set (t' := addLeafF np u (Leaf lp lb ld) c) in *.
  assert (Hnp : h !! np = None) by (apply not_elem_of_dom, HE).
  assert (Nnp : np ∉ lp :: ptrs (plug u c)).
  { intros X. assert (Y : is_Some (h !! np)) by (apply DM; exact X). rewrite Hnp in Y. destruct Y; discriminate. }
  pose proof (addLeafF_ptrs np u (Leaf lp lb ld) c NU) as PP. fold t' in PP. cbn [ptrs app] in PP.
  exists (St h' d r), t'. split; [reflexivity|]. split; [|split; [reflexivity|split; [reflexivity|split]]].
  - constructor; cbn [hp root app].
    + exact R'.
    + unfold t'. rewrite addLeafF_root; auto. intros ->. destruct FT as [_ FT]. exact FT.
    + destruct PP as [PP|PP]; rewrite PP; [exact ND|]. apply NoDup_cons. split; [exact Nnp|exact ND].
    + intros q. rewrite D', DM. split; [|auto]. intros [X|X]; [|exact X].
      cbn [app] in X. destruct PP as [PP|PP]; rewrite PP; [exact X|right; exact X].
    + apply addLeafF_wf; auto.
  - unfold t'. rewrite addLeafF_leaves by exact NU. reflexivity.
  - exists u, c, k. rewrite Eu. change (default (1%positive : ptr) (Some p)) with p. auto 10.
Qed.

Lemma extract_rep s t p b dd :
  RepX [] s t -> (p, b, dd) ∈ leaves t ->
  exists s' t' par, @extract N T p s = Ret (p, s') /\ RepX [p] s' t' /\
    hp s' !! p = Some (Nd par None None b (Some dd)) /\
    dp s' = dp s /\ root s' = root s /\ leaves t ≡ₚ (p, b, dd) :: leaves t' /\
    exists c, t = plug (Leaf p b dd) c /\ fits (Leaf p b dd) c /\ t' = extractF c.
Proof.
  intros [RT RR ND DM WF] Hp. destruct s as [h d r]. cbn [hp dp root app] in *.
  destruct (leaf_ctx _ _ _ _ Hp) as [c ->].
  assert (FT : fits (Leaf p b dd) c) by (apply unplug_wf; [discriminate|exact WF]).
  assert (NC : c <> CTop) by (intros ->; exact (proj2 FT)).
  apply rep_plug in RT. destruct RT as [RL RC].
  assert (ND' : NoDup (p :: cptrs c)).
  { eapply NoDup_perm; [|exact ND]. rewrite ptrs_plug. reflexivity. }
  destruct (extract_heap h d r p b dd c FT ND' RL RC) as (h' & par & E' & R' & Hp' & F' & D').
  exists (St h' d r), (extractF c), par. cbn [hp dp root].
  split; [exact E'|]. split; [|split; [exact Hp'|split; [reflexivity|split; [reflexivity|split]]]].
  - apply NoDup_cons in ND' as [N1 N2].
    constructor; cbn [hp root app].
    + exact R'.
    + rewrite (extractF_root c p b dd NC). exact RR.
    + apply NoDup_cons. split; [|apply extractF_nodup; exact N2].
      intros X. apply extractF_sub in X. contradiction.
    + intros q. rewrite elem_of_cons. destruct (decide (q = p)) as [->|NE].
      * rewrite Hp'. split; eauto.
      * destruct (decide (q ∈ cptrs c)) as [I1|I1].
        -- rewrite D' by exact I1. tauto.
        -- rewrite F' by (rewrite elem_of_cons; tauto).
           rewrite DM, ptrs_plug. cbn [ptrs app]. rewrite elem_of_cons.
           split; [tauto|]. intros [X|X]; [tauto|]. apply extractF_sub in X. contradiction.
    + eapply extractF_wf; exact FT.
  - apply extractF_leaves. exact NC.
  - exists c. auto.
Qed.
End Insert.
