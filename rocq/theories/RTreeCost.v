(** Exact arithmetic: the best-first search of insert is optimal (C20). *)
From Coq Require Import Reals Lra Lia.
From stdpp Require Import base option list gmap fin_maps.
From Verif Require Import Num Outcome Algo Box BoxFacts BoxOverlap RTree RTreeFun RTreeHeap RTreeRot RTreeRefit RTreeEdit RTreeExtract RTreeInsert RTreeIter RTreeOps RTreeBounds RTreeSpec RTreeHist RTreeThm.

Local Existing Instance RNum.
Local Open Scope R_scope.
Implicit Types (p q : ptr) (b : @box RNum).

Lemma area_combined_ge (a b : @box RNum) : box_area a <= box_area (box_combined a b) /\ box_area b <= box_area (box_combined a b).
Proof.
  assert (POS : forall c : @box RNum, 0 <= box_area c).
  { intros [[x y] [X Y]]. unfold box_area, box_valid, vall_ge. cbn. rcmp; cbn; try lra. nra. }
  pose proof (POS a) as Pa. pose proof (POS b) as Pb.
  unfold box_combined. destruct (box_valid a) eqn:Va; cbn [negb].
  2:{ unfold box_area at 1. rewrite Va. cbn. split; [exact Pb|lra]. }
  destruct (box_valid b) eqn:Vb; cbn [negb].
  2:{ unfold box_area at 3. rewrite Vb. cbn. split; [lra|exact Pa]. }
  destruct a as [[ax ay] [aX aY]], b as [[bx by'] [bX bY]].
  unfold box_area. rewrite Va, Vb. unfold box_valid, vall_ge in *. cbn in *.
  clear Pa Pb POS. unfold kmin, kmax. cbn.
  rcmp; cbn in *; try discriminate; split; try nra.
Qed.

Section Cost.
Context {T : Type} (E : @env RNum).
Notation tree := (@tree RNum).

Lemma costs_ge b (u : tree) : forall cc x, x ∈ costs b cc u -> cc + box_area b <= x.2.
Proof.
  induction u as [|p bb dd|p bb l IHl r IHr]; intros cc x Hx; cbn [costs] in Hx.
  - inversion Hx.
  - apply elem_of_list_singleton in Hx. subst. cbn. pose proof (proj2 (area_combined_ge bb b)). lra.
  - pose proof (area_combined_ge bb b) as [G1 G2]. apply elem_of_cons in Hx. destruct Hx as [->|Hx]; [cbn; lra|].
    apply elem_of_app in Hx. destruct Hx as [Hx|Hx]; [apply IHl in Hx|apply IHr in Hx]; cbn in Hx; lra.
Qed.
Lemma kids_cost k (u : tree) x : x ∈ kids k u -> x.2 = k.
Proof.
  destruct u as [|p b d|p b l r]; cbn [kids]; try (intros H; inversion H; fail).
  intros H. apply elem_of_app in H.
  destruct H as [H|H]; [destruct l|destruct r]; apply elem_of_list_singleton in H || inversion H; subst; reflexivity.
Qed.
Definition ble (best : option (ptr * @K RNum)) (k : @K RNum) : Prop := match best with Some (_, y) => y <= k | None => False end.
Lemma loopF_min fuel : forall b (Q : list (tree * @K RNum)) best best', pq_min E ->
  (forall x, x ∈ Q -> x.1 <> Nil) -> loopF E fuel b Q best = Some best' ->
  (forall x, x ∈ qcosts b Q -> ble best' x.2) /\ (forall p y, best = Some (p, y) -> ble best' y).
Proof.
  intros b Q best best' PQ. revert Q best.
  induction fuel as [|fuel IH]; intros Q best HQ H.
  - destruct Q; cbn in H; [injection H as <-|discriminate]. split; [intros x X; inversion X|].
    intros p y ->. cbn. lra.
  - destruct (decide (Q = [])) as [->|NQ].
    { cbn in H. injection H as <-. split; [intros x X; inversion X|]. intros p y ->. cbn. lra. }
    rewrite loopF_S in H by assumption. cbn zeta in H.
    destruct (Q !! _) as [[u cc]|] eqn:Hi; [|discriminate].
    pose proof (delete_perm _ _ _ Hi) as PD.
    assert (MIN : forall x, x ∈ Q -> Rle cc x.2).
    { intros x Hx. assert (X : @kltb RNum x.2 cc = false).
      { apply (PQ (qent <$> Q) (qent (u, cc)) (qent x)).
        - rewrite fmap_length, list_lookup_fmap, Hi. reflexivity.
        - apply elem_of_list_fmap. eauto. }
      cbn in X. rcmp; [discriminate|lra]. }
    set (D := delete _ Q) in *. clearbody D.
    assert (NU : u <> Nil) by (apply (HQ (u, cc)); rewrite PD; left).
    assert (HD : forall x, x ∈ D -> x.1 <> Nil) by (intros x Hx; apply HQ; rewrite PD; right; exact Hx).
    destruct (cost_ge (kadd cc (box_area b)) best) eqn:CG.
    { injection H as <-. destruct best as [[p y]|]; [|discriminate]. cbn in CG.
      split; [|intros p' y' Ey; injection Ey as <- <-; cbn; lra].
      intros x Hx. unfold qcosts in Hx. apply elem_of_list_bind in Hx. destruct Hx as (e & Hx & He).
      pose proof (costs_ge b e.1 e.2 x Hx) as X1. specialize (MIN e He). cbn [ble]. set (A := @box_area RNum b) in *. clearbody A. cbn in *. rcmp; [lra|discriminate]. }
    set (tot := kadd cc (box_area (box_combined (tbnd u) b))) in *.
    set (best1 := if cost_lt tot best then _ else best) in *.
    assert (B1 : ble best1 tot /\ forall p y, best = Some (p, y) -> ble best1 y).
    { unfold best1. destruct best as [[p y]|]; cbn; [|split; [lra|discriminate]].
      rcmp; cbn; split; try lra; intros p' y' Ey; injection Ey as <- <-; lra. }
    destruct B1 as [B1 B2].
    set (ind := ksub tot (box_area (tbnd u))) in *.
    assert (SPLIT : forall x, x ∈ qcosts b Q -> x.2 = tot \/ x ∈ qcosts b (kids ind u) \/ x ∈ qcosts b D).
    { intros x Hx. rewrite PD, qcosts_cons, elem_of_app in Hx. destruct Hx as [Hx|Hx]; [|auto]. cbn [fst snd] in Hx.
      rewrite costs_kids in Hx by exact NU. cbn zeta in Hx. apply elem_of_cons in Hx. destruct Hx as [->|Hx]; auto. }
    destruct best1 as [[p1 y1]|] eqn:E1; [|destruct B1].
    destruct (cost_lt (kadd ind (box_area b)) (Some (p1, y1))) eqn:CL.
    + apply IH in H.
      2:{ intros x Hx. apply elem_of_app in Hx. destruct Hx; eauto using kids_not_nil. }
      destruct H as [H1 H2]. specialize (H2 p1 y1 eq_refl).
      assert (UP : forall k, y1 <= k -> ble best' k) by (intros k Hk; destruct best' as [[p' y']|]; cbn in *; [lra|exact H2]).
      split; [|intros p y Ey; apply UP; apply (B2 p y Ey)].
      intros x Hx. destruct (SPLIT x Hx) as [->|[Hk|Hd]]; [apply UP, B1|apply H1; rewrite qcosts_app, elem_of_app; auto..].
    + apply IH in H; [|exact HD]. destruct H as [H1 H2]. specialize (H2 p1 y1 eq_refl).
      assert (UP : forall k, y1 <= k -> ble best' k) by (intros k Hk; destruct best' as [[p' y']|]; cbn in *; [lra|exact H2]).
      split; [|intros p y Ey; apply UP; apply (B2 p y Ey)].
      intros x Hx. destruct (SPLIT x Hx) as [->|[Hk|Hd]]; [apply UP, B1| |apply H1; exact Hd].
      unfold qcosts in Hk. apply elem_of_list_bind in Hk. destruct Hk as (e & Hk & He).
      pose proof (costs_ge b e.1 e.2 x Hk) as X1. rewrite (kids_cost _ _ _ He) in X1. apply UP.
      set (A := @box_area RNum b) in *. clearbody A ind. cbn in *. rcmp; [discriminate|]. lra.
Qed.

(** the costs listed by [costs] are the costs of the specification *)
Definition inc_sum (h : gmap ptr node) b (l : list ptr) : @K RNum := foldr (fun a acc => increase h b a + acc) 0 l.
Lemma costs_position h b (u : tree) : forall par l cc, rep h par u ->
  (match par with None => l = [] | Some g => exists l', l = g :: l' /\ ancestors h g l' end) -> cc = inc_sum h b l ->
  forall x, x ∈ costs b cc u -> position_cost h b x.1 x.2.
Proof.
  induction u as [|p bb dd|p bb lt IHl rt IHr]; intros par l cc R A Ec x Hx; cbn [costs rep] in *.
  - inversion Hx.
  - apply elem_of_list_singleton in Hx. subst x. exists l. cbn [fst snd]. split.
    + destruct par as [g|]; [destruct A as (l' & -> & A)|subst l]; econstructor; eauto.
    + unfold grown. rewrite R. cbn. fold (inc_sum h b l). rewrite Ec. lra.
  - destruct R as (Rp & RL & RR).
    assert (AP : ancestors h p l) by (destruct par as [g|]; [destruct A as (l' & -> & A)|subst l]; econstructor; eauto).
    assert (EI : ksub (kadd cc (box_area (box_combined bb b))) (box_area bb) = inc_sum h b (p :: l)).
    { cbn. unfold increase at 1. rewrite Rp. cbn. fold (inc_sum h b l). rewrite Ec. lra. }
    apply elem_of_cons in Hx. destruct Hx as [->|Hx].
    + exists l. split; [exact AP|]. cbn. unfold grown. rewrite Rp. cbn. fold (inc_sum h b l). rewrite Ec. lra.
    + apply elem_of_app in Hx. destruct Hx as [Hx|Hx].
      * eapply (IHl (Some p) (p :: l)); eauto.
      * eapply (IHr (Some p) (p :: l)); eauto.
Qed.
Lemma ancestors_fun h p l l' : @ancestors RNum h p l -> ancestors h p l' -> l = l'.
Proof.
  intros H. revert l'. induction H as [p n H1 H2|p n q l H1 H2 H3 IH]; intros l' H'; inversion H' as [p0 n0 H1' H2'|p0 n0 q0 l0 H1' H2' H3']; subst;
    rewrite H1 in H1'; injection H1' as <-; rewrite H2 in H2'; try discriminate; try reflexivity.
  injection H2' as <-. f_equal. auto.
Qed.
Lemma cost_fun h b p c c' : @position_cost RNum h b p c -> position_cost h b p c' -> c = c'.
Proof. intros (l & A & ->) (l' & A' & ->). rewrite (ancestors_fun h p l l' A A'). reflexivity. Qed.
Lemma ancestors_alive h p l : @ancestors RNum h p l -> is_Some (h !! p).
Proof. intros H. destruct H; eauto. Qed.

Lemma insert_cheapest C (s : @st RNum T) (B : gmap ptr (@box RNum * T)) b (v : T) : reach C s B -> env_ok E -> pq_min E ->
  exists leaf s1 p c, makeLeaf E b v s = Ret (leaf, s1) /\
    insert E b v s = bind (addLeafTo E (Some p) leaf) (fun _ => ret leaf) s1 /\
    position_cost (hp s) b p c /\ forall q c', position_cost (hp s) b q c' -> c <= c'.
Proof.
  intros HR HE PQ. destruct (reach_inv _ _ _ HR) as [t [HRp _ _]].
  destruct (makeLeaf_rep E s t b v HE HRp) as (Hd & Hp & Np & s1 & E1 & -> & R1).
  set (dd := new_data E (dom (dp s))) in *. set (p := new_node E (dom (hp s))) in *.
  pose proof R1 as R1'. destruct R1 as [RT RR ND DM WF]. cbn [hp dp root] in *.
  set (h := <[p := _]> (hp s)) in *. set (d := <[dd := v]> (dp s)) in *.
  pose proof (wf_root_not_nil _ WF) as NT.
  destruct (insert_loop_loopF E (size h) h d (root s) p (Nd None None None b (Some dd)) [(t, k0)] None) as (best & E2 & E3).
  { apply lookup_insert. }
  { intros x Hx. apply elem_of_list_singleton in Hx. subst x. eauto. }
  { unfold qsize. cbn. rewrite Nat.add_0_r. apply size_ge; [apply NoDup_app in ND; tauto|].
    intros q Hq. apply DM. right. exact Hq. }
  assert (EQ : qent <$> [(t, k0)] = [(root s, k0)]) by (cbn; unfold qent; cbn; rewrite RR; reflexivity).
  rewrite EQ in E2. cbn [nbounds] in E3.
  destruct (loopF_ok E (size h) b t best NT eq_refl E3) as (bp & k & -> & Hk).
  assert (MIN : forall x, x ∈ costs b k0 t -> k <= x.2).
  { assert (HQ : forall x, x ∈ [(t, @k0 RNum)] -> x.1 <> Nil).
    { intros x Hx. apply elem_of_list_singleton in Hx. subst x. exact NT. }
    destruct (loopF_min (size h) b [(t, k0)] None _ PQ HQ E3) as [M _].
    - intros x Hx. apply (M x). unfold qcosts. cbn. rewrite app_nil_r. exact Hx. }
  assert (POS : forall x, x ∈ costs b k0 t -> position_cost (hp s) b x.1 x.2).
  { intros x Hx. eapply (costs_position (hp s) b t None [] k0); [apply HRp|reflexivity|reflexivity|exact Hx]. }
  exists p, (St h d (root s)), bp, k. split; [exact E1|]. split; [|split].
  - unfold insert. rewrite (bind_ret _ _ _ _ _ E1). unfold insert_node.
    rewrite (bind_ret _ _ _ (root s) (St h d (root s))) by reflexivity.
    rewrite (bind_ret _ _ _ (size h) (St h d (root s))) by reflexivity.
    rewrite (bind_ret _ _ _ _ _ E2). reflexivity.
  - apply (POS _ Hk).
  - intros q c' Hq. assert (Iq : q ∈ ptrs t).
    { destruct HRp as [[_ _ _ DM' _] _]. apply (DM' q). destruct Hq as (l & A & _). eapply ancestors_alive; exact A. }
    rewrite <- (costs_ptrs b t k0) in Iq. apply elem_of_list_fmap in Iq. destruct Iq as (x & -> & Hx).
    rewrite (cost_fun _ _ _ _ _ Hq (POS _ Hx)). apply MIN. exact Hx.
Qed.
End Cost.
