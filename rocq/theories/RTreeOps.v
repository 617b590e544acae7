(** The public operations of RTree on whole trees. *)
From Flocq Require Import Core BinarySingleNaN.
From stdpp Require Import base option list gmap fin_maps sorting.
From Verif Require Import Num Outcome Algo Box BoxFacts BoxOverlap RTree RTreeFun RTreeHeap RTreeRot RTreeRefit RTreeEdit RTreeExtract RTreeInsert RTreeIter RTreeOverlap RTreeCollide RTreeUpdate.

Lemma insert_alive {A} (h : gmap ptr A) (p q : ptr) (n : A) : is_Some (<[p := n]> h !! q) <-> q = p \/ is_Some (h !! q).
Proof.
  destruct (decide (q = p)) as [->|NE].
  - rewrite lookup_insert. split; eauto.
  - rewrite lookup_insert_ne by congruence. tauto.
Qed.

(** A sum that is not below INFINITY stays so ([RTree.hpp:433-449]). *)
Class InfLaws (N : Num) := {
  inf_absorb : forall x a b, kltInf x = false -> kltInf (kadd (ksub x a) b) = false
}.
Global Instance RNum_inf : InfLaws RNum.
Proof. constructor. intros x a b H. discriminate. Qed.
Global Instance F32_inf : InfLaws F32.
Proof.
  constructor. cbn. intros x a b H.
  assert (X : x = B754_nan \/ x = B754_infinity false).
  { destruct x as [s|[]| |s m e H0]; auto; exfalso; [destruct s; discriminate H|discriminate H|].
    destruct s; discriminate H. }
  destruct X as [-> | ->]; [destruct a as [|[]| |], b as [|[]| |]; reflexivity|].
  destruct a as [|[]| |], b as [|[]| |]; reflexivity.
Qed.

Section Ops.
Context {N : Num} {T : Type}.
Notation st := (st T).
Notation M := (@M N T).
Implicit Types (s : st) (h : gmap ptr node) (p q g : ptr) (t u : tree) (v : T) (c : ctx) (d : gmap ptr T).
Context (E : @env N).

Lemma construct_rep : exists s, @construct N T E = Ret s /\
  Rep s (Bin (root s) invalid_box Nil Nil) /\ dp s = ∅.
Proof.
  unfold construct, makeNode. cbn [hp dp root].
  eexists; split; [reflexivity|]. split; [|reflexivity]. split.
  - constructor; cbn [hp dp root rep tptr ptrs app].
    + rewrite lookup_insert. auto.
    + reflexivity.
    + apply NoDup_singleton.
    + intros q. rewrite elem_of_list_singleton, insert_alive, lookup_empty. split; [|tauto].
      intros [->|[x X]]; [reflexivity|discriminate].
    + split; left; reflexivity.
  - split; cbn; [constructor|]. intros x. rewrite lookup_empty.
    split; [intros [y Y]; discriminate|intros X; inversion X].
Qed.

Lemma makeLeaf_rep s t b v : env_ok E -> Rep s t ->
  let dd := new_data E (dom (dp s)) in
  let p := new_node E (dom (hp s)) in
  dp s !! dd = None /\ hp s !! p = None /\ p ∉ ptrs t /\
  exists s', makeLeaf E b v s = Ret (p, s') /\
    s' = St (<[p := Nd None None None b (Some dd)]> (hp s)) (<[dd := v]> (dp s)) (root s) /\
    RepX [p] s' t.
Proof.
  intros [E1 E2] [[RT RR ND DM WF] [DN DD]]. cbn zeta.
  set (dd := new_data E (dom (dp s))). set (p := new_node E (dom (hp s))).
  assert (Hd : dp s !! dd = None) by (apply not_elem_of_dom, E2).
  assert (Hp : hp s !! p = None) by (apply not_elem_of_dom, E1).
  assert (Np : p ∉ ptrs t).
  { intros X. apply DM in X. rewrite Hp in X. destruct X; discriminate. }
  split; [exact Hd|]. split; [exact Hp|]. split; [exact Np|].
  destruct s as [h d r]. cbn [hp dp root] in *.
  eexists; split; [|split; [reflexivity|]].
  - unfold makeLeaf. erewrite bind_ret by reflexivity. unfold makeNode at 1.
    erewrite bind_ret by reflexivity. cbn [hp dp root]. fold p. fold dd.
    rewrite (bind_rd _ _ _ _ _ _ (lookup_insert _ _ _)).
    erewrite bind_ret by (apply (run_wr _ _ _ _ _ _ (lookup_insert _ _ _))).
    rewrite insert_insert. reflexivity.
  - constructor; cbn [hp dp root].
    + eapply rep_frame; [|exact RT]. intros q Hq. rewrite lookup_insert_ne; [reflexivity|].
      intros <-. contradiction.
    + exact RR.
    + cbn. apply NoDup_cons. auto.
    + intros q. cbn. rewrite elem_of_cons, insert_alive, DM. reflexivity.
    + exact WF.
Qed.

Lemma insert_rep s t b v : env_ok E -> Rep s t -> insert_ok (tbnd t) b = true ->
  exists p dd s' t', insert E b v s = Ret (p, s') /\ Rep s' t' /\
    root s' = root s /\ leaves t' ≡ₚ (p, b, dd) :: leaves t /\ p ∉ ptrs t /\
    dp s !! dd = None /\ dp s' = <[dd := v]> (dp s) /\
    exists np u c, t = plug u c /\ u <> Nil /\ fits u c /\ t' = addLeafF np u (Leaf p b dd) c.
Proof.
  intros HE HR OK. destruct (makeLeaf_rep s t b v HE HR) as (Hd & Hp & Np & s1 & E1 & -> & R1).
  set (dd := new_data E (dom (dp s))) in *. set (p := new_node E (dom (hp s))) in *.
  destruct (insert_node_rep E _ t p None b dd HE R1) as (s2 & t' & E2 & R2 & D2 & RR2 & L2 & u & c & k & -> & NU & FT & _ & ->);
    [cbn [hp]; apply lookup_insert|exact OK|].
  cbn [dp root hp] in *. set (np := new_node E (dom (<[p := _]> (hp s)))) in *.
  exists p, dd, s2, (addLeafF np u (Leaf p b dd) c). split.
  { unfold insert. rewrite (bind_ret _ _ _ _ _ E1). exact E2. }
  split; [|split; [exact RR2|split; [exact L2|split; [exact Np|split; [exact Hd|split; [exact D2|]]]]]].
  - split; [exact R2|]. rewrite D2, L2. destruct HR as [_ [DN DD]]. split; unfold datas; cbn.
    + apply NoDup_cons. split; [|exact DN]. intros X. apply DD in X. rewrite Hd in X. destruct X; discriminate.
    + intros x. rewrite elem_of_cons, insert_alive, DD. reflexivity.
  - exists np, u, c. auto.
Qed.

(** The insertion of a box that no position can take. *)
Lemma loopF_bad fuel b t best' : InfLaws N -> t <> Nil -> insert_ok (tbnd t) b = false ->
  loopF E fuel b [(t, k0)] None = Some best' -> best' = None.
Proof.
  intros IL NT OK H. destruct fuel as [|fuel]; [discriminate|].
  rewrite loopF_S in H by discriminate. cbn zeta in H.
  cbn [length] in H. rewrite Nat.mod_1_r in H. cbn [lookup list_lookup] in H.
  unfold insert_ok in OK. cbn [cost_ge] in H. destruct (kgeInf _); cbn [negb andb] in OK; [congruence|].
  cbn [cost_lt] in H. rewrite OK in H. cbn [cost_lt] in H. rewrite inf_absorb in H by exact OK.
  cbn [delete list_delete] in H. destruct fuel; cbn in H; congruence.
Qed.
Lemma insert_bad s t b v : env_ok E -> InfLaws N -> Rep s t -> insert_ok (tbnd t) b = false ->
  insert E b v s = UB.
Proof.
  intros HE IL HR OK. destruct (makeLeaf_rep s t b v HE HR) as (Hd & Hp & Np & s1 & E1 & -> & R1).
  set (dd := new_data E (dom (dp s))) in *. set (p := new_node E (dom (hp s))) in *.
  unfold insert. rewrite (bind_ret _ _ _ _ _ E1). clear E1.
  destruct R1 as [RT RR ND DM WF]. cbn [hp dp root] in *.
  set (h := <[p := _]> (hp s)) in *. set (d := <[dd := v]> (dp s)) in *.
  pose proof (wf_root_not_nil _ WF) as NT.
  unfold insert_node.
  rewrite (bind_ret _ _ _ (root s) (St h d (root s))) by reflexivity.
  rewrite (bind_ret _ _ _ (size h) (St h d (root s))) by reflexivity.
  destruct (insert_loop_loopF E (size h) h d (root s) p (Nd None None None b (Some dd)) [(t, k0)] None) as (best & E1 & E2).
  { apply lookup_insert. }
  { intros x Hx. apply elem_of_list_singleton in Hx. subst x. eauto. }
  { unfold qsize. cbn. rewrite Nat.add_0_r. apply size_ge; [apply NoDup_app in ND; tauto|].
    intros q Hq. apply DM. right. exact Hq. }
  assert (EQ : qent <$> [(t, k0)] = [(root s, k0)]) by (cbn; unfold qent; cbn; rewrite RR; reflexivity).
  rewrite EQ in E1. rewrite (bind_ret _ _ _ _ _ E1). cbn [nbounds] in E2.
  apply loopF_bad in E2; [|assumption..]. subst best. reflexivity.
Qed.

(** extract took the leaf [p] out of the context [c] *)
Definition extracted s t p b dd c : Prop :=
  t = plug (Leaf p b dd) c /\ fits (Leaf p b dd) c /\
  leaves t ≡ₚ (p, b, dd) :: leaves (extractF c) /\
  exists h1 par, @extract N T p s = Ret (p, St h1 (dp s) (root s)) /\
    RepX [p] (St h1 (dp s) (root s)) (extractF c) /\ h1 !! p = Some (Nd par None None b (Some dd)).
Lemma extract_rep' s t p b dd : RepX [] s t -> (p, b, dd) ∈ leaves t -> exists c, extracted s t p b dd c.
Proof.
  intros H Hp. destruct (extract_rep s t p b dd H Hp) as (s1 & t1 & par & E1 & R1 & Hp1 & D1 & RR1 & L1 & c & -> & FT & ->).
  destruct s1 as [h1 d1 r1]. cbn [hp dp root] in *. subst d1 r1.
  exists c. split; [reflexivity|]. split; [exact FT|]. split; [exact L1|]. eauto.
Qed.

Lemma erase_node_rep s t p b dd c : Rep s t -> extracted s t p b dd c ->
  exists s', erase_node p s = Ret (tt, s') /\ Rep s' (extractF c) /\ root s' = root s /\
    (forall x, dp s' !! x = delete dd (dp s) !! x).
Proof.
  intros [H [DN DD]] (Et & FT & L1 & h1 & par & E1 & R1 & Hp1).
  assert (NDd : NoDup (datas ((p, b, dd) :: leaves (extractF c)))) by (unfold datas in *; rewrite <- L1; exact DN).
  destruct (deleteNode_heap (Leaf p b dd) (size (hp s)) h1 (dp s) (root s) par) as (h2 & d2 & E2 & K2 & F2 & KD & FD).
  - cbn [depth]. destruct s as [h d r]. cbn [hp]. destruct H as [_ RR _ DM _].
    assert (X : is_Some (h !! r)) by (apply DM; cbn; apply tptr_in; exact RR).
    destruct (size h) eqn:Es; [|lia]. apply map_size_empty_inv in Es. subst h. rewrite lookup_empty in X. destruct X; discriminate.
  - cbn. apply NoDup_singleton.
  - cbn. apply NoDup_singleton.
  - exact Hp1.
  - intros x Hx. cbn in Hx. apply elem_of_list_singleton in Hx. subst x. apply DD.
    unfold datas. rewrite L1. left.
  - exists (St h2 d2 (root s)). cbn [tptr] in E2.
    split; [|split; [|split; [reflexivity|]]].
    + unfold erase_node. rewrite (bind_ret _ _ _ (size (hp s)) s) by reflexivity.
      rewrite (bind_ret _ _ _ _ _ E1). exact E2.
    + destruct R1 as [RT1 RR1 ND1 DM1 WF1]. cbn [hp dp root app] in *. apply NoDup_cons in ND1 as [NP ND1].
      cbn [ptrs] in K2, F2. split.
      * constructor; cbn [hp dp root app].
        -- eapply rep_frame; [|exact RT1]. intros q Hq. apply F2. rewrite elem_of_list_singleton. intros ->. contradiction.
        -- exact RR1.
        -- exact ND1.
        -- intros q. destruct (decide (q = p)) as [->|NE].
           ++ rewrite K2 by left. split; [intros [x X]; discriminate|contradiction].
           ++ rewrite F2 by (rewrite elem_of_list_singleton; exact NE). rewrite DM1, elem_of_cons. tauto.
        -- exact WF1.
      * unfold datas in *. cbn in NDd, KD, FD. apply NoDup_cons in NDd as [ND3 ND4]. split; [exact ND4|].
        intros x. destruct (decide (x = dd)) as [->|NE].
        -- cbn [dp]. rewrite KD by left. split; [intros [y Y]; discriminate|contradiction].
        -- cbn [dp]. rewrite FD by (rewrite elem_of_list_singleton; exact NE). rewrite DD, L1. cbn. rewrite elem_of_cons. tauto.
    + intros x. cbn [dp]. cbn in KD, FD. destruct (decide (x = dd)) as [->|NE].
      * rewrite KD by left. symmetry. apply lookup_delete.
      * rewrite FD by (rewrite elem_of_list_singleton; exact NE). symmetry. apply lookup_delete_ne. congruence.
Qed.

Lemma erase_rep s t l1 p b dd l2 c : Rep s t -> leaves t = l1 ++ (p, b, dd) :: l2 -> extracted s t p b dd c ->
  exists s', erase p s = Ret (hdp (root s) l2, s') /\ Rep s' (extractF c) /\ root s' = root s /\
    (forall x, dp s' !! x = delete dd (dp s) !! x).
Proof.
  intros H EL X. destruct (erase_node_rep s t p b dd c H X) as (s' & E1 & Y).
  exists s'. split; [|exact Y]. unfold erase.
  rewrite (bind_ret _ _ _ _ _ (next_rep _ _ _ _ _ _ (proj1 H) EL)).
  rewrite (bind_ret _ _ _ _ _ E1). reflexivity.
Qed.

Lemma update_rep s t p b dd nb c : env_ok E -> Rep s t -> extracted s t p b dd c ->
  insert_ok (tbnd (extractF c)) nb = true ->
  exists s' t', update E p nb s = Ret (p, s') /\ Rep s' t' /\ root s' = root s /\
    dp s' = dp s /\ leaves t' ≡ₚ (p, nb, dd) :: leaves (extractF c) /\
    exists np u c2, extractF c = plug u c2 /\ u <> Nil /\ fits u c2 /\ t' = addLeafF np u (Leaf p nb dd) c2.
Proof.
  intros HE [H [DN DD]] (Et & FT & L1 & h1 & par & E1 & R1 & Hp1) OK.
  assert (R2 : RepX [p] (St (<[p := Nd par None None nb (Some dd)]> h1) (dp s) (root s)) (extractF c)).
  { destruct R1 as [RT1 RR1 ND1 DM1 WF1]. cbn [hp dp root app] in *. constructor; cbn [hp dp root app]; auto.
    - apply NoDup_cons in ND1 as [NP ND1]. eapply rep_frame; [|exact RT1]. intros q Hq. apply lookup_insert_ne. intros <-. contradiction.
    - intros q. rewrite insert_alive, DM1, elem_of_cons. tauto. }
  destruct (insert_node_rep E _ _ p par nb dd HE R2) as (s2 & t2 & E2 & R3 & D2 & RR2 & L2 & u & c2 & k & Eu & NU & FT2 & _ & Et2);
    [cbn [hp]; apply lookup_insert|exact OK|].
  exists s2, t2. split.
  { unfold update. rewrite (bind_ret _ _ _ _ _ E1).
    unfold set_bounds. rewrite bind_assoc. rewrite (bind_rd _ _ _ _ _ _ Hp1).
    rewrite (bind_ret _ _ _ _ _ (run_wr _ _ _ _ _ _ Hp1)). cbn [nparent nleft nright ndata].
    rewrite (bind_ret _ _ _ _ _ E2). reflexivity. }
  cbn [hp dp root] in *.
  split; [|split; [exact RR2|split; [exact D2|split; [exact L2|]]]].
  - split; [exact R3|]. unfold DRep, datas in *. rewrite D2. rewrite L1 in DN.
    split; [rewrite L2; exact DN|]. intros x. rewrite L2, DD, L1. reflexivity.
  - eauto 10.
Qed.

Lemma destroy_rep s t : Rep s t ->
  exists s', destroy s = Ret (tt, s') /\ hp s' = ∅ /\ dp s' = ∅.
Proof.
  intros [H [DN DD]]. pose proof (RepX_size _ _ _ H) as SZ. pose proof (depth_le t). destruct H as [RT RR ND DM WF].
  destruct s as [h d r]. cbn [hp dp root app] in *.
  destruct (deleteNode_heap t (size h) h d r None) as (h2 & d2 & E2 & K2 & F2 & KD & FD); auto; [lia| |].
  { intros x. apply DD. }
  exists (St h2 d2 r). split; [|split].
  - unfold destroy. rewrite (bind_ret _ _ _ (size h) (St h d r)) by reflexivity.
    rewrite (bind_ret _ _ _ r (St h d r)) by reflexivity. rewrite RR in E2. exact E2.
  - cbn. apply map_empty. intros q. destruct (decide (q ∈ ptrs t)) as [X|X]; [auto|].
    rewrite F2 by exact X. apply eq_None_not_Some. rewrite DM. exact X.
  - cbn. apply map_empty. intros q. destruct (decide (q ∈ datas (leaves t))) as [X|X]; [auto|].
    rewrite FD by exact X. apply eq_None_not_Some. rewrite DD. exact X.
Qed.

Lemma clear_rep s t : env_ok E -> Rep s t ->
  exists s', clear E s = Ret (tt, s') /\ Rep s' (Bin (root s') invalid_box Nil Nil) /\ dp s' = ∅.
Proof.
  intros [E1 _] [H [DN DD]]. pose proof (RepX_size _ _ _ H) as SZ. pose proof (depth_le t). destruct H as [RT RR ND DM WF].
  destruct s as [h d r]. cbn [hp dp root app] in *.
  set (np := new_node E (dom h)).
  assert (Hnp : h !! np = None) by (apply not_elem_of_dom, E1).
  assert (Nnp : np ∉ ptrs t). { intros X. apply DM in X. rewrite Hnp in X. destruct X; discriminate. }
  set (h1 := <[np := Nd None None None invalid_box None]> h).
  assert (SZ1 : size h1 = S (size h)) by (apply map_size_insert_None; exact Hnp).
  destruct (deleteNode_heap t (size h1) h1 d np None) as (h2 & d2 & E2 & K2 & F2 & KD & FD); auto; [lia| | |].
  { eapply rep_frame; [|exact RT]. intros q Hq. unfold h1. apply lookup_insert_ne. intros <-. contradiction. }
  { intros x. apply DD. }
  assert (D2 : d2 = ∅).
  { apply map_empty. intros q. destruct (decide (q ∈ datas (leaves t))) as [X|X]; [auto|].
    rewrite FD by exact X. apply eq_None_not_Some. rewrite DD. exact X. }
  exists (St h2 d2 np). split; [|split; [|exact D2]].
  - unfold clear. rewrite (bind_ret _ _ _ r (St h d r)) by reflexivity.
    rewrite (bind_ret _ _ _ np (St h1 d r)) by reflexivity.
    rewrite (bind_ret _ _ _ tt (St h1 d np)) by reflexivity.
    rewrite (bind_ret _ _ _ (size h1) (St h1 d np)) by reflexivity.
    rewrite RR in E2. exact E2.
  - assert (Hr : h2 !! np = Some (Nd None None None invalid_box None)).
    { rewrite F2 by exact Nnp. apply lookup_insert. }
    split.
    + constructor; cbn [hp dp root rep tptr ptrs app]; auto.
      * apply NoDup_singleton.
      * intros q. rewrite elem_of_list_singleton. destruct (decide (q = np)) as [->|NE].
        -- rewrite Hr. split; [auto|eauto].
        -- split; [|congruence]. intros X. exfalso. destruct (decide (q ∈ ptrs t)) as [I1|I1].
           ++ rewrite K2 in X by exact I1. destruct X; discriminate.
           ++ rewrite F2 in X by exact I1. unfold h1 in X. rewrite lookup_insert_ne in X by congruence.
              apply DM in X. contradiction.
      * split; left; reflexivity.
    + cbn [dp]. subst d2. split; cbn; [constructor|]. intros x. rewrite lookup_empty.
      split; [intros [y Y]; discriminate|intros X; inversion X].
Qed.

Lemma collide_rep upd s t : env_ok E -> Rep s t ->
  (forall x, leaves t = [x] -> insert_ok (tbnd t) (upd (lptr x)) = true) ->
  exists s' t' cs, updateAndCollide E upd s = Ret ((lptr <$> leaves t, cs), s') /\
    Rep s' t' /\ leaves t' ≡ₚ uf upd <$> leaves t /\ dp s' = dp s /\ root s' = root s /\
    (forall (ok : K -> Prop) (P : box -> Prop), OrdLaws N ok -> OverlapLaws N ok P ->
       (forall x, x ∈ leaves t -> P (upd (lptr x))) ->
       reports upd (lptr <$> leaves t) cs) /\
    match length (leaves t) with
    | 0 => (t' = t)
    | 1 => exists p b dd np, leaves t = [(p, b, dd)] /\
        t' = addLeafF np (Bin (root s) (tbnd t) Nil Nil) (Leaf p (upd p) dd) CTop
    | _ => RTreeCollide.ub t'
    end.
Proof.
  intros HE [H [DN DD]] IO. destruct (updateAndCollide_rep E upd s t HE H IO) as (s' & t' & cs & E1 & R1 & L1 & D1 & X).
  exists s', t', cs. split; [exact E1|]. split; [|split; [exact L1|split; [exact D1|exact X]]].
  split; [exact R1|]. rewrite L1, D1. split; rewrite uf_datas; auto.
Qed.

End Ops.
