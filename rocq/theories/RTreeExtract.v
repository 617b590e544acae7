(** extract on the heap. *)
From stdpp Require Import base option list gmap fin_maps sorting.
From Verif Require Import Num Outcome Algo Box BoxFacts RTree RTreeFun RTreeHeap RTreeRot RTreeRefit RTreeEdit.

Section Extract.
Context {N : Num} {T : Type}.
Notation st := (st T).
Notation M := (@M N T).
Implicit Types (h : gmap ptr node) (p q g : ptr) (t u v : tree) (c : ctx) (d : gmap ptr T).

Definition opp (s : side) : side := match s with L => R | R => L end.
Lemma lsl_opp {A} s (x y : A) : lsl (opp s) x y = lsl s y x.
Proof. destruct s; reflexivity. Qed.

Lemma deleteNode_one h d r par p b fuel : 0 < fuel ->
  h !! p = Some (Nd par None None b None) ->
  @deleteNode N T fuel (Some p) (St h d r) = Ret (tt, St (delete p h) d r).
Proof.
  intros HF Hp. destruct fuel; [lia|]. cbn [deleteNode]. mstep.
  erewrite bind_ret by (destruct fuel; reflexivity). mstep.
  erewrite bind_ret by (destruct fuel; reflexivity). mstep. mstep.
  unfold free_node. cbn [hp]. rewrite Hp. reflexivity.
Qed.

Lemma extract_heap h d r p b dd c :
  fits (Leaf p b dd) c -> NoDup (p :: cptrs c) ->
  rep h (cptr c) (Leaf p b dd) -> rep_ctx h (Some p) c ->
  exists h' par, @extract N T p (St h d r) = Ret (p, St h' d r) /\
    rep h' None (extractF c) /\
    h' !! p = Some (Nd par None None b (Some dd)) /\
    (forall q, q ∉ p :: cptrs c -> h' !! q = h !! q) /\
    (forall q, q ∈ cptrs c -> is_Some (h' !! q) <-> q ∈ ptrs (extractF c)).
Proof.
  intros [FC FT] ND RT RC.
  destruct c as [|s g gb sib c]; [destruct FT|]. clear FT.
  cbn [cptr rep] in RT.
  assert (ALc : forall q, q ∈ cptrs (CIn s g gb sib c) -> is_Some (h !! q)) by eauto using rep_ctx_alive.
  assert (HF : S (length (cptrs (CIn s g gb sib c))) <= size h).
  { apply (size_ge h (p :: cptrs (CIn s g gb sib c))); [exact ND|].
    intros q. rewrite elem_of_cons. intros [->|Hq]; eauto. }
  pose proof (clen_le c) as HC.
  cbn [rep_ctx] in RC. destruct RC as (Eg & RS & RC).
  rewrite cfull_CIn in FC. destruct FC as [FS FC].
  cbn [cptrs length] in *. rewrite app_length in HF.
  pose proof ND as ND0. nodup ND0.
  assert (NSib : tptr sib <> Some p) by (intros X; apply tptr_in in X; contradiction).
  unfold extract. rewrite (bind_ret _ _ _ (size h) (St h d r)) by reflexivity.
  set (fuel := size h) in *. clearbody fuel.
  msteps; erewrite bind_ret by (eapply run_sibling; [exact RT|reflexivity|exact Eg|exact NSib]).
  mstep. mstep. mstep.
  destruct c as [|s2 g2 gb2 sib2 c].
  - (* the parent is the root *)
    change (isRoot _) with true. cbn iota. cbn [cptrs] in *. rewrite app_nil_r in *.
    destruct sib as [|sp sb sd|sp sb sl sr].
    + cbn [tptr] in *. do 2 mstep.
      msteps; erewrite bind_ret by (eapply run_set_handle; [exact RT|reflexivity|exact Eg|discriminate]).
      msteps.
      set (h1 := <[g := _]> h).
      destruct (refit_heap CTop fuel h1 d r g gb Nil Nil) as (h' & E' & R' & F' & D').
      * cbn; lia.
      * exact I.
      * split; left; reflexivity.
      * cbn. apply NoDup_singleton.
      * cbn [rep cptr tptr]. unfold h1. split; [|auto]. rewrite lookup_insert. destruct s; reflexivity.
      * exact I.
      * msteps; rewrite (bind_ret _ _ _ _ _ E'). cbn [ptrs cptrs app] in *.
        exists h', (Some g). split; [reflexivity|]. split; [destruct s; exact R'|].
        assert (X : forall q, q <> g -> h' !! q = h !! q).
        { intros q Hq. rewrite F' by (elems; tauto). unfold h1. apply lookup_insert_ne. auto. }
        split; [rewrite X; auto|]. split.
        -- intros q Hq. apply X. intros ->. apply Hq. elems. auto.
        -- intros q Hq. assert (q = g) as -> by (elems_in Hq; tauto).
           rewrite <- elem_of_dom, D', elem_of_dom. unfold h1. rewrite lookup_insert.
           destruct s; cbn [extractF]; rewrite refitN_ptrs; cbn [ptrs cptrs app]; elems; split; eauto.
    + cbn [tptr] in *. cbn [rep] in RS. msteps.
      change (isLeaf _) with true. cbn iota.
      msteps; erewrite bind_ret by (eapply run_set_handle; [exact RT|reflexivity|exact Eg|exact NSib]).
      msteps.
      set (h1 := <[g := _]> h). cbn [ptrs] in *.
      assert (Nsg : sp <> g) by (intros ->; elems_in H0; tauto).
      assert (X : exists h', refit fuel (Some g) (St h1 d r) = Ret (tt, St h' d r) /\
        rep h' None (extractF (CIn s g gb (Leaf sp sb sd) CTop)) /\
        (forall q, q <> g -> q <> sp -> h' !! q = h1 !! q) /\ dom h' = dom h1).
      { destruct s; cbn [extractF lsl] in *.
        - destruct (refit_heap CTop fuel h1 d r g gb Nil (Leaf sp sb sd)) as (h' & E' & R' & F' & D').
          + cbn; lia.
          + exact I.
          + split; [left; reflexivity|right; exact I].
          + cbn. repeat constructor; elems; intuition congruence.
          + cbn [rep cptr tptr]. unfold h1. split; [lk|]. split; [exact I|lk].
          + exact I.
          + exists h'. repeat split; auto. intros q Hq1 Hq2. apply F'. cbn. elems. tauto.
        - destruct (refit_heap CTop fuel h1 d r g gb (Leaf sp sb sd) Nil) as (h' & E' & R' & F' & D').
          + cbn; lia.
          + exact I.
          + split; [right; exact I|left; reflexivity].
          + cbn. repeat constructor; elems; intuition congruence.
          + cbn [rep cptr tptr]. unfold h1. split; [lk|]. split; [lk|exact I].
          + exact I.
          + exists h'. repeat split; auto. intros q Hq1 Hq2. apply F'. cbn. elems. tauto. }
      destruct X as (h' & E' & R' & F' & D').
      msteps; rewrite (bind_ret _ _ _ _ _ E').
      exists h', (Some g). split; [reflexivity|]. split; [exact R'|].
      assert (X : forall q, q <> g -> q <> sp -> h' !! q = h !! q).
      { intros q H1' H2'. rewrite F' by auto. unfold h1. apply lookup_insert_ne. auto. }
      split; [rewrite X; auto; intros <-; contradiction|]. split.
      * intros q Hq. elems_in Hq. apply X; tauto.
      * intros q Hq. elems_in Hq. rewrite <- elem_of_dom, D', elem_of_dom. unfold h1.
        rewrite lookup_insert_is_Some'.
        assert (P : ptrs (extractF (CIn s g gb (Leaf sp sb sd) CTop)) ≡ₚ [g; sp]).
        { destruct s; cbn [extractF]; rewrite refitN_ptrs; reflexivity. }
        rewrite P. elems. split; [tauto|]. intros _. destruct Hq as [->|[->|[]]]; eauto.
    + (* internal sibling: its children move up *)
      cbn [tptr] in *. destruct RS as (Es & RL & RR). msteps.
      change (isLeaf _) with false. cbn iota. msteps.
      cbn in FS. destruct FS as [X|FS]; [discriminate|]. destruct FS as [FL FR].
      destruct (full_tptr _ FL) as [pl El]. destruct (full_tptr _ FR) as [pr Er].
      rewrite El, Er in *.
      pose proof (tptr_in _ _ El) as Il. pose proof (tptr_in _ _ Er) as Ir.
      destruct (rep_lookup _ _ _ _ RL El) as (nl & Hnl & Pl & Bl & Ll).
      destruct (rep_lookup _ _ _ _ RR Er) as (nr & Hnr & Pr & Br & Lr).
      cbn [ptrs] in *. elems_in H0. elems_in H3.
      nodup ND.
      assert (p <> sp) by tauto. assert (g <> sp) by tauto.
      assert (p <> pl) by (intros <-; tauto). assert (p <> pr) by (intros <-; tauto).
      assert (g <> pl) by (intros <-; tauto). assert (g <> pr) by (intros <-; tauto).
      assert (sp <> pl) by (intros <-; tauto). assert (sp <> pr) by (intros <-; tauto).
      assert (pl <> pr) by (intros <-; nd_false).
      msteps; erewrite bind_ret by (eapply run_replaceBy; [exact RT|reflexivity|exact Eg|congruence|exact Hnl|congruence]).
      msteps.
      msteps. erewrite bind_ret.
      2:{ eapply (run_replaceBy (opp s)); [lk|reflexivity| | |lk|congruence].
          - rewrite !lsl_opp. lk.
          - congruence. }
      rewrite !lsl_opp. msteps.
      match goal with |- context [refit _ _] => match goal with |- context [St ?x d r] => set (h1 := x) end end.
      assert (P : ptrs (extractF (CIn s g gb (Bin sp sb sl sr) CTop)) ≡ₚ g :: ptrs sl ++ ptrs sr).
      { destruct s; cbn [extractF]; rewrite refitN_ptrs; cbn [ptrs cptrs]; solve_Permutation. }
      assert (RL1 : rep h1 (Some g) sl).
      { eapply rep_frame; [|eapply (rep_reparent h _ (Some g) sl pl nl); eassumption].
        intros q Hq. unfold h1, reparent. destruct (decide (q = pl)) as [->|NE]; [lk|]. frame_tac. }
      assert (RR1 : rep h1 (Some g) sr).
      { eapply rep_frame; [|eapply (rep_reparent h _ (Some g) sr pr nr); eassumption].
        intros q Hq. unfold h1, reparent. destruct (decide (q = pr)) as [->|NE]; [lk|]. frame_tac. }
      assert (X : exists h', refit fuel (Some g) (St h1 d r) = Ret (tt, St h' d r) /\
        rep h' None (extractF (CIn s g gb (Bin sp sb sl sr) CTop)) /\
        (forall q, q ∉ g :: ptrs sl ++ ptrs sr -> h' !! q = h1 !! q) /\ dom h' = dom h1).
      { destruct s; cbn [extractF lsl] in *.
        - destruct (refit_heap CTop fuel h1 d r g gb sl sr) as (h' & E' & R' & F' & D').
          + cbn; lia.
          + exact I.
          + split; right; assumption.
          + cbn [ptrs cptrs]. rewrite app_nil_r, NoDup_cons, NoDup_app. elems. intuition.
          + cbn [rep cptr]. split; [unfold h1; rewrite El, Er; lk|auto].
          + exact I.
          + exists h'. repeat split; auto. intros q Hq. apply F'. cbn [ptrs cptrs]. rewrite app_nil_r. exact Hq.
        - destruct (refit_heap CTop fuel h1 d r g gb sr sl) as (h' & E' & R' & F' & D').
          + cbn; lia.
          + exact I.
          + split; right; assumption.
          + cbn [ptrs cptrs]. rewrite app_nil_r, NoDup_cons, NoDup_app. elems.
            split; [tauto|]. split; [assumption|]. split; [|assumption]. intros x X1 X2. elems_in X2. nd_false.
          + cbn [rep cptr]. split; [unfold h1; rewrite El, Er; lk|auto].
          + exact I.
          + exists h'. repeat split; auto. intros q Hq. apply F'. cbn [ptrs cptrs]. rewrite app_nil_r.
            elems_in Hq. elems. tauto. }
      destruct X as (h' & E' & R' & F' & D').
      msteps; rewrite (bind_ret _ _ _ _ _ E').
      assert (Es' : h' !! sp = h !! sp).
      { rewrite F' by (elems; intros [?|[?|?]]; try congruence; tauto). unfold h1. frame_tac. }
      assert (Ep' : h' !! p = h !! p).
      { rewrite F' by (elems; intros [?|[?|?]]; try congruence; tauto). unfold h1. frame_tac. }
      rewrite Es in Es'. rewrite RT in Ep'. msteps.
      msteps; erewrite bind_ret by (eapply deleteNode_one; [lia|lk]).
      exists (delete sp (<[sp:=Nd (Some g) None None sb None]> (<[sp:=Nd (Some g) None (Some pr) sb None]> h'))), (Some g).
      rewrite !delete_insert_delete.
      split; [reflexivity|]. split.
      { eapply rep_frame; [|exact R']. intros q. rewrite P. elems. intros Hq.
        apply lookup_delete_ne. intros ->. intuition. }
      split; [rewrite lookup_delete_ne; auto|]. split.
      * intros q Hq. elems_in Hq. rewrite lookup_delete_ne by (intros <-; tauto).
        rewrite F' by (elems; tauto). unfold h1. rewrite !lookup_insert_ne; [reflexivity|..]; intros <-; tauto.
      * intros q Hq. rewrite P. rewrite lookup_delete_is_Some.
        rewrite <- elem_of_dom, D', elem_of_dom.
        assert (AL : is_Some (h !! q)) by (apply ALc; exact Hq).
        elems_in Hq. elems. split.
        -- intros [X _]; assert (q <> sp) by auto; tauto.
        -- intros Hq'. split; [intros <-; intuition|].
           unfold h1. rewrite !lookup_insert_is_Some'. auto 10.
  - (* inner node: the sibling replaces the parent *)
    change (isRoot _) with false. cbn iota.
    destruct (full_tptr _ FS) as [ps Eps]. rewrite Eps in *.
    pose proof (tptr_in _ _ Eps) as Is.
    destruct (rep_lookup _ _ _ _ RS Eps) as (ns & Hns & Pns & Bns & Lns).
    cbn [cptr cptrs rep_ctx length] in *. destruct RC as (Eg2 & RS2 & RC).
    elems_in H1. elems_in H4. elems_in H6.
    assert (p <> ps) by (intros <-; tauto). assert (g <> ps) by (intros <-; tauto).
    assert (p <> g2) by tauto. assert (g <> g2) by tauto.
    nodup ND.
    assert (ps <> g2) by (intros ->; nd_false).
    msteps.
    msteps. erewrite bind_ret.
    2:{ eapply (run_set_handle (opp s)); [exact Hns|exact Pns| |].
        - rewrite !lsl_opp. exact Eg.
        - congruence. }
    rewrite !lsl_opp. msteps.
    msteps. erewrite bind_ret.
    2:{ eapply (run_replaceBy s2); [lk|reflexivity|lk| |lk|congruence].
        intros X. apply tptr_in in X. tauto. }
    msteps.
    match goal with |- context [refit _ _] => match goal with |- context [St ?x d r] => set (h1 := x) end end.
    destruct (refitF_heap (CIn s2 g2 gb2 sib2 c) fuel h1 d r sib) as (h' & E' & R' & F' & D').
    + cbn [clen] in *. lia.
    + exact FC.
    + discriminate.
    + exact FS.
    + cbn [cptrs]. apply NoDup_app. split; [assumption|]. split; [|rewrite NoDup_cons, NoDup_app; elems; tauto].
      intros x X1 X2. elems_in X2. nd_false.
    + cbn [cptr]. eapply rep_frame; [|eapply (rep_reparent h _ (Some g2) sib ps ns); eassumption].
      intros q Hq. unfold h1, reparent. destruct (decide (q = ps)) as [->|NE]; [lk|]. frame_tac.
    + rewrite Eps. cbn [rep_ctx]. unfold h1. split; [lk|]. split.
      * eapply rep_frame; [|exact RS2]. intros q Hq.
        assert (q <> ps) by (intros ->; nd_false). frame_tac.
      * eapply rep_ctx_frame; [|exact RC]. intros q Hq.
        assert (q <> ps) by (intros ->; nd_false). frame_tac.
    + cbn [cptr cptrs] in *. msteps; rewrite (bind_ret _ _ _ _ _ E').
      assert (Eg' : h' !! g = Some (Nd (Some g2) (lsl s (Some p) None) (lsl s None (Some p)) gb None)).
      { rewrite F' by (elems; tauto). unfold h1. lk. }
      assert (Ep' : h' !! p = Some (Nd (Some g) None None b (Some dd))).
      { rewrite F' by (elems; tauto). unfold h1. lk. }
      msteps.
      msteps; erewrite bind_ret by (eapply run_set_handle; [exact Ep'|reflexivity|exact Eg'|discriminate]).
      msteps.
      msteps; erewrite bind_ret by (eapply deleteNode_one; [lia|rewrite lookup_insert; destruct s; reflexivity]).
      rewrite delete_insert_delete.
      assert (P : ptrs (extractF (CIn s g gb sib (CIn s2 g2 gb2 sib2 c))) ≡ₚ
                  ptrs sib ++ g2 :: ptrs sib2 ++ cptrs c).
      { cbn [extractF]. rewrite refitF_ptrs. reflexivity. }
      exists (delete g h'), (Some g). split; [reflexivity|]. split.
      { eapply rep_frame; [|exact R']. intros q.
        change (refitF sib (CIn s2 g2 gb2 sib2 c)) with (extractF (CIn s g gb sib (CIn s2 g2 gb2 sib2 c))).
        rewrite P. elems. intros Hq. apply lookup_delete_ne. intros ->. tauto. }
      split; [rewrite lookup_delete_ne; auto|]. split.
      * intros q Hq. elems_in Hq. rewrite lookup_delete_ne by (intros <-; tauto).
        rewrite F' by (elems; tauto). unfold h1. rewrite !lookup_insert_ne; [reflexivity|..]; intros <-; tauto.
      * intros q Hq. rewrite P. rewrite lookup_delete_is_Some.
        rewrite <- elem_of_dom, D', elem_of_dom.
        assert (AL : is_Some (h !! q)) by (apply ALc; exact Hq).
        elems_in Hq. elems. split.
        -- intros [X _]; assert (q <> g) by auto; tauto.
        -- intros Hq'. split; [intros <-; tauto|].
           unfold h1. rewrite !lookup_insert_is_Some'. auto 10.
Qed.
End Extract.
