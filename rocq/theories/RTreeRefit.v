(** refit, deletion and addLeafTo on the heap. *)
From stdpp Require Import base option list gmap fin_maps sorting.
From Verif Require Import Num Outcome Algo Box BoxFacts RTree RTreeFun RTreeHeap RTreeRot.

Section Refit.
Context {N : Num} {T : Type}.
Notation st := (st T).
Notation M := (@M N T).
Implicit Types (h : gmap ptr node) (p q g : ptr) (t u v : tree) (c : ctx).

Lemma size_ge h (l : list ptr) : NoDup l -> (forall q, q ∈ l -> is_Some (h !! q)) ->
  length l <= size h.
Proof.
  intros ND H. rewrite <- size_dom, <- (size_list_to_set (C := gset ptr) l ND).
  apply subseteq_size. intros q Hq. apply elem_of_list_to_set in Hq.
  apply elem_of_dom. auto.
Qed.
Lemma clen_le c : clen c <= length (cptrs c).
Proof. induction c; cbn [clen cptrs length]; [lia|]. rewrite app_length. lia. Qed.
Lemma rep_alive h par t q : rep h par t -> q ∈ ptrs t -> is_Some (h !! q).
Proof.
  revert par. induction t as [|p b d|p b l IHl r IHr]; intros par; cbn [rep ptrs].
  - intros _ H. inversion H.
  - intros E H. apply elem_of_list_singleton in H. subst. eauto.
  - intros (E & RL & RR) H. apply elem_of_cons in H. destruct H as [->|H]; [eauto|].
    apply elem_of_app in H. destruct H; eauto.
Qed.
Lemma rep_ctx_alive h f c q : rep_ctx h f c -> q ∈ cptrs c -> is_Some (h !! q).
Proof.
  revert f. induction c as [|s p b sib c IH]; intros f; cbn [rep_ctx cptrs].
  - intros _ H. inversion H.
  - intros (E & RS & RC) H. apply elem_of_cons in H. destruct H as [->|H]; [eauto|].
    apply elem_of_app in H. destruct H; eauto using rep_alive.
Qed.

Lemma run_bounds_of h par t (d : gmap ptr T) r : rep h par t ->
  bounds_of (tptr t) (St h d r) = Ret (tbnd t, St h d r).
Proof.
  intros R. unfold bounds_of. destruct (tptr t) as [p|] eqn:E.
  - destruct (rep_lookup _ _ _ _ R E) as (n & Hn & _ & Hb & _). msteps. rewrite Hb. reflexivity.
  - apply tptr_nil in E. subst. reflexivity.
Qed.

Lemma rep_set_bounds h par p b b' l r : p ∉ ptrs l ++ ptrs r ->
  rep h par (Bin p b l r) -> rep (<[p := Nd par (tptr l) (tptr r) b' None]> h) par (Bin p b' l r).
Proof.
  intros NI (E & RL & RR). cbn [rep]. split; [apply lookup_insert|].
  split; (eapply rep_frame; [|eassumption]); intros q Hq; rewrite lookup_insert_ne; auto;
    intros ->; apply NI; apply elem_of_app; auto.
Qed.

Lemma refit_heap c : forall fuel h (d : gmap ptr T) r p b tl tr,
  clen c < fuel -> cfull c -> kids_fit tl tr c ->
  NoDup (ptrs (Bin p b tl tr) ++ cptrs c) ->
  rep h (cptr c) (Bin p b tl tr) -> rep_ctx h (Some p) c ->
  exists h', refit fuel (Some p) (St h d r) = Ret (tt, St h' d r) /\
    rep h' None (refitN p b tl tr c) /\
    (forall q, q ∉ ptrs (Bin p b tl tr) ++ cptrs c -> h' !! q = h !! q) /\ dom h' = dom h.
Proof.
  induction c as [|s g gb sib c IH]; intros fuel h d r p b tl tr HF FC FK ND RB RC;
    (destruct fuel as [|fuel]; [lia|]); cbn [refit]; rewrite refitN_eq; cbn zeta;
    pose proof RB as (Ep & RL & RR); cbn [ptrs] in ND;
    (mstep; rewrite (bind_ret _ _ _ _ _ (run_bounds_of _ _ tl d r RL));
     rewrite (bind_ret _ _ _ _ _ (run_bounds_of _ _ tr d r RR)));
    destruct (box_eqb _ b).
  - exists h. cbn. auto 10.
  - mstep.
    set (h1 := <[p := _]> h) in *.
    assert (NI : p ∉ ptrs tl ++ ptrs tr).
    { rewrite app_nil_r in ND. apply NoDup_cons in ND. tauto. }
    destruct (checkRotations_heap h1 d r p None (box_combined (tbnd tl) (tbnd tr)) tl tr)
      as (h2 & E2 & R2 & F2 & D2).
    { destruct FK as [[->|F1] [->|F2]]; auto. }
    { rewrite app_nil_r in ND. exact ND. }
    { eapply rep_set_bounds; eassumption. }
    rewrite (bind_ret _ _ _ _ _ E2). pose proof R2 as (Ep2 & _ & _). mstep.
    exists h2. cbn [cptr refitF]. split; [destruct fuel; reflexivity|]. split; [exact R2|]. split.
    + intros q Hq. rewrite app_nil_r in Hq. cbn [ptrs] in Hq. rewrite F2 by exact Hq. unfold h1.
      rewrite lookup_insert_ne; [reflexivity|]. intros ->. apply Hq. left.
    + rewrite D2. unfold h1. apply dom_insert_lookup_L. eauto.
  - exists h. split; [reflexivity|]. split; [|auto]. apply rep_plug. auto.
  - mstep.
    set (h1 := <[p := _]> h) in *.
    apply NoDup_app in ND. destruct ND as (ND1 & ND2 & ND3).
    assert (NI : p ∉ ptrs tl ++ ptrs tr) by (apply NoDup_cons in ND1; tauto).
    destruct FK as [FL FR].
    destruct (checkRotations_heap h1 d r p (Some g) (box_combined (tbnd tl) (tbnd tr)) tl tr)
      as (h2 & E2 & R2 & F2 & D2).
    { auto. }
    { exact ND1. }
    { eapply rep_set_bounds; eassumption. }
    rewrite (bind_ret _ _ _ _ _ E2). pose proof R2 as (Ep2 & _ & _). mstep.
    cbn [cptr].
    set (t' := Bin p (box_combined (tbnd tl) (tbnd tr)) (rots tl tr).1 (rots tl tr).2) in *.
    assert (Pt : ptrs t' ≡ₚ p :: ptrs tl ++ ptrs tr).
    { unfold t'. cbn [ptrs]. rewrite rots_ptrs. reflexivity. }
    assert (Ft : full t') by (unfold t'; cbn [full]; apply rots_full; auto).
    assert (RC2 : rep_ctx h2 (Some p) (CIn s g gb sib c)).
    { eapply rep_ctx_frame; [|exact RC]. intros q Hq.
      assert (q ∉ p :: ptrs tl ++ ptrs tr) by (intros X; exact (ND2 q X Hq)).
      rewrite F2 by assumption. unfold h1. rewrite lookup_insert_ne; [reflexivity|].
      intros ->. apply H. left. }
    destruct RC2 as (Eg & RS & RC2).
    rewrite cfull_CIn in FC. destruct FC as [FS FC].
    cbn [cptrs] in ND3. cbn [clen] in HF.
    assert (ND' : NoDup (g :: ptrs t' ++ ptrs sib ++ cptrs c)).
    { eapply NoDup_perm with (l := (p :: ptrs tl ++ ptrs tr) ++ g :: ptrs sib ++ cptrs c).
      - rewrite Pt. solve_Permutation.
      - apply NoDup_app. auto. }
    assert (X : exists h', refit fuel (Some g) (St h2 d r) = Ret (tt, St h' d r) /\
      rep h' None (refitF t' (CIn s g gb sib c)) /\
      (forall q, q ∉ g :: ptrs t' ++ ptrs sib ++ cptrs c -> h' !! q = h2 !! q) /\ dom h' = dom h2).
    { destruct s; cbn [refitF lsl] in *.
      - destruct (IH fuel h2 d r g gb t' sib) as (h' & E' & R' & F' & D').
        + lia.
        + exact FC.
        + destruct c; cbn in FS |- *; auto using full_nof.
        + cbn [ptrs]. rewrite <- app_comm_cons, <- app_assoc. exact ND'.
        + cbn [rep]. auto.
        + exact RC2.
        + exists h'. split; [exact E'|]. split; [exact R'|]. split; [|exact D'].
          intros q Hq. apply F'. cbn [ptrs]. rewrite <- app_comm_cons, <- app_assoc. exact Hq.
      - destruct (IH fuel h2 d r g gb sib t') as (h' & E' & R' & F' & D').
        + lia.
        + exact FC.
        + destruct c; cbn in FS |- *; auto using full_nof.
        + cbn [ptrs]. rewrite <- app_comm_cons, <- app_assoc.
          eapply NoDup_perm; [|exact ND']. solve_Permutation.
        + cbn [rep]. auto.
        + exact RC2.
        + exists h'. split; [exact E'|]. split; [exact R'|]. split; [|exact D'].
          intros q Hq. apply F'. cbn [ptrs]. rewrite <- app_comm_cons, <- app_assoc.
          intros X. apply Hq. revert X. rewrite !elem_of_cons, !elem_of_app. tauto. }
    destruct X as (h3 & E3 & R3 & F3 & D3).
    exists h3. split; [exact E3|]. split; [exact R3|]. split.
    + intros q Hq. cbn [ptrs cptrs] in Hq. rewrite !elem_of_app, !elem_of_cons, !elem_of_app in Hq.
      rewrite F3, F2.
      * unfold h1. rewrite lookup_insert_ne; [reflexivity|]. intros ->. tauto.
      * cbn [ptrs]. rewrite elem_of_cons, elem_of_app. tauto.
      * rewrite elem_of_cons, elem_of_app, Pt, elem_of_app, elem_of_cons, elem_of_app. tauto.
    + rewrite D3, D2. unfold h1. apply dom_insert_lookup_L. eauto.
Qed.

(** refit of the parent of a hole *)
Lemma refitF_heap c : forall fuel h (d : gmap ptr T) r t,
  clen c <= fuel -> cfull c -> c <> CTop -> full t ->
  NoDup (ptrs t ++ cptrs c) ->
  rep h (cptr c) t -> rep_ctx h (tptr t) c ->
  exists h', refit fuel (cptr c) (St h d r) = Ret (tt, St h' d r) /\
    rep h' None (refitF t c) /\
    (forall q, q ∉ ptrs t ++ cptrs c -> h' !! q = h !! q) /\ dom h' = dom h.
Proof.
  destruct c as [|s g gb sib c]; intros fuel h d r t HF FC NT FT ND RT RC; [congruence|].
  cbn [cptr clen cptrs rep_ctx] in *. destruct RC as (Eg & RS & RC).
  rewrite cfull_CIn in FC. destruct FC as [FS FC].
  destruct s; cbn [refitF lsl] in *.
  - destruct (refit_heap c fuel h d r g gb t sib) as (h' & E' & R' & F' & D'); auto.
    + destruct c; cbn in FS |- *; auto using full_nof.
    + cbn [ptrs]. eapply NoDup_perm; [|exact ND]. solve_Permutation.
    + cbn [rep]. auto.
    + exists h'. split; [exact E'|]. split; [exact R'|]. split; [|exact D'].
      intros q Hq. apply F'. cbn [ptrs]. intros X. apply Hq. revert X.
      rewrite !elem_of_app, !elem_of_cons, !elem_of_app. tauto.
  - destruct (refit_heap c fuel h d r g gb sib t) as (h' & E' & R' & F' & D'); auto.
    + destruct c; cbn in FS |- *; auto using full_nof.
    + cbn [ptrs]. eapply NoDup_perm; [|exact ND]. solve_Permutation.
    + cbn [rep]. auto.
    + exists h'. split; [exact E'|]. split; [exact R'|]. split; [|exact D'].
      intros q Hq. apply F'. cbn [ptrs]. intros X. apply Hq. revert X.
      rewrite !elem_of_app, !elem_of_cons, !elem_of_app. tauto.
Qed.
End Refit.
