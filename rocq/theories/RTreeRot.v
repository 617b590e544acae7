(** Rotations and refit: pointer code refines the functions on trees. *)
From stdpp Require Import base option list gmap fin_maps sorting.
From Verif Require Import Num Outcome Algo Box BoxFacts RTree RTreeFun RTreeHeap.

Section Rot.
Context {N : Num} {T : Type}.
Notation st := (st T).
Notation M := (@M N T).
Implicit Types (h : gmap ptr node) (p q g : ptr) (t u v : tree) (c : ctx).

(** sibling of a child known to be on side [s] *)
Lemma run_sibling_l h d r p par np ppar y b dt :
  h !! p = Some np -> nparent np = Some par -> h !! par = Some (Nd ppar (Some p) y b dt) ->
  @sibling N T p (St h d r) = Ret (y, St h d r).
Proof.
  intros H1 E H2. unfold sibling. mstep. rewrite E. unfold otherChildHandle. msteps.
  rewrite eqp_refl. cbn [negb]. unfold rd_slot. cbn [fst snd]. msteps. reflexivity.
Qed.
Lemma run_sibling_r h d r p par np ppar x y b dt :
  h !! p = Some np -> nparent np = Some par -> h !! par = Some (Nd ppar x y b dt) ->
  x <> Some p ->
  @sibling N T p (St h d r) = Ret (x, St h d r).
Proof.
  intros H1 E H2 NE. unfold sibling. mstep. rewrite E. unfold otherChildHandle. msteps.
  rewrite eqp_ne by congruence. cbn [negb]. unfold rd_slot. cbn [fst snd]. msteps. reflexivity.
Qed.
Lemma run_sibling s h d r p par np ppar y b dt :
  h !! p = Some np -> nparent np = Some par ->
  h !! par = Some (Nd ppar (lsl s (Some p) y) (lsl s y (Some p)) b dt) -> y <> Some p ->
  @sibling N T p (St h d r) = Ret (y, St h d r).
Proof.
  intros H1 E H2 NE. destruct s; cbn [lsl] in H2.
  - eapply run_sibling_l; eassumption.
  - eapply run_sibling_r; eassumption.
Qed.
Lemma run_handle s h d r p par np ppar y b dt :
  h !! p = Some np -> nparent np = Some par ->
  h !! par = Some (Nd ppar (lsl s (Some p) y) (lsl s y (Some p)) b dt) -> y <> Some p ->
  @handle N T p (St h d r) = Ret ((s, par), St h d r).
Proof.
  intros H1 E H2 NE. unfold handle. mstep. rewrite E. unfold childHandle. msteps.
  destruct s; cbn [lsl].
  - rewrite eqp_refl. reflexivity.
  - rewrite eqp_ne by congruence. reflexivity.
Qed.

Lemma run_rd_slot s p n h d r : h !! p = Some n ->
  @rd_slot N T s p (St h d r) = Ret (lsl s (nleft n) (nright n), St h d r).
Proof. intros H. unfold rd_slot. msteps. destruct s; reflexivity. Qed.
Lemma run_wr_slot s p n o h d r : h !! p = Some n ->
  @wr_slot N T s p o (St h d r) =
  Ret (tt, St (<[p := Nd (nparent n) (lsl s o (nleft n)) (lsl s (nright n) o) (nbounds n) (ndata n)]> h) d r).
Proof. intros H. unfold wr_slot. destruct s; [apply run_set_left|apply run_set_right]; exact H. Qed.

(** swapNodes of [px] (child of [pv]) and [pu] (child of [g]) *)
Lemma run_swapNodes sx su h d r (px pu pv g : ptr) nx nu vpar gpar vy gy bv bg :
  px <> pu -> px <> pv -> px <> g -> pu <> pv -> pu <> g -> pv <> g ->
  h !! px = Some nx -> nparent nx = Some pv ->
  h !! pu = Some nu -> nparent nu = Some g ->
  h !! pv = Some (Nd vpar (lsl sx (Some px) vy) (lsl sx vy (Some px)) bv None) -> vy <> Some px ->
  h !! g = Some (Nd gpar (lsl su (Some pu) gy) (lsl su gy (Some pu)) bg None) -> gy <> Some pu ->
  @swapNodes N T px pu (St h d r) = Ret (tt, St
    (<[pu := Nd (Some pv) (nleft nu) (nright nu) (nbounds nu) (ndata nu)]>
    (<[px := Nd (Some g) (nleft nx) (nright nx) (nbounds nx) (ndata nx)]>
    (<[g := Nd gpar (lsl su (Some px) gy) (lsl su gy (Some px)) bg None]>
    (<[pv := Nd vpar (lsl sx (Some pu) vy) (lsl sx vy (Some pu)) bv None]> h)))) d r).
Proof.
  intros D1 D2 D3 D4 D5 D6 Hx Ex Hu Eu Hv Nv Hg Ng. unfold swapNodes.
  erewrite bind_ret by (eapply run_handle; eassumption).
  erewrite bind_ret by (eapply run_handle; eassumption).
  cbn [fst snd].
  erewrite bind_ret by (eapply run_rd_slot; lk).
  erewrite bind_ret by (eapply run_rd_slot; lk).
  erewrite bind_ret by (eapply run_wr_slot; lk).
  erewrite bind_ret by (eapply run_wr_slot; lk).
  cbn [nparent nleft nright nbounds ndata].
  msteps. erewrite run_set_parent by lk.
  rewrite Ex, Eu. cbn [nparent nleft nright nbounds ndata].
  destruct sx, su; reflexivity.
Qed.

Lemma rotate_bin sl u vp vb a b : u <> Nil ->
  rotate sl u (Bin vp vb a b) =
  let nb := box_combined (tbnd (lsl sl b a)) (tbnd u) in
  if kltb (box_area nb) (box_area vb) then (lsl sl a b, mk sl vp nb u (lsl sl b a)) else (u, Bin vp vb a b).
Proof. destruct u; [congruence|..]; intros _; destruct sl; reflexivity. Qed.

Lemma checkRotation_heap sl su h d r g gpar gb u vp vb a b :
  u <> Nil -> full a -> full b ->
  NoDup (g :: ptrs u ++ ptrs (Bin vp vb a b)) ->
  h !! g = Some (Nd gpar (lsl su (tptr u) (Some vp)) (lsl su (Some vp) (tptr u)) gb None) ->
  rep h (Some g) u -> rep h (Some g) (Bin vp vb a b) ->
  exists h', @checkRotation N T (tptr u) (tptr (lsl sl a b)) (St h d r) = Ret (tt, St h' d r) /\
    let uv := rotate sl u (Bin vp vb a b) in
    rep h' (Some g) uv.1 /\ rep h' (Some g) uv.2 /\
    h' !! g = Some (Nd gpar (lsl su (tptr uv.1) (tptr uv.2)) (lsl su (tptr uv.2) (tptr uv.1)) gb None) /\
    (forall q, q ∉ g :: ptrs u ++ ptrs (Bin vp vb a b) -> h' !! q = h !! q) /\ dom h' = dom h.
Proof.
  intros NU FA FB ND Hg RU RV. destruct RV as (Hv & RA & RB).
  destruct (tptr u) as [pu|] eqn:Eu; [|apply tptr_nil in Eu; contradiction].
  rewrite rotate_bin by assumption.
  assert (RX : rep h (Some vp) (lsl sl a b)) by (destruct sl; assumption).
  assert (RY : rep h (Some vp) (lsl sl b a)) by (destruct sl; assumption).
  assert (NX : lsl sl a b <> Nil) by (destruct sl; cbn; intros ->; contradiction).
  assert (NY : lsl sl b a <> Nil) by (destruct sl; cbn; intros ->; contradiction).
  assert (PP : ptrs (Bin vp vb a b) ≡ₚ vp :: ptrs (lsl sl a b) ++ ptrs (lsl sl b a)).
  { cbn [ptrs]. destruct sl; cbn [lsl]; solve_Permutation. }
  assert (Hv' : h !! vp = Some (Nd (Some g) (lsl sl (tptr (lsl sl a b)) (tptr (lsl sl b a)))
                                  (lsl sl (tptr (lsl sl b a)) (tptr (lsl sl a b))) vb None))
    by (destruct sl; exact Hv).
  assert (RV : rep h (Some g) (Bin vp vb a b)) by (cbn; auto).
  set (x := lsl sl a b) in *. set (y := lsl sl b a) in *.
  assert (ND' : NoDup (g :: vp :: ptrs u ++ ptrs x ++ ptrs y)).
  { rewrite PP in ND. revert ND. apply NoDup_Permutation_proper. solve_Permutation. }
  clearbody x y. clear FA FB RA RB Hv.
  destruct (tptr x) as [px|] eqn:Ex; [|apply tptr_nil in Ex; contradiction].
  destruct (tptr y) as [py|] eqn:Ey; [|apply tptr_nil in Ey; contradiction].
  destruct (rep_lookup _ _ _ _ RX Ex) as (nx & Hx & Px & Bx & _).
  destruct (rep_lookup _ _ _ _ RY Ey) as (ny & Hy & Py & By & _).
  destruct (rep_lookup _ _ _ _ RU Eu) as (nu & Hu & Pu & Bu & _).
  pose proof (tptr_in _ _ Ex) as Ix. pose proof (tptr_in _ _ Ey) as Iy. pose proof (tptr_in _ _ Eu) as Iu.
  apply NoDup_cons in ND'. destruct ND' as [NG ND'].
  apply NoDup_cons in ND'. destruct ND' as [NV ND'].
  apply NoDup_app in ND'. destruct ND' as (NDu & DU & ND').
  apply NoDup_app in ND'. destruct ND' as (NDx & DX & NDy).
  rewrite elem_of_cons, !elem_of_app in NG. rewrite !elem_of_app in NV.
  assert (D1 : px <> pu) by (intros ->; apply (DU pu Iu); apply elem_of_app; auto).
  assert (D2 : px <> vp) by (intros ->; tauto).
  assert (D3 : px <> g) by (intros ->; tauto).
  assert (D4 : pu <> vp) by (intros ->; tauto).
  assert (D5 : pu <> g) by (intros ->; tauto).
  assert (D6 : vp <> g) by (intros ->; tauto).
  assert (D7 : py <> px) by (intros ->; exact (DX px Ix Iy)).
  unfold checkRotation.
  mstep.
  erewrite bind_ret.
  2:{ eapply (run_sibling sl); [exact Hx|exact Px|exact Hv'|]. congruence. }
  msteps. rewrite Px. msteps. rewrite By, Bu. cbn zeta.
  destruct (kltb _ _).
  2:{ exists h. split; [reflexivity|]. cbn [fst snd]. split; [exact RU|].
      split; [exact RV|]. split; [|auto]. rewrite Eu. exact Hg. }
  erewrite bind_ret by (apply run_set_bounds; lk).
  cbn [nparent nleft nright nbounds ndata].
  rewrite (run_swapNodes sl su _ d r px pu vp g nx nu (Some g) gpar (Some py) (Some vp)
             (box_combined (tbnd y) (tbnd u)) gb);
    [|exact D1|exact D2|exact D3|exact D4|exact D5|exact D6
     |lk|exact Px|lk|exact Pu|lk|congruence|lk|congruence].
  rewrite insert_insert.
  eexists. split; [reflexivity|]. cbn [fst snd].
  rewrite rep_mk, tptr_mk, Eu, Ey, Ex.
  split; [|split; [split; [|split]|split; [|split]]].
  - eapply rep_frame; [|eapply (rep_reparent h _ (Some g) x px nx); eassumption].
    intros q Hq. rewrite lookup_insert_ne by (intros <-; apply (DU pu Iu); apply elem_of_app; auto).
    destruct (decide (q = px)) as [->|]; [rewrite !lookup_insert; reflexivity|].
    rewrite !lookup_insert_ne; try neq; intros <-; tauto.
  - lk.
  - eapply rep_frame; [|eapply (rep_reparent h _ (Some vp) u pu nu); eassumption].
    intros q Hq. destruct (decide (q = pu)) as [->|]; [rewrite !lookup_insert; reflexivity|].
    rewrite !lookup_insert_ne; try neq; try (intros <-; tauto).
    intros <-. apply (DU px Hq). apply elem_of_app. auto.
  - eapply rep_frame; [|exact RY].
    intros q Hq. rewrite !lookup_insert_ne; try neq; try (intros <-; tauto).
    + intros <-. exact (DX px Ix Hq).
    + intros <-. apply (DU pu Iu). apply elem_of_app. auto.
  - lk.
  - intros q Hq. rewrite PP in Hq. rewrite !elem_of_cons, !elem_of_app, !elem_of_cons, !elem_of_app in Hq.
    rewrite !lookup_insert_ne; [reflexivity|..]; intros <-; tauto.
  - rewrite !dom_insert_lookup_L; eauto; rewrite ?lookup_insert_ne by neq; eauto.
Qed.

Lemma rotate_bin_bin sl u vp vb a b : exists vb' a' b',
  (rotate sl u (Bin vp vb a b)).2 = Bin vp vb' a' b'.
Proof.
  unfold rotate. destruct u; [eauto|..]; (destruct (kltb _ _); [|eauto]); destruct sl; cbn; eauto.
Qed.
Lemma rotate_not_bin sl u v : is_leaf v = true -> rotate sl u v = (u, v).
Proof. destruct v; try discriminate. destruct u; reflexivity. Qed.
Lemma full_not_nil t : full t -> t <> Nil.
Proof. destruct t; cbn; [contradiction|discriminate|discriminate]. Qed.
Lemma full_tptr t : full t -> exists p, tptr t = Some p.
Proof. destruct t; cbn; [contradiction|eauto|eauto]. Qed.

(** two successive checkRotation calls against the same internal child [v] on
    the side opposite to [su] *)
Definition rot2 (u v : tree) : tree * tree :=
  rotate R (rotate L u v).1 (rotate L u v).2.

Lemma NoDup_perm {A} (l k : list A) : l ≡ₚ k -> NoDup l -> NoDup k.
Proof. intros E. rewrite E. auto. Qed.

Lemma rot2_heap su h d r g gpar gb u vp vb a b :
  full u -> full a -> full b ->
  NoDup (g :: ptrs u ++ ptrs (Bin vp vb a b)) ->
  h !! g = Some (Nd gpar (lsl su (tptr u) (Some vp)) (lsl su (Some vp) (tptr u)) gb None) ->
  rep h (Some g) u -> rep h (Some g) (Bin vp vb a b) ->
  exists h' h1 vb1 a1 b1,
    @checkRotation N T (tptr u) (tptr a) (St h d r) = Ret (tt, St h1 d r) /\
    rotate L u (Bin vp vb a b) = ((rotate L u (Bin vp vb a b)).1, Bin vp vb1 a1 b1) /\
    h1 !! g = Some (Nd gpar (lsl su (tptr (rotate L u (Bin vp vb a b)).1) (Some vp))
                            (lsl su (Some vp) (tptr (rotate L u (Bin vp vb a b)).1)) gb None) /\
    h1 !! vp = Some (Nd (Some g) (tptr a1) (tptr b1) vb1 None) /\
    @checkRotation N T (tptr (rotate L u (Bin vp vb a b)).1) (tptr b1) (St h1 d r) = Ret (tt, St h' d r) /\
    let uv := rot2 u (Bin vp vb a b) in
    rep h' (Some g) uv.1 /\ rep h' (Some g) uv.2 /\ full uv.1 /\ full uv.2 /\
    ptrs uv.1 ++ ptrs uv.2 ≡ₚ ptrs u ++ ptrs (Bin vp vb a b) /\
    h' !! g = Some (Nd gpar (lsl su (tptr uv.1) (tptr uv.2)) (lsl su (tptr uv.2) (tptr uv.1)) gb None) /\
    (forall q, q ∉ g :: ptrs u ++ ptrs (Bin vp vb a b) -> h' !! q = h !! q) /\ dom h' = dom h.
Proof.
  intros FU FA FB ND Hg RU RV.
  destruct (checkRotation_heap L su h d r g gpar gb u vp vb a b) as (h1 & E1 & R1 & R2 & G1 & F1 & Dm1);
    auto using full_not_nil.
  destruct (rotate_full L u (Bin vp vb a b)) as [FU1 FV1]; [auto|cbn; auto|].
  pose proof (rotate_ptrs L u (Bin vp vb a b)) as P1.
  destruct (rotate_bin_bin L u vp vb a b) as (vb1 & a1 & b1 & EV).
  unfold rot2.
  set (w := rotate L u (Bin vp vb a b)) in *. clearbody w. destruct w as [u1 v1]. cbn [fst snd] in *. subst v1.
  destruct FV1 as [FA1 FB1].
  assert (ND1 : NoDup (g :: ptrs u1 ++ ptrs (Bin vp vb1 a1 b1))).
  { eapply NoDup_perm; [|exact ND]. rewrite P1. reflexivity. }
  destruct (checkRotation_heap R su h1 d r g gpar gb u1 vp vb1 a1 b1) as (h2 & E2 & R3 & R4 & G2 & F2 & Dm2);
    auto using full_not_nil.
  destruct (rotate_full R u1 (Bin vp vb1 a1 b1)) as [FU2 FV2]; [auto|cbn; auto|].
  pose proof (rotate_ptrs R u1 (Bin vp vb1 a1 b1)) as P2.
  exists h2, h1, vb1, a1, b1. cbn [lsl] in E1, E2.
  split; [exact E1|]. split; [reflexivity|]. split; [exact G1|]. split; [apply R2|].
  split; [exact E2|]. cbn zeta in *.
  split; [exact R3|]. split; [exact R4|]. split; [exact FU2|]. split; [exact FV2|].
  split; [rewrite P2, P1; reflexivity|]. split; [exact G2|].
  split; [|congruence].
  intros q Hq. rewrite F2, F1; auto. rewrite elem_of_cons in *. rewrite P1. exact Hq.
Qed.

Lemma rots_rot2 l r : rots l r = ((rot2 (rot2 l r).2 (rot2 l r).1).2, (rot2 (rot2 l r).2 (rot2 l r).1).1).
Proof. reflexivity. Qed.

Lemma rep_isLeaf h par t p n : rep h par t -> tptr t = Some p -> h !! p = Some n -> isLeaf n = is_leaf t.
Proof.
  intros R E Hn. destruct (rep_lookup _ _ _ _ R E) as (n' & Hn' & _ & _ & L). congruence.
Qed.

Lemma is_null_None : is_null None = true. Proof. reflexivity. Qed.
Lemma is_null_Some (p : ptr) : is_null (Some p) = false. Proof. reflexivity. Qed.

(** one half of checkRotations: both rotations against the child [vt] *)
Lemma rot_half su (prog : M unit) h (d : gmap ptr T) r g gpar gb ut vt :
  full ut -> full vt -> NoDup (g :: ptrs ut ++ ptrs vt) ->
  h !! g = Some (Nd gpar (lsl su (tptr ut) (tptr vt)) (lsl su (tptr vt) (tptr ut)) gb None) ->
  rep h (Some g) ut -> rep h (Some g) vt ->
  (is_leaf vt = true -> prog = ret tt) ->
  (forall (vp : ptr) (vb : box) (a b : tree) (h1 : gmap ptr node) (vb1 : box) (a1 b1 : tree)
          (u1 : option ptr) (h2 : gmap ptr node), vt = Bin vp vb a b ->
     checkRotation (tptr ut) (tptr a) (St h d r) = Ret (tt, St h1 d r) ->
     h1 !! g = Some (Nd gpar (lsl su u1 (Some vp)) (lsl su (Some vp) u1) gb None) ->
     h1 !! vp = Some (Nd (Some g) (tptr a1) (tptr b1) vb1 None) ->
     checkRotation u1 (tptr b1) (St h1 d r) = Ret (tt, St h2 d r) ->
     prog (St h d r) = Ret (tt, St h2 d r)) ->
  exists h1, prog (St h d r) = Ret (tt, St h1 d r) /\
    let uv := rot2 ut vt in
    rep h1 (Some g) uv.1 /\ rep h1 (Some g) uv.2 /\ full uv.1 /\ full uv.2 /\
    ptrs uv.1 ++ ptrs uv.2 ≡ₚ ptrs ut ++ ptrs vt /\
    h1 !! g = Some (Nd gpar (lsl su (tptr uv.1) (tptr uv.2)) (lsl su (tptr uv.2) (tptr uv.1)) gb None) /\
    (forall q, q ∉ g :: ptrs ut ++ ptrs vt -> h1 !! q = h !! q) /\ dom h1 = dom h.
Proof.
  intros FU FV ND Hg RU RV HL HB.
  destruct vt as [|rp rb rd0|rp rb ra rbb]; [contradiction| |].
  - exists h. rewrite HL by reflexivity. split; [reflexivity|].
    unfold rot2. rewrite (rotate_not_bin L) by reflexivity. cbn [fst snd].
    rewrite (rotate_not_bin R) by reflexivity. cbn [fst snd]. auto 10.
  - destruct FV as [FRA FRB].
    destruct (rot2_heap su h d r g gpar gb ut rp rb ra rbb) as
        (h' & h1 & vb1 & a1 & b1 & E1 & EV & G1 & V1 & E2 & X); auto.
    exists h'. split; [|exact X]. eapply HB; eauto.
Qed.

Lemma checkRotations_heap h d r g gpar gb lt rt :
  lt = Nil \/ rt = Nil \/ (full lt /\ full rt) ->
  NoDup (ptrs (Bin g gb lt rt)) -> rep h gpar (Bin g gb lt rt) ->
  exists h', @checkRotations N T g (St h d r) = Ret (tt, St h' d r) /\
    rep h' gpar (Bin g gb (rots lt rt).1 (rots lt rt).2) /\
    (forall q, q ∉ ptrs (Bin g gb lt rt) -> h' !! q = h !! q) /\ dom h' = dom h.
Proof.
  intros FK ND (Hg & RL & RR). unfold checkRotations. mstep.
  destruct FK as [->|[->|[FL FR]]].
  { exists h. rewrite rots_nil by auto. cbn [tptr]. split; [reflexivity|]. cbn. auto. }
  { exists h. rewrite rots_nil by auto. cbn [tptr]. rewrite is_null_None, orb_true_r.
    split; [reflexivity|]. cbn. auto. }
  destruct (full_tptr lt FL) as [pl EL]. destruct (full_tptr rt FR) as [pr ER].
  rewrite EL, ER. rewrite !is_null_Some. cbn [orb].
  mstep. destruct (rep_lookup _ _ _ _ RR ER) as (nr & Hnr & Pr & Br & Lr).
  mstep. rewrite Lr. cbn [ptrs] in ND.
  match goal with |- context [bind ?m _ (St h d r)] => set (prog := m) end.
  destruct (rot_half L prog h d r g gpar gb lt rt) as (h1 & E1 & R1 & R2 & F1 & F2 & P1 & G1 & Fr1 & D1); auto.
  { intros Lf. subst prog. rewrite Lf. reflexivity. }
  { intros vp vb a b h1 vb1 a1 b1 u1 h2 -> E1 G1 V1 E2.
    subst prog. cbn [is_leaf negb]. destruct RR as (Hvp & _ & _).
    cbn [tptr] in ER. injection ER as <-. rewrite Hvp in Hnr. injection Hnr as <-.
    cbn [nleft nright]. rewrite EL in E1. rewrite (bind_ret _ _ _ _ _ E1).
    cbn [lsl] in G1. msteps. exact E2. }
  rewrite (bind_ret _ _ _ _ _ E1). clear prog E1. cbn [lsl] in G1. cbn zeta in *.
  mstep.
  rewrite rots_rot2. set (w := rot2 lt rt) in *. clearbody w. destruct w as [l1 r1]. cbn [fst snd] in *.
  destruct (full_tptr l1 F1) as [pl1 EL1]. rewrite EL1. mstep.
  destruct (rep_lookup _ _ _ _ R1 EL1) as (nl & Hnl & Pl & Bl & Ll).
  mstep. rewrite Ll.
  match goal with |- context [?m (St h1 d r) = _] => set (prog := m) end.
  destruct (rot_half R prog h1 d r g gpar gb r1 l1) as (h2 & E2 & R3 & R4 & F3 & F4 & P2 & G2 & Fr2 & D2); auto.
  { eapply NoDup_perm; [|exact ND]. rewrite (Permutation_app_comm (ptrs r1)), P1. reflexivity. }
  { intros Lf. subst prog. rewrite Lf. reflexivity. }
  { intros vp vb a b h2 vb1 a1 b1 u1 h3 -> E2 G2 V2 E3.
    subst prog. cbn [is_leaf negb]. destruct R1 as (Hvp & _ & _).
    cbn [tptr] in EL1. injection EL1 as <-. rewrite Hvp in Hnl. injection Hnl as <-.
    cbn [nleft nright]. rewrite (bind_ret _ _ _ _ _ E2).
    cbn [lsl] in G2. msteps. exact E3. }
  exists h2. split; [exact E2|]. cbn zeta in *. cbn [rep fst snd].
  cbn [lsl] in G2. split; [split; [exact G2|split; assumption]|].
  split; [|congruence].
  intros q Hq. cbn [ptrs] in Hq. rewrite Fr2, Fr1; auto.
  rewrite elem_of_cons in *. rewrite (Permutation_app_comm (ptrs r1)), P1. exact Hq.
Qed.
End Rot.
