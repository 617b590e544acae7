(** Read-only operations on the heap: iterators, sizes, queries. *)
From stdpp Require Import base option list gmap fin_maps sorting.
From Verif Require Import Num Outcome Algo AlgoFacts Box BoxFacts RTree RTreeFun RTreeHeap RTreeRot RTreeRefit RTreeEdit RTreeExtract RTreeInsert.

Section FunIter.
Context {N : Num}.
Implicit Types (p q g : ptr) (t u v : tree) (c : ctx).

Definition lptr (x : ptr * box * ptr) : ptr := x.1.1.
Definition lbnd (x : ptr * box * ptr) : box := x.1.2.
(** first leaf of a list, or [r] *)
Definition hdp (r : ptr) (l : list (ptr * box * ptr)) : ptr :=
  match l with [] => r | x :: _ => lptr x end.
(** leaves before and after the hole, in order *)
Fixpoint cbefore c : list (ptr * box * ptr) :=
  match c with
  | CTop => []
  | CIn L _ _ _ c => cbefore c
  | CIn R _ _ sib c => cbefore c ++ leaves sib
  end.
Fixpoint cafter c : list (ptr * box * ptr) :=
  match c with
  | CTop => []
  | CIn L _ _ sib c => leaves sib ++ cafter c
  | CIn R _ _ _ c => cafter c
  end.
Lemma leaves_plug_eq c : forall t, leaves (plug t c) = cbefore c ++ leaves t ++ cafter c.
Proof.
  induction c as [|s p b sib c IH]; intros t; cbn [plug cbefore cafter].
  - rewrite app_nil_r. reflexivity.
  - rewrite IH. destruct s; cbn [mk leaves]; rewrite <- ?app_assoc; reflexivity.
Qed.
Lemma full_leaves u : full u -> leaves u <> [].
Proof.
  induction u as [|p b d|p b l IHl r IHr]; cbn [full leaves]; [contradiction|discriminate|].
  intros [FL FR] X. apply app_eq_nil in X. destruct X. apply IHl; assumption.
Qed.
Lemma lptr_sub t q : q ∈ lptr <$> leaves t -> q ∈ ptrs t.
Proof.
  induction t as [|p b d|p b l IHl r IHr]; cbn [leaves ptrs].
  - intros H; inversion H.
  - cbn. auto.
  - rewrite fmap_app. elems. tauto.
Qed.
Lemma leaves_nodup t : NoDup (ptrs t) -> NoDup (lptr <$> leaves t).
Proof.
  induction t as [|p b d|p b l IHl r IHr]; cbn [leaves ptrs]; intros ND.
  - constructor.
  - apply NoDup_singleton.
  - rewrite fmap_app. nodup ND. apply NoDup_app. split; [auto|]. split; [|auto].
    intros x X1 X2. apply lptr_sub in X1, X2. nd_false.
Qed.
Lemma leaves_len t : length (leaves t) <= length (ptrs t).
Proof. induction t; cbn [leaves ptrs length]; rewrite ?app_length; lia. Qed.
Lemma root_not_leaf t r : wf_root t -> NoDup (ptrs t) -> tptr t = Some r -> r ∉ lptr <$> leaves t.
Proof.
  destruct t as [|p b d|p b tl tr]; cbn [wf_root]; [contradiction..|].
  cbn [ptrs tptr leaves]. intros _ ND E X. injection E as ->. nodup ND.
  rewrite fmap_app in X. elems_in X. destruct X as [X|X]; apply lptr_sub in X; contradiction.
Qed.

(** heights *)
Fixpoint queryF (b : box) t : list ptr :=
  match t with
  | Nil => []
  | Leaf p bb _ => if box_overlaps b bb then [p] else []
  | Bin _ bb l r => if box_overlaps b bb then queryF b l ++ queryF b r else []
  end.
Fixpoint upqueryF (b : box) c : list ptr :=
  match c with CTop => [] | CIn _ _ _ sib c => queryF b sib ++ upqueryF b c end.
End FunIter.

Section Iter.
Context {N : Num} {T : Type}.
Notation st := (st T).
Notation M := (@M N T).
Implicit Types (h : gmap ptr node) (p q g : ptr) (t u v : tree) (c : ctx) (d : gmap ptr T) (s : st).

Lemma goLeft_heap u : forall fuel h d r par p,
  full u -> rep h par u -> tptr u = Some p -> depth u <= fuel ->
  @goLeft N T fuel p (St h d r) = Ret (hdp p (leaves u), St h d r).
Proof.
  induction u as [|p b dd|p b tl IHl tr IHr]; intros fuel h d r par p0 F R E HF;
    [destruct F|..]; cbn [tptr] in E; injection E as <-; cbn [rep] in R.
  - destruct fuel; cbn [goLeft]; mstep; change (isLeaf _) with true; reflexivity.
  - destruct R as (Ep & RL & RR). destruct F as [FL FR]. cbn [depth] in HF.
    destruct fuel as [|fuel]; [lia|]. cbn [goLeft]. mstep. change (isLeaf _) with false. cbn iota.
    destruct (full_tptr _ FL) as [pl El]. rewrite El.
    erewrite IHl by (eauto; lia). cbn [leaves].
    pose proof (full_leaves _ FL) as X. destruct (leaves tl); [congruence|reflexivity].
Qed.

Lemma begin_heap fuel h d r t : wf_root t -> rep h None t -> tptr t = Some r -> depth t <= fuel ->
  @goLeft N T fuel r (St h d r) = Ret (hdp r (leaves t), St h d r).
Proof.
  destruct t as [|p b dd|p b tl tr]; cbn [wf_root]; [contradiction..|].
  intros [WL WR] (Ep & RL & RR) E HF. cbn [tptr] in E. injection E as ->. cbn [depth] in HF.
  destruct fuel as [|fuel]; [lia|]. cbn [goLeft]. mstep. change (isLeaf _) with false. cbn iota. cbn [leaves].
  destruct WL as [->|FL].
  - cbn [tptr leaves app]. destruct WR as [->|FR]; [reflexivity|].
    destruct (full_tptr _ FR) as [pr Er]. rewrite Er. erewrite goLeft_heap by (eauto; lia).
    pose proof (full_leaves _ FR) as X. destruct (leaves tr); [congruence|reflexivity].
  - destruct (full_tptr _ FL) as [pl El]. rewrite El. erewrite goLeft_heap by (eauto; lia).
    pose proof (full_leaves _ FL) as X. destruct (leaves tl); [congruence|reflexivity].
Qed.

Lemma croot_some c : forall g, exists x, croot (Some g) c = Some x.
Proof. induction c as [|s p b sib c IH]; intros g; cbn [croot]; eauto. Qed.
Lemma next_heap c : forall fuel h d r u p,
  fits u c -> rep h (cptr c) u -> rep_ctx h (tptr u) c -> tptr u = Some p ->
  NoDup (ptrs u ++ cptrs c) -> length (cptrs c) <= fuel ->
  @next_fuel N T fuel p (St h d r) = Ret (hdp (default p (croot (Some p) c)) (cafter c), St h d r).
Proof.
  induction c as [|s g gb sib c IH]; intros fuel h d r u p FT RU RC Eu ND HF.
  - destruct (rep_lookup _ _ _ _ RU Eu) as (n & Hn & Pn & _). cbn [cptr] in Pn.
    destruct fuel; cbn [next_fuel]; mstep; rewrite Pn; reflexivity.
  - destruct (rep_lookup _ _ _ _ RU Eu) as (n & Hn & Pn & _). cbn [cptr] in Pn.
    cbn [rep_ctx] in RC. destruct RC as (Eg & RS & RC).
    destruct FT as [FC FU]. rewrite cfull_CIn in FC. destruct FC as [FS FC].
    cbn [cptrs] in *. rewrite Eu in Eg.
    assert (NSib : tptr sib <> Some p).
    { intros X. apply tptr_in in X. apply tptr_in in Eu. nodup ND. nd_false. }
    destruct s; cbn [lsl cafter croot] in *.
    + assert (G : forall fuel', depth sib <= fuel' -> 
        (match tptr sib with None => ret g | Some rr => @goLeft N T fuel' rr end) (St h d r) =
        Ret (hdp (default p (croot (Some g) c)) (leaves sib ++ cafter c), St h d r)).
      { intros fuel' HD. destruct (tptr sib) as [ps|] eqn:Es.
        - assert (FSf : full sib).
          { destruct c; cbn in FS; [destruct FS as [->|FS]; [discriminate|exact FS]|exact FS]. }
          erewrite goLeft_heap by eauto. pose proof (full_leaves _ FSf) as X.
          destruct (leaves sib); [congruence|reflexivity].
        - apply tptr_nil in Es. subst sib. destruct c; [reflexivity|destruct FS]. }
      pose proof (depth_le sib) as DL. cbn [length] in HF. rewrite app_length in HF.
      destruct fuel as [|fuel]; [lia|].
      cbn [next_fuel]; mstep; rewrite Pn; mstep. rewrite eqp_refl. apply G. lia.
    + cbn [length] in HF. rewrite app_length in HF. destruct fuel as [|fuel]; [lia|].
      cbn [next_fuel]; mstep; rewrite Pn; mstep. rewrite eqp_ne by exact NSib. rewrite eqp_refl.
      erewrite (IH fuel h d r (Bin g gb sib u)).
      * destruct (croot_some c g) as [x ->]. reflexivity.
      * split; [exact FC|]. destruct c; cbn in FS |- *; [split; [auto|right; auto]|auto].
      * cbn [rep]. rewrite Eu. auto.
      * exact RC.
      * reflexivity.
      * cbn [ptrs]. eapply NoDup_perm; [|exact ND]. solve_Permutation.
      * lia.
Qed.

Lemma RepX_size X s t : RepX X s t -> length (ptrs t) <= size (hp s).
Proof.
  intros [RT RR ND DM WF]. apply size_ge; [apply NoDup_app in ND; tauto|].
  intros q Hq. apply DM. apply elem_of_app. auto.
Qed.

Lemma begin_rep X s t : RepX X s t -> @begin_it N T s = Ret (hdp (root s) (leaves t), s).
Proof.
  intros H. pose proof (RepX_size _ _ _ H) as SZ. destruct H as [RT RR ND DM WF].
  destruct s as [h d r]. unfold begin_it. rewrite (bind_ret _ _ _ (size h) (St h d r)) by reflexivity.
  rewrite (bind_ret _ _ _ r (St h d r)) by reflexivity. cbn [hp root] in *.
  apply begin_heap; auto. pose proof (depth_le t). lia.
Qed.

Lemma next_rep X s t l1 x l2 : RepX X s t -> leaves t = l1 ++ x :: l2 ->
  @next N T (lptr x) s = Ret (hdp (root s) l2, s).
Proof.
  intros H EL. pose proof (RepX_size _ _ _ H) as SZ. destruct H as [RT RR ND DM WF].
  destruct s as [h d r]. cbn [hp root] in *. destruct x as [[p b] dd]. cbn [lptr fst].
  destruct (leaf_ctx t p b dd) as [c Ec].
  { rewrite EL. elems. auto. }
  subst t. assert (FT : fits (Leaf p b dd) c) by (apply unplug_wf; [discriminate|exact WF]).
  apply rep_plug in RT. destruct RT as [RL RC].
  apply NoDup_app in ND. destruct ND as (_ & _ & ND).
  assert (ND' : NoDup (ptrs (Leaf p b dd) ++ cptrs c)).
  { eapply NoDup_perm; [|exact ND]. apply ptrs_plug. }
  unfold next. rewrite (bind_ret _ _ _ (size h) (St h d r)) by reflexivity.
  erewrite next_heap; [..|exact FT|exact RL|exact RC|reflexivity|exact ND'|].
  2:{ rewrite (Permutation_length (ptrs_plug c (Leaf p b dd))), app_length in SZ. lia. }
  rewrite plug_root in RR. cbn [tptr] in RR. rewrite RR. cbn [default].
  f_equal. f_equal. f_equal.
  (* the part after the hole is what follows x *)
  rewrite leaves_plug_eq in EL. cbn [leaves app] in EL.
  pose proof (leaves_nodup _ ND) as NL. rewrite leaves_plug_eq in NL. cbn [leaves app] in NL.
  assert (NB : forall y l, y ∈ l -> lptr y ∈ lptr <$> l) by (intros y l Hy; apply elem_of_list_fmap; eauto).
  revert l1 EL NL. clear -NB. generalize (cbefore c) as B. intros B.
  induction B as [|y B IH]; intros l1 EL NL.
  - destruct l1 as [|y1 l1]; cbn in EL; [injection EL; auto|]. injection EL as E1 EL; subst.
    cbn in NL. apply NoDup_cons in NL. exfalso. apply (proj1 NL). rewrite EL.
    apply (NB (p, b, dd)). elems. auto.
  - destruct l1 as [|y1 l1]; cbn in EL.
    + injection EL as E1 EL; subst. cbn in NL. apply NoDup_cons in NL. exfalso. apply (proj1 NL).
      apply (NB (p, b, dd)). elems. auto.
    + injection EL as E1 EL; subst. apply (IH l1 EL). cbn in NL. apply NoDup_cons in NL. apply NL.
Qed.
Lemma next_end X s t : RepX X s t -> @next N T (root s) s = Ret (root s, s).
Proof.
  intros H. destruct H as [RT RR ND DM WF]. destruct s as [h d r]. cbn [hp root] in *.
  destruct (rep_lookup _ _ _ _ RT RR) as (n & Hn & Pn & _).
  unfold next. rewrite (bind_ret _ _ _ (size h) (St h d r)) by reflexivity.
  destruct (size h); cbn [next_fuel]; mstep; rewrite Pn; reflexivity.
Qed.

Lemma iterate_heap X s t l2 : RepX X s t -> forall l1 fuel, leaves t = l1 ++ l2 -> length l2 <= fuel ->
  @iterate N T fuel (hdp (root s) l2) s = Ret (lptr <$> l2, s).
Proof.
  intros H. induction l2 as [|x l2 IH]; intros l1 fuel EL HF.
  - cbn [hdp]. destruct fuel; cbn [iterate]; rewrite (bind_ret _ _ _ (root s) s) by reflexivity;
      rewrite bool_decide_true by reflexivity; reflexivity.
  - cbn [hdp length] in *. destruct fuel as [|fuel]; [lia|]. cbn [iterate].
    rewrite (bind_ret _ _ _ (root s) s) by reflexivity.
    rewrite bool_decide_false.
    2:{ intros X1. pose proof (RepX_size _ _ _ H). destruct H as [RT RR ND DM WF].
        apply NoDup_app in ND. destruct ND as (_ & _ & ND).
        apply (root_not_leaf _ _ WF ND RR). rewrite <- X1. apply elem_of_list_fmap. exists x.
        split; [reflexivity|]. rewrite EL. elems. auto. }
    rewrite (bind_ret _ _ _ _ _ (next_rep _ _ _ _ _ _ H EL)).
    erewrite bind_ret; [reflexivity|]. apply (IH (l1 ++ [x])); [|lia].
    rewrite EL, <- app_assoc. reflexivity.
Qed.
Lemma iterate_all_rep X s t : RepX X s t -> @iterate_all N T s = Ret (lptr <$> leaves t, s).
Proof.
  intros H. pose proof (RepX_size _ _ _ H) as SZ. pose proof (leaves_len t).
  unfold iterate_all. rewrite (bind_ret _ _ _ (size (hp s)) s) by reflexivity.
  rewrite (bind_ret _ _ _ _ _ (begin_rep _ _ _ H)).
  eapply iterate_heap with (l1 := []); eauto. lia.
Qed.

(** size, height, bounds *)
Lemma size_of_heap t : forall fuel h d r par, rep h par t -> depth t <= fuel ->
  @size_of N T fuel (tptr t) (St h d r) = Ret (length (leaves t), St h d r).
Proof.
  induction t as [|p b dd|p b tl IHl tr IHr]; intros fuel h d r par R HF; cbn [rep depth] in *.
  - destruct fuel; reflexivity.
  - destruct fuel; cbn [size_of tptr]; mstep; change (isLeaf _) with true; reflexivity.
  - destruct R as (Ep & RL & RR). destruct fuel as [|fuel]; [lia|]. cbn [size_of tptr]. mstep.
    change (isLeaf _) with false. cbn iota.
    erewrite bind_ret by (eapply IHl; [exact RL|lia]). erewrite bind_ret by (eapply IHr; [exact RR|lia]).
    cbn [leaves]. rewrite app_length. reflexivity.
Qed.
Lemma size_rep X s t : RepX X s t -> @tree_size N T s = Ret (length (leaves t), s).
Proof.
  intros H. pose proof (RepX_size _ _ _ H) as SZ. pose proof (depth_le t). destruct H as [RT RR ND DM WF].
  destruct s as [h d r]. unfold tree_size. cbn [hp root] in *.
  rewrite (bind_ret _ _ _ (size h) (St h d r)) by reflexivity.
  rewrite (bind_ret _ _ _ r (St h d r)) by reflexivity.
  rewrite <- RR. eapply size_of_heap; [exact RT|lia].
Qed.
Lemma height_of_heap t : forall fuel h d r par, rep h par t -> depth t <= fuel ->
  @height_of N T fuel (tptr t) (St h d r) = Ret (depth t, St h d r).
Proof.
  induction t as [|p b dd|p b tl IHl tr IHr]; intros fuel h d r par R HF; cbn [rep depth] in *.
  - destruct fuel; reflexivity.
  - destruct fuel as [|fuel]; [lia|]. cbn [height_of tptr]. mstep.
    erewrite bind_ret by (destruct fuel; reflexivity). erewrite bind_ret by (destruct fuel; reflexivity). reflexivity.
  - destruct R as (Ep & RL & RR). destruct fuel as [|fuel]; [lia|]. cbn [height_of tptr]. mstep.
    erewrite bind_ret by (eapply IHl; [exact RL|lia]). erewrite bind_ret by (eapply IHr; [exact RR|lia]).
    reflexivity.
Qed.
Lemma height_rep X s t : RepX X s t -> @tree_height N T s = Ret (depth t - 1, s).
Proof.
  intros H. pose proof (RepX_size _ _ _ H) as SZ. pose proof (depth_le t). destruct H as [RT RR ND DM WF].
  destruct s as [h d r]. unfold tree_height. cbn [hp root] in *.
  rewrite (bind_ret _ _ _ (size h) (St h d r)) by reflexivity.
  rewrite (bind_ret _ _ _ r (St h d r)) by reflexivity.
  rewrite <- RR. erewrite bind_ret by (eapply height_of_heap; [exact RT|lia]). reflexivity.
Qed.
Lemma isEmpty_rep X s t : RepX X s t -> @isEmpty N T s = Ret (bool_decide (leaves t = []), s).
Proof.
  intros [RT RR ND DM WF]. destruct s as [h d r]. unfold isEmpty. cbn [hp root] in *.
  rewrite (bind_ret _ _ _ r (St h d r)) by reflexivity.
  destruct t as [| |p b tl tr]; [destruct WF..|]. cbn [tptr] in RR. injection RR as ->.
  destruct RT as (Ep & _). mstep. destruct WF as [WL WR]. cbn [leaves].
  unfold ret. f_equal. f_equal.
  destruct WL as [->|FL].
  - destruct WR as [->|FR]; [reflexivity|]. destruct (full_tptr _ FR) as [pr Er]. rewrite Er.
    rewrite bool_decide_false; [reflexivity|]. cbn. apply full_leaves. exact FR.
  - destruct (full_tptr _ FL) as [pl El]. rewrite El.
    rewrite bool_decide_false; [reflexivity|]. intros X1. apply app_eq_nil in X1. apply (full_leaves _ FL), X1.
Qed.
Lemma tree_bounds_rep X s t : RepX X s t -> @tree_bounds N T s = Ret (tbnd t, s).
Proof.
  intros [RT RR ND DM WF]. destruct s as [h d r]. unfold tree_bounds, bounds_it. cbn [hp root] in *.
  rewrite (bind_ret _ _ _ r (St h d r)) by reflexivity.
  destruct (rep_lookup _ _ _ _ RT RR) as (n & Hn & _ & Bn & _). mstep. rewrite Bn. reflexivity.
Qed.

(** queries *)
Lemma forEachIn_heap b t : forall fuel h d r par, rep h par t -> depth t <= fuel ->
  @forEachIn_node N T fuel b (tptr t) (St h d r) = Ret (queryF b t, St h d r).
Proof.
  induction t as [|p bb dd|p bb tl IHl tr IHr]; intros fuel h d r par R HF; cbn [rep depth] in *.
  - destruct fuel; reflexivity.
  - destruct fuel; cbn [forEachIn_node tptr queryF]; mstep; destruct (box_overlaps b bb); reflexivity.
  - destruct R as (Ep & RL & RR). destruct fuel as [|fuel]; [lia|]. cbn [forEachIn_node tptr queryF]. mstep.
    destruct (box_overlaps b bb); [|reflexivity].
    change (isLeaf _) with false. cbn iota.
    erewrite bind_ret by (eapply IHl; [exact RL|lia]). erewrite bind_ret by (eapply IHr; [exact RR|lia]).
    reflexivity.
Qed.
Lemma forEachIn_rep X s t b : RepX X s t -> @forEachIn N T b s = Ret (queryF b t, s).
Proof.
  intros H. pose proof (RepX_size _ _ _ H) as SZ. pose proof (depth_le t). destruct H as [RT RR ND DM WF].
  destruct s as [h d r]. unfold forEachIn. cbn [hp root] in *.
  rewrite (bind_ret _ _ _ (size h) (St h d r)) by reflexivity.
  rewrite (bind_ret _ _ _ r (St h d r)) by reflexivity.
  rewrite <- RR. eapply forEachIn_heap; [exact RT|lia].
Qed.
Lemma upquery_heap b c : forall fuel h d r u p,
  rep h (cptr c) u -> rep_ctx h (tptr u) c -> tptr u = Some p ->
  NoDup (ptrs u ++ cptrs c) -> length (cptrs c) <= fuel ->
  @forEachOverlapping_loop N T fuel b p (St h d r) = Ret (upqueryF b c, St h d r).
Proof.
  induction c as [|s g gb sib c IH]; intros fuel h d r u p RU RC Eu ND HF;
    destruct (rep_lookup _ _ _ _ RU Eu) as (n & Hn & Pn & _); cbn [cptr] in Pn.
  - destruct fuel; cbn [forEachOverlapping_loop]; mstep; rewrite Pn; reflexivity.
  - cbn [rep_ctx] in RC. destruct RC as (Eg & RS & RC). cbn [cptrs] in *. rewrite Eu in Eg.
    assert (NSib : tptr sib <> Some p).
    { intros X. apply tptr_in in X. apply tptr_in in Eu. nodup ND. nd_false. }
    cbn [length] in HF. rewrite app_length in HF. pose proof (depth_le sib).
    destruct fuel as [|fuel]; [lia|]. cbn [forEachOverlapping_loop]; mstep; rewrite Pn.
    erewrite bind_ret by (eapply run_sibling; [exact Hn|exact Pn|exact Eg|exact NSib]).
    assert (Q : (match tptr sib with Some _ => @forEachIn_node N T (S fuel) b (tptr sib) | None => ret [] end)
       (St h d r) = Ret (queryF b sib, St h d r)).
    { destruct (tptr sib) as [ps|] eqn:Es.
      - rewrite <- Es. eapply forEachIn_heap; [exact RS|lia].
      - apply tptr_nil in Es. subst. reflexivity. }
    rewrite (bind_ret _ _ _ _ _ Q).
    erewrite bind_ret; [reflexivity|].
    apply (IH fuel h d r (mk s g gb u sib)).
    + apply rep_mk. rewrite Eu. auto.
    + rewrite tptr_mk. exact RC.
    + apply tptr_mk.
    + rewrite ptrs_mk. eapply NoDup_perm; [|exact ND]. solve_Permutation.
    + lia.
Qed.
Lemma forEachOverlapping_rep X s t p b dd c : RepX X s t -> t = plug (Leaf p b dd) c ->
  @forEachOverlapping N T p s = Ret (upqueryF b c, s).
Proof.
  intros H ->. pose proof (RepX_size _ _ _ H) as SZ. destruct H as [RT RR ND DM WF].
  destruct s as [h d r]. cbn [hp root] in *.
  apply rep_plug in RT. destruct RT as [RL RC].
  apply NoDup_app in ND. destruct ND as (_ & _ & ND).
  assert (ND' : NoDup (ptrs (Leaf p b dd) ++ cptrs c)).
  { eapply NoDup_perm; [|exact ND]. apply ptrs_plug. }
  rewrite (Permutation_length (ptrs_plug c (Leaf p b dd))), app_length in SZ.
  unfold forEachOverlapping. rewrite (bind_ret _ _ _ (size h) (St h d r)) by reflexivity.
  pose proof RL as Ep. cbn [rep] in Ep. mstep.
  eapply upquery_heap; [exact RL|exact RC|reflexivity|exact ND'|lia].
Qed.
End Iter.
