(** The height reported by an R-tree. *)
From stdpp Require Import base option list gmap fin_maps.
From Verif Require Import Num Outcome Algo Box BoxFacts RTree RTreeFun RTreeHeap RTreeEdit RTreeIter RTreeSpec RTreeHist RTreeThm.

Section Height.
Context {N : Num} {T : Type}.
Notation st := (st T).
Implicit Types (s : st) (h : gmap ptr node) (p q : ptr) (t : tree) (B : bag T).

(** [links h k p q]: [q] is reached from [p] by [k] child links *)
Inductive links h : nat -> ptr -> ptr -> Prop :=
| links_O p : links h 0 p p
| links_S k p n q r : h !! p = Some n -> child n q -> links h k q r -> links h (S k) p r.

Lemma links_depth h t : forall k par p q, rep h par t -> tptr t = Some p -> links h k p q -> k < depth t.
Proof.
  induction t as [|p b d|p b l IHl r IHr]; intros k par p0 q R E L; [discriminate|..]; cbn in E; injection E as <-; cbn [depth].
  - destruct L as [|k p n q r' Hp Hc L]; [lia|]. cbn in R. rewrite R in Hp. injection Hp as <-. destruct Hc; discriminate.
  - destruct L as [|k p n q r' Hp Hc L]; [lia|]. cbn [rep] in R. destruct R as (Rp & RL & RR). rewrite Rp in Hp. injection Hp as <-.
    destruct Hc as [Hc|Hc]; cbn in Hc.
    + specialize (IHl _ _ _ _ RL Hc L). lia.
    + specialize (IHr _ _ _ _ RR Hc L). lia.
Qed.
Lemma full_deep t : full t -> forall h par p, rep h par t -> tptr t = Some p ->
  exists q, q ∈ lptr <$> leaves t /\ links h (depth t - 1) p q.
Proof.
  induction t as [|p b d|p b l IHl r IHr]; intros F h par p0 R E; [destruct F|..]; cbn in E; injection E as <-.
  - exists p. split; [cbn; left|constructor].
  - destruct F as [FL FR]. cbn [rep] in R. destruct R as (Rp & RL & RR). cbn [depth leaves].
    assert (NL : exists q, tptr l = Some q /\ depth l <> 0) by (destruct l; [destruct FL|..]; cbn; eauto).
    assert (NR : exists q, tptr r = Some q /\ depth r <> 0) by (destruct r; [destruct FR|..]; cbn; eauto).
    destruct NL as (ql & El & DL), NR as (qr & Er & DR). rewrite fmap_app.
    destruct (Nat.le_ge_cases (depth l) (depth r)) as [X|X].
    + destruct (IHr FR _ _ _ RR Er) as (q & Hq & LK). exists q. split; [apply elem_of_app; auto|].
      replace (S (max (depth l) (depth r)) - 1) with (S (depth r - 1)) by lia. econstructor; [exact Rp|right; exact Er|exact LK].
    + destruct (IHl FL _ _ _ RL El) as (q & Hq & LK). exists q. split; [apply elem_of_app; auto|].
      replace (S (max (depth l) (depth r)) - 1) with (S (depth l - 1)) by lia. econstructor; [exact Rp|left; exact El|exact LK].
Qed.
Lemma full_count t : full t -> depth t <= length (leaves t) <= 2 ^ (depth t - 1) /\ 1 <= depth t.
Proof.
  induction t as [|p b d|p b l IHl r IHr]; intros F; [destruct F|cbn; lia|]. destruct F as [FL FR].
  specialize (IHl FL). specialize (IHr FR). cbn [depth leaves]. rewrite app_length.
  replace (S (max (depth l) (depth r)) - 1) with (S (max (depth l - 1) (depth r - 1))) by lia. cbn [Nat.pow].
  assert (2 ^ (depth l - 1) <= 2 ^ max (depth l - 1) (depth r - 1)) by (apply Nat.pow_le_mono_r; lia).
  assert (2 ^ (depth r - 1) <= 2 ^ max (depth l - 1) (depth r - 1)) by (apply Nat.pow_le_mono_r; lia).
  lia.
Qed.
Lemma nof_count t : nil_or_full t -> depth t <= length (leaves t) /\ 2 * length (leaves t) <= 2 ^ (depth t).
Proof.
  intros [->|F]; [cbn; lia|]. destruct (full_count _ F) as [X Y].
  assert (E : 2 ^ depth t = 2 * 2 ^ (depth t - 1)) by (rewrite <- Nat.pow_succ_r'; f_equal; lia). lia.
Qed.

Lemma height_spec C s B : reach C s B ->
  exists n, tree_height s = Ret (n, s) /\
    (forall k q, links (hp s) k (root s) q -> k <= n) /\
    (B <> ∅ -> exists q, is_Some (B !! q) /\ links (hp s) n (root s) q) /\
    n <= size B <= 2 ^ n.
Proof.
  intros H. destruct (dom_perm _ _ _ H) as (t & [HR HB HG] & PM). destruct HR as [HX HR'].
  assert (L : length (leaves t) = size B).
  { rewrite <- (fmap_length lptr), PM. rewrite <- size_dom. reflexivity. }
  exists (depth t - 1). split; [exact (height_rep _ _ _ HX)|].
  destruct HX as [RT RR ND DM WF]. split; [|split].
  - intros k q LK. pose proof (links_depth _ _ _ _ _ _ RT RR LK). lia.
  - intros NE. destruct t as [| |p b l r]; [destruct WF..|]. cbn in RR. injection RR as RR. rewrite <- RR.
    destruct WF as [WL WR]. cbn [rep] in RT. destruct RT as (Rp & RL & RRt).
    assert (G : exists q, q ∈ lptr <$> leaves (Bin p b l r) /\ links (hp s) (depth (Bin p b l r) - 1) p q).
    { cbn [depth leaves]. rewrite fmap_app. replace (S (max (depth l) (depth r)) - 1) with (max (depth l) (depth r)) by lia.
      assert (NN : l <> Nil \/ r <> Nil).
      { destruct l; [|left; discriminate..]. destruct r; [|right; discriminate..]. exfalso. apply NE.
        apply map_size_empty_inv. rewrite <- L. reflexivity. }
      assert (DL : nil_or_full l -> l <> Nil -> exists q, q ∈ lptr <$> leaves l /\ links (hp s) (depth l) p q).
      { intros [->|F] X; [congruence|]. assert (EL : exists ql, tptr l = Some ql) by (destruct l; [destruct F|..]; cbn; eauto).
        destruct EL as [ql EL]. destruct (full_deep _ F _ _ _ RL EL) as (q & Hq & LK). exists q. split; [exact Hq|].
        pose proof (full_count _ F). replace (depth l) with (S (depth l - 1)) by lia. econstructor; [exact Rp|left; exact EL|exact LK]. }
      assert (DR : nil_or_full r -> r <> Nil -> exists q, q ∈ lptr <$> leaves r /\ links (hp s) (depth r) p q).
      { intros [->|F] X; [congruence|]. assert (EL : exists ql, tptr r = Some ql) by (destruct r; [destruct F|..]; cbn; eauto).
        destruct EL as [ql EL]. destruct (full_deep _ F _ _ _ RRt EL) as (q & Hq & LK). exists q. split; [exact Hq|].
        pose proof (full_count _ F). replace (depth r) with (S (depth r - 1)) by lia. econstructor; [exact Rp|right; exact EL|exact LK]. }
      assert (Z : forall u : tree, u = Nil \/ u <> Nil) by (intros []; [left|right..]; congruence).
      destruct (Nat.le_gt_cases (depth l) (depth r)) as [X|X].
      - assert (NR : r <> Nil) by (intros ->; destruct NN as [NN|NN]; [destruct l; cbn in X; try lia|]; congruence).
        destruct (DR WR NR) as (q & Hq & LK). exists q. split; [apply elem_of_app; auto|]. rewrite Nat.max_r by lia. exact LK.
      - assert (NL : l <> Nil) by (intros ->; cbn in X; lia).
        destruct (DL WL NL) as (q & Hq & LK). exists q. split; [apply elem_of_app; auto|]. rewrite Nat.max_l by lia. exact LK. }
    destruct G as (q & Hq & LK). exists q. split; [|exact LK].
    rewrite PM in Hq. apply elem_of_elements in Hq. apply elem_of_dom in Hq. exact Hq.
  - rewrite <- L. destruct t as [| |p b l r]; [destruct WF..|]. destruct WF as [WL WR].
    apply nof_count in WL, WR. cbn [depth leaves]. rewrite app_length.
    replace (S (max (depth l) (depth r)) - 1) with (max (depth l) (depth r)) by lia.
    assert (2 ^ depth l <= 2 ^ max (depth l) (depth r)) by (apply Nat.pow_le_mono_r; lia).
    assert (2 ^ depth r <= 2 ^ max (depth l) (depth r)) by (apply Nat.pow_le_mono_r; lia). lia.
Qed.
End Height.

(** sixteen equal boxes make a chain: the height is not logarithmic *)
From Verif Require Import RTreeExamples.
Definition same_boxes (n : nat) : list (@box F32 * Z) := replicate n (@Box F32 (@V2 F32 (fofZ 0) (fofZ 0)) (@V2 F32 (fofZ 4) (fofZ 4)), 0%Z).
Lemma height_linear : exists (s : @st F32 Z) (B : gmap ptr (@box F32 * Z)) h,
  reach (fun b => okbox fok b) s B /\ tree_height s = Ret (h, s) /\ size B = 16 /\ h = 15 /\ ~ h <= 2 * Nat.log2 (size B) + 2.
Proof.
  assert (H : match build_all (same_boxes 16) with
              | Some (s, B) => match tree_height s with Ret (h, _) => bool_decide (h = 15 /\ size B = 16) | _ => false end
              | None => false end = true) by (vm_compute; reflexivity).
  destruct (build_all (same_boxes 16)) as [[s B]|] eqn:HB; [|discriminate H].
  assert (RC : reach (fun b => okbox fok b) s B).
  { eapply build_reach; [exact HB|]. intros b v X. apply elem_of_replicate in X. destruct X as [X _]. injection X as -> ->. repeat split; vm_compute; reflexivity. }
  destruct (height_spec _ _ _ RC) as (n & E & _). rewrite E in H. apply bool_decide_eq_true in H. destruct H as [-> SB].
  exists s, B, 15. rewrite SB. repeat split; auto. vm_compute. lia.
Qed.
Lemma ex_height : match tree_height ex_s with Ret (n, _) => Nat.eqb n 3 | _ => false end = true.
Proof. vm_compute. reflexivity. Qed.
