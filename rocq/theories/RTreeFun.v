(** Inductive view of an R-tree and the effect of the RTree operations on it.
    This layer is used in proofs only: [RTreeHeap.v] shows that the pointer
    code of [RTree.v] computes these functions. *)
From stdpp Require Import base option list gmap fin_maps sorting.
From Verif Require Import Num Outcome Algo Box BoxFacts RTree.

Section Fun.
Context {N : Num}.

Inductive tree :=
| Nil
| Leaf (p : ptr) (b : box) (d : ptr)
| Bin (p : ptr) (b : box) (l r : tree).

Definition tptr (t : tree) : option ptr :=
  match t with Nil => None | Leaf p _ _ => Some p | Bin p _ _ _ => Some p end.
Definition tbnd (t : tree) : box :=
  match t with Nil => invalid_box | Leaf _ b _ => b | Bin _ b _ _ => b end.
Fixpoint ptrs (t : tree) : list ptr :=
  match t with Nil => [] | Leaf p _ _ => [p] | Bin p _ l r => p :: ptrs l ++ ptrs r end.
(** the elements, in iteration order *)
Fixpoint leaves (t : tree) : list (ptr * box * ptr) :=
  match t with Nil => [] | Leaf p b d => [(p, b, d)] | Bin _ _ l r => leaves l ++ leaves r end.
Fixpoint full (t : tree) : Prop :=
  match t with Nil => False | Leaf _ _ _ => True | Bin _ _ l r => full l /\ full r end.
(** The shape of a whole tree: the root is not a leaf and may miss children;
    all other internal nodes have two. *)
Definition nil_or_full (t : tree) : Prop := t = Nil \/ full t.
Definition wf_root (t : tree) : Prop :=
  match t with Bin _ _ l r => nil_or_full l /\ nil_or_full r | _ => False end.

(** ** Contexts: a tree with a hole *)
Inductive ctx :=
| CTop
| CIn (s : side) (p : ptr) (b : box) (sib : tree) (c : ctx).

Definition mk (s : side) (p : ptr) (b : box) (t sib : tree) : tree :=
  match s with L => Bin p b t sib | R => Bin p b sib t end.
Fixpoint plug (t : tree) (c : ctx) : tree :=
  match c with CTop => t | CIn s p b sib c => plug (mk s p b t sib) c end.
Definition cptr (c : ctx) : option ptr :=
  match c with CTop => None | CIn _ p _ _ _ => Some p end.
Fixpoint cptrs (c : ctx) : list ptr :=
  match c with CTop => [] | CIn _ p _ sib c => p :: ptrs sib ++ cptrs c end.
Fixpoint clen (c : ctx) : nat :=
  match c with CTop => 0 | CIn _ _ _ _ c => S (clen c) end.
(** leaves before and after the hole *)
Fixpoint cleaves (c : ctx) : list (ptr * box * ptr) :=
  match c with CTop => [] | CIn _ _ _ sib c => leaves sib ++ cleaves c end.
(** every frame but the outermost has a full sibling *)
Fixpoint cfull (c : ctx) : Prop :=
  match c with
  | CTop => True
  | CIn _ _ _ sib CTop => nil_or_full sib
  | CIn _ _ _ sib c => full sib /\ cfull c
  end.

Lemma ptrs_mk s p b t sib : ptrs (mk s p b t sib) ≡ₚ p :: ptrs t ++ ptrs sib.
Proof. destruct s; cbn; [reflexivity|]. rewrite (Permutation_app_comm (ptrs sib)). reflexivity. Qed.
Lemma leaves_mk s p b t sib : leaves (mk s p b t sib) ≡ₚ leaves t ++ leaves sib.
Proof. destruct s; cbn; [reflexivity|]. apply Permutation_app_comm. Qed.
Lemma ptrs_plug c : forall t, ptrs (plug t c) ≡ₚ ptrs t ++ cptrs c.
Proof.
  induction c as [|s p b sib c IH]; intros t; cbn [plug cptrs].
  - rewrite app_nil_r. reflexivity.
  - rewrite IH, ptrs_mk. cbn. rewrite <- Permutation_middle. rewrite <- app_assoc. reflexivity.
Qed.
Lemma leaves_plug c : forall t, leaves (plug t c) ≡ₚ leaves t ++ cleaves c.
Proof.
  induction c as [|s p b sib c IH]; intros t; cbn [plug cleaves].
  - rewrite app_nil_r. reflexivity.
  - rewrite IH, leaves_mk, <- app_assoc. reflexivity.
Qed.

(** ** Rotations *)
(** checkRotation with [u] above and the child on side [sl] of [v] below;
    returns the new occupants of the two places. *)
Definition rotate (sl : side) (u v : tree) : tree * tree :=
  match u, v with
  | Nil, _ => (u, v)
  | _, Bin vp vb a b =>
      let x := match sl with L => a | R => b end in
      let y := match sl with L => b | R => a end in
      let nb := box_combined (tbnd y) (tbnd u) in
      if kltb (box_area nb) (box_area vb) then (x, mk sl vp nb u y) else (u, v)
  | _, _ => (u, v)
  end.
Definition rots (l r : tree) : tree * tree :=
  let lr1 := rotate L l r in
  let lr2 := rotate R lr1.1 lr1.2 in
  let rl3 := rotate L lr2.2 lr2.1 in
  let rl4 := rotate R rl3.1 rl3.2 in
  (rl4.2, rl4.1).

(** refit of the node [p] in context [c] *)
Fixpoint refitN (p : ptr) (b : box) (l r : tree) (c : ctx) : tree :=
  let nb := box_combined (tbnd l) (tbnd r) in
  if box_eqb nb b then plug (Bin p b l r) c
  else
    let lr := rots l r in
    match c with
    | CTop => Bin p nb lr.1 lr.2
    | CIn s q bq sib c =>
        let t := Bin p nb lr.1 lr.2 in
        match s with L => refitN q bq t sib c | R => refitN q bq sib t c end
    end.
(** refit of the parent of the hole *)
Definition refitF (t : tree) (c : ctx) : tree :=
  match c with
  | CTop => t
  | CIn L q bq sib c => refitN q bq t sib c
  | CIn R q bq sib c => refitN q bq sib t c
  end.

Lemma refitN_eq p b l r c : refitN p b l r c =
  let nb := box_combined (tbnd l) (tbnd r) in
  if box_eqb nb b then plug (Bin p b l r) c
  else refitF (Bin p nb (rots l r).1 (rots l r).2) c.
Proof. destruct c as [|[] q bq sib c]; reflexivity. Qed.

(** addLeafTo *)
Definition addLeafF (np : ptr) (t leaf : tree) (c : ctx) : tree :=
  match t with
  | Nil => Nil
  | Leaf q bq _ => refitF (Bin np (box_combined bq (tbnd leaf)) t leaf) c
  | Bin q bq Nil r => refitN q bq leaf r c
  | Bin q bq l Nil => refitN q bq l leaf c
  | Bin q bq l r => refitN q bq (Bin np bq l r) leaf c
  end.

(** extract of the leaf in the hole of the context *)
Definition extractF (c : ctx) : tree :=
  match c with
  | CTop => Nil
  | CIn s g gb sib CTop =>
      match sib with
      | Bin _ _ sl sr => match s with L => refitN g gb sl sr CTop | R => refitN g gb sr sl CTop end
      | _ => match s with L => refitN g gb Nil sib CTop | R => refitN g gb sib Nil CTop end
      end
  | CIn _ _ _ sib c => refitF sib c
  end.

(** ** Facts *)
Lemma rotate_ptrs sl u v : let uv := rotate sl u v in
  ptrs uv.1 ++ ptrs uv.2 ≡ₚ ptrs u ++ ptrs v.
Proof.
  unfold rotate. destruct u as [|pu bu du|pu bu lu ru]; [reflexivity|..];
    (destruct v as [|pv bv dv|pv bv a b]; [reflexivity|reflexivity|]);
    destruct (kltb _ _); [|reflexivity| |reflexivity];
    (cbn [fst snd]; rewrite ptrs_mk; destruct sl; cbn [ptrs]; solve_Permutation).
Qed.
Lemma rotate_leaves sl u v : let uv := rotate sl u v in
  leaves uv.1 ++ leaves uv.2 ≡ₚ leaves u ++ leaves v.
Proof.
  unfold rotate. destruct u as [|pu bu du|pu bu lu ru]; [reflexivity|..];
    (destruct v as [|pv bv dv|pv bv a b]; [reflexivity|reflexivity|]);
    destruct (kltb _ _); [|reflexivity| |reflexivity];
    (cbn [fst snd]; rewrite leaves_mk; destruct sl; cbn [leaves]; solve_Permutation).
Qed.
Lemma full_mk s p b t sib : full (mk s p b t sib) <-> full t /\ full sib.
Proof. destruct s; cbn; tauto. Qed.
Lemma rotate_full sl u v : full u -> full v ->
  full (rotate sl u v).1 /\ full (rotate sl u v).2.
Proof.
  unfold rotate. destruct u as [|pu bu du|pu bu lu ru]; [contradiction|..];
    (destruct v as [|pv bv dv|pv bv a b]; [contradiction|auto|]);
    intros FU [FA FB]; (destruct (kltb _ _); [|split; cbn; auto]);
    (cbn [fst snd]; rewrite full_mk; destruct sl; auto).
Qed.
Lemma rotate_nil sl u v : rotate sl Nil v = (Nil, v) /\ rotate sl u Nil = (u, Nil).
Proof. split; [reflexivity|]. destruct u; reflexivity. Qed.

Lemma rots_ptrs l r : ptrs (rots l r).1 ++ ptrs (rots l r).2 ≡ₚ ptrs l ++ ptrs r.
Proof.
  unfold rots. cbn [fst snd].
  set (a := rotate L l r). set (b := rotate R a.1 a.2).
  set (c := rotate L b.2 b.1).
  pose proof (rotate_ptrs R c.1 c.2) as H4. pose proof (rotate_ptrs L b.2 b.1) as H3.
  pose proof (rotate_ptrs R a.1 a.2) as H2. pose proof (rotate_ptrs L l r) as H1.
  cbn zeta in *. fold c in H3. fold b in H2. fold a in H1.
  rewrite Permutation_app_comm, H4, H3, Permutation_app_comm, H2, H1. reflexivity.
Qed.
Lemma rots_leaves l r : leaves (rots l r).1 ++ leaves (rots l r).2 ≡ₚ leaves l ++ leaves r.
Proof.
  unfold rots. cbn [fst snd].
  set (a := rotate L l r). set (b := rotate R a.1 a.2).
  set (c := rotate L b.2 b.1).
  pose proof (rotate_leaves R c.1 c.2) as H4. pose proof (rotate_leaves L b.2 b.1) as H3.
  pose proof (rotate_leaves R a.1 a.2) as H2. pose proof (rotate_leaves L l r) as H1.
  cbn zeta in *. fold c in H3. fold b in H2. fold a in H1.
  rewrite Permutation_app_comm, H4, H3, Permutation_app_comm, H2, H1. reflexivity.
Qed.
Lemma rots_full l r : full l -> full r -> full (rots l r).1 /\ full (rots l r).2.
Proof.
  intros FL FR. unfold rots. cbn [fst snd].
  destruct (rotate_full L l r) as [A1 A2]; auto.
  destruct (rotate_full R (rotate L l r).1 (rotate L l r).2) as [B1 B2]; auto.
  set (b := rotate R (rotate L l r).1 (rotate L l r).2) in *.
  destruct (rotate_full L b.2 b.1) as [C1 C2]; auto.
  destruct (rotate_full R (rotate L b.2 b.1).1 (rotate L b.2 b.1).2) as [D1 D2]; auto.
Qed.
Lemma rots_nil l r : l = Nil \/ r = Nil -> rots l r = (l, r).
Proof.
  unfold rots. intros [->| ->].
  - rewrite (proj1 (rotate_nil L Nil r)). cbn [fst snd].
    rewrite (proj1 (rotate_nil R Nil r)). cbn [fst snd].
    rewrite (proj2 (rotate_nil L r Nil)). cbn [fst snd].
    rewrite (proj2 (rotate_nil R r Nil)). reflexivity.
  - rewrite (proj2 (rotate_nil L l Nil)). cbn [fst snd].
    rewrite (proj2 (rotate_nil R l Nil)). cbn [fst snd].
    rewrite (proj1 (rotate_nil L l l)). cbn [fst snd].
    rewrite (proj1 (rotate_nil R l l)). reflexivity.
Qed.
Lemma rots_nil_or_full l r : nil_or_full l -> nil_or_full r ->
  nil_or_full (rots l r).1 /\ nil_or_full (rots l r).2.
Proof.
  intros [->|FL] HR; [rewrite rots_nil by auto; split; auto; left; reflexivity|].
  destruct HR as [->|FR]; [rewrite rots_nil by auto; split; [right; auto|left; reflexivity]|].
  destruct (rots_full l r FL FR). split; right; auto.
Qed.

Lemma refitN_ptrs c : forall p b l r,
  ptrs (refitN p b l r c) ≡ₚ ptrs (Bin p b l r) ++ cptrs c.
Proof.
  induction c as [|s q bq sib c IH]; intros p b l r; rewrite refitN_eq; cbn zeta;
    destruct (box_eqb _ b).
  - rewrite ptrs_plug. reflexivity.
  - cbn [refitF ptrs cptrs]. rewrite rots_ptrs, app_nil_r. reflexivity.
  - rewrite ptrs_plug. reflexivity.
  - destruct s; cbn [refitF]; rewrite IH; cbn [ptrs cptrs]; rewrite rots_ptrs; solve_Permutation.
Qed.
Lemma refitN_leaves c : forall p b l r,
  leaves (refitN p b l r c) ≡ₚ leaves l ++ leaves r ++ cleaves c.
Proof.
  induction c as [|s q bq sib c IH]; intros p b l r; rewrite refitN_eq; cbn zeta;
    destruct (box_eqb _ b).
  - rewrite leaves_plug. cbn. rewrite <- app_assoc. reflexivity.
  - cbn [refitF leaves cleaves]. rewrite rots_leaves, app_nil_r. reflexivity.
  - rewrite leaves_plug. cbn. rewrite <- !app_assoc. reflexivity.
  - destruct s; cbn [refitF]; rewrite IH; cbn [leaves cleaves]; rewrite rots_leaves; solve_Permutation.
Qed.
Lemma refitF_ptrs t c : ptrs (refitF t c) ≡ₚ ptrs t ++ cptrs c.
Proof.
  destruct c as [|[] q bq sib c]; cbn [refitF].
  - cbn. rewrite app_nil_r. reflexivity.
  - rewrite refitN_ptrs. cbn [ptrs cptrs]. solve_Permutation.
  - rewrite refitN_ptrs. cbn [ptrs cptrs]. solve_Permutation.
Qed.
Lemma refitF_leaves t c : leaves (refitF t c) ≡ₚ leaves t ++ cleaves c.
Proof.
  destruct c as [|[] q bq sib c]; cbn [refitF].
  - cbn. rewrite app_nil_r. reflexivity.
  - rewrite refitN_leaves. cbn [cleaves]. reflexivity.
  - rewrite refitN_leaves. cbn [cleaves]. solve_Permutation.
Qed.

(** shape *)
Definition is_top (c : ctx) : bool := match c with CTop => true | _ => false end.
(** [t] may stand in the hole of [c]: anything root-shaped at the top, a full
    tree below it. *)
Definition fits (t : tree) (c : ctx) : Prop :=
  cfull c /\ match c with CTop => wf_root t | _ => full t end.
Definition cfull_in (sib : tree) (c : ctx) : Prop :=
  match c with CTop => nil_or_full sib | _ => full sib end.
Lemma cfull_CIn s p b sib c : cfull (CIn s p b sib c) <-> cfull_in sib c /\ cfull c.
Proof. destruct c; cbn; tauto. Qed.
Lemma full_nof t : full t -> nil_or_full t.
Proof. right; assumption. Qed.

Lemma plug_wf c : forall t, fits t c -> wf_root (plug t c).
Proof.
  induction c as [|s p b sib c IH]; intros t [FC FT]; [exact FT|].
  cbn [plug]. apply IH. rewrite cfull_CIn in FC. destruct FC as [FS FC].
  split; [exact FC|]. destruct c; cbn in FS.
  - destruct s; cbn; split; auto using full_nof.
  - apply full_mk. auto.
Qed.
Definition kids_fit (l r : tree) (c : ctx) : Prop :=
  match c with CTop => nil_or_full l /\ nil_or_full r | _ => full l /\ full r end.
Lemma fits_Bin p b l r c : fits (Bin p b l r) c <-> cfull c /\ kids_fit l r c.
Proof. destruct c; reflexivity. Qed.

Lemma refitN_wf c : forall p b l r, cfull c -> kids_fit l r c -> wf_root (refitN p b l r c).
Proof.
  induction c as [|s q bq sib c IH]; intros p b l r FC FK; rewrite refitN_eq; cbn zeta;
    destruct (box_eqb _ b).
  - exact FK.
  - cbn [refitF wf_root]. apply rots_nil_or_full; apply FK.
  - apply plug_wf. apply fits_Bin. auto.
  - rewrite cfull_CIn in FC. destruct FC as [FS FC].
    assert (FT : full (Bin p (box_combined (tbnd l) (tbnd r)) (rots l r).1 (rots l r).2)).
    { cbn [full]. apply rots_full; apply FK. }
    destruct s; cbn [refitF]; apply IH; auto; destruct c; cbn in *; auto using full_nof.
Qed.
Lemma refitF_wf t c : c <> CTop -> cfull c -> full t -> wf_root (refitF t c).
Proof.
  destruct c as [|s q bq sib c]; [congruence|]. intros _ FC FT.
  rewrite cfull_CIn in FC. destruct FC as [FS FC].
  destruct s; cbn [refitF]; apply refitN_wf; auto; destruct c; cbn in *; auto using full_nof.
Qed.

(** the pointer of the outermost node never changes *)
Fixpoint croot (p : option ptr) (c : ctx) : option ptr :=
  match c with CTop => p | CIn _ q _ _ c => croot (Some q) c end.
Lemma plug_root c : forall t, tptr (plug t c) = croot (tptr t) c.
Proof.
  induction c as [|s p b sib c IH]; intros t; cbn [plug croot]; [reflexivity|].
  rewrite IH. destruct s; reflexivity.
Qed.
Lemma refitN_root c : forall p b l r, tptr (refitN p b l r c) = croot (Some p) c.
Proof.
  induction c as [|s q bq sib c IH]; intros p b l r; rewrite refitN_eq; cbn zeta;
    (destruct (box_eqb _ b); [rewrite plug_root; reflexivity|]); [reflexivity|].
  destruct s; cbn [refitF croot]; apply IH.
Qed.
Lemma refitF_root t c : tptr (refitF t c) = croot (tptr t) c.
Proof. destruct c as [|[] q bq sib c]; cbn [refitF croot]; [reflexivity|apply refitN_root..]. Qed.

(** every subtree occurrence has a context *)
Lemma find_ctx_gen t : forall q c0, q ∈ ptrs t -> exists u c, plug t c0 = plug u c /\ tptr u = Some q.
Proof.
  induction t as [|p b d|p b l IHl r IHr]; intros q c0 Hq; cbn [ptrs] in Hq.
  - inversion Hq.
  - apply elem_of_list_singleton in Hq. subst q. exists (Leaf p b d), c0. auto.
  - apply elem_of_cons in Hq. destruct Hq as [->|Hq]; [exists (Bin p b l r), c0; auto|].
    apply elem_of_app in Hq. destruct Hq as [Hq|Hq].
    + destruct (IHl q (CIn L p b r c0) Hq) as (u & c & E & Eu). exists u, c. auto.
    + destruct (IHr q (CIn R p b l c0) Hq) as (u & c & E & Eu). exists u, c. auto.
Qed.
Lemma find_ctx t q : q ∈ ptrs t -> exists u c, t = plug u c /\ tptr u = Some q.
Proof. intros H. destruct (find_ctx_gen t q CTop H) as (u & c & E & Eu). exists u, c. auto. Qed.
(** a plugged tree that is well formed has a well formed context and a fitting
    focus *)
Lemma unplug_wf c : forall t, t <> Nil -> wf_root (plug t c) -> fits t c.
Proof.
  induction c as [|s p b sib c IH]; intros t NN W; [split; [exact I|exact W]|].
  cbn [plug] in W. apply IH in W; [|destruct s; discriminate].
  destruct W as [FC FT].
  assert (X : cfull_in sib c /\ full t).
  { destruct c; cbn.
    - destruct s; cbn in FT; destruct FT as [F1 F2]; split; auto.
      + destruct F1; [contradiction|assumption].
      + destruct F2; [contradiction|assumption].
    - apply full_mk in FT. tauto. }
  destruct X. split; [|assumption]. apply cfull_CIn. auto.
Qed.
End Fun.
