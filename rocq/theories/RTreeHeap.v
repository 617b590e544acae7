(** The pointer code of [RTree.v] computes the functions of [RTreeFun.v]. *)
From stdpp Require Import base option list gmap fin_maps sorting.
From Verif Require Import Num Outcome Algo Box BoxFacts RTree RTreeFun.

Section Heap.
Context {N : Num} {T : Type}.
Notation st := (st T).
Notation M := (@M N T).
Implicit Types (h : gmap ptr node) (p q g : ptr) (t u v : tree) (c : ctx).

(** ** Representation *)
Fixpoint rep h (par : option ptr) t : Prop :=
  match t with
  | Nil => True
  | Leaf p b d => h !! p = Some (Nd par None None b (Some d))
  | Bin p b l r =>
      h !! p = Some (Nd par (tptr l) (tptr r) b None) /\ rep h (Some p) l /\ rep h (Some p) r
  end.
Definition lsl {A} (s : side) (x y : A) : A := match s with L => x | R => y end.
Fixpoint rep_ctx h (f : option ptr) c : Prop :=
  match c with
  | CTop => True
  | CIn s p b sib c =>
      h !! p = Some (Nd (cptr c) (lsl s f (tptr sib)) (lsl s (tptr sib) f) b None) /\
      rep h (Some p) sib /\ rep_ctx h (Some p) c
  end.

Lemma rep_mk h par s p b t sib : rep h par (mk s p b t sib) <->
  h !! p = Some (Nd par (lsl s (tptr t) (tptr sib)) (lsl s (tptr sib) (tptr t)) b None) /\
  rep h (Some p) t /\ rep h (Some p) sib.
Proof. destruct s; cbn; tauto. Qed.
Lemma tptr_mk s p b t sib : tptr (mk s p b t sib) = Some p.
Proof. destruct s; reflexivity. Qed.

Lemma rep_plug h c : forall t, rep h None (plug t c) <-> rep h (cptr c) t /\ rep_ctx h (tptr t) c.
Proof.
  induction c as [|s p b sib c IH]; intros t; cbn [plug rep_ctx cptr].
  - tauto.
  - rewrite IH, rep_mk, tptr_mk. tauto.
Qed.

Lemma rep_frame h h' par t : (forall q, q ∈ ptrs t -> h' !! q = h !! q) ->
  rep h par t -> rep h' par t.
Proof.
  revert par. induction t as [|p b d|p b l IHl r IHr]; intros par F R; cbn [rep] in *; auto.
  - rewrite F; [exact R|]. cbn. left.
  - destruct R as (R1 & R2 & R3). split; [|split].
    + rewrite F; [exact R1|]. cbn. left.
    + apply IHl; auto. intros q Hq. apply F. cbn. right. apply elem_of_app. auto.
    + apply IHr; auto. intros q Hq. apply F. cbn. right. apply elem_of_app. auto.
Qed.
Lemma rep_ctx_frame h h' f c : (forall q, q ∈ cptrs c -> h' !! q = h !! q) ->
  rep_ctx h f c -> rep_ctx h' f c.
Proof.
  revert f. induction c as [|s p b sib c IH]; intros f F R; cbn [rep_ctx cptrs] in *; auto.
  destruct R as (R1 & R2 & R3). split; [|split].
  - rewrite F; [exact R1|]. left.
  - apply (rep_frame h); auto. intros q Hq. apply F. right. apply elem_of_app. auto.
  - apply IH; auto. intros q Hq. apply F. right. apply elem_of_app. auto.
Qed.

Lemma tptr_in t p : tptr t = Some p -> p ∈ ptrs t.
Proof. destruct t; cbn; intros; simplify_eq; left. Qed.
Lemma tptr_nil t : tptr t = None <-> t = Nil.
Proof. destruct t; cbn; split; intros; congruence. Qed.

Definition is_leaf t : bool := match t with Leaf _ _ _ => true | _ => false end.
Lemma rep_lookup h par t p : rep h par t -> tptr t = Some p ->
  exists n, h !! p = Some n /\ nparent n = par /\ nbounds n = tbnd t /\ isLeaf n = is_leaf t.
Proof.
  destruct t as [|q b d|q b l r]; cbn; intros R E; simplify_eq.
  - eexists; split; [exact R|]; repeat split.
  - destruct R as (R & _). eexists; split; [exact R|]; repeat split.
Qed.
Lemma rep_reparent h par par' t p n : NoDup (ptrs t) -> rep h par t -> tptr t = Some p ->
  h !! p = Some n ->
  rep (<[p := Nd par' (nleft n) (nright n) (nbounds n) (ndata n)]> h) par' t.
Proof.
  destruct t as [|q b d|q b l r]; cbn [rep tptr ptrs]; intros ND R E En; simplify_eq.
  - rewrite lookup_insert. reflexivity.
  - destruct R as (R1 & R2 & R3). simplify_eq. cbn. apply NoDup_cons in ND. destruct ND as [ND _].
    split; [rewrite lookup_insert; reflexivity|].
    split; (eapply rep_frame; [|eassumption]); intros q Hq; rewrite lookup_insert_ne; auto;
      intros ->; apply ND; apply elem_of_app; auto.
Qed.

(** ** Running the primitives *)
Lemma bind_assoc {A B C} (m : M A) (f : A -> M B) (k : B -> M C) s :
  bind (bind m f) k s = bind m (fun x => bind (f x) k) s.
Proof. unfold bind. destruct (m s) as [[a s']| | |]; reflexivity. Qed.
Lemma bind_ret_l {A B} (a : A) (f : A -> M B) s : bind (ret a) f s = f a s.
Proof. reflexivity. Qed.
Lemma bind_ret {A B} (m : M A) (f : A -> M B) s a s' : m s = Ret (a, s') -> bind m f s = f a s'.
Proof. unfold bind. intros ->. reflexivity. Qed.
Lemma bind_deref {B} p (f : ptr -> M B) s : bind (deref (Some p)) f s = f p s.
Proof. reflexivity. Qed.
Lemma bind_rd {B} p n h d r (f : node -> M B) : h !! p = Some n ->
  bind (rd p) f (St h d r) = f n (St h d r).
Proof. unfold bind, rd. cbn. intros ->. reflexivity. Qed.
Lemma run_wr p n n' h d r : h !! p = Some n ->
  @wr N T p n' (St h d r) = Ret (tt, St (<[p := n']> h) d r).
Proof. unfold wr. cbn. intros ->. reflexivity. Qed.
Lemma run_set_parent p n o h d r : h !! p = Some n ->
  @set_parent N T p o (St h d r) = Ret (tt, St (<[p := Nd o (nleft n) (nright n) (nbounds n) (ndata n)]> h) d r).
Proof. intros H. unfold set_parent. rewrite (bind_rd _ n) by exact H. apply (run_wr _ n); exact H. Qed.
Lemma run_set_left p n o h d r : h !! p = Some n ->
  @set_left N T p o (St h d r) = Ret (tt, St (<[p := Nd (nparent n) o (nright n) (nbounds n) (ndata n)]> h) d r).
Proof. intros H. unfold set_left. rewrite (bind_rd _ n) by exact H. apply (run_wr _ n); exact H. Qed.
Lemma run_set_right p n o h d r : h !! p = Some n ->
  @set_right N T p o (St h d r) = Ret (tt, St (<[p := Nd (nparent n) (nleft n) o (nbounds n) (ndata n)]> h) d r).
Proof. intros H. unfold set_right. rewrite (bind_rd _ n) by exact H. apply (run_wr _ n); exact H. Qed.
Lemma run_set_bounds p n b h d r : h !! p = Some n ->
  @set_bounds N T p b (St h d r) = Ret (tt, St (<[p := Nd (nparent n) (nleft n) (nright n) b (ndata n)]> h) d r).
Proof. intros H. unfold set_bounds. rewrite (bind_rd _ n) by exact H. apply (run_wr _ n); exact H. Qed.

Lemma eqp_refl (a : option ptr) : eqp a a = true.
Proof. apply bool_decide_eq_true. reflexivity. Qed.
Lemma eqp_ne (a b : option ptr) : a <> b -> eqp a b = false.
Proof. apply bool_decide_eq_false. Qed.

End Heap.

(** Disequality of addresses. *)
Ltac neq := first [assumption | apply not_eq_sym; assumption | congruence].
(** Solve a lookup goal [h !! p = Some ?n] through updates. *)
Ltac lk :=
  repeat first [rewrite lookup_insert | rewrite lookup_insert_ne by neq];
  first [eassumption | reflexivity].
(** One step of a program. *)
Ltac mstep :=
  first
  [ rewrite bind_assoc
  | rewrite bind_ret_l
  | rewrite bind_deref
  | erewrite bind_rd by lk
  | erewrite bind_ret by (apply run_set_parent; lk)
  | erewrite bind_ret by (apply run_set_left; lk)
  | erewrite bind_ret by (apply run_set_right; lk)
  | erewrite bind_ret by (apply run_set_bounds; lk) ];
  cbn [nparent nleft nright nbounds ndata fst snd].
Ltac msteps := repeat mstep.
