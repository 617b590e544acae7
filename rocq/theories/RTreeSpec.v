(** Specification vocabulary for the R-tree properties C10-C21: histories of
    public operations, the bag they denote, and well-formedness of the heap.
    Nothing here refers to the proof layer. *)
From stdpp Require Import base option list gmap fin_maps.
From Verif Require Import Num Outcome Algo Box BoxFacts RTree.

Section Spec.
Context {N : Num} {T : Type}.
Notation st := (st T).
Notation M := (@M N T).

(** The public operations that modify a tree. *)
Inductive hop :=
| HInsert (b : box) (v : T)
| HErase (it : ptr)
| HUpdate (it : ptr) (b : box)
| HClear
| HCollide (upd : ptr -> box).

(** Run one; the result is the iterator returned by the call, if any. *)
Definition run_op (E : env) (o : hop) : M (option ptr) :=
  match o with
  | HInsert b v => bind (insert E b v) (fun it => ret (Some it))
  | HErase it => bind (erase it) (fun nx => ret (Some nx))
  | HUpdate it b => bind (update E it b) (fun it => ret (Some it))
  | HClear => bind (clear E) (fun _ => ret None)
  | HCollide upd => bind (updateAndCollide E upd) (fun _ => ret None)
  end.

(** The bag: for each iterator, the bounds and the value of its element. *)
Local Notation bag := (gmap ptr (box * T)).

Definition spec_step (o : hop) (res : option ptr) (B : bag) : bag :=
  match o with
  | HInsert b v => match res with Some it => <[it := (b, v)]> B | None => B end
  | HErase it => delete it B
  | HUpdate it b => alter (fun x => (b, x.2)) it B
  | HClear => ∅
  | HCollide upd => map_imap (fun it x => Some (upd it, x.2)) B
  end.

(** The area of [b] and of its union with [rb] are below INFINITY (computed as
    by insert, which adds them to a cost of 0). *)
Definition area_ok (rb b : box) : bool :=
  negb (kgeInf (kadd k0 (box_area b))) && kltInf (kadd k0 (box_area (box_combined rb b))).

(** What the caller must guarantee: iterators designate elements of the tree;
    the area of the union of a new box with the tree's bounds is finite (for
    update: with the bounds the tree has without the element; for
    updateAndCollide: only if there is exactly one element, which is
    re-inserted). *)
Definition op_pre (E : env) (s : st) (B : bag) (o : hop) : Prop :=
  match o with
  | HInsert b _ => forall rb, tree_bounds s = Ret (rb, s) -> area_ok rb b = true
  | HErase it => is_Some (B !! it)
  | HUpdate it b => is_Some (B !! it) /\
      forall nx s1 rb, erase it s = Ret (nx, s1) -> tree_bounds s1 = Ret (rb, s1) -> area_ok rb b = true
  | HClear => True
  | HCollide upd => forall it x rb, B = {[it := x]} -> tree_bounds s = Ret (rb, s) ->
      area_ok rb (upd it) = true
  end.
(** All boxes passed by the caller belong to [C]. *)
Definition op_in (C : box -> Prop) (B : bag) (o : hop) : Prop :=
  match o with
  | HInsert b _ => C b
  | HUpdate _ b => C b
  | HCollide upd => forall it, is_Some (B !! it) -> C (upd it)
  | _ => True
  end.

(** One call, and any sequence of calls.  Each call may use its own
    environment (allocator and priority-queue choices). *)
Definition step (C : box -> Prop) (o : hop) (x y : st * bag) : Prop :=
  exists E res, env_ok E /\ op_pre E x.1 x.2 o /\ op_in C x.2 o /\
    run_op E o x.1 = Ret (res, y.1) /\ y.2 = spec_step o res x.2.
Inductive steps (C : box -> Prop) : list hop -> st * bag -> st * bag -> Prop :=
| steps_nil x : steps C [] x x
| steps_cons o os x y z : step C o x y -> steps C os y z -> steps C (o :: os) x z.
(** A tree obtained from the constructor by some history. *)
Definition reach (C : box -> Prop) (s : st) (B : bag) : Prop :=
  exists E s0 os, env_ok E /\ construct E = Ret s0 /\ steps C os (s0, ∅) (s, B).

(** What a client reads by iterating: iterator, bounds and value of each. *)
Fixpoint read_all (l : list ptr) : M (list (ptr * (box * T))) :=
  match l with
  | [] => ret []
  | it :: l =>
      bind (bounds_it it) (fun b => bind (deref_it it) (fun v =>
      bind (read_all l) (fun rest => ret ((it, (b, v)) :: rest))))
  end.
Definition contents : M (list (ptr * (box * T))) := bind iterate_all read_all.

(** ** The pointer structure *)
(** [q] is a child of a node [n] *)
Definition child (n : node) (q : ptr) : Prop := nleft n = Some q \/ nright n = Some q.
(** [q] can be reached from [p] through child links *)
Inductive below (h : gmap ptr node) (p : ptr) : ptr -> Prop :=
| below_refl : is_Some (h !! p) -> below h p p
| below_child q n r : below h p q -> h !! q = Some n -> child n r -> below h p r.
Record heap_ok (s : st) : Prop := {
  (* the root exists, has no parent and holds no element *)
  ho_root : exists n, hp s !! root s = Some n /\ nparent n = None /\ ndata n = None;
  (* child links lead to nodes whose parent link matches *)
  ho_child : forall p n q, hp s !! p = Some n -> child n q ->
    exists nq, hp s !! q = Some nq /\ nparent nq = Some p;
  (* parent links lead to nodes that have the node as a child *)
  ho_parent : forall p n q, hp s !! p = Some n -> nparent n = Some q ->
    exists nq, hp s !! q = Some nq /\ child nq p;
  (* the two children differ *)
  ho_distinct : forall p n q, hp s !! p = Some n -> nleft n = Some q -> nright n <> Some q;
  (* leaves have no child *)
  ho_leaf : forall p n, hp s !! p = Some n -> is_Some (ndata n) -> nleft n = None /\ nright n = None;
  (* internal nodes below the root have two children *)
  ho_two : forall p n, hp s !! p = Some n -> ndata n = None -> p <> root s ->
    is_Some (nleft n) /\ is_Some (nright n);
  (* every allocated node is in the tree *)
  ho_reach : forall p, is_Some (hp s !! p) -> below (hp s) (root s) p
}.

(** [b] is the union of a set of boxes: it contains their points and is
    contained in every box that does. *)
Definition is_union (ok : K -> Prop) (S : box -> Prop) (b : box) : Prop :=
  (forall x, S x -> subset_points ok x b) /\
  (forall c, okbox ok c -> (forall x, S x -> subset_points ok x c) -> subset_points ok b c).
(** the bounds of the leaves below a node *)
Definition leaf_bounds (h : gmap ptr node) (p : ptr) (b : box) : Prop :=
  exists q n, below h p q /\ h !! q = Some n /\ is_Some (ndata n) /\ nbounds n = b.

(** Elements owned by nodes. *)
Definition owns (s : st) (p d : ptr) : Prop := exists n, hp s !! p = Some n /\ ndata n = Some d.

(** how often a value occurs in a list *)
Definition times {A} `{EqDecision A} (x : A) (l : list A) : nat := length (filter (fun y => y = x) l).

(** the other order of a pair *)
Definition flipped (x : ptr * ptr) : ptr * ptr := (x.2, x.1).

(** ** Iterators across operations *)
(** the calls that end the life of the iterator [it] *)
Definition kills (it : ptr) (o : hop) : bool :=
  match o with HErase q => bool_decide (q = it) | HClear => true | _ => false end.
(** the bounds most recently given to [it] *)
Definition rebound (it : ptr) (b : box) (o : hop) : box :=
  match o with
  | HUpdate q b' => if bool_decide (q = it) then b' else b
  | HCollide upd => upd it
  | _ => b
  end.

(** ** Erasing while iterating:
    [for (it = begin(); it != end();) it = cond(it) ? erase(it) : ++it].
    Result: the iterators on which the condition was evaluated. *)
Fixpoint erase_loop (fuel : nat) (cond : ptr -> bool) (it : ptr) : M (list ptr) :=
  bind end_it (fun e =>
  if bool_decide (it = e) then ret [] else
  match fuel with
  | 0 => out_of_fuel
  | S fuel =>
      bind (if cond it then erase it else next it) (fun nx =>
      bind (erase_loop fuel cond nx) (fun rest => ret (it :: rest)))
  end).
Definition erase_if (cond : ptr -> bool) : M (list ptr) :=
  bind heap_size (fun fuel => bind begin_it (fun b => erase_loop fuel cond b)).

(** ** Cost of a position *)
(** the chain of ancestors, through parent links *)
Inductive ancestors (h : gmap ptr node) : ptr -> list ptr -> Prop :=
| anc_root p n : h !! p = Some n -> nparent n = None -> ancestors h p []
| anc_up p n q l : h !! p = Some n -> nparent n = Some q -> ancestors h q l -> ancestors h p (q :: l).
(** area of the node grown by [b], and its increase *)
Definition grown (h : gmap ptr node) (b : box) (p : ptr) : K :=
  match h !! p with Some n => box_area (box_combined (nbounds n) b) | None => k0 end.
Definition increase (h : gmap ptr node) (b : box) (p : ptr) : K :=
  match h !! p with Some n => ksub (box_area (box_combined (nbounds n) b)) (box_area (nbounds n)) | None => k0 end.
(** [c] is the cost of placing [b] at [p]: the area of the union there plus the
    increase of the areas of the ancestors *)
Definition position_cost (h : gmap ptr node) (b : box) (p : ptr) (c : K) : Prop :=
  exists l, ancestors h p l /\ c = kadd (grown h b p) (foldr (fun a acc => kadd (increase h b a) acc) k0 l).
(** std::priority_queue with NodeCostCmp: no entry is cheaper than the top *)
Definition pq_min (E : env) : Prop :=
  forall (q : list (ptr * K)) x y, q !! (pq_top E q `mod` length q) = Some x -> y ∈ q -> kltb y.2 x.2 = false.
End Spec.

Arguments hop : clear implicits. Arguments hop {N} T.
Notation bag T := (gmap ptr (box * T)).
