(** Model of include/Simu/physics/RTree.hpp and RTree.inl.hpp.

    Nodes live in a heap (a finite map from addresses to nodes), elements in a
    second one.  Reading or writing an address that is not allocated, or
    dereferencing the null pointer, is [UB].  [None : option ptr] is [nullptr].

    Unspecified choices (addresses returned by the allocators, the element at
    the top of std::priority_queue among equally cheap ones) are taken from a
    parameter [env]; theorems quantify over it. *)
From stdpp Require Import base option list gmap fin_maps.
From Verif Require Import Num Outcome Algo Box.

Definition ptr := positive.

Section RTree.
Context {N : Num} {T : Type}.

(** struct Node, RTree.inl.hpp:33-82 *)
Record node := Nd {
  nparent : option ptr;
  nleft : option ptr;
  nright : option ptr;
  nbounds : box;
  ndata : option ptr
}.

(** An RTree object: its nodes, its elements and [root_] (RTree.hpp:266-269).
    Simplification: the allocators are the two heaps. *)
Record st := St { hp : gmap ptr node; dp : gmap ptr T; root : ptr }.

(** Unspecified choices: address of the next node, address of the next element,
    index of the entry returned by priority_queue::top. *)
Record env := Env {
  new_node : gset ptr -> ptr;
  new_data : gset ptr -> ptr;
  pq_top : list (ptr * K) -> nat
}.
(** Allocators never return storage that is in use. *)
Definition env_ok (E : env) : Prop :=
  (forall X, new_node E X ∉ X) /\ (forall X, new_data E X ∉ X).

(** ** State monad with outcomes *)
Definition M (A : Type) : Type := st -> outcome (A * st).
Definition ret {A} (a : A) : M A := fun s => Ret (a, s).
Definition bind {A B} (m : M A) (f : A -> M B) : M B :=
  fun s => match m s with
           | Ret (a, s') => f a s'
           | UB => UB | Throw => Throw | Fuel => Fuel
           end.
Definition ub {A} : M A := fun _ => UB.
Definition out_of_fuel {A} : M A := fun _ => Fuel.
Definition lift {A} (o : outcome A) : M A :=
  fun s => match o with Ret a => Ret (a, s) | UB => UB | Throw => Throw | Fuel => Fuel end.

Local Notation "x <- m ; k" := (bind m (fun x => k))
  (at level 100, m at next level, k at level 200, right associativity).
Local Notation "m ;;; k" := (bind m (fun _ => k))
  (at level 100, k at level 200, right associativity).

(** [*p] *)
Definition deref (o : option ptr) : M ptr :=
  match o with Some p => ret p | None => ub end.
Definition rd (p : ptr) : M node :=
  fun s => match hp s !! p with Some n => Ret (n, s) | None => UB end.
Definition wr (p : ptr) (n : node) : M unit :=
  fun s => match hp s !! p with
           | Some _ => Ret (tt, St (<[p := n]> (hp s)) (dp s) (root s))
           | None => UB
           end.
Definition set_parent (p : ptr) (o : option ptr) : M unit :=
  n <- rd p; wr p (Nd o (nleft n) (nright n) (nbounds n) (ndata n)).
Definition set_left (p : ptr) (o : option ptr) : M unit :=
  n <- rd p; wr p (Nd (nparent n) o (nright n) (nbounds n) (ndata n)).
Definition set_right (p : ptr) (o : option ptr) : M unit :=
  n <- rd p; wr p (Nd (nparent n) (nleft n) o (nbounds n) (ndata n)).
Definition set_bounds (p : ptr) (b : box) : M unit :=
  n <- rd p; wr p (Nd (nparent n) (nleft n) (nright n) b (ndata n)).
Definition get_root : M ptr := fun s => Ret (root s, s).
Definition set_root (p : ptr) : M unit := fun s => Ret (tt, St (hp s) (dp s) p).
(** number of nodes, used as recursion fuel *)
Definition heap_size : M nat := fun s => Ret (size (hp s), s).

(** ** struct Node *)
Definition eqp (a b : option ptr) : bool := bool_decide (a = b).
Definition is_null (a : option ptr) : bool := eqp a None.
(** isRoot, RTree.inl.hpp:40 *)
Definition isRoot (n : node) : bool := is_null (nparent n).
(** isLeaf, RTree.inl.hpp:41 *)
Definition isLeaf (n : node) : bool := negb (is_null (ndata n)).

Inductive side := L | R.
(** the member [left] or [right] *)
Definition rd_slot (sd : side) (p : ptr) : M (option ptr) :=
  n <- rd p; ret (match sd with L => nleft n | R => nright n end).
Definition wr_slot (sd : side) (p : ptr) (o : option ptr) : M unit :=
  match sd with L => set_left p o | R => set_right p o end.
(** childHandle, RTree.inl.hpp:66: which member of the parent is referenced *)
Definition childHandle (p : ptr) (child : ptr) : M (side * ptr) :=
  n <- rd p; ret (if eqp (Some child) (nleft n) then L else R, p).
(** otherChildHandle, RTree.inl.hpp:68-71 *)
Definition otherChildHandle (p : ptr) (child : ptr) : M (side * ptr) :=
  n <- rd p; ret (if negb (eqp (Some child) (nleft n)) then L else R, p).
(** handle, RTree.inl.hpp:73 *)
Definition handle (p : ptr) : M (side * ptr) :=
  n <- rd p; par <- deref (nparent n); childHandle par p.
(** sibling, RTree.inl.hpp:74 (the pointer stored there) *)
Definition sibling (p : ptr) : M (option ptr) :=
  n <- rd p; par <- deref (nparent n);
  h <- otherChildHandle par p; rd_slot h.1 h.2.
(** [node->handle() = o] *)
Definition set_handle (p : ptr) (o : option ptr) : M unit :=
  h <- handle p; wr_slot h.1 h.2 o.
(** setLeft, RTree.inl.hpp:46-50; the argument is dereferenced *)
Definition setLeft (p : ptr) (c : option ptr) : M unit :=
  set_left p c;;; q <- deref c; set_parent q (Some p).
(** setRight, RTree.inl.hpp:51-55 *)
Definition setRight (p : ptr) (c : option ptr) : M unit :=
  set_right p c;;; q <- deref c; set_parent q (Some p).
(** replaceChild, RTree.inl.hpp:56-60 *)
Definition replaceChild (this child : ptr) (newChild : option ptr) : M unit :=
  set_handle child newChild;;; q <- deref newChild; set_parent q (Some this).
(** replaceBy, RTree.inl.hpp:61-64 *)
Definition replaceBy (p : ptr) (replacement : option ptr) : M unit :=
  n <- rd p; par <- deref (nparent n); replaceChild par p replacement.

(** ** Allocation *)
Section Env.
Context (E : env).

(** makeNode, RTree.hpp:271-277 (Node's constructor: null links, null data).
    Simplification: the allocator does not throw. *)
Definition makeNode (b : box) : M ptr := fun s =>
  let p := new_node E (dom (hp s)) in
  Ret (p, St (<[p := Nd None None None b None]> (hp s)) (dp s) (root s)).

(** makeLeaf, RTree.hpp:279-289 *)
Definition makeLeaf (b : box) (v : T) : M ptr :=
  d <- (fun s => let d := new_data E (dom (dp s)) in
        Ret (d, St (hp s) (<[d := v]> (dp s)) (root s)));
  p <- makeNode b;
  n <- rd p;
  wr p (Nd (nparent n) (nleft n) (nright n) (nbounds n) (Some d));;;
  ret p.

(** destroy and deallocate one element: UB if it is not allocated (double free) *)
Definition free_data (d : ptr) : M unit := fun s =>
  match dp s !! d with
  | Some _ => Ret (tt, St (hp s) (delete d (dp s)) (root s))
  | None => UB
  end.
Definition free_node (p : ptr) : M unit := fun s =>
  match hp s !! p with
  | Some _ => Ret (tt, St (delete p (hp s)) (dp s) (root s))
  | None => UB
  end.

(** deleteNode, RTree.hpp:291-307 *)
Fixpoint deleteNode (fuel : nat) (o : option ptr) : M unit :=
  match o with
  | None => ret tt
  | Some p =>
      match fuel with
      | 0 => out_of_fuel
      | S fuel =>
          n <- rd p; deleteNode fuel (nleft n);;;
          n <- rd p; deleteNode fuel (nright n);;;
          n <- rd p;
          match ndata n with
          | Some d => free_data d
          | None => ret tt
          end;;;
          free_node p
      end
  end.

(** ** Rotations *)
(** swapNodes, RTree.hpp:309-313 *)
Definition swapNodes (first second : ptr) : M unit :=
  h1 <- handle first; h2 <- handle second;
  c1 <- rd_slot h1.1 h1.2; c2 <- rd_slot h2.1 h2.2;
  wr_slot h1.1 h1.2 c2;;; wr_slot h2.1 h2.2 c1;;;
  n1 <- rd first; n2 <- rd second;
  set_parent first (nparent n2);;; set_parent second (nparent n1).

(** checkRotation, RTree.hpp:333-341; both arguments are dereferenced *)
Definition checkRotation (upper lower : option ptr) : M unit :=
  lo <- deref lower;
  sib <- sibling lo; sb <- deref sib; nsb <- rd sb;
  up <- deref upper; nup <- rd up;
  let newBounds := box_combined (nbounds nsb) (nbounds nup) in
  nlo <- rd lo; par <- deref (nparent nlo); npar <- rd par;
  if kltb (box_area newBounds) (box_area (nbounds npar)) then
    set_bounds par newBounds;;; swapNodes lo up
  else ret tt.

(** checkRotations, RTree.hpp:315-331; every pointer is re-read *)
Definition checkRotations (g : ptr) : M unit :=
  n <- rd g;
  if is_null (nleft n) || is_null (nright n) then ret tt else
  rp <- deref (nright n); nr <- rd rp;
  (if negb (isLeaf nr) then
     checkRotation (nleft n) (nleft nr);;;
     n <- rd g; rp <- deref (nright n); nr <- rd rp;
     checkRotation (nleft n) (nright nr)
   else ret tt);;;
  n <- rd g; lp <- deref (nleft n); nl <- rd lp;
  (if negb (isLeaf nl) then
     checkRotation (nright n) (nleft nl);;;
     n <- rd g; lp <- deref (nleft n); nl <- rd lp;
     checkRotation (nright n) (nright nl)
   else ret tt).

(** bounds(Node* ), RTree.hpp:404-410 *)
Definition bounds_of (o : option ptr) : M box :=
  match o with None => ret invalid_box | Some p => n <- rd p; ret (nbounds n) end.

(** refit, RTree.hpp:343-360 *)
Fixpoint refit (fuel : nat) (o : option ptr) : M unit :=
  match o with
  | None => ret tt
  | Some p =>
      match fuel with
      | 0 => out_of_fuel
      | S fuel =>
          n <- rd p;
          lb <- bounds_of (nleft n); rb <- bounds_of (nright n);
          let newBounds := box_combined lb rb in
          if box_eqb newBounds (nbounds n) then ret tt
          else
            set_bounds p newBounds;;;
            checkRotations p;;;
            n <- rd p; refit fuel (nparent n)
      end
  end.

(** ** Insertion *)
(** addLeafTo, RTree.hpp:363-392 *)
Definition addLeafTo (o : option ptr) (leaf : ptr) : M unit :=
  fuel <- heap_size;
  p <- deref o; n <- rd p;
  if isLeaf n then
    nl <- rd leaf;
    parent <- makeNode (box_combined (nbounds n) (nbounds nl));
    replaceBy p (Some parent);;;
    setLeft parent (Some p);;;
    setRight parent (Some leaf);;;
    np <- rd parent; refit fuel (nparent np)
  else
    (if is_null (nleft n) then setLeft p (Some leaf)
     else if is_null (nright n) then setRight p (Some leaf)
     else
       merged <- makeNode (nbounds n);
       n <- rd p; setLeft merged (nleft n);;;
       n <- rd p; setRight merged (nright n);;;
       setLeft p (Some merged);;;
       setRight p (Some leaf));;;
    refit fuel (Some p).

(** comparisons with [best.second], initially INFINITY (RTree.hpp:433) *)
Definition cost_lt (x : K) (best : option (ptr * K)) : bool :=
  match best with None => kltInf x | Some (_, y) => kltb x y end.
Definition cost_ge (x : K) (best : option (ptr * K)) : bool :=
  match best with None => kgeInf x | Some (_, y) => kleb y x end.

(** The search loop of insert, RTree.hpp:434-457.  The queue is a list; the
    entry popped is chosen by the environment ([pq_top]). *)
Fixpoint insert_loop (fuel : nat) (leaf : ptr) (q : list (ptr * K))
    (best : option (ptr * K)) : M (option (ptr * K)) :=
  match q with
  | [] => ret best
  | _ =>
      match fuel with
      | 0 => out_of_fuel
      | S fuel =>
          let i := pq_top E q `mod` length q in
          match q !! i with
          | None => ub
          | Some (cp, cc) =>
              let q := delete i q in
              nl <- rd leaf;
              if cost_ge (kadd cc (box_area (nbounds nl))) best then ret best
              else
                nc <- rd cp;
                let directCost := box_area (box_combined (nbounds nc) (nbounds nl)) in
                let totalCost := kadd cc directCost in
                let best := if cost_lt totalCost best then Some (cp, totalCost) else best in
                let inducedCost := ksub totalCost (box_area (nbounds nc)) in
                if cost_lt (kadd inducedCost (box_area (nbounds nl))) best then
                  let q := match nleft nc with Some l => q ++ [(l, inducedCost)] | None => q end in
                  let q := match nright nc with Some r => q ++ [(r, inducedCost)] | None => q end in
                  insert_loop fuel leaf q best
                else insert_loop fuel leaf q best
          end
      end
  end.

(** insert(Node* ), RTree.hpp:412-461 *)
Definition insert_node (leaf : ptr) : M ptr :=
  r <- get_root;
  fuel <- heap_size;
  best <- insert_loop fuel leaf [(r, k0)] None;
  addLeafTo (fst <$> best) leaf;;;
  ret leaf.

(** insert / emplace, RTree.hpp:175-184 *)
Definition insert (b : box) (v : T) : M ptr :=
  leaf <- makeLeaf b v; insert_node leaf.

(** ** Removal *)
(** extract, RTree.hpp:463-497 *)
Definition extract (p : ptr) : M ptr :=
  fuel <- heap_size;
  sib <- sibling p;
  n <- rd p; par <- deref (nparent n); npar <- rd par;
  (if isRoot npar then
     sib_leaf <- match sib with
                 | None => ret true
                 | Some s => ns <- rd s; ret (isLeaf ns)
                 end;
     if sib_leaf then
       set_handle p None;;;
       n <- rd p; refit fuel (nparent n)
     else
       s <- deref sib;
       ns <- rd s; replaceBy p (nleft ns);;;
       ns <- rd s; replaceBy s (nright ns);;;
       n <- rd p; refit fuel (nparent n);;;
       set_left s None;;; set_right s None;;;
       deleteNode fuel (Some s)
   else
     s <- deref sib;
     set_handle s None;;;
     n <- rd p; par <- deref (nparent n); replaceBy par (Some s);;;
     n <- rd p; par <- deref (nparent n); npar <- rd par; refit fuel (nparent npar);;;
     set_handle p None;;;
     n <- rd p; deleteNode fuel (nparent n));;;
  ret p.

(** erase(Node* ), RTree.hpp:499 *)
Definition erase_node (p : ptr) : M unit :=
  fuel <- heap_size; q <- extract p; deleteNode fuel (Some q).

(** update, RTree.hpp:744-749 *)
Definition update (p : ptr) (b : box) : M ptr :=
  extract p;;; set_bounds p b;;; insert_node p;;; ret p.

(** ** Iterators, RTree.inl.hpp:85-185 *)
(** goLeft, lines 171-182 *)
Fixpoint goLeft (fuel : nat) (p : ptr) : M ptr :=
  n <- rd p;
  if isLeaf n then ret p else
  match fuel with
  | 0 => out_of_fuel
  | S fuel =>
      match nleft n, nright n with
      | Some l, _ => goLeft fuel l
      | None, Some r => goLeft fuel r
      | None, None => ret p
      end
  end.

(** operator++, lines 118-137; isLeft/isRight, lines 43-44 *)
Fixpoint next_fuel (fuel : nat) (p : ptr) : M ptr :=
  n <- rd p;
  match nparent n with
  | None => ret p
  | Some par =>
      npar <- rd par;
      if eqp (nleft npar) (Some p) then
        match nright npar with
        | None => ret par
        | Some r => goLeft fuel r
        end
      else if eqp (nright npar) (Some p) then
        match fuel with
        | 0 => out_of_fuel
        | S fuel => next_fuel fuel par
        end
      else ret p
  end.
Definition next (p : ptr) : M ptr := fuel <- heap_size; next_fuel fuel p.
(** begin, RTree.hpp:168; leftmost, RTree.inl.hpp:164-169 *)
Definition begin_it : M ptr := fuel <- heap_size; r <- get_root; goLeft fuel r.
(** end, RTree.hpp:169 *)
Definition end_it : M ptr := get_root.
(** operator*, RTree.inl.hpp:159 *)
Definition deref_it (p : ptr) : M T :=
  n <- rd p; d <- deref (ndata n);
  fun s => match dp s !! d with Some v => Ret (v, s) | None => UB end.
(** Iterator::bounds, RTree.inl.hpp:116 *)
Definition bounds_it (p : ptr) : M box := n <- rd p; ret (nbounds n).

(** The loop [for (it = begin(); it != end(); ++it)]: the iterators visited. *)
Fixpoint iterate (fuel : nat) (p : ptr) : M (list ptr) :=
  e <- end_it;
  if bool_decide (p = e) then ret [] else
  match fuel with
  | 0 => out_of_fuel
  | S fuel => q <- next p; rest <- iterate fuel q; ret (p :: rest)
  end.
Definition iterate_all : M (list ptr) :=
  fuel <- heap_size; b <- begin_it; iterate fuel b.

(** erase(iterator), RTree.hpp:186-191 *)
Definition erase (it : ptr) : M ptr :=
  nx <- next it; erase_node it;;; ret nx.

(** ** Whole tree *)
(** RTree(alloc), RTree.hpp:69-72 *)
Definition construct : outcome st :=
  match makeNode invalid_box (St ∅ ∅ 1%positive) with
  | Ret (p, s) => Ret (St (hp s) (dp s) p)
  | UB => UB | Throw => Throw | Fuel => Fuel
  end.
(** ~RTree, RTree.hpp:74 *)
Definition destroy : M unit := fuel <- heap_size; r <- get_root; deleteNode fuel (Some r).
(** clear, RTree.hpp:199: construct a temporary, swap, destroy the old tree.
    Simplification: the temporary's nodes live in the same heap. *)
Definition clear : M unit :=
  old <- get_root; r <- makeNode invalid_box; set_root r;;;
  fuel <- heap_size; deleteNode fuel (Some old).
(** isEmpty, RTree.hpp:200-203 *)
Definition isEmpty : M bool :=
  r <- get_root; n <- rd r; ret (is_null (nleft n) && is_null (nright n)).
(** size, RTree.hpp:205 and 509-517 *)
Fixpoint size_of (fuel : nat) (o : option ptr) : M nat :=
  match o with
  | None => ret 0
  | Some p =>
      n <- rd p;
      if isLeaf n then ret 1 else
      match fuel with
      | 0 => out_of_fuel
      | S fuel => a <- size_of fuel (nleft n); b <- size_of fuel (nright n); ret (a + b)
      end
  end.
Definition tree_size : M nat := fuel <- heap_size; r <- get_root; size_of fuel (Some r).
(** bounds(), RTree.hpp:207 *)
Definition tree_bounds : M box := r <- get_root; bounds_it r.
(** height, RTree.hpp:210 and 501-507 (Uint32 wrap-around not modelled) *)
Fixpoint height_of (fuel : nat) (o : option ptr) : M nat :=
  match o with
  | None => ret 0
  | Some p =>
      match fuel with
      | 0 => out_of_fuel
      | S fuel =>
          n <- rd p;
          a <- height_of fuel (nleft n); b <- height_of fuel (nright n); ret (1 + max a b)
      end
  end.
Definition tree_height : M nat := fuel <- heap_size; r <- get_root; h <- height_of fuel (Some r); ret (h - 1).

(** ** Queries.  The callback is represented by the list of its calls; it does
    not modify the tree. *)
(** forEachIn(box, func, node), RTree.hpp:519-535 *)
Fixpoint forEachIn_node (fuel : nat) (b : box) (o : option ptr) : M (list ptr) :=
  match o with
  | None => ret []
  | Some p =>
      n <- rd p;
      if box_overlaps b (nbounds n) then
        if isLeaf n then ret [p] else
        match fuel with
        | 0 => out_of_fuel
        | S fuel =>
            a <- forEachIn_node fuel b (nleft n);
            c <- forEachIn_node fuel b (nright n); ret (a ++ c)
        end
      else ret []
  end.
(** forEachIn, RTree.hpp:88-92 *)
Definition forEachIn (b : box) : M (list ptr) :=
  fuel <- heap_size; r <- get_root; forEachIn_node fuel b (Some r).
(** forEachAt, RTree.hpp:94-98 *)
Definition forEachAt (v : vec2) : M (list ptr) := forEachIn (Box v v).

(** forEachOverlapping(node), RTree.hpp:537-550 *)
Fixpoint forEachOverlapping_loop (fuel : nat) (b : box) (p : ptr) : M (list ptr) :=
  n <- rd p;
  match nparent n with
  | None => ret []
  | Some par =>
      match fuel with
      | 0 => out_of_fuel
      | S fuel' =>
          sib <- sibling p;
          a <- match sib with Some _ => forEachIn_node fuel b sib | None => ret [] end;
          c <- forEachOverlapping_loop fuel' b par; ret (a ++ c)
      end
  end.
Definition forEachOverlapping (it : ptr) : M (list ptr) :=
  fuel <- heap_size; n <- rd it; forEachOverlapping_loop fuel (nbounds n) it.

(** class OverlapList, RTree.hpp:552-613 *)
Record overlap_list := OL { ol_nodes : list ptr; ol_middle : nat }.
Definition ol_empty : overlap_list := OL [] 0.
(** constructor from iterators, lines 560-568 *)
Definition ol_of_list (l : list ptr) : overlap_list := OL l (length l).
(** overlapping(), lines 597-604 *)
Definition ol_overlapping (o : overlap_list) : list ptr := take (ol_middle o) (ol_nodes o).
(** copy constructor, lines 570-577 *)
Definition ol_copy (o : overlap_list) : overlap_list := ol_of_list (ol_overlapping o).
(** addOverlapping, lines 581-584 *)
Definition ol_add (o : overlap_list) (p : ptr) : overlap_list :=
  OL (take (ol_middle o) (ol_nodes o) ++ p :: drop (ol_middle o) (ol_nodes o)) (S (ol_middle o)).
Definition ol_setMiddle (o : overlap_list) (m : nat) : overlap_list := OL (ol_nodes o) m.
(** sortOverlapping, lines 586-595.  booleanSort applies the predicate to each
    element of the range, so the call is UB iff one of them is dangling. *)
Definition bounds_at (h : gmap ptr node) (p : ptr) : box :=
  match h !! p with Some n => nbounds n | None => invalid_box end.
Definition all_alive (h : gmap ptr node) (l : list ptr) : bool :=
  forallb (fun p => bool_decide (is_Some (h !! p))) l.
Definition ol_sort (o : overlap_list) (b : box) : M overlap_list := fun s =>
  if all_alive (hp s) (ol_overlapping o) then
    match boolean_sort (ol_middle o) (fun p => box_overlaps (bounds_at (hp s) p) b)
            (ol_nodes o) 0 (ol_middle o) with
    | Ret (l, m) => Ret (OL l m, s)
    | UB => UB | Throw => Throw | Fuel => Fuel
    end
  else UB.

(** forEachOverlapping(subRoot, list), RTree.hpp:616-636.  The list is passed by
    reference, hence returned. *)
Fixpoint forEachOverlapping_sub (fuel : nat) (p : ptr) (l : overlap_list)
  : M (list (ptr * ptr) * overlap_list) :=
  n <- rd p;
  if isLeaf n then ret ((fun q => (p, q)) <$> ol_overlapping l, l) else
  match fuel with
  | 0 => out_of_fuel
  | S fuel =>
      let middle := ol_middle l in
      lp <- deref (nleft n); nl <- rd lp;
      l <- ol_sort l (nbounds nl);
      a <- forEachOverlapping_sub fuel lp l;
      let l := ol_setMiddle a.2 middle in
      n <- rd p;
      rp <- deref (nright n); nr <- rd rp;
      l <- ol_sort l (nbounds nr);
      c <- forEachOverlapping_sub fuel rp l;
      ret (a.1 ++ c.1, c.2)
  end.
(** forEachOverlapping(iterators, func), RTree.hpp:106-125 *)
Definition forEachOverlapping_list (its : list ptr) : M (list (ptr * ptr)) :=
  fuel <- heap_size; r <- get_root; n <- rd r;
  let l := ol_of_list its in
  let middle := ol_middle l in
  a <- match nleft n with
       | None => ret ([], l)
       | Some lp => nl <- rd lp; l <- ol_sort l (nbounds nl); forEachOverlapping_sub fuel lp l
       end;
  n <- rd r;
  c <- match nright n with
       | None => ret ([], a.2)
       | Some rp =>
           nr <- rd rp; l <- ol_sort (ol_setMiddle a.2 middle) (nbounds nr);
           forEachOverlapping_sub fuel rp l
       end;
  ret (a.1 ++ c.1).

(** ** updateAndCollide *)
(** recycleSubTree and recycle, RTree.hpp:230-246; the bin is a list, last
    element at the end *)
Fixpoint recycleSubTree (fuel : nat) (p : ptr) (bin : list ptr) : M (list ptr) :=
  match fuel with
  | 0 => out_of_fuel
  | S fuel =>
      n <- rd p;
      bin <- match nleft n with Some l => recycleSubTree fuel l bin | None => ret bin end;
      n <- rd p;
      bin <- match nright n with Some r => recycleSubTree fuel r bin | None => ret bin end;
      set_parent p None;;; set_left p None;;; set_right p None;;;
      ret (bin ++ [p])
  end.
(** getNode, RTree.hpp:248-258 *)
Definition getNode (bin : list ptr) : M (ptr * list ptr) :=
  match last bin with
  | Some p => ret (p, removelast bin)
  | None => p <- makeNode invalid_box; ret (p, bin)
  end.
(** ~RecycleBin, RTree.hpp:224-228 *)
Fixpoint destroyBin (bin : list ptr) : M unit :=
  match bin with
  | [] => ret tt
  | p :: bin => fuel <- heap_size; deleteNode fuel (Some p);;; destroyBin bin
  end.

(** The bounds of nodes are read through the heap; UB if one is dangling. *)
Definition read_bounds (l : list ptr) : M (ptr -> box) := fun s =>
  if all_alive (hp s) l then Ret (bounds_at (hp s), s) else UB.

Definition axis (a : nat) (v : vec2) : K := if Nat.eqb a 0 then vx v else vy v.

(** the partition of RTree.hpp:662-689 of a list of nodes with given bounds:
    split by centre, each side with at least max(count/16, 1) nodes *)
Definition split_nodes (bnd : ptr -> box) (nodes : list ptr) : outcome (list ptr * nat) :=
  let count := length nodes in
  let centerBounds :=
    fold_left (fun acc p => let c := box_center (bnd p) in box_combined acc (Box c c))
      nodes invalid_box in
  let dim := vsub (bmax centerBounds) (bmin centerBounds) in
  let splitAxis := if kltb (vy dim) (vx dim) then 0 else 1 in
  let split := axis splitAxis (box_center centerBounds) in
  match boolean_sort count (fun p => kltb (axis splitAxis (box_center (bnd p))) split)
          nodes 0 count with
  | Ret (l, middle) =>
      let minNodes := max (count `div` 16) 1 in
      Ret (l, if bool_decide (middle < minNodes) then minNodes
              else if bool_decide (count - middle < minNodes) then count - minNodes
              else middle)
  | UB => UB | Throw => Throw | Fuel => Fuel
  end.

(** constructBounds, RTree.hpp:694-700 *)
Definition union_bounds (bnd : ptr -> box) (nodes : list ptr) : box :=
  fold_left (fun acc p => box_combined acc (bnd p)) nodes invalid_box.

(** updateAndCollide(nodes, collisions, onCollision, bin), RTree.hpp:639-742.
    Views into the node array are lists (the two halves are disjoint
    sub-ranges).  Result: sub-root, calls of onCollision in order, bin. *)
Fixpoint updateAndCollide_rec (fuel : nat) (nodes : list ptr) (collisions : overlap_list)
    (bin : list ptr) : M (option ptr * list (ptr * ptr) * list ptr) :=
  match nodes with
  | [] => ret (None, [], bin)
  | [leaf] => ret (Some leaf, (fun q => (leaf, q)) <$> ol_overlapping collisions, bin)
  | _ =>
      match fuel with
      | 0 => out_of_fuel
      | S fuel =>
          g <- getNode bin;
          let subRoot := g.1 in let bin := g.2 in
          bnd <- read_bounds nodes;
          sp <- lift (split_nodes bnd nodes);
          let lnodes := take sp.2 sp.1 in
          let rnodes := drop sp.2 sp.1 in
          let leftBounds := union_bounds bnd lnodes in
          let rightBounds := union_bounds bnd rnodes in
          set_bounds subRoot (box_combined leftBounds rightBounds);;;
          leftC <- ol_sort (ol_copy collisions) leftBounds;
          rightC <- ol_sort collisions rightBounds;
          let cs :=
            if box_overlaps leftBounds rightBounds then
              if bool_decide (length lnodes < length rnodes) then
                (leftC, fold_left (fun o p => if box_overlaps rightBounds (bnd p) then ol_add o p else o) lnodes rightC)
              else
                (fold_left (fun o p => if box_overlaps leftBounds (bnd p) then ol_add o p else o) rnodes leftC, rightC)
            else (leftC, rightC) in
          rl <- updateAndCollide_rec fuel lnodes cs.1 bin;
          set_left subRoot rl.1.1;;;
          rr <- updateAndCollide_rec fuel rnodes cs.2 rl.2;
          set_right subRoot rr.1.1;;;
          n <- rd subRoot;
          (match nleft n with Some l => set_parent l (Some subRoot) | None => ret tt end);;;
          n <- rd subRoot;
          (match nright n with Some r => set_parent r (Some subRoot) | None => ret tt end);;;
          ret (Some subRoot, rl.1.2 ++ rr.1.2, rr.2)
      end
  end.

(** first loop of updateAndCollide, RTree.hpp:134-139 *)
Fixpoint update_all (fuel : nat) (upd : ptr -> box) (p : ptr) : M (list ptr) :=
  e <- end_it;
  if bool_decide (p = e) then ret [] else
  match fuel with
  | 0 => out_of_fuel
  | S fuel =>
      set_bounds p (upd p);;;
      q <- next p; rest <- update_all fuel upd q; ret (p :: rest)
  end.
Fixpoint detach_all (l : list ptr) : M unit :=
  match l with
  | [] => ret tt
  | p :: l => set_handle p None;;; detach_all l
  end.

(** updateAndCollide, RTree.hpp:127-166.  Result: the iterators passed to
    [update], in order, and the pairs passed to [onCollision], in order.  The
    callbacks do not modify the tree and do not throw. *)
Definition updateAndCollide (upd : ptr -> box) : M (list ptr * list (ptr * ptr)) :=
  fuel <- heap_size;
  b <- begin_it;
  nodes <- update_all fuel upd b;
  detach_all nodes;;;
  match nodes with
  | [] => ret (nodes, [])
  | [p] => insert_node p;;; ret (nodes, [])
  | _ =>
      r <- get_root;
      bin <- recycleSubTree fuel r [];
      res <- updateAndCollide_rec (length nodes) nodes ol_empty bin;
      nr <- deref res.1.1; set_root nr;;;
      destroyBin res.2;;;
      ret (nodes, res.1.2)
  end.

End Env.
End RTree.

Arguments node : clear implicits. Arguments node {N}.
Arguments st : clear implicits. Arguments st {N} T.
Arguments env : clear implicits. Arguments env {N}.
