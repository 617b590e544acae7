(** RTree objects as values: move construction and move assignment
    (RTree.hpp:76-87).  [o_root = None] is an indeterminate [root_]. *)
From stdpp Require Import base option list gmap fin_maps.
From Verif Require Import Num Outcome Algo Box RTree.

Section Move.
Context {N : Num} {T : Type}.

(** The members alloc_ and nodeAlloc_ (the storage each of them owns) and
    root_, RTree.hpp:266-269. *)
Record obj := Obj { o_hp : gmap ptr node; o_dp : gmap ptr T; o_root : option ptr }.
Definition obj_of (s : st T) : obj := Obj (hp s) (dp s) (Some (root s)).
(** run a member function: reading an indeterminate root_ is UB *)
Definition on {A} (m : @M N T A) (o : obj) : outcome (A * obj) :=
  match o_root o with
  | None => UB
  | Some r => match m (St (o_hp o) (o_dp o) r) with
              | Ret (a, s) => Ret (a, obj_of s)
              | UB => UB | Throw => Throw | Fuel => Fuel
              end
  end.
(** operator=(RTree&&), RTree.hpp:80-86: swaps the three members.
    Result: the new values of *this and other. *)
Definition move_assign (this other : obj) : obj * obj := (other, this).
(** RTree(RTree&&), RTree.hpp:79: the members alloc_ and nodeAlloc_ are default
    initialised, root_ has no initialiser, then [*this = std::move(other)].
    Copying the indeterminate root_ inside std::swap is let pass. *)
Definition move_construct (other : obj) : obj * obj := move_assign (Obj ∅ ∅ None) other.
End Move.
Arguments obj : clear implicits. Arguments obj {N} T.
