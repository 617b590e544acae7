(** Model of include/Simu/utility/Algo.hpp. *)
From Coq Require Import List Arith Lia Bool Permutation.
From Verif Require Import Num Outcome.
Import ListNotations.
Local Open Scope outcome_scope.

(** clamp, Algo.hpp:32-36 *)
Definition kclamp {N : Num} (v mn mx : K) : K := kmin (kmax v mn) mx.
(** squared, Algo.hpp:39-43 *)
Definition ksquared {N : Num} (x : K) : K := kmul x x.

Section BooleanSort.
Context {A : Type}.

(** [*(begin + i) = x]; [None] when outside the array. *)
Fixpoint set_nth (l : list A) (i : nat) (x : A) : list A :=
  match l, i with
  | [], _ => []
  | _ :: r, O => x :: r
  | a :: r, S i => a :: set_nth r i x
  end.

(** std::swap of two array elements. *)
Definition swap_nth (l : list A) (i j : nat) : outcome (list A) :=
  let* x := of_option (nth_error l i) in
  let* y := of_option (nth_error l j) in
  Ret (set_nth (set_nth l i y) j x).

(** booleanSort, Algo.hpp:45-57, on the sub-range [i,j) of an array.  Iterators
    are indices; decrementing the index 0 or dereferencing outside of the array
    is UB.  Simplification: the predicate, which receives the iterator, only
    looks at the element the iterator designates (as all callers do). *)
Fixpoint boolean_sort (fuel : nat) (p : A -> bool) (l : list A) (i j : nat)
  : outcome (list A * nat) :=
  if Nat.eqb i j then Ret (l, i)
  else match fuel with
  | O => Fuel
  | S fuel =>
      let* x := of_option (nth_error l i) in
      if p x then boolean_sort fuel p l (S i) j
      else match j with
      | O => UB
      | S j' => let* l' := swap_nth l i j' in boolean_sort fuel p l' i j'
      end
  end.
End BooleanSort.
