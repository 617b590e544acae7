(** Model of Block and FreeListAllocator, include/Simu/utility/Memory.hpp:118-363.
    Addresses and sizes are integers; std::size_t arithmetic is modulo 2^64.
    A type is given by its size and alignment; rebinding and copying share the
    block list, so one state serves all types.  operator new is a parameter of
    each allocation: the address it would return, or None for bad_alloc. *)
From Coq Require Import ZArith List Bool.
From Verif Require Import Outcome.
Import ListNotations.
Local Open Scope Z_scope.

Definition W : Z := 2 ^ 64.
(** FreeBlock: start and end, lines 151-158 *)
Definition range : Set := (Z * Z)%type.
Record block := Blk { bk_data : Z; bk_sz : Z; bk_free : list range }.
(** the constructor after new Byte[size], lines 122-128 *)
Definition mk_block (base size : Z) : block := Blk base size [(base, base + size)].

(** std::align(al, size, start, space): the aligned address when [size] bytes fit *)
Definition std_align (al size start space : Z) : option Z :=
  let p := (start + al - 1) / al * al in
  if (p - start) + size <=? space then Some p else None.

(** Block::allocate, lines 216-247; [m] is minSize *)
Fixpoint free_allocate (al m : Z) (l : list range) : option (Z * list range) :=
  match l with
  | [] => None
  | (s, e) :: l =>
      match std_align al m s (e - s) with
      | Some p => Some (p, (if p =? s then [] else [(s, p)]) ++ (if p + m =? e then [] else [(p + m, e)]) ++ l)
      | None => match free_allocate al m l with
                | Some (p, l') => Some (p, (s, e) :: l')
                | None => None
                end
      end
  end.
Definition block_allocate (sz al n : Z) (b : block) : option (Z * block) :=
  if n =? 0 then None
  else match free_allocate al (n * sz mod W) (bk_free b) with
       | Some (p, l) => Some (p, Blk (bk_data b) (bk_sz b) l)
       | None => None
       end.

(** Block::deallocate, lines 249-284: [split_at] stops at the first range that
    starts after [start] *)
Fixpoint split_at (start : Z) (l : list range) : list range * list range :=
  match l with
  | [] => ([], [])
  | (s, e) :: l' => if start <? s then ([], l) else let '(a, b) := split_at start l' in ((s, e) :: a, b)
  end.
Definition last_range (l : list range) : option range :=
  match l with [] => None | r :: l => Some (last l r) end.
Definition free_insert (start fin : Z) (l : list range) : list range :=
  let '(pre, next) := split_at start l in
  let mergeNext := match next with (s, _) :: _ => fin =? s | [] => false end in
  let mergePrev := match last_range pre with Some (_, e) => e =? start | None => false end in
  match mergeNext, mergePrev, last_range pre, next with
  | true, true, Some (ps, _), (_, ne) :: next' => removelast pre ++ (ps, ne) :: next'
  | true, false, _, (_, ne) :: next' => pre ++ (start, ne) :: next'
  | false, true, Some (ps, _), _ => removelast pre ++ (ps, fin) :: next
  | _, _, _, _ => pre ++ (start, fin) :: next
  end.
Definition block_deallocate (sz p n : Z) (b : block) : option block :=
  if (p <? bk_data b) || (p >=? bk_data b + bk_sz b) then None
  else Some (Blk (bk_data b) (bk_sz b) (free_insert p (p + n * sz mod W) (bk_free b))).
(** lines 142-145 *)
Definition block_isEmpty (b : block) : bool :=
  match bk_free b with
  | [(s, e)] => e - s =? bk_sz b
  | _ => false
  end.

(** FreeListAllocator::allocate, lines 318-336: null is [None] *)
Fixpoint try_blocks (sz al n : Z) (st : list block) : option (Z * list block) :=
  match st with
  | [] => None
  | b :: st =>
      match block_allocate sz al n b with
      | Some (p, b') => Some (p, b' :: st)
      | None => match try_blocks sz al n st with Some (p, st') => Some (p, b :: st') | None => None end
      end
  end.
Definition alloc_size (B sz al n : Z) : Z := Z.max B ((n * sz + al - 1) mod W).
Definition allocate (B sz al n : Z) (newResult : option Z) (st : list block) : outcome (option Z * list block) :=
  if n =? 0 then Ret (None, st)
  else match try_blocks sz al n st with
       | Some (p, st') => Ret (Some p, st')
       | None =>
           match newResult with
           | None => Throw
           | Some base =>
               let b := mk_block base (alloc_size B sz al n) in
               match block_allocate sz al n b with
               | Some (p, b') => Ret (Some p, st ++ [b'])
               | None => Ret (None, st ++ [b])
               end
           end
       end.
(** FreeListAllocator::deallocate, lines 338-352 *)
Fixpoint deallocate (sz p n : Z) (st : list block) : list block :=
  match st with
  | [] => []
  | b :: st =>
      match block_deallocate sz p n b with
      | Some b' => if block_isEmpty b' then st else b' :: st
      | None => b :: deallocate sz p n st
      end
  end.

(** ** Histories *)
(** a live allocation: address, count, object size, alignment *)
Record alloc := Al { al_p : Z; al_n : Z; al_sz : Z; al_al : Z }.
Definition al_end (a : alloc) : Z := al_p a + al_n a * al_sz a.
(** what operator new may return: non-null, inside the address space, apart
    from the blocks still held *)
Definition fresh (st : list block) (size base : Z) : Prop :=
  0 < base /\ base + size < W /\
  Forall (fun b => base + size <= bk_data b \/ bk_data b + bk_sz b <= base) st.
Definition good_request (sz al n : Z) : Prop := 0 < n /\ 0 < sz /\ 0 < al /\ n * sz + al - 1 < W.
Inductive reach (B : Z) : list block -> list alloc -> Prop :=
| reach_start : reach B [] []
| reach_alloc st live sz al n base p st' : reach B st live -> good_request sz al n ->
    fresh st (alloc_size B sz al n) base -> allocate B sz al n (Some base) st = Ret (Some p, st') ->
    reach B st' (Al p n sz al :: live)
| reach_free st l1 a l2 : reach B st (l1 ++ a :: l2) ->
    reach B (deallocate (al_sz a) (al_p a) (al_n a) st) (l1 ++ l2).
