(** Properties C02-C04: the free-list allocator.  [reach B st live]: blocks [st]
    and live allocations [live] after some history of allocations (of any types,
    with any addresses from operator new) and of deallocations of live
    allocations with their own count, for block size B. *)
From Coq Require Import ZArith List Bool.
From Verif Require Import Outcome Alloc AllocFacts.
Import ListNotations.
Local Open Scope Z_scope.

(** C02 *)
Theorem C02_safe : forall B st live, reach B st live ->
  Forall (fun a => al_p a mod al_al a = 0 /\ 0 < al_p a /\ inside_block st a) live /\
  ForallOrdPairs (fun a b => forall x, ~ (holds_byte a x /\ holds_byte b x)) live.
Proof. exact allocator_safe. Qed.
Print Assumptions C02_safe.
Theorem C02_blocks : forall B st live, reach B st live -> ForallOrdPairs apart st /\
  Forall (fun b => 0 < bk_data b /\ 0 < bk_sz b /\ bk_data b + bk_sz b < W) st.
Proof. exact blocks_safe. Qed.
Print Assumptions C02_blocks.
Theorem C02_null : forall B st live sz n, reach B st live -> deallocate sz 0 n st = st.
Proof. exact null_free. Qed.
Print Assumptions C02_null.
Example C02_example : exists st, reach B0 st [Al 4098 3 1 1; Al 4144 2 16 16; Al 4096 1 2 2] /\ length st = 1%nat.
Proof. exact ex_reach. Qed.

(** C03 *)
Theorem C03_all_returned : forall B st, reach B st [] -> st = [].
Proof. exact allocator_returns_all. Qed.
Print Assumptions C03_all_returned.
Theorem C03_no_idle_block : forall B st live b, reach B st live -> In b st ->
  exists a, In a live /\ bk_data b <= al_p a /\ al_p a + al_n a * al_sz a <= bk_data b + bk_sz b.
Proof. exact blocks_used. Qed.
Print Assumptions C03_no_idle_block.
Example C03_example : exists st a, reach B0 st [a] /\ st <> [] /\ reach B0 (deallocate (al_sz a) (al_p a) (al_n a) st) [].
Proof. exact ex_freed. Qed.

(** C04 *)
Theorem C04_succeeds : forall B st live sz al n base, reach B st live -> good_request sz al n ->
  fresh st (alloc_size B sz al n) base ->
  exists p st', allocate B sz al n (Some base) st = Ret (Some p, st') /\ reach B st' (Al p n sz al :: live).
Proof. exact allocator_progress. Qed.
Print Assumptions C04_succeeds.
Theorem C04_wraps_refuted : forall B st live sz al n base, reach B st live -> 0 < sz -> 0 < al -> W <= n * sz ->
  let m := n * sz mod W in 0 < m -> m + al - 1 < W -> fresh st (alloc_size B sz al n) base ->
  exists p st', allocate B sz al n (Some base) st = Ret (Some p, st') /\ m < n * sz /\ reach B st' (Al p m 1 al :: live).
Proof. exact wrapped_short. Qed.
Print Assumptions C04_wraps_refuted.
(** 2^61+1 doubles are given 8 bytes; the next allocation is inside their extent *)
Theorem C04_overlap_refuted : exists p st1 q st2, allocate B0 8 8 huge (Some 4096) [] = Ret (Some p, st1) /\
  allocate B0 1 1 8 (Some 65536) st1 = Ret (Some q, st2) /\ holds_byte (Al p huge 8 8) q /\ holds_byte (Al q 8 1 1) q.
Proof. exact wrap_overlap. Qed.
Print Assumptions C04_overlap_refuted.
(** when only the alignment slack wraps, null is returned and an unused block is kept *)
Theorem C04_slack_refuted : forall B st live sz al n base, reach B st live ->
  0 < n -> 0 < sz -> 0 < al -> al < W -> n * sz < W -> W <= n * sz + al - 1 ->
  fresh st (alloc_size B sz al n) base -> 0 < alloc_size B sz al n ->
  allocate B sz al n (Some base) st = Ret (None, st ++ [mk_block base (alloc_size B sz al n)]).
Proof. exact slack_wraps. Qed.
Print Assumptions C04_slack_refuted.
Example C04_example : let al := 8 in let n := 2 ^ 64 - 4 in 0 < n /\ n * 1 < W /\ W <= n * 1 + al - 1 /\
  fresh [] (alloc_size B0 1 al n) 4096 /\ allocate B0 1 al n (Some 4096) [] = Ret (None, [mk_block 4096 32768]).
Proof. exact ex_slack. Qed.
