(** Properties C10-C21 and C84: the R-tree (RTree.hpp).  The vocabulary is in
    [RTreeSpec.v]: [reach C s B] says that the tree state [s] results from the
    constructor by some history of calls, whose boxes all satisfy [C], and that
    [B] is the bag this history denotes. *)
From Coq Require Import Reals.
From Flocq Require Import Core BinarySingleNaN.
From stdpp Require Import base option list gmap fin_maps.
From Verif Require Import Num Outcome Algo Box BoxFacts BoxOverlap RTree RTreeSpec RTreeThm RTreeArea RTreeCost RTreeMove RTreeExamples RTreeHeight.

(** C10 *)
Theorem C10_no_undefined_behaviour : forall (N : Num) (T : Type) (C : box -> Prop) (E : env) (s : st T) (B : bag T) (o : hop T),
  reach C s B -> env_ok E -> op_pre E s B o -> op_in C B o ->
  exists res s', run_op E o s = Ret (res, s') /\ reach C s' (spec_step o res B).
Proof. exact @safe. Qed.
Print Assumptions C10_no_undefined_behaviour.

Theorem C10_pointer_structure : forall (N : Num) (T : Type) (C : box -> Prop) (s : st T) (B : bag T),
  reach C s B -> heap_ok s.
Proof. exact @reach_heap_ok. Qed.
Print Assumptions C10_pointer_structure.

Example C10_example : reach (fun _ => True) ex_s ex_B /\
  op_pre (T := Z) E0 ex_s ex_B (HInsert (zbox 1 1 2 2) 9%Z) /\ op_pre (T := Z) E0 ex_s ex_B (HErase 8%positive).
Proof. exact (conj ex_reach ex_pre). Qed.

(** C11 *)
Theorem C11_contents : forall (N : Num) (T : Type) (C : box -> Prop) (s : st T) (B : bag T),
  reach C s B -> exists L, contents s = Ret (L, s) /\ L ≡ₚ map_to_list B.
Proof. exact @contents_spec. Qed.
Print Assumptions C11_contents.

Theorem C11_size : forall (N : Num) (T : Type) (C : box -> Prop) (s : st T) (B : bag T),
  reach C s B -> tree_size s = Ret (size B, s) /\ isEmpty s = Ret (bool_decide (B = ∅), s).
Proof. exact @size_spec. Qed.
Print Assumptions C11_size.

Example C11_example : match contents ex_s with
  | Ret (l, _) => bool_decide (l.*1 = [6; 8; 3; 4; 2; 10]%positive) | _ => false end = true.
Proof. exact ex_contents. Qed.
Example C11_example_size : match tree_size ex_s with Ret (n, _) => n =? 6 | _ => false end = true.
Proof. exact ex_size. Qed.

(** C12 *)
Theorem C12_iteration : forall (N : Num) (T : Type) (C : box -> Prop) (s : st T) (B : bag T),
  reach C s B ->
  exists l, iterate_all s = Ret (l, s) /\ NoDup l /\ (forall p, p ∈ l <-> is_Some (B !! p)) /\
    exists b e, begin_it s = Ret (b, s) /\ end_it s = Ret (e, s) /\ (b = e <-> B = ∅).
Proof. exact @iterate_spec. Qed.
Print Assumptions C12_iteration.

Example C12_example : match iterate_all ex_s with
  | Ret (l, _) => bool_decide (l = [6; 8; 3; 4; 2; 10]%positive) | _ => false end = true.
Proof. exact ex_iterate. Qed.

(** C13 *)
Theorem C13_bounds_are_unions : forall (N : Num) (T : Type) (ok : K -> Prop) (C : box -> Prop) (s : st T) (B : bag T),
  OrdLaws N ok -> (forall b, C b -> okbox ok b) -> reach C s B ->
  (forall p n, hp s !! p = Some n -> ndata n = None ->
     okbox ok (nbounds n) /\ is_union ok (leaf_bounds (hp s) p) (nbounds n)) /\
  exists b, tree_bounds s = Ret (b, s) /\
    is_union ok (fun x => exists p v, B !! p = Some (x, v)) b /\ (B = ∅ -> box_valid b = false).
Proof. exact @bounds_spec. Qed.
Print Assumptions C13_bounds_are_unions.

Example C13_example : OrdLaws F32 fok /\ OrdLaws RNum okR /\ reach (okbox fok) ex_s ex_B.
Proof. exact (conj F32_ord (conj RNum_ord ex_okbox)). Qed.

(** C14 *)
Theorem C14_forEachIn_exact : forall (T : Type) (C : @box RNum -> Prop) (s : @st RNum T) (B : gmap ptr (@box RNum * T)) (a : @box RNum),
  reach C s B ->
  exists l, forEachIn a s = Ret (l, s) /\ NoDup l /\
    forall p, p ∈ l <-> exists b v, B !! p = Some (b, v) /\ box_overlaps a b = true.
Proof. exact (fun T C s B a => @forEachIn_spec RNum T _ _ _ R_OverlapLaws C s B a (fun _ _ => I) I). Qed.
Print Assumptions C14_forEachIn_exact.

Theorem C14_forEachAt_exact : forall (T : Type) (C : @box RNum -> Prop) (s : @st RNum T) (B : gmap ptr (@box RNum * T)) (x : @vec2 RNum),
  reach C s B ->
  exists l, forEachAt x s = Ret (l, s) /\ NoDup l /\
    forall p, p ∈ l <-> exists b v, B !! p = Some (b, v) /\ inside x b.
Proof. exact (fun T C s B x => @forEachAt_spec RNum T _ _ _ R_OverlapLaws C s B x (fun _ _ => I) I). Qed.
Print Assumptions C14_forEachAt_exact.

Theorem C14_forEachIn_binary32 : forall (T : Type) (e : Z) (s : @st F32 T) (B : gmap ptr (@box F32 * T)) (a : @box F32),
  (-149 <= e <= 103)%Z -> grid_class e a -> reach (grid_class e) s B ->
  exists l, forEachIn a s = Ret (l, s) /\ NoDup l /\
    forall p, p ∈ l <-> exists b v, B !! p = Some (b, v) /\ box_overlaps a b = true.
Proof. exact (fun T e s B a He => @forEachIn_spec F32 T _ _ _ (F32_OverlapLaws e He) (grid_class e) s B a (fun _ H => H)). Qed.
Print Assumptions C14_forEachIn_binary32.

Theorem C14_forEachAt_binary32 : forall (T : Type) (e : Z) (s : @st F32 T) (B : gmap ptr (@box F32 * T)) (x : @vec2 F32),
  (-149 <= e <= 103)%Z -> grid_class e (Box x x) -> reach (grid_class e) s B ->
  exists l, forEachAt x s = Ret (l, s) /\ NoDup l /\
    forall p, p ∈ l <-> exists b v, B !! p = Some (b, v) /\ inside x b.
Proof. exact (fun T e s B x He => @forEachAt_spec F32 T _ _ _ (F32_OverlapLaws e He) (grid_class e) s B x (fun _ H => H)). Qed.
Print Assumptions C14_forEachAt_binary32.

Example C14_example : reach (grid_class 0) ex_s ex_B.
Proof. exact ex_grid. Qed.
Example C14_example_queries :
  match forEachIn (zbox 10 3 3 3) ex_s with Ret (l, _) => bool_decide (l = [8; 4]%positive) | _ => false end = true /\
  match forEachAt (@V2 F32 (fofZ 12) (fofZ 8)) ex_s with Ret (l, _) => bool_decide (l = [3; 4]%positive) | _ => false end = true.
Proof. exact ex_queries. Qed.
Example C14_example_exact : exists (s : @st RNum Z) B, reach (fun _ => True) s B /\ 0 < size B.
Proof. exact ex_real. Qed.

(** C15 *)
Theorem C15_forEachOverlapping_exact : forall (T : Type) (C : @box RNum -> Prop) (s : @st RNum T) (B : gmap ptr (@box RNum * T)) it a v,
  reach C s B -> B !! it = Some (a, v) ->
  exists l, forEachOverlapping it s = Ret (l, s) /\ NoDup l /\
    forall p, p ∈ l <-> p <> it /\ exists b v, B !! p = Some (b, v) /\ box_overlaps a b = true.
Proof. exact (fun T C s B it a v => @forEachOverlapping_spec RNum T _ _ _ R_OverlapLaws C s B it a v (fun _ _ => I)). Qed.
Print Assumptions C15_forEachOverlapping_exact.

Theorem C15_forEachOverlapping_binary32 : forall (T : Type) (e : Z) (s : @st F32 T) (B : gmap ptr (@box F32 * T)) it a v,
  (-149 <= e <= 103)%Z -> reach (grid_class e) s B -> B !! it = Some (a, v) ->
  exists l, forEachOverlapping it s = Ret (l, s) /\ NoDup l /\
    forall p, p ∈ l <-> p <> it /\ exists b v, B !! p = Some (b, v) /\ box_overlaps a b = true.
Proof. exact (fun T e s B it a v He => @forEachOverlapping_spec F32 T _ _ _ (F32_OverlapLaws e He) (grid_class e) s B it a v (fun _ H => H)). Qed.
Print Assumptions C15_forEachOverlapping_binary32.

(** an entry that occurs several times in the list is reported as often *)
Theorem C15_list_exact : forall (T : Type) (C : @box RNum -> Prop) (s : @st RNum T) (B : gmap ptr (@box RNum * T)) (its : list ptr),
  reach C s B -> (forall q, q ∈ its -> is_Some (B !! q)) ->
  exists l, forEachOverlapping_list its s = Ret (l, s) /\
    (forall p q, (p, q) ∈ l -> is_Some (B !! p) /\ q ∈ its) /\
    forall p q bp vp bq vq, B !! p = Some (bp, vp) -> B !! q = Some (bq, vq) ->
      times (p, q) l = if box_overlaps bq bp then times q its else 0.
Proof. exact (fun T C s B its => @forEachOverlapping_list_spec RNum T _ _ _ R_OverlapLaws C s B its (fun _ _ => I)). Qed.
Print Assumptions C15_list_exact.

Theorem C15_list_binary32 : forall (T : Type) (e : Z) (s : @st F32 T) (B : gmap ptr (@box F32 * T)) (its : list ptr),
  (-149 <= e <= 103)%Z -> reach (grid_class e) s B -> (forall q, q ∈ its -> is_Some (B !! q)) ->
  exists l, forEachOverlapping_list its s = Ret (l, s) /\
    (forall p q, (p, q) ∈ l -> is_Some (B !! p) /\ q ∈ its) /\
    forall p q bp vp bq vq, B !! p = Some (bp, vp) -> B !! q = Some (bq, vq) ->
      times (p, q) l = if box_overlaps bq bp then times q its else 0.
Proof. exact (fun T e s B its He => @forEachOverlapping_list_spec F32 T _ _ _ (F32_OverlapLaws e He) (grid_class e) s B its (fun _ H => H)). Qed.
Print Assumptions C15_list_binary32.

Example C15_example :
  match forEachOverlapping 3%positive ex_s with Ret (l, _) => bool_decide (l = [4]%positive) | _ => false end = true /\
  match forEachOverlapping_list [3; 8; 3]%positive ex_s with
  | Ret (l, _) => bool_decide (l = [(8, 8); (3, 3); (3, 3); (4, 3); (4, 3)]%positive) | _ => false end = true.
Proof. exact ex_overlapping. Qed.

(** C16: [its] are the elements passed to update, in order; [cs] the pairs
    passed to onCollision, in order *)
Theorem C16_updateAndCollide : forall (N : Num) (T : Type) (C : box -> Prop) (E : env) (s : st T) (B : bag T) (upd : ptr -> box),
  reach C s B -> env_ok E -> op_pre E s B (HCollide upd) -> op_in C B (HCollide upd) ->
  exists its cs s', updateAndCollide E upd s = Ret ((its, cs), s') /\
    NoDup its /\ (forall p, p ∈ its <-> is_Some (B !! p)) /\
    reach C s' (map_imap (fun it x => Some (upd it, x.2)) B) /\
    forall (ok : K -> Prop) (P : box -> Prop), OrdLaws N ok -> OverlapLaws N ok P -> (forall b, C b -> P b) ->
      NoDup (cs ++ (flipped <$> cs)) /\
      forall p q, (p, q) ∈ cs \/ (q, p) ∈ cs <->
        is_Some (B !! p) /\ is_Some (B !! q) /\ p <> q /\ box_overlaps (upd p) (upd q) = true.
Proof. exact @collide_spec. Qed.
Print Assumptions C16_updateAndCollide.

Theorem C16_laws_hold : OverlapLaws RNum okR (fun _ => True) /\
  forall e, (-149 <= e <= 103)%Z -> OverlapLaws F32 fok (grid_class e).
Proof. exact (conj R_OverlapLaws F32_OverlapLaws). Qed.
Print Assumptions C16_laws_hold.

Example C16_example : op_pre (T := Z) E0 ex_s ex_B (HCollide ex_upd).
Proof. exact ex_collide_pre. Qed.
Example C16_example_pairs :
  match updateAndCollide E0 ex_upd ex_s with
  | Ret ((its, cs), _) => bool_decide (cs = [(3, 6); (3, 2); (3, 4); (4, 6); (4, 2); (8, 6); (8, 10)]%positive) && (length its =? 6)
  | _ => false end = true.
Proof. exact ex_collide. Qed.

(** C17 *)
Theorem C17_iterators_stable : forall (N : Num) (T : Type) (C : box -> Prop) (s : st T) (B : bag T) (os : list (hop T)) (s' : st T) (B' : bag T) it b v,
  reach C s B -> steps C os (s, B) (s', B') -> B !! it = Some (b, v) -> existsb (kills it) os = false ->
  deref_it it s' = Ret (v, s') /\ bounds_it it s' = Ret (fold_left (rebound it) os b, s').
Proof. exact @iter_stable. Qed.
Print Assumptions C17_iterators_stable.

Theorem C17_end_stable : forall (N : Num) (T : Type) (C : box -> Prop) (s : st T) (B : bag T) (os : list (hop T)) (s' : st T) (B' : bag T),
  reach C s B -> steps C os (s, B) (s', B') ->
  forallb (fun o => match o with HClear => false | _ => true end) os = true ->
  exists e, end_it s = Ret (e, s) /\ end_it s' = Ret (e, s').
Proof. exact @end_stable. Qed.
Print Assumptions C17_end_stable.

Example C17_example :
  (exists s' B', steps (T := Z) (fun _ => True) [HInsert (zbox 1 1 2 2) 9%Z; HErase 3%positive] (ex_s, ex_B) (s', B')) /\
  is_Some (ex_B !! 8%positive) /\ existsb (kills (T := Z) 8%positive) [HInsert (zbox 1 1 2 2) 9%Z; HErase 3%positive] = false.
Proof. exact ex_steps. Qed.

(** C18: [root s] is the end iterator *)
Theorem C18_erase_returns_next : forall (N : Num) (T : Type) (C : box -> Prop) (s : st T) (B : bag T) l1 it l2,
  reach C s B -> iterate_all s = Ret (l1 ++ it :: l2, s) ->
  exists s', erase it s = Ret (match l2 with [] => root s | nx :: _ => nx end, s') /\
    root s' = root s /\ reach C s' (delete it B).
Proof. exact @erase_spec. Qed.
Print Assumptions C18_erase_returns_next.

Theorem C18_erase_loop_visits_all_refuted : exists (s : @st F32 Z) (B : gmap ptr (@box F32 * Z)) (cond : ptr -> bool) vis s' it x,
  reach (fun _ => True) s B /\ erase_if cond s = Ret (vis, s') /\
  B !! it = Some x /\ cond it = false /\ it ∉ vis.
Proof. exact skip_witness. Qed.
Print Assumptions C18_erase_loop_visits_all_refuted.

Theorem C18_erase_loop_visits_once_refuted : exists (s : @st F32 Z) (B : gmap ptr (@box F32 * Z)) (cond : ptr -> bool) vis s' it,
  reach (fun _ => True) s B /\ erase_if cond s = Ret (vis, s') /\ times it vis = 2.
Proof. exact revisit_witness. Qed.
Print Assumptions C18_erase_loop_visits_once_refuted.

Example C18_example : match erase 8%positive ex_s with Ret (nx, _) => bool_decide (nx = 3%positive) | _ => false end = true.
Proof. exact ex_erase_next. Qed.

(** C19 *)
Theorem C19_insert_defined_iff_finite : forall (T : Type) (C : @box F32 -> Prop) (s : @st F32 T) (B : gmap ptr (@box F32 * T)) (E : @env F32) (b : @box F32) (v : T) rb,
  reach C s B -> env_ok E -> tree_bounds s = Ret (rb, s) ->
  (is_finite (box_area (box_combined rb b) : f32) = false -> insert E b v s = UB) /\
  (is_finite (box_area (box_combined rb b) : f32) = true -> exists it s', insert E b v s = Ret (it, s')).
Proof. exact @insert_ub_iff. Qed.
Print Assumptions C19_insert_defined_iff_finite.

Example C19_example : exists (s : @st F32 Z) B (b : @box F32),
  reach (fun _ => True) s B /\ tree_bounds s = Ret (invalid_box, s) /\
  is_finite (vx (bmax b) : f32) = true /\ is_finite (vy (bmax b) : f32) = true /\
  is_finite (box_area (box_combined invalid_box b) : f32) = false.
Proof. exact large_insert. Qed.

(** C20 *)
Theorem C20_insert_picks_cheapest : forall (T : Type) (E : @env RNum) (C : @box RNum -> Prop) (s : @st RNum T) (B : gmap ptr (@box RNum * T)) (b : @box RNum) (v : T),
  reach C s B -> env_ok E -> pq_min E ->
  exists leaf s1 p c, makeLeaf E b v s = Ret (leaf, s1) /\
    insert E b v s = bind (addLeafTo E (Some p) leaf) (fun _ => ret leaf) s1 /\
    position_cost (hp s) b p c /\ forall q c', position_cost (hp s) b q c' -> (c <= c')%R.
Proof. exact @insert_cheapest. Qed.
Print Assumptions C20_insert_picks_cheapest.

Example C20_example : env_ok (@E0 RNum) /\ pq_min (@E0 RNum).
Proof. exact (conj E0_ok E0_pq). Qed.

(** C21 *)
Theorem C21_owned_once : forall (N : Num) (T : Type) (C : box -> Prop) (s : st T) (B : bag T),
  reach C s B ->
  (forall p q d, owns s p d -> owns s q d -> p = q) /\
  (forall d, is_Some (dp s !! d) <-> exists p, owns s p d) /\
  (forall p, (exists d, owns s p d) <-> is_Some (B !! p)).
Proof. exact @owns_spec. Qed.
Print Assumptions C21_owned_once.

(** freeing something twice is UB in the model, so each is freed once *)
Theorem C21_destroy_frees_all : forall (N : Num) (T : Type) (C : box -> Prop) (s : st T) (B : bag T),
  reach C s B -> exists s', destroy s = Ret (tt, s') /\ hp s' = ∅ /\ dp s' = ∅.
Proof. exact @destroy_spec. Qed.
Print Assumptions C21_destroy_frees_all.

Theorem C21_clear_frees_all : forall (N : Num) (T : Type) (C : box -> Prop) (E : env) (s : st T) (B : bag T),
  reach C s B -> env_ok E -> exists s', clear E s = Ret (tt, s') /\ reach C s' ∅ /\
  dp s' = ∅ /\ exists n, hp s' = {[root s' := n]}.
Proof. exact @clear_spec. Qed.
Print Assumptions C21_clear_frees_all.

(** the new tree behaves like the source; any member function called on the
    source, in particular its destructor, is undefined *)
Theorem C21_moved_from_is_indeterminate : forall (N : Num) (T : Type) (s : st T),
  let '(d, src) := move_construct (obj_of s) in
  (forall A (m : @M N T A), on m d = on m (obj_of s)) /\ (forall A (m : @M N T A), on m src = UB).
Proof. exact @move_construct_spec. Qed.
Print Assumptions C21_moved_from_is_indeterminate.

Theorem C21_move_assignment_swaps : forall (N : Num) (T : Type) (s s' : st T),
  move_assign (N := N) (obj_of s) (obj_of s') = (obj_of s', obj_of s).
Proof. exact @move_assign_spec. Qed.
Print Assumptions C21_move_assignment_swaps.

Example C21_example : reach (fun _ => True) ex_s ex_B.
Proof. exact ex_reach. Qed.

(** C84.  [links h k p q]: q is reached from p by k child links. *)
Theorem C84_height : forall (N : Num) (T : Type) (C : box -> Prop) (s : st T) (B : bag T),
  reach C s B -> exists n, tree_height s = Ret (n, s) /\
    (forall k q, links (hp s) k (root s) q -> k <= n) /\
    (B <> ∅ -> exists q, is_Some (B !! q) /\ links (hp s) n (root s) q) /\
    n <= size B <= 2 ^ n.
Proof. exact @height_spec. Qed.
Print Assumptions C84_height.
Theorem C84_logarithmic_refuted : exists (s : @st F32 Z) (B : gmap ptr (@box F32 * Z)) h,
  reach (fun b => okbox fok b) s B /\ tree_height s = Ret (h, s) /\ size B = 16 /\ h = 15 /\ ~ h <= 2 * Nat.log2 (size B) + 2.
Proof. exact height_linear. Qed.
Print Assumptions C84_logarithmic_refuted.
Example C84_example : reach (fun _ => True) ex_s ex_B /\ match tree_height ex_s with Ret (n, _) => n =? 3 | _ => false end = true.
Proof. exact (conj ex_reach ex_height). Qed.
