(** Concrete R-trees for the examples and refutations of P_RTree.v. *)
From Coq Require Import Reals Lra Lia.
From Flocq Require Import Core BinarySingleNaN.
From stdpp Require Import base option list gmap fin_maps.
From Verif Require Import Num Outcome Algo Box BoxFacts BoxOverlap RTree RTreeFun RTreeHeap RTreeInsert RTreeIter RTreeOps RTreeSpec RTreeThm RTreeMove.

Section Build.
Context {N : Num} {T : Type}.
(** index of a cheapest entry *)
Fixpoint argmin_from (l : list (ptr * K)) (i bi : nat) (bk : K) : nat :=
  match l with
  | [] => bi
  | (_, k) :: l => if kltb k bk then argmin_from l (S i) i k else argmin_from l (S i) bi bk
  end.
Definition argmin (l : list (ptr * K)) : nat :=
  match l with [] => 0 | (_, k) :: l => argmin_from l 1 0 k end.
(** an environment: smallest unused address, first cheapest entry *)
Definition E0 : env := Env fresh fresh argmin.
Lemma E0_ok : env_ok E0.
Proof. split; intros X; apply is_fresh. Qed.

(** insert a list of elements, checking the precondition *)
Fixpoint build (l : list (box * T)) (x : st T * gmap ptr (box * T)) : option (st T * gmap ptr (box * T)) :=
  match l with
  | [] => Some x
  | (b, v) :: l =>
      match tree_bounds x.1 with
      | Ret (rb, _) =>
          if area_ok rb b then
            match insert E0 b v x.1 with
            | Ret (p, s) => build l (s, <[p := (b, v)]> x.2)
            | _ => None
            end
          else None
      | _ => None
      end
  end.
Definition start : option (st T * gmap ptr (box * T)) :=
  match construct E0 with Ret s => Some (s, ∅) | _ => None end.
Definition build_all (l : list (box * T)) : option (st T * gmap ptr (box * T)) :=
  match start with Some x => build l x | None => None end.

Lemma build_steps (C : box -> Prop) l : forall x y, build l x = Some y -> (forall b v, (b, v) ∈ l -> C b) ->
  steps C ((fun x => HInsert x.1 x.2) <$> l) x y.
Proof.
  induction l as [|[b v] l IH]; intros x y H HC; cbn [build] in H; [assert (x = y) as <- by congruence; constructor|].
  destruct (tree_bounds x.1) as [[rb s']| | |] eqn:TB; try discriminate.
  destruct (area_ok rb b) eqn:AO; [|discriminate].
  destruct (insert E0 b v x.1) as [[p s]| | |] eqn:IN; try discriminate.
  cbn. eapply steps_cons; [|apply (IH _ _ H)].
  - exists E0, (Some p). split; [apply E0_ok|]. split; [|split; [|split]].
    + cbn [op_pre fst]. intros rb' H'. rewrite TB in H'. injection H' as <- _. exact AO.
    + cbn. eapply HC. left.
    + cbn. unfold bind. rewrite IN. reflexivity.
    + reflexivity.
  - intros b' v' X. eapply HC. right. exact X.
Qed.
Lemma build_reach (C : box -> Prop) l s B : build_all l = Some (s, B) -> (forall b v, (b, v) ∈ l -> C b) -> reach C s B.
Proof.
  unfold build_all, start. destruct (construct E0) as [s0| | |] eqn:CO; try discriminate. intros H HC.
  exists E0, s0. eexists. split; [apply E0_ok|]. split; [exact CO|]. apply (build_steps C l _ _ H HC).
Qed.
End Build.

(** six boxes in binary32 *)
Definition zbox (x y w h : Z) : @box F32 :=
  @Box F32 (@V2 F32 (fofZ x) (fofZ y)) (@V2 F32 (fofZ (x + w)) (fofZ (y + h))).
Definition ex_list : list (@box F32 * Z) :=
  [(zbox 18 18 4 1, 1%Z); (zbox 11 7 1 5, 2%Z); (zbox 12 6 5 3, 3%Z); (zbox 4 0 1 4, 4%Z); (zbox 9 3 3 2, 5%Z); (zbox 6 18 1 2, 6%Z)].
Definition ex6 : @st F32 Z * gmap ptr (@box F32 * Z) :=
  match build_all ex_list with Some x => x | None => (St ∅ ∅ 1%positive, ∅) end.
Notation ex_s := (ex6.1).
Notation ex_B := (ex6.2).
Lemma ex_built : build_all ex_list = Some (ex_s, ex_B).
Proof.
  assert (H : match build_all ex_list with Some _ => true | None => false end = true) by (vm_compute; reflexivity).
  unfold ex6. revert H. destruct (build_all ex_list) as [[s B]|]; [reflexivity|discriminate].
Qed.
Lemma ex_reach : reach (fun _ => True) ex_s ex_B.
Proof. apply (build_reach _ ex_list); [exact ex_built|auto]. Qed.
Lemma ex_okbox : reach (okbox fok) ex_s ex_B.
Proof.
  apply (build_reach _ ex_list); [exact ex_built|]. intros b v X. unfold ex_list in X.
  repeat (apply elem_of_cons in X; destruct X as [X|X]; [injection X as -> ->; repeat split|]). inversion X.
Qed.
Lemma on_grid_Z (z : Z) : (Z.abs z <= 2 ^ 22)%Z -> on_grid 0 (2 ^ 22) (fofZ z).
Proof.
  intros H. pose proof (binary_normalize_correct fprec femax fHprec fHmax mode_NE z 0 false) as C.
  assert (F : F2R (Float radix2 z 0) = IZR z) by (unfold F2R; cbn; lra).
  cbv zeta in C. rewrite F in C.
  assert (G : (IZR z = IZR z * bpow radix2 0)%R) by (cbn; lra).
  rewrite (round_generic radix2 (SpecFloat.fexp fprec femax)) in C.
  2:{ apply valid_rnd_round_mode. } 2:{ rewrite G. apply grid_format; [lia|]. change (2^24)%Z with (4 * 2^22)%Z. lia. }
  rewrite Rlt_bool_true in C.
  2:{ rewrite G. apply grid_bound; [lia|]. change (2^24)%Z with (4 * 2^22)%Z. lia. }
  destruct C as (C1 & C2 & _). split; [exact C2|]. exists z. split; [exact H|]. unfold fofZ. rewrite C1. exact G.
Qed.
Lemma ex_grid : reach (grid_class 0) ex_s ex_B.
Proof.
  apply (build_reach _ ex_list); [exact ex_built|]. intros b v X. unfold ex_list in X.
  assert (G : forall x y w h, (0 <= x < 100 -> 0 <= y < 100 -> 0 <= w < 100 -> 0 <= h < 100 -> grid_class 0 (zbox x y w h))%Z).
  { intros x y w h Hx Hy Hw Hh. assert (B : box_on_grid 0 (zbox x y w h)).
    { repeat split; cbn [zbox bmin bmax vx vy]; try (apply on_grid_Z; change (2^22)%Z with 4194304%Z; lia). }
    split; [eapply grid_ok; exact B|auto]. }
  repeat (apply elem_of_cons in X; destruct X as [X|X]; [injection X as -> ->; apply G; lia|]). inversion X.
Qed.

(** erasing element 6 while iterating over [ex_s]: 3 and 4 are never visited *)
Lemma skip_witness : exists (s : @st F32 Z) (B : gmap ptr (@box F32 * Z)) (cond : ptr -> bool) vis s' it x,
  reach (fun _ => True) s B /\ erase_if cond s = Ret (vis, s') /\
  B !! it = Some x /\ cond it = false /\ it ∉ vis.
Proof.
  set (cond := fun q : ptr => bool_decide (q = 6%positive)).
  assert (H : match erase_if cond ex_s with Ret (vis, _) => bool_decide (vis = [6; 8; 2; 10]%positive) | _ => false end = true)
    by (vm_compute; reflexivity).
  assert (HB : match ex_B !! 3%positive with Some _ => true | None => false end = true) by (vm_compute; reflexivity).
  destruct (erase_if cond ex_s) as [[vis s']| | |] eqn:HE; [|discriminate H..].
  destruct (ex_B !! 3%positive) as [x|] eqn:HX; [|discriminate HB].
  apply bool_decide_eq_true in H. subst vis.
  exists ex_s, ex_B, cond, [6; 8; 2; 10]%positive, s', 3%positive, x.
  split; [exact ex_reach|]. split; [exact HE|]. split; [exact HX|]. split; [reflexivity|].
  rewrite !elem_of_cons, elem_of_nil. intros X. repeat destruct X as [X|X]; (discriminate X || exact X).
Qed.
Definition ex_list4 : list (@box F32 * Z) :=
  [(zbox 12 8 2 4, 1%Z); (zbox 2 4 4 1, 2%Z); (zbox 3 19 2 2, 3%Z); (zbox 15 18 4 1, 4%Z)].
(** erasing one element of four while iterating: two elements are visited twice *)
Lemma revisit_witness : exists (s : @st F32 Z) (B : gmap ptr (@box F32 * Z)) (cond : ptr -> bool) vis s' it,
  reach (fun _ => True) s B /\ erase_if cond s = Ret (vis, s') /\ times it vis = 2.
Proof.
  set (cond := fun q : ptr => bool_decide (q = 3%positive)).
  assert (H : match build_all ex_list4 with
              | Some (s, B) => match erase_if cond s with Ret (vis, _) => bool_decide (times 6%positive vis = 2) | _ => false end
              | None => false end = true) by (vm_compute; reflexivity).
  destruct (build_all ex_list4) as [[s B]|] eqn:HB; [|discriminate H].
  destruct (erase_if cond s) as [[vis s']| | |] eqn:HE; [|discriminate H..].
  apply bool_decide_eq_true in H. exists s, B, cond, vis, s', 6%positive. split; [|auto].
  eapply build_reach; [exact HB|auto].
Qed.

(** C19: a box of finite size whose area overflows *)
Lemma large_insert : exists (s : @st F32 Z) B (b : @box F32),
  reach (fun _ => True) s B /\ tree_bounds s = Ret (invalid_box, s) /\
  is_finite (vx (bmax b) : f32) = true /\ is_finite (vy (bmax b) : f32) = true /\
  is_finite (box_area (box_combined invalid_box b) : f32) = false.
Proof.
  destruct (construct_rep (T := Z) (@E0 F32)) as (s0 & HC & HR & _).
  exists s0, ∅, (zbox 0 0 (2 ^ 100) (2 ^ 100)). split; [|split].
  - exists E0, s0, []. split; [apply E0_ok|]. split; [exact HC|constructor].
  - exact (tree_bounds_rep [] s0 _ (proj1 HR)).
  - vm_compute. auto.
Qed.
Lemma lookup_end {A} (l : list A) x i : length l = i -> (l ++ [x]) !! i = Some x.
Proof. intros <-. rewrite lookup_app_r by lia. rewrite Nat.sub_diag. reflexivity. Qed.
(** C20: the example environment pops a cheapest entry *)
Lemma argmin_from_spec (l : list (ptr * @K RNum)) : forall i bi bk (pre : list (ptr * @K RNum)),
  length pre = i -> (exists x, pre !! bi = Some x /\ x.2 = bk) -> (forall y, y ∈ pre -> (bk <= y.2)%R) ->
  exists x, (pre ++ l) !! argmin_from l i bi bk = Some x /\ forall y, y ∈ pre ++ l -> (x.2 <= y.2)%R.
Proof.
  induction l as [|[p k] l IH]; intros i bi bk pre HL (x & Hx & Ex) HM; cbn [argmin_from].
  - exists x. rewrite app_nil_r, Ex. auto.
  - assert (A : pre ++ (p, k) :: l = (pre ++ [(p, k)]) ++ l) by (rewrite <- app_assoc; reflexivity). rewrite A.
    cbn [kltb RNum]. destruct (Rltb_spec k bk).
    + apply IH; [rewrite app_length, HL; cbn; lia| |].
      * exists (p, k). split; [|reflexivity]. exact (lookup_end pre (p, k) i HL).
      * intros y Hy. apply elem_of_app in Hy. destruct Hy as [Hy|Hy]; [apply Rle_trans with bk; [apply Rlt_le; assumption|exact (HM y Hy)]|].
        apply elem_of_list_singleton in Hy. subst y. cbn. lra.
    + apply IH; [rewrite app_length, HL; cbn; lia| |].
      * exists x. split; [|exact Ex]. apply lookup_app_l_Some. exact Hx.
      * intros y Hy. apply elem_of_app in Hy. destruct Hy as [Hy|Hy]; [auto|].
        apply elem_of_list_singleton in Hy. subst y. cbn. lra.
Qed.
Lemma E0_pq : pq_min (@E0 RNum).
Proof.
  intros q x y Hx Hy. cbn [pq_top E0] in Hx. destruct q as [|[p k] l]; [inversion Hy|].
  destruct (argmin_from_spec l 1 0 k [(p, k)]) as (z & Hz & Mz); [reflexivity|exists (p, k); auto| |].
  { intros w Hw. apply elem_of_list_singleton in Hw. subst w. cbn. lra. }
  cbn [app] in Hz, Mz. change (argmin ((p, k) :: l)) with (argmin_from l 1 0 k) in Hx.
  rewrite Nat.mod_small in Hx by (apply lookup_lt_Some in Hz; exact Hz).
  assert (z = x) as -> by (pose proof (eq_trans (eq_sym Hz) Hx) as EQ; injection EQ as EQ; exact EQ).
  specialize (Mz y Hy). cbn. rcmp; [lra|reflexivity].
Qed.
(** a reachable tree with elements in exact arithmetic *)
Lemma ex_real : exists (s : @st RNum Z) B, reach (fun _ => True) s B /\ 0 < size B.
Proof.
  destruct (construct_rep (T := Z) (@E0 RNum)) as (s0 & HC & _ & _).
  assert (R0 : reach (fun _ => True) s0 ∅).
  { exists E0, s0, []. split; [apply E0_ok|]. split; [exact HC|constructor]. }
  destruct (safe (fun _ => True) E0 s0 ∅ (HInsert (@Box RNum (@V2 RNum 0%R 0%R) (@V2 RNum 1%R 1%R)) 7%Z) R0 E0_ok) as (res & s' & RUN & R1).
  { intros rb _. reflexivity. } { exact I. }
  destruct res as [it|].
  - exists s', (<[it := (@Box RNum (@V2 RNum 0%R 0%R) (@V2 RNum 1%R 1%R), 7%Z)]> ∅). split; [exact R1|].
    rewrite map_size_insert. rewrite lookup_empty. cbn. lia.
  - exfalso. cbn in RUN. unfold bind, ret in RUN. destruct (insert _ _ _ _) as [[p s2]| | |]; discriminate.
Qed.

(** ** Moves (C21) *)
Lemma move_construct_spec {N : Num} {T} (s : st T) : let '(d, src) := move_construct (obj_of s) in
  (forall A (m : @M N T A), on m d = on m (obj_of s)) /\ (forall A (m : @M N T A), on m src = UB).
Proof. cbn. split; reflexivity. Qed.
Lemma move_assign_spec {N : Num} {T} (s s' : st T) :
  move_assign (N := N) (obj_of s) (obj_of s') = (obj_of s', obj_of s).
Proof. reflexivity. Qed.

(** ** Results computed on [ex_s] *)
Lemma ex_contents : match contents ex_s with
  | Ret (l, _) => bool_decide (l.*1 = [6; 8; 3; 4; 2; 10]%positive) | _ => false end = true.
Proof. vm_compute. reflexivity. Qed.
Lemma ex_size : match tree_size ex_s with Ret (n, _) => n =? 6 | _ => false end = true.
Proof. vm_compute. reflexivity. Qed.
Lemma ex_queries :
  match forEachIn (zbox 10 3 3 3) ex_s with Ret (l, _) => bool_decide (l = [8; 4]%positive) | _ => false end = true /\
  match forEachAt (@V2 F32 (fofZ 12) (fofZ 8)) ex_s with Ret (l, _) => bool_decide (l = [3; 4]%positive) | _ => false end = true.
Proof. vm_compute. auto. Qed.
Lemma ex_overlapping :
  match forEachOverlapping 3%positive ex_s with Ret (l, _) => bool_decide (l = [4]%positive) | _ => false end = true /\
  match forEachOverlapping_list [3; 8; 3]%positive ex_s with
  | Ret (l, _) => bool_decide (l = [(8, 8); (3, 3); (3, 3); (4, 3); (4, 3)]%positive) | _ => false end = true.
Proof. vm_compute. auto. Qed.
Definition ex_upd (p : ptr) : @box F32 := zbox (Zpos p) 0 3 1.
Lemma ex_collide :
  match updateAndCollide E0 ex_upd ex_s with
  | Ret ((its, cs), _) => bool_decide (cs = [(3, 6); (3, 2); (3, 4); (4, 6); (4, 2); (8, 6); (8, 10)]%positive) && (length its =? 6)
  | _ => false end = true.
Proof. vm_compute. reflexivity. Qed.
(** the hypotheses of C16 hold for that call *)
Lemma ex_collide_pre : op_pre (T := Z) E0 ex_s ex_B (HCollide ex_upd).
Proof.
  intros it x rb HB _. exfalso. assert (H : (size ex_B =? 6) = true) by (vm_compute; reflexivity).
  apply Nat.eqb_eq in H. rewrite HB, map_size_singleton in H. discriminate H.
Qed.
Lemma ex_iterate : match iterate_all ex_s with
  | Ret (l, _) => bool_decide (l = [6; 8; 3; 4; 2; 10]%positive) | _ => false end = true.
Proof. vm_compute. reflexivity. Qed.
Lemma ex_erase_next : match erase 8%positive ex_s with Ret (nx, _) => bool_decide (nx = 3%positive) | _ => false end = true.
Proof. vm_compute. reflexivity. Qed.
Lemma is_Some_bool {A} (o : option A) : match o with Some _ => true | None => false end = true -> is_Some o.
Proof. destruct o as [a|]; [exists a; reflexivity|discriminate]. Qed.
Lemma ex_some8 : is_Some (ex_B !! 8%positive).
Proof. apply is_Some_bool. vm_compute. reflexivity. Qed.
Lemma ex_some3 : is_Some (ex_B !! 3%positive).
Proof. apply is_Some_bool. vm_compute. reflexivity. Qed.
(** a call that satisfies the preconditions in [ex_s] *)
Lemma ex_pre : op_pre (T := Z) E0 ex_s ex_B (HInsert (zbox 1 1 2 2) 9%Z) /\ op_pre (T := Z) E0 ex_s ex_B (HErase 8%positive).
Proof.
  split.
  - intros rb H. assert (X : match tree_bounds ex_s with Ret (rb, _) => area_ok rb (zbox 1 1 2 2) | _ => false end = true)
      by (vm_compute; reflexivity).
    rewrite H in X. exact X.
  - exact ex_some8.
Qed.
(** element 8 survives an insertion and an erasure of 3 *)
Lemma two_steps {N : Num} {T} (s : st T) (B : bag T) E b v q : reach (fun _ => True) s B -> env_ok E ->
  op_pre E s B (HInsert b v) -> is_Some (B !! q) ->
  exists s' B', steps (fun _ => True) [HInsert b v; HErase q] (s, B) (s', B').
Proof.
  intros HR HE P1 H3.
  destruct (safe (fun _ => True) E s B _ HR HE P1 I) as (r1 & s1 & RUN1 & R1).
  set (B1 := spec_step (HInsert b v) r1 B) in *.
  assert (H3' : op_pre E s1 B1 (HErase q)).
  { cbn [op_pre]. unfold B1. cbn [spec_step]. destruct r1 as [it|]; [|exact H3].
    destruct (decide (it = q)) as [->|NE]; [rewrite lookup_insert; eexists; reflexivity|rewrite lookup_insert_ne by exact NE; exact H3]. }
  destruct (safe (fun _ => True) E s1 B1 _ R1 HE H3' I) as (r2 & s2 & RUN2 & R2).
  exists s2, (spec_step (HErase q) r2 B1).
  apply (steps_cons _ _ _ (s, B) (s1, B1)); [|apply (steps_cons _ _ _ (s1, B1) (s2, spec_step (HErase q) r2 B1)); [|constructor]].
  - exists E, r1. split; [exact HE|]. split; [exact P1|]. split; [exact I|]. split; [exact RUN1|reflexivity].
  - exists E, r2. split; [exact HE|]. split; [exact H3'|]. split; [exact I|]. split; [exact RUN2|reflexivity].
Qed.
Lemma ex_steps : (exists s' B', steps (T := Z) (fun _ => True) [HInsert (zbox 1 1 2 2) 9%Z; HErase 3%positive] (ex_s, ex_B) (s', B')) /\
  is_Some (ex_B !! 8%positive) /\ existsb (kills (T := Z) 8%positive) [HInsert (zbox 1 1 2 2) 9%Z; HErase 3%positive] = false.
Proof.
  split; [|split; [exact ex_some8|reflexivity]].
  exact (two_steps ex_s ex_B E0 _ _ _ ex_reach E0_ok (proj1 ex_pre) ex_some3).
Qed.
