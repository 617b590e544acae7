(** Support points, edges and polygon properties (C29-C32). *)
From Coq Require Import ZArith List Bool Reals Lra Psatz Lia Arith Permutation.
From Verif Require Import Num Outcome Box Mat MatFacts MatSolve Geom GeomClosest.
Import ListNotations.

(** ** C29 *)
Section Support.
Context {N : Num} {ok : K -> Prop} {OL : OrdLaws N ok}.

Lemma le_lt (a b c : K) : ok a -> ok b -> ok c -> kltb b a = false -> kltb b c = true -> kltb a c = true.
Proof.
  intros A B C H1 H2. destruct (kltb a c) eqn:E; [reflexivity|].
  assert (X : kltb b c = false) by (apply (ord_trans c a b); assumption). congruence.
Qed.

Lemma furthest_loop_spec (d : vec2) (vs : list vec2) : forall best m,
  ok m -> (forall x, In x vs -> ok (vdot x d)) -> m = vdot best d ->
  let r := furthest_loop d vs best m in
  (r = best /\ forall x, In x vs -> kltb m (vdot x d) = false) \/
  (exists l1 l2, vs = l1 ++ r :: l2 /\ kltb m (vdot r d) = true /\
     (forall x, In x l1 -> kltb (vdot x d) (vdot r d) = true) /\
     (forall x, In x l2 -> kltb (vdot r d) (vdot x d) = false)).
Proof.
  induction vs as [|v vs IH]; intros best m OM OK EM; cbn [furthest_loop].
  { left. split; [reflexivity|]. intros x []. }
  assert (OV : ok (vdot v d)) by (apply OK; left; reflexivity).
  assert (OKS : forall x, In x vs -> ok (vdot x d)) by (intros; apply OK; right; assumption).
  cbv zeta. destruct (kltb m (vdot v d)) eqn:E.
  - destruct (IH v (vdot v d) OV OKS eq_refl) as [[R H]|(l1 & l2 & R1 & R2 & R3 & R4)].
    + right. exists [], vs. rewrite R. split; [reflexivity|]. split; [exact E|]. split; [intros x []|exact H].
    + right. set (r := furthest_loop _ _ _ _) in *. exists (v :: l1), l2. split; [cbn; congruence|].
      assert (OR : ok (vdot r d)) by (apply OKS; rewrite R1; apply in_or_app; right; left; reflexivity).
      split; [|split; [|exact R4]].
      * apply (le_lt m (vdot v d) (vdot r d)); auto. apply ord_asym; auto.
      * intros x [<-|I]; auto.
  - destruct (IH best m OM OKS EM) as [[R H]|(l1 & l2 & R1 & R2 & R3 & R4)].
    + left. split; [exact R|]. intros x [<-|I]; auto.
    + right. set (r := furthest_loop _ _ _ _) in *. exists (v :: l1), l2. split; [cbn; congruence|].
      assert (OR : ok (vdot r d)) by (apply OKS; rewrite R1; apply in_or_app; right; left; reflexivity).
      split; [exact R2|split; [|exact R4]]. intros x [<-|I]; [|auto]. apply (le_lt (vdot v d) m (vdot r d)); auto.
Qed.

Lemma furthest_spec (vs : list vec2) (d : vec2) : vany_ne0 d = true -> vs <> [] ->
  (forall x, In x vs -> ok (vdot x d)) ->
  exists l1 v l2, vs = l1 ++ v :: l2 /\ furthest vs d = Ret v /\
    (forall x, In x l1 -> kltb (vdot x d) (vdot v d) = true) /\
    (forall x, In x vs -> kltb (vdot v d) (vdot x d) = false).
Proof.
  intros D NE OK. destruct vs as [|v0 vs]; [congruence|]. unfold furthest. rewrite D.
  assert (O0 : ok (vdot v0 d)) by (apply OK; left; reflexivity).
  destruct (furthest_loop_spec d (v0 :: vs) v0 (vdot v0 d) O0 OK eq_refl) as [[R H]|(l1 & l2 & R1 & R2 & R3 & R4)].
  - exists [], v0, vs. rewrite R. repeat split; auto.
  - set (r := furthest_loop _ _ _ _) in *. exists l1, r, l2. repeat split; auto.
    assert (OR : ok (vdot r d)) by (apply OK; rewrite R1; apply in_or_app; right; left; reflexivity).
    intros x I. assert (OX := OK x I). rewrite R1 in I. apply in_app_or in I as [I|[<-|I]]; [|apply ord_irrefl; auto|auto].
    apply ord_asym; auto.
Qed.
End Support.

Lemma furthest_zero {N : Num} (vs : list vec2) (d : vec2) : keqb (vx d) k0 = true -> keqb (vy d) k0 = true ->
  furthest vs d = Throw.
Proof. intros H1 H2. unfold furthest, vany_ne0. rewrite H1, H2. reflexivity. Qed.
Lemma furthest_nonzero {N : Num} (d : vec2) : keqb (vx d) k0 = false \/ keqb (vy d) k0 = false -> vany_ne0 d = true.
Proof. unfold vany_ne0. intros [-> | ->]; cbn; auto using orb_true_r. Qed.

(** ** C32 *)
Section EdgeFacts.
(** the edge arriving at vertex k of n *)
Definition edge_to (n k : nat) : edge := ((k + n - 1) mod n, k).

Lemma edges_loop_spec n : forall fuel f t, t < n -> n - t <= fuel ->
  edges_loop fuel n (f, t) = Ret ((f, t) :: map (fun i => (i, S i)) (seq t (n - t - 1))).
Proof.
  destruct n as [|m]; [lia|]. induction fuel as [|fuel IH]; intros f t T F; [lia|].
  assert (NE : forall a, edge_eqb (a, t) (m, S m) = false).
  { intros a. unfold edge_eqb. cbn [fst snd]. apply andb_false_iff. right. apply Nat.eqb_neq. lia. }
  cbn [edges_loop edges_end obind]. rewrite NE. unfold edge_incr. cbn [snd].
  destruct (Nat.ltb_spec t (S m)); [|lia]. cbn [obind].
  destruct (Nat.eq_dec t m) as [->|NM].
  - replace (S m - m - 1) with 0 by lia. cbn [seq map].
    assert (EE : edge_eqb (m, S m) (m, S m) = true) by (unfold edge_eqb; cbn [fst snd]; rewrite !Nat.eqb_refl; reflexivity).
    destruct fuel; cbn [edges_loop edges_end obind]; rewrite EE; reflexivity.
  - rewrite IH by lia. cbn [obind]. replace (S m - t - 1) with (S (S m - S t - 1)) by lia. reflexivity.
Qed.
Lemma all_edges_spec n : 0 < n -> all_edges n = Ret ((n - 1, 0) :: map (fun i => (i, S i)) (seq 0 (n - 1))).
Proof.
  intros H. unfold all_edges. destruct n as [|m]; [lia|]. cbn [edges_begin obind].
  rewrite edges_loop_spec by lia. replace (S m - 1) with m by lia. replace (S m - 0 - 1) with m by lia. reflexivity.
Qed.
Lemma all_edges_nth n : 0 < n -> exists es, all_edges n = Ret es /\ length es = n /\
  forall k, k < n -> nth_error es k = Some (edge_to n k).
Proof.
  intros H. eexists. split; [apply all_edges_spec; exact H|]. split; [cbn; rewrite map_length, seq_length; lia|].
  intros k K. unfold edge_to. destruct k as [|k]; cbn [nth_error].
  - rewrite Nat.mod_small by lia. do 2 f_equal.
  - replace (S k + n - 1) with (k + 1 * n) by lia. rewrite Nat.mod_add, Nat.mod_small by lia.
    rewrite nth_error_map, nth_error_nth' with (d := 0) by (rewrite seq_length; lia). rewrite seq_nth by lia. reflexivity.
Qed.
Lemma edge_next_spec n k : k < n -> edge_next n (edge_to n k) = Ret (edge_to n ((k + 1) mod n)).
Proof.
  intros H. unfold edge_next, edge_incr, edge_to. cbn [snd]. destruct (Nat.ltb_spec k n); [|lia]. cbn [obind].
  destruct n as [|m]; [lia|]. cbn [edges_end edges_begin obind]. unfold edge_eqb. cbn [fst snd].
  destruct (Nat.eq_dec k m) as [->|NE].
  - rewrite !Nat.eqb_refl. cbn [andb]. replace (m + 1) with (S m) by lia. rewrite Nat.mod_same by lia.
    rewrite (Nat.mod_small (0 + S m - 1)) by lia. do 2 f_equal; lia.
  - destruct (Nat.eqb_spec k m); [contradiction|]. cbn [andb]. rewrite (Nat.mod_small (k + 1)) by lia.
    replace (k + 1 + S m - 1) with (k + 1 * S m) by lia. rewrite Nat.mod_add, Nat.mod_small by lia. do 2 f_equal; lia.
Qed.
Lemma edge_previous_spec n k : k < n -> edge_previous n (edge_to n k) = Ret (edge_to n ((k + n - 1) mod n)).
Proof.
  intros H. unfold edge_previous, edge_to. cbn [fst].
  destruct k as [|k].
  - rewrite (Nat.mod_small (0 + n - 1)) by lia. replace (0 + n - 1) with (n - 1) by lia.
    destruct (n - 1) as [|p] eqn:E; [assert (n = 1) by lia; subst; reflexivity|].
    do 2 f_equal. replace (S p + n - 1) with (p + 1 * n) by lia. rewrite Nat.mod_add, Nat.mod_small by lia. reflexivity.
  - replace (S k + n - 1) with (k + 1 * n) by lia. rewrite Nat.mod_add, Nat.mod_small by lia.
    destruct k as [|p].
    + destruct n as [|m]; [lia|]. cbn [edges_begin]. rewrite Nat.mod_small by lia. do 2 f_equal; lia.
    + do 2 f_equal. replace (S p + n - 1) with (p + 1 * n) by lia. rewrite Nat.mod_add, Nat.mod_small by lia. reflexivity.
Qed.
Lemma edge_inverse n k : k < n ->
  (let* e := edge_next n (edge_to n k) in edge_previous n e)%out = Ret (edge_to n k) /\
  (let* e := edge_previous n (edge_to n k) in edge_next n e)%out = Ret (edge_to n k).
Proof.
  intros H. rewrite edge_next_spec, edge_previous_spec by exact H. cbn [obind].
  assert (M : forall x, x mod n < n) by (intros; apply Nat.mod_upper_bound; lia).
  rewrite edge_next_spec, edge_previous_spec by apply M. split; do 2 f_equal.
  - destruct (Nat.eq_dec k (n - 1)) as [->|].
    + replace (n - 1 + 1) with n by lia. rewrite Nat.mod_same by lia. rewrite Nat.mod_small by lia. lia.
    + rewrite (Nat.mod_small (k + 1)) by lia. replace (k + 1 + n - 1) with (k + 1 * n) by lia. rewrite Nat.mod_add, Nat.mod_small; lia.
  - destruct k as [|k].
    + rewrite (Nat.mod_small (0 + n - 1)) by lia. replace (0 + n - 1 + 1) with n by lia. apply Nat.mod_same. lia.
    + replace (S k + n - 1) with (k + 1 * n) by lia. rewrite Nat.mod_add, (Nat.mod_small k) by lia. rewrite Nat.mod_small; lia.
Qed.
End EdgeFacts.

(** ** vertex pairs of the edges *)
Section Cyc.
Context {T : Type}.
Fixpoint path (p : T) (vs : list T) : list (T * T) :=
  match vs with [] => [] | v :: vs => (p, v) :: path v vs end.
Definition cyc (vs : list T) : list (T * T) :=
  match vs with [] => [] | v :: vs' => path (last vs' v) vs end.

Lemma last_cons_nd (x : T) l d : last (x :: l) d = last l x.
Proof.
  revert x d. induction l as [|y l IH]; intros x d; [reflexivity|].
  change (last (x :: y :: l) d) with (last (y :: l) d). rewrite IH. symmetry. apply IH.
Qed.
Lemma path_app p l1 l2 : path p (l1 ++ l2) = path p l1 ++ path (last l1 p) l2.
Proof.
  revert p. induction l1 as [|x l1 IH]; intros p; [reflexivity|]. cbn [app path]. rewrite IH, last_cons_nd. reflexivity.
Qed.
Lemma last_app_ne (l1 l2 : list T) d e : l2 <> [] -> last (l1 ++ l2) d = last l2 e.
Proof.
  intros H. destruct l2 as [|y l2]; [congruence|]. revert d. induction l1 as [|x l1 IH]; intros d; cbn [app].
  - rewrite !last_cons_nd. reflexivity.
  - rewrite last_cons_nd. apply IH.
Qed.
Lemma cyc_cons v vs : cyc (v :: vs) = (last vs v, v) :: path v vs.
Proof. reflexivity. Qed.
Lemma cyc_path l d : l <> [] -> cyc l = path (last l d) l.
Proof. destruct l as [|v l]; [congruence|]. intros _. rewrite last_cons_nd. reflexivity. Qed.
Lemma cyc_rotate l1 l2 : Permutation (cyc (l1 ++ l2)) (cyc (l2 ++ l1)).
Proof.
  destruct l1 as [|x l1]; [rewrite app_nil_r; reflexivity|]. destruct l2 as [|y l2]; [rewrite app_nil_r; reflexivity|].
  rewrite (cyc_path _ x) by discriminate. rewrite (cyc_path ((y :: l2) ++ _) x) by discriminate.
  rewrite (last_app_ne (x :: l1) (y :: l2) x x), (last_app_ne (y :: l2) (x :: l1) x x) by discriminate.
  rewrite !path_app.
  assert (forall l (a b : T), l <> [] -> last l a = last l b) as LI.
  { intros l a b H. destruct l; [congruence|]. rewrite !last_cons_nd. reflexivity. }
  rewrite (LI (x :: l1) (last (y :: l2) x) x), (LI (y :: l2) (last (x :: l1) x) x) by discriminate.
  apply Permutation_app_comm.
Qed.
Lemma path_rev p vs : exists tail, rev (p :: vs) = last vs p :: tail /\
  path (last vs p) tail = map (fun e => (snd e, fst e)) (rev (path p vs)).
Proof.
  induction vs as [|x vs IH] using rev_ind; [exists []; split; reflexivity|].
  destruct IH as (tail & E1 & E2). exists (last vs p :: tail).
  rewrite (last_app_ne vs [x] p p) by discriminate. cbn [last]. split.
  - change (p :: vs ++ [x]) with ((p :: vs) ++ [x]). rewrite rev_app_distr. cbn [rev app] in *. rewrite E1. reflexivity.
  - rewrite path_app, rev_app_distr. cbn [path rev app map fst snd]. rewrite E2. reflexivity.
Qed.
Lemma cyc_rev vs : Permutation (cyc (rev vs)) (map (fun e => (snd e, fst e)) (cyc vs)).
Proof.
  destruct vs as [|p vs]; [reflexivity|]. destruct (path_rev p vs) as (tail & E1 & E2). rewrite E1.
  rewrite !cyc_cons. cbn [map fst snd]. rewrite E2.
  assert (L : last tail (last vs p) = p).
  { rewrite <- (last_cons_nd _ tail p). rewrite <- E1. cbn [rev]. rewrite (last_app_ne (rev vs) [p] p p) by discriminate. reflexivity. }
  rewrite L. constructor. apply Permutation_map. symmetry. apply Permutation_rev.
Qed.
End Cyc.
Lemma path_map {T U} (f : T -> U) p vs : path (f p) (map f vs) = map (fun e => (f (fst e), f (snd e))) (path p vs).
Proof. revert p. induction vs as [|x vs IH]; intros p; cbn; [reflexivity|]. rewrite IH. reflexivity. Qed.
Lemma last_map {T U} (f : T -> U) p vs : last (map f vs) (f p) = f (last vs p).
Proof. revert p. induction vs as [|x vs IH]; intros p; [reflexivity|]. cbn [map]. rewrite !last_cons_nd. apply IH. Qed.
Lemma cyc_map {T U} (f : T -> U) vs : cyc (map f vs) = map (fun e => (f (fst e), f (snd e))) (cyc vs).
Proof. destruct vs as [|v vs]; [reflexivity|]. cbn [map]. rewrite !cyc_cons, last_map, path_map. reflexivity. Qed.

Lemma nth_error_last {T} (vs : list T) v : nth_error (v :: vs) (length vs) = Some (last vs v).
Proof. revert v. induction vs as [|x vs IH]; intros v; [reflexivity|]. cbn [length nth_error]. rewrite last_cons_nd. apply IH. Qed.

Section EV.
Context {N : Num}.
Lemma deref_seq (vs0 : list vec2) : forall k p vs, (forall i x, nth_error (p :: vs) i = Some x -> nth_error vs0 (k + i) = Some x) ->
  deref_edges vs0 (map (fun i => (i, S i)) (seq k (length vs))) = Ret (path p vs).
Proof.
  intros k p vs. revert k p. induction vs as [|x vs IH]; intros k p H; [reflexivity|].
  cbn [length seq map deref_edges fst snd]. unfold deref.
  pose proof (H 0 p eq_refl) as H0. pose proof (H 1 x eq_refl) as H1.
  rewrite Nat.add_0_r in H0. replace (k + 1) with (S k) in H1 by lia. rewrite H0, H1. cbn [of_option obind].
  rewrite (IH (S k) x); [reflexivity|]. intros i y E. specialize (H (S i) y E). rewrite <- H. f_equal. lia.
Qed.
Lemma edge_vertices_spec (vs : list vec2) : vs <> [] -> edge_vertices vs = Ret (cyc vs).
Proof.
  intros NE. destruct vs as [|v vs]; [congruence|]. unfold edge_vertices. rewrite all_edges_spec by (cbn; lia).
  cbn [length obind]. replace (S (length vs) - 1) with (length vs) by lia.
  cbn [deref_edges fst snd]. unfold deref at 1 2. rewrite nth_error_last. cbn [nth_error of_option obind].
  rewrite (deref_seq (v :: vs) 0 v vs) by auto. reflexivity.
Qed.
End EV.
