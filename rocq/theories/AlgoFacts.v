From Coq Require Import List Arith Lia Bool Permutation.
From Verif Require Import Num Outcome Algo.
Import ListNotations.

Section Facts.
Context {A : Type}.
Implicit Types (l : list A).

Lemma set_nth_length l : forall i x, length (set_nth l i x) = length l.
Proof. induction l; intros [|i] x; cbn; auto. Qed.

Lemma nth_error_set_nth l : forall i x k, i < length l ->
  nth_error (set_nth l i x) k = if Nat.eqb k i then Some x else nth_error l k.
Proof.
  induction l as [|a l IH]; intros i x k H; [cbn in H; lia|].
  destruct i, k; cbn; auto. apply IH. cbn in H. lia.
Qed.

Lemma swap_nth_spec l i j : i < length l -> j < length l ->
  exists l', swap_nth l i j = Ret l' /\ length l' = length l /\
  (forall k, nth_error l' k =
     if Nat.eqb k j then nth_error l i else if Nat.eqb k i then nth_error l j else nth_error l k).
Proof.
  intros Hi Hj. unfold swap_nth.
  destruct (nth_error l i) as [x|] eqn:Ei; [|apply nth_error_None in Ei; lia].
  destruct (nth_error l j) as [y|] eqn:Ej; [|apply nth_error_None in Ej; lia].
  cbn. eexists. split; [reflexivity|]. split; [rewrite !set_nth_length; reflexivity|].
  intros k. rewrite nth_error_set_nth by (rewrite set_nth_length; lia).
  rewrite nth_error_set_nth by lia.
  destruct (Nat.eqb k j); auto. 
Qed.

Lemma set_nth_split l : forall i x, i < length l ->
  set_nth l i x = firstn i l ++ x :: skipn (S i) l.
Proof.
  induction l as [|a l IH]; intros [|i] x H; cbn in *; try lia; auto.
  f_equal. apply IH. lia.
Qed.

Lemma swap_perm l i j l' : swap_nth l i j = Ret l' -> Permutation l l'.
Proof.
  intros E.
  assert (Hi : i < length l).
  { unfold swap_nth in E. destruct (nth_error l i) eqn:Ei; [|discriminate].
    apply nth_error_Some. congruence. }
  assert (Hj : j < length l).
  { unfold swap_nth in E. destruct (nth_error l j) eqn:Ej; [|destruct (nth_error l i); discriminate].
    apply nth_error_Some. congruence. }
  destruct (swap_nth_spec l i j Hi Hj) as (l2 & E2 & Len & Nth).
  assert (l2 = l') by congruence. subst l2.
  apply Permutation_nth_error. split; [auto|].
  exists (fun k => if Nat.eqb k j then i else if Nat.eqb k i then j else k). split.
  - intros x y.
    repeat match goal with |- context [Nat.eqb ?a ?b] => destruct (Nat.eqb_spec a b) end; lia.
  - intros k. rewrite Nth. destruct (Nat.eqb_spec k j); [|destruct (Nat.eqb_spec k i)]; reflexivity.
Qed.

(** Loop invariant of booleanSort. *)
Lemma boolean_sort_spec p : forall n l i j fuel,
  i <= j -> j <= length l -> j - i <= n -> n <= fuel ->
  exists l' m, boolean_sort fuel p l i j = Ret (l', m) /\
    i <= m <= j /\ length l' = length l /\ Permutation l l' /\
    (forall k, (k < i \/ j <= k) -> nth_error l' k = nth_error l k) /\
    (forall k x, i <= k < m -> nth_error l' k = Some x -> p x = true) /\
    (forall k x, m <= k < j -> nth_error l' k = Some x -> p x = false).
Proof.
  induction n as [|n IH]; intros l i j fuel Hij Hj Hn Hf.
  - assert (j = i) by lia. subst j.
    exists l, i. destruct fuel; cbn; rewrite Nat.eqb_refl; repeat split; auto; try lia; intros; lia.
  - destruct (Nat.eq_dec i j) as [->|Hne].
    { exists l, j. destruct fuel; cbn; rewrite Nat.eqb_refl; repeat split; auto; try lia; intros; lia. }
    destruct fuel as [|fuel]; [lia|]. cbn.
    destruct (Nat.eqb_spec i j) as [|_]; [contradiction|].
    destruct (nth_error l i) as [x|] eqn:Ei; [|apply nth_error_None in Ei; lia].
    cbn. destruct (p x) eqn:Px.
    + destruct (IH l (S i) j fuel) as (l' & m & E & M & Len & Perm & Out & T & F); try lia.
      exists l', m. split; [exact E|]. split; [lia|]. split; [exact Len|]. split; [exact Perm|].
      split; [intros k Hk; apply Out; lia|]. split.
      * intros k y Hk Ey. destruct (Nat.eq_dec k i) as [->|].
        -- rewrite Out in Ey by lia. congruence.
        -- apply (T k y); auto; lia.
      * exact F.
    + destruct j as [|j']; [lia|].
      destruct (swap_nth_spec l i j') as (l1 & E1 & Len1 & Nth1); try lia.
      rewrite E1. cbn.
      destruct (IH l1 i j' fuel) as (l' & m & E & M & Len & Perm & Out & T & F); try lia.
      exists l', m. split; [exact E|]. split; [lia|]. split; [lia|].
      split; [eapply Permutation_trans; [eapply swap_perm; exact E1|exact Perm]|].
      split; [|split].
      * intros k Hk. rewrite Out by lia. rewrite Nth1.
        destruct (Nat.eqb_spec k j'); [lia|]. destruct (Nat.eqb_spec k i); [lia|]. reflexivity.
      * intros k y Hk Ey. apply (T k y); auto; lia.
      * intros k y Hk Ey. destruct (Nat.eq_dec k j') as [->|].
        -- rewrite Out in Ey by lia. rewrite Nth1, Nat.eqb_refl in Ey. congruence.
        -- apply (F k y); auto; lia.
Qed.
End Facts.
