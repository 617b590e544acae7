(** Hoare triples for the world model and facts about its containers. *)
From Coq Require Import ZArith List Bool Lia Permutation.
From Verif Require Import Num Outcome Box Mat Geom Transform Body Constraint World.
Import ListNotations.

Section Hoare.
Context {N : Num} {TR : Trig N} {BH : Behaviour N}.

(** no undefined behaviour, no endless loop, and [Q] when it returns; an exception
    may leave the step *)
Definition tri {A} (P : world -> Prop) (m : M A) (Q : A -> world -> Prop) : Prop :=
  forall w, P w -> match m w with Ok a w' => Q a w' | Thrown _ => True | _ => False end.
(** the same without exceptions *)
Definition tot {A} (P : world -> Prop) (m : M A) (Q : A -> world -> Prop) : Prop :=
  forall w, P w -> match m w with Ok a w' => Q a w' | _ => False end.
Lemma tot_tri {A} P (m : M A) Q : tot P m Q -> tri P m Q.
Proof. intros H w HP. specialize (H w HP). destruct (m w); auto. Qed.
Lemma tri_bind {A B} P (m : M A) R (f : A -> M B) Q : tri P m R -> (forall a, tri (R a) (f a) Q) -> tri P (bind m f) Q.
Proof. intros H1 H2 w HP. unfold bind. specialize (H1 w HP). destruct (m w) as [a w'|w'| |]; auto. apply (H2 a w' H1). Qed.
Lemma tot_bind {A B} P (m : M A) R (f : A -> M B) Q : tot P m R -> (forall a, tot (R a) (f a) Q) -> tot P (bind m f) Q.
Proof. intros H1 H2 w HP. unfold bind. specialize (H1 w HP). destruct (m w) as [a w'|w'| |]; try contradiction. apply (H2 a w' H1). Qed.
Lemma tri_ret {A} (a : A) (P : world -> Prop) (Q : A -> world -> Prop) : (forall w, P w -> Q a w) -> tri P (ret a) Q.
Proof. intros H w HP. apply H, HP. Qed.
Lemma tot_ret {A} (a : A) (P : world -> Prop) (Q : A -> world -> Prop) : (forall w, P w -> Q a w) -> tot P (ret a) Q.
Proof. intros H w HP. apply H, HP. Qed.
Lemma tri_pre {A} (P P' : world -> Prop) (m : M A) Q : (forall w, P w -> P' w) -> tri P' m Q -> tri P m Q.
Proof. intros H1 H2 w HP. apply H2, H1, HP. Qed.
Lemma tot_pre {A} (P P' : world -> Prop) (m : M A) Q : (forall w, P w -> P' w) -> tot P' m Q -> tot P m Q.
Proof. intros H1 H2 w HP. apply H2, H1, HP. Qed.
Lemma tri_post {A} P (m : M A) (Q Q' : A -> world -> Prop) : tri P m Q -> (forall a w, Q a w -> Q' a w) -> tri P m Q'.
Proof. intros H1 H2 w HP. specialize (H1 w HP). destruct (m w); auto. Qed.
Lemma tot_post {A} P (m : M A) (Q Q' : A -> world -> Prop) : tot P m Q -> (forall a w, Q a w -> Q' a w) -> tot P m Q'.
Proof. intros H1 H2 w HP. specialize (H1 w HP). destruct (m w); auto. Qed.
Lemma tri_throw {A} P Q : tri P (@throw N BH A) Q.
Proof. intros w HP. exact I. Qed.
Lemma tri_exists {A B} (P : B -> world -> Prop) (m : M A) Q : (forall b, tri (P b) m Q) -> tri (fun w => exists b, P b w) m Q.
Proof. intros H w [b HP]. apply (H b w HP). Qed.
Lemma tri_lift {A} (o : outcome A) (P : world -> Prop) (Q : A -> world -> Prop) :
  (forall w, P w -> match o with Ret a => Q a w | Throw => True | _ => False end) -> tri P (lift o) Q.
Proof. intros H w HP. specialize (H w HP). unfold lift. destruct o; auto. Qed.
Lemma tri_modify f (P : world -> Prop) (Q : unit -> world -> Prop) : (forall w, P w -> Q tt (f w)) -> tri P (modify f) Q.
Proof. intros H w HP. apply H, HP. Qed.
Lemma tot_modify f (P : world -> Prop) (Q : unit -> world -> Prop) : (forall w, P w -> Q tt (f w)) -> tot P (modify f) Q.
Proof. intros H w HP. apply H, HP. Qed.
Lemma tri_get {A} (f : world -> A) (P : world -> Prop) (Q : A -> world -> Prop) : (forall w, P w -> Q (f w) w) -> tri P (get f) Q.
Proof. intros H w HP. apply H, HP. Qed.
Lemma tot_get {A} (f : world -> A) (P : world -> Prop) (Q : A -> world -> Prop) : (forall w, P w -> Q (f w) w) -> tot P (get f) Q.
Proof. intros H w HP. apply H, HP. Qed.
(** loops *)
Lemma tri_iter {A} (f : A -> M unit) (J : list A -> list A -> world -> Prop) :
  (forall d x r, tri (J d (x :: r)) (f x) (fun _ => J (d ++ [x]) r)) ->
  forall r d, tri (J d r) (iter f r) (fun _ => J (d ++ r) []).
Proof.
  intros H. induction r as [|x r IH]; intros d; cbn [iter].
  - apply tri_ret. intros w. rewrite app_nil_r. auto.
  - eapply tri_bind; [apply H|]. intros []. specialize (IH (d ++ [x])). rewrite <- app_assoc in IH. exact IH.
Qed.
Lemma tot_iter {A} (f : A -> M unit) (J : list A -> list A -> world -> Prop) :
  (forall d x r, tot (J d (x :: r)) (f x) (fun _ => J (d ++ [x]) r)) ->
  forall r d, tot (J d r) (iter f r) (fun _ => J (d ++ r) []).
Proof.
  intros H. induction r as [|x r IH]; intros d; cbn [iter].
  - apply tot_ret. intros w. rewrite app_nil_r. auto.
  - eapply tot_bind; [apply H|]. intros []. specialize (IH (d ++ [x])). rewrite <- app_assoc in IH. exact IH.
Qed.
Lemma tri_foldm {S A} (f : S -> A -> M S) (J : list A -> list A -> S -> world -> Prop) :
  (forall d x r s, tri (J d (x :: r) s) (f s x) (fun s' => J (d ++ [x]) r s')) ->
  forall r d s, tri (J d r s) (foldm f s r) (fun s' => J (d ++ r) [] s').
Proof.
  intros H. induction r as [|x r IH]; intros d s; cbn [foldm].
  - apply tri_ret. intros w. rewrite app_nil_r. auto.
  - eapply tri_bind; [apply H|]. intros s'. specialize (IH (d ++ [x]) s'). rewrite <- app_assoc in IH. exact IH.
Qed.
(** [k] collects what has been kept *)
Lemma tot_filt {A} (f : A -> M bool) (J : list A -> list A -> world -> Prop) :
  (forall k x r, tot (J k (x :: r)) (f x) (fun b => J (if b : bool then k ++ [x] else k) r)) ->
  forall r k, tot (J k r) (filt f r) (fun l => J (k ++ l) []).
Proof.
  intros H. induction r as [|x r IH]; intros k; cbn [filt].
  - apply tot_ret. intros w. rewrite app_nil_r. auto.
  - eapply tot_bind; [apply H|]. intros b. eapply tot_bind; [apply IH|]. intros l. apply tot_ret. intros w.
    destruct b; [rewrite <- app_assoc; auto|auto].
Qed.
Lemma tri_repeatm {A} (f : A -> M A) (J : A -> world -> Prop) : (forall a, tri (J a) (f a) J) -> forall n a, tri (J a) (repeatm n f a) J.
Proof. intros H. induction n as [|n IH]; intros a; cbn [repeatm]; [apply tri_ret; auto|eapply tri_bind; [apply H|exact IH]]. Qed.
Lemma tot_conj {A} P (m : M A) Q Q' : tot P m Q -> tot P m Q' -> tot P m (fun a w => Q a w /\ Q' a w).
Proof. intros H1 H2 w HP. specialize (H1 w HP). specialize (H2 w HP). destruct (m w); auto. Qed.
Lemma tri_conj {A} P (m : M A) Q Q' : tri P m Q -> tri P m Q' -> tri P m (fun a w => Q a w /\ Q' a w).
Proof. intros H1 H2 w HP. specialize (H1 w HP). specialize (H2 w HP). destruct (m w); auto. Qed.
(** a result that returned satisfies the triple *)
Lemma tri_ok {A} P (m : M A) Q w a w' : tri P m Q -> P w -> m w = Ok a w' -> Q a w'.
Proof. intros H HP E. specialize (H w HP). rewrite E in H. exact H. Qed.
Lemma bind_ok {A B} (m : M A) (f : A -> M B) w b w' : bind m f w = Ok b w' -> exists a w1, m w = Ok a w1 /\ f a w1 = Ok b w'.
Proof. unfold bind. destruct (m w) as [a w1| | |]; try discriminate. intros E. exists a, w1. auto. Qed.
Lemma bind_eq {A B} (m : M A) (f : A -> M B) w a w1 : m w = Ok a w1 -> bind m f w = f a w1.
Proof. unfold bind. intros ->. reflexivity. Qed.
Lemma iter_app {A} (f : A -> M unit) l1 l2 w : iter f (l1 ++ l2) w = (iter f l1 ;;; iter f l2) w.
Proof.
  revert w. induction l1 as [|x l1 IH]; intros w; cbn [iter app]; [reflexivity|].
  unfold bind at 1. unfold bind at 1. unfold bind at 1. destruct (f x w) as [[] w'| | |]; try reflexivity. rewrite IH. reflexivity.
Qed.
End Hoare.

(** ** Containers *)
Lemma put_eq {A} (h : heap A) i a : put h i a i = Some a.
Proof. unfold put. rewrite Nat.eqb_refl. reflexivity. Qed.
Lemma put_ne {A} (h : heap A) i a j : j <> i -> put h i a j = h j.
Proof. intros H. unfold put. destruct (Nat.eqb_spec j i); [contradiction|reflexivity]. Qed.
Lemma del_eq {A} (h : heap A) i : del h i i = None.
Proof. unfold del. rewrite Nat.eqb_refl. reflexivity. Qed.
Lemma del_ne {A} (h : heap A) i j : j <> i -> del h i j = h j.
Proof. intros H. unfold del. destruct (Nat.eqb_spec j i); [contradiction|reflexivity]. Qed.
Lemma del_some {A} (h : heap A) i j a : del h i j = Some a <-> j <> i /\ h j = Some a.
Proof. unfold del. destruct (Nat.eqb_spec j i); split; try (intros; discriminate); tauto. Qed.
Lemma put_some {A} (h : heap A) i a j b : put h i a j = Some b <-> (j = i /\ b = a) \/ (j <> i /\ h j = Some b).
Proof.
  unfold put. destruct (Nat.eqb_spec j i); split.
  - intros E. injection E as <-. auto.
  - intros [[_ ->]|[H _]]; [reflexivity|contradiction].
  - auto.
  - intros [[H _]|[_ H]]; [contradiction|exact H].
Qed.
Lemma in_erase i j l : In j (erase_id i l) <-> In j l /\ j <> i.
Proof.
  unfold erase_id. rewrite filter_In. destruct (Nat.eqb_spec j i) as [->|Hn]; cbn; split; intros [A B].
  - discriminate.
  - contradiction.
  - split; assumption.
  - split; [assumption|reflexivity].
Qed.
Lemma nodup_erase i l : NoDup l -> NoDup (erase_id i l).
Proof. apply NoDup_filter. Qed.
Lemma existsb_in k l : existsb (Nat.eqb k) l = true <-> In k l.
Proof.
  rewrite existsb_exists. split.
  - intros (x & H & E). apply Nat.eqb_eq in E. subst. exact H.
  - intros H. exists k. split; [exact H|apply Nat.eqb_refl].
Qed.
Lemma existsb_notin k l : existsb (Nat.eqb k) l = false <-> ~ In k l.
Proof. rewrite <- existsb_in. destruct (existsb (Nat.eqb k) l); split; intros; congruence. Qed.
Lemma nodup_snoc {A} (l : list A) x : NoDup l -> ~ In x l -> NoDup (l ++ [x]).
Proof. intros H1 H2. apply (Permutation_NoDup (l := x :: l)); [apply Permutation_cons_append|constructor; assumption]. Qed.
Lemma in_snoc {A} (l : list A) x y : In y (l ++ [x]) <-> In y l \/ y = x.
Proof. rewrite in_app_iff. cbn. intuition. Qed.
Lemma nodup_app {A} (l1 l2 : list A) : NoDup (l1 ++ l2) <-> NoDup l1 /\ NoDup l2 /\ (forall x, In x l1 -> ~ In x l2).
Proof.
  induction l1 as [|a l1 IH]; cbn.
  - split; [intros H; split; [constructor|split; [exact H|tauto]]|tauto].
  - rewrite !NoDup_cons_iff, IH, in_app_iff. split.
    + intros [H1 (H2 & H3 & H4)]. split; [tauto|]. split; [exact H3|]. intros x [->|Hx]; [tauto|auto].
    + intros [[H1 H2] [H3 H4]]. split; [intros [X|X]; [tauto|apply (H4 a); auto]|]. split; [exact H2|]. split; [exact H3|]. intros x Hx. apply H4. auto.
Qed.
