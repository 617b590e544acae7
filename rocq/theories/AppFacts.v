(** The scene shown by an application (C88-C90). *)
From Coq Require Import ZArith List Bool Arith Lia Reals.
From Verif Require Import Num Outcome Box Mat Geom Transform Scene App.
Import ListNotations.

Section Facts.
Context {N : Num}.
Notation app := (app N).
Notation ascene := (ascene N).
Implicit Types (a : app) (s : ascene) (i : nat).

(** [reached z es a]: a window of size z and the events es lead to a *)
Definition reached z es a : Prop := run_app es (new_app z) = Ret a.

(** the links of a scene and its tool *)
Definition linked (shown : bool) s : Prop :=
  as_app s = shown /\ as_rend s = shown /\ (shown = true -> as_init s = true) /\ as_tool s < length (as_tools s).
Record inv a : Prop := {
  inv_link : forall i s, ap_scenes a i = Some s -> linked (match ap_cur a with Some c => Nat.eqb c i | None => false end) s;
  inv_cur : forall i, ap_cur a = Some i -> exists s, ap_scenes a i = Some s;
  inv_named : forall n i, In (n, i) (ap_names a) -> exists s, ap_scenes a i = Some s;
  inv_new : forall i s, ap_scenes a i = Some s -> i < ap_next a }.

Lemma put_eq m i (x : option ascene) : put m i x i = x.
Proof. unfold put. rewrite Nat.eqb_refl. reflexivity. Qed.
Lemma put_ne m i j (x : option ascene) : j <> i -> put m i x j = m j.
Proof. intros H. unfold put. apply Nat.eqb_neq in H. rewrite H. reflexivity. Qed.
Lemma named_in n i l : named n l = Some i -> In (n, i) l.
Proof. induction l as [|[m j] l IH]; cbn; [discriminate|]. destruct (Nat.eqb m n) eqn:E; intros H; [injection H as ->; apply Nat.eqb_eq in E; subst; auto|auto]. Qed.
Lemma bind_in n i l p : In p (bind n i l) -> p = (n, i) \/ In p l.
Proof.
  induction l as [|[m j] l IH]; cbn; [intros [H|[]]; auto|]. destruct (Nat.eqb m n) eqn:E; cbn; intros [H|H]; auto.
  - apply Nat.eqb_eq in E. subst. auto.
  - apply IH in H. destruct H; auto.
Qed.
Lemma named_bind n m i l : named n (bind m i l) = if Nat.eqb m n then Some i else named n l.
Proof.
  induction l as [|[k j] l IH]; cbn.
  - destruct (Nat.eqb m n); reflexivity.
  - destruct (Nat.eqb k m) eqn:E; cbn; [apply Nat.eqb_eq in E; subst; destruct (Nat.eqb m n); reflexivity|].
    rewrite IH. destruct (Nat.eqb k n) eqn:E2; [|reflexivity]. apply Nat.eqb_eq in E2. subst.
    destruct (Nat.eqb m n) eqn:E3; [|reflexivity]. apply Nat.eqb_eq in E3. subst. rewrite Nat.eqb_refl in E. discriminate.
Qed.
Lemma is_named_in n i l : In (n, i) l -> is_named i l = true.
Proof. intros H. apply existsb_exists. exists (n, i). split; [exact H|]. cbn. apply Nat.eqb_refl. Qed.

(** ** uses of a scene *)
(** [f] keeps the links *)
Definition keeps (f : ascene -> outcome ascene) : Prop :=
  forall s s', f s = Ret s' -> as_app s' = as_app s /\ as_rend s' = as_rend s /\ as_init s' = as_init s /\ as_tools s' = as_tools s /\
    (as_tool s < length (as_tools s) -> as_tool s' < length (as_tools s')).
Lemma keeps_linked f b s s' : keeps f -> f s = Ret s' -> linked b s -> linked b s'.
Proof. intros K E (A & B & C & D). unfold linked. destruct (K _ _ E) as (-> & -> & -> & T & V). split; [exact A|]. split; [exact B|]. split; [exact C|]. rewrite T in *. auto. Qed.
Lemma on_scene_inv i f a a' : keeps f -> on_scene i f a = Ret a' -> inv a -> inv a'.
Proof.
  unfold on_scene. intros K E I. destruct (ap_scenes a i) as [s|] eqn:S; [|discriminate]. destruct (f s) as [s'| | |] eqn:F; try discriminate. injection E as <-.
  destruct I as [L C M W]. constructor; cbn; auto.
  - intros j t H. destruct (Nat.eq_dec j i) as [->|NE]; [rewrite put_eq in H; injection H as <-; eapply keeps_linked; eauto|rewrite put_ne in H by exact NE; auto].
  - intros j H. destruct (Nat.eq_dec j i) as [->|NE]; [rewrite put_eq; eauto|rewrite put_ne by exact NE; auto].
  - intros n j H. destruct (Nat.eq_dec j i) as [->|NE]; [rewrite put_eq; eauto|rewrite put_ne by exact NE; eauto].
  - intros j t H. destruct (Nat.eq_dec j i) as [->|NE]; [eauto|rewrite put_ne in H by exact NE; eauto].
Qed.
Lemma on_current_inv f a a' : keeps f -> on_current f a = Ret a' -> inv a -> inv a'.
Proof. unfold on_current. intros K E I. destruct (ap_cur a); [eapply on_scene_inv; eauto|injection E as <-; exact I]. Qed.
Lemma keeps_play (f : ascene -> @scene N) : keeps (fun s => Ret (with_play s (f s))).
Proof. intros s s' H. injection H as <-. cbn. repeat split; auto. Qed.
Lemma keeps_reset : keeps scene_reset.
Proof. intros s s'. unfold scene_reset. destruct (as_rend s) eqn:E; [|discriminate]. intros H. injection H as <-. cbn. rewrite ?E. repeat split; auto. Qed.
Lemma keeps_step h dt : keeps (ascene_step h dt).
Proof. intros s s'. unfold ascene_step. destruct (as_rend s) eqn:E; [|discriminate]. intros H. injection H as <-. cbn. rewrite ?E. repeat split; auto. Qed.
Lemma keeps_key h k x : keeps (ascene_key h k x).
Proof.
  intros s s' H. unfold ascene_key in H. destruct x, k; try (injection H as <-; cbn; repeat split; auto; fail); try (apply keeps_reset; exact H);
    (destruct (as_rend s) eqn:E; [|discriminate]; injection H as <-; cbn; rewrite ?E; repeat split; auto).
Qed.
Lemma find_tool_lt n l i : find_tool n l = Some i -> i < length l /\ nth_error l i = Some n /\ forall j, j < i -> nth_error l j <> Some n.
Proof.
  revert i. induction l as [|m l IH]; cbn; [discriminate|]. intros i. destruct (Nat.eqb m n) eqn:E.
  - intros H. injection H as <-. apply Nat.eqb_eq in E. subst. split; [lia|]. split; [reflexivity|]. lia.
  - destruct (find_tool n l) as [k|]; [|discriminate]. cbn. intros H. injection H as <-. destruct (IH k eq_refl) as (A & B & C). split; [lia|]. split; [exact B|].
    intros [|j] Hj; cbn; [intros X; injection X as ->; rewrite Nat.eqb_refl in E; discriminate|apply C; lia].
Qed.
Lemma find_tool_none n l : find_tool n l = None <-> ~ In n l.
Proof.
  induction l as [|m l IH]; cbn; [split; [tauto|reflexivity]|]. destruct (Nat.eqb m n) eqn:E.
  - apply Nat.eqb_eq in E. subst. split; [discriminate|]. intros H. exfalso. auto.
  - apply Nat.eqb_neq in E. destruct (find_tool n l); cbn; split; intros H; try discriminate; try reflexivity.
    + exfalso. destruct IH as [_ IH]. discriminate IH. intros X. apply H. auto.
    + intros [X|X]; [auto|]. destruct IH as [IH _]. apply IH in X; auto.
Qed.
Lemma keeps_tool n : keeps (use_tool n).
Proof.
  intros s s'. unfold use_tool. destruct (find_tool n (as_tools s)) as [i|] eqn:E; [|discriminate]. intros H. injection H as <-. cbn. repeat split; auto.
  intros _. apply find_tool_lt in E. tauto.
Qed.
Lemma keeps_settings g : keeps (fun s => Ret (update_settings g s)).
Proof. intros s s' H. injection H as <-. cbn. repeat split; auto. Qed.
Lemma keeps_use u : keeps (use_scene u).
Proof.
  destruct u; cbn; [apply keeps_step|apply keeps_reset| |apply keeps_settings].
  intros s s' H. injection H as <-. destruct e; cbn; repeat split; auto.
Qed.

(** ** changing the scene *)
Lemma scene_init_spec s : scene_init s = Ret (AS (as_play s) true true true (as_tools s) (as_tool s) (as_set s) (as_log s ++ [WClear; WInit])).
Proof. reflexivity. Qed.

(** what is left of the previous scene *)
Definition left_behind a (c : nat) : option ascene :=
  if is_named c (ap_names a) then option_map (fun s => with_link s false) (ap_scenes a c) else None.
Definition resized z s : ascene := with_cam s (CScreen z).
Lemma change_eq i a si : inv a -> ap_scenes a i = Some si -> ap_cur a <> Some i ->
  exists a', change_scene i a = Ret a' /\ ap_cur a' = Some i /\ ap_next a' = ap_next a /\ ap_names a' = ap_names a /\ ap_size a' = ap_size a /\
    ap_set a' = ap_set a /\ ap_closed a' = ap_closed a /\
    ap_scenes a' i = Some (resized (ap_size a) (AS (as_play si) true true true (as_tools si) (as_tool si) (as_set si) (as_log si ++ [WClear; WInit]))) /\
    (forall c, ap_cur a = Some c -> ap_scenes a' c = left_behind a c) /\
    (forall j, j <> i -> ap_cur a <> Some j -> ap_scenes a' j = ap_scenes a j).
Proof.
  intros I S NC. unfold change_scene. destruct (ap_cur a) as [c|] eqn:C.
  - destruct (Nat.eqb c i) eqn:E; [apply Nat.eqb_eq in E; congruence|]. apply Nat.eqb_neq in E.
    destruct (inv_cur _ I c C) as [sc SC].
    assert (AP : as_app si = false). { destruct (inv_link _ I i si S) as [A _]. rewrite C in A. apply Nat.eqb_neq in E. rewrite E in A. exact A. }
    unfold on_scene at 1. cbn [ap_scenes]. rewrite SC. cbn [obind]. unfold on_scene at 1. cbn [ap_scenes with_scenes]. rewrite put_ne by auto. rewrite S.
    rewrite AP. rewrite orb_true_r. rewrite scene_init_spec. cbn [obind].
    unfold resize, on_current. cbn [ap_cur with_scenes]. unfold on_scene at 1. cbn [ap_scenes with_scenes]. rewrite put_eq. cbn [obind].
    unfold release. cbn [ap_names with_scenes ap_size]. unfold left_behind.
    destruct (is_named c (ap_names a)) eqn:NM; (eexists; split; [reflexivity|]; cbn [ap_cur ap_next ap_names ap_size ap_set ap_closed ap_scenes with_scenes]).
    + repeat split; auto.
      * rewrite put_eq. reflexivity.
      * intros c' H. injection H as <-. rewrite !put_ne by auto. rewrite put_eq, NM, SC. reflexivity.
      * intros j J1 J2. rewrite !put_ne by congruence. reflexivity.
    + repeat split; auto.
      * rewrite put_ne by auto. rewrite put_eq. reflexivity.
      * intros c' H. injection H as <-. rewrite put_eq, NM. reflexivity.
      * intros j J1 J2. rewrite !put_ne by congruence. reflexivity.
  - assert (AP : as_app si = false). { destruct (inv_link _ I i si S) as [A _]. rewrite C in A. exact A. }
    cbn [obind]. unfold on_scene at 1. cbn [ap_scenes]. rewrite S, AP, orb_true_r, scene_init_spec. cbn [obind].
    unfold resize, on_current. cbn [ap_cur with_scenes]. unfold on_scene at 1. cbn [ap_scenes with_scenes]. rewrite put_eq. cbn [obind].
    eexists. split; [reflexivity|]. cbn [ap_cur ap_next ap_names ap_size ap_set ap_closed ap_scenes with_scenes]. repeat split; auto.
    + rewrite put_eq. reflexivity.
    + discriminate.
    + intros j J1 J2. rewrite !put_ne by congruence. reflexivity.
Qed.
Lemma change_same i a : ap_cur a = Some i -> change_scene i a = Ret a.
Proof. intros C. unfold change_scene. rewrite C, Nat.eqb_refl. reflexivity. Qed.
Lemma change_inv i a a' : inv a -> (exists s, ap_scenes a i = Some s) -> change_scene i a = Ret a' -> inv a'.
Proof.
  intros I [si S] E. destruct (ap_cur a) as [c|] eqn:C; [destruct (Nat.eq_dec c i) as [->|NE]; [rewrite change_same in E by exact C; injection E as <-; exact I|]|];
  (destruct (change_eq i a si I S) as (a2 & E2 & C2 & N2 & M2 & _ & _ & _ & S2 & L2 & O2); [rewrite C; congruence|]; rewrite E in E2; injection E2 as <-).
  - constructor.
    + intros j t H. rewrite C2. destruct (Nat.eq_dec j i) as [->|J1].
      * rewrite S2 in H. injection H as <-. rewrite Nat.eqb_refl. split; [reflexivity|]. split; [reflexivity|]. split; [reflexivity|]. cbn. apply (inv_link _ I i si S).
      * assert (EB : Nat.eqb i j = false) by (apply Nat.eqb_neq; auto). rewrite EB. destruct (Nat.eq_dec j c) as [->|J2].
        -- rewrite (L2 c C) in H. unfold left_behind in H. destruct (is_named _ _); [|discriminate]. destruct (ap_scenes a c) as [sc|] eqn:SC; [|discriminate]. injection H as <-.
           split; [reflexivity|]. split; [reflexivity|]. split; [discriminate|]. cbn. apply (inv_link _ I c sc SC).
        -- rewrite O2 in H by congruence. pose proof (inv_link _ I j t H) as L. rewrite C in L. assert (EB2 : Nat.eqb c j = false) by (apply Nat.eqb_neq; auto). rewrite EB2 in L. exact L.
    + intros j H. rewrite C2 in H. injection H as <-. eauto.
    + intros n j H. rewrite M2 in H. destruct (Nat.eq_dec j i) as [->|J1]; [eauto|]. destruct (Nat.eq_dec j c) as [->|J2].
      * rewrite (L2 c C). unfold left_behind. rewrite (is_named_in n c) by exact H. destruct (inv_cur _ I c C) as [sc ->]. cbn. eauto.
      * rewrite O2 by congruence. eapply inv_named; eauto.
    + intros j t H. rewrite N2. destruct (Nat.eq_dec j i) as [->|J1]; [eapply inv_new; eauto|]. destruct (Nat.eq_dec j c) as [->|J2].
      * destruct (inv_cur _ I c C) as [sc SC]. eapply inv_new; eauto.
      * rewrite O2 in H by congruence. eapply inv_new; eauto.
  - constructor.
    + intros j t H. rewrite C2. destruct (Nat.eq_dec j i) as [->|J1].
      * rewrite S2 in H. injection H as <-. rewrite Nat.eqb_refl. split; [reflexivity|]. split; [reflexivity|]. split; [reflexivity|]. cbn. apply (inv_link _ I i si S).
      * assert (EB : Nat.eqb i j = false) by (apply Nat.eqb_neq; auto). rewrite EB.
        rewrite O2 in H by congruence. pose proof (inv_link _ I j t H) as L. rewrite C in L. exact L.
    + intros j H. rewrite C2 in H. injection H as <-. eauto.
    + intros n j H. rewrite M2 in H. destruct (Nat.eq_dec j i) as [->|J1]; [eauto|]. rewrite O2 by congruence. eapply inv_named; eauto.
    + intros j t H. rewrite N2. destruct (Nat.eq_dec j i) as [->|J1]; [eapply inv_new; eauto|]. rewrite O2 in H by congruence. eapply inv_new; eauto.
Qed.

(** ** any event *)
Definition same_scene (x y : option nat) : bool := match x, y with Some i, Some j => Nat.eqb i j | _, _ => false end.
Lemma release_inv j a : inv a -> ap_cur a <> Some j -> inv (release j a).
Proof.
  intros I NC. unfold release. destruct (is_named j (ap_names a)) eqn:NM; [exact I|]. destruct I as [L C M W]. constructor; cbn; auto.
  - intros i s H. destruct (Nat.eq_dec i j) as [->|NE]; [rewrite put_eq in H; discriminate|rewrite put_ne in H by exact NE; auto].
  - intros i H. rewrite put_ne by congruence. auto.
  - intros n i H. destruct (Nat.eq_dec i j) as [->|NE]; [rewrite (is_named_in n j) in NM by exact H; discriminate|rewrite put_ne by exact NE; eauto].
  - intros i s H. destruct (Nat.eq_dec i j) as [->|NE]; [rewrite put_eq in H; discriminate|rewrite put_ne in H by exact NE; eauto].
Qed.
(** the application once the new scene is built, before it is shown *)
Definition registered (n : nat) tools a : app :=
  let i := ap_next a in
  let a1 := App (put (ap_scenes a) i (Some (new_ascene tools))) (S i) (bind n i (ap_names a)) (ap_cur a) (ap_size a) (ap_set a) (ap_closed a) in
  match named n (ap_names a) with
  | Some j => if same_scene (ap_cur a) (Some j) then a1 else release j a1
  | None => a1 end.
Lemma register_eq n tools a : register n tools a = match ap_cur a with None => change_scene (ap_next a) (registered n tools a) | Some _ => Ret (registered n tools a) end.
Proof. unfold register, registered, same_scene. destruct (ap_cur a); reflexivity. Qed.
Lemma registered_inv n tools a : inv a -> inv (registered n tools a).
Proof.
  intros I. unfold registered.
  set (i := ap_next a). set (a1 := App _ _ _ _ _ _ _).
  assert (F : forall j s, ap_scenes a j = Some s -> j <> i) by (intros j s H; apply (inv_new _ I) in H; unfold i; lia).
  assert (I1 : inv a1).
  { constructor; cbn.
    - intros j s H. destruct (Nat.eq_dec j i) as [->|NE]; [rewrite put_eq in H; injection H as <-|rewrite put_ne in H by exact NE; apply (inv_link _ I); exact H].
      destruct (ap_cur a) as [c|] eqn:C.
      + destruct (inv_cur _ I c C) as [sc SC]. specialize (F _ _ SC). apply Nat.eqb_neq in F. rewrite F. split; [reflexivity|]. split; [reflexivity|]. split; [discriminate|]. cbn. lia.
      + split; [reflexivity|]. split; [reflexivity|]. split; [discriminate|]. cbn. lia.
    - intros j H. destruct (inv_cur _ I j H) as [s S]. rewrite put_ne by (eapply F; eauto). eauto.
    - intros m j H. apply bind_in in H. destruct H as [H|H]; [injection H as -> ->; rewrite put_eq; eauto|].
      destruct (inv_named _ I m j H) as [s S]. rewrite put_ne by (eapply F; eauto). eauto.
    - intros j s H. destruct (Nat.eq_dec j i) as [->|NE]; [unfold i; lia|rewrite put_ne in H by exact NE; apply (inv_new _ I) in H; lia]. }
  destruct (named n (ap_names a)) as [j|]; [|exact I1]. destruct (same_scene (ap_cur a) (Some j)) eqn:E; [exact I1|].
  apply release_inv; [exact I1|]. cbn. intros C. rewrite C in E. cbn in E. rewrite Nat.eqb_refl in E. discriminate.
Qed.
Lemma registered_cur n tools a : ap_cur (registered n tools a) = ap_cur a.
Proof. unfold registered, release. destruct (named n (ap_names a)) as [j|]; [destruct (same_scene _ _); [reflexivity|]; destruct (is_named _ _); reflexivity|reflexivity]. Qed.
Lemma registered_names n tools a : ap_names (registered n tools a) = bind n (ap_next a) (ap_names a).
Proof. unfold registered, release. destruct (named n (ap_names a)) as [j|]; [destruct (same_scene _ _); [reflexivity|]; destruct (is_named _ _); reflexivity|reflexivity]. Qed.
Lemma registered_next n tools a : ap_next (registered n tools a) = S (ap_next a).
Proof. unfold registered, release. destruct (named n (ap_names a)) as [j|]; [destruct (same_scene _ _); [reflexivity|]; destruct (is_named _ _); reflexivity|reflexivity]. Qed.
Lemma registered_new n tools a : inv a -> ap_scenes (registered n tools a) (ap_next a) = Some (new_ascene tools).
Proof.
  intros I. unfold registered, release. destruct (named n (ap_names a)) as [j|] eqn:NM; [|apply put_eq]. destruct (same_scene _ _); [apply put_eq|]. destruct (is_named _ _); [apply put_eq|].
  cbn. rewrite put_ne; [apply put_eq|]. apply named_in in NM. destruct (inv_named _ I _ _ NM) as [s S]. apply (inv_new _ I) in S. lia.
Qed.
Lemma registered_other n tools a i : i <> ap_next a -> named n (ap_names a) <> Some i -> ap_scenes (registered n tools a) i = ap_scenes a i.
Proof.
  intros H1 H2. unfold registered, release. destruct (named n (ap_names a)) as [j|]; [destruct (same_scene _ _); [|destruct (is_named _ _)]|]; cbn; rewrite ?put_ne by congruence; reflexivity.
Qed.

Lemma with_set_inv a g z : inv a -> inv (App (ap_scenes a) (ap_next a) (ap_names a) (ap_cur a) z g (ap_closed a)).
Proof. intros [L C M W]. constructor; assumption. Qed.
Lemma event_inv e a a' : inv a -> on_aevent e a = Ret a' -> inv a'.
Proof.
  intros I E. destruct e as [n tools|n|n|v p w|h dt|gui used h k x|gui used y|z|i u]; cbn in E.
  - rewrite register_eq in E. pose proof (registered_inv n tools a I) as I1. destruct (ap_cur a); [injection E as <-; exact I1|].
    eapply change_inv; eauto. exists (new_ascene tools). apply registered_new. exact I.
  - destruct (named n (ap_names a)) as [i|] eqn:NM; [|injection E as <-; exact I]. apply named_in in NM. eapply change_inv; eauto. eapply inv_named; eauto.
  - eapply on_current_inv; eauto. apply keeps_tool.
  - eapply on_current_inv; [|exact E|apply with_set_inv; exact I]. apply keeps_settings.
  - eapply on_current_inv; eauto. apply keeps_step.
  - destruct (gui || used); [injection E as <-; exact I|]. destruct (on_current _ a) as [a1| | |] eqn:E1; try discriminate. cbn in E. injection E as <-.
    assert (I1 : inv a1) by (eapply on_current_inv; eauto; apply keeps_key).
    destruct x, k, (ap_cur a); try exact I1; destruct I1; constructor; assumption.
  - destruct (gui || used); [injection E as <-; exact I|]. eapply on_current_inv; eauto. apply (keeps_play (fun s => on_event (as_play s) (ECam (CScroll y)))).
  - unfold resize in E. eapply on_current_inv; [|exact E|apply (with_set_inv a (ap_set a) z); exact I]. apply (keeps_play (fun s => on_event (as_play s) (ECam (CScreen z)))).
  - eapply on_scene_inv; eauto. apply keeps_use.
Qed.
Lemma reached_inv z es a : reached z es a -> inv a.
Proof.
  unfold reached. assert (G : forall a0, inv a0 -> run_app es a0 = Ret a -> inv a).
  { induction es as [|e es IH]; cbn; intros a0 I E; [injection E as <-; exact I|]. destruct (on_aevent e a0) as [a1| | |] eqn:E1; try discriminate. cbn in E. eapply IH; [|exact E]. eapply event_inv; eauto. }
  apply G. constructor; cbn; try discriminate. intros n i [].
Qed.

(** ** C88 *)
Definition shown a i : Prop := ap_cur a = Some i.
Lemma shown_spec z es a : reached z es a -> forall i s, ap_scenes a i = Some s ->
  (as_app s = true <-> shown a i) /\ as_rend s = as_app s /\ (shown a i -> as_init s = true) /\ as_tool s < length (as_tools s).
Proof.
  intros R i s S. pose proof (reached_inv z es a R) as I. destruct (inv_link _ I i s S) as (A & B & C & D). unfold shown.
  destruct (ap_cur a) as [c|]; [|rewrite A, B; repeat split; auto; discriminate].
  destruct (Nat.eqb c i) eqn:E.
  - apply Nat.eqb_eq in E. subst c. rewrite A, B. repeat split; auto.
  - apply Nat.eqb_neq in E. rewrite A, B. split; [split; [discriminate|intros X; congruence]|]. split; [reflexivity|]. split; [intros X; congruence|exact D].
Qed.
(** calls the user must not make: steps and resets of a scene that is not shown,
    or any use of a destroyed one *)
Definition permitted a (e : aevent) : Prop :=
  match e with
  | AUse i (UStep _ _) | AUse i UReset => shown a i
  | AUse i _ => exists s, ap_scenes a i = Some s
  | ATool n => forall i s, shown a i -> ap_scenes a i = Some s -> In n (as_tools s)
  | _ => True
  end.
Lemma cur_safe a f : inv a -> (forall s, as_rend s = true -> exists s', f s = Ret s') -> exists a', on_current f a = Ret a'.
Proof.
  intros I F. unfold on_current. destruct (ap_cur a) as [c|] eqn:C; [|eauto]. destruct (inv_cur _ I c C) as [s S]. unfold on_scene. rewrite S.
  destruct (inv_link _ I c s S) as (_ & B & _). rewrite C, Nat.eqb_refl in B. destruct (F s B) as [s' ->]. cbn. eauto.
Qed.
Lemma select_safe a i : inv a -> (exists s, ap_scenes a i = Some s) -> exists a', change_scene i a = Ret a'.
Proof.
  intros I [s S]. destruct (ap_cur a) as [c|] eqn:C; [destruct (Nat.eq_dec c i) as [->|NE]; [rewrite change_same by exact C; eauto|]|];
  (destruct (change_eq i a s I S) as (a2 & E2 & _); [rewrite C; congruence|]; eauto).
Qed.
Lemma safe_spec z es a e : reached z es a -> permitted a e -> exists a', on_aevent e a = Ret a'.
Proof.
  intros R P. pose proof (reached_inv z es a R) as I. destruct e as [n tools|n|n|v p w|h dt|gui used h k x|gui used y|zz|i u]; cbn [on_aevent].
  - rewrite register_eq. pose proof (registered_inv n tools a I) as I1. destruct (ap_cur a); [eauto|]. apply select_safe; [exact I1|]. rewrite registered_new by exact I. eauto.
  - destruct (named n (ap_names a)) as [i|] eqn:NM; [|eauto]. apply named_in in NM. apply select_safe; [exact I|]. eapply inv_named; eauto.
  - unfold on_current. destruct (ap_cur a) as [c|] eqn:C; [|eauto]. destruct (inv_cur _ I c C) as [s S]. unfold on_scene. rewrite S. unfold use_tool.
    destruct (find_tool n (as_tools s)) eqn:F; [cbn; eauto|]. apply find_tool_none in F. exfalso. apply F. exact (P c s C S).
  - apply cur_safe; [apply with_set_inv; exact I|]. eauto.
  - apply cur_safe; [exact I|]. intros s B. unfold ascene_step. rewrite B. eauto.
  - destruct (gui || used); [eauto|]. destruct (cur_safe a (ascene_key h k x) I) as [a' ->]; [|cbn; eauto].
    intros s B. unfold ascene_key, scene_reset. rewrite B. destruct x, k; eauto.
  - destruct (gui || used); [eauto|]. apply cur_safe; eauto.
  - apply cur_safe; [apply with_set_inv; exact I|]. eauto.
  - unfold on_scene. assert (Q : exists s, ap_scenes a i = Some s) by (destruct u; cbn in P; auto; eapply inv_cur; eauto). destruct Q as [s S]. rewrite S.
    destruct u; cbn in P |- *; try (eexists; reflexivity); (destruct (inv_link _ I i s S) as (_ & B & _); unfold shown in P; rewrite P, Nat.eqb_refl in B; unfold ascene_step, scene_reset; rewrite B; cbn; eauto).
Qed.
Lemma hidden_undefined z es a i s h dt : reached z es a -> ap_scenes a i = Some s -> ~ shown a i ->
  on_aevent (AUse i (UStep h dt)) a = UB /\ on_aevent (AUse i UReset) a = UB.
Proof.
  intros R S H. destruct (shown_spec z es a R i s S) as (A & B & _). cbn [on_aevent]. unfold on_scene. rewrite S. cbn [use_scene]. unfold ascene_step, scene_reset. rewrite B.
  destruct (as_app s); [exfalso; apply H; apply A; reflexivity|]. split; reflexivity.
Qed.
(** choosing another scene *)
Lemma select_spec z es a n i si : reached z es a -> named n (ap_names a) = Some i -> ap_scenes a i = Some si -> ~ shown a i ->
  exists a' s', on_aevent (ASelect n) a = Ret a' /\ shown a' i /\ ap_scenes a' i = Some s' /\
    as_log s' = as_log si ++ [WClear; WInit] /\ as_set s' = as_set si /\ as_tool s' = as_tool si /\ as_tools s' = as_tools si /\
    sc_speed (as_play s') = sc_speed (as_play si) /\ sc_paused (as_play s') = sc_paused (as_play si) /\
    sc_cam (as_play s') = cam_setDimensionsFromScreen (sc_cam (as_play si)) (ap_size a) /\
    (forall j t, j <> i -> ap_scenes a j = Some t -> (exists m, In (m, j) (ap_names a)) -> exists t', ap_scenes a' j = Some t' /\
       as_play t' = as_play t /\ as_log t' = as_log t /\ as_set t' = as_set t /\ as_tool t' = as_tool t).
Proof.
  intros R NM S NS. pose proof (reached_inv z es a R) as I.
  destruct (change_eq i a si I S NS) as (a' & E & C & _ & _ & _ & _ & _ & S' & L & O). cbn [on_aevent]. rewrite NM. eexists a', _. split; [exact E|]. split; [exact C|]. split; [exact S'|].
  cbn [resized with_cam with_play as_log as_set as_tool as_tools as_play on_event sc_given sc_speed sc_paused sc_cam cam_step].
  rewrite skipn_all. cbn [map]. rewrite app_nil_r. repeat split; auto.
  intros j t J T (m & M). destruct (ap_cur a) as [c|] eqn:CC; [destruct (Nat.eq_dec j c) as [->|JC]|].
  - rewrite (L c eq_refl). unfold left_behind. rewrite (is_named_in m c) by exact M. rewrite T. cbn. eexists. split; [reflexivity|]. repeat split.
  - rewrite O by congruence. eauto 10.
  - rewrite O by congruence. eauto 10.
Qed.

(** ** C89: a scene that is not shown is left alone *)
Definition not_about a i (e : aevent) : Prop :=
  match e with
  | AUse j _ => j <> i
  | ASelect n => named n (ap_names a) <> Some i
  | ARegister n _ => named n (ap_names a) <> Some i
  | _ => True
  end.
Lemma on_scene_other j f a a' i : on_scene j f a = Ret a' -> j <> i -> ap_scenes a' i = ap_scenes a i /\ ap_cur a' = ap_cur a /\ ap_names a' = ap_names a.
Proof.
  unfold on_scene. destruct (ap_scenes a j) as [s|]; [|discriminate]. destruct (f s) as [s'| | |]; try discriminate. intros H NE. injection H as <-. cbn.
  rewrite put_ne by auto. auto.
Qed.
Lemma on_current_other f a a' i : on_current f a = Ret a' -> ~ shown a i -> ap_scenes a' i = ap_scenes a i /\ ap_cur a' = ap_cur a.
Proof.
  unfold on_current, shown. destruct (ap_cur a) as [c|] eqn:C; [|intros H; injection H as <-; auto].
  intros H NS. destruct (on_scene_other c f a a' i H) as (A & B & _); [congruence|]. split; [exact A|congruence].
Qed.
Lemma frozen_step z es a i s e a' : reached z es a -> ap_scenes a i = Some s -> ~ shown a i -> not_about a i e -> on_aevent e a = Ret a' ->
  ap_scenes a' i = Some s /\ ~ shown a' i.
Proof.
  intros R S NS NA E. pose proof (reached_inv z es a R) as I. destruct e as [n tools|n|n|v p w|h dt|gui used h k x|gui used y|zz|j u]; cbn in E, NA.
  - rewrite register_eq in E. assert (NX : i <> ap_next a) by (apply (inv_new _ I) in S; lia). unfold shown in *.
    destruct (ap_cur a) as [c|] eqn:C.
    + injection E as <-. rewrite registered_other by auto. rewrite registered_cur. rewrite C. auto.
    + destruct (change_eq (ap_next a) (registered n tools a) (new_ascene tools)) as (a2 & E2 & C2 & _ & _ & _ & _ & _ & _ & _ & O).
      * apply registered_inv; exact I.
      * apply registered_new; exact I.
      * rewrite registered_cur, C. discriminate.
      * rewrite E in E2. injection E2 as <-. rewrite O by (rewrite ?registered_cur; congruence). rewrite registered_other by auto. rewrite C2. split; [exact S|congruence].
  - destruct (named n (ap_names a)) as [j|] eqn:NM; [|injection E as <-; auto]. assert (J : j <> i) by congruence. pose proof (named_in _ _ _ NM) as IN. destruct (inv_named _ I _ _ IN) as [sj SJ].
    unfold shown in *. destruct (ap_cur a) as [c|] eqn:C; [destruct (Nat.eq_dec c j) as [->|NE]; [rewrite change_same in E by exact C; injection E as <-; rewrite C; auto|]|];
    (destruct (change_eq j a sj I SJ) as (a2 & E2 & C2 & _ & _ & _ & _ & _ & _ & _ & O); [rewrite C; congruence|]; rewrite E in E2; injection E2 as <-;
     rewrite O by congruence; rewrite C2; split; [exact S|congruence]).
  - unfold shown. destruct (on_current_other _ _ _ i E NS) as [-> ->]. auto.
  - unfold shown. destruct (on_current_other _ _ _ i E NS) as [-> ->]. auto.
  - unfold shown. destruct (on_current_other _ _ _ i E NS) as [-> ->]. auto.
  - destruct (gui || used); [injection E as <-; auto|]. destruct (on_current _ a) as [a1| | |] eqn:E1; try discriminate. cbn in E. injection E as <-.
    destruct (on_current_other _ _ _ i E1 NS) as [A B]. unfold shown in *. destruct x, k, (ap_cur a) as [c|]; cbn; rewrite A, B; auto.
  - destruct (gui || used); [injection E as <-; auto|]. unfold shown. destruct (on_current_other _ _ _ i E NS) as [-> ->]. auto.
  - unfold resize in E. unfold shown. destruct (on_current_other _ _ _ i E NS) as [-> ->]. auto.
  - unfold shown. destruct (on_scene_other _ _ _ _ i E NA) as (-> & -> & _). auto.
Qed.
(** [leaves_alone i es a]: no event of es selects, uses or replaces scene i *)
Fixpoint leaves_alone i (es : list aevent) a : Prop :=
  match es with [] => True | e :: es => not_about a i e /\ forall a', on_aevent e a = Ret a' -> leaves_alone i es a' end.
Lemma run_app_cat es1 : forall es2 a, run_app (es1 ++ es2) a = obind (run_app es1 a) (run_app es2).
Proof. induction es1 as [|e es1 IH]; intros es2 a; [reflexivity|]. cbn. destruct (on_aevent e a); cbn; auto. Qed.
Lemma frozen_spec z es0 a es a' i s : reached z es0 a -> ap_scenes a i = Some s -> ~ shown a i -> leaves_alone i es a -> run_app es a = Ret a' ->
  ap_scenes a' i = Some s /\ ~ shown a' i.
Proof.
  revert es0 a. induction es as [|e es IH]; intros es0 a R S NS LA E; cbn in E; [injection E as <-; auto|].
  destruct (on_aevent e a) as [a1| | |] eqn:E1; try discriminate. cbn in E. destruct LA as [NA LA].
  destruct (frozen_step z es0 a i s e a1 R S NS NA E1) as [S1 N1]. eapply (IH (es0 ++ [e]) a1); eauto.
  unfold reached in *. rewrite run_app_cat, R. cbn. rewrite E1. reflexivity.
Qed.
(** an input goes to the shown scene, and only if neither the GUI nor the tool uses it *)
Lemma input_spec z es a gui used h k x i s : reached z es a -> shown a i -> ap_scenes a i = Some s ->
  (gui || used = true -> on_aevent (AKey gui used h k x) a = Ret a) /\
  (gui || used = false -> exists a' s', on_aevent (AKey gui used h k x) a = Ret a' /\ ascene_key h k x s = Ret s' /\ ap_scenes a' i = Some s' /\
     (forall j, j <> i -> ap_scenes a' j = ap_scenes a j) /\ (ap_closed a' = true <-> ap_closed a = true \/ (x = Press /\ k = KeyEscape))).
Proof.
  intros R C S. split; intros G; cbn; rewrite G; [reflexivity|]. unfold on_current, on_scene. unfold shown in C. rewrite C, S.
  destruct (shown_spec z es a R i s S) as (A & B & _). assert (RT : as_rend s = true) by (rewrite B; apply A; exact C).
  assert (Q : exists s', ascene_key h k x s = Ret s') by (unfold ascene_key, scene_reset; rewrite RT; destruct x, k; eauto). destruct Q as [s' Q]. rewrite Q. cbn.
  eexists _, s'. split; [reflexivity|]. split; [reflexivity|].
  destruct x, k; cbn; (split; [rewrite put_eq; reflexivity|]; split; [intros j J; apply put_ne; exact J|]);
    split; intros H; try (left; assumption); try (destruct H as [H|[H1 H2]]; [assumption|discriminate]); auto.
Qed.
(** a frame steps the world of the shown scene once, with the time of the scene, and no other *)
Lemma frame_spec z es a h dt i s : reached z es a -> shown a i -> ap_scenes a i = Some s -> exists a' s',
  on_aevent (AFrame h dt) a = Ret a' /\ ap_scenes a' i = Some s' /\ (forall j, j <> i -> ap_scenes a' j = ap_scenes a j) /\ shown a' i /\
  as_log s' = as_log s ++ [WStep (given (as_play s) dt)] /\ sc_cam (as_play s') = move_camera h (kmin dt sixtieth) (sc_cam (as_play s)) /\
  sc_speed (as_play s') = sc_speed (as_play s) /\ sc_paused (as_play s') = sc_paused (as_play s) /\ as_set s' = as_set s /\ as_tool s' = as_tool s.
Proof.
  intros R C S. destruct (shown_spec z es a R i s S) as (A & B & _). assert (RT : as_rend s = true) by (rewrite B; apply A; exact C).
  cbn. unfold on_current, on_scene. unfold shown in *. rewrite C, S. unfold ascene_step. rewrite RT. cbn. eexists _, _. split; [reflexivity|]. cbn. rewrite put_eq. split; [reflexivity|].
  split; [intros j J; apply put_ne; exact J|]. split; [exact C|]. cbn. rewrite skipn_app, skipn_all, Nat.sub_diag. cbn. repeat split; reflexivity.
Qed.
(** scrolling and resizing change the camera of the shown scene and nothing else *)
Definition only_camera (a : app) (i : nat) (s : ascene) (c : camera) (a' : app) : Prop := exists s', ap_scenes a' i = Some s' /\ (forall j, j <> i -> ap_scenes a' j = ap_scenes a j) /\ shown a' i /\
  sc_cam (as_play s') = c /\ as_log s' = as_log s /\ as_set s' = as_set s /\ as_tool s' = as_tool s /\ sc_speed (as_play s') = sc_speed (as_play s) /\ sc_paused (as_play s') = sc_paused (as_play s).
Lemma camera_spec a gui used y w i s : shown a i -> ap_scenes a i = Some s ->
  (gui || used = true -> on_aevent (AScroll gui used y) a = Ret a) /\
  (gui || used = false -> exists a', on_aevent (AScroll gui used y) a = Ret a' /\ only_camera a i s (scroll_zoom (sc_cam (as_play s)) y) a') /\
  (exists a', on_aevent (AResize w) a = Ret a' /\ ap_size a' = w /\ only_camera a i s (cam_setDimensionsFromScreen (sc_cam (as_play s)) w) a').
Proof.
  intros C S. unfold shown in C. cbn. unfold resize, on_current, on_scene. cbn. rewrite C, S. cbn. split; [intros ->; reflexivity|].
  assert (G : forall a1 o, ap_scenes a1 = ap_scenes a -> ap_cur a1 = Some i -> only_camera a i s (cam_step (sc_cam (as_play s)) o) (with_scenes a1 (put (ap_scenes a1) i (Some (with_cam s o))))).
  { intros a1 o E1 E2. unfold only_camera, shown. cbn. rewrite put_eq. eexists. split; [reflexivity|]. rewrite E1. split; [intros j J; apply put_ne; exact J|]. split; [exact E2|]. cbn.
    rewrite skipn_all. cbn. rewrite app_nil_r. repeat split; reflexivity. }
  split.
  - intros ->. eexists. split; [reflexivity|]. apply (G a (CScroll y)); auto.
  - eexists. split; [reflexivity|]. split; [reflexivity|]. apply (G (App (ap_scenes a) (ap_next a) (ap_names a) (Some i) w (ap_set a) (ap_closed a)) (CScreen w)); auto.
Qed.
(** useTool takes the first tool of the name, or throws *)
Lemma tool_spec n s : (~ In n (as_tools s) -> use_tool n s = Throw) /\
  (In n (as_tools s) -> exists s', use_tool n s = Ret s' /\ nth_error (as_tools s) (as_tool s') = Some n /\ (forall j, j < as_tool s' -> nth_error (as_tools s) j <> Some n) /\
     as_tools s' = as_tools s /\ as_play s' = as_play s /\ as_log s' = as_log s).
Proof.
  unfold use_tool. split; intros H.
  - apply find_tool_none in H. rewrite H. reflexivity.
  - destruct (find_tool n (as_tools s)) as [i|] eqn:F; [|apply find_tool_none in F; contradiction]. destruct (find_tool_lt _ _ _ F) as (A & B & C).
    eexists. split; [reflexivity|]. cbn. auto.
Qed.

(** the window never turns sleeping on *)
Lemma never_sleeps_gen z es a : reached z es a -> g_sleep (ap_set a) = false.
Proof.
  unfold reached. assert (OS : forall i f x y, on_scene i f x = Ret y -> ap_set y = ap_set x).
  { intros i f x y. unfold on_scene. destruct (ap_scenes x i); [|discriminate]. destruct (f _); try discriminate. intros H. injection H as <-. reflexivity. }
  assert (OC : forall f x y, on_current f x = Ret y -> ap_set y = ap_set x).
  { intros f x y. unfold on_current. destruct (ap_cur x); [apply OS|intros H; injection H as <-; reflexivity]. }
  assert (RL : forall i x, ap_set (release i x) = ap_set x) by (intros; unfold release; destruct (is_named _ _); reflexivity).
  assert (CH : forall i x y, change_scene i x = Ret y -> ap_set y = ap_set x).
  { intros i x y. unfold change_scene. destruct (match ap_cur x with Some _ => _ | None => _ end); [intros H; injection H as <-; reflexivity|].
    intros H. destruct (match ap_cur x with None => Ret _ | Some _ => _ end) as [x1| | |] eqn:E1; try discriminate. cbn in H.
    destruct (on_scene i _ x1) as [x2| | |] eqn:E2; try discriminate. cbn in H. destruct (resize x2) as [x3| | |] eqn:E3; try discriminate. cbn in H. injection H as <-.
    assert (ap_set x1 = ap_set x) by (destruct (ap_cur x); [apply OS in E1; exact E1|injection E1 as <-; reflexivity]).
    apply OS in E2. unfold resize in E3. apply OC in E3. destruct (ap_cur x); rewrite ?RL; congruence. }
  assert (G : forall a0, g_sleep (ap_set a0) = false -> run_app es a0 = Ret a -> g_sleep (ap_set a) = false); [|apply G; reflexivity].
  induction es as [|e es IH]; cbn; intros a0 H0 E; [injection E as <-; exact H0|]. destruct (on_aevent e a0) as [a1| | |] eqn:E1; try discriminate. cbn in E. apply (IH a1); [|exact E]. clear E IH.
  destruct e as [n tools|n|n|v p w|h dt|gui used h k x|gui used y|zz|j u]; cbn in E1.
  - rewrite register_eq in E1. assert (RS : ap_set (registered n tools a0) = ap_set a0) by (unfold registered; destruct (named _ _); [destruct (same_scene _ _); rewrite ?RL|]; reflexivity).
    destruct (ap_cur a0); [injection E1 as <-; congruence|apply CH in E1; congruence].
  - destruct (named _ _); [apply CH in E1; congruence|injection E1 as <-; exact H0].
  - apply OC in E1. congruence.
  - apply OC in E1. rewrite E1. exact H0.
  - apply OC in E1. congruence.
  - destruct (gui || used); [injection E1 as <-; exact H0|]. destruct (on_current _ a0) as [a2| | |] eqn:E2; try discriminate. cbn in E1. injection E1 as <-. apply OC in E2.
    destruct x, k, (ap_cur a0); cbn; congruence.
  - destruct (gui || used); [injection E1 as <-; exact H0|]. apply OC in E1. congruence.
  - unfold resize in E1. apply OC in E1. rewrite E1. exact H0.
  - apply OS in E1. congruence.
Qed.

(** ** C90: the settings *)
Lemma settings_spec z es a v p w i s : reached z es a -> shown a i -> ap_scenes a i = Some s -> exists a' s', on_aevent (ASettings v p w) a = Ret a' /\ ap_scenes a' i = Some s' /\
  as_set s' = ap_set a' /\ g_vel (as_set s') = as_uint32 v /\ g_pos (as_set s') = as_uint32 p /\ g_warm (as_set s') = w /\ g_sleep (as_set s') = false /\ as_play s' = as_play s /\
  as_log s' = as_log s ++ (if g_sleep (as_set s) then [WWakeAll] else []) /\ (forall j, j <> i -> ap_scenes a' j = ap_scenes a j).
Proof.
  intros R C S. pose proof (never_sleeps_gen z es a R) as NS. cbn. unfold settings_window, on_current, on_scene. cbn [ap_cur ap_scenes]. unfold shown in C. rewrite C, S. cbn [obind].
  eexists _, _. split; [reflexivity|]. cbn. rewrite put_eq. split; [reflexivity|]. cbn. rewrite NS. repeat split; auto. intros j J; apply put_ne; exact J.
Qed.
(** once a scene is registered, some scene is shown *)
Lemma some_shown z es a : reached z es a -> 0 < ap_next a -> exists i s, shown a i /\ ap_scenes a i = Some s.
Proof.
  intros R P. pose proof (reached_inv z es a R) as I.
  assert (Q : ap_cur a = None -> ap_next a = 0); [|destruct (ap_cur a) as [c|] eqn:C; [destruct (inv_cur _ I c C) as [s S]; exists c, s; auto|specialize (Q eq_refl); lia]].
  clear P I. unfold reached in R.
  assert (OS : forall i f x y, on_scene i f x = Ret y -> ap_cur y = ap_cur x /\ ap_next y = ap_next x).
  { intros i f x y. unfold on_scene. destruct (ap_scenes x i); [|discriminate]. destruct (f _); try discriminate. intros H. injection H as <-. auto. }
  assert (OC : forall f x y, on_current f x = Ret y -> ap_cur y = ap_cur x /\ ap_next y = ap_next x).
  { intros f x y. unfold on_current. destruct (ap_cur x) eqn:C; [intros H; apply OS in H; rewrite C in H; exact H|intros H; injection H as <-; auto]. }
  assert (CH : forall i x y, change_scene i x = Ret y -> ap_cur y = Some i).
  { intros i x y. unfold change_scene. destruct (ap_cur x) as [c|] eqn:C; [destruct (Nat.eqb c i) eqn:E; [apply Nat.eqb_eq in E; subst; intros H; injection H as <-; exact C|]|]; intros H.
    - destruct (on_scene c _ _) as [x1| | |] eqn:E1; try discriminate. cbn in H. destruct (on_scene i _ x1) as [x2| | |] eqn:E2; try discriminate. cbn in H.
      destruct (resize x2) as [x3| | |] eqn:E3; try discriminate. cbn in H. injection H as <-. apply OS in E1. apply OS in E2. unfold resize in E3. apply OC in E3. cbn in *.
      unfold release. destruct (is_named _ _); cbn; intuition congruence.
    - cbn [obind] in H. destruct (on_scene i _ _) as [x2| | |] eqn:E2; try discriminate. cbn in H.
      destruct (resize x2) as [x3| | |] eqn:E3; try discriminate. cbn in H. injection H as <-. apply OS in E2. unfold resize in E3. apply OC in E3. cbn in *. intuition congruence. }
  revert R. assert (G : forall a0, (ap_cur a0 = None -> ap_next a0 = 0) -> run_app es a0 = Ret a -> ap_cur a = None -> ap_next a = 0); [|apply G; reflexivity].
  induction es as [|e es IH]; cbn; intros a0 H0 E; [injection E as <-; exact H0|]. destruct (on_aevent e a0) as [a1| | |] eqn:E1; try discriminate. cbn in E. apply (IH a1); [|exact E]. clear E IH.
  destruct e as [n tools|n|n|v p w|h dt|gui used h k x|gui used y|zz|j u]; cbn in E1.
  - rewrite register_eq in E1. pose proof (registered_cur n tools a0) as RC. destruct (ap_cur a0); [injection E1 as <-; congruence|apply CH in E1; congruence].
  - destruct (named _ _); [apply CH in E1; congruence|injection E1 as <-; exact H0].
  - apply OC in E1 as [-> ->]. exact H0.
  - apply OC in E1 as [-> ->]. exact H0.
  - apply OC in E1 as [-> ->]. exact H0.
  - destruct (gui || used); [injection E1 as <-; exact H0|]. destruct (on_current _ a0) as [a2| | |] eqn:E2; try discriminate. cbn in E1. injection E1 as <-. apply OC in E2 as [C1 C2].
    rewrite <- C1, <- C2 in H0. destruct x, k, (ap_cur a0); cbn; exact H0.
  - destruct (gui || used); [injection E1 as <-; exact H0|]. apply OC in E1 as [-> ->]. exact H0.
  - unfold resize in E1. apply OC in E1 as [-> ->]. exact H0.
  - apply OS in E1 as [-> ->]. exact H0.
Qed.

End Facts.

(** two scenes; the first is shown, left and shown again *)
Definition still_keys : arrows := Ar false false false false.
Definition ex_size : @vec2 F32 := @V2 F32 (fofZ 640) (fofZ 480).
Definition ex_events : list (@aevent F32) := [ARegister 1 [5]; ARegister 2 []; ATool 5; AFrame still_keys k1; ASelect 2; AFrame still_keys k1; ASelect 1].
Definition kinds (l : list (@wcall F32)) : list nat := map (fun c => match c with WClear => 0 | WInit => 1 | WStep _ => 2 | WWakeAll => 3 end) l.
Lemma ex_return : match run_app ex_events (new_app ex_size) with
  | Ret a => match ap_cur a, ap_scenes a 0, ap_scenes a 1 with
             | Some 0, Some s, Some s2 => as_tool s = 1 /\ kinds (as_log s) = [0; 1; 2; 0; 1] /\ kinds (as_log s2) = [0; 1; 2] /\ as_app s2 = false
             | _, _, _ => False end
  | _ => False end.
Proof. vm_compute. auto. Qed.
Definition ex_hidden : list (@aevent F32) := [AFrame still_keys k1; AKey false false still_keys KeyR Press; AFrame still_keys k1].
Lemma ex_frozen : exists a s a', reached ex_size [ARegister 1 [5]; ARegister 2 []] a /\ ap_scenes a 1 = Some s /\ ~ shown a 1 /\ leaves_alone 1 ex_hidden a /\ run_app ex_hidden a = Ret a'.
Proof.
  unfold reached. assert (H : match run_app [ARegister 1 [5]; ARegister 2 []] (new_app ex_size) with
    | Ret a => match ap_cur a, ap_scenes a 1, run_app ex_hidden a with Some 0, Some _, Ret _ => true | _, _, _ => false end | _ => false end = true) by (vm_compute; reflexivity).
  destruct (run_app _ (new_app ex_size)) as [a| | |]; try discriminate H. destruct (ap_cur a) as [[|c]|] eqn:C; try discriminate H. destruct (ap_scenes a 1) as [s|] eqn:S; [|discriminate H].
  destruct (run_app ex_hidden a) as [a'| | |] eqn:R'; try discriminate H. exists a, s, a'. split; [reflexivity|]. split; [exact S|]. split; [unfold shown; congruence|]. split; [|exact R'].
  split; [exact Logic.I|]. intros. split; [exact Logic.I|]. intros. split; [exact Logic.I|]. intros. exact Logic.I.
Qed.
(** the scene enables sleeping; the window, left alone, wakes every body and disables it *)
Definition sleepy : @settings F32 := Settings 8 2 true true k1 k1 k1.
Lemma window_disables : exists (a : app F32) s a' s', reached ex_size [ARegister 1 []; AUse 0 (USettings sleepy)] a /\ shown a 0 /\ ap_scenes a 0 = Some s /\ g_sleep (as_set s) = true /\
  on_aevent (ASettings (g_vel (as_set s)) (g_pos (as_set s)) (g_warm (as_set s))) a = Ret a' /\ ap_scenes a' 0 = Some s' /\
  g_sleep (as_set s') = false /\ as_log s' = as_log s ++ [WWakeAll].
Proof.
  unfold reached. assert (H : match run_app [ARegister 1 []; AUse 0 (USettings sleepy)] (new_app ex_size) with
    | Ret a => match ap_cur a, ap_scenes a 0 with Some 0, Some s => g_sleep (as_set s) | _, _ => false end | _ => false end = true) by (vm_compute; reflexivity).
  destruct (run_app _ (new_app ex_size)) as [a| | |] eqn:R; try discriminate H. destruct (ap_cur a) as [[|c]|] eqn:C; try discriminate H. destruct (ap_scenes a 0) as [s|] eqn:S; [|discriminate H].
  assert (NS := never_sleeps_gen _ _ _ R).
  exists a, s. cbn [on_aevent]. unfold settings_window, on_current, on_scene. cbn [ap_cur ap_scenes]. rewrite C, S. cbn [obind]. eexists _, _. split; [reflexivity|]. split; [exact C|]. split; [reflexivity|]. split; [exact H|].
  split; [reflexivity|]. cbn [ap_scenes with_scenes]. rewrite put_eq. split; [reflexivity|]. cbn [update_settings as_set g_sleep as_log]. rewrite NS, H. split; reflexivity.
Qed.
