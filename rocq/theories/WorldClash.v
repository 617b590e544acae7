(** Two bodies that nothing can move may not touch: the contact between them cannot
    be constructed and World::step throws. *)
From Coq Require Import ZArith List Bool Lia Permutation.
From Verif Require Import Num Outcome Box Mat Geom Transform Body Constraint World WorldHoare WorldInv WorldFrame WorldIsland WorldSolve WorldComp WorldSleep WorldOps WorldCols WorldClean WorldKill WorldStep WorldStrict WorldHist WorldThm WorldMass WorldMove WorldUse.
Import ListNotations.
Local Open Scope num_scope.

Section Clash.
Context {N : Num} {TR : Trig N} {BH : Behaviour N}.
(** the inverse mass a contact gives the body *)
Definition pull (b : body) : K := b_dominance b * b_invMass b.
Definition immovable (w : world) (b : id) : Prop := exists y, w_bh w b = Some y /\ (pull (wb y) =? k0) = true.
Section Pair.
Variables a c b0 b1 : id.
(** colliders [a], [c] of the two bodies, without a contact *)
Record facing (w : world) : Prop := {
  fc_a : owned (w_kh w) a b0; fc_c : owned (w_kh w) c b1; fc_0 : immovable w b0; fc_1 : immovable w b1;
  fc_none : forall i x, w_ch w i = Some x -> c_cols x <> Some (a, c) /\ c_cols x <> Some (c, a) }.
Definition faces (w w' : world) : Prop := facing w -> facing w'.
Lemma faces_refl w : faces w w. Proof. intros H. exact H. Qed.
Lemma faces_trans w1 w2 w3 : faces w1 w2 -> faces w2 w3 -> faces w1 w3. Proof. intros H1 H2 H. exact (H2 (H1 H)). Qed.
Lemma faces_eq w w' : w_bh w' = w_bh w -> w_ch w' = w_ch w -> w_kh w' = w_kh w -> faces w w'.
Proof. intros E1 E2 E3 [A B C D E]. constructor; unfold immovable; rewrite ?E1, ?E2, ?E3; assumption. Qed.
Lemma immovable_body w i y y' b : w_bh w i = Some y -> b_dominance (wb y') = b_dominance (wb y) -> b_props (wb y') = b_props (wb y) -> immovable w b -> immovable (set_bh w (put (w_bh w) i y')) b.
Proof.
  intros E D P (z & Ez & Hz). unfold immovable. cbn. unfold put. destruct (Nat.eqb_spec b i) as [->|n]; [|eauto]. exists y'. split; [reflexivity|]. rewrite E in Ez. injection Ez as <-.
  unfold pull, b_invMass, b_mass in *. rewrite D, P. exact Hz.
Qed.
Lemma faces_body w i y y' : w_bh w i = Some y -> b_dominance (wb y') = b_dominance (wb y) -> b_props (wb y') = b_props (wb y) -> faces w (set_bh w (put (w_bh w) i y')).
Proof. intros E D P [A B C F G]. constructor; try assumption; eapply immovable_body; eassumption. Qed.
Lemma faces_put w i x : (facing w -> c_cols x <> Some (a, c) /\ c_cols x <> Some (c, a)) -> faces w (set_ch w (put (w_ch w) i x)).
Proof. intros HX H. pose proof (HX H) as HX'. destruct H as [A B C D E]. constructor; try assumption. intros j z. cbn. unfold put. destruct (Nat.eqb j i); [intros EZ; injection EZ as <-; exact HX'|apply E]. Qed.
Ltac fc := repeat first [ apply fr_mod_body; intros; eapply faces_body; [eassumption|reflexivity|reflexivity] | apply fr_bind; [exact faces_trans| |intros] | apply fr_get; exact faces_refl | apply fr_deref; exact faces_refl | apply fr_ret; exact faces_refl
  | apply fr_bad | apply fr_lift; exact faces_refl | apply fr_if | apply fr_iter; [exact faces_refl|exact faces_trans|intros] | apply fr_modify; intros; apply faces_eq; reflexivity ].
Lemma faces_blocked d l : frame faces (blocked l d).
Proof. induction l as [|e l IH]; cbn [blocked]; unfold con_at; fc. exact IH. Qed.
(** the assertion of the constructor *)
Lemma new_clash p q dis cols st w : p <> q -> immovable w p -> immovable w q -> new_con p q None dis cols st w = Thrown w.
Proof.
  intros NE (y & Ey & Hy) (z & Ez & Hz). unfold new_con, bind, body_at, deref. rewrite Ey. cbn iota beta. rewrite Ez. cbn iota beta. unfold bodies_masses. cbn [fst snd]. cbv zeta. unfold lift, structural_in. cbn [c_b0 c_b1 c_m0 c_m1].
  rewrite !Nat.eqb_refl. destruct (Nat.eqb_spec q p) as [->|_]; [contradiction|]. unfold pull in Hy, Hz. rewrite Hy, Hz, orb_true_r. reflexivity.
Qed.
Hypothesis NE : b0 <> b1.
Lemma faces_contact o k k' : frame faces (make_contact o k k').
Proof.
  intros w. unfold make_contact, bind at 1, col_at, deref. destruct (w_kh w k) as [x0|] eqn:E0; [|exact I]. unfold bind at 1. destruct (w_kh w k') as [x1|] eqn:E1; [|exact I].
  assert (FR : forall x, c_cols x = Some (k, k') -> ((k, k') <> (a, c) /\ (k, k') <> (c, a)) -> frame faces (i <- fresh ;; put_con i x ;;; iter (fun b => mod_body b (fun x => with_cts x (wb_cts x ++ [i])) ;;; wake b) (con_bodies x) ;;; ret i)).
  { intros x Ex [Hx Hx']. unfold wake. fc. apply fr_modify. intros w1. apply faces_put. intros _. rewrite Ex. split; congruence. }
  assert (CL : facing w -> (k, k') = (a, c) \/ (k, k') = (c, a) -> new_con (k_body x0) (k_body x1) None false (Some (k, k')) (o_state o k k') w = Thrown w).
  { intros [(xa & Ea & Ba) (xc & Ec & Bc) F0 F1 _] [P|P]; injection P as -> ->; apply new_clash; congruence. }
  unfold bind at 1. destruct (new_con _ _ _ _ _ _ w) as [x w1|w1| |] eqn:E; auto.
  - pose proof (new_firm _ _ _ _ _ _ _ _ _ E) as [_ ->].
    assert (Ex : c_cols x = Some (k, k')).
    { unfold new_con in E. apply bind_ok in E. destruct E as (z0 & w1 & _ & E). apply bind_ok in E. destruct E as (z1 & w2 & _ & E). destruct (bodies_masses _ _ _) as [[[? ?] ?] ?]. apply bind_ok in E. destruct E as (s0 & w3 & _ & E).
      apply bind_ok in E. destruct E as (s1 & w4 & _ & E). destruct (s0 && _); [discriminate|]. injection E as <- _. reflexivity. }
    match goal with |- match ?e with _ => _ end => destruct e as [r w2|w2| |] eqn:E2 end; auto; intros PW;
      (assert (HX : (k, k') <> (a, c) /\ (k, k') <> (c, a)) by (split; intros P; pose proof (CL PW ltac:(auto)) as X; discriminate));
      specialize (FR x Ex HX w); rewrite E2 in FR; exact (FR PW).
  - assert (F0 : frame faces (new_con (k_body x0) (k_body x1) None false (Some (k, k')) (o_state o k k'))) by (unfold new_con, body_at; fc).
    specialize (F0 w). rewrite E in F0. exact F0.
Qed.
Lemma faces_settle e : frame faces (settle e).
Proof. unfold settle. apply fr_if; [apply fr_ret; exact faces_refl|]. apply fr_mod_con. intros w y E. apply faces_put. intros H. exact (fc_none _ H _ _ E). Qed.
Lemma faces_register o p : frame faces (register o p).
Proof.
  unfold register, col_at, body_at. fc; [apply faces_blocked|]. match goal with |- frame _ (match ?e with _ => _ end) => destruct e end; [fc|]. apply fr_bind; [exact faces_trans|apply faces_contact|intros i; fc].
Qed.
Lemma faces_update o dt : frame faces (update_bodies o dt).
Proof.
  unfold update_bodies, sleep_one. apply fr_bind; [exact faces_trans|fc|intros s]. apply fr_bind; [exact faces_trans|fc|intros bs]. apply fr_bind; [exact faces_trans| |intros _].
  { apply fr_if; [|apply fr_ret; exact faces_refl]. apply fr_iter; [exact faces_refl|exact faces_trans|intros i]. apply fr_mod_body. intros w y E.
    eapply faces_body; [exact E| |]; cbn [wb with_wb]; unfold sleep_step; repeat match goal with |- context [if ?c then _ else _] => destruct c end; reflexivity. }
  apply fr_bind; [exact faces_trans|apply fr_iter; [exact faces_refl|exact faces_trans|apply faces_register]|intros _]. apply fr_bind; [exact faces_trans|fc|intros es].
  apply fr_bind; [exact faces_trans|apply fr_iter; [exact faces_refl|exact faces_trans|apply faces_settle]|intros _]. fc.
Qed.
Lemma faces_same w w' : same w w' -> faces w w'.
Proof.
  intros S [A B C D E]. constructor.
  - unfold owned in *. rewrite (sa_k _ _ S). exact A.
  - unfold owned in *. rewrite (sa_k _ _ S). exact B.
  - destruct C as (y & Ey & Hy). destruct (hrel_some _ _ _ _ _ (sa_b _ _ S) Ey) as (y' & Ey' & BS). exists y'. split; [exact Ey'|]. unfold pull, b_invMass, b_mass. rewrite (bs_dom _ _ BS), (bs_props _ _ BS). exact Hy.
  - destruct D as (y & Ey & Hy). destruct (hrel_some _ _ _ _ _ (sa_b _ _ S) Ey) as (y' & Ey' & BS). exists y'. split; [exact Ey'|]. unfold pull, b_invMass, b_mass. rewrite (bs_dom _ _ BS), (bs_props _ _ BS). exact Hy.
  - intros i x Ex. destruct (hrel_some' _ _ _ _ _ (sa_c _ _ S) Ex) as (x0 & Ex0 & CS). rewrite (cs_cols _ _ CS). exact (E i x0 Ex0).
Qed.
Lemma immovable_clean die w w' b : cleaned die w w' -> ~ dying die w b -> immovable w b -> immovable w' b.
Proof.
  intros CL ND (y & Ey & Hy). pose proof (cl_b _ _ _ CL b) as H. destruct (bdead die w b) eqn:EB.
  - exfalso. apply ND. exists y. split; [exact Ey|]. unfold bdead in EB. rewrite Ey in EB. apply orb_true_iff in EB. exact EB.
  - rewrite Ey in H. cbn in H. eexists. split; [exact H|]. cbn. unfold roused. destruct (touched _ _ _); exact Hy.
Qed.
Lemma owned_clean die w w' k b : cleaned die w w' -> ~ dying die w b -> (exists y, w_bh w b = Some y) -> owned (w_kh w) k b -> owned (w_kh w') k b.
Proof.
  intros CL ND (y & Ey) (x & Ex & <-). pose proof (cl_k _ _ _ CL k) as H. rewrite Ex in H. destruct (bdead die w (k_body x)) eqn:EB; [|exists x; auto].
  exfalso. apply ND. exists y. split; [exact Ey|]. unfold bdead in EB. rewrite Ey in EB. apply orb_true_iff in EB. exact EB.
Qed.
Hypothesis T : tame.
Theorem step_clash strict fuel o dt w w' : reachable w -> shuffles o -> length (w_bodies w) <= fuel -> (k0 <? dt) = true ->
  facing w -> ~ dying (o_die o) w b0 -> ~ dying (o_die o) w b1 -> (forall d z, In d (w_cons w) -> w_ch w d = Some z -> c_dis z = true -> ~ joins z b0 b1) -> In (a, c) (o_pairs o) \/ In (c, a) (o_pairs o) ->
  step strict fuel o dt w <> Ok tt w'.
Proof.
  intros HR Hs HF Hdt FC D0 D1 NJ HP E. apply (refines_ok _ _ _ _ _ (rf_step strict fuel o dt)) in E. destruct (reachable_sound T w HR) as ((HS & HI & G) & NT & KL).
  pose proof (step_ok T fuel o dt w Hs G HS HI HF) as H. unfold wp in H. rewrite E in H. destruct H as (HS' & HI' & [(w1 & w2 & PH)]). rewrite Hdt in PH.
  destruct PH as (E1 & S1 & I1 & CL & E2 & S2 & I2 & RS & w3 & w4 & E3 & S3 & I3 & PU & E4 & S4 & Q4 & Sm & K4 & L4 & E5 & U).
  destruct (restated_same _ _ RS) as (C2 & K2 & EB & EL). destruct PU as (C3 & K3 & EC & _ & PK).
  assert (F1 : facing w1).
  { destruct FC as [A B C D F]. constructor; try (eapply immovable_clean; eassumption).
    - destruct C as (y & Ey & _). eapply owned_clean; eauto.
    - destruct D as (y & Ey & _). eapply owned_clean; eauto.
    - intros i x Ex. rewrite (cl_c _ _ _ CL) in Ex. destruct (cdead _ _ _); [discriminate|]. exact (F i x Ex). }
  assert (SM : same w1 w4) by (eapply same_trans; [exact (proj1 C2)|eapply same_trans; [exact (proj1 C3)|exact Sm]]).
  pose proof (faces_same _ _ SM F1) as F4. pose proof (frame_ok _ _ _ _ _ (faces_update o dt) E5 F4) as F5.
  assert (TC : forall p q xp xq, w_kh w' p = Some xp -> w_kh w' q = Some xq -> k_body xp <> k_body xq -> (forall z, joins z (k_body xp) (k_body xq) -> joins z b0 b1) -> may_touch w' p q).
  { intros p q xp xq Hp Hq NB J. destruct (i_cols _ HS') as (_ & HT & _). split; [apply HT; eauto|]. split; [apply HT; eauto|]. exists xp, xq. split; [exact Hp|]. split; [exact Hq|]. split; [exact NB|].
    intros d z Hd Ez Hz JZ. rewrite (u_cons _ _ _ U) in Hd. rewrite (u_con _ _ _ U d Hd) in Ez. rewrite (sa_cons _ _ SM), (cl_cons _ _ _ CL) in Hd. apply filter_In in Hd. destruct Hd as [Hd _].
    destruct (hrel_some' _ _ _ _ _ (sa_c _ _ SM) Ez) as (z1 & Ez1 & CS). rewrite (cl_c _ _ _ CL) in Ez1. destruct (cdead _ _ _); [discriminate|].
    apply (NJ d z1 Hd Ez1); [rewrite <- (cs_dis _ _ CS); exact Hz|]. apply J in JZ. unfold joins in *. rewrite (cs_b0 _ _ CS), (cs_b1 _ _ CS) in JZ. exact JZ. }
  destruct F5 as [(xa & Ea & Ba) (xc & Ec & Bc) _ _ NO].
  assert (X : exists e x p q, contact_of w' e x p q /\ ((p, q) = (a, c) \/ (p, q) = (c, a))).
  { destruct HP as [HP|HP].
    - destruct (u_pairs _ _ _ U (a, c) HP) as (e & x & p & q & C & _ & [P|P]).
      + apply (TC a c xa xc Ea Ec); [congruence|]. rewrite Ba, Bc. auto.
      + exists e, x, p, q. auto.
      + exists e, x, p, q. injection P as -> ->. auto.
    - destruct (u_pairs _ _ _ U (c, a) HP) as (e & x & p & q & C & _ & [P|P]).
      + apply (TC c a xc xa Ec Ea); [congruence|]. rewrite Ba, Bc. unfold joins. tauto.
      + exists e, x, p, q. auto.
      + exists e, x, p, q. injection P as -> ->. auto. }
  destruct X as (e & x & p & q & (_ & Ex & Cx) & P). destruct (NO _ _ Ex) as [N1 N2]. destruct P as [P|P]; injection P as -> ->; contradiction.
Qed.
Theorem step_throws fuel o dt w : reachable w -> shuffles o -> length (w_bodies w) <= fuel -> (k0 <? dt) = true ->
  facing w -> ~ dying (o_die o) w b0 -> ~ dying (o_die o) w b1 -> (forall d z, In d (w_cons w) -> w_ch w d = Some z -> c_dis z = true -> ~ joins z b0 b1) -> In (a, c) (o_pairs o) \/ In (c, a) (o_pairs o) ->
  exists w', step false fuel o dt w = Thrown w'.
Proof.
  intros HR Hs HF Hdt FC D0 D1 NJ HP. pose proof (step_safe T fuel o dt w HR Hs HF) as S. destruct (step false fuel o dt w) as [[] w'|w'| |] eqn:E; try contradiction; [|eauto].
  exfalso. exact (step_clash false fuel o dt w w' HR Hs HF Hdt FC D0 D1 NJ HP E).
Qed.
End Pair.
(** ** Nothing else in the search for contacts throws *)
Definition silent {A} (m : M A) : Prop := forall w, match m w with Thrown _ => False | _ => True end.
Lemma si_bind {A B} (m : M A) (f : A -> M B) : silent m -> (forall x, silent (f x)) -> silent (bind m f).
Proof. intros H1 H2 w. unfold bind. specialize (H1 w). destruct (m w) as [x w1|w1| |]; auto. apply H2. Qed.
Lemma si_ret {A} (x : A) : silent (ret x). Proof. intros w. exact I. Qed.
Lemma si_get {A} (f : world -> A) : silent (get f). Proof. intros w. exact I. Qed.
Lemma si_modify f : silent (modify f). Proof. intros w. exact I. Qed.
Lemma si_deref {A} (h : world -> heap A) i : silent (deref h i).
Proof. intros w. unfold deref. destruct (h w i); exact I. Qed.
Lemma si_if {A} (t : bool) (m m' : M A) : silent m -> silent m' -> silent (if t then m else m'). Proof. destruct t; auto. Qed.
Lemma si_iter {A} (f : A -> M unit) l : (forall x, silent (f x)) -> silent (iter f l).
Proof. intros H. induction l as [|x l IH]; cbn [iter]; [apply si_ret|]. apply si_bind; auto. Qed.
Ltac si := repeat first [ apply si_bind; [|intros] | apply si_ret | apply si_get | apply si_modify | apply si_deref | apply si_if | apply si_iter; intros ].
Lemma si_blocked d l : silent (blocked l d).
Proof. induction l as [|e l IH]; cbn [blocked]; unfold con_at; si. exact IH. Qed.
(** the bodies and colliders as the search for contacts sees them *)
Definition alike (w w' : world) : Prop := w_kh w' = w_kh w /\ forall b, option_map (fun y => pull (wb y)) (w_bh w' b) = option_map (fun y => pull (wb y)) (w_bh w b).
Lemma alike_refl w : alike w w. Proof. split; reflexivity. Qed.
Lemma alike_trans w1 w2 w3 : alike w1 w2 -> alike w2 w3 -> alike w1 w3. Proof. intros [A1 A2] [B1 B2]. split; [congruence|]. intros b. rewrite B2. apply A2. Qed.
Lemma alike_eq w w' : w_bh w' = w_bh w -> w_kh w' = w_kh w -> alike w w'. Proof. intros E1 E2. split; [exact E2|]. rewrite E1. reflexivity. Qed.
Lemma alike_body w i y y' : w_bh w i = Some y -> b_dominance (wb y') = b_dominance (wb y) -> b_props (wb y') = b_props (wb y) -> alike w (set_bh w (put (w_bh w) i y')).
Proof. intros E D P. split; [reflexivity|]. intros b. cbn. unfold put. destruct (Nat.eqb_spec b i) as [->|n]; [|reflexivity]. rewrite E. cbn. unfold pull, b_invMass, b_mass. rewrite D, P. reflexivity. Qed.
Lemma alike_immovable w w' b : alike w w' -> immovable w' b -> immovable w b.
Proof. intros [_ H] (y & Ey & Hy). specialize (H b). rewrite Ey in H. destruct (w_bh w b) as [z|] eqn:Ez; [|discriminate]. cbn in H. injection H as H. exists z. split; [exact Ez|]. rewrite <- H. exact Hy. Qed.
Ltac al := repeat first [ apply fr_mod_body; intros; eapply alike_body; [eassumption|reflexivity|reflexivity] | apply fr_mod_con; intros; apply alike_eq; reflexivity | apply fr_bind; [exact alike_trans| |intros] | apply fr_get; exact alike_refl | apply fr_deref; exact alike_refl | apply fr_ret; exact alike_refl
  | apply fr_bad | apply fr_lift; exact alike_refl | apply fr_if | apply fr_iter; [exact alike_refl|exact alike_trans|intros] | apply fr_modify; intros; apply alike_eq; reflexivity ].
Lemma alike_blocked d l : frame alike (blocked l d).
Proof. induction l as [|e l IH]; cbn [blocked]; unfold con_at; al. exact IH. Qed.
Lemma alike_contact o k k' : frame alike (make_contact o k k').
Proof.
  unfold make_contact, new_con, col_at, body_at, wake. al.
Qed.
Lemma alike_register o p : frame alike (register o p).
Proof. unfold register, col_at, body_at. al; [apply alike_blocked|]. match goal with |- frame _ (match ?e with _ => _ end) => destruct e end; [al|]. apply fr_bind; [exact alike_trans|apply alike_contact|intros i; al]. Qed.
Lemma bind_thrown {A B} (m : M A) (f : A -> M B) w w' : bind m f w = Thrown w' -> m w = Thrown w' \/ exists x w1, m w = Ok x w1 /\ f x w1 = Thrown w'.
Proof. unfold bind. destruct (m w) as [x w1|w1| |]; try discriminate; [eauto|]. intros E. left. congruence. Qed.
Lemma silent_not {A} (m : M A) w w' : silent m -> m w = Thrown w' -> False.
Proof. intros H E. specialize (H w). rewrite E in H. exact H. Qed.
Lemma contact_blame o k k' w w' : make_contact o k k' w = Thrown w' -> exists x x', w_kh w k = Some x /\ w_kh w k' = Some x' /\ immovable w (k_body x) /\ (k_body x = k_body x' \/ immovable w (k_body x')).
Proof.
  unfold make_contact, bind at 1, col_at, deref. destruct (w_kh w k) as [x|] eqn:E0; [|discriminate]. unfold bind at 1. destruct (w_kh w k') as [x'|] eqn:E1; [|discriminate].
  intros E. exists x, x'. split; [reflexivity|]. split; [reflexivity|]. apply bind_thrown in E. destruct E as [E|(z & w1 & _ & E)].
  - unfold new_con, bind, body_at, deref in E. destruct (w_bh w (k_body x)) as [y0|] eqn:Y0; [|discriminate]. destruct (w_bh w (k_body x')) as [y1|] eqn:Y1; [|discriminate]. unfold bodies_masses in E. cbn [fst snd] in E. cbv zeta in E.
    unfold lift, structural_in in E. cbn [c_b0 c_b1 c_m0 c_m1] in E. rewrite !Nat.eqb_refl in E. destruct (Nat.eqb_spec (k_body x') (k_body x)) as [Eb|NB].
    + destruct (b_dominance (wb y0) * b_invMass (wb y0) =? k0) eqn:Z0; [|discriminate]. split; [exists y0; auto|left; auto].
    + destruct (b_dominance (wb y0) * b_invMass (wb y0) =? k0) eqn:Z0; [|discriminate]. destruct (b_dominance (wb y1) * b_invMass (wb y1) =? k0) eqn:Z1; [|rewrite (proj2 (Nat.eqb_neq (k_body x) (k_body x'))) in E by congruence; discriminate].
      split; [exists y0; auto|right; exists y1; auto].
  - exfalso. eapply silent_not; [|exact E]. unfold fresh, put_con, wake, mod_body, put_body, body_at. si. intros w2. exact I.
Qed.
Definition clashing (w : world) (k k' : id) : Prop := exists x x', w_kh w k = Some x /\ w_kh w k' = Some x' /\ k_body x <> k_body x' /\ immovable w (k_body x) /\ immovable w (k_body x').
Lemma register_blame o p w w' : register o p w = Thrown w' -> clashing w (fst p) (snd p).
Proof.
  unfold register. intros E. apply bind_thrown in E. destruct E as [E|(t & w1 & E1 & E)]; [discriminate|]. injection E1 as <- <-. destruct (_ && _) in E; [|discriminate].
  unfold bind at 1, col_at, deref in E. destruct (w_kh w (fst p)) as [x|] eqn:E0; [|discriminate]. unfold bind at 1 in E. destruct (w_kh w (snd p)) as [x'|] eqn:E1; [|discriminate].
  destruct (Nat.eqb_spec (k_body x) (k_body x')) as [|NB]; [discriminate|]. apply bind_thrown in E. destruct E as [E|(y & w1 & Ey & E)]; [exfalso; eapply silent_not; [|exact E]; unfold body_at; si|].
  unfold body_at, deref in Ey. destruct (w_bh w (k_body x)); [|discriminate]. injection Ey as <- <-.
  assert (BL : forall l w r w1, blocked l (k_body x') w = Ok r w1 -> w1 = w).
  { clear. induction l as [|e l IH]; cbn [blocked]; intros w r w1 E; [injection E as _ <-; reflexivity|]. unfold bind, con_at, deref in E. destruct (w_ch w e); [|discriminate]. destruct (_ && _) in E; [injection E as _ <-; reflexivity|eauto]. }
  apply bind_thrown in E. destruct E as [E|(d & w1 & Ed & E)]; [exfalso; eapply silent_not; [apply si_blocked|exact E]|]. apply BL in Ed. subst w1. destruct d; [discriminate|]. unfold bind at 1, get in E. destruct (in_contacts _ _); [discriminate|].
  apply bind_thrown in E. destruct E as [E|(i & w1 & _ & E)]; [|discriminate]. destruct (contact_blame _ _ _ _ _ E) as (z & z' & Z & Z' & I0 & [I1|I1]).
  - rewrite E0 in Z. rewrite E1 in Z'. congruence.
  - rewrite E0 in Z. rewrite E1 in Z'. injection Z as <-. injection Z' as <-. exists x, x'. auto.
Qed.
Lemma iter_thrown {A} (R : world -> world -> Prop) (f : A -> M unit) l w w' : (forall w, R w w) -> (forall w1 w2 w3, R w1 w2 -> R w2 w3 -> R w1 w3) -> (forall x, frame R (f x)) -> iter f l w = Thrown w' -> exists x w1, In x l /\ R w w1 /\ f x w1 = Thrown w'.
Proof.
  intros RR RT F. revert w. induction l as [|x l IH]; cbn [iter]; intros w E; [discriminate|]. apply bind_thrown in E. destruct E as [E|(u & w1 & E1 & E)]; [exists x, w; cbn; auto|].
  destruct (IH w1 E) as (z & w2 & Hz & HR & Ez). exists z, w2. split; [right; exact Hz|]. split; [|exact Ez]. eapply RT; [|exact HR]. eapply frame_ok; [apply F|exact E1].
Qed.
Theorem update_blame o dt w w' : update_bodies o dt w = Thrown w' -> exists p, In p (o_pairs o) /\ clashing w (fst p) (snd p).
Proof.
  unfold update_bodies. unfold bind at 1, get at 1. unfold bind at 1, get at 1. intros E. apply bind_thrown in E.
  assert (SL : forall s i, silent (sleep_one s dt i)) by (intros; unfold sleep_one, mod_body, put_body, body_at; si).
  destruct E as [E|(u & w1 & E1 & E)]; [exfalso; eapply silent_not; [|exact E]; apply si_if; [apply si_iter; intros; apply SL|apply si_ret]|].
  assert (A1 : alike w w1).
  { eapply frame_ok; [|exact E1]. unfold sleep_one. apply fr_if; [|apply fr_ret; exact alike_refl]. apply fr_iter; [exact alike_refl|exact alike_trans|intros i]. apply fr_mod_body. intros w2 y E2.
    eapply alike_body; [exact E2| |]; cbn [wb with_wb]; unfold sleep_step; repeat match goal with |- context [if ?c then _ else _] => destruct c end; reflexivity. }
  apply bind_thrown in E. destruct E as [E|(v & w2 & _ & E)].
  - apply (iter_thrown alike) in E; [|exact alike_refl|exact alike_trans|apply alike_register]. destruct E as (p & w2 & Hp & A2 & E). exists p. split; [exact Hp|]. pose proof (alike_trans _ _ _ A1 A2) as A.
    destruct (register_blame _ _ _ _ E) as (x & x' & Kx & Kx' & NB & I0 & I1). exists x, x'. rewrite (proj1 A) in Kx, Kx'. repeat (split; [assumption|]). split; eapply alike_immovable; eassumption.
  - exfalso. eapply silent_not; [|exact E]. unfold settle, kill_con, mod_con, put_con, con_at. si.
Qed.
Theorem search_blame o dt w w' : update_bodies o dt w = Thrown w' ->
  exists a c x x', In (a, c) (o_pairs o) /\ w_kh w a = Some x /\ w_kh w c = Some x' /\ k_body x <> k_body x' /\ immovable w (k_body x) /\ immovable w (k_body x').
Proof. intros E. destruct (update_blame _ _ _ _ E) as ([a c] & Hp & x & x' & H). exists a, c, x, x'. auto. Qed.
End Clash.
