(** Uses of destroyed contacts and constraints. *)
From Coq Require Import ZArith List Bool Lia Permutation.
From Verif Require Import Num Outcome Box Mat Geom Transform Body Constraint World WorldHoare WorldInv WorldFrame WorldIsland WorldSolve WorldComp WorldSleep WorldOps WorldCols WorldClean WorldKill WorldStep WorldStrict WorldHist WorldThm.
Import ListNotations.

Section Use.
Context {N : Num} {TR : Trig N} {BH : Behaviour N}.
Local Open Scope num_scope.

(** ** Building the islands reads every contact of every body *)
Definition known (w : world) (c : id) : Prop := w_ch w c <> None.
Lemma known_same w w' c : same w w' -> (known w' c <-> known w c).
Proof. intros S. unfold known. rewrite <- (hrel_none _ _ _ _ (sa_c _ _ S)). tauto. Qed.
Lemma frame_ok {A} R (m : M A) w a w' : frame R m -> m w = Ok a w' -> R w w'.
Proof. intros F E. specialize (F w). rewrite E in F. exact F. Qed.
Lemma con_at_ok c w x w' : con_at c w = Ok x w' -> w' = w /\ w_ch w c = Some x.
Proof. unfold con_at, deref. destruct (w_ch w c); [|discriminate]. intros E. injection E as -> ->. auto. Qed.
Lemma body_at_ok b w x w' : body_at b w = Ok x w' -> w' = w /\ w_bh w b = Some x.
Proof. unfold body_at, deref. destruct (w_bh w b); [|discriminate]. intros E. injection E as -> ->. auto. Qed.
Lemma add_body_prefix il b w il' f w' : add_body il b w = Ok (il', f) w' -> exists new, is_bodies il' = is_bodies il ++ new /\ (f = true -> exists x, new = [x]) /\ (f = false -> new = []).
Proof.
  unfold add_body. intros E. apply bind_ok in E. destruct E as (y & w1 & E1 & E2). destruct (wb_proxy y).
  - injection E2 as <- <- <-. exists []. rewrite app_nil_r. repeat split; auto. discriminate.
  - destruct (Z.ltb _ _); [|discriminate]. apply bind_ok in E2. destruct E2 as (u & w2 & E2 & E3). injection E3 as <- <- <-. exists [b]. cbn. repeat split; eauto. discriminate.
Qed.
Lemma add_con_reads k il c w il' w' : add_con k il c w = Ok il' w' -> known w c /\ exists new, is_bodies il' = is_bodies il ++ new.
Proof.
  unfold add_con. intros E. apply bind_ok in E. destruct E as (x & w1 & E1 & E2). apply con_at_ok in E1. destruct E1 as [-> Ex]. split; [unfold known; congruence|].
  destruct (c_px x); [injection E2 as <- <-; exists []; rewrite app_nil_r; reflexivity|].
  apply bind_ok in E2. destruct E2 as (x0 & w2 & _ & E2). apply bind_ok in E2. destruct E2 as (x1 & w3 & _ & E2). cbv zeta in E2.
  apply bind_ok in E2. destruct E2 as ([il1 f1] & w4 & A1 & E2). apply bind_ok in E2. destruct E2 as ([il2 f2] & w5 & A2 & E2). cbn [fst snd] in *.
  apply add_body_prefix in A1. destruct A1 as (n1 & B1 & T1 & F1). apply add_body_prefix in A2. destruct A2 as (n2 & B2 & T2 & F2).
  apply bind_ok in E2. destruct E2 as (px & w6 & _ & E2). apply bind_ok in E2. destruct E2 as (st & w7 & _ & E2). apply bind_ok in E2. destruct E2 as (y & w8 & _ & E2). apply bind_ok in E2. destruct E2 as (a & w9 & _ & E2).
  apply bind_ok in E2. destruct E2 as (u & w10 & _ & E2). destruct (snd a); [injection E2 as <- <-; cbn; rewrite B2, B1, <- app_assoc; eauto|].
  apply bind_ok in E2. destruct E2 as (il3 & w11 & E3 & E2). apply bind_ok in E2. destruct E2 as (il4 & w12 & E4 & E2). apply bind_ok in E2. destruct E2 as (u2 & w13 & _ & E2). injection E2 as <- <-.
  assert (H3 : is_bodies il3 = is_bodies il1).
  { destruct f2.
    - apply bind_ok in E3. destruct E3 as (u3 & w14 & _ & E3). injection E3 as <- <-. cbn. destruct (T2 eq_refl) as (z & ->). rewrite B2, removelast_last. reflexivity.
    - injection E3 as <- <-. rewrite B2, (F2 eq_refl), app_nil_r. reflexivity. }
  exists []. rewrite app_nil_r. destruct f1.
  - apply bind_ok in E4. destruct E4 as (u3 & w14 & _ & E4). injection E4 as <- <-. cbn. destruct (T1 eq_refl) as (z & ->). rewrite H3, B1, removelast_last. reflexivity.
  - injection E4 as <- <-. rewrite H3, B1, (F1 eq_refl), app_nil_r. reflexivity.
Qed.
Lemma fold_reads k l : forall il w il' w', foldm (add_con k) il l w = Ok il' w' -> (forall c, In c l -> known w c) /\ exists new, is_bodies il' = is_bodies il ++ new.
Proof.
  induction l as [|c l IH]; intros il w il' w' E; cbn in E; [injection E as <- <-; split; [intros ? []|exists []; rewrite app_nil_r; reflexivity]|].
  apply bind_ok in E. destruct E as (il1 & w1 & E1 & E2). pose proof (frame_ok _ _ _ _ _ (fs_add_con k il c) E1) as S. apply add_con_reads in E1. destruct E1 as (K1 & n1 & B1). destruct (IH _ _ _ _ E2) as (K2 & n2 & B2). split.
  - intros c' [<-|Hc]; [exact K1|]. apply (known_same _ _ _ S), K2, Hc.
  - exists (n1 ++ n2). rewrite B2, B1, app_assoc. reflexivity.
Qed.
Lemma all_structural_reads i l : forall s w w', all_structural i l s w = Ok true w' -> s = true /\ forall c, In c l -> known w c.
Proof.
  induction l as [|c l IH]; intros s w w' E; cbn in E; [injection E as <- _; split; [reflexivity|intros ? []]|]. destruct s.
  - apply bind_ok in E. destruct E as (x & w1 & E1 & E2). apply con_at_ok in E1. destruct E1 as [-> Ex]. apply bind_ok in E2. destruct E2 as (s' & w2 & E2 & E3).
    assert (w2 = w) by (unfold lift in E2; destruct (structural_in x i); try discriminate; injection E2 as _ <-; reflexivity). subst w2. destruct (IH _ _ _ E3) as [_ H]. split; [reflexivity|].
    intros c' [<-|Hc]; [unfold known; congruence|auto].
  - destruct (IH _ _ _ E) as [H _]. discriminate.
Qed.
Definition sees (w : world) (b : id) : Prop := exists y, w_bh w b = Some y /\ forall c, In c (wb_cts y) -> known w c.
Lemma sees_same w w' b : same w w' -> sees w' b -> sees w b.
Proof.
  intros S (y' & E' & H). destruct (hrel_some' _ _ _ _ _ (sa_b _ _ S) E') as (y & Ey & BS). exists y. split; [exact Ey|]. intros c Hc. apply (known_same _ _ _ S), H. rewrite (bs_cts _ _ BS). exact Hc.
Qed.
Lemma grow_reads fuel : forall cur il w il' w', grow fuel cur il w = Ok il' w' -> (exists new, is_bodies il' = is_bodies il ++ new) /\
  forall n b, cur <= n -> nth_error (is_bodies il') n = Some b -> sees w b.
Proof.
  induction fuel as [|fuel IH]; intros cur il w il' w' E; cbn [grow] in E; destruct (nth_error (is_bodies il) cur) as [r|] eqn:Er; try discriminate.
  - injection E as <- <-. split; [exists []; rewrite app_nil_r; reflexivity|]. intros n b Hn Hb. exfalso. apply nth_error_None in Er. assert (nth_error (is_bodies il) n = None) by (apply nth_error_None; lia). congruence.
  - apply bind_ok in E. destruct E as (s & w1 & E1 & E2). apply bind_ok in E2. destruct E2 as (il1 & w2 & E2 & E3). pose proof (frame_ok _ _ _ _ _ (fs_acts r) E1) as S1.
    assert (HH : sees w r /\ same w1 w2 /\ exists new, is_bodies il1 = is_bodies il ++ new).
    { destruct s.
      - injection E2 as <- <-. split; [|split; [apply same_refl|exists []; rewrite app_nil_r; reflexivity]]. unfold acts_structural in E1. apply bind_ok in E1. destruct E1 as (y & w3 & F1 & F2). apply body_at_ok in F1. destruct F1 as [-> Ey].
        apply bind_ok in F2. destruct F2 as (s & w3 & F2 & F3). pose proof (frame_ok _ _ _ _ _ (fs_all_structural r _ _) F2) as S2. apply all_structural_reads in F3. destruct F3 as [_ F3].
        exists y. split; [exact Ey|]. intros c Hc. apply (known_same _ _ _ S2), F3, Hc.
      - apply bind_ok in E2. destruct E2 as (y & w3 & F1 & F2). apply body_at_ok in F1. destruct F1 as [-> Ey]. apply bind_ok in F2. destruct F2 as (il2 & w4 & F2 & F3).
        assert (SA : same w1 w4) by (eapply frame_ok; [|exact F2]; apply fr_foldm; [exact same_refl|exact same_trans|intros; apply fs_add_con]).
        assert (SB : same w4 w2) by (eapply frame_ok; [|exact F3]; apply fr_foldm; [exact same_refl|exact same_trans|intros; apply fs_add_con]).
        apply fold_reads in F2. destruct F2 as (_ & n1 & B1). apply fold_reads in F3. destruct F3 as (K3 & n2 & B2). split; [|split; [eapply same_trans; eassumption|exists (n1 ++ n2); rewrite B2, B1, app_assoc; reflexivity]].
        apply (sees_same _ _ _ S1). exists y. split; [exact Ey|]. intros c Hc. apply (known_same _ _ _ SA), K3, Hc. }
    destruct HH as (Hr & S2 & n1 & B1). destruct (IH _ _ _ _ _ E3) as ((n2 & B2) & H). split; [exists (n1 ++ n2); rewrite B2, B1, app_assoc; reflexivity|].
    intros n b Hn Hb. destruct (Nat.eq_dec n cur) as [->|ne].
    + assert (b = r); [|subst; exact Hr]. rewrite B2, B1 in Hb. rewrite <- app_assoc, nth_error_app1 in Hb by (apply nth_error_Some; congruence). congruence.
    + apply (sees_same _ _ _ S1), (sees_same _ _ _ S2), (H n b); [lia|exact Hb].
  - injection E as <- <-. split; [exists []; rewrite app_nil_r; reflexivity|]. intros n b Hn Hb. exfalso. apply nth_error_None in Er. assert (nth_error (is_bodies il) n = None) by (apply nth_error_None; lia). congruence.
Qed.
Lemma islands_read f2 s dt : forall f1 aw todo w w', solve_islands f1 f2 s dt aw todo w = Ok tt w' -> forall b, In b todo -> sees w b.
Proof.
  induction f1 as [|f1 IH]; intros aw todo w w' E b Hb; cbn [solve_islands] in E; destruct (rev todo) as [|root l] eqn:ER; try discriminate;
    try (rewrite <- (rev_involutive todo), ER in Hb; destruct Hb).
  apply bind_ok in E. destruct E as ([todo' aw'] & w1 & E1 & E2). pose proof (frame_ok _ _ _ _ _ (fs_solve_one f2 s dt aw todo root) E1) as S1. unfold solve_one in E1.
  apply bind_ok in E1. destruct E1 as (il & w2 & F1 & F2). unfold init_island in F1. apply bind_ok in F1. destruct F1 as ([il0 f0] & w3 & F0 & F1). pose proof (frame_ok _ _ _ _ _ (fs_add_body _ _) F0) as S0.
  cbn [fst] in F1. destruct (grow_reads _ _ _ _ _ _ F1) as (_ & HG).
  assert (Et : todo' = filter (fun i => negb (existsb (Nat.eqb i) (is_bodies il))) todo).
  { cbv zeta in F2. repeat (apply bind_ok in F2; destruct F2 as (? & ? & _ & F2)). injection F2 as <- _ _. reflexivity. }
  destruct (in_dec Nat.eq_dec b (is_bodies il)) as [Hi|Hi].
  - apply In_nth_error in Hi. destruct Hi as [n Hn]. apply (sees_same _ _ _ S0), (HG n b); [lia|exact Hn].
  - apply (sees_same _ _ _ S1). apply (IH _ _ _ _ E2 b). cbn [fst]. rewrite Et. apply filter_In. split; [exact Hb|]. apply negb_true_iff, existsb_notin. exact Hi.
Qed.

(** ** A body which refers to a destroyed contact *)
Record wan (b : id) (w w' : world) : Prop := {
  wn_ch : forall c, w_ch w c = None -> w_ch w' c = None; wn_kh : forall k x, w_kh w' k = Some x -> w_kh w k = Some x;
  wn_b : forall y', w_bh w' b = Some y' -> exists y, w_bh w b = Some y /\ wb_cts y' = wb_cts y /\ b_colliders (wb y') = b_colliders (wb y);
  wn_l : In b (w_bodies w) -> In b (w_bodies w') }.
Lemma wan_refl b w : wan b w w. Proof. constructor; eauto. Qed.
Lemma wan_trans b x y z : wan b x y -> wan b y z -> wan b x z.
Proof.
  intros [A1 A2 A3 A4] [B1 B2 B3 B4]. constructor; auto. intros y' E. destruct (B3 _ E) as (y1 & E1 & P1 & P2). destruct (A3 _ E1) as (y2 & E2 & Q1 & Q2). exists y2. split; [exact E2|]. split; congruence.
Qed.
Lemma wan_keep b f : (forall w, w_ch (f w) = w_ch w /\ w_kh (f w) = w_kh w /\ w_bh (f w) = w_bh w /\ w_bodies (f w) = w_bodies w) -> frame (wan b) (modify f).
Proof. intros H. apply fr_modify. intros w. destruct (H w) as (E1 & E2 & E3 & E4). constructor; rewrite ?E1, ?E2, ?E3, ?E4; eauto. Qed.
Lemma wan_mod b i f : (forall y, wb_cts (f y) = wb_cts y /\ b_colliders (wb (f y)) = b_colliders (wb y)) -> frame (wan b) (mod_body i f).
Proof.
  intros H. apply fr_mod_body. intros w y E. constructor; auto. intros y'. cbn. unfold put. destruct (Nat.eqb_spec b i) as [->|n]; [|eauto]. intros E'. injection E' as <-. exists y. split; [exact E|apply H].
Qed.
Lemma wan_con b i f : frame (wan b) (mod_con i f).
Proof. apply fr_mod_con. intros w x E. constructor; eauto. intros c. cbn. unfold put. destruct (Nat.eqb_spec c i); [congruence|auto]. Qed.
Lemma wan_put b i y : b <> i -> frame (wan b) (put_body i y).
Proof. intros n. apply fr_modify. intros w. constructor; auto. intros y'. cbn. unfold put. destruct (Nat.eqb_spec b i); [congruence|eauto]. Qed.
Ltac wan := repeat first [ apply wan_mod; intros; split; reflexivity | apply wan_con | apply wan_put; assumption
  | apply fr_bind; [exact (wan_trans _)| |intros] | apply fr_get; exact (wan_refl _) | apply fr_deref; exact (wan_refl _) | apply fr_ret; exact (wan_refl _) | apply fr_bad | apply fr_lift; exact (wan_refl _)
  | apply fr_if | apply fr_iter; [exact (wan_refl _)|exact (wan_trans _)|intros] | apply wan_keep; intros; repeat split; reflexivity ].
Lemma wan_detach b i : frame (wan b) (detach_con i). Proof. unfold detach_con, con_at, wake. wan. Qed.
Lemma wan_release_con b i : frame (wan b) (release_con i).
Proof.
  unfold release_con, log. wan. apply fr_modify. intros w. constructor; eauto. intros c. cbn. unfold del. destruct (Nat.eqb c i); auto.
Qed.
Lemma wan_release_force b i : frame (wan b) (release_force i). Proof. unfold release_force, log. wan. Qed.
Lemma wan_remove b b' k : b <> b' -> frame (wan b) (remove_col b' k).
Proof.
  intros n. unfold remove_col, world_remove, col_at, body_at, con_at, kill_con. wan.
  - destruct (c_cols _) as [[? ?]|]; wan.
  - apply fr_modify. intros w. constructor; eauto. intros j z. cbn. unfold del. destruct (Nat.eqb j k); [discriminate|auto].
Qed.
Lemma wan_noexcept {A} b (m : M A) : frame (wan b) m -> frame (wan b) (noexcept m).
Proof. intros F w. specialize (F w). unfold noexcept. destruct (m w); auto. Qed.
Lemma wan_destroy b b' s : b <> b' -> frame (wan b) (destroy_body s b').
Proof.
  intros n. unfold destroy_body, body_at, log. wan.
  - apply wan_noexcept. apply fr_iter; [exact (wan_refl _)|exact (wan_trans _)|intros k]. apply fr_bind; [exact (wan_trans _)|apply wan_remove, n|intros _]. destruct s; wan.
  - apply fr_modify. intros w. constructor; eauto. intros y'. cbn. unfold del. destruct (Nat.eqb_spec b b'); [congruence|eauto].
Qed.
Lemma wan_release b b' s : b <> b' -> frame (wan b) (release_body s b').
Proof.
  intros n. unfold release_body. apply fr_bind; [exact (wan_trans _)|apply wan_destroy, n|intros _]. apply fr_modify. intros w. constructor; eauto. cbn. intros H. apply filter_In. split; [exact H|]. apply negb_true_iff, Nat.eqb_neq, n.
Qed.
(** reading a list of constraints *)
Lemma iter_reads (f : id -> M unit) l : (forall t w w', f t w = Ok tt w' -> known w t /\ forall c, known w' c -> known w c) ->
  forall w w', iter f l w = Ok tt w' -> forall t, In t l -> known w t.
Proof.
  intros H. induction l as [|a l IH]; intros w w' E t Ht; [destruct Ht|]. cbn in E. apply bind_ok in E. destruct E as ([] & w1 & E1 & E2). destruct (H _ _ _ E1) as [H1 H2].
  destruct Ht as [<-|Ht]; [exact H1|]. apply H2, (IH _ _ E2 t Ht).
Qed.
Lemma remove_reads b k w w' x y : w_kh w k = Some x -> k_body x = b -> w_bh w b = Some y -> remove_col b k w = Ok tt w' -> forall c, In c (wb_cts y) -> known w c.
Proof.
  intros Ek Eb Ey E. unfold remove_col in E. apply bind_ok in E. destruct E as ([] & w1 & E & _). unfold world_remove in E. apply bind_ok in E. destruct E as (x' & w2 & E1 & E).
  unfold col_at, deref in E1. rewrite Ek in E1. injection E1 as <- <-. apply bind_ok in E. destruct E as (t & w2 & E1 & E). injection E1 as <- <-. destruct (existsb _ _); [|discriminate].
  apply bind_ok in E. destruct E as ([] & w2 & E1 & E). injection E1 as <-. apply bind_ok in E. destruct E as (y' & w3 & E1 & E). apply body_at_ok in E1. destruct E1 as [-> Ey']. cbn in Ey'. rewrite Eb, Ey in Ey'. injection Ey' as <-.
  intros c Hc. revert c Hc. refine (iter_reads _ _ _ _ _ E).
  intros t v v' F. apply bind_ok in F. destruct F as (z & v1 & F1 & F2). apply con_at_ok in F1. destruct F1 as [-> Ez]. split; [unfold known; congruence|].
  assert (HF : frame (fun a b => forall c, known b c -> known a c) (match c_cols z with Some (k0, k1) => if Nat.eqb k0 k || Nat.eqb k1 k then kill_con t else ret tt | None => ret tt end)).
  { assert (HK : frame (fun a b : world => forall c, known b c -> known a c) (kill_con t)) by (apply fr_mod_con; intros a q Eq c0; unfold known; cbn; unfold put; destruct (Nat.eqb_spec c0 t); [congruence|auto]).
    destruct (c_cols z) as [[? ?]|]; [destruct (_ || _); [exact HK|]|]; intros a; cbn; auto. }
  intros c0. exact (frame_ok _ _ _ _ _ HF F2 c0).
Qed.
Lemma iter_wan b (f : id -> M unit) l w w' : (forall i, In i l -> frame (wan b) (f i)) -> iter f l w = Ok tt w' -> wan b w w'.
Proof.
  revert w. induction l as [|i l IH]; intros w H E; cbn in E; [injection E as <-; apply wan_refl|]. apply bind_ok in E. destruct E as ([] & w1 & E1 & E2).
  eapply wan_trans; [eapply frame_ok; [apply H; left; reflexivity|exact E1]|]. apply IH; [intros j Hj; apply H; right; exact Hj|exact E2].
Qed.
(** the body [b] refers to the destroyed contact [c] *)
Record dangles (w : world) (b c : id) : Prop := {
  dg_c : w_ch w c = None; dg_b : exists y, w_bh w b = Some y /\ In c (wb_cts y); dg_l : In b (w_bodies w) }.
Lemma remove_at b k w w' : remove_col b k w = Ok tt w' -> exists x, w_kh w k = Some x.
Proof. unfold remove_col, world_remove. intros E. apply bind_ok in E. destruct E as (u & w1 & E & _). apply bind_ok in E. destruct E as (x & w2 & E & _). unfold col_at, deref in E. destruct (w_kh w k); [eauto|discriminate]. Qed.
Lemma cleanup_dangles strict die w w' b c : w_cts w = [] -> dangles w b c ->
  (dying die w b -> forall y, w_bh w b = Some y -> b_colliders (wb y) <> [] /\ forall q, In q (b_colliders (wb y)) -> exists x, w_kh w (c_id q) = Some x /\ k_body x = b) ->
  cleanup strict die w = Ok tt w' -> ~ sees w' b /\ In b (w_bodies w').
Proof.
  intros Ec [D1 (y & Ey & Hc) D3] HD E. unfold cleanup in E. unfold bind at 1, get at 1 in E. rewrite Ec in E. cbn [filt] in E. unfold bind at 1, ret at 1 in E.
  unfold bind at 1, modify at 1 in E. set (w1 := set_cts w []) in E.
  assert (W1 : wan b w w1) by (constructor; eauto).
  unfold bind at 1, get at 1 in E. apply bind_ok in E. destruct E as (dc & w2 & E2 & E). assert (W2 : wan b w1 w2) by (eapply frame_ok; [|exact E2]; apply fr_filt; [exact (wan_refl _)|exact (wan_trans _)|intros i]; unfold con_dead, con_at; wan; generalize (con_bodies a); intros l; induction l; cbn; unfold body_dead, body_at; wan; assumption).
  unfold bind at 1, get at 1 in E. apply bind_ok in E. destruct E as (df & w3 & E3 & E). assert (W3 : wan b w2 w3) by (eapply frame_ok; [|exact E3]; apply fr_filt; [exact (wan_refl _)|exact (wan_trans _)|intros i]; unfold force_dead, force_at; wan).
  unfold bind at 1, get at 1 in E. apply bind_ok in E. destruct E as (db & w4 & E4 & E). apply filt_dead in E4. destruct E4 as [-> Edb].
  assert (LK : looks w w3).
  { assert (L2 : looks w1 w2) by (eapply frame_ok; [|exact E2]; apply fr_filt; [exact lo_refl|exact lo_trans|apply lo_dead]). assert (L3 : looks w2 w3) by (eapply frame_ok; [|exact E3]; apply fr_filt; [exact lo_refl|exact lo_trans|intros i]; unfold force_dead, force_at; apply fr_bind; [exact lo_trans|apply fr_deref; exact lo_refl|intros; apply fr_ret; exact lo_refl]).
    eapply lo_trans; [|eapply lo_trans; [exact L2|exact L3]]. split; auto. }
  apply bind_ok in E. destruct E as ([] & w5 & E5 & E). apply iter_wan with (b := b) in E5; [|intros; apply wan_detach].
  apply bind_ok in E. destruct E as ([] & w6 & E6 & E). apply iter_wan with (b := b) in E6; [|intros; unfold log; wan].
  apply bind_ok in E. destruct E as ([] & w7 & E7 & E). apply iter_wan with (b := b) in E7; [|intros; unfold log; wan].
  apply bind_ok in E. destruct E as ([] & w8 & E8 & E). apply iter_wan with (b := b) in E8; [|intros; unfold log; wan].
  apply bind_ok in E. destruct E as ([] & w9 & E9 & E). apply iter_wan with (b := b) in E9; [|intros; apply wan_release_con].
  apply bind_ok in E. destruct E as ([] & wa & Ea & E). apply iter_wan with (b := b) in Ea; [|intros; apply wan_release_force].
  assert (WA : wan b w wa) by (do 9 (eapply wan_trans; [eassumption|]); apply wan_refl).
  assert (HN : forall v, wan b w v -> ~ sees v b).
  { intros v WV (y' & Ey' & HS). destruct (wn_b _ _ _ WV y' Ey') as (y2 & E2' & P & _). rewrite Ey in E2'. injection E2' as <-. apply (HS c); [rewrite P; exact Hc|]. apply (wn_ch _ _ _ WV), D1. }
  assert (Hdb : In b db -> dying die w b).
  { intros Hb. apply (looks_dying die w w3 b LK). subst db. apply filter_In in Hb. destruct Hb as [_ Hb]. unfold dying. destruct (w_bh w3 b) as [z|]; [|discriminate]. exists z. split; [reflexivity|]. apply orb_true_iff, Hb. }
  destruct (in_dec Nat.eq_dec b db) as [Hb|Hb].
  - exfalso. specialize (Hdb Hb). destruct (HD Hdb y Ey) as [HC HO]. clear - E WA HN HC HO Hb Ey D1 Hc. revert wa E WA. induction db as [|d db IH]; intros wa E WA; [destruct Hb|]. cbn in E. apply bind_ok in E. destruct E as ([] & wb' & E1 & E2).
    destruct (Nat.eq_dec b d) as [<-|ne].
    + unfold release_body in E1. apply bind_ok in E1. destruct E1 as ([] & wc & E1 & _). unfold destroy_body in E1. apply bind_ok in E1. destruct E1 as (z & wd & F1 & F2). apply body_at_ok in F1. destruct F1 as [-> Ez].
      destruct (wn_b _ _ _ WA z Ez) as (y2 & Ey2 & P1 & P2). rewrite Ey in Ey2. injection Ey2 as <-. apply bind_ok in F2. destruct F2 as ([] & we & F2 & _). unfold noexcept in F2. rewrite P2 in F2. destruct (b_colliders (wb y)) as [|q qs]; [congruence|].
      destruct (iter _ _ wa) as [[] wf| | |] eqn:EI in F2; try discriminate. cbn [iter] in EI. apply bind_ok in EI. destruct EI as (u & wg & EI & _). apply bind_ok in EI. destruct EI as ([] & wh & EI & _).
      destruct (remove_at _ _ _ _ EI) as (x & Ex). destruct (HO q (or_introl eq_refl)) as (x' & Ex' & Eb). rewrite (wn_kh _ _ _ WA _ _ Ex) in Ex'. injection Ex' as <-.
      apply (remove_reads b (c_id q) wa wh x z Ex Eb Ez EI c); [rewrite P1; exact Hc|]. apply (wn_ch _ _ _ WA), D1.
    + destruct Hb as [->|Hb]; [congruence|]. apply (IH Hb wb' E2). eapply wan_trans; [exact WA|]. eapply frame_ok; [apply wan_release, ne|exact E1].
  - assert (WB : wan b wa w') by (eapply iter_wan; [|exact E]; intros i Hi; apply wan_release; intros ->; contradiction).
    assert (WC : wan b w w') by (eapply wan_trans; eassumption). split; [apply HN, WC|apply (wn_l _ _ _ WC), D3].
Qed.
Lemma step_dangles strict fuel o dt w w' b c : w_cts w = [] -> dangles w b c -> (k0 <? dt) = true ->
  (dying (o_die o) w b -> forall y, w_bh w b = Some y -> b_colliders (wb y) <> [] /\ forall q, In q (b_colliders (wb y)) -> exists x, w_kh w (c_id q) = Some x /\ k_body x = b) ->
  step strict fuel o dt w <> Ok tt w'.
Proof.
  intros Ec D Hdt HD E. unfold step in E. apply bind_ok in E. destruct E as ([] & w1 & E1 & E). destruct (cleanup_dangles _ _ _ _ _ _ Ec D HD E1) as [HN HB].
  apply bind_ok in E. destruct E as ([] & w2 & E2 & E). pose proof (frame_ok _ _ _ _ _ fs_pre_step E2) as S2. rewrite Hdt in E. apply bind_ok in E. destruct E as ([] & w3 & E & _). unfold advance in E.
  apply bind_ok in E. destruct E as ([] & w4 & E4 & E). pose proof (frame_ok _ _ _ _ _ (fs_apply_forces _ _) E4) as S4. unfold bind at 1, get at 1 in E. unfold bind at 1, get at 1 in E. apply bind_ok in E. destruct E as ([] & w5 & E5 & _).
  apply HN. apply (sees_same _ _ _ S2), (sees_same _ _ _ S4). apply (islands_read _ _ _ _ _ _ _ _ E5). rewrite (sa_bodies _ _ S4), (sa_bodies _ _ S2). exact HB.
Qed.
Lemma clear_dangles strict w w' b c y : dangles w b c -> w_bh w b = Some y -> b_colliders (wb y) <> [] -> (forall q, In q (b_colliders (wb y)) -> exists x, w_kh w (c_id q) = Some x /\ k_body x = b) -> clear strict w <> Ok tt w'.
Proof.
  intros [D1 (y0 & Ey0 & Hc) D3] Ey HC HO E. rewrite Ey in Ey0. injection Ey0 as <-. unfold clear in E. unfold bind at 1, get at 1 in E. apply bind_ok in E. destruct E as ([] & w1 & E & _).
  assert (WA : wan b w w) by apply wan_refl. revert E. revert D3 WA. generalize (w_bodies w) as db. generalize w at 2 3 as wa. intros wa db. revert wa. induction db as [|d db IH]; intros wa Hb WA E; [destruct Hb|]. cbn in E. apply bind_ok in E. destruct E as ([] & wb' & E1 & E2).
  destruct (Nat.eq_dec b d) as [<-|ne].
  - unfold destroy_body in E1. apply bind_ok in E1. destruct E1 as (z & wd & F1 & F2). apply body_at_ok in F1. destruct F1 as [-> Ez].
    destruct (wn_b _ _ _ WA z Ez) as (y2 & Ey2 & P1 & P2). rewrite Ey in Ey2. injection Ey2 as <-. apply bind_ok in F2. destruct F2 as ([] & we & F2 & _). unfold noexcept in F2. rewrite P2 in F2. destruct (b_colliders (wb y)) as [|q qs]; [congruence|].
    destruct (iter _ _ wa) as [[] wf| | |] eqn:EI in F2; try discriminate. cbn [iter] in EI. apply bind_ok in EI. destruct EI as (u & wg & EI & _). apply bind_ok in EI. destruct EI as ([] & wh & EI & _).
    destruct (remove_at _ _ _ _ EI) as (x & Ex). destruct (HO q (or_introl eq_refl)) as (x' & Ex' & Eb). rewrite (wn_kh _ _ _ WA _ _ Ex) in Ex'. injection Ex' as <-.
    apply (remove_reads b (c_id q) wa wh x z Ex Eb Ez EI c); [rewrite P1; exact Hc|]. apply (wn_ch _ _ _ WA), D1.
  - destruct Hb as [->|Hb]; [congruence|]. apply (IH wb' Hb); [|exact E2]. eapply wan_trans; [exact WA|]. eapply frame_ok; [apply wan_destroy, ne|exact E1].
Qed.

(** ** setContactFactory (C46) *)
Hypothesis T : tame.
(** a contact is in use: it is not killed, or one of its bodies is not about to be removed *)
Theorem factory_breaks w w1 e x a b : reachable w -> contact_of w e x a b -> set_factory w = Ok tt w1 ->
  forall strict fuel o dt w', (k0 <? dt) = true -> c_killed x = false \/ (exists i, (i = c_b0 x \/ i = c_b1 x) /\ ~ doomed_body (o_die o) w i) -> step strict fuel o dt w1 <> Ok tt w'.
Proof.
  intros HR (He & Ex & Ecol) EF strict fuel o dt w' Hdt HU. destruct (reachable_sound T w HR) as ((HS & _) & _). destruct (set_factory_eq w) as (g & EG & HG). rewrite EG in EF. injection EF as <-.
  set (w1 := set_cts _ _).
  assert (DG : forall i, i = c_b0 x \/ i = c_b1 x -> dangles w1 i (e_con e)).
  { intros i Hi. constructor; unfold w1; cbn.
    - rewrite HG. rewrite (proj2 (existsb_in _ _)); [reflexivity|]. apply in_map, He.
    - assert (Hl : exists y, w_bh w i = Some y) by (apply (i_ends _ HS _ _ Ex), in_bodies, Hi). destruct Hl as [y Ey]. exists y. split; [exact Ey|]. apply (proj2 (i_cts _ HS i y Ey)). split; [apply in_map, He|]. exists x. split; [exact Ex|apply in_bodies, Hi].
    - apply (i_bodies _ HS), (i_ends _ HS _ _ Ex), in_bodies, Hi. }
  destruct HU as [HU|(i & Hi & HD)].
  - apply (step_dangles strict fuel o dt w1 w' (c_b0 x) (e_con e)); [reflexivity|apply DG; auto|exact Hdt|]. intros _ y Ey. unfold w1 in *. cbn in *.
    destruct (i_contacts _ HS) as ((A & _ & HA) & _). destruct (HA e He) as (x' & q0 & q1 & Ex' & Ec' & _ & _ & HO). rewrite Ex in Ex'. injection Ex' as <-. destruct (HO HU) as [O1 _].
    destruct (i_cols _ HS) as (_ & _ & _ & K3 & _). destruct (K3 _ _ Ey) as (_ & K4 & _). apply K4 in O1. split; [intros H0; unfold ids_of in O1; rewrite H0 in O1; destruct O1|].
    intros q Hq. assert (Hk : In (c_id q) (ids_of y)) by (apply in_map, Hq). apply K4 in Hk. exact Hk.
  - apply (step_dangles strict fuel o dt w1 w' i (e_con e)); [reflexivity|apply DG, Hi|exact Hdt|]. intros Hd. exfalso. apply HD. unfold w1 in Hd. exact Hd.
Qed.
Theorem factory_clear w w1 e x a b strict w' : reachable w -> contact_of w e x a b -> c_killed x = false -> set_factory w = Ok tt w1 -> clear strict w1 <> Ok tt w'.
Proof.
  intros HR (He & Ex & Ecol) HU EF. destruct (reachable_sound T w HR) as ((HS & _) & _). destruct (set_factory_eq w) as (g & EG & HG). rewrite EG in EF. injection EF as <-.
  set (w1 := set_cts _ _). assert (Hl : exists y, w_bh w (c_b0 x) = Some y) by (apply (i_ends _ HS _ _ Ex), in_bodies; auto). destruct Hl as [y Ey].
  destruct (i_contacts _ HS) as ((A & _ & HA) & _). destruct (HA e He) as (x' & q0 & q1 & Ex' & Ec' & _ & _ & HO). rewrite Ex in Ex'. injection Ex' as <-. destruct (HO HU) as [O1 _].
  destruct (i_cols _ HS) as (_ & _ & _ & K3 & _). destruct (K3 _ _ Ey) as (_ & K4 & _). apply K4 in O1.
  apply (clear_dangles strict w1 w' (c_b0 x) (e_con e) y).
  - constructor; unfold w1; cbn.
    + rewrite HG. rewrite (proj2 (existsb_in _ _)); [reflexivity|]. apply in_map, He.
    + exists y. split; [exact Ey|]. apply (proj2 (i_cts _ HS _ y Ey)). split; [apply in_map, He|]. exists x. split; [exact Ex|apply in_bodies; auto].
    + apply (i_bodies _ HS). eauto.
  - exact Ey.
  - intros H0; unfold ids_of in O1; rewrite H0 in O1; destruct O1.
  - intros q Hq. assert (Hk : In (c_id q) (ids_of y)) by (apply in_map, Hq). apply K4 in Hk. exact Hk.
Qed.
Theorem factory_safe w : reachable w -> w_cts w = [] -> exists w', set_factory w = Ok tt w' /\ reachable w'.
Proof.
  intros HR HC. destruct (set_factory_eq w) as (g & EG & HG). eexists. split; [exact EG|]. eapply reachable_op; [exact HR|]. apply op_factory; assumption.
Qed.
End Use.
