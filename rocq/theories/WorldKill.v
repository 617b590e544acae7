(** Nothing between cleanup and the end of the islands kills an object or changes
    a force field. *)
From Coq Require Import ZArith List Bool Lia Permutation.
From Verif Require Import Num Outcome Box Mat Geom Transform Body Constraint World WorldHoare WorldInv.
Import ListNotations.

Section Kill.
Context {N : Num} {TR : Trig N} {BH : Behaviour N}.
Record kk (w w' : world) : Prop := {
  kk_c : forall c, option_map c_killed (w_ch w' c) = option_map c_killed (w_ch w c);
  kk_b : forall b, option_map wb_killed (w_bh w' b) = option_map wb_killed (w_bh w b);
  kk_f : w_fh w' = w_fh w }.
Lemma kk_refl w : kk w w. Proof. constructor; auto. Qed.
Lemma kk_trans a b c : kk a b -> kk b c -> kk a c.
Proof. intros [A1 A2 A3] [B1 B2 B3]. constructor; [intros i; rewrite B1; auto|intros i; rewrite B2; auto|congruence]. Qed.
Lemma kk_body w i y y' : w_bh w i = Some y -> wb_killed y' = wb_killed y -> kk w (set_bh w (put (w_bh w) i y')).
Proof. intros E H. constructor; auto. intros b. cbn. unfold put. destruct (Nat.eqb_spec b i) as [->|]; [rewrite E; cbn; congruence|reflexivity]. Qed.
Lemma kk_con w i y y' : w_ch w i = Some y -> c_killed y' = c_killed y -> kk w (set_ch w (put (w_ch w) i y')).
Proof. intros E H. constructor; auto. intros b. cbn. unfold put. destruct (Nat.eqb_spec b i) as [->|]; [rewrite E; cbn; congruence|reflexivity]. Qed.
Lemma kk_log w l : kk w (set_log w l). Proof. constructor; auto. Qed.
End Kill.
Ltac kframing := repeat lazymatch goal with
  | |- forall _, _ => intro
  | |- frame _ (bind _ _) => apply fr_bind; [exact kk_trans| |]
  | |- frame _ (iter _ _) => apply fr_iter; [exact kk_refl|exact kk_trans|]
  | |- frame _ (foldm _ _ _) => apply fr_foldm; [exact kk_refl|exact kk_trans|]
  | |- frame _ (repeatm _ _ _) => apply fr_repeatm; [exact kk_refl|exact kk_trans|]
  | |- frame _ (ret _) => apply fr_ret; exact kk_refl
  | |- frame _ throw => apply fr_throw; exact kk_refl
  | |- frame _ bad => apply fr_bad
  | |- frame _ (get _) => apply fr_get; exact kk_refl
  | |- frame _ (lift _) => apply fr_lift; exact kk_refl
  | |- frame _ (deref _ _) => apply fr_deref; exact kk_refl
  | |- frame _ (body_at _) => apply fr_deref; exact kk_refl
  | |- frame _ (con_at _) => apply fr_deref; exact kk_refl
  | |- frame _ (col_at _) => apply fr_deref; exact kk_refl
  | |- frame _ (force_at _) => apply fr_deref; exact kk_refl
  | |- frame _ (if _ then _ else _) => apply fr_if
  end.
Ltac kb := apply fr_bind; [exact kk_trans|try solve [kframing]|intro].
Section KillFrames.
Context {N : Num} {TR : Trig N} {BH : Behaviour N}.
Lemma fk_mod_body i f : (forall y, wb_killed (f y) = wb_killed y) -> frame kk (mod_body i f).
Proof. intros H. apply fr_mod_body. intros w y E. eapply kk_body; eauto. Qed.
Lemma fk_mod_con i f : (forall y, c_killed (f y) = c_killed y) -> frame kk (mod_con i f).
Proof. intros H. apply fr_mod_con. intros w y E. eapply kk_con; eauto. Qed.
Lemma fk_wake i : frame kk (wake i). Proof. apply fk_mod_body. reflexivity. Qed.
Lemma fk_log e : frame kk (log e). Proof. apply fr_modify. intros w. apply kk_log. Qed.
Lemma fk_apply_one f dt k : frame kk (apply_one f dt k).
Proof.
  intros w. unfold apply_one, bind, col_at, body_at, force_at, deref. destruct (w_kh w k) as [x|]; [|exact I].
  destruct (w_bh w (k_body x)) as [b|] eqn:E; [|exact I]. destruct (negb (b_asleep (wb b)) && negb (b_structural (wb b))); [|apply kk_refl].
  destruct (w_fh w f) as [ff|]; [|exact I]. destruct (find_col (wb b) k) as [c|]; [|exact I].
  unfold lift. destruct (f_apply ff dt (wb b) c) as [b'| | |]; try exact I; [|apply kk_refl].
  unfold put_body, modify, log. eapply kk_trans; [eapply kk_body; [exact E|]|apply kk_log]. reflexivity.
Qed.
Lemma fk_apply_forces dt r : frame kk (apply_forces dt r).
Proof. unfold apply_forces. kframing. apply fk_apply_one. Qed.
Lemma fk_add_body il i : frame kk (add_body il i).
Proof.
  intros w. unfold add_body, bind, body_at, deref. destruct (w_bh w i) as [b|] eqn:E; [|exact I]. destruct (wb_proxy b); [apply kk_refl|].
  destruct (Z.ltb _ _); [|apply kk_refl]. unfold put_body, modify. cbn. eapply kk_body; [exact E|reflexivity].
Qed.
Lemma fk_start_solve c : frame kk (start_solve c).
Proof.
  intros w. unfold start_solve, bind, body_at, con_at, deref. destruct (w_ch w c) as [x|] eqn:E; [|exact I].
  destruct (w_bh w (c_b0 x)) as [y0|]; [|exact I]. destruct (w_bh w (c_b1 x)) as [y1|]; [|exact I]. destruct (wb_proxy y0); [|apply kk_refl].
  destruct (wb_proxy y1); [|apply kk_refl]. cbn. eapply kk_con; [exact E|reflexivity].
Qed.
Lemma fk_end_solve c : frame kk (end_solve c). Proof. apply fk_mod_con. reflexivity. Qed.
Lemma fk_restate {A} c (m : wcon -> M A) : (forall y w, w_ch w c = Some y -> match m y w with Ok _ w' => kk w w' | Thrown w' => kk w w' | _ => True end) ->
  frame kk (bind (con_at c) m).
Proof. intros H w. unfold con_at, bind, deref. destruct (w_ch w c) as [y|] eqn:E; [|exact I]. apply (H y w E). Qed.
Lemma kk_st w c y st : w_ch w c = Some y -> kk w (set_ch w (put (w_ch w) c (con_st st y))).
Proof. intros E. eapply kk_con; [exact E|reflexivity]. Qed.
Lemma fk_add_con b il c : frame kk (add_con b il c).
Proof.
  unfold add_con. apply fr_bind; [exact kk_trans|apply fr_deref; exact kk_refl|]. intros x. apply fr_if; [kframing|].
  kb. kb. kb; [apply fk_add_body|]. kb; [apply fk_add_body|]. kb; [apply fk_start_solve|]. kb. apply fk_restate. intros y w E. unfold bind at 1. unfold lift.
  destruct (bh_active (c_st y) a3 a4) as [[st ac]| | |]; try exact I; [|apply kk_refl]. cbn [fst snd].
  match goal with |- match ?m w with _ => _ end => change (match m w with Ok _ w' => kk w w' | Thrown w' => kk w w' | _ => True end) end.
  unfold bind at 1. unfold put_con, modify.
  match goal with |- match ?m ?w1 with _ => _ end => assert (FR : frame kk m) end.
  { kframing; try apply fk_end_solve; try (apply fk_mod_body; intros; reflexivity). }
  match goal with |- match ?m ?w1 with _ => _ end => specialize (FR w1); destruct (m w1) end; auto;
  (eapply kk_trans; [apply kk_st; exact E|exact FR]).
Qed.
Lemma fk_all_structural i l : forall s, frame kk (all_structural i l s).
Proof. induction l; intros s; cbn [all_structural]; [kframing|]. destruct s; kframing; auto. Qed.
Lemma fk_acts i : frame kk (acts_structural i).
Proof. unfold acts_structural. kframing; apply fk_all_structural. Qed.
Lemma fk_grow : forall fuel cur il, frame kk (grow fuel cur il).
Proof.
  induction fuel; intros cur il; cbn [grow]; destruct (nth_error (is_bodies il) cur); try (kframing; fail); [intros w; exact I|].
  kframing; try apply fk_acts; try apply fk_add_con; auto.
Qed.
Lemma fk_init fuel il r : frame kk (init_island fuel il r).
Proof. unfold init_island. kframing; [apply fk_add_body|apply fk_grow]. Qed.
Lemma fk_proxy_of i : frame kk (proxy_of i).
Proof. unfold proxy_of. kframing. destruct (wb_proxy a); kframing. Qed.
Lemma fk_refresh il : frame kk (refresh il).
Proof. unfold refresh. kframing; try apply fk_start_solve. unfold refresh_body. kframing. apply fk_proxy_of. Qed.
Lemma fk_get_proxies c : frame kk (get_proxies c).
Proof. unfold get_proxies. kframing. destruct (wb_proxy a0), (wb_proxy a1); kframing. Qed.
Lemma fk_call_init il c : frame kk (call_init il c).
Proof.
  unfold call_init. kb; [apply fk_get_proxies|]. apply fk_restate. intros y w E. unfold bind, lift. destruct (view il a); try exact I; [|apply kk_refl].
  destruct (bh_init (c_st y) a a0); try exact I; [|apply kk_refl]. cbn. eapply kk_con; [exact E|reflexivity].
Qed.
Lemma fk_call f il c : frame kk (call f il c).
Proof.
  unfold call. kb; [apply fk_get_proxies|]. apply fk_restate. intros y w E. unfold bind, lift. destruct (view il a); try exact I; [|apply kk_refl].
  destruct (f (c_st y) a a0); try exact I; [|apply kk_refl]. cbn. eapply kk_con; [exact E|reflexivity].
Qed.
Lemma fk_solve_velocities s dt il : frame kk (solve_velocities s dt il).
Proof. unfold solve_velocities. kframing; try apply fk_call_init; try apply fk_call. Qed.
Lemma fk_solve_positions s il : frame kk (solve_positions s il).
Proof. unfold solve_positions. kframing. apply fk_call. Qed.
Lemma fk_finish il : frame kk (finish il).
Proof.
  unfold finish. kframing; [|apply fk_end_solve]. intros w. unfold finish_body, bind, body_at, deref. destruct (w_bh w x) as [b|] eqn:E; [|exact I].
  unfold proxy_of, bind, body_at, deref. rewrite E. destruct (wb_proxy b); [|exact I]. cbn. destruct (nth_error (is_pos il) n), (nth_error (is_vel il) n); try exact I.
  cbn. eapply kk_body; [exact E|reflexivity].
Qed.
Lemma fk_solve_one fuel s dt aw todo r : frame kk (solve_one fuel s dt aw todo r).
Proof.
  unfold solve_one. kframing; try apply fk_init; try apply fk_wake; try apply fk_refresh; try apply fk_finish; try apply fk_log.
  destruct (all_of a1); kframing; try apply fk_solve_velocities. apply fk_solve_positions.
Qed.
Lemma fk_solve_islands f1 f2 s dt : forall aw todo, frame kk (solve_islands f1 f2 s dt aw todo).
Proof.
  induction f1; intros aw todo; cbn [solve_islands]; destruct (rev todo); try (kframing; fail); [intros w; exact I|].
  apply fr_bind; [exact kk_trans|apply fk_solve_one|]. intros. auto.
Qed.
Lemma fk_sleep_one s dt i : frame kk (sleep_one s dt i).
Proof. apply fk_mod_body. reflexivity. Qed.
Lemma fk_pre_contact e : frame kk (pre_contact e).
Proof.
  unfold pre_contact. apply fk_restate. intros y w E. destruct (c_cols y) as [[k0 k1]|].
  - unfold bind, col_at, deref. destruct (w_kh w k0), (w_kh w k1); try exact I. eapply kk_con; [exact E|reflexivity].
  - eapply kk_con; [exact E|reflexivity].
Qed.
Lemma fk_pre_step : frame kk pre_step.
Proof. unfold pre_step. kframing. apply fk_pre_contact. Qed.
End KillFrames.
