(** Everything a step does between cleanup and the search for new contacts keeps
    the structure of the world. *)
From Coq Require Import ZArith List Bool Lia Permutation.
From Verif Require Import Num Outcome Box Mat Geom Transform Body Constraint World WorldHoare WorldInv.
Import ListNotations.

Ltac fb := apply fr_bind; [exact same_trans|try solve [framing]|intro].
Section Frame.
Context {N : Num} {TR : Trig N} {BH : Behaviour N}.

Lemma fs_mod_body i f : (forall y, body_same y (f y)) -> frame same (mod_body i f).
Proof. intros H. apply fr_mod_body. intros w y E. eapply same_put_body; eauto. Qed.
Lemma fs_mod_con i f : (forall y, con_same y (f y)) -> frame same (mod_con i f).
Proof. intros H. apply fr_mod_con. intros w y E. eapply same_put_con; eauto. Qed.
Lemma fs_wake i : frame same (wake i).
Proof. apply fs_mod_body. intros y. apply body_same_wb; reflexivity. Qed.
Lemma fs_log e : frame same (log e).
Proof. apply fr_modify. intros w. apply same_log. Qed.
Lemma fs_kill_body i : frame same (kill_body i).
Proof. apply fs_mod_body. intros y. constructor; auto. Qed.
Lemma fs_kill_con i : frame same (kill_con i).
Proof. apply fs_mod_con. intros y. constructor; auto. Qed.
Lemma fs_kill_force i : frame same (kill_force i).
Proof.
  intros w. unfold kill_force, force_at, bind, deref. destruct (w_fh w i) as [f|] eqn:E; [|exact I]. cbn. destruct (same_refl w). constructor; auto.
  eapply hrel_put; eauto.
Qed.
Lemma fs_set_velocity i v a : frame same (set_velocity i v a).
Proof. apply fs_mod_body. intros y. apply body_same_wb; reflexivity. Qed.
(** put_body of a changed version of the body read before *)
Lemma put_ok i y y' w : w_bh w i = Some y -> body_same y y' -> match put_body i y' w with Ok _ w' => same w w' | Thrown w' => same w w' | _ => True end.
Proof. intros E H. cbn. eapply same_put_body; eauto. Qed.
Lemma fs_apply_one f dt k : frame same (apply_one f dt k).
Proof.
  intros w. unfold apply_one, bind, col_at, body_at, force_at, deref. destruct (w_kh w k) as [x|]; [|exact I].
  destruct (w_bh w (k_body x)) as [b|] eqn:E; [|exact I]. destruct (negb (b_asleep (wb b)) && negb (b_structural (wb b))); [|apply same_refl].
  destruct (w_fh w f) as [ff|]; [|exact I]. destruct (find_col (wb b) k) as [c|]; [|exact I].
  unfold lift. destruct (f_apply ff dt (wb b) c) as [b'| | |]; try exact I; [|apply same_refl].
  unfold put_body, modify, log. eapply same_trans; [eapply same_put_body; [exact E|]|apply same_log]. apply body_same_wb; reflexivity.
Qed.
Lemma fs_apply_forces dt r : frame same (apply_forces dt r).
Proof. unfold apply_forces. framing. apply fs_apply_one. Qed.
Lemma fs_add_body il i : frame same (add_body il i).
Proof.
  intros w. unfold add_body, bind, body_at, deref. destruct (w_bh w i) as [b|] eqn:E; [|exact I]. destruct (wb_proxy b); [apply same_refl|].
  destruct (Z.ltb _ _); [|apply same_refl]. unfold put_body, modify. cbn. eapply same_put_body; [exact E|]. constructor; auto.
Qed.
Lemma fs_start_solve c : frame same (start_solve c).
Proof.
  intros w. unfold start_solve, bind, body_at, con_at, deref. destruct (w_ch w c) as [x|] eqn:E; [|exact I].
  destruct (w_bh w (c_b0 x)) as [y0|]; [|exact I]. destruct (w_bh w (c_b1 x)) as [y1|]; [|exact I]. destruct (wb_proxy y0); [|apply same_refl].
  destruct (wb_proxy y1); [|apply same_refl]. cbn. eapply same_put_con; [exact E|]. constructor; auto.
Qed.
Lemma fs_end_solve c : frame same (end_solve c).
Proof. apply fs_mod_con. intros y. constructor; auto. Qed.
(** writing back a constraint read before, with a new state *)
Lemma fs_restate {A} c (m : wcon -> M A) : (forall y w, w_ch w c = Some y -> match m y w with Ok _ w' => same w w' | Thrown w' => same w w' | _ => True end) ->
  frame same (bind (con_at c) m).
Proof. intros H w. unfold con_at, bind, deref. destruct (w_ch w c) as [y|] eqn:E; [|exact I]. apply (H y w E). Qed.
Lemma con_same_st st y : con_same y (con_st st y). Proof. constructor; auto. Qed.
Lemma fs_add_con b il c : frame same (add_con b il c).
Proof.
  unfold add_con. apply fr_bind; [exact same_trans|apply fr_deref; exact same_refl|]. intros x. apply fr_if; [framing|].
  fb. fb. fb; [apply fs_add_body|]. fb; [apply fs_add_body|]. fb; [apply fs_start_solve|]. fb. apply fs_restate. intros y w E. unfold bind at 1. unfold lift.
  destruct (bh_active (c_st y) a3 a4) as [[st ac]| | |]; try exact I; [|apply same_refl]. cbn [fst snd].
  match goal with |- match ?m w with _ => _ end => change (match m w with Ok _ w' => same w w' | Thrown w' => same w w' | _ => True end) end.
  unfold bind at 1. unfold put_con, modify.
  match goal with |- match ?m ?w1 with _ => _ end => assert (FR : frame same m) end.
  { framing; try apply fs_end_solve; try (apply fs_mod_body; intros; constructor; auto). }
  match goal with |- match ?m ?w1 with _ => _ end => specialize (FR w1); destruct (m w1) end; auto;
  (eapply same_trans; [eapply same_put_con; [exact E|apply con_same_st]|exact FR]).
Qed.
Lemma fs_all_structural i l : forall s, frame same (all_structural i l s).
Proof. induction l; intros s; cbn [all_structural]; [framing|]. destruct s; framing; auto. Qed.
Lemma fs_acts i : frame same (acts_structural i).
Proof. unfold acts_structural. framing; apply fs_all_structural. Qed.
Lemma fs_grow : forall fuel cur il, frame same (grow fuel cur il).
Proof.
  induction fuel; intros cur il; cbn [grow]; destruct (nth_error (is_bodies il) cur); try (framing; fail); [intros w; exact I|].
  framing; try apply fs_acts; try apply fs_add_con; auto.
Qed.
Lemma fs_init fuel il r : frame same (init_island fuel il r).
Proof. unfold init_island. framing; [apply fs_add_body|apply fs_grow]. Qed.
Lemma fs_proxy_of i : frame same (proxy_of i).
Proof. unfold proxy_of. framing. destruct (wb_proxy a); framing. Qed.
Lemma fs_refresh il : frame same (refresh il).
Proof. unfold refresh. framing; try apply fs_start_solve. unfold refresh_body. framing. apply fs_proxy_of. Qed.
Lemma fs_get_proxies c : frame same (get_proxies c).
Proof. unfold get_proxies. framing. destruct (wb_proxy a0), (wb_proxy a1); framing. Qed.
Lemma fs_call_init il c : frame same (call_init il c).
Proof.
  unfold call_init. fb; [apply fs_get_proxies|]. apply fs_restate. intros y w E. unfold bind, lift. destruct (view il a); try exact I; [|apply same_refl].
  destruct (bh_init (c_st y) a a0); try exact I; [|apply same_refl]. cbn. eapply same_put_con; [exact E|apply con_same_st].
Qed.
Lemma fs_call f il c : frame same (call f il c).
Proof.
  unfold call. fb; [apply fs_get_proxies|]. apply fs_restate. intros y w E. unfold bind, lift. destruct (view il a); try exact I; [|apply same_refl].
  destruct (f (c_st y) a a0); try exact I; [|apply same_refl]. cbn. eapply same_put_con; [exact E|apply con_same_st].
Qed.
Lemma fs_solve_velocities s dt il : frame same (solve_velocities s dt il).
Proof. unfold solve_velocities. framing; try apply fs_call_init; try apply fs_call. Qed.
Lemma fs_solve_positions s il : frame same (solve_positions s il).
Proof. unfold solve_positions. framing. apply fs_call. Qed.
Lemma fs_finish il : frame same (finish il).
Proof.
  unfold finish. framing; [|apply fs_end_solve]. intros w. unfold finish_body, bind, body_at, deref. destruct (w_bh w x) as [b|] eqn:E; [|exact I].
  unfold proxy_of, bind, body_at, deref. rewrite E. destruct (wb_proxy b); [|exact I]. cbn. destruct (nth_error (is_pos il) n), (nth_error (is_vel il) n); try exact I.
  cbn. eapply same_put_body; [exact E|]. constructor; auto. cbn [wb with_proxy with_wb]. rewrite static_update. reflexivity.
Qed.
Lemma fs_solve_one fuel s dt aw todo r : frame same (solve_one fuel s dt aw todo r).
Proof.
  unfold solve_one. framing; try apply fs_init; try apply fs_wake; try apply fs_refresh; try apply fs_finish; try apply fs_log.
  destruct (all_of a1); framing; try apply fs_solve_velocities. apply fs_solve_positions.
Qed.
Lemma fs_solve_islands f1 f2 s dt : forall aw todo, frame same (solve_islands f1 f2 s dt aw todo).
Proof.
  induction f1; intros aw todo; cbn [solve_islands]; destruct (rev todo); try (framing; fail); [intros w; exact I|].
  apply fr_bind; [exact same_trans|apply fs_solve_one|]. intros. auto.
Qed.
Lemma fs_sleep_one s dt i : frame same (sleep_one s dt i).
Proof. apply fs_mod_body. intros y. unfold sleep_step. destruct (can_sleep _ _); apply body_same_wb; reflexivity. Qed.
Lemma fs_settle e : frame same (settle e).
Proof. unfold settle. framing. apply fs_kill_con. Qed.
Lemma fs_pre_contact e : frame same (pre_contact e).
Proof.
  unfold pre_contact. apply fs_restate. intros y w E. destruct (c_cols y) as [[k0 k1]|].
  - unfold bind, col_at, deref. destruct (w_kh w k0), (w_kh w k1); try exact I. eapply same_put_con; [exact E|apply con_same_st].
  - eapply same_put_con; [exact E|apply con_same_st].
Qed.
Lemma fs_pre_step : frame same pre_step.
Proof. unfold pre_step. framing. apply fs_pre_contact. Qed.
Lemma fs_post_step : frame same post_step.
Proof. unfold post_step. framing. Qed.
(** a triple of a frame gives the structure for free *)
Lemma tri_same {A} (P : world -> Prop) (m : M A) Q : frame same m -> (forall w, P w -> SInv w) -> tri P m Q -> tri P m (fun a w => Q a w /\ SInv w).
Proof. intros F HP H w Hw. specialize (H w Hw). specialize (F w). destruct (m w); auto. split; [exact H|]. eapply SInv_same; [apply HP, Hw|exact F]. Qed.
End Frame.
