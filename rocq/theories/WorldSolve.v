(** Solving all islands. *)
From Coq Require Import ZArith List Bool Lia Permutation.
From Verif Require Import Num Outcome Box Mat Geom Transform Body Constraint World WorldHoare WorldInv WorldFrame WorldIsland.
Import ListNotations.

Section Solve.
Context {N : Num} {TR : Trig N} {BH : Behaviour N}.
Hypothesis T : tame.

Lemma upd_nth_same {A} i (a : A) l : i < length l -> nth_error (upd_nth i a l) i = Some a.
Proof.
  intros H. unfold upd_nth. rewrite nth_error_app2 by (rewrite firstn_length; lia). rewrite firstn_length, Nat.min_l, Nat.sub_diag by lia.
  pose proof (skipn_length i l) as L. destruct (skipn i l); cbn in *; [lia|reflexivity].
Qed.
Lemma upd_nth_other {A} i (a : A) l j : j <> i -> nth_error (upd_nth i a l) j = nth_error l j.
Proof.
  intros H. unfold upd_nth. revert i j H. induction l as [|b l IH]; intros i j H.
  - destruct i; reflexivity.
  - destruct i as [|i], j as [|j]; cbn; try reflexivity; [congruence|]. apply IH. congruence.
Qed.

Definition loaded (il : island) (w : world) : Prop :=
  forall n b y, nth_error (is_bodies il) n = Some b -> w_bh w b = Some y -> nth_error (is_pos il) n = Some (b_pos (wb y)) /\ nth_error (is_vel il) n = Some (vel_of (wb y)).
Lemma refresh_body_eq il i w y n : base il w -> w_bh w i = Some y -> nth_error (is_bodies il) n = Some i ->
  refresh_body il i w = Ok (Isl (is_bodies il) (is_cons il) (is_cts il) (upd_nth n (b_pos (wb y)) (is_pos il)) (upd_nth n (vel_of (wb y)) (is_vel il)) (is_awake il)) w.
Proof.
  intros [S I] E Q. assert (Hi : In i (is_bodies il)) by (eapply nth_error_In; eassumption). destruct (IInv_proxy _ _ _ _ I E Hi) as (m & P & Q').
  assert (Hn : n < length (is_bodies il)) by (apply nth_error_Some; congruence).
  assert (m = n) by (apply (proj1 (NoDup_nth_error (is_bodies il)) (ii_nd _ _ I)); [apply nth_error_Some; congruence|congruence]). subst m.
  unfold refresh_body, proxy_of, bind, body_at, deref. rewrite E. cbv beta iota. rewrite ?E. cbv beta iota. rewrite P. unfold ret. cbv beta iota. rewrite (ii_pos _ _ I), (ii_vel _ _ I), (proj2 (Nat.ltb_lt _ _) Hn). reflexivity.
Qed.
Lemma refresh_loaded il w : base il w -> wp (refresh il) (fun il' w' => solving il il' w w' /\ loaded il' w') w.
Proof.
  intros B. unfold wp. pose proof (refresh_spec il w B) as H. unfold wp in H. destruct (refresh il w) as [il' w'|w'| |] eqn:Eq; auto. split; [exact H|].
  unfold refresh in Eq. apply bind_ok in Eq. destruct Eq as (il1 & w1 & E1 & E2). apply bind_ok in E2. destruct E2 as (u & w2 & _ & E3). injection E3 as -> ->.
  assert (G : forall l done ila, done ++ l = is_bodies il -> solving il ila w w ->
    (forall n b y, In b done -> nth_error (is_bodies il) n = Some b -> w_bh w b = Some y -> nth_error (is_pos ila) n = Some (b_pos (wb y)) /\ nth_error (is_vel ila) n = Some (vel_of (wb y))) ->
    forall il1 w1, foldm refresh_body ila l w = Ok il1 w1 ->
    forall n b y, nth_error (is_bodies il) n = Some b -> w_bh w b = Some y -> nth_error (is_pos il1) n = Some (b_pos (wb y)) /\ nth_error (is_vel il1) n = Some (vel_of (wb y))).
  { clear. induction l as [|i l IH]; intros done ila HD B HDone il1 w1 Eq n b y Hn Hy; cbn [foldm] in Eq.
    - injection Eq as <- <-. rewrite app_nil_r in HD. apply (HDone n b y); auto. rewrite HD. eapply nth_error_In; eassumption.
    - assert (Hi : In i (is_bodies il)) by (rewrite <- HD; apply in_or_app; right; left; reflexivity).
      destruct (In_nth_error _ _ Hi) as [m Hm]. pose proof (solving_base _ _ _ _ B) as Ba. rewrite <- (so_b _ _ _ _ B) in Hi. destruct (ii_live _ _ (proj2 Ba) i Hi) as [z Ez].
      apply bind_ok in Eq. destruct Eq as (ilb & wb_ & E1 & E2). rewrite (refresh_body_eq ila i w z m Ba Ez) in E1 by (rewrite (so_b _ _ _ _ B); exact Hm). injection E1 as E1 <-. subst ilb.
      eapply (IH (done ++ [i])); [rewrite <- app_assoc; exact HD| | |exact E2|exact Hn|exact Hy].
      + pose proof (refresh_body_spec ila i w Ba Hi) as RB. unfold wp in RB. rewrite (refresh_body_eq ila i w z m Ba Ez) in RB by (rewrite (so_b _ _ _ _ B); exact Hm).
        eapply solving_trans; [exact B|apply RB].
      + intros n' b' y' Hb' Hn' Hy'. cbn [is_pos is_vel]. assert (Hlt : n' < length (is_bodies ila)) by (rewrite (so_b _ _ _ _ B); apply nth_error_Some; congruence).
        destruct (Nat.eq_dec n' m) as [->|ne].
        * rewrite !upd_nth_same by (rewrite ?(ii_pos _ _ (proj2 Ba)), ?(ii_vel _ _ (proj2 Ba)); exact Hlt). assert (b' = i) by congruence. subst b'. split; congruence.
        * rewrite !upd_nth_other by exact ne. apply (HDone n' b' y'); auto. apply in_snoc in Hb'. destruct Hb' as [Hb'|Hb']; [exact Hb'|]. exfalso. apply ne.
          apply (proj1 (NoDup_nth_error (is_bodies ila)) (ii_nd _ _ (proj2 Ba))); [exact Hlt|]. rewrite (so_b _ _ _ _ B). congruence. }
  intros n b y Hn Hy. rewrite (so_b _ _ _ _ H) in Hn. rewrite (so_bh _ _ _ _ H) in Hy.
  eapply (G (is_bodies il) [] il eq_refl (solving_refl il w B)); [intros n' b' y' []|exact E1|exact Hn|exact Hy].
Qed.

(** the private states of the constraints *)
Definition st_same (w w' : world) : Prop := forall c, option_map c_st (w_ch w' c) = option_map c_st (w_ch w c).
Lemma refresh_states il : frame st_same (refresh il).
Proof.
  assert (Rr : forall w, st_same w w) by (intros w c; reflexivity).
  assert (Rt : forall a b c, st_same a b -> st_same b c -> st_same a c) by (intros a b c H1 H2 i; rewrite H2; apply H1).
  unfold refresh. apply fr_bind; [exact Rt| |].
  - apply fr_foldm; [exact Rr|exact Rt|]. intros s x. unfold refresh_body, proxy_of. apply fr_bind; [exact Rt|apply fr_deref; exact Rr|]. intros b.
    apply fr_bind; [exact Rt| |].
    + apply fr_bind; [exact Rt|apply fr_deref; exact Rr|]. intros b'. destruct (wb_proxy b'); [apply fr_ret; exact Rr|apply fr_bad].
    + intros n. apply fr_if; [apply fr_ret; exact Rr|apply fr_bad].
  - intros il'. apply fr_bind; [exact Rt| |intros; apply fr_ret; exact Rr]. apply fr_iter; [exact Rr|exact Rt|]. intros c. apply fr_bind; [exact Rt| |intros; apply fr_ret; exact Rr].
    intros w. unfold start_solve, bind, body_at, con_at, deref. destruct (w_ch w c) as [x|] eqn:E; [|exact I].
    destruct (w_bh w (c_b0 x)) as [y0|]; [|exact I]. destruct (w_bh w (c_b1 x)) as [y1|]; [|exact I]. destruct (wb_proxy y0); [|apply Rr].
    destruct (wb_proxy y1); [|apply Rr]. cbn. intros d. cbn. unfold put. destruct (Nat.eqb_spec d c) as [->|n1]; [rewrite E|]; reflexivity.
Qed.
(** ** One island *)
(** from the island found at [w1] to the end of its solve at [w']; [Z] is what the
    solver kept *)
Record solved (Z : island -> world -> Prop) (il : island) (w1 w' : world) : Prop := Solved_ {
  sv_w : exists w2 il3 w3 w4, woken il w1 w2 /\ base il w2 /\ same w1 w2 /\ solving il il3 w2 w3 /\ Z il3 w3 /\ done_with il3 w3 w4 /\
           w' = set_log w4 (w_log w4 ++ [Solved (is_bodies il) (is_cons il) (is_cts il)]) }.
Lemma solve_one_wp (Z : island -> world -> Prop) (Q : island -> world -> Prop) fuel s dt aw todo root w :
  (forall il w1 w2 il' w', Q il w1 -> woken il w1 w2 -> base il w2 -> same w1 w2 -> solving il il' w2 w' -> loaded il' w' -> st_same w2 w' -> Z il' w') ->
  (forall il w, base il w -> Z il w -> Z (integrate dt il) w) ->
  (forall il w c u w', base il w -> In c (all_of il) -> Z il w -> call_init il c w = Ok u w' -> Z il w') ->
  kept_by Z (fun c px st => bh_warm c px st dt) -> kept_by Z (fun c px st => bh_vel c px st dt) -> kept_by Z bh_pos ->
  wp (init_island fuel (Isl [] [] [] [] [] aw) root) (fun il w1 => base il w1 /\ same w w1 /\ Q il w1) w ->
  wp (solve_one fuel s dt aw todo root) (fun r w' => exists il w1, base il w1 /\ same w w1 /\ Q il w1 /\ solved Z il w1 w' /\
     r = (filter (fun i => negb (existsb (Nat.eqb i) (is_bodies il))) todo, is_awake il)) w.
Proof.
  intros ZL ZI Zi Zw Zv Zp H. unfold solve_one. apply wp_bind. eapply wp_mono; [exact H|]. intros il w1 _ (B1 & S1 & HQ).
  apply wp_bind. eapply wp_mono; [apply (wake_island_spec il w1 B1)|]. intros u w2 _ (B2 & HW & S2).
  apply wp_bind. eapply wp_mono; [apply (refresh_loaded il w2 B2)|]. intros il1 w3 Er (V3 & L3). pose proof (refresh_states il w2) as R3. rewrite Er in R3.
  assert (Z3 : Z il1 w3) by (eapply ZL; eassumption). pose proof (solving_base _ _ _ _ V3) as B3.
  apply wp_bind. apply wp_mono with (fun il' w' => solving il il' w2 w' /\ Z il' w').
  - pose proof (integrate_spec dt il1 w3 B3) as VI. pose proof (ZI _ _ B3 Z3) as ZI3. destruct (all_of il1) as [|c l] eqn:EA.
    + apply wp_ret. split; [|exact ZI3]. eapply solving_trans; eassumption.
    + apply wp_bind. eapply wp_mono; [apply (solve_velocities_spec T Z Zi s dt il1 w3 Zw Zv B3 Z3)|]. intros il4 w4 _ [V4 Z4].
      pose proof (integrate_spec dt il4 w4 (solving_base _ _ _ _ V4)) as VI4. pose proof (ZI _ _ (solving_base _ _ _ _ V4) Z4) as ZI4.
      eapply wp_mono; [apply (solve_positions_spec T Z s (integrate dt il4) w4 Zp (solving_base _ _ _ _ VI4) ZI4)|]. intros il5 w5 _ [V5 Z5].
      split; [|exact Z5]. eapply solving_trans; [exact V3|]. eapply solving_trans; [exact V4|]. eapply solving_trans; [exact VI4|exact V5].
  - intros il5 w5 _ [V5 Z5]. apply wp_bind. eapply wp_mono; [apply (finish_spec il5 w5 (solving_base _ _ _ _ V5))|]. intros u2 w6 _ D.
    apply wp_bind. unfold log, modify. unfold wp at 1. apply wp_ret. exists il, w1. split; [exact B1|]. split; [exact S1|]. split; [exact HQ|]. split; [|reflexivity].
    constructor. exists w2, il5, w5, w6. split; [exact HW|]. split; [exact B2|]. split; [exact S2|]. split; [exact V5|]. split; [exact Z5|]. split; [exact D|reflexivity].
Qed.
Lemma quiet_log w l : quiet_ids w -> quiet_ids (set_log w l). Proof. intros H. exact H. Qed.
Lemma solved_end Z il w1 w' : solved Z il w1 w' -> SInv w' /\ quiet_ids w' /\ same w1 w' /\ w_log w' = w_log w1 ++ [Solved (is_bodies il) (is_cons il) (is_cts il)].
Proof.
  intros [(w2 & il3 & w3 & w4 & HW & B2 & S2 & V & HZ & D & ->)]. split; [|split; [|split]].
  - eapply SInv_same; [apply (d_sinv _ _ _ D)|apply same_log].
  - apply (d_quiet _ _ _ D).
  - eapply same_trans; [exact S2|]. eapply same_trans; [apply (so_same _ _ _ _ V)|]. eapply same_trans; [apply (d_same _ _ _ D)|apply same_log].
  - cbn. rewrite (d_log _ _ _ D), (so_log _ _ _ _ V). destruct HW as (_ & -> & _). reflexivity.
Qed.

(** ** All islands *)
Lemma solve_islands_wp (Z : list id -> bool -> world -> Prop) fuel1 fuel2 s dt :
  (forall aw todo root l w, SInv w -> quiet_ids w -> Z todo aw w -> todo = l ++ [root] -> incl todo (w_bodies w) -> length (w_bodies w) <= fuel2 ->
     wp (solve_one fuel2 s dt aw todo root) (fun r w' => SInv w' /\ quiet_ids w' /\ same w w' /\ Z (fst r) (snd r) w' /\ incl (fst r) todo /\ length (fst r) < length todo) w) ->
  forall aw todo w, SInv w -> quiet_ids w -> Z todo aw w -> incl todo (w_bodies w) -> length (w_bodies w) <= fuel2 -> length todo <= fuel1 ->
    wp (solve_islands fuel1 fuel2 s dt aw todo) (fun _ w' => SInv w' /\ quiet_ids w' /\ same w w' /\ exists aw', Z [] aw' w') w.
Proof.
  intros H. induction fuel1 as [|f1 IH]; intros aw todo w S Qt HZ HI HF HL; cbn [solve_islands].
  - destruct todo; [|cbn in HL; lia]. cbn [rev]. apply wp_ret. split; [exact S|]. split; [exact Qt|]. split; [apply same_refl|eauto].
  - destruct (rev todo) as [|root l] eqn:ER.
    + assert (E : todo = []) by (rewrite <- (rev_involutive todo), ER; reflexivity). subst todo. apply wp_ret. split; [exact S|]. split; [exact Qt|]. split; [apply same_refl|eauto].
    + assert (E : todo = rev l ++ [root]) by (rewrite <- (rev_involutive todo), ER; reflexivity).
      apply wp_bind. eapply wp_mono; [apply (H aw todo root (rev l) w S Qt HZ E HI HF)|]. intros [todo' aw'] w1 _ (S1 & Q1 & Sm & Z1 & I1 & L1). cbn [fst snd] in *.
      eapply wp_mono; [apply (IH aw' todo' w1 S1 Q1 Z1)|].
      * intros b Hb. rewrite (sa_bodies _ _ Sm). apply HI, I1, Hb.
      * rewrite (sa_bodies _ _ Sm). exact HF.
      * lia.
      * intros u w2 _ (S2 & Q2 & Sm2 & HZ2). split; [exact S2|]. split; [exact Q2|]. split; [eapply same_trans; eassumption|exact HZ2].
Qed.
Lemma filter_le {A} (f : A -> bool) l : length (filter f l) <= length l.
Proof. induction l as [|a l IH]; cbn; [lia|]. destruct (f a); cbn; lia. Qed.
Lemma filter_shorter (bs todo : list id) root : In root todo -> In root bs -> length (filter (fun i => negb (existsb (Nat.eqb i) bs)) todo) < length todo.
Proof.
  intros H1 H2. induction todo as [|a todo IH]; [destruct H1|]. cbn [filter]. destruct H1 as [->|H1].
  - rewrite (proj2 (existsb_in root bs) H2). cbn [negb length]. pose proof (filter_le (fun i => negb (existsb (Nat.eqb i) bs)) todo). unfold World.id in *. lia.
  - specialize (IH H1). destruct (negb _); cbn [length]; lia.
Qed.
Lemma init_wp (Y : nat -> island -> world -> Prop) (X : nat -> id -> list id -> island -> world -> Prop) fuel aw root w y :
  (forall cur r il w, base il w -> Y cur il w -> nth_error (is_bodies il) cur = Some r -> fixedb w r = false -> X cur r [] il w) ->
  (forall cur r d c contact il w il' w' x v new, base il w -> X cur r d il w -> w_ch w c = Some x -> In r (con_bodies x) ->
     In c (if contact : bool then map e_con (w_cts w) else w_cons w) -> added contact il il' w w' c x v new -> X cur r (d ++ [c]) il' w') ->
  (forall cur r y il w, base il w -> w_bh w r = Some y -> X cur r (wb_cs y ++ wb_cts y) il w -> Y (S cur) il w) ->
  (forall cur r il w, base il w -> Y cur il w -> nth_error (is_bodies il) cur = Some r -> fixedb w r = true -> Y (S cur) il w) ->
  SInv w -> quiet_ids w -> w_bh w root = Some y -> length (w_bodies w) <= fuel ->
  (forall w', kept w w' -> same w w' -> w_ch w' = w_ch w -> w_log w' = w_log w -> base (push (Isl [] [] [] [] [] aw) root y) w' -> Y 0 (push (Isl [] [] [] [] [] aw) root y) w') ->
  wp (init_island fuel (Isl [] [] [] [] [] aw) root) (fun il w1 => base il w1 /\ same w w1 /\ Y (length (is_bodies il)) il w1) w.
Proof.
  intros H1 H2 H3 H4 S Qt E HF H0. unfold init_island. apply wp_bind. unfold wp at 1. rewrite (add_body_eq _ root w y E), (proj1 Qt root y E). cbn [is_pos length Z.of_nat Z.ltb Z.compare].
  set (w1 := index w root y 0). set (il1 := push _ root y).
  pose proof (IInv_push (Isl [] [] [] [] [] aw) w root y (IInv_empty aw w Qt) E (proj1 Qt root y E)) as I1. cbn [is_pos length] in I1. fold w1 il1 in I1.
  pose proof (same_index w root y 0 E) as S1. fold w1 in S1.
  assert (B1 : base il1 w1) by (split; [eapply SInv_same; eassumption|exact I1]).
  cbn [fst]. eapply wp_mono; [apply (grow_wp T Y X H1 H2 H3 H4 fuel 0 il1 w1 B1)|].
  - apply H0; auto. apply kept_index, E.
  - lia.
  - rewrite (sa_bodies _ _ S1). lia.
  - intros il w2 _ (B2 & Y2 & S2). split; [exact B2|]. split; [eapply same_trans; eassumption|exact Y2].
Qed.
End Solve.
