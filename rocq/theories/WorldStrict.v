(** The destructor of a body with colliders: [strict] makes its undefined behaviour
    visible and changes nothing else. *)
From Coq Require Import ZArith List Bool Lia.
From Verif Require Import Num Outcome Box Mat Geom Transform Body Constraint World WorldHoare WorldInv WorldFrame.
Import ListNotations.

Section Strict.
Context {N : Num} {TR : Trig N} {BH : Behaviour N}.

(** ** A strict computation is undefined or behaves as the other one *)
Definition refines {A} (m m' : M A) : Prop := forall w, m w = Bad \/ m w = m' w.
Lemma rf_refl {A} (m : M A) : refines m m. Proof. intros w. auto. Qed.
Lemma rf_bind {A B} (m m' : M A) (f f' : A -> M B) : refines m m' -> (forall a, refines (f a) (f' a)) -> refines (bind m f) (bind m' f').
Proof. intros H1 H2 w. unfold bind. destruct (H1 w) as [->| ->]; [auto|]. destruct (m' w); auto. apply H2. Qed.
Lemma rf_iter {A} (f f' : A -> M unit) l : (forall a, refines (f a) (f' a)) -> refines (iter f l) (iter f' l).
Proof. intros H. induction l as [|a l IH]; [apply rf_refl|]. cbn. apply rf_bind; auto. Qed.
Lemma rf_noexcept {A} (m m' : M A) : refines m m' -> refines (noexcept m) (noexcept m').
Proof. intros H w. unfold noexcept. destruct (H w) as [->| ->]; auto. Qed.
Lemma rf_destroy s b : refines (destroy_body s b) (destroy_body false b).
Proof.
  unfold destroy_body. apply rf_bind; [apply rf_refl|]. intros y. apply rf_bind; [|intros; apply rf_refl]. apply rf_noexcept, rf_iter. intros c. apply rf_bind; [apply rf_refl|].
  intros _ w. destruct s; [left|right]; reflexivity.
Qed.
Lemma rf_release s b : refines (release_body s b) (release_body false b).
Proof. apply rf_bind; [apply rf_destroy|intros; apply rf_refl]. Qed.
Lemma rf_cleanup s die : refines (cleanup s die) (cleanup false die).
Proof. unfold cleanup. repeat (apply rf_bind; [apply rf_refl|intros ?]). apply rf_iter, rf_release. Qed.
Lemma rf_step s fuel o dt : refines (step s fuel o dt) (step false fuel o dt).
Proof. apply rf_bind; [apply rf_cleanup|intros; apply rf_refl]. Qed.
Lemma rf_clear s : refines (clear s) (clear false).
Proof. unfold clear. apply rf_bind; [apply rf_refl|intros bs]. apply rf_bind; [apply rf_iter, rf_destroy|intros; apply rf_refl]. Qed.
Lemma refines_ok {A} (m m' : M A) w a w' : refines m m' -> m w = Ok a w' -> m' w = Ok a w'.
Proof. intros H E. destruct (H w) as [E'|E']; congruence. Qed.

(** ** When it is undefined *)
Definition bare (w : world) (b : id) : Prop := forall y, w_bh w b = Some y -> b_colliders (wb y) = [].
Definition clad (w : world) (b : id) : Prop := exists y, w_bh w b = Some y /\ b_colliders (wb y) <> [].
Lemma bare_clad w b : bare w b -> ~ clad w b.
Proof. intros H (y & E & Hn). apply Hn, H, E. Qed.
Definition unfold_cols (s : bool) (b : id) (cs : list collider) : M unit :=
  noexcept (iter (fun c => remove_col b (c_id c) ;;; if s then bad else ret tt) cs) ;;; modify (fun w => set_bh w (del (w_bh w) b)) ;;; log (Released b).
Lemma destroy_eq s b w : destroy_body s b w = match w_bh w b with Some y => unfold_cols s b (b_colliders (wb y)) w | None => Bad end.
Proof. unfold destroy_body, unfold_cols, bind at 1, body_at, deref. destruct (w_bh w b); reflexivity. Qed.
Lemma destroy_bare s b w : bare w b -> destroy_body s b w = destroy_body false b w.
Proof. intros H. rewrite !destroy_eq. destruct (w_bh w b) as [y|] eqn:E; [|reflexivity]. rewrite (H y E). reflexivity. Qed.
Lemma destroy_clad b w w' : clad w b -> destroy_body false b w = Ok tt w' -> destroy_body true b w = Bad.
Proof.
  intros (y & Ey & Hn). rewrite !destroy_eq, Ey. destruct (b_colliders (wb y)) as [|c cs]; [congruence|]. unfold unfold_cols. cbn [iter].
  unfold noexcept, bind. destruct (remove_col b (c_id c) w); try congruence; try discriminate; auto.
Qed.
Lemma destroy_bare_world b w w' : bare w b -> destroy_body false b w = Ok tt w' -> w' = set_log (set_bh w (del (w_bh w) b)) (w_log w ++ [Released b]).
Proof. intros H. rewrite destroy_eq. destruct (w_bh w b) as [y|] eqn:E; [|discriminate]. rewrite (H y E). cbn. intros E'. injection E' as <-. reflexivity. Qed.
Lemma bare_del b c w l : b <> c -> (bare (set_log (set_bh w (del (w_bh w) c)) l) b <-> bare w b) /\ (clad (set_log (set_bh w (del (w_bh w) c)) l) b <-> clad w b).
Proof. intros n. unfold bare, clad. cbn. unfold del. destruct (Nat.eqb_spec b c); [congruence|]. tauto. Qed.
Lemma bare_dec w b : bare w b \/ clad w b.
Proof. unfold bare, clad. destruct (w_bh w b) as [y|]; [|left; discriminate]. destruct (b_colliders (wb y)) eqn:E; [left; congruence|right; exists y; split; congruence]. Qed.
(** over a list, with a continuation that leaves the bodies alone *)
Section Over.
Variable (k : id -> M unit).
Hypothesis k_bh : forall b w w', k b w = Ok tt w' -> w_bh w' = w_bh w.
Lemma bare_same w w' b : w_bh w' = w_bh w -> (bare w' b <-> bare w b) /\ (clad w' b <-> clad w b).
Proof. unfold bare, clad. intros ->. tauto. Qed.
Lemma over_cons s b l w : iter (fun b => destroy_body s b ;;; k b) (b :: l) w =
  match destroy_body s b w with
  | Ok _ w1 => match k b w1 with Ok _ w2 => iter (fun b => destroy_body s b ;;; k b) l w2 | Thrown w2 => Thrown w2 | Bad => Bad | Hang => Hang end
  | Thrown w1 => Thrown w1 | Bad => Bad | Hang => Hang end.
Proof. cbn [iter]. unfold bind at 1 2. destruct (destroy_body s b w) as [a w1| | |]; reflexivity. Qed.
Lemma over_bare s l : forall w, NoDup l -> (forall b, In b l -> bare w b) -> iter (fun b => destroy_body s b ;;; k b) l w = iter (fun b => destroy_body false b ;;; k b) l w.
Proof.
  induction l as [|b l IH]; intros w ND HB; [reflexivity|]. inversion ND as [|? ? HN HD]. subst. rewrite !over_cons, destroy_bare by (apply HB; left; reflexivity).
  destruct (destroy_body false b w) as [[] w1| | |] eqn:E1; auto. destruct (k b w1) as [[] w2| | |] eqn:E2; auto. apply IH; [exact HD|].
  intros b' Hb'. apply (bare_same w1 w2 b' (k_bh _ _ _ E2)). apply destroy_bare_world in E1; [|apply HB; left; reflexivity]. subst w1. apply bare_del; [intros ->; contradiction|apply HB; right; exact Hb'].
Qed.
Lemma over_clad l : forall w w', NoDup l -> (exists b, In b l /\ clad w b) -> iter (fun b => destroy_body false b ;;; k b) l w = Ok tt w' -> iter (fun b => destroy_body true b ;;; k b) l w = Bad.
Proof.
  induction l as [|b l IH]; intros w w' ND (b0 & Hb0 & HC); [destruct Hb0|]. inversion ND as [|? ? HN HD]. subst. rewrite !over_cons.
  destruct (destroy_body false b w) as [[] w1| | |] eqn:E1; try discriminate. destruct (k b w1) as [[] w2| | |] eqn:E2; try discriminate. intros E.
  destruct (bare_dec w b) as [Hb|Hb]; [|rewrite (destroy_clad _ _ _ Hb E1); reflexivity]. rewrite destroy_bare, E1, E2 by exact Hb. eapply IH; [exact HD| |exact E].
  destruct Hb0 as [<-|Hb0]; [exfalso; eapply bare_clad; eassumption|]. exists b0. split; [exact Hb0|]. apply (bare_same w1 w2 b0 (k_bh _ _ _ E2)). apply destroy_bare_world in E1; [|exact Hb]. subst w1.
  apply bare_del; [intros ->; contradiction|exact HC].
Qed.
End Over.

(** ** Before the bodies are destroyed cleanup leaves their colliders alone *)
Definition view_b (y : wbody) := (b_colliders (wb y), wb_killed y).
Definition looks (w w' : world) : Prop := (forall b, option_map view_b (w_bh w' b) = option_map view_b (w_bh w b)) /\ w_bodies w' = w_bodies w.
Lemma lo_refl w : looks w w. Proof. split; auto. Qed.
Lemma lo_trans a b c : looks a b -> looks b c -> looks a c.
Proof. intros [A1 A2] [B1 B2]. split; [intros i; rewrite B1; apply A1|congruence]. Qed.
Lemma lo_mod i f : (forall y, view_b (f y) = view_b y) -> frame looks (mod_body i f).
Proof.
  intros H. apply fr_mod_body. intros w y E. split; [|reflexivity]. intros b. cbn. unfold put. destruct (Nat.eqb_spec b i) as [->|n]; [rewrite E; cbn; rewrite H; reflexivity|reflexivity].
Qed.
Lemma lo_modify f : (forall w, w_bh (f w) = w_bh w /\ w_bodies (f w) = w_bodies w) -> frame looks (modify f).
Proof. intros H. apply fr_modify. intros w. destruct (H w) as [E1 E2]. split; [rewrite E1; reflexivity|exact E2]. Qed.
Hint Resolve lo_refl lo_trans : core.
Ltac lo := repeat first [ apply lo_mod; reflexivity | apply fr_bind; eauto; intros | apply fr_get; eauto | apply fr_deref; eauto | apply fr_ret; eauto | apply fr_if | apply fr_iter; eauto; intros | apply fr_filt; eauto; intros
  | apply lo_mod; reflexivity | apply lo_modify; intros; split; reflexivity ].
Lemma lo_any die l : frame looks (any_dead die l).
Proof. induction l as [|b l IH]; cbn; [apply fr_ret; eauto|]. unfold body_dead, body_at. lo; auto. Qed.
Lemma lo_dead die i : frame looks (con_dead die i).
Proof. unfold con_dead, con_at. lo. apply lo_any. Qed.
Lemma lo_contact die e : frame looks (clean_contact die e).
Proof. unfold clean_contact, con_at, wake. apply fr_bind; eauto; [apply lo_dead|]. intros d. lo. Qed.
Definition head_clean (die : id -> bool) : M (list id * list id) :=
  es <- get w_cts ;; es' <- filt (clean_contact die) es ;; modify (fun w => set_cts w es') ;;;
  cs <- get w_cons ;; dc <- filt (con_dead die) cs ;;
  fs <- get w_forces ;; df <- filt (force_dead die) fs ;; ret (dc, df).
Definition tail_clean (p : list id * list id) (db : list id) : M unit :=
  iter detach_con (fst p) ;;;
  iter (fun i => log (Notified i)) (fst p) ;;; iter (fun i => log (Notified i)) (snd p) ;;; iter (fun i => log (Notified i)) db ;;;
  iter release_con (fst p) ;;; iter release_force (snd p).
Definition begin_clean (die : id -> bool) : M (list id) :=
  p <- head_clean die ;; bs <- get w_bodies ;; db <- filt (body_dead die) bs ;; tail_clean p db ;;; ret db.
Lemma bind_assoc {A B C} (m : M A) (f : A -> M B) (g : B -> M C) w : bind (bind m f) g w = bind m (fun a => bind (f a) g) w.
Proof. unfold bind. destruct (m w); reflexivity. Qed.
Lemma bind_cong {A B} (m : M A) (f g : A -> M B) w : (forall a w, f a w = g a w) -> bind m f w = bind m g w.
Proof. intros H. unfold bind. destruct (m w); auto. Qed.
Lemma bind_ret {A B} (a : A) (f : A -> M B) w : bind (ret a) f w = f a w. Proof. reflexivity. Qed.
Lemma cleanup_split s die w : cleanup s die w = bind (begin_clean die) (iter (release_body s)) w.
Proof.
  unfold begin_clean, head_clean, cleanup. do 7 (rewrite ?bind_assoc; apply bind_cong; clear w; intros ? w). rewrite ?bind_assoc, bind_ret.
  do 2 (rewrite ?bind_assoc; apply bind_cong; clear w; intros ? w). unfold tail_clean. cbn [fst snd]. do 6 (rewrite ?bind_assoc; apply bind_cong; clear w; intros ? w). reflexivity.
Qed.
Lemma lo_head die : frame looks (head_clean die).
Proof.
  unfold head_clean. repeat (apply fr_bind; eauto; intros); try (apply fr_get; eauto); try (apply fr_ret; eauto).
  - apply fr_filt; eauto. apply lo_contact.
  - apply lo_modify. intros; split; reflexivity.
  - apply fr_filt; eauto. apply lo_dead.
  - apply fr_filt; eauto. intros x. unfold force_dead, force_at. lo.
Qed.
Lemma lo_tail p db : frame looks (tail_clean p db).
Proof. unfold tail_clean, detach_con, release_con, release_force, log, con_at, wake. lo. Qed.
Lemma filt_read (f : id -> M bool) (g : id -> bool) l w : (forall i, In i l -> f i w = Ok (g i) w) -> filt f l w = Ok (filter g l) w.
Proof. induction l as [|i l IH]; intros H; [reflexivity|]. cbn. unfold bind at 1. rewrite H by (left; reflexivity). unfold bind. rewrite IH by (intros; apply H; right; assumption). destruct (g i); reflexivity. Qed.
Definition dying (die : id -> bool) (w : world) (b : id) : Prop := exists y, w_bh w b = Some y /\ (wb_killed y = true \/ die b = true).
Lemma looks_dying die w w' b : looks w w' -> (dying die w' b <-> dying die w b) /\ (clad w' b <-> clad w b) /\ (bare w' b <-> bare w b).
Proof.
  intros [H _]. specialize (H b). unfold dying, clad, bare. destruct (w_bh w b) as [y|], (w_bh w' b) as [y'|]; try discriminate.
  - injection H as H1 H2. split; [|split].
    + split; intros (z & Ez & Hz); injection Ez as <-; [exists y|exists y']; (split; [reflexivity|]); [rewrite <- H2|rewrite H2]; exact Hz.
    + split; intros (z & Ez & Hz); injection Ez as <-; [exists y|exists y']; (split; [reflexivity|]); [rewrite <- H1|rewrite H1]; exact Hz.
    + split; intros Hz z Ez; injection Ez as <-; [rewrite <- H1|rewrite H1]; apply Hz; reflexivity.
  - split; [|split]; (split; [intros (z & Ez & _)|intros (z & Ez & _)]) || idtac; try discriminate. tauto.
Qed.
Lemma body_dead_eq die b w : body_dead die b w = match w_bh w b with Some y => Ok (wb_killed y || die b) w | None => Bad end.
Proof. unfold body_dead, bind, body_at, deref. destruct (w_bh w b); reflexivity. Qed.
Lemma filt_dead die w : forall l l' w', filt (body_dead die) l w = Ok l' w' -> w' = w /\ l' = filter (fun b => match w_bh w b with Some y => wb_killed y || die b | None => false end) l.
Proof.
  induction l as [|b l IH]; intros l' w' E; cbn [filt] in E; [injection E as <- <-; auto|]. unfold bind at 1 in E. rewrite body_dead_eq in E. cbn [filter]. destruct (w_bh w b) as [y|]; [|discriminate].
  unfold bind in E. destruct (filt (body_dead die) l w) as [l2 w2| | |]; try discriminate. destruct (IH _ _ eq_refl) as [-> ->]. injection E as <- <-. split; reflexivity.
Qed.
Lemma begin_spec die w db w1 : NoDup (w_bodies w) -> begin_clean die w = Ok db w1 -> looks w w1 /\ NoDup db /\ forall b, In b db <-> In b (w_bodies w) /\ dying die w b.
Proof.
  intros ND E. unfold begin_clean in E. unfold bind at 1 in E. pose proof (lo_head die w) as L1. destruct (head_clean die w) as [p w2| | |]; try discriminate.
  unfold bind at 1, get at 1 in E. unfold bind at 1 in E. destruct (filt (body_dead die) (w_bodies w2) w2) as [l w3| | |] eqn:EF; try discriminate.
  apply filt_dead in EF. destruct EF as [-> El]. unfold bind at 1 in E. pose proof (lo_tail p l w2) as L2. destruct (tail_clean p l w2) as [u w3| | |]; try discriminate. injection E as <- <-.
  split; [eapply lo_trans; eassumption|]. subst l. split; [apply NoDup_filter; rewrite (proj2 L1); exact ND|]. intros b. rewrite filter_In, (proj2 L1). rewrite <- (proj1 (looks_dying die w w2 b L1)).
  unfold dying. destruct (w_bh w2 b) as [y|].
  - rewrite orb_true_iff. split; [intros [H1 H2]; split; [exact H1|exists y; auto]|intros [H1 (y' & Ey & H2)]; injection Ey as <-; auto].
  - split; [intros [_ H]; discriminate|intros [_ (y & H & _)]; discriminate].
Qed.
Lemma release_bh b w w' : modify (fun w => set_bodies w (erase_id b (w_bodies w))) w = Ok tt w' -> w_bh w' = w_bh w.
Proof. intros E. injection E as <-. reflexivity. Qed.
Theorem cleanup_clad die w w' : NoDup (w_bodies w) -> cleanup false die w = Ok tt w' -> (exists b, In b (w_bodies w) /\ dying die w b /\ clad w b) -> cleanup true die w = Bad.
Proof.
  intros ND E (b & Hb & Hd & Hc). rewrite cleanup_split in *. unfold bind in *. destruct (begin_clean die w) as [db w1| | |] eqn:EB; try discriminate.
  destruct (begin_spec _ _ _ _ ND EB) as (L & HD & HB). apply (over_clad (fun b => modify (fun w => set_bodies w (erase_id b (w_bodies w)))) release_bh db w1 w' HD); [|exact E].
  exists b. split; [apply HB; auto|]. apply (looks_dying die w w1 b L), Hc.
Qed.
Theorem cleanup_bare s die w : NoDup (w_bodies w) -> (forall b, In b (w_bodies w) -> dying die w b -> bare w b) -> cleanup s die w = cleanup false die w.
Proof.
  intros ND H. rewrite !cleanup_split. unfold bind. destruct (begin_clean die w) as [db w1| | |] eqn:EB; try reflexivity.
  destruct (begin_spec _ _ _ _ ND EB) as (L & HD & HB). apply (over_bare (fun b => modify (fun w => set_bodies w (erase_id b (w_bodies w)))) release_bh s db w1 HD).
  intros b Hb. apply HB in Hb. apply (looks_dying die w w1 b L), H; tauto.
Qed.
Lemma iter_unit s l : forall w, iter (destroy_body s) l w = iter (fun b => destroy_body s b ;;; ret tt) l w.
Proof. induction l as [|b l IH]; intros w; [reflexivity|]. cbn [iter]. unfold bind at 1 2 3. destruct (destroy_body s b w) as [[] w1| | |]; auto. apply IH. Qed.
Theorem clear_clad w w' : NoDup (w_bodies w) -> clear false w = Ok tt w' -> (exists b, In b (w_bodies w) /\ clad w b) -> clear true w = Bad.
Proof.
  intros ND E H. unfold clear in *. unfold bind at 1, get at 1. unfold bind at 1, get at 1 in E. unfold bind at 1. unfold bind at 1 in E.
  destruct (iter (destroy_body false) (w_bodies w) w) as [[] w1| | |] eqn:EI; try discriminate.
  rewrite iter_unit in EI. rewrite iter_unit. rewrite (over_clad (fun _ => ret tt)) with (w' := w1); auto. intros b v v' Ev. injection Ev as <-. reflexivity.
Qed.
Theorem clear_bare s w : NoDup (w_bodies w) -> (forall b, In b (w_bodies w) -> bare w b) -> clear s w = clear false w.
Proof.
  intros ND H. unfold clear. unfold bind at 1, get at 1. symmetry. unfold bind at 1, get at 1. symmetry. unfold bind at 1. symmetry. unfold bind at 1. symmetry.
  rewrite !iter_unit. rewrite (over_bare (fun _ => ret tt)); auto. intros b v v' Ev. injection Ev as <-. reflexivity.
Qed.
End Strict.
