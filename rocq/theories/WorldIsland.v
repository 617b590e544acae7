(** Islands: construction and solving use no destroyed object, stay inside the
    arrays and end. *)
From Coq Require Import ZArith List Bool Lia Permutation.
From Verif Require Import Num Outcome Box Mat Geom Transform Body Constraint World WorldHoare WorldInv WorldFrame.
Import ListNotations.

Section Wp.
Context {N : Num} {TR : Trig N} {BH : Behaviour N}.
(** no undefined behaviour, no endless loop, [Q] when it returns *)
Definition wp {A} (m : M A) (Q : A -> world -> Prop) (w : world) : Prop :=
  match m w with Ok a w' => Q a w' | Thrown _ => True | _ => False end.
Lemma wp_bind {A B} (m : M A) (f : A -> M B) Q w : wp m (fun a w' => wp (f a) Q w') w -> wp (bind m f) Q w.
Proof. unfold wp, bind. destruct (m w); auto. Qed.
Lemma wp_mono {A} (m : M A) (Q Q' : A -> world -> Prop) w : wp m Q w -> (forall a w', m w = Ok a w' -> Q a w' -> Q' a w') -> wp m Q' w.
Proof. unfold wp. intros H1 H2. destruct (m w) eqn:E; eauto. Qed.
Lemma wp_ret {A} (a : A) (Q : A -> world -> Prop) w : Q a w -> wp (ret a) Q w. Proof. auto. Qed.
Lemma wp_deref {A} (h : world -> heap A) i a (Q : A -> world -> Prop) w : h w i = Some a -> Q a w -> wp (deref h i) Q w.
Proof. unfold wp, deref. intros ->. auto. Qed.
Lemma wp_tri {A} (P : world -> Prop) (m : M A) Q : (forall w, P w -> wp m Q w) <-> tri P m Q.
Proof. reflexivity. Qed.
Lemma wp_frame {A} (R : world -> world -> Prop) (m : M A) Q w : frame R m -> wp m Q w -> wp m (fun a w' => Q a w' /\ R w w') w.
Proof. unfold wp. intros F H. specialize (F w). destruct (m w); auto. Qed.
Lemma wp_foldm {S A} (f : S -> A -> M S) (J : list A -> list A -> S -> world -> Prop) :
  (forall d x r s w, J d (x :: r) s w -> wp (f s x) (J (d ++ [x]) r) w) ->
  forall r d s w, J d r s w -> wp (foldm f s r) (J (d ++ r) []) w.
Proof. intros H r d s w. apply (tri_foldm f J). intros d' x r' s' w'. apply H. Qed.
Lemma wp_iter {A} (f : A -> M unit) (J : list A -> list A -> world -> Prop) :
  (forall d x r w, J d (x :: r) w -> wp (f x) (fun _ => J (d ++ [x]) r) w) ->
  forall r d w, J d r w -> wp (iter f r) (fun _ => J (d ++ r) []) w.
Proof. intros H r d w. apply (tri_iter f J). intros d' x r' w'. apply H. Qed.
End Wp.

Section Island.
Context {N : Num} {TR : Trig N} {BH : Behaviour N}.

Definition proxied (il : island) (w : world) : Prop :=
  forall b y, w_bh w b = Some y -> match wb_proxy y with Some n => nth_error (is_bodies il) n = Some b | None => ~ In b (is_bodies il) end.
Record IInv (il : island) (w : world) : Prop := {
  ii_pos : length (is_pos il) = length (is_bodies il);
  ii_vel : length (is_vel il) = length (is_bodies il);
  ii_nd : NoDup (is_bodies il);
  ii_live : forall b, In b (is_bodies il) -> exists y, w_bh w b = Some y;
  ii_px : proxied il w;
  ii_cnd : NoDup (all_of il);
  ii_clive : forall c, In c (all_of il) -> exists x, w_ch w c = Some x /\ In (c_b0 x) (is_bodies il) /\ In (c_b1 x) (is_bodies il);
  ii_cpx : forall c x, w_ch w c = Some x -> (c_px x = true <-> In c (all_of il)) }.
(** the bodies' states and the other constraints' states are untouched *)
Definition kept (w w' : world) : Prop := forall b, option_map wb (w_bh w' b) = option_map wb (w_bh w b).
Definition kept_but (c : id) (w w' : world) : Prop := forall c', c' <> c -> option_map c_st (w_ch w' c') = option_map c_st (w_ch w c').

Lemma IInv_proxy il w b y : IInv il w -> w_bh w b = Some y -> In b (is_bodies il) -> exists n, wb_proxy y = Some n /\ nth_error (is_bodies il) n = Some b.
Proof. intros H E Hb. pose proof (ii_px _ _ H b y E) as P. destruct (wb_proxy y); [eauto|contradiction]. Qed.
Lemma IInv_proxy' il w b y n : IInv il w -> w_bh w b = Some y -> wb_proxy y = Some n -> In b (is_bodies il) /\ n < length (is_bodies il) /\ nth_error (is_bodies il) n = Some b.
Proof.
  intros H E Hn. pose proof (ii_px _ _ H b y E) as P. rewrite Hn in P. split; [eapply nth_error_In; eauto|]. split; [|exact P].
  apply nth_error_Some. rewrite P. discriminate.
Qed.
Lemma in_b0 (x : wcon) : In (c_b0 x) (con_bodies x).
Proof. unfold con_bodies. destruct (Nat.eqb _ _); cbn; auto. Qed.
Lemma in_b1 (x : wcon) : In (c_b1 x) (con_bodies x).
Proof. unfold con_bodies. destruct (Nat.eqb_spec (c_b0 x) (c_b1 x)) as [->|]; cbn; auto. Qed.
Lemma in_bodies (x : wcon) b : In b (con_bodies x) <-> b = c_b0 x \/ b = c_b1 x.
Proof. unfold con_bodies. destruct (Nat.eqb_spec (c_b0 x) (c_b1 x)) as [->|]; cbn; intuition. Qed.
Lemma con_ends w c x : SInv w -> w_ch w c = Some x -> (exists y, w_bh w (c_b0 x) = Some y) /\ (exists y, w_bh w (c_b1 x) = Some y).
Proof. intros S E. split; apply (i_ends _ S c x E); [apply in_b0|apply in_b1]. Qed.

(** ** interactsAsStructural *)
Definition struct_in (w : world) (r c : id) : bool :=
  match w_ch w c with Some x => match structural_in x r with Ret s => s | _ => false end | None => false end.
Definition fixedb (w : world) (r : id) : bool :=
  match w_bh w r with Some y => at_rest (wb y) && forallb (struct_in w r) (wb_cs y ++ wb_cts y) | None => false end.
Lemma structural_ret x r : In r (con_bodies x) -> exists s, structural_in x r = Ret s.
Proof.
  rewrite in_bodies. unfold structural_in. intros [->| ->]; rewrite ?Nat.eqb_refl; [eauto|]. destruct (Nat.eqb _ _); eauto.
Qed.
Lemma all_structural_eq w r : forall l s, (forall c, In c l -> exists x, w_ch w c = Some x /\ In r (con_bodies x)) ->
  all_structural r l s w = Ok (s && forallb (struct_in w r) l) w.
Proof.
  induction l as [|c l IH]; intros s H; cbn [all_structural forallb]; [rewrite andb_true_r; reflexivity|].
  destruct s; cbn [andb].
  - destruct (H c (or_introl eq_refl)) as (x & E & Hr). unfold bind at 1, con_at, deref. rewrite E. destruct (structural_ret x r Hr) as [s Es].
    unfold bind, lift. rewrite Es. rewrite IH by (intros; apply H; right; assumption). unfold struct_in at 2. rewrite E, Es. reflexivity.
  - apply IH. intros. apply H. right. assumption.
Qed.
Lemma acts_eq w r y : SInv w -> w_bh w r = Some y -> acts_structural r w = Ok (fixedb w r) w.
Proof.
  intros S E. unfold acts_structural, bind at 1, body_at, deref. rewrite E. unfold bind.
  rewrite (all_structural_eq w r (wb_cs y)); [rewrite (all_structural_eq w r (wb_cts y))|].
  - unfold fixedb. rewrite E, forallb_app, andb_assoc. reflexivity.
  - intros c Hc. apply (i_cts _ S r y E) in Hc. destruct Hc as [_ Hc]. exact Hc.
  - intros c Hc. apply (i_cs _ S r y E) in Hc. destruct Hc as [_ Hc]. exact Hc.
Qed.

(** ** addBody *)
Definition push (il : island) (i : id) (y : wbody) : island :=
  Isl (is_bodies il ++ [i]) (is_cons il) (is_cts il) (is_pos il ++ [b_pos (wb y)]) (is_vel il ++ [vel_of (wb y)]) (is_awake il || negb (b_asleep (wb y))).
Definition index (w : world) (i : id) (y : wbody) (n : nat) : world := set_bh w (put (w_bh w) i (with_proxy y (Some n))).
Lemma add_body_eq il i w y : w_bh w i = Some y ->
  add_body il i w = match wb_proxy y with
    | Some _ => Ok (il, false) w
    | None => if Z.ltb (Z.of_nat (length (is_pos il))) 2147483647 then Ok (push il i y, true) (index w i y (length (is_pos il))) else Thrown w
    end.
Proof.
  intros E. unfold add_body, bind at 1, body_at, deref. rewrite E. destruct (wb_proxy y); [reflexivity|]. destruct (Z.ltb _ _); reflexivity.
Qed.
Lemma IInv_push il w i y : IInv il w -> w_bh w i = Some y -> wb_proxy y = None -> IInv (push il i y) (index w i y (length (is_pos il))).
Proof.
  intros [P V ND L PX C CL CP] E Hn. pose proof (PX i y E) as Hi. rewrite Hn in Hi. constructor; cbn [push is_bodies is_pos is_vel is_cons is_cts index set_bh w_bh w_ch].
  - rewrite !app_length, P. reflexivity.
  - rewrite !app_length, V. reflexivity.
  - apply nodup_snoc; assumption.
  - intros b Hb. apply in_snoc in Hb. destruct (Nat.eq_dec b i) as [->|n]; [rewrite put_eq; eauto|]. rewrite put_ne by exact n. apply L. tauto.
  - intros b y' Hy. apply put_some in Hy. destruct Hy as [[-> ->]|[n Hy]]; cbn [with_proxy wb_proxy push is_bodies].
    + rewrite P, nth_error_app2, Nat.sub_diag by lia. reflexivity.
    + specialize (PX b y' Hy). destruct (wb_proxy y').
      * rewrite nth_error_app1; [exact PX|]. apply nth_error_Some. rewrite PX. discriminate.
      * rewrite in_snoc. tauto.
  - exact C.
  - intros c Hc. destruct (CL c Hc) as (x & A1 & A2 & A3). exists x. rewrite !in_snoc. auto.
  - exact CP.
Qed.
Lemma same_index w i y n : w_bh w i = Some y -> same w (index w i y n).
Proof. intros E. eapply same_put_body; [exact E|]. constructor; auto. Qed.
Lemma kept_index w i y n : w_bh w i = Some y -> kept w (index w i y n).
Proof. intros E b. cbn. unfold put. destruct (Nat.eqb_spec b i) as [->|]; [rewrite E|]; reflexivity. Qed.
Lemma kept_refl w : kept w w. Proof. intros b. reflexivity. Qed.
Lemma kept_trans a b c : kept a b -> kept b c -> kept a c.
Proof. intros H1 H2 i. rewrite H2, H1. reflexivity. Qed.
Definition awake_at (w : world) (b : id) : Prop := exists y, w_bh w b = Some y /\ b_asleep (wb y) = false.
Lemma awake_kept w w' b : kept w w' -> awake_at w' b -> awake_at w b.
Proof.
  intros H (y & E & A). specialize (H b). rewrite E in H. cbn in H. destruct (w_bh w b) as [y0|] eqn:E0; [|discriminate]. injection H as H. exists y0. split; [exact E0|congruence].
Qed.
Record grown (il il' : island) (w w' : world) (new : list id) : Prop := {
  g_inv : IInv il' w'; g_sinv : SInv w'; g_kept : kept w w'; g_ch : w_ch w' = w_ch w; g_log : w_log w' = w_log w;
  g_bodies : is_bodies il' = is_bodies il ++ new; g_cons : is_cons il' = is_cons il; g_cts : is_cts il' = is_cts il;
  g_awake : is_awake il = true -> is_awake il' = true;
  g_awake' : is_awake il' = true -> is_awake il = true \/ exists b, In b new /\ awake_at w b;
  g_stir : forall b, In b new -> awake_at w b -> is_awake il' = true;
  g_next : w_next w' = w_next w; g_lists : w_bodies w' = w_bodies w;
  g_proxy : forall b y, w_bh w b = Some y -> exists y', w_bh w' b = Some y' /\ ((~ In b new /\ y' = y) \/ (In b new /\ wb_proxy y = None /\ y' = with_proxy y (wb_proxy y'))) }.
Lemma add_body_spec il i w y : SInv w -> IInv il w -> w_bh w i = Some y ->
  wp (add_body il i) (fun r w' => exists new, grown il (fst r) w w' new /\ In i (is_bodies (fst r)) /\
     new = (if snd r then [i] else []) /\ (snd r = true <-> wb_proxy y = None) /\ (snd r = false -> fst r = il) /\
     (snd r = true -> drop_body (fst r) = Isl (is_bodies il) (is_cons il) (is_cts il) (is_pos il) (is_vel il) (is_awake (fst r)))) w.
Proof.
  intros S I E. unfold wp. rewrite (add_body_eq il i w y E). pose proof (ii_px _ _ I i y E) as Hi. destruct (wb_proxy y) as [n|] eqn:EP.
  - exists []. split; [|split; [|split; [reflexivity|split; [split; intros; discriminate|split; [reflexivity|intros; discriminate]]]]].
    + constructor; cbn [fst]; auto using kept_refl; [rewrite app_nil_r; reflexivity|]. intros b z Hz. exists z. split; [exact Hz|]. left. auto.
    + cbn [fst]. eapply nth_error_In; eauto.
  - destruct (Z.ltb _ _); [|trivial]. cbn [fst snd]. exists [i]. split; [|split; [|split; [reflexivity|split; [tauto|split; [discriminate|]]]]].
    + constructor; auto.
      * apply IInv_push; assumption.
      * eapply SInv_same; [exact S|apply same_index, E].
      * apply kept_index, E.
      * cbn. intros ->. reflexivity.
      * cbn. intros H. apply orb_true_iff in H. destruct H as [H|H]; [auto|right]. exists i. split; [left; reflexivity|]. exists y. split; [exact E|]. apply negb_true_iff in H. exact H.
      * intros b [<-|[]] (z & Ez & Az). rewrite E in Ez. injection Ez as <-. cbn. rewrite Az. apply orb_true_r.
      * intros b z Hz. cbn. unfold put. destruct (Nat.eqb_spec b i) as [->|n].
        { exists (with_proxy y (Some (length (is_pos il)))). split; [reflexivity|]. right. rewrite E in Hz. injection Hz as <-. split; [left; reflexivity|]. split; [exact EP|reflexivity]. }
        { exists z. split; [exact Hz|]. left. split; [intros [X|[]]; congruence|reflexivity]. }
    + cbn. apply in_snoc. auto.
    + intros _. unfold drop_body, push. cbn. rewrite !removelast_last. reflexivity.
Qed.

(** ** addConstraint *)
Lemma IInv_ext il il' w w' :
  IInv il w -> is_bodies il' = is_bodies il -> all_of il' = all_of il -> length (is_pos il') = length (is_pos il) -> length (is_vel il') = length (is_vel il) ->
  (forall b, option_map wb_proxy (w_bh w' b) = option_map wb_proxy (w_bh w b)) ->
  (forall c, option_map (fun x => (c_px x, c_b0 x, c_b1 x)) (w_ch w' c) = option_map (fun x => (c_px x, c_b0 x, c_b1 x)) (w_ch w c)) ->
  IInv il' w'.
Proof.
  intros [P V ND L PX C CL CP] EB EC EP EV HB HC. constructor; rewrite ?EB, ?EC; try congruence.
  - intros b Hb. specialize (HB b). destruct (L b Hb) as [y E]. rewrite E in HB. destruct (w_bh w' b); [eauto|discriminate].
  - intros b y E. unfold proxied in PX. rewrite EB. specialize (HB b). rewrite E in HB. destruct (w_bh w b) as [y0|] eqn:E0; [|discriminate]. injection HB as HB. specialize (PX b y0 E0). rewrite HB. exact PX.
  - intros c Hc. destruct (CL c Hc) as (x & E & A1 & A2). specialize (HC c). rewrite E in HC. destruct (w_ch w' c) as [x'|]; [|discriminate]. injection HC as H1 H2 H3. exists x'. rewrite H2, H3. auto.
  - intros c x E. specialize (HC c). rewrite E in HC. destruct (w_ch w c) as [x0|] eqn:E0; [|discriminate]. injection HC as H1 H2 H3. rewrite H1. apply (CP c x0 E0).
Qed.
Lemma view_ok il w px : IInv il w -> px_i0 px < length (is_bodies il) -> px_i1 px < length (is_bodies il) -> exists s, view il px = Ret s.
Proof.
  intros I H0 H1. unfold view.
  destruct (nth_error (is_pos il) (px_i0 px)) eqn:E1; [|apply nth_error_None in E1; rewrite (ii_pos _ _ I) in E1; lia].
  destruct (nth_error (is_vel il) (px_i0 px)) eqn:E2; [|apply nth_error_None in E2; rewrite (ii_vel _ _ I) in E2; lia].
  destruct (nth_error (is_pos il) (px_i1 px)) eqn:E3; [|apply nth_error_None in E3; rewrite (ii_pos _ _ I) in E3; lia].
  destruct (nth_error (is_vel il) (px_i1 px)) eqn:E4; [|apply nth_error_None in E4; rewrite (ii_vel _ _ I) in E4; lia].
  eauto.
Qed.

(** the virtual functions have no undefined behaviour of their own *)
Definition calm {A} (o : outcome A) : Prop := match o with Ret _ => True | Throw => True | _ => False end.
Record tame : Prop := {
  t_active : forall st px s, calm (bh_active st px s); t_init : forall st px s, calm (bh_init st px s);
  t_warm : forall st px s dt, calm (bh_warm st px s dt); t_vel : forall st px s dt, calm (bh_vel st px s dt);
  t_pos : forall st px s, calm (bh_pos st px s) }.
Hypothesis T : tame.
Lemma wp_lift {A} (o : outcome A) (Q : A -> world -> Prop) w : calm o -> (forall a, o = Ret a -> Q a w) -> wp (lift o) Q w.
Proof. unfold wp, lift. destruct o; cbn; auto. Qed.

Lemma kept_none w w' b : kept w w' -> w_bh w b = None -> w_bh w' b = None.
Proof. intros H E. specialize (H b). rewrite E in H. destruct (w_bh w' b); [discriminate|reflexivity]. Qed.
Lemma kept_some w w' b y : kept w w' -> w_bh w b = Some y -> exists y', w_bh w' b = Some y' /\ wb y' = wb y.
Proof. intros H E. specialize (H b). rewrite E in H. destruct (w_bh w' b) as [y'|]; [|discriminate]. injection H as H. eauto. Qed.
Lemma grown_trans il1 il2 il3 w1 w2 w3 n1 n2 : grown il1 il2 w1 w2 n1 -> grown il2 il3 w2 w3 n2 -> grown il1 il3 w1 w3 (n1 ++ n2).
Proof.
  intros [] []. constructor; auto; try congruence.
  - rewrite g_bodies1, g_bodies0, app_assoc. reflexivity.
  - intros H. apply g_awake'1 in H. destruct H as [H|(b & Hb & H)].
    + apply g_awake'0 in H. destruct H as [H|(b & Hb & H)]; [auto|]. right. exists b. split; [apply in_or_app; auto|exact H].
    + right. exists b. split; [apply in_or_app; auto|eapply awake_kept; eauto].
  - intros b Hb Ha. apply in_app_iff in Hb. destruct Hb as [Hb|Hb]; [eauto|]. apply (g_stir1 b Hb). destruct Ha as (z & Ez & Az). destruct (g_proxy0 b z Ez) as (z' & Ez' & Hz). exists z'. split; [exact Ez'|].
    destruct Hz as [[_ ->]|(_ & _ & Hz)]; [exact Az|]. rewrite Hz. exact Az.
  - intros b y E. destruct (g_proxy0 b y E) as (y' & E' & Hy). destruct (g_proxy1 b y' E') as (y2 & E2 & Hy2). exists y2. split; [exact E2|]. rewrite in_app_iff.
    destruct Hy as [[Hn ->]|(Hn & Hp & Hy)], Hy2 as [[Hn2 ->]|(Hn2 & Hp2 & Hy2)].
    + left. tauto.
    + right. split; [tauto|]. split; [exact Hp2|exact Hy2].
    + right. split; [tauto|]. split; [exact Hp|exact Hy].
    + right. split; [tauto|]. split; [exact Hp|]. rewrite Hy2 at 1. rewrite Hy. reflexivity.
Qed.

(** what adding a constraint found of the constraint: skipped, or the answer of isActive *)
Inductive verdict := Skipped | Found (a : bool).
Record added (contact : bool) (il il' : island) (w w' : world) (c : id) (x : wcon) (v : verdict) (new : list id) : Prop := {
  a_inv : IInv il' w'; a_sinv : SInv w'; a_same : same w w'; a_kept : kept w w'; a_but : kept_but c w w'; a_log : w_log w' = w_log w;
  a_bodies : is_bodies il' = is_bodies il ++ new;
  a_new : forall b, In b new -> b = c_b0 x \/ b = c_b1 x;
  a_awake : is_awake il = true -> is_awake il' = true;
  a_awake' : is_awake il' = true -> is_awake il = true \/ exists b, (b = c_b0 x \/ b = c_b1 x) /\ awake_at w b;
  a_stir : forall b, In b new -> awake_at w b -> is_awake il' = true;
  a_out : forall b y, w_bh w b = Some y -> ~ In b (is_bodies il') -> w_bh w' b = Some y;
  a_case : match v with
    | Skipped => c_px x = true /\ il' = il /\ w' = w /\ new = []
    | Found a => c_px x = false /\ (exists px s st x', bh_active (c_st x) px s = Ret (st, a) /\ w_ch w' c = Some x' /\ c_st x' = st) /\
        is_cons il' = (if a && negb contact then is_cons il ++ [c] else is_cons il) /\
        is_cts il' = (if a && contact then is_cts il ++ [c] else is_cts il) /\ (a = false -> new = [] /\ forall b, w_bh w' b = w_bh w b)
    end }.
Lemma added_all contact il il' w w' c x v new : added contact il il' w w' c x v new -> forall d, In d (all_of il') <-> In d (all_of il) \/ (v = Found true /\ d = c).
Proof.
  intros [] d. unfold all_of. destruct v as [|a].
  - destruct a_case0 as (_ & -> & _). intuition discriminate.
  - destruct a_case0 as (_ & _ & -> & -> & _). destruct a, contact; cbn [andb negb]; rewrite ?in_app_iff; cbn [In]; intuition congruence.
Qed.
Lemma restore y p : wb_proxy y = None -> with_proxy (with_proxy y p) None = y.
Proof. destruct y. cbn. intros ->. reflexivity. Qed.
Lemma nodup_mid {A} (l1 l2 : list A) x : NoDup (l1 ++ l2) -> ~ In x (l1 ++ l2) -> NoDup ((l1 ++ [x]) ++ l2).
Proof. intros H1 H2. rewrite <- app_assoc. cbn. apply NoDup_Add with (a := x) (l := l1 ++ l2); [apply Add_app|auto]. Qed.

Lemma add_con_spec contact il c w x : SInv w -> IInv il w -> w_ch w c = Some x ->
  wp (add_con contact il c) (fun il' w' => exists v new, added contact il il' w w' c x v new) w.
Proof.
  intros S I E. assert (FR := fs_add_con contact il c).
  apply wp_mono with (fun il' w' => (same w w' -> exists v new, added contact il il' w w' c x v new)).
  2:{ intros il' w' Eq H. specialize (FR w). rewrite Eq in FR. exact (H FR). }
  unfold add_con. apply wp_bind, (wp_deref w_ch c x); [exact E|]. destruct (c_px x) eqn:EPX.
  { apply wp_ret. intros Hs. exists Skipped, []. constructor; auto using kept_refl; try tauto.
    all: try (intros c' _; reflexivity). all: try (rewrite app_nil_r; reflexivity). intros b []. }
  destruct (con_ends w c x S E) as [[y0 E0] [y1 E1]].
  apply wp_bind, (wp_deref w_bh _ y0); [exact E0|]. apply wp_bind, (wp_deref w_bh _ y1); [exact E1|].
  apply wp_bind. eapply wp_mono; [apply (add_body_spec il _ w y0 S I E0)|]. intros [il1 d1] w1 _ (n1 & G1 & In1 & N1 & B1 & F1 & D1). cbn [fst snd] in *.
  destruct (g_proxy _ _ _ _ _ G1 _ _ E1) as (y1' & E1' & Hy1).
  apply wp_bind. eapply wp_mono; [apply (add_body_spec il1 _ w1 y1' (g_sinv _ _ _ _ _ G1) (g_inv _ _ _ _ _ G1) E1')|].
  intros [il2 d2] w2 _ (n2 & G2 & In2 & N2 & B2 & F2 & D2). cbn [fst snd] in *.
  pose proof (grown_trans _ _ _ _ _ _ _ _ G1 G2) as G. pose proof (g_inv _ _ _ _ _ G2) as I2.
  assert (In1' : In (c_b0 x) (is_bodies il2)) by (rewrite (g_bodies _ _ _ _ _ G2); apply in_or_app; auto).
  destruct (g_proxy _ _ _ _ _ G _ _ E0) as (z0 & Z0 & _). destruct (g_proxy _ _ _ _ _ G _ _ E1) as (z1 & Z1 & _).
  destruct (IInv_proxy _ _ _ _ I2 Z0 In1') as (i0 & P0 & Q0). destruct (IInv_proxy _ _ _ _ I2 Z1 In2) as (i1 & P1 & Q1).
  assert (E2 : w_ch w2 c = Some x) by (rewrite (g_ch _ _ _ _ _ G); exact E).
  set (px := Prox i0 i1 (c_m0 x) (c_I0 x) (c_m1 x) (c_I1 x)).
  set (w3 := set_ch w2 (put (w_ch w2) c (con_px true x))).
  apply wp_bind. assert (ES : start_solve c w2 = Ok px w3).
  { unfold start_solve, bind, con_at, body_at, deref. rewrite E2, Z0, Z1, P0, P1. reflexivity. }
  unfold wp at 1. rewrite ES. clear ES.
  apply wp_bind. apply wp_lift.
  { destruct (view_ok il2 w2 px I2) as [s ->]; [cbn; apply nth_error_Some; rewrite Q0; discriminate|cbn; apply nth_error_Some; rewrite Q1; discriminate|exact Logic.I]. }
  intros s Es. apply wp_bind, (wp_deref w_ch c (con_px true x)); [cbn; apply put_eq|].
  apply wp_bind, wp_lift; [apply (t_active T)|]. intros [st a] Ea. cbn [con_px c_st] in Ea. cbn [fst snd].
  apply wp_bind. unfold put_con, modify. unfold wp at 1.
  set (w4 := set_ch w3 _).
  assert (K4 : kept w w4) by apply (g_kept _ _ _ _ _ G).
  assert (C4 : w_ch w4 c = Some (con_st st (con_px true x))) by (cbn; rewrite put_eq; reflexivity).
  assert (C4' : forall d, d <> c -> w_ch w4 d = w_ch w d) by (intros d Hd; cbn; rewrite !put_ne by exact Hd; rewrite (g_ch _ _ _ _ _ G); reflexivity).
  assert (NI : ~ In c (all_of il)) by (intros H; apply (ii_cpx _ _ I c x E) in H; congruence).
  assert (AO : all_of il2 = all_of il) by (unfold all_of; rewrite (g_cons _ _ _ _ _ G), (g_cts _ _ _ _ _ G); reflexivity).
  destruct a.
  - apply wp_ret. intros Hs. exists (Found true), (n1 ++ n2).
    assert (S4 : SInv w4) by (eapply SInv_same; eassumption).
    set (il' := Isl _ _ _ _ _ _).
    assert (AL : forall d, In d (all_of il') <-> In d (all_of il) \/ d = c).
    { intros d. rewrite <- AO. unfold all_of, il'. cbn. destruct contact; rewrite ?in_app_iff; cbn [In]; intuition congruence. }
    constructor; auto.
    + destruct I2 as [J1 J2 J3 J4 J5 J6 J7 J8]. constructor; auto.
      * unfold all_of, il'. cbn. rewrite <- AO in NI. destruct contact.
        { rewrite app_assoc. apply nodup_snoc; assumption. }
        { apply nodup_mid; assumption. }
      * intros d Hd. apply AL in Hd. destruct (Nat.eq_dec d c) as [->|n].
        { exists (con_st st (con_px true x)). split; [exact C4|]. split; [exact In1'|exact In2]. }
        { rewrite C4' by exact n. destruct Hd as [Hd|Hd]; [|congruence]. rewrite <- AO in Hd. destruct (J7 d Hd) as (xd & A1 & A2 & A3).
          rewrite (g_ch _ _ _ _ _ G) in A1. exists xd. auto. }
      * intros d xd Ed. rewrite AL. destruct (Nat.eq_dec d c) as [->|n].
        { rewrite C4 in Ed. injection Ed as <-. cbn. tauto. }
        { rewrite C4' in Ed by exact n. rewrite <- AO. rewrite (J8 d xd) by (rewrite (g_ch _ _ _ _ _ G); exact Ed). tauto. }
    + intros d Hd. rewrite C4' by exact Hd. reflexivity.
    + apply (g_log _ _ _ _ _ G).
    + apply (g_bodies _ _ _ _ _ G).
    + intros b. rewrite in_app_iff, N1, N2. destruct d1, d2; cbn; intuition.
    + apply (g_awake _ _ _ _ _ G).
    + intros Ha. destruct (g_awake' _ _ _ _ _ G Ha) as [H|(b & Hb & H)]; [auto|]. right. exists b. split; [|exact H]. rewrite in_app_iff, N1, N2 in Hb. destruct d1, d2; cbn in Hb; intuition.
    + apply (g_stir _ _ _ _ _ G).
    + intros b y Hy Hn. destruct (g_proxy _ _ _ _ _ G b y Hy) as (y' & Hy' & Hc). cbn. rewrite Hy'. destruct Hc as [[_ ->]|[Hb _]]; [reflexivity|].
      exfalso. apply Hn. change (In b (is_bodies il2)). rewrite (g_bodies _ _ _ _ _ G). apply in_or_app. auto.
    + split; [exact EPX|]. split.
      * exists px, s, st, (con_st st (con_px true x)). split; [exact Ea|]. split; [exact C4|reflexivity].
      * cbn [is_cons is_cts il']. rewrite (g_cons _ _ _ _ _ G), (g_cts _ _ _ _ _ G). destruct contact; cbn; repeat split; auto; discriminate.
  - (* the constraint is inactive: everything is restored *)
    set (m1 := if d2 then _ else _).
    assert (M1 : exists w5, m1 w4 = Ok (if d2 then drop_body il2 else il2) w5 /\ w_ch w5 = w_ch w4 /\ w_log w5 = w_log w /\ kept w w5 /\ forall b, w_bh w5 b = w_bh w1 b).
    { unfold m1. destruct d2.
      - unfold mod_body, bind, body_at, deref. rewrite (Z1 : w_bh w4 (c_b1 x) = Some z1). cbn. eexists. split; [reflexivity|]. split; [reflexivity|]. split; [apply (g_log _ _ _ _ _ G)|].
        assert (HB : forall b, w_bh (set_bh w4 (put (w_bh w4) (c_b1 x) (with_proxy z1 (wb_proxy y1)))) b = w_bh w1 b).
        { intros b. cbn. unfold put. destruct (Nat.eqb_spec b (c_b1 x)) as [->|n].
          - rewrite E1'. destruct (g_proxy _ _ _ _ _ G2 _ _ E1') as (z1' & Z1' & Hz). rewrite Z1' in Z1. injection Z1 as ->.
            destruct Hz as [[Hn _]|(_ & Hp & Hz)]; [exfalso; apply Hn; rewrite N2; left; reflexivity|].
            destruct Hy1 as [[_ ->]|(Hn & Hp0 & Hy1)].
            + rewrite Hp, Hz. f_equal. apply restore, Hp.
            + rewrite Hp0, Hz. f_equal. apply restore, Hp.
          - change (w_bh w2 b = w_bh w1 b). destruct (w_bh w1 b) as [yb|] eqn:Eb.
            + destruct (g_proxy _ _ _ _ _ G2 _ _ Eb) as (z & Hz & Hc). rewrite Hz. destruct Hc as [[_ ->]|[Hin _]]; [reflexivity|]. rewrite N2 in Hin. destruct Hin as [Hin|[]]. congruence.
            + eapply kept_none; [apply (g_kept _ _ _ _ _ G2)|exact Eb]. }
        split; [|exact HB]. intros b. rewrite HB. apply (g_kept _ _ _ _ _ G1).
      - exists w4. split; [reflexivity|]. split; [reflexivity|]. split; [apply (g_log _ _ _ _ _ G)|]. split; [exact K4|]. intros b. change (w_bh w2 b = w_bh w1 b).
        destruct (w_bh w1 b) as [yb|] eqn:Eb.
        + destruct (g_proxy _ _ _ _ _ G2 _ _ Eb) as (z & Hz & Hc). rewrite Hz. destruct Hc as [[_ ->]|[Hin _]]; [reflexivity|]. rewrite N2 in Hin. destruct Hin.
        + eapply kept_none; [apply (g_kept _ _ _ _ _ G2)|exact Eb]. }
    destruct M1 as (w5 & EM1 & CH5 & L5 & K5 & HB5). apply wp_bind. unfold wp at 1. rewrite EM1. clear EM1 m1.
    set (il3 := if d2 then drop_body il2 else il2) in *. set (m2 := if d1 then _ else _).
    assert (M2 : exists w6, m2 w5 = Ok (if d1 then drop_body il3 else il3) w6 /\ w_ch w6 = w_ch w4 /\ w_log w6 = w_log w /\ forall b, w_bh w6 b = w_bh w b).
    { destruct (g_proxy _ _ _ _ _ G1 _ _ E0) as (v0 & V0 & Hv). unfold m2. destruct d1.
      - unfold mod_body, bind, body_at, deref. rewrite HB5, V0. cbn. eexists. split; [reflexivity|]. split; [exact CH5|]. split; [exact L5|]. intros b. cbn. unfold put. destruct (Nat.eqb_spec b (c_b0 x)) as [->|n].
        + destruct Hv as [[Hn _]|(_ & Hp & Hz)]; [exfalso; apply Hn; rewrite N1; left; reflexivity|]. rewrite E0, Hp, Hz. f_equal. apply restore, Hp.
        + rewrite HB5. destruct (w_bh w b) as [yb|] eqn:Eb.
          * destruct (g_proxy _ _ _ _ _ G1 _ _ Eb) as (z & Hz & Hc). rewrite Hz. destruct Hc as [[_ ->]|[Hin _]]; [reflexivity|]. rewrite N1 in Hin. destruct Hin as [Hin|[]]. congruence.
          * eapply kept_none; [apply (g_kept _ _ _ _ _ G1)|exact Eb].
      - exists w5. split; [reflexivity|]. split; [exact CH5|]. split; [exact L5|]. intros b. rewrite HB5. destruct (w_bh w b) as [yb|] eqn:Eb.
        + destruct (g_proxy _ _ _ _ _ G1 _ _ Eb) as (z & Hz & Hc). rewrite Hz. destruct Hc as [[_ ->]|[Hin _]]; [reflexivity|]. rewrite N1 in Hin. destruct Hin.
        + eapply kept_none; [apply (g_kept _ _ _ _ _ G1)|exact Eb]. }
    destruct M2 as (w6 & EM2 & CH6 & L6 & HB6). apply wp_bind. unfold wp at 1. rewrite EM2. clear EM2 m2.
    set (il4 := if d1 then drop_body il3 else il3) in *.
    assert (IL : is_bodies il4 = is_bodies il /\ is_cons il4 = is_cons il /\ is_cts il4 = is_cts il /\ is_pos il4 = is_pos il /\ is_vel il4 = is_vel il /\ is_awake il4 = is_awake il2).
    { assert (IL3 : is_bodies il3 = is_bodies il1 /\ is_cons il3 = is_cons il1 /\ is_cts il3 = is_cts il1 /\ is_pos il3 = is_pos il1 /\ is_vel il3 = is_vel il1 /\ is_awake il3 = is_awake il2).
      { unfold il3. destruct d2; [rewrite (D2 eq_refl)|rewrite (F2 eq_refl)]; cbn; repeat split. }
      destruct IL3 as (A1 & A2 & A3 & A4 & A5 & A6). unfold il4. destruct d1.
      - specialize (D1 eq_refl). unfold drop_body in *. cbn. rewrite A1, A2, A3, A4, A5, A6. injection D1 as -> -> -> -> ->. auto 6.
      - rewrite (F1 eq_refl) in A1, A2, A3, A4, A5. auto 6. }
    destruct IL as (A1 & A2 & A3 & A4 & A5 & A6).
    unfold end_solve, mod_con. apply wp_bind, wp_bind, (wp_deref w_ch c (con_st st (con_px true x))); [rewrite CH6; exact C4|].
    unfold put_con, modify. unfold wp at 1. apply wp_ret. intros Hs. set (w7 := set_ch w6 _) in *. exists (Found false), [].
    assert (C7 : w_ch w7 c = Some (con_px false (con_st st (con_px true x)))) by (cbn; apply put_eq).
    assert (C7' : forall d, d <> c -> w_ch w7 d = w_ch w d) by (intros d Hd; cbn; rewrite put_ne by exact Hd; rewrite CH6; apply C4', Hd).
    constructor; auto.
    + apply (IInv_ext il il4 w w7); auto; try congruence.
      * unfold all_of. congruence.
      * intros b. cbn. rewrite HB6. reflexivity.
      * intros d. destruct (Nat.eq_dec d c) as [->|n]; [rewrite C7, E; cbn; rewrite EPX; reflexivity|rewrite C7' by exact n; reflexivity].
    + eapply SInv_same; eassumption.
    + intros b. cbn. rewrite HB6. reflexivity.
    + intros d Hd. rewrite C7' by exact Hd. reflexivity.
    + rewrite app_nil_r. exact A1.
    + intros b [].
    + rewrite A6. apply (g_awake _ _ _ _ _ G).
    + rewrite A6. intros Ha. destruct (g_awake' _ _ _ _ _ G Ha) as [H|(b & Hb & H)]; [auto|]. right. exists b. split; [|exact H]. rewrite in_app_iff, N1, N2 in Hb. destruct d1, d2; cbn in Hb; intuition.
    + intros b y Hy _. cbn. rewrite HB6. exact Hy.
    + split; [exact EPX|]. split; [|cbn; auto].
      exists px, s, st, (con_px false (con_st st (con_px true x))). auto.
Qed.

(** ** init: a rule for the growth of an island *)
Definition base (il : island) (w : world) : Prop := SInv w /\ IInv il w.
Section Grow.
Variable Y : nat -> island -> world -> Prop.
Variable X : nat -> id -> list id -> island -> world -> Prop.
Hypothesis X_start : forall cur r il w, base il w -> Y cur il w -> nth_error (is_bodies il) cur = Some r -> fixedb w r = false -> X cur r [] il w.
Hypothesis X_step : forall cur r d c contact il w il' w' x v new, base il w -> X cur r d il w -> w_ch w c = Some x -> In r (con_bodies x) ->
  In c (if contact : bool then map e_con (w_cts w) else w_cons w) -> added contact il il' w w' c x v new -> X cur r (d ++ [c]) il' w'.
Hypothesis X_end : forall cur r y il w, base il w -> w_bh w r = Some y -> X cur r (wb_cs y ++ wb_cts y) il w -> Y (S cur) il w.
Hypothesis Y_fixed : forall cur r il w, base il w -> Y cur il w -> nth_error (is_bodies il) cur = Some r -> fixedb w r = true -> Y (S cur) il w.

Lemma same_body w w' b y : same w w' -> w_bh w b = Some y -> exists y', w_bh w' b = Some y' /\ body_same y y'.
Proof. intros S. apply (hrel_some _ _ _ _ _ (sa_b _ _ S)). Qed.
Lemma same_con w w' c x : same w w' -> w_ch w c = Some x -> exists x', w_ch w' c = Some x' /\ con_same x x'.
Proof. intros S. apply (hrel_some _ _ _ _ _ (sa_c _ _ S)). Qed.
Lemma fold_add contact cur r l : forall d0 il w, base il w -> X cur r d0 il w -> (forall c, In c l -> In c (if contact : bool then map e_con (w_cts w) else w_cons w) /\ exists x, w_ch w c = Some x /\ In r (con_bodies x)) ->
  wp (foldm (add_con contact) il l) (fun il' w' => base il' w' /\ X cur r (d0 ++ l) il' w' /\ same w w' /\ exists new, is_bodies il' = is_bodies il ++ new) w.
Proof.
  induction l as [|c l IH]; intros d0 il w B HX HL; cbn [foldm].
  - apply wp_ret. rewrite app_nil_r. split; [exact B|]. split; [exact HX|]. split; [apply same_refl|]. exists []. rewrite app_nil_r. reflexivity.
  - destruct (HL c (or_introl eq_refl)) as (Hm & x & E & Hr). apply wp_bind. eapply wp_mono; [apply (add_con_spec contact il c w x (proj1 B) (proj2 B) E)|].
    intros il1 w1 _ (v & new & A). assert (B1 : base il1 w1) by (split; [apply (a_sinv _ _ _ _ _ _ _ _ _ A)|apply (a_inv _ _ _ _ _ _ _ _ _ A)]).
    pose proof (a_same _ _ _ _ _ _ _ _ _ A) as S1.
    eapply wp_mono; [apply (IH (d0 ++ [c]) il1 w1 B1)|].
    + exact (X_step _ _ _ _ _ _ _ _ _ _ _ _ B HX E Hr Hm A).
    + intros c' Hc'. destruct (HL c' (or_intror Hc')) as (Hm' & x' & E' & Hr'). destruct (same_con _ _ _ _ S1 E') as (x2 & E2 & Cs). rewrite (sa_cts _ _ S1), (sa_cons _ _ S1). split; [exact Hm'|]. exists x2. rewrite (con_same_bodies _ _ Cs). auto.
    + intros il2 w2 _ (B2 & HX2 & S2 & new2 & Hn2). rewrite <- app_assoc in HX2. split; [exact B2|]. split; [exact HX2|]. split; [eapply same_trans; eassumption|].
      exists (new ++ new2). rewrite Hn2, (a_bodies _ _ _ _ _ _ _ _ _ A), app_assoc. reflexivity.
Qed.
Lemma members_le il w : base il w -> length (is_bodies il) <= length (w_bodies w).
Proof.
  intros [S I]. apply NoDup_incl_length; [apply (ii_nd _ _ I)|]. intros b Hb. apply (i_bodies _ S). apply (ii_live _ _ I b Hb).
Qed.
Lemma grow_wp : forall fuel cur il w, base il w -> Y cur il w -> cur <= length (is_bodies il) -> length (w_bodies w) <= fuel + cur ->
  wp (grow fuel cur il) (fun il' w' => base il' w' /\ Y (length (is_bodies il')) il' w' /\ same w w') w.
Proof.
  induction fuel as [|fuel IH]; intros cur il w B HY HC HF; cbn [grow]; destruct (nth_error (is_bodies il) cur) as [r|] eqn:En.
  - exfalso. assert (cur < length (is_bodies il)) by (apply nth_error_Some; congruence). pose proof (members_le _ _ B). lia.
  - apply nth_error_None in En. apply wp_ret. replace (length (is_bodies il)) with cur by lia. split; [exact B|]. split; [exact HY|apply same_refl].
  - assert (Hlt : cur < length (is_bodies il)) by (apply nth_error_Some; congruence). pose proof (nth_error_In _ _ En) as Hr.
    destruct (ii_live _ _ (proj2 B) r Hr) as [y Ey]. apply wp_bind. unfold wp at 1. rewrite (acts_eq w r y (proj1 B) Ey).
    apply wp_bind. destruct (fixedb w r) eqn:EF.
    + apply wp_ret. apply IH; [exact B|eapply Y_fixed; eassumption|lia|lia].
    + apply wp_bind, (wp_deref w_bh r y); [exact Ey|]. apply wp_bind.
      eapply wp_mono; [apply (fold_add false cur r (wb_cs y) [] il w B)|].
      * eapply X_start; eassumption.
      * intros c Hc. apply (i_cs _ (proj1 B) r y Ey) in Hc. exact Hc.
      * intros il1 w1 _ (B1 & X1 & S1 & new1 & Hn1). cbn [app] in X1.
        eapply wp_mono; [apply (fold_add true cur r (wb_cts y) _ il1 w1 B1 X1)|].
        { intros c Hc. apply (i_cts _ (proj1 B) r y Ey) in Hc. destruct Hc as [Hm (x & E & Hb)]. destruct (same_con _ _ _ _ S1 E) as (x2 & E2 & Cs). rewrite (sa_cts _ _ S1). split; [exact Hm|]. exists x2. rewrite (con_same_bodies _ _ Cs). auto. }
        { intros il2 w2 _ (B2 & X2 & S2 & new2 & Hn2). assert (S12 : same w w2) by (eapply same_trans; eassumption).
          destruct (same_body _ _ _ _ S12 Ey) as (y2 & Ey2 & Bs).
          eapply wp_mono; [apply (IH (S cur) il2 w2 B2)|].
          - eapply X_end; [exact B2|exact Ey2|]. rewrite (bs_cs _ _ Bs), (bs_cts _ _ Bs). exact X2.
          - rewrite Hn2, Hn1, !app_length. lia.
          - rewrite (sa_bodies _ _ S12). lia.
          - intros il3 w3 _ (B3 & Y3 & S3). split; [exact B3|]. split; [exact Y3|]. eapply same_trans; eassumption. }
  - apply nth_error_None in En. apply wp_ret. replace (length (is_bodies il)) with cur by lia. split; [exact B|]. split; [exact HY|apply same_refl].
Qed.
End Grow.

(** ** Solving *)
Definition quiet_ids (w : world) : Prop := (forall b y, w_bh w b = Some y -> wb_proxy y = None) /\ (forall c x, w_ch w c = Some x -> c_px x = false).
Lemma IInv_empty aw w : quiet_ids w -> IInv (Isl [] [] [] [] [] aw) w.
Proof.
  intros [H1 H2]. constructor; cbn; auto using NoDup_nil.
  - intros b [].
  - intros b y E. rewrite (H1 b y E). intros [].
  - intros c [].
  - intros c x E. rewrite (H2 c x E). split; [discriminate|intros []].
Qed.
(** the shape of the island and the bodies stay the same *)
Record solving (il il' : island) (w w' : world) : Prop := {
  so_inv : IInv il' w'; so_sinv : SInv w'; so_b : is_bodies il' = is_bodies il; so_c : is_cons il' = is_cons il; so_t : is_cts il' = is_cts il;
  so_aw : is_awake il' = is_awake il; so_bh : w_bh w' = w_bh w; so_log : w_log w' = w_log w; so_same : same w w' }.
Lemma solving_refl il w : base il w -> solving il il w w.
Proof. intros [S I]. constructor; auto using same_refl. Qed.
Lemma solving_trans a b c w1 w2 w3 : solving a b w1 w2 -> solving b c w2 w3 -> solving a c w1 w3.
Proof. intros [] []. constructor; auto; try congruence. eapply same_trans; eassumption. Qed.
Lemma solving_base il il' w w' : solving il il' w w' -> base il' w'. Proof. intros []. split; auto. Qed.
Lemma solving_all il il' w w' : solving il il' w w' -> all_of il' = all_of il. Proof. intros []. unfold all_of. congruence. Qed.

Lemma get_proxies_spec il c w : base il w -> In c (all_of il) ->
  exists px x, get_proxies c w = Ok px w /\ w_ch w c = Some x /\ c_px x = true /\ px_i0 px < length (is_bodies il) /\ px_i1 px < length (is_bodies il) /\
    nth_error (is_bodies il) (px_i0 px) = Some (c_b0 x) /\ nth_error (is_bodies il) (px_i1 px) = Some (c_b1 x) /\
    px = Prox (px_i0 px) (px_i1 px) (c_m0 x) (c_I0 x) (c_m1 x) (c_I1 x).
Proof.
  intros [S I] Hc. destruct (ii_clive _ _ I c Hc) as (x & E & H0 & H1). pose proof (proj2 (ii_cpx _ _ I c x E) Hc) as HP.
  destruct (ii_live _ _ I _ H0) as [y0 E0]. destruct (ii_live _ _ I _ H1) as [y1 E1].
  destruct (IInv_proxy _ _ _ _ I E0 H0) as (n0 & P0 & Q0). destruct (IInv_proxy _ _ _ _ I E1 H1) as (n1 & P1 & Q1).
  exists (Prox n0 n1 (c_m0 x) (c_I0 x) (c_m1 x) (c_I1 x)), x. split.
  - unfold get_proxies, bind, con_at, body_at, deref. rewrite E, HP, E0, E1, P0, P1. reflexivity.
  - split; [exact E|]. split; [exact HP|]. cbn. repeat split; auto; apply nth_error_Some; congruence.
Qed.
Lemma solving_put il il' w c x st : base il w -> w_ch w c = Some x ->
  is_bodies il' = is_bodies il -> is_cons il' = is_cons il -> is_cts il' = is_cts il -> is_awake il' = is_awake il ->
  length (is_pos il') = length (is_pos il) -> length (is_vel il') = length (is_vel il) ->
  solving il il' w (set_ch w (put (w_ch w) c (con_st st x))).
Proof.
  intros [S I] E Eb Ec Et Ea Lp Lv. assert (Sm : same w (set_ch w (put (w_ch w) c (con_st st x)))) by (eapply same_put_con; [exact E|apply con_same_st]).
  constructor; auto.
  - apply (IInv_ext il il' w); auto.
    + unfold all_of. congruence.
    + intros d. cbn. unfold put. destruct (Nat.eqb_spec d c) as [->|n]; [rewrite E|]; reflexivity.
  - eapply SInv_same; eassumption.
Qed.
Lemma upd_nth_length {A} i (a : A) l : length (upd_nth i a l) = length l.
Proof.
  unfold upd_nth. rewrite app_length, firstn_length. pose proof (skipn_length i l) as H. destruct (skipn i l); cbn [length] in *; lia.
Qed.
Lemma call_init_spec il c w : base il w -> In c (all_of il) -> wp (call_init il c) (fun _ w' => solving il il w w') w.
Proof.
  intros B Hc. destruct (get_proxies_spec il c w B Hc) as (px & x & EP & E & _ & H0 & H1 & _). unfold call_init.
  apply wp_bind. unfold wp at 1. rewrite EP. apply wp_bind, (wp_deref w_ch c x); [exact E|]. destruct (view_ok il w px (proj2 B) H0 H1) as [s Es].
  apply wp_bind, wp_lift; [rewrite Es; exact I|]. intros s' _. apply wp_bind, wp_lift; [apply (t_init T)|]. intros st _. apply solving_put; auto.
Qed.
Lemma call_spec f il c w : (forall st px s, calm (f st px s)) -> base il w -> In c (all_of il) -> wp (call f il c) (fun il' w' => solving il il' w w') w.
Proof.
  intros HF B Hc. destruct (get_proxies_spec il c w B Hc) as (px & x & EP & E & _ & H0 & H1 & _). unfold call.
  apply wp_bind. unfold wp at 1. rewrite EP. apply wp_bind, (wp_deref w_ch c x); [exact E|]. destruct (view_ok il w px (proj2 B) H0 H1) as [s Es].
  apply wp_bind, wp_lift; [rewrite Es; exact I|]. intros s' _. apply wp_bind, wp_lift; [apply HF|]. intros [st s2] _. apply wp_bind. unfold put_con, modify. unfold wp at 1.
  apply wp_ret. cbn [fst snd]. apply solving_put; auto; cbn; rewrite !upd_nth_length; reflexivity.
Qed.
(** an invariant of the solver *)
Definition kept_by (Z : island -> world -> Prop) (f : CS -> proxies -> store -> outcome (CS * store)) : Prop :=
  forall il w c il' w', base il w -> In c (all_of il) -> Z il w -> call f il c w = Ok il' w' -> Z il' w'.
Section Solver.
Variable Z : island -> world -> Prop.
Lemma fold_call_spec f il0 l : (forall st px s, calm (f st px s)) -> kept_by Z f -> forall il w w0, solving il0 il w0 w -> Z il w -> incl l (all_of il0) ->
  wp (foldm (call f) il l) (fun il' w' => solving il0 il' w0 w' /\ Z il' w') w.
Proof.
  intros HF HZ. induction l as [|c l IH]; intros il w w0 B BZ HL; cbn [foldm]; [apply wp_ret; auto|]. apply wp_bind.
  assert (Hc : In c (all_of il)) by (rewrite (solving_all _ _ _ _ B); apply HL; left; reflexivity).
  eapply wp_mono; [apply (call_spec f il c w HF (solving_base _ _ _ _ B) Hc)|].
  intros il1 w1 Eq B1. apply IH; [eapply solving_trans; eassumption| |].
  - eapply HZ; [eapply solving_base, B|exact Hc|exact BZ|exact Eq].
  - intros d Hd. apply HL. right. exact Hd.
Qed.
Hypothesis Z_init : forall il w c u w', base il w -> In c (all_of il) -> Z il w -> call_init il c w = Ok u w' -> Z il w'.
Lemma iter_init_spec il l : forall w w0, solving il il w0 w -> Z il w -> incl l (all_of il) -> wp (iter (call_init il) l) (fun _ w' => solving il il w0 w' /\ Z il w') w.
Proof.
  induction l as [|c l IH]; intros w w0 B BZ HL; cbn [iter]; [apply wp_ret; auto|]. apply wp_bind.
  assert (Hc : In c (all_of il)) by (apply HL; left; reflexivity).
  eapply wp_mono; [apply (call_init_spec il c w (solving_base _ _ _ _ B) Hc)|].
  intros u w1 Eq B1. apply IH; [eapply solving_trans; eassumption| |].
  - eapply Z_init; [eapply solving_base, B|exact Hc|exact BZ|exact Eq].
  - intros d Hd. apply HL. right. exact Hd.
Qed.
Lemma repeat_call_spec f n il0 : (forall st px s, calm (f st px s)) -> kept_by Z f -> forall il w w0, solving il0 il w0 w -> Z il w ->
  wp (repeatm n (fun il => foldm (call f) il (all_of il)) il) (fun il' w' => solving il0 il' w0 w' /\ Z il' w') w.
Proof.
  intros HF HZ. induction n as [|n IH]; intros il w w0 B BZ; cbn [repeatm]; [apply wp_ret; auto|]. apply wp_bind.
  eapply wp_mono; [apply (fold_call_spec f il0 (all_of il) HF HZ il w w0 B BZ)|].
  - rewrite (solving_all _ _ _ _ B). apply incl_refl.
  - intros il1 w1 _ [B1 Z1]. apply IH; assumption.
Qed.
Lemma solve_velocities_spec s dt il w : kept_by Z (fun c px st => bh_warm c px st dt) -> kept_by Z (fun c px st => bh_vel c px st dt) -> base il w -> Z il w ->
  wp (solve_velocities s dt il) (fun il' w' => solving il il' w w' /\ Z il' w') w.
Proof.
  intros Zw Zv B BZ. unfold solve_velocities. apply wp_bind. eapply wp_mono; [apply (iter_init_spec il (all_of il) w w (solving_refl il w B) BZ (incl_refl _))|].
  intros ? w1 _ [B1 Z1]. apply wp_bind. apply wp_mono with (fun il' w' => solving il il' w w' /\ Z il' w').
  - destruct (s_warm s); [|apply wp_ret; auto]. apply fold_call_spec; [intros; apply (t_warm T)|exact Zw|exact B1|exact Z1|apply incl_refl].
  - intros il1 w2 _ [B2 Z2]. apply repeat_call_spec; [intros; apply (t_vel T)|exact Zv|exact B2|exact Z2].
Qed.
Lemma solve_positions_spec s il w : kept_by Z bh_pos -> base il w -> Z il w -> wp (solve_positions s il) (fun il' w' => solving il il' w w' /\ Z il' w') w.
Proof. intros Zp B BZ. apply repeat_call_spec; [intros; apply (t_pos T)|exact Zp|apply solving_refl, B|exact BZ]. Qed.
End Solver.
Lemma integrate_spec dt il w : base il w -> solving il (integrate dt il) w w.
Proof.
  intros [S I]. constructor; auto using same_refl. apply (IInv_ext il (integrate dt il) w w); auto. cbn. rewrite map_length, combine_length, (ii_pos _ _ I), (ii_vel _ _ I). lia.
Qed.
Lemma refresh_body_spec il i w : base il w -> In i (is_bodies il) -> wp (refresh_body il i) (fun il' w' => w' = w /\ solving il il' w w) w.
Proof.
  intros B Hi. pose proof (proj2 B) as I. destruct (ii_live _ _ I i Hi) as [y E]. destruct (IInv_proxy _ _ _ _ I E Hi) as (n & P & Q).
  assert (Hn : n < length (is_bodies il)) by (apply nth_error_Some; congruence).
  unfold refresh_body. apply wp_bind, (wp_deref w_bh i y); [exact E|]. apply wp_bind. unfold proxy_of. apply wp_bind, (wp_deref w_bh i y); [exact E|]. rewrite P. apply wp_ret.
  rewrite (ii_pos _ _ I), (ii_vel _ _ I). rewrite (proj2 (Nat.ltb_lt _ _) Hn). cbn [andb]. apply wp_ret. split; [reflexivity|]. constructor; auto using same_refl; [|apply (proj1 B)].
  apply (IInv_ext il _ w w); auto; cbn; rewrite upd_nth_length; reflexivity.
Qed.
Lemma start_again il c w : base il w -> In c (all_of il) -> wp (start_solve c) (fun _ w' => solving il il w w') w.
Proof.
  intros B Hc. pose proof (proj2 B) as I. destruct (ii_clive _ _ I c Hc) as (x & E & H0 & H1). pose proof (proj2 (ii_cpx _ _ I c x E) Hc) as HP.
  destruct (ii_live _ _ I _ H0) as [y0 E0]. destruct (ii_live _ _ I _ H1) as [y1 E1].
  destruct (IInv_proxy _ _ _ _ I E0 H0) as (n0 & P0 & Q0). destruct (IInv_proxy _ _ _ _ I E1 H1) as (n1 & P1 & Q1).
  unfold wp, start_solve, bind, con_at, body_at, deref. rewrite E, E0, E1, P0, P1. cbn.
  assert (HX : con_px true x = x) by (destruct x; cbn in *; subst; reflexivity). rewrite HX.
  assert (Sm : same w (set_ch w (put (w_ch w) c x))) by (eapply same_put_con; [exact E|apply con_same_refl]).
  constructor; auto.
  - apply (IInv_ext il il w); auto. intros d. cbn. unfold put. destruct (Nat.eqb_spec d c) as [->|n]; [rewrite E|]; reflexivity.
  - eapply SInv_same; [apply (proj1 B)|exact Sm].
Qed.
Lemma refresh_spec il w : base il w -> wp (refresh il) (fun il' w' => solving il il' w w') w.
Proof.
  intros B. unfold refresh. apply wp_bind. apply wp_mono with (fun il' w' => w' = w /\ solving il il' w w).
  - assert (G : forall l il1, incl l (is_bodies il) -> solving il il1 w w -> wp (foldm refresh_body il1 l) (fun il' w' => w' = w /\ solving il il' w w) w).
    { induction l as [|i l IH]; intros il1 HL B1; cbn [foldm]; [apply wp_ret; auto|]. apply wp_bind. eapply wp_mono; [apply (refresh_body_spec il1 i w (solving_base _ _ _ _ B1))|].
      - rewrite (so_b _ _ _ _ B1). apply HL. left. reflexivity.
      - intros il2 w2 _ [-> B2]. apply IH; [intros d Hd; apply HL; right; exact Hd|]. eapply solving_trans; eassumption. }
    apply G; [apply incl_refl|apply solving_refl, B].
  - intros il1 w1 _ [-> B1]. apply wp_bind. apply wp_mono with (fun _ w' => solving il1 il1 w w').
    + assert (G : forall l w1, incl l (all_of il) -> solving il1 il1 w w1 -> wp (iter (fun c => _ <- start_solve c ;; ret tt) l) (fun _ w' => solving il1 il1 w w') w1).
      { induction l as [|c l IH]; intros w1 HL B2; cbn [iter]; [apply wp_ret; auto|]. apply wp_bind, wp_bind. eapply wp_mono; [apply (start_again il1 c w1 (solving_base _ _ _ _ B2))|].
        - rewrite (solving_all _ _ _ _ B1). apply HL. left. reflexivity.
        - intros px w2 _ B3. apply wp_ret. apply IH; [intros d Hd; apply HL; right; exact Hd|]. eapply solving_trans; eassumption. }
      apply G; [apply incl_refl|apply solving_refl, (solving_base _ _ _ _ B1)].
    + intros ? w2 _ B2. apply wp_ret. eapply solving_trans; eassumption.
Qed.
(** waking the island *)
Definition woken (il : island) (w w' : world) : Prop :=
  w_ch w' = w_ch w /\ w_log w' = w_log w /\
  forall b, w_bh w' b = if is_awake il && existsb (Nat.eqb b) (is_bodies il) then option_map (fun y => with_wb y (set_asleep false (wb y))) (w_bh w b) else w_bh w b.
Lemma wake_twice y : with_wb (with_wb y (set_asleep false (wb y))) (set_asleep false (wb (with_wb y (set_asleep false (wb y))))) = with_wb y (set_asleep false (wb y)).
Proof. reflexivity. Qed.
Lemma iter_wake_spec l : forall w, (forall b, In b l -> exists y, w_bh w b = Some y) ->
  wp (iter wake l) (fun _ w' => w_ch w' = w_ch w /\ w_log w' = w_log w /\
    forall b, w_bh w' b = if existsb (Nat.eqb b) l then option_map (fun y => with_wb y (set_asleep false (wb y))) (w_bh w b) else w_bh w b) w.
Proof.
  induction l as [|i l IH]; intros w HL; cbn [iter]; [apply wp_ret; auto|]. destruct (HL i (or_introl eq_refl)) as [y E].
  apply wp_bind. unfold wake, mod_body. apply wp_bind, (wp_deref w_bh i y); [exact E|]. unfold put_body, modify. unfold wp at 1.
  set (w1 := set_bh w _). eapply wp_mono; [apply (IH w1)|].
  - intros b Hb. cbn. unfold put. destruct (Nat.eqb b i); [eauto|]. apply HL. right. exact Hb.
  - intros ? w2 _ (A1 & A2 & A3). split; [exact A1|]. split; [exact A2|]. intros b. rewrite A3. cbn [existsb w1 set_bh w_bh]. unfold put.
    destruct (Nat.eqb_spec b i) as [->|n]; [|reflexivity]. rewrite E. cbn. destruct (existsb (Nat.eqb i) l); reflexivity.
Qed.
Lemma wake_island_spec il w : base il w -> wp (if is_awake il then iter wake (is_bodies il) else ret tt) (fun _ w' => base il w' /\ woken il w w' /\ same w w') w.
Proof.
  intros [S I]. unfold woken. destruct (is_awake il); [|apply wp_ret; split; [split; assumption|split; [cbn; auto|apply same_refl]]].
  assert (FR : frame same (iter wake (is_bodies il))) by (apply fr_iter; [exact same_refl|exact same_trans|apply fs_wake]).
  eapply wp_mono; [apply (iter_wake_spec (is_bodies il) w (ii_live _ _ I))|]. intros u w' Ew (A1 & A2 & A3). specialize (FR w). rewrite Ew in FR.
  split; [|split; [cbn [andb]; auto|exact FR]]. split; [eapply SInv_same; eassumption|]. apply (IInv_ext il il w w'); auto.
  - intros b. rewrite A3. destruct (existsb _ _); [|reflexivity]. destruct (w_bh w b); reflexivity.
  - intros c. rewrite A1. reflexivity.
Qed.
(** endSolve *)
Definition finished (y : wbody) (p : position) (v : velocity) : wbody :=
  with_proxy (with_wb y (b_update (set_motion (wb y) p (v_lin v) (v_ang v) (b_asleep (wb y))))) None.
Record done_with (il : island) (w w' : world) : Prop := {
  d_quiet : quiet_ids w'; d_sinv : SInv w'; d_same : same w w'; d_log : w_log w' = w_log w;
  d_out : forall b, ~ In b (is_bodies il) -> w_bh w' b = w_bh w b;
  d_in : forall n b y, nth_error (is_bodies il) n = Some b -> w_bh w b = Some y ->
    exists p v, nth_error (is_pos il) n = Some p /\ nth_error (is_vel il) n = Some v /\ w_bh w' b = Some (finished y p v);
  d_st : forall c, option_map c_st (w_ch w' c) = option_map c_st (w_ch w c) }.
Lemma finish_spec il w : base il w -> wp (finish il) (fun _ w' => done_with il w w') w.
Proof.
  intros [S I]. assert (FR := fs_finish il). apply wp_mono with (fun _ w' => same w w' -> done_with il w w').
  2:{ intros u w' Ew H. specialize (FR w). rewrite Ew in FR. exact (H FR). }
  unfold finish. apply wp_bind.
  set (J := fun (d r : list id) (w1 : world) => w_ch w1 = w_ch w /\ w_log w1 = w_log w /\ (forall b, ~ In b d -> w_bh w1 b = w_bh w b) /\
     (forall n b y, In b d -> nth_error (is_bodies il) n = Some b -> w_bh w b = Some y ->
        exists p v, nth_error (is_pos il) n = Some p /\ nth_error (is_vel il) n = Some v /\ w_bh w1 b = Some (finished y p v)) /\ d ++ r = is_bodies il).
  eapply wp_mono; [apply (wp_iter (finish_body il) J) with (d := [])|].
  - intros d i r w1 (A1 & A2 & A3 & A4 & A5).
    assert (Hi : In i (is_bodies il)) by (rewrite <- A5; apply in_or_app; right; left; reflexivity).
    assert (Hd : ~ In i d).
    { intros Hd. pose proof (ii_nd _ _ I) as ND. rewrite <- A5 in ND. apply nodup_app in ND. destruct ND as (_ & _ & ND). apply (ND i Hd). left. reflexivity. }
    destruct (ii_live _ _ I i Hi) as [y E]. destruct (IInv_proxy _ _ _ _ I E Hi) as (n & P & Q).
    assert (Hn : n < length (is_bodies il)) by (apply nth_error_Some; congruence).
    destruct (nth_error (is_pos il) n) as [p|] eqn:EP; [|apply nth_error_None in EP; rewrite (ii_pos _ _ I) in EP; lia].
    destruct (nth_error (is_vel il) n) as [v|] eqn:EV; [|apply nth_error_None in EV; rewrite (ii_vel _ _ I) in EV; lia].
    assert (E1 : w_bh w1 i = Some y) by (rewrite A3 by exact Hd; exact E).
    unfold finish_body. apply wp_bind, (wp_deref w_bh i y); [exact E1|]. apply wp_bind. unfold proxy_of. apply wp_bind, (wp_deref w_bh i y); [exact E1|]. rewrite P. apply wp_ret.
    rewrite EP, EV. unfold wp, put_body, modify. split; [exact A1|]. split; [exact A2|]. split; [|split].
    + intros b Hb. rewrite in_snoc in Hb. cbn. rewrite put_ne by tauto. apply A3. tauto.
    + intros m b z Hb Hm Hz. apply in_snoc in Hb. destruct (Nat.eq_dec b i) as [->|nb].
      * assert (m = n).
        { apply (proj1 (NoDup_nth_error (is_bodies il)) (ii_nd _ _ I)); [apply nth_error_Some; congruence|congruence]. }
        subst m. exists p, v. split; [exact EP|]. split; [exact EV|]. cbn. rewrite put_eq. rewrite E in Hz. injection Hz as <-. reflexivity.
      * cbn. rewrite put_ne by exact nb. apply (A4 m b z); tauto.
    + rewrite <- app_assoc. exact A5.
  - split; [reflexivity|]. split; [reflexivity|]. split; [reflexivity|]. split; [intros n b y []|reflexivity].
  - intros u w1 _ (A1 & A2 & A3 & A4 & A5). rewrite app_nil_r in A5. cbn [app] in A3, A4.
    set (L := fun (d r : list id) (w2 : world) => w_bh w2 = w_bh w1 /\ w_log w2 = w_log w1 /\
      (forall c, w_ch w2 c = if existsb (Nat.eqb c) d then option_map (con_px false) (w_ch w c) else w_ch w c) /\ d ++ r = all_of il).
    eapply wp_mono; [apply (wp_iter end_solve L) with (d := [])|].
    + intros d c r w2 (B1 & B2 & B3 & B4).
      assert (Hc : In c (all_of il)) by (rewrite <- B4; apply in_or_app; right; left; reflexivity).
      destruct (ii_clive _ _ I c Hc) as (x & E & _ & _).
      assert (E2 : exists x2, w_ch w2 c = Some x2 /\ con_px false x2 = con_px false x).
      { rewrite B3, E. destruct (existsb _ _); cbn; eauto. }
      destruct E2 as (x2 & E2 & Ex). unfold end_solve, mod_con. apply wp_bind, (wp_deref w_ch c x2); [exact E2|]. unfold wp, put_con, modify.
      split; [exact B1|]. split; [exact B2|]. split; [|rewrite <- app_assoc; exact B4].
      intros b. cbn. unfold put. rewrite existsb_app. cbn [existsb]. rewrite orb_false_r. destruct (Nat.eqb_spec b c) as [->|n].
      * rewrite orb_true_r, E. cbn. congruence.
      * rewrite orb_false_r. apply B3.
    + split; [reflexivity|]. split; [reflexivity|]. split; [intros c; cbn; rewrite A1; reflexivity|reflexivity].
    + intros u2 w2 _ (B1 & B2 & B3 & B4) Hs. rewrite app_nil_r in B4. cbn [app] in B3.
      assert (HIN : forall n b y, nth_error (is_bodies il) n = Some b -> w_bh w b = Some y ->
        exists p v, nth_error (is_pos il) n = Some p /\ nth_error (is_vel il) n = Some v /\ w_bh w2 b = Some (finished y p v)).
      { intros n b y Hn Hy. rewrite B1. apply (A4 n b y); auto. eapply nth_error_In; eassumption. }
      constructor; auto.
      * split.
        { intros b y2 Hy2. destruct (in_dec Nat.eq_dec b (is_bodies il)) as [Hb|Hb].
          - destruct (ii_live _ _ I b Hb) as [y E]. destruct (In_nth_error _ _ Hb) as [n Hn]. destruct (HIN n b y Hn E) as (p & v & _ & _ & Hf). rewrite Hf in Hy2. injection Hy2 as <-. reflexivity.
          - rewrite B1, A3 in Hy2 by exact Hb. pose proof (ii_px _ _ I b y2 Hy2) as P. destruct (wb_proxy y2); [|reflexivity]. exfalso. apply Hb. eapply nth_error_In; eassumption. }
        { intros c x2 Hx2. rewrite B3 in Hx2. destruct (existsb (Nat.eqb c) (all_of il)) eqn:EX.
          - destruct (w_ch w c); [|discriminate]. injection Hx2 as <-. reflexivity.
          - apply existsb_notin in EX. destruct (c_px x2) eqn:EP; [|reflexivity]. exfalso. apply EX. apply (ii_cpx _ _ I c x2 Hx2). exact EP. }
      * eapply SInv_same; eassumption.
      * congruence.
      * intros b Hb. rewrite B1. apply A3. exact Hb.
      * intros c. rewrite B3. destruct (existsb _ _); [|reflexivity]. destruct (w_ch w c); reflexivity.
Qed.
End Island.
