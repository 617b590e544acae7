(** The invariant of the world model. *)
From Coq Require Import ZArith List Bool Lia Permutation.
From Verif Require Import Num Outcome Box Mat Geom Transform Body Constraint World WorldHoare.
Import ListNotations.

Section Inv.
Context {N : Num} {TR : Trig N} {BH : Behaviour N}.

(** the bodies' lists [sel] agree with the bodies of the constraints in [ids] *)
Definition links (bh : heap wbody) (ch : heap wcon) (ids : list id) (sel : wbody -> list id) : Prop :=
  forall b y, bh b = Some y -> NoDup (sel y) /\
    forall c, In c (sel y) <-> In c ids /\ exists x, ch c = Some x /\ In b (con_bodies x).
Definition ids_of (y : wbody) : list id := map c_id (b_colliders (wb y)).
Definition owned (kh : heap wcol) (k b : id) : Prop := exists x, kh k = Some x /\ k_body x = b.
Definition cols_ok (bh : heap wbody) (kh : heap wcol) (tree : list id) : Prop :=
  NoDup tree /\ (forall k, In k tree <-> exists x, kh k = Some x) /\
  (forall k x, kh k = Some x -> exists y, bh (k_body x) = Some y) /\
  (forall b y, bh b = Some y -> NoDup (ids_of y) /\ (forall k, In k (ids_of y) <-> owned kh k b) /\
     forall c, In c (b_colliders (wb y)) -> exists p, c_props c = Ret p) /\
  (forall k k' x x', kh k = Some x -> kh k' = Some x' -> k_addr x = k_addr x' -> k = k').
Definition swap (k : nat * nat) : nat * nat := (snd k, fst k).
Definition contact_ok (A : id -> nat) (ch : heap wcon) (kh : heap wcol) (e : entry) : Prop :=
  exists x k0 k1, ch (e_con e) = Some x /\ c_cols x = Some (k0, k1) /\ e_key e = (A k0, A k1) /\ c_b0 x <> c_b1 x /\
    (c_killed x = false -> owned kh k0 (c_b0 x) /\ owned kh k1 (c_b1 x)).
Definition contacts_ok (n : id) (ch : heap wcon) (kh : heap wcol) (es : list entry) : Prop :=
  (exists A : id -> nat, (forall k x, kh k = Some x -> k_addr x = A k) /\ forall e, In e es -> contact_ok A ch kh e) /\
  (forall e k0 k1 x, In e es -> ch (e_con e) = Some x -> c_cols x = Some (k0, k1) -> k0 < n /\ k1 < n) /\
  (forall e e', In e es -> In e' es -> e_key e' = e_key e \/ e_key e' = swap (e_key e) -> e' = e).

Record SInv (w : world) : Prop := {
  i_bodies : NoDup (w_bodies w) /\ forall i, In i (w_bodies w) <-> exists y, w_bh w i = Some y;
  i_cons : NoDup (w_cons w ++ map e_con (w_cts w)) /\ forall i, In i (w_cons w ++ map e_con (w_cts w)) <-> exists x, w_ch w i = Some x;
  i_forces : NoDup (w_forces w) /\ forall i, In i (w_forces w) <-> exists x, w_fh w i = Some x;
  i_ends : forall c x, w_ch w c = Some x -> forall b, In b (con_bodies x) -> exists y, w_bh w b = Some y;
  i_cs : links (w_bh w) (w_ch w) (w_cons w) wb_cs;
  i_cts : links (w_bh w) (w_ch w) (map e_con (w_cts w)) wb_cts;
  i_cols : cols_ok (w_bh w) (w_kh w) (w_tree w);
  i_contacts : contacts_ok (w_next w) (w_ch w) (w_kh w) (w_cts w);
  i_fresh : forall i, w_next w <= i -> w_bh w i = None /\ w_ch w i = None /\ w_fh w i = None /\ w_kh w i = None }.
(** outside a step no object takes part in a solve and no contact is marked *)
Definition idle (w : world) : Prop :=
  (forall b y, w_bh w b = Some y -> wb_proxy y = None) /\ (forall c x, w_ch w c = Some x -> c_px x = false) /\
  (forall e, In e (w_cts w) -> e_hit e = false).

(** ** Changes that keep the structure *)
Definition static (c : collider) := (c_id c, c_local c, c_density c).
Record body_same (y y' : wbody) : Prop := BS {
  bs_killed : wb_killed y = true -> wb_killed y' = true; bs_cs : wb_cs y' = wb_cs y; bs_cts : wb_cts y' = wb_cts y;
  bs_cols : map static (b_colliders (wb y')) = map static (b_colliders (wb y));
  bs_props : b_props (wb y') = b_props (wb y); bs_dom : b_dominance (wb y') = b_dominance (wb y) }.
Record con_same (x x' : wcon) : Prop := CS_ {
  cs_b0 : c_b0 x' = c_b0 x; cs_b1 : c_b1 x' = c_b1 x; cs_m0 : c_m0 x' = c_m0 x; cs_I0 : c_I0 x' = c_I0 x; cs_m1 : c_m1 x' = c_m1 x; cs_I1 : c_I1 x' = c_I1 x;
  cs_dis : c_dis x' = c_dis x; cs_killed : c_killed x = true -> c_killed x' = true; cs_cols : c_cols x' = c_cols x }.
Definition hrel {A} (R : A -> A -> Prop) (h h' : heap A) : Prop :=
  forall i, match h i, h' i with Some a, Some b => R a b | None, None => True | _, _ => False end.
Record same (w w' : world) : Prop := Same {
  sa_b : hrel body_same (w_bh w) (w_bh w'); sa_c : hrel con_same (w_ch w) (w_ch w');
  sa_f : hrel (fun f f' => f_region f' = f_region f /\ f_apply f' = f_apply f /\ (f_killed f = true -> f_killed f' = true)) (w_fh w) (w_fh w');
  sa_k : forall i, w_kh w' i = w_kh w i;
  sa_bodies : w_bodies w' = w_bodies w; sa_cons : w_cons w' = w_cons w; sa_cts : w_cts w' = w_cts w;
  sa_forces : w_forces w' = w_forces w; sa_tree : w_tree w' = w_tree w; sa_set : w_set w' = w_set w; sa_next : w_next w' = w_next w }.
Lemma hrel_refl {A} (R : A -> A -> Prop) h : (forall a, R a a) -> hrel R h h.
Proof. intros H i. destruct (h i); auto. Qed.
Lemma hrel_trans {A} (R : A -> A -> Prop) h1 h2 h3 : (forall a b c, R a b -> R b c -> R a c) -> hrel R h1 h2 -> hrel R h2 h3 -> hrel R h1 h3.
Proof. intros H A1 A2 i. specialize (A1 i). specialize (A2 i). destruct (h1 i), (h2 i), (h3 i); try contradiction; eauto. Qed.
Lemma hrel_some {A} (R : A -> A -> Prop) h h' i a : hrel R h h' -> h i = Some a -> exists b, h' i = Some b /\ R a b.
Proof. intros H E. specialize (H i). rewrite E in H. destruct (h' i); [eauto|contradiction]. Qed.
Lemma hrel_some' {A} (R : A -> A -> Prop) h h' i b : hrel R h h' -> h' i = Some b -> exists a, h i = Some a /\ R a b.
Proof. intros H E. specialize (H i). rewrite E in H. destruct (h i); [eauto|contradiction]. Qed.
Lemma hrel_none {A} (R : A -> A -> Prop) h h' i : hrel R h h' -> h i = None <-> h' i = None.
Proof. intros H. specialize (H i). destruct (h i), (h' i); split; intros; try contradiction; auto; discriminate. Qed.
Lemma hrel_live {A} (R : A -> A -> Prop) h h' i : hrel R h h' -> (exists a, h i = Some a) <-> (exists a, h' i = Some a).
Proof. intros H. specialize (H i). destruct (h i), (h' i); split; intros [? ?]; try contradiction; eauto; discriminate. Qed.
Lemma hrel_put {A} (R : A -> A -> Prop) h i a b : (forall a, R a a) -> h i = Some a -> R a b -> hrel R h (put h i b).
Proof.
  intros HR E H j. unfold put. destruct (Nat.eqb_spec j i) as [->|n]; [rewrite E; exact H|destruct (h j); auto].
Qed.
Lemma body_same_refl y : body_same y y. Proof. constructor; auto. Qed.
Lemma body_same_trans a b c : body_same a b -> body_same b c -> body_same a c.
Proof. intros [] []. constructor; try congruence; auto. Qed.
Lemma con_same_refl y : con_same y y. Proof. constructor; auto. Qed.
Lemma con_same_trans a b c : con_same a b -> con_same b c -> con_same a c.
Proof. intros [] []. constructor; try congruence; auto. Qed.
Lemma same_refl w : same w w.
Proof. constructor; try reflexivity; apply hrel_refl; auto using body_same_refl, con_same_refl. Qed.
Lemma same_trans a b c : same a b -> same b c -> same a c.
Proof.
  intros [] []. constructor; try congruence; try (eapply hrel_trans; [|eassumption|eassumption]); eauto using body_same_trans, con_same_trans.
  - intros x y z (A1 & A2 & A3) (B1 & B2 & B3). repeat split; try congruence; auto.
Qed.
Lemma con_same_bodies x x' : con_same x x' -> con_bodies x' = con_bodies x.
Proof. intros H. unfold con_bodies. rewrite (cs_b0 _ _ H), (cs_b1 _ _ H). reflexivity. Qed.
Lemma static_ids l l' : map static l' = map static l -> map c_id l' = map c_id l.
Proof. intros H. assert (E : map (fun s => fst (fst s)) (map static l') = map (fun s => fst (fst s)) (map static l)) by congruence. rewrite !map_map in E. exact E. Qed.
Lemma static_props l l' : map static l' = map static l -> (forall c, In c l -> exists p, c_props c = Ret p) -> forall c, In c l' -> exists p, c_props c = Ret p.
Proof.
  intros H HP c Hc. apply (in_map static) in Hc. rewrite H in Hc. apply in_map_iff in Hc. destruct Hc as (c0 & E & Hc). destruct (HP c0 Hc) as [p Ep].
  exists p. unfold static in E. injection E as E1 E2 E3. unfold c_props in *. congruence.
Qed.
Lemma SInv_same w w' : SInv w -> same w w' -> SInv w'.
Proof.
  intros [B C F E L1 L2 K T Z] S. constructor.
  - rewrite (sa_bodies _ _ S). destruct B as [B1 B2]. split; [exact B1|]. intros i. rewrite B2. apply (hrel_live _ _ _ _ (sa_b _ _ S)).
  - rewrite (sa_cons _ _ S), (sa_cts _ _ S). destruct C as [C1 C2]. split; [exact C1|]. intros i. rewrite C2. apply (hrel_live _ _ _ _ (sa_c _ _ S)).
  - rewrite (sa_forces _ _ S). destruct F as [F1 F2]. split; [exact F1|]. intros i. rewrite F2. apply (hrel_live _ _ _ _ (sa_f _ _ S)).
  - intros c x' Hx b Hb. destruct (hrel_some' _ _ _ _ _ (sa_c _ _ S) Hx) as (x & Hx0 & Hs). rewrite (con_same_bodies _ _ Hs) in Hb.
    apply (hrel_live _ _ _ _ (sa_b _ _ S)). eauto.
  - rewrite (sa_cons _ _ S). intros b y' Hy. destruct (hrel_some' _ _ _ _ _ (sa_b _ _ S) Hy) as (y & Hy0 & Hs). destruct (L1 b y Hy0) as [A1 A2].
    rewrite (bs_cs _ _ Hs). split; [exact A1|]. intros c. rewrite A2. split; intros [X1 (x & X2 & X3)]; (split; [exact X1|]).
    + destruct (hrel_some _ _ _ _ _ (sa_c _ _ S) X2) as (x' & X2' & Hc). exists x'. rewrite (con_same_bodies _ _ Hc). auto.
    + destruct (hrel_some' _ _ _ _ _ (sa_c _ _ S) X2) as (x' & X2' & Hc). exists x'. rewrite <- (con_same_bodies _ _ Hc). auto.
  - rewrite (sa_cts _ _ S). intros b y' Hy. destruct (hrel_some' _ _ _ _ _ (sa_b _ _ S) Hy) as (y & Hy0 & Hs). destruct (L2 b y Hy0) as [A1 A2].
    rewrite (bs_cts _ _ Hs). split; [exact A1|]. intros c. rewrite A2. split; intros [X1 (x & X2 & X3)]; (split; [exact X1|]).
    + destruct (hrel_some _ _ _ _ _ (sa_c _ _ S) X2) as (x' & X2' & Hc). exists x'. rewrite (con_same_bodies _ _ Hc). auto.
    + destruct (hrel_some' _ _ _ _ _ (sa_c _ _ S) X2) as (x' & X2' & Hc). exists x'. rewrite <- (con_same_bodies _ _ Hc). auto.
  - destruct K as (K1 & K2 & K3 & K4 & K5). unfold cols_ok. rewrite (sa_tree _ _ S). split; [exact K1|]. split; [|split; [|split]].
    + intros k. rewrite K2, (sa_k _ _ S). reflexivity.
    + intros k x. rewrite (sa_k _ _ S). intros Hx. apply (hrel_live _ _ _ _ (sa_b _ _ S)). eauto.
    + intros b y' Hy. destruct (hrel_some' _ _ _ _ _ (sa_b _ _ S) Hy) as (y & Hy0 & Hs). destruct (K4 b y Hy0) as (A1 & A2 & A3).
      unfold ids_of in *. rewrite (static_ids _ _ (bs_cols _ _ Hs)). split; [exact A1|]. split.
      * intros k. rewrite A2. unfold owned. rewrite (sa_k _ _ S). reflexivity.
      * apply (static_props _ _ (bs_cols _ _ Hs) A3).
    + intros k k' x x'. rewrite !(sa_k _ _ S). apply K5.
  - destruct T as ((A & T1 & T2) & T3 & T4). unfold contacts_ok. rewrite (sa_cts _ _ S), (sa_next _ _ S). split; [|split].
    + exists A. split; [intros k x; rewrite (sa_k _ _ S); apply T1|]. intros e He. destruct (T2 e He) as (x & k0 & k1 & X1 & X2 & X3 & X4 & X5).
      destruct (hrel_some _ _ _ _ _ (sa_c _ _ S) X1) as (x' & X1' & Hc). exists x', k0, k1. rewrite (cs_cols _ _ Hc), (cs_b0 _ _ Hc), (cs_b1 _ _ Hc).
      split; [exact X1'|]. split; [exact X2|]. split; [exact X3|]. split; [exact X4|]. unfold owned. rewrite !(sa_k _ _ S). intros HK. apply X5.
      destruct (c_killed x) eqn:EK; [rewrite (cs_killed _ _ Hc EK) in HK; discriminate|reflexivity].
    + intros e k0 k1 x' He Hx. destruct (hrel_some' _ _ _ _ _ (sa_c _ _ S) Hx) as (x & X & Hc). rewrite (cs_cols _ _ Hc). eapply T3; eauto.
    + exact T4.
  - intros i. rewrite (sa_next _ _ S). intros Hi. destruct (Z i Hi) as (Z1 & Z2 & Z3 & Z4).
    rewrite (sa_k _ _ S), <- (hrel_none _ _ _ _ (sa_b _ _ S)), <- (hrel_none _ _ _ _ (sa_c _ _ S)), <- (hrel_none _ _ _ _ (sa_f _ _ S)). auto.
Qed.

(** ** Frames: whenever a computation ends, it has changed the state within [R] *)
Definition frame {A} (R : world -> world -> Prop) (m : M A) : Prop :=
  forall w, match m w with Ok _ w' => R w w' | Thrown w' => R w w' | _ => True end.
Section Frames.
Variable R : world -> world -> Prop.
Hypothesis Rr : forall w, R w w.
Hypothesis Rt : forall a b c, R a b -> R b c -> R a c.
Lemma fr_ret {A} (a : A) : frame R (ret a). Proof. intros w. apply Rr. Qed.
Lemma fr_throw {A} : frame R (@throw N BH A). Proof. intros w. apply Rr. Qed.
Lemma fr_bad {A} : frame R (@bad N BH A). Proof. intros w. exact I. Qed.
Lemma fr_get {A} (f : world -> A) : frame R (get f). Proof. intros w. apply Rr. Qed.
Lemma fr_lift {A} (o : outcome A) : frame R (lift o). Proof. intros w. unfold lift. destruct o; auto. Qed.
Lemma fr_deref {A} (h : world -> heap A) i : frame R (deref h i). Proof. intros w. unfold deref. destruct (h w i); auto. Qed.
Lemma fr_bind {A B} (m : M A) (f : A -> M B) : frame R m -> (forall a, frame R (f a)) -> frame R (bind m f).
Proof.
  intros H1 H2 w. unfold bind. specialize (H1 w). destruct (m w) as [a w1|w1| |]; auto. specialize (H2 a w1). destruct (f a w1); eauto.
Qed.
Lemma fr_if {A} (b : bool) (m m' : M A) : frame R m -> frame R m' -> frame R (if b then m else m').
Proof. destruct b; auto. Qed.
Lemma fr_iter {A} (f : A -> M unit) l : (forall x, frame R (f x)) -> frame R (iter f l).
Proof. intros H. induction l; cbn [iter]; [apply fr_ret|apply fr_bind; auto]. Qed.
Lemma fr_foldm {S A} (f : S -> A -> M S) l : (forall s x, frame R (f s x)) -> forall s, frame R (foldm f s l).
Proof. intros H. induction l; cbn [foldm]; intros; [apply fr_ret|apply fr_bind; auto]. Qed.
Lemma fr_filt {A} (f : A -> M bool) l : (forall x, frame R (f x)) -> frame R (filt f l).
Proof. intros H. induction l; cbn [filt]; [apply fr_ret|]. apply fr_bind; [auto|intros]. apply fr_bind; [auto|intros; apply fr_ret]. Qed.
Lemma fr_repeatm {A} (f : A -> M A) n : (forall a, frame R (f a)) -> forall a, frame R (repeatm n f a).
Proof. intros H. induction n; cbn [repeatm]; intros; [apply fr_ret|apply fr_bind; auto]. Qed.
Lemma fr_modify f : (forall w, R w (f w)) -> frame R (modify f). Proof. intros H w. apply H. Qed.
Lemma fr_mod_body i f : (forall w y, w_bh w i = Some y -> R w (set_bh w (put (w_bh w) i (f y)))) -> frame R (mod_body i f).
Proof. intros H w. unfold mod_body, body_at, bind, deref. destruct (w_bh w i) as [y|] eqn:E; [|exact I]. apply H, E. Qed.
Lemma fr_mod_con i f : (forall w y, w_ch w i = Some y -> R w (set_ch w (put (w_ch w) i (f y)))) -> frame R (mod_con i f).
Proof. intros H w. unfold mod_con, con_at, bind, deref. destruct (w_ch w i) as [y|] eqn:E; [|exact I]. apply H, E. Qed.
(** reading a body and writing a version of it *)
Lemma fr_with_body {A} i (m : wbody -> M A) : (forall y w, w_bh w i = Some y -> match m y w with Ok _ w' => R w w' | Thrown w' => R w w' | _ => True end) -> frame R (bind (body_at i) m).
Proof. intros H w. unfold body_at, bind, deref. destruct (w_bh w i) as [y|] eqn:E; [|exact I]. apply (H y w E). Qed.
End Frames.

Lemma same_put_body w i y y' : w_bh w i = Some y -> body_same y y' -> same w (set_bh w (put (w_bh w) i y')).
Proof. intros E H. destruct (same_refl w). constructor; auto. cbn. eapply hrel_put; eauto using body_same_refl. Qed.
Lemma same_put_con w i y y' : w_ch w i = Some y -> con_same y y' -> same w (set_ch w (put (w_ch w) i y')).
Proof. intros E H. destruct (same_refl w). constructor; auto. cbn. eapply hrel_put; eauto using con_same_refl. Qed.
Lemma same_log w l : same w (set_log w l).
Proof. destruct (same_refl w). constructor; auto. Qed.
Lemma body_same_wb y x : map static (b_colliders x) = map static (b_colliders (wb y)) -> b_props x = b_props (wb y) -> b_dominance x = b_dominance (wb y) -> body_same y (with_wb y x).
Proof. intros. constructor; auto. Qed.
Lemma static_update b : map static (b_colliders (b_update b)) = map static (b_colliders b).
Proof. unfold b_update, set_colliders. cbn [b_colliders]. rewrite map_map. apply map_ext. intros []. reflexivity. Qed.
End Inv.

Ltac framing := repeat lazymatch goal with
  | |- forall _, _ => intro
  | |- frame _ (bind _ _) => apply fr_bind; [exact same_trans| |]
  | |- frame _ (iter _ _) => apply fr_iter; [exact same_refl|exact same_trans|]
  | |- frame _ (foldm _ _ _) => apply fr_foldm; [exact same_refl|exact same_trans|]
  | |- frame _ (repeatm _ _ _) => apply fr_repeatm; [exact same_refl|exact same_trans|]
  | |- frame _ (filt _ _) => apply fr_filt; [exact same_refl|exact same_trans|]
  | |- frame _ (ret _) => apply fr_ret; exact same_refl
  | |- frame _ throw => apply fr_throw; exact same_refl
  | |- frame _ bad => apply fr_bad
  | |- frame _ (get _) => apply fr_get; exact same_refl
  | |- frame _ (lift _) => apply fr_lift; exact same_refl
  | |- frame _ (deref _ _) => apply fr_deref; exact same_refl
  | |- frame _ (body_at _) => apply fr_deref; exact same_refl
  | |- frame _ (con_at _) => apply fr_deref; exact same_refl
  | |- frame _ (col_at _) => apply fr_deref; exact same_refl
  | |- frame _ (force_at _) => apply fr_deref; exact same_refl
  | |- frame _ (if _ then _ else _) => apply fr_if
  end.
