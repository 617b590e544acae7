(** Histories of a world: every world made by the public operations is well formed,
    and every object is destroyed at most once, after its notification. *)
From Coq Require Import ZArith List Bool Lia Permutation.
From Verif Require Import Num Outcome Box Mat Geom Transform Body Constraint World WorldHoare WorldInv WorldFrame WorldIsland WorldSolve WorldSleep WorldOps WorldCols WorldClean WorldKill WorldStep WorldStrict.
Import ListNotations.

Section Hist.
Context {N : Num} {TR : Trig N} {BH : Behaviour N}.

(** ** Specification *)
Definition on_body (w : world) (i : id) : Prop := exists y, w_bh w i = Some y.
Definition on_con (w : world) (i : id) : Prop := exists x, w_ch w i = Some x.
Definition on_force (w : world) (i : id) : Prop := exists x, w_fh w i = Some x.
Definition live (w : world) (i : id) : Prop := on_body w i \/ on_con w i \/ on_force w i.
(** one public operation that returns; the arguments are objects of the world *)
Inductive op (w w' : world) : Prop :=
| op_body p r d i : make_body p r d w = Ok i w' -> op w w'
| op_con b0 b1 doms dis st i : on_body w b0 -> on_body w b1 -> make_con b0 b1 doms dis st w = Ok i w' -> op w w'
| op_force region f found i : (forall dt b c, calm (f dt b c)) -> make_force region f found w = Ok i w' -> op w w'
| op_add b l d hint k : on_body w b -> add_col b l d hint w = Ok k w' -> op w w'
| op_remove b k y : w_bh w b = Some y -> In k (ids_of y) -> remove_col b k w = Ok tt w' -> op w w'
| op_kill_body b : kill_body b w = Ok tt w' -> op w w'
| op_kill_con c : kill_con c w = Ok tt w' -> op w w'
| op_kill_force f : kill_force f w = Ok tt w' -> op w w'
| op_velocity b v a : set_velocity b v a w = Ok tt w' -> op w w'
| op_state c f : mod_con c (fun x => con_st (f (c_st x)) x) w = Ok tt w' -> op w w'
| op_settings s : update_settings s w = Ok tt w' -> op w w'
| op_step strict fuel o dt : shuffles o -> length (w_bodies w) <= fuel -> step strict fuel o dt w = Ok tt w' -> op w w'
| op_factory : w_cts w = [] -> set_factory w = Ok tt w' -> op w w'
| op_clear strict : clear strict w = Ok tt w' -> op w w'.
Inductive ops : world -> world -> Prop :=
| ops_nil w : ops w w
| ops_snoc w1 w2 w3 : ops w1 w2 -> op w2 w3 -> ops w1 w3.
Definition reachable (w : world) : Prop := exists s, ops (empty_world s) w.

Definition rels (l : list event) : list id := flat_map (fun e => match e with Released i => [i] | _ => [] end) l.
Definition nots (l : list event) : list id := flat_map (fun e => match e with Notified i => [i] | _ => [] end) l.
(** no notification follows the release *)
Definition ordered (l : list event) : Prop := forall i l1 l2, l = l1 ++ Released i :: l2 -> ~ In (Notified i) l2.

(** ** One operation *)
Definition good (w : world) : Prop := SInv w /\ idle w /\ gentle w.
Definition none_twice (w : world) : Prop := forall i, (on_body w i -> ~ on_con w i) /\ (on_body w i -> ~ on_force w i) /\ (on_con w i -> ~ on_force w i).
Record delta (w w' : world) : Prop := {
  dl_b : forall i, on_body w' i -> on_body w i \/ w_next w <= i; dl_c : forall i, on_con w' i -> on_con w i \/ w_next w <= i; dl_f : forall i, on_force w' i -> on_force w i \/ w_next w <= i;
  dl_one : let sb := forall i, on_body w' i -> on_body w i in let sc := forall i, on_con w' i -> on_con w i in let sf := forall i, on_force w' i -> on_force w i in (sb /\ sc) \/ (sb /\ sf) \/ (sc /\ sf);
  dl_next : w_next w <= w_next w';
  dl_ev : exists ev, w_log w' = w_log w ++ ev /\ NoDup (rels ev) /\ NoDup (nots ev) /\ incl (nots ev) (rels ev) /\ ordered ev /\
    (forall i, In i (rels ev) -> live w i /\ ~ live w' i) /\ (forall i, live w i -> live w' i \/ In i (rels ev)) }.
Lemma nil_ordered : ordered [].
Proof. intros i l1 l2 E. destruct l1; discriminate. Qed.
(** nothing is destroyed *)
Lemma delta_quiet w w' : (forall i, on_body w' i -> on_body w i \/ w_next w <= i) -> (forall i, on_con w' i -> on_con w i \/ w_next w <= i) -> (forall i, on_force w' i -> on_force w i \/ w_next w <= i) ->
  (let sb := forall i, on_body w' i -> on_body w i in let sc := forall i, on_con w' i -> on_con w i in let sf := forall i, on_force w' i -> on_force w i in (sb /\ sc) \/ (sb /\ sf) \/ (sc /\ sf)) ->
  w_next w <= w_next w' -> w_log w' = w_log w -> (forall i, live w i -> live w' i) -> delta w w'.
Proof.
  intros H1 H2 H3 H4 H5 H6 H7. constructor; auto. exists []. rewrite app_nil_r. split; [exact H6|]. split; [constructor|]. split; [constructor|]. split; [intros i []|]. split; [apply nil_ordered|].
  split; [intros i []|auto].
Qed.
Lemma same_live w w' : same w w' -> (forall i, on_body w i <-> on_body w' i) /\ (forall i, on_con w i <-> on_con w' i) /\ (forall i, on_force w i <-> on_force w' i).
Proof. intros S. split; [|split]; intros i; [apply (hrel_live _ _ _ _ (sa_b _ _ S))|apply (hrel_live _ _ _ _ (sa_c _ _ S))|apply (hrel_live _ _ _ _ (sa_f _ _ S))]. Qed.
Lemma delta_same w w' : same w w' -> w_log w' = w_log w -> delta w w'.
Proof.
  intros S HL. destruct (same_live w w' S) as (B & C & F). apply delta_quiet; auto.
  - intros i H. left. apply B, H.
  - intros i H. left. apply C, H.
  - intros i H. left. apply F, H.
  - left. split; intros i H; [apply B|apply C]; exact H.
  - rewrite (sa_next _ _ S). apply le_n.
  - intros i. unfold live. rewrite (B i), (C i), (F i). auto.
Qed.
Lemma gentle_same w w' : gentle w -> same w w' -> gentle w'.
Proof. intros G S f x' E'. destruct (hrel_some' _ _ _ _ _ (sa_f _ _ S) E') as (x & E & _ & Ha & _). rewrite Ha. apply (G f x E). Qed.
Lemma calm_op w w' : good w -> calm_step w w' -> w_log w' = w_log w -> good w' /\ delta w w'.
Proof.
  intros (HS & HI & G) C HL. destruct (calm_good _ _ HS HI C) as [HS' HI']. split; [split; [exact HS'|split; [exact HI'|eapply gentle_same; [exact G|apply C]]]|apply delta_same; [apply C|exact HL]].
Qed.
Definition quiet_log (w w' : world) : Prop := w_log w' = w_log w /\ w_fh w' = w_fh w.
Lemma ql_refl w : quiet_log w w. Proof. split; reflexivity. Qed.
Lemma ql_trans a b c : quiet_log a b -> quiet_log b c -> quiet_log a c. Proof. intros [A1 A2] [B1 B2]. split; congruence. Qed.
Lemma ql_mod_body i f : frame quiet_log (mod_body i f). Proof. apply fr_mod_body. intros w y E. split; reflexivity. Qed.
Lemma ql_mod_con i f : frame quiet_log (mod_con i f). Proof. apply fr_mod_con. intros w y E. split; reflexivity. Qed.

Lemma make_force_more region f found w i w' : make_force region f found w = Ok i w' -> w_fh w' = put (w_fh w) (w_next w) (WF region f false) /\ w_log w' = w_log w /\ w_bh w' = w_bh w' /\
  (forall j, on_body w' j <-> on_body w j) /\ (forall j, on_con w' j <-> on_con w j) /\ w_next w' = S (w_next w).
Proof.
  unfold make_force, bind at 1, fresh. cbv beta iota. unfold bind at 1, modify. cbv beta iota. set (w1 := set_forces _ _).
  match goal with |- bind ?m _ _ = _ -> _ => assert (FR : frame (fun a b => quiet_log a b /\ calm_step a b) m) end.
  { assert (Rr : forall a : world, quiet_log a a /\ calm_step a a) by (intros a; split; [apply ql_refl|apply calm_refl]).
    assert (Rt : forall a b c : world, quiet_log a b /\ calm_step a b -> quiet_log b c /\ calm_step b c -> quiet_log a c /\ calm_step a c) by (intros a b c [A1 A2] [B1 B2]; split; [eapply ql_trans; eassumption|eapply calm_trans; eassumption]).
    assert (W : forall b, frame (fun a b => quiet_log a b /\ calm_step a b) (wake b)) by (intros b w0; pose proof (ql_mod_body b (fun b => with_wb b (set_asleep false (wb b))) w0) as Q; pose proof (fc_wake b w0) as C; unfold wake in *; destruct (mod_body b _ w0); auto).
    apply fr_if.
    - apply fr_iter; [exact Rr|exact Rt|]. intros k. apply fr_bind; [exact Rt|apply fr_get; exact Rr|]. intros t. apply fr_if; [|apply fr_ret; exact Rr]. apply fr_bind; [exact Rt|apply fr_deref; exact Rr|]. intros x. apply W.
    - apply fr_bind; [exact Rt|apply fr_get; exact Rr|]. intros bs. apply fr_iter; [exact Rr|exact Rt|apply W]. }
  intros E. apply bind_ok in E. destruct E as (u & w2 & E1 & E2). injection E2 as _ <-. specialize (FR w1). rewrite E1 in FR. destruct FR as [[F1 F2] C].
  destruct (same_live _ _ (proj1 C)) as (B1 & B2 & _). split; [rewrite F2; reflexivity|]. split; [rewrite F1; reflexivity|]. split; [reflexivity|].
  split; [intros j; rewrite <- (B1 j); reflexivity|]. split; [intros j; rewrite <- (B2 j); reflexivity|]. rewrite (sa_next _ _ (proj1 C)). reflexivity.
Qed.

(** ** World::clear *)
Definition gone_heap {A} (h h' : heap A) (l : list id) : Prop := forall c, h' c = if existsb (Nat.eqb c) l then None else h c.
Lemma iter_del_con (l : list id) : forall w, exists g, iter (fun i => modify (fun w => set_ch w (del (w_ch w) i)) ;;; log (Released i)) l w = Ok tt (set_log (set_ch w g) (w_log w ++ map Released l)) /\ gone_heap (w_ch w) g l.
Proof.
  induction l as [|i l IH]; intros w; cbn [iter map].
  - exists (w_ch w). rewrite app_nil_r. split; [destruct w; reflexivity|intros c; reflexivity].
  - unfold bind at 1, bind at 1, modify at 1, log at 1, modify at 1. cbv beta iota. destruct (IH (set_log (set_ch w (del (w_ch w) i)) (w_log w ++ [Released i]))) as (g & E & Hg). exists g. split.
    + cbn in E |- *. rewrite E. rewrite <- app_assoc. reflexivity.
    + intros c. rewrite (Hg c). cbn. unfold del. destruct (Nat.eqb c i); [destruct (existsb (Nat.eqb c) l); reflexivity|reflexivity].
Qed.
Lemma iter_del_force (l : list id) : forall w, exists g, iter (fun i => modify (fun w => set_fh w (del (w_fh w) i)) ;;; log (Released i)) l w = Ok tt (set_log (set_fh w g) (w_log w ++ map Released l)) /\ gone_heap (w_fh w) g l.
Proof.
  induction l as [|i l IH]; intros w; cbn [iter map].
  - exists (w_fh w). rewrite app_nil_r. split; [destruct w; reflexivity|intros c; reflexivity].
  - unfold bind at 1, bind at 1, modify at 1, log at 1, modify at 1. cbv beta iota. destruct (IH (set_log (set_fh w (del (w_fh w) i)) (w_log w ++ [Released i]))) as (g & E & Hg). exists g. split.
    + cbn in E |- *. rewrite E. rewrite <- app_assoc. reflexivity.
    + intros c. rewrite (Hg c). cbn. unfold del. destruct (Nat.eqb c i); [destruct (existsb (Nat.eqb c) l); reflexivity|reflexivity].
Qed.
Lemma set_factory_eq w : exists g, set_factory w = Ok tt (set_cts (set_log (set_ch w g) (w_log w ++ map Released (map e_con (w_cts w)))) []) /\ gone_heap (w_ch w) g (map e_con (w_cts w)).
Proof.
  unfold set_factory, bind at 1, get. cbv beta iota. destruct (iter_del_con (map e_con (w_cts w)) w) as (g & E & Hg). exists g. split; [|exact Hg]. rewrite iter_map in E. unfold bind at 1. rewrite E. reflexivity.
Qed.
(** the bodies are destroyed first *)
Record bared (w : world) (l : list id) (w' : world) : Prop := {
  ba_b : forall j, (exists y', w_bh w' j = Some y') -> ~ In j l /\ exists y, w_bh w j = Some y; ba_keep : forall j y, w_bh w j = Some y -> ~ In j l -> exists y', w_bh w' j = Some y' /\ wb_cts y' = wb_cts y;
  ba_c : hrel con_same (w_ch w) (w_ch w'); ba_f : w_fh w' = w_fh w; ba_cols : cols_ok (w_bh w') (w_kh w') (w_tree w'); ba_kh : forall k, w_kh w k = None -> w_kh w' k = None;
  ba_bodies : w_bodies w' = w_bodies w; ba_cons : w_cons w' = w_cons w; ba_cts : w_cts w' = w_cts w; ba_forces : w_forces w' = w_forces w; ba_set : w_set w' = w_set w; ba_next : w_next w' = w_next w;
  ba_log : w_log w' = w_log w ++ map Released l }.
Lemma destroy_all l : forall w, NoDup l -> cols_ok (w_bh w) (w_kh w) (w_tree w) -> (forall b, In b l -> exists y, w_bh w b = Some y /\ cts_ok w b y) ->
  exists w', iter (destroy_body false) l w = Ok tt w' /\ bared w l w'.
Proof.
  induction l as [|b l IH]; intros w ND HK HL; cbn [iter].
  - exists w. split; [reflexivity|]. constructor; try reflexivity; try exact HK; try (intros k Hk; exact Hk).
    + intros j [y E]. split; [exact (fun F : False => F)|exists y; exact E].
    + intros j y E _. exists y. auto.
    + apply hrel_refl. exact con_same_refl.
    + rewrite app_nil_r. reflexivity.
  - apply NoDup_cons_iff in ND. destruct ND as [Hb ND]. destruct (HL b (or_introl eq_refl)) as (y & Ey & HT). destruct (destroy_body_spec b y w HK Ey HT) as (w1 & SP & ED).
    set (w2 := set_log (set_bh w1 (del (w_bh w1) b)) (w_log w ++ [Released b])) in *.
    destruct SP as [(y' & E' & HI & Hcs & Hct) SO SC SK SH SF Sb Sc St Sf Ss Sn Sl].
    assert (HK2 : cols_ok (w_bh w2) (w_kh w2) (w_tree w2)).
    { destruct SK as (K1 & K2 & K3 & K4 & K5). cbn. split; [exact K1|]. split; [exact K2|]. split; [|split; [|exact K5]].
      - intros k x Ex. destruct (K3 k x Ex) as [z Ez]. destruct (Nat.eq_dec (k_body x) b) as [e|n]; [|exists z; unfold del; rewrite (proj2 (Nat.eqb_neq _ _) n); exact Ez].
        exfalso. destruct (K4 b y' E') as (_ & A2 & _). rewrite HI in A2. apply (A2 k). exists x. auto.
      - intros j z Ez. apply del_some in Ez. apply (K4 j z), Ez. }
    destruct (IH w2 ND HK2) as (w3 & E3 & BA).
    + intros j Hj. destruct (HL j (or_intror Hj)) as (z & Ez & HT1 & HT2). assert (Hjb : j <> b) by (intros ->; contradiction). exists z. split; [cbn; unfold del; rewrite (proj2 (Nat.eqb_neq _ _) Hjb), (SO j Hjb); exact Ez|].
      split; [exact HT1|]. intros t Ht. destruct (HT2 t Ht) as (x & Ex & Hx). specialize (SC t). rewrite Ex in SC. cbn. destruct (w_ch w1 t) as [x'|]; [|contradiction]. exists x'. split; [reflexivity|]. destruct SC as (CS & _). rewrite (cs_b0 _ _ CS), (cs_b1 _ _ CS). exact Hx.
    + exists w3. split; [unfold bind; rewrite ED; exact E3|]. destruct BA as [A1 A2 A3 A4 A5 A5b A6 A7 A8 A9 A10 A11 A12]. cbn in *. constructor; try congruence.
      * intros j Hj. destruct (A1 j Hj) as [H1 [z Ez]]. apply del_some in Ez. destruct Ez as [Hn Ez]. split; [intros [->|H]; [congruence|contradiction]|]. rewrite (SO j Hn) in Ez. eauto.
      * intros j z Ez Hj. assert (Hn : j <> b) by (intros ->; apply Hj; left; reflexivity). apply (A2 j z); [unfold del; rewrite (proj2 (Nat.eqb_neq _ _) Hn), (SO j Hn); exact Ez|intros H; apply Hj; right; exact H].
      * eapply hrel_trans; [exact con_same_trans| |exact A3]. intros c. specialize (SC c). destruct (w_ch w c), (w_ch w1 c); auto. apply SC.
      * intros k Ek. apply A5b. rewrite SH, Ek. reflexivity.
      * rewrite A12, <- app_assoc. reflexivity.
Qed.
Definition nothing {A} (h : heap A) : Prop := forall i, h i = None.
Lemma clear_spec w : SInv w -> exists w', clear false w = Ok tt w' /\ SInv w' /\ idle w' /\ nothing (w_bh w') /\ nothing (w_ch w') /\ nothing (w_fh w') /\ nothing (w_kh w') /\
  w_set w' = w_set w /\ w_next w' = w_next w /\ w_log w' = w_log w ++ map Released (w_bodies w ++ w_forces w ++ map e_con (w_cts w) ++ w_cons w).
Proof.
  intros HS. unfold clear. unfold bind at 1, get at 1. cbv beta iota. unfold bind at 1.
  destruct (destroy_all (w_bodies w) w (proj1 (i_bodies _ HS)) (i_cols _ HS)) as (w1 & E1 & BA).
  { intros b Hb. apply (i_bodies _ HS) in Hb. destruct Hb as [y Ey]. exists y. split; [exact Ey|]. destruct (i_cts _ HS b y Ey) as [A1 A2]. split; [exact A1|]. intros t Ht. apply A2 in Ht. destruct Ht as [_ (x & Ex & Hx)]. exists x. split; [exact Ex|]. apply in_bodies, Hx. }
  rewrite E1. destruct BA as [A1 A2 A3 A4 A5 A5b A6 A7 A8 A9 A10 A11 A12].
  unfold bind at 1, modify at 1. cbv beta iota. unfold bind at 1, get at 1. cbv beta iota. cbn [w_forces set_bodies]. unfold bind at 1. destruct (iter_del_force (w_forces w1) (set_bodies w1 [])) as (gf & Ef & Hgf). rewrite Ef.
  unfold bind at 1, modify at 1. cbv beta iota. set (w2 := set_forces _ _). destruct (set_factory_eq w2) as (gc & Ec & Hgc). unfold bind at 1. rewrite Ec.
  unfold bind at 1, get at 1. cbv beta iota. cbn [w_cons set_cts set_log set_ch w2 set_forces set_fh set_bodies].
  unfold bind at 1. destruct (iter_del_con (w_cons w1) (set_cts (set_log (set_ch w2 gc) (w_log w2 ++ map Released (map e_con (w_cts w2)))) [])) as (gd & Ed & Hgd). rewrite Ed.
  unfold bind at 1, modify at 1. cbv beta iota. unfold modify. cbn in Hgf, Hgc, Hgd.
  eexists. split; [reflexivity|]. cbn [w_log w_ch w_fh w_kh w_bh w_set w_next set_tree set_cons set_log set_ch set_cts set_forces set_fh set_bodies w2].
  assert (NB : nothing (w_bh w1)).
  { intros i. destruct (w_bh w1 i) as [y|] eqn:E; [|reflexivity]. exfalso. destruct (A1 i (ex_intro _ y E)) as [H1 H2]. apply H1, (i_bodies _ HS), H2. }
  assert (NC : nothing gd).
  { intros c. rewrite (Hgd c). destruct (existsb (Nat.eqb c) (w_cons w1)) eqn:EX; [reflexivity|]. rewrite (Hgc c). destruct (existsb (Nat.eqb c) (map e_con (w_cts w1))) eqn:EY; [reflexivity|].
    destruct (w_ch w1 c) as [x|] eqn:E; [|reflexivity]. exfalso. assert (HL : exists x, w_ch w c = Some x) by (apply (hrel_live _ _ _ _ A3); eauto). apply (i_cons _ HS) in HL. apply in_app_iff in HL.
    apply existsb_notin in EX, EY. rewrite A7 in EX. rewrite A8 in EY. tauto. }
  assert (NF : nothing gf).
  { intros c. rewrite (Hgf c). destruct (existsb (Nat.eqb c) (w_forces w1)) eqn:EX; [reflexivity|]. rewrite A4. destruct (w_fh w c) as [x|] eqn:E; [|reflexivity]. exfalso. apply existsb_notin in EX. apply EX. rewrite A9. apply (i_forces _ HS). eauto. }
  assert (NK : nothing (w_kh w1)).
  { intros k. destruct (w_kh w1 k) as [x|] eqn:E; [|reflexivity]. exfalso. destruct A5 as (_ & _ & K3 & _). destruct (K3 k x E) as [y Ey]. rewrite NB in Ey. discriminate. }
  split; [|split; [|split; [exact NB|split; [exact NC|split; [exact NF|split; [exact NK|split; [exact A10|split; [exact A11|]]]]]]]].
  - constructor; cbn.
    + split; [constructor|]. intros i. rewrite NB. split; [intros []|intros [? ?]; discriminate].
    + split; [constructor|]. intros i. rewrite NC. split; [intros []|intros [? ?]; discriminate].
    + split; [constructor|]. intros i. rewrite NF. split; [intros []|intros [? ?]; discriminate].
    + intros c x Ex. rewrite NC in Ex. discriminate.
    + intros b y Ey. rewrite NB in Ey. discriminate.
    + intros b y Ey. rewrite NB in Ey. discriminate.
    + split; [constructor|]. split; [intros k; rewrite NK; split; [intros []|intros [? ?]; discriminate]|]. split; [intros k x Ek; rewrite NK in Ek; discriminate|]. split; [intros b y Ey; rewrite NB in Ey; discriminate|]. intros k k' x x' Ek; rewrite NK in Ek; discriminate.
    + split; [|split]; [exists (fun _ => 0); split; [intros k x Ek; rewrite NK in Ek; discriminate|intros e []]|intros e k0 k1 x []|intros e e' []].
    + intros i _. rewrite NB, NC, NF, NK. auto.
  - split; [|split].
    + intros b y Ey. cbn in Ey. rewrite NB in Ey. discriminate.
    + intros c x Ex. cbn in Ex. rewrite NC in Ex. discriminate.
    + intros e [].
  - unfold w2. cbn. rewrite A12, A9, A8, A7, !map_app, !app_assoc. reflexivity.
Qed.

(** ** Events *)
Lemma rels_app a b : rels (a ++ b) = rels a ++ rels b. Proof. apply flat_map_app. Qed.
Lemma nots_app a b : nots (a ++ b) = nots a ++ nots b. Proof. apply flat_map_app. Qed.
Lemma rels_rel l : rels (map Released l) = l. Proof. induction l; cbn; [reflexivity|]. f_equal. assumption. Qed.
Lemma rels_not l : rels (map Notified l) = []. Proof. induction l; cbn; auto. Qed.
Lemma nots_not l : nots (map Notified l) = l. Proof. induction l; cbn; [reflexivity|]. f_equal. assumption. Qed.
Lemma nots_rel l : nots (map Released l) = []. Proof. induction l; cbn; auto. Qed.
Definition other (e : event) : Prop := is_forced e \/ is_solved e.
Lemma rels_other l : Forall other l -> rels l = []. Proof. induction 1 as [|e l H HF IH]; [reflexivity|]. destruct e; try exact IH; destruct H as [[]|[]]. Qed.
Lemma nots_other l : Forall other l -> nots l = []. Proof. induction 1 as [|e l H HF IH]; [reflexivity|]. destruct e; try exact IH; destruct H as [[]|[]]. Qed.
Lemma in_rels i l : In i (rels l) <-> In (Released i) l.
Proof. unfold rels. rewrite in_flat_map. split; [intros (e & He & H); destruct e; cbn in H; try contradiction; destruct H as [->|[]]; exact He|intros H; exists (Released i); cbn; auto]. Qed.
Lemma in_nots i l : In i (nots l) <-> In (Notified i) l.
Proof. unfold nots. rewrite in_flat_map. split; [intros (e & He & H); destruct e; cbn in H; try contradiction; destruct H as [->|[]]; exact He|intros H; exists (Notified i); cbn; auto]. Qed.
Lemma ordered_app a b : ordered a -> ordered b -> (forall i, In i (rels a) -> ~ In i (nots b)) -> ordered (a ++ b).
Proof.
  intros HA HB HX i l1 l2 E Hi. revert a HA HX E. induction l1 as [|e l1 IH]; intros a HA HX E.
  - destruct a as [|x a]; [apply (HB i [] l2 E Hi)|]. injection E as -> <-. apply in_app_iff in Hi. destruct Hi as [Hi|Hi]; [apply (HA i [] a eq_refl Hi)|]. apply (HX i); [left; reflexivity|apply in_nots, Hi].
  - destruct a as [|x a]; [apply (HB i (e :: l1) l2 E Hi)|]. injection E as -> E. apply (IH a); auto.
    + intros j m1 m2 Em. apply (HA j (e :: m1) m2). rewrite Em. reflexivity.
    + intros j Hj. apply HX. cbn. apply in_or_app. auto.
Qed.
Lemma ordered_no l : nots l = [] -> ordered l.
Proof. intros H i l1 l2 -> Hi. rewrite nots_app in H. apply app_eq_nil in H. destruct H as [_ H]. cbn in H. apply in_nots in Hi. change (nots l2 = []) in H. rewrite H in Hi. destruct Hi. Qed.
Lemma ordered_nr l : rels l = [] -> ordered l.
Proof. intros H i l1 l2 -> Hi. rewrite rels_app in H. apply app_eq_nil in H. destruct H as [_ H]. discriminate. Qed.
(** only releases *)
Lemma events_rel l : NoDup l -> NoDup (rels (map Released l)) /\ NoDup (nots (map Released l)) /\ incl (nots (map Released l)) (rels (map Released l)) /\ ordered (map Released l).
Proof. intros H. rewrite rels_rel, nots_rel. split; [exact H|]. split; [constructor|]. split; [intros i []|apply ordered_no, nots_rel]. Qed.
(** the events of a step: contacts are released, the others first notified *)
Lemma events_step dt D l : NoDup (dt ++ D) -> Forall other l -> let ev := map Released dt ++ map Notified D ++ map Released D ++ l in
  rels ev = dt ++ D /\ nots ev = D /\ ordered ev.
Proof.
  intros ND HF ev. unfold ev. rewrite !rels_app, !nots_app, !rels_rel, !rels_not, !nots_not, !nots_rel, (rels_other l HF), (nots_other l HF), !app_nil_r. cbn [app].
  split; [reflexivity|]. split; [reflexivity|]. apply nodup_app in ND. destruct ND as (_ & _ & ND). apply ordered_app; [apply ordered_no, nots_rel| |].
  - apply ordered_app; [apply ordered_nr, rels_not|apply ordered_no; rewrite nots_app, nots_rel; apply nots_other, HF|]. rewrite rels_not. intros i [].
  - rewrite rels_rel, !nots_app, nots_not, nots_rel, (nots_other l HF), !app_nil_r. exact ND.
Qed.

(** ** Every operation *)
Lemma delta_new w w' (nb nc nf : Prop) : (forall i, on_body w i -> on_body w' i) -> (forall i, on_con w i -> on_con w' i) -> (forall i, on_force w i -> on_force w' i) ->
  (forall i, on_body w' i -> on_body w i \/ (nb /\ w_next w <= i)) -> (forall i, on_con w' i -> on_con w i \/ (nc /\ w_next w <= i)) -> (forall i, on_force w' i -> on_force w i \/ (nf /\ w_next w <= i)) ->
  (~ nb /\ ~ nc) \/ (~ nb /\ ~ nf) \/ (~ nc /\ ~ nf) -> w_next w <= w_next w' -> w_log w' = w_log w -> delta w w'.
Proof.
  intros A1 A2 A3 B1 B2 B3 D E F. apply delta_quiet; auto.
  - intros i H. destruct (B1 i H); tauto.
  - intros i H. destruct (B2 i H); tauto.
  - intros i H. destruct (B3 i H); tauto.
  - cbv zeta. destruct D as [[D1 D2]|[[D1 D2]|[D1 D2]]]; [left|right; left|right; right]; split; intros i H; firstorder.
  - intros i [H|[H|H]]; unfold live; auto.
Qed.
Lemma put_live {A} (h : heap A) i a : forall j, (exists x, put h i a j = Some x) <-> j = i \/ exists x, h j = Some x.
Proof.
  intros j. unfold put. destruct (Nat.eqb_spec j i) as [->|n]; [split; eauto|]. split; [intros H; right; exact H|intros [H|H]; [congruence|exact H]].
Qed.
Lemma op_calm {A} (m : M A) w a w' : frame calm_step m -> frame quiet_log m -> good w -> m w = Ok a w' -> good w' /\ delta w w'.
Proof. intros F1 F2 G E. specialize (F1 w). specialize (F2 w). rewrite E in F1, F2. apply calm_op; [exact G|exact F1|apply F2]. Qed.
Lemma settings_op s w w' : good w -> update_settings s w = Ok tt w' -> good w' /\ delta w w'.
Proof.
  intros G. unfold update_settings, bind at 1, get at 1. cbv beta iota. unfold bind at 1, get at 1. cbv beta iota. intros E. apply bind_ok in E. destruct E as (u & w1 & E1 & E2). injection E2 as <-.
  assert (H : good w1 /\ delta w w1).
  { eapply op_calm; [| |exact G|exact E1]; apply fr_if.
    - apply fr_iter; [exact calm_refl|exact calm_trans|exact fc_wake].
    - apply fr_ret. exact calm_refl.
    - apply fr_iter; [exact ql_refl|exact ql_trans|]. intros i. apply ql_mod_body.
    - apply fr_ret. exact ql_refl. }
  destruct H as [(HS & HI & HG) D]. split.
  - split; [destruct HS; constructor; assumption|]. split; [exact HI|exact HG].
  - destruct D. constructor; assumption.
Qed.
Lemma body_op p r d i w w' : good w -> make_body p r d w = Ok i w' -> good w' /\ delta w w'.
Proof.
  intros (HS & HI & HG) E. destruct (make_body_spec p r d w HS HI) as (w1 & E1 & S1 & I1 & A1 & A2 & A3 & A4 & A5 & A6 & A7 & A8 & A9 & A10). rewrite E in E1. injection E1 as -> <-.
  split; [split; [exact S1|split; [exact I1|]]|].
  - intros f x Ex. rewrite A5 in Ex. apply (HG f x Ex).
  - apply (delta_new w w' True False False); unfold on_body, on_con, on_force; rewrite ?A2, ?A5; try tauto; auto.
    + intros j [y Ey]. rewrite A10. destruct (Nat.eqb j (w_next w)); eauto.
    + intros j [y Ey]. rewrite A10 in Ey. destruct (Nat.eqb_spec j (w_next w)) as [->|]; eauto.
    + unfold make_body, bind at 1, fresh in E. cbv beta iota in E. injection E as <-. cbn. lia.
Qed.
Lemma con_op b0 b1 doms dis st i w w' : good w -> on_body w b0 -> on_body w b1 -> make_con b0 b1 doms dis st w = Ok i w' -> good w' /\ delta w w'.
Proof.
  intros (HS & HI & HG) H0 H1 E. pose proof (make_con_spec b0 b1 doms dis st w HS HI H0 H1) as SP. rewrite E in SP. destruct SP as (-> & S1 & I1 & x & (A1 & A2 & A3 & A4 & A5 & A6 & A7 & A8 & A9 & A10 & A11 & A12) & _).
  assert (HB : forall j, on_body w' j <-> on_body w j). { intros j. unfold on_body. rewrite (A2 j). destruct (w_bh w j); destruct (existsb (Nat.eqb j) (con_bodies x)); cbn; split; intros [? ?]; try discriminate; eauto. }
  split; [split; [exact S1|split; [exact I1|]]|].
  - intros f z Ez. rewrite A6 in Ez. apply (HG f z Ez).
  - apply (delta_new w w' False True False); try tauto; auto.
    + intros j H. apply HB, H.
    + intros j H. unfold on_con. rewrite A1. apply put_live. auto.
    + intros j H. unfold on_force. rewrite A6. exact H.
    + intros j H. left. apply HB, H.
    + intros j H. unfold on_con in H. rewrite A1 in H. apply put_live in H. destruct H as [->|H]; auto.
    + intros j H. unfold on_force in H. rewrite A6 in H. auto.
    + lia.
Qed.
Lemma force_op region f found i w w' : good w -> (forall dt b c, calm (f dt b c)) -> make_force region f found w = Ok i w' -> good w' /\ delta w w'.
Proof.
  intros (HS & HI & HG) HC E. destruct (make_force_spec region f found w HS HI) as (w1 & E1 & S1 & I1). rewrite E in E1. injection E1 as -> <-. destruct (make_force_more region f found w _ w' E) as (A1 & A2 & _ & A3 & A4 & A5).
  split; [split; [exact S1|split; [exact I1|]]|].
  - intros j x Ex. rewrite A1 in Ex. apply put_some in Ex. destruct Ex as [[-> ->]|[_ Ex]]; [exact HC|apply (HG j x Ex)].
  - apply (delta_new w w' False False True); try tauto; auto.
    + intros j H. apply A3, H.
    + intros j H. apply A4, H.
    + intros j H. unfold on_force. rewrite A1. apply put_live. auto.
    + intros j H. left. apply A3, H.
    + intros j H. left. apply A4, H.
    + intros j H. unfold on_force in H. rewrite A1 in H. apply put_live in H. destruct H as [->|H]; auto.
    + lia.
Qed.
Lemma add_op b l d hint k w w' : good w -> on_body w b -> add_col b l d hint w = Ok k w' -> good w' /\ delta w w'.
Proof.
  intros (HS & HI & HG) [y Ey] E. pose proof (add_col_spec b l d hint w y HS HI Ey) as SP. rewrite E in SP. destruct SP as (-> & S1 & I1 & A1 & A2 & A3 & A4 & A5 & A6 & A7 & x' & _ & A8).
  assert (HN : w_next w <= w_next w').
  { unfold add_col, bind at 1, body_at, deref in E. rewrite Ey in E. unfold bind at 1, fresh in E. cbv beta iota in E. unfold bind at 1, new_addr, get in E. cbv beta iota in E. unfold bind at 1, modify at 1 in E. cbv beta iota in E.
    destruct (add_collider_full (wb y) (Coll (w_next w) l d l)) as [z ok]. unfold bind at 1, put_body, modify at 1 in E. cbv beta iota in E. destruct ok; [|discriminate]. unfold bind, modify, ret in E. injection E as <-. cbn. lia. }
  split; [split; [exact S1|split; [exact I1|]]|].
  - intros j x Ex. rewrite A3 in Ex. apply (HG j x Ex).
  - apply (delta_new w w' False False False); unfold on_body, on_con, on_force; rewrite ?A2, ?A3, ?A8; try tauto; auto.
    + intros j H. apply put_live. auto.
    + intros j H. apply put_live in H. destruct H as [->|H]; [left; eauto|auto].
Qed.
Lemma remove_op b k y w w' : good w -> w_bh w b = Some y -> In k (ids_of y) -> remove_col b k w = Ok tt w' -> good w' /\ delta w w'.
Proof.
  intros (HS & HI & HG) Ey Hk E. destruct (remove_col_good b k y w HS HI Ey Hk) as (w1 & E1 & RM & S1 & I1). rewrite E in E1. injection E1 as <-. destruct RM as [(x' & _ & Rb & _) Rc Rk Rt Rf _ _ _ _ _ Rn Rl].
  assert (HC : forall j, on_con w' j <-> on_con w j). { intros j. unfold on_con. symmetry. apply (hrel_live _ _ _ _ (killed_same _ _ _ _ Rc)). }
  split; [split; [exact S1|split; [exact I1|]]|].
  - intros j x Ex. rewrite Rf in Ex. apply (HG j x Ex).
  - apply (delta_new w w' False False False); try tauto; auto.
    + intros j H. unfold on_body. rewrite Rb. apply put_live. auto.
    + intros j H. apply HC, H.
    + intros j H. unfold on_force. rewrite Rf. exact H.
    + intros j H. unfold on_body in H. rewrite Rb in H. apply put_live in H. destruct H as [->|H]; [left; exists y; exact Ey|auto].
    + intros j H. left. apply HC, H.
    + intros j H. unfold on_force in H. rewrite Rf in H. auto.
    + lia.
Qed.
Lemma clear_op w w' : good w -> none_twice w -> clear false w = Ok tt w' -> good w' /\ delta w w'.
Proof.
  intros (HS & HI & HG) NT E. destruct (clear_spec w HS) as (w1 & E1 & S1 & I1 & N1 & N2 & N3 & N4 & A1 & A2 & A3). rewrite E in E1. injection E1 as <-.
  assert (HN : forall i, ~ live w' i). { intros i [[x E0]|[[x E0]|[x E0]]]; [rewrite N1 in E0|rewrite N2 in E0|rewrite N3 in E0]; discriminate. }
  set (L := w_bodies w ++ w_forces w ++ map e_con (w_cts w) ++ w_cons w) in *.
  assert (HL : forall i, In i L <-> live w i).
  { intros i. unfold L, live, on_body, on_con, on_force. rewrite !in_app_iff. rewrite <- (proj2 (i_bodies _ HS)), <- (proj2 (i_forces _ HS)), <- (proj2 (i_cons _ HS)), in_app_iff. tauto. }
  assert (ND : NoDup L).
  { pose proof (proj1 (i_cons _ HS)) as NC. apply nodup_app in NC. destruct NC as (C1 & C2 & C3). unfold L. rewrite !nodup_app. split; [apply (i_bodies _ HS)|]. split; [split; [apply (i_forces _ HS)|split; [split; [exact C2|split; [exact C1|intros i H1 H2; apply (C3 i H2 H1)]]|]]|].
    - intros i H1 H2. destruct (NT i) as (_ & _ & NT3). apply NT3; [|apply (i_forces _ HS), H1]. apply (i_cons _ HS). rewrite !in_app_iff in *. tauto.
    - intros i H1 H2. destruct (NT i) as (NT1 & NT2 & _). rewrite !in_app_iff in H2. assert (HB : on_body w i) by (apply (i_bodies _ HS), H1). destruct H2 as [H2|H2]; [apply (NT2 HB), (i_forces _ HS), H2|]. apply (NT1 HB), (i_cons _ HS). rewrite in_app_iff. tauto. }
  destruct (events_rel L ND) as (V1 & V2 & V3 & V4). split; [split; [exact S1|split; [exact I1|]]|].
  - intros f x Ex. rewrite N3 in Ex. discriminate.
  - constructor.
    + intros i H. destruct (HN i). left. exact H.
    + intros i H. destruct (HN i). right. left. exact H.
    + intros i H. destruct (HN i). right. right. exact H.
    + left. split; intros i H; destruct (HN i); [left|right; left]; exact H.
    + rewrite A2. apply le_n.
    + exists (map Released L). split; [exact A3|]. split; [exact V1|]. split; [exact V2|]. split; [exact V3|]. split; [exact V4|]. rewrite rels_rel. split.
      * intros i Hi. split; [apply HL, Hi|apply HN].
      * intros i Hi. right. apply HL, Hi.
Qed.
Lemma factory_op w w' : good w -> w_cts w = [] -> set_factory w = Ok tt w' -> good w' /\ delta w w'.
Proof.
  intros G E0 E. unfold set_factory, bind at 1, get in E. rewrite E0 in E. cbn in E. injection E as <-. assert (HW : set_cts w [] = w) by (rewrite <- E0; destruct w; reflexivity). rewrite HW.
  split; [exact G|]. apply delta_same; [apply same_refl|reflexivity].
Qed.
Lemma bdead_live die w i : bdead die w i = true -> on_body w i. Proof. unfold bdead, on_body. destruct (w_bh w i); [eauto|discriminate]. Qed.
Lemma cdead_live die w i : cdead die w i = true -> on_con w i. Proof. unfold cdead, on_con. destruct (w_ch w i); [eauto|discriminate]. Qed.
Lemma fdead_live die w i : fdead die w i = true -> on_force w i. Proof. unfold fdead, on_force. destruct (w_fh w i); [eauto|discriminate]. Qed.
(** what cleanup does to the objects *)
Lemma cleaned_live die w w' : cleaned die w w' -> (forall i, on_body w' i <-> on_body w i /\ bdead die w i = false) /\ (forall i, on_con w' i <-> on_con w i /\ cdead die w i = false) /\ (forall i, on_force w' i <-> on_force w i /\ fdead die w i = false).
Proof.
  intros CL. split; [|split]; intros i; unfold on_body, on_con, on_force.
  - rewrite (cl_b _ _ _ CL). destruct (bdead die w i); [split; [intros [? ?]; discriminate|intros [_ ?]; discriminate]|]. destruct (w_bh w i); cbn; split; try (intros [? ?]; discriminate); eauto. intros [[? ?] _]; discriminate.
  - rewrite (cl_c _ _ _ CL). destruct (cdead die w i); [split; [intros [? ?]; discriminate|intros [_ ?]; discriminate]|]. split; [auto|intros [H _]; exact H].
  - rewrite (cl_f _ _ _ CL). destruct (fdead die w i); [split; [intros [? ?]; discriminate|intros [_ ?]; discriminate]|]. split; [auto|intros [H _]; exact H].
Qed.
(** from the end of cleanup to the end of the step no object disappears, and contacts are the only new objects *)
Definition no_loss (w w' : world) : Prop := (forall i, on_body w' i <-> on_body w i) /\ (forall i, on_force w' i <-> on_force w i) /\ (forall i, on_con w i -> on_con w' i) /\ (forall i, on_con w' i -> on_con w i \/ w_next w <= i) /\
  w_next w <= w_next w' /\ (exists l, w_log w' = w_log w ++ l /\ Forall other l).
Lemma no_loss_refl w : no_loss w w.
Proof. repeat split; auto. exists []. rewrite app_nil_r. auto. Qed.
Lemma phases_live fuel o dt w w' : SInv w' -> phases fuel o dt w w' -> exists w1, SInv w1 /\ cleaned (o_die o) w w1 /\ no_loss w1 w'.
Proof.
  intros HS' [(w1 & w2 & _ & S1 & _ & CL & _ & S2 & _ & RS & H)]. exists w1. split; [exact S1|]. split; [exact CL|]. destruct (restated_same _ _ RS) as (C2 & _ & L2).
  destruct (same_live _ _ (proj1 C2)) as (B2 & D2 & F2). pose proof (sa_next _ _ (proj1 C2)) as N2.
  assert (HL2 : w_log w2 = w_log w1) by (destruct RS as (g & -> & _); reflexivity).
  destruct (k0 <? dt)%num.
  - destruct H as (w3 & w4 & _ & S3 & _ & (C3 & _ & _ & (l3 & E3 & O3) & _) & _ & S4 & _ & Sm & _ & (l4 & E4 & O4) & EU & U).
    destruct (same_live _ _ (proj1 C3)) as (B3 & D3 & F3). pose proof (sa_next _ _ (proj1 C3)) as N3. destruct (same_live _ _ Sm) as (B4 & D4 & F4). pose proof (sa_next _ _ Sm) as N4.
    split; [|split; [|split; [|split; [|split]]]].
    + intros i. rewrite (B2 i), (B3 i), (B4 i). split; [intros [y E]; destruct (u_body _ _ _ U i y E) as (z & Ez & _); exists z; exact Ez|].
      intros H. apply (i_bodies _ S4) in H. rewrite <- (u_bodies _ _ _ U) in H. apply (i_bodies _ HS'), H.
    + intros i. rewrite (F2 i), (F3 i), (F4 i). unfold on_force. rewrite (u_fh _ _ _ U). reflexivity.
    + intros i H. apply D2, D3, D4 in H. apply (u_live _ _ _ U); [|exact H]. destruct (Nat.lt_ge_cases i (w_next w4)) as [Hi|Hi]; [exact Hi|]. destruct (i_fresh _ S4 i Hi) as (_ & E & _). destruct H as [x Ex]. congruence.
    + intros i H. destruct (Nat.lt_ge_cases i (w_next w4)) as [Hi|Hi]; [left; apply D2, D3, D4, (u_live _ _ _ U); assumption|right; congruence].
    + pose proof (u_next _ _ _ U). lia.
    + exists (l3 ++ l4). rewrite (u_log _ _ _ U), E4, E3, HL2, app_assoc. split; [reflexivity|]. apply Forall_app. split; [eapply Forall_impl; [|exact O3]|eapply Forall_impl; [|exact O4]]; unfold other; auto.
  - subst w'. split; [intros i; rewrite (B2 i); reflexivity|]. split; [intros i; rewrite (F2 i); reflexivity|]. split; [intros i H; apply D2, H|]. split; [intros i H; left; apply D2, H|]. split; [lia|].
    exists []. rewrite app_nil_r. auto.
Qed.
Lemma step_op (T : tame) fuel o dt w w' : good w -> none_twice w -> shuffles o -> length (w_bodies w) <= fuel -> step false fuel o dt w = Ok tt w' -> good w' /\ delta w w'.
Proof.
  intros (HS & HI & HG) NT Hsh HF E. pose proof (step_ok T fuel o dt w Hsh HG HS HI HF) as W. unfold wp in W. rewrite E in W. destruct W as (S' & I' & PH).
  destruct (phases_live _ _ _ _ _ S' PH) as (w1 & S1 & CL & (NB & NF & NC1 & NC2 & NN & lo & EL & HO)). destruct (cleaned_live _ _ _ CL) as (LB & LC & LF). pose proof (cl_next _ _ _ CL) as Hn.
  set (dt' := map e_con (filter (fun e => cdead (o_die o) w (e_con e)) (w_cts w))). set (dc := filter (cdead (o_die o) w) (w_cons w)). set (df := filter (fdead (o_die o) w) (w_forces w)). set (db := filter (bdead (o_die o) w) (w_bodies w)).
  pose proof (proj1 (i_cons _ HS)) as NDc. apply nodup_app in NDc. destruct NDc as (C1 & C2 & C3).
  assert (Hdt : forall i, In i dt' -> In i (map e_con (w_cts w)) /\ cdead (o_die o) w i = true) by (intros i H; unfold dt' in H; apply in_map_iff in H; destruct H as (e & <- & H); apply filter_In in H; split; [apply in_map|]; apply H).
  assert (Lt : forall i, In i dt' <-> In i (map e_con (w_cts w)) /\ cdead (o_die o) w i = true).
  { intros i. split; [apply Hdt|]. intros [H1 H2]. apply in_map_iff in H1. destruct H1 as (e & <- & H1). unfold dt'. apply in_map, filter_In. auto. }
  assert (Hall : forall i, In i (dt' ++ dc ++ df ++ db) <-> (on_con w i /\ cdead (o_die o) w i = true) \/ (on_force w i /\ fdead (o_die o) w i = true) \/ (on_body w i /\ bdead (o_die o) w i = true)).
  { intros i. rewrite !in_app_iff, Lt. unfold dc, df, db. rewrite !filter_In, (proj2 (i_bodies _ HS) i), (proj2 (i_forces _ HS) i). unfold on_con. rewrite <- (proj2 (i_cons _ HS) i), in_app_iff. unfold on_force, on_body. tauto. }
  assert (ND : NoDup (dt' ++ dc ++ df ++ db)).
  { assert (Xc : forall i, In i (dt' ++ dc) -> on_con w i). { intros i H. apply (cdead_live (o_die o)). rewrite in_app_iff in H. destruct H as [H|H]; [apply Hdt, H|apply filter_In in H; apply H]. }
    assert (Xf : forall i, In i df -> on_force w i) by (intros i H; apply filter_In in H; apply (fdead_live (o_die o)), H). assert (Xb : forall i, In i db -> on_body w i) by (intros i H; apply filter_In in H; apply (bdead_live (o_die o)), H).
    rewrite app_assoc. rewrite !nodup_app. split; [split; [|split; [apply NoDup_filter, C1|]]|split; [split; [apply NoDup_filter, (i_forces _ HS)|split; [apply NoDup_filter, (i_bodies _ HS)|]]|]].
    - unfold dt'. clear - C2. induction (w_cts w) as [|e l IH]; [constructor|]. cbn in *. apply NoDup_cons_iff in C2. destruct C2 as [C2 C4]. destruct (cdead _ _ _); [|apply IH, C4]. cbn. constructor; [|apply IH, C4].
      intros H. apply C2. apply in_map_iff in H. destruct H as (e' & <- & H). apply filter_In in H. apply in_map, H.
    - intros i H1 H2. apply filter_In in H2. apply (C3 i); [apply H2|apply Hdt, H1].
    - intros i H1 H2. destruct (NT i) as (_ & NT2 & _). apply NT2; auto.
    - intros i H1 H2. apply Xc in H1. destruct (NT i) as (NT1 & _ & NT3). rewrite in_app_iff in H2. destruct H2 as [H2|H2]; [apply NT3; auto|apply NT1; auto]. }
  destruct (events_step dt' (dc ++ df ++ db) lo ND HO) as (V1 & V2 & V3). cbv zeta in V1, V2, V3.
  split; [split; [exact S'|split; [exact I'|]]|].
  - destruct PH as [(w1' & w2 & _ & _ & _ & CL' & _ & _ & _ & RS & PH)]. destruct (restated_same _ _ RS) as (_ & K2 & _).
    assert (G2 : gentle w2). { eapply gentle_kk; [|exact K2]. intros f x Ef. rewrite (cl_f _ _ _ CL') in Ef. destruct (fdead _ _ _); [discriminate|]. apply (HG f x Ef). }
    destruct (k0 <? dt)%num; [|subst w'; exact G2]. destruct PH as (w3 & w4 & _ & _ & _ & (_ & K3 & _) & _ & _ & _ & _ & K4 & _ & _ & U). intros f x Ef. rewrite (u_fh _ _ _ U) in Ef. exact (gentle_kk _ _ (gentle_kk _ _ G2 K3) K4 f x Ef).
  - constructor.
    + intros i H. left. apply NB, LB in H. apply H.
    + intros i H. apply NC2 in H. destruct H as [H|H]; [left; apply LC, H|right; lia].
    + intros i H. left. apply NF, LF in H. apply H.
    + right. left. split; intros i H; [apply NB, LB in H|apply NF, LF in H]; apply H.
    + lia.
    + exists (map Released dt' ++ map Notified (dc ++ df ++ db) ++ map Released (dc ++ df ++ db) ++ lo). split; [rewrite EL, (cl_log _ _ _ CL); cbv zeta; fold dt' dc df db; rewrite <- !app_assoc; reflexivity|].
      rewrite V1, V2. split; [exact ND|]. split; [apply nodup_app in ND; apply ND|]. split; [intros i Hi; apply in_or_app; auto|]. split; [exact V3|].
      assert (Hfresh : forall i, live w i -> i < w_next w1). { intros i H. rewrite Hn. destruct (Nat.lt_ge_cases i (w_next w)) as [Hi|Hi]; [exact Hi|]. destruct (i_fresh _ HS i Hi) as (Z1 & Z2 & Z3 & _). destruct H as [[x Ex]|[[x Ex]|[x Ex]]]; congruence. }
      split.
      * intros i Hi. apply Hall in Hi. destruct (NT i) as (NT1 & NT2 & NT3). assert (LW : live w i) by (unfold live; tauto). split; [exact LW|]. specialize (Hfresh i LW).
        assert (HC : on_con w' i -> on_con w1 i) by (intros H; destruct (NC2 i H); [assumption|lia]).
        intros [H|[H|H]]; [apply NB, LB in H|apply HC, LC in H|apply NF, LF in H]; destruct Hi as [[A1 A2]|[[A1 A2]|[A1 A2]]]; try (destruct H; congruence); destruct H as [H _]; tauto.
      * intros i Hi. rewrite Hall. unfold live. rewrite (NB i), (LB i), (NF i), (LF i).
        destruct Hi as [H|[H|H]]; [destruct (bdead (o_die o) w i) eqn:EB; tauto| |destruct (fdead (o_die o) w i) eqn:EB; tauto]. destruct (cdead (o_die o) w i) eqn:EB; [tauto|]. left. right. left. apply NC1, LC. auto.
Qed.
Theorem op_good (T : tame) w w' : good w -> none_twice w -> op w w' -> good w' /\ delta w w'.
Proof.
  intros G NT H. destruct H as [p r d i E|b0 b1 doms dis st i H0 H1 E|region f found i HC E|b l d hint k Hb E|b k y Ey Hk E|b E|c E|f E|b v a E|c f E|s E|strict fuel o dt Hs HF E|H0 E|strict E].
  - exact (body_op _ _ _ _ _ _ G E).
  - exact (con_op _ _ _ _ _ _ _ _ G H0 H1 E).
  - exact (force_op _ _ _ _ _ _ G HC E).
  - exact (add_op _ _ _ _ _ _ _ G Hb E).
  - exact (remove_op _ _ _ _ _ G Ey Hk E).
  - exact (op_calm _ _ _ _ (fc_kill_body b) (ql_mod_body b _) G E).
  - exact (op_calm _ _ _ _ (fc_kill_con c) (ql_mod_con c _) G E).
  - unfold kill_force in E. apply bind_ok in E. destruct E as (x & w1 & E1 & E2). pose proof (fc_kill_force f w) as F1. unfold kill_force, bind in F1. rewrite E1 in F1. rewrite E2 in F1. apply calm_op; [exact G|exact F1|].
    unfold force_at, deref in E1. destruct (w_fh w f); [|discriminate]. injection E1 as -> <-. injection E2 as <-. reflexivity.
  - exact (op_calm _ _ _ _ (fc_set_velocity b v a) (ql_mod_body b _) G E).
  - refine (op_calm _ _ _ _ (fc_mod_con c _ _) (ql_mod_con c _) G E). intros x. split; [apply con_same_st|reflexivity].
  - eapply settings_op; eassumption.
  - apply (refines_ok _ _ _ _ _ (rf_step strict fuel o dt)) in E. eapply step_op; eassumption.
  - eapply factory_op; eassumption.
  - apply (refines_ok _ _ _ _ _ (rf_clear strict)) in E. eapply clear_op; eassumption.
Qed.

(** ** Histories *)
Lemma none_twice_step w w' : SInv w -> none_twice w -> delta w w' -> none_twice w'.
Proof.
  intros HS NT D i. destruct (NT i) as (N1 & N2 & N3). pose proof (dl_b _ _ D i) as B. pose proof (dl_c _ _ D i) as C. pose proof (dl_f _ _ D i) as F.
  assert (Z : w_next w <= i -> ~ on_body w i /\ ~ on_con w i /\ ~ on_force w i).
  { intros H. destruct (i_fresh _ HS i H) as (Z1 & Z2 & Z3 & _). unfold on_body, on_con, on_force. rewrite Z1, Z2, Z3. repeat split; intros [? ?]; discriminate. }
  pose proof (dl_one _ _ D) as O. cbv zeta in O. destruct O as [[O1 O2]|[[O1 O2]|[O1 O2]]]; specialize (O1 i); specialize (O2 i); tauto.
Qed.
(** what a log says about the objects *)
Record kept_log (w : world) : Prop := {
  lk_gone : forall i, In i (rels (w_log w)) -> ~ live w i /\ i < w_next w; lk_once : NoDup (rels (w_log w)); lk_told : NoDup (nots (w_log w));
  lk_both : incl (nots (w_log w)) (rels (w_log w)); lk_order : ordered (w_log w) }.
Lemma live_fresh w i : SInv w -> live w i -> i < w_next w.
Proof.
  intros HS H. destruct (Nat.lt_ge_cases i (w_next w)) as [Hi|Hi]; [exact Hi|]. destruct (i_fresh _ HS i Hi) as (Z1 & Z2 & Z3 & _). destruct H as [[x Ex]|[[x Ex]|[x Ex]]]; congruence.
Qed.
Lemma kept_log_step w w' : SInv w -> kept_log w -> delta w w' -> kept_log w'.
Proof.
  intros HS [G O T B Or] D. destruct (dl_ev _ _ D) as (ev & E & N1 & N2 & I1 & O1 & R1 & R2). pose proof (dl_next _ _ D) as HN.
  assert (NL : forall i, ~ live w i -> i < w_next w -> ~ live w' i).
  { intros i H Hi [H'|[H'|H']]; [destruct (dl_b _ _ D i H')|destruct (dl_c _ _ D i H')|destruct (dl_f _ _ D i H')]; try lia; apply H; unfold live; auto. }
  assert (DJ : forall i, In i (rels (w_log w)) -> ~ In i (rels ev)) by (intros i H1 H2; apply (G i H1), (R1 i H2)).
  constructor; rewrite E, ?rels_app, ?nots_app.
  - intros i Hi. apply in_app_iff in Hi. destruct Hi as [Hi|Hi].
    + destruct (G i Hi) as [G1 G2]. split; [apply NL; assumption|lia].
    + destruct (R1 i Hi) as [G1 G2]. split; [exact G2|]. pose proof (live_fresh _ _ HS G1). lia.
  - apply nodup_app. auto.
  - apply nodup_app. split; [exact T|]. split; [exact N2|]. intros i H1 H2. apply (DJ i); [apply B, H1|apply I1, H2].
  - intros i Hi. apply in_app_iff in Hi. apply in_or_app. destruct Hi; [left; apply B|right; apply I1]; assumption.
  - apply ordered_app; [exact Or|exact O1|]. intros i H1 H2. apply (DJ i H1), I1, H2.
Qed.
Definition sound (w : world) : Prop := good w /\ none_twice w /\ kept_log w.
Lemma empty_sound s : sound (empty_world s).
Proof.
  split; [|split].
  - split; [|split]; [constructor; cbn|split; [|split]|].
    + split; [constructor|]. intros i. split; [intros []|intros [? ?]; discriminate].
    + split; [constructor|]. intros i. split; [intros []|intros [? ?]; discriminate].
    + split; [constructor|]. intros i. split; [intros []|intros [? ?]; discriminate].
    + intros c x Ex. discriminate.
    + intros b y Ey. discriminate.
    + intros b y Ey. discriminate.
    + split; [constructor|]. split; [intros k; split; [intros []|intros [? ?]; discriminate]|]. split; [intros k x Ek; discriminate|]. split; [intros b y Ey; discriminate|]. intros k k' x x' Ek; discriminate.
    + split; [|split]; [exists (fun _ => 0); split; [intros k x Ek; discriminate|intros e []]|intros e k0 k1 x []|intros e e' []].
    + auto.
    + intros b y Ey. discriminate.
    + intros c x Ex. discriminate.
    + intros e [].
    + intros f x Ef. discriminate.
  - intros i. repeat split; intros [? ?]; discriminate.
  - constructor; cbn; try constructor.
    + destruct H.
    + destruct H.
    + intros i [].
    + apply nil_ordered.
Qed.
Theorem op_sound (T : tame) w w' : sound w -> op w w' -> sound w' /\ delta w w'.
Proof.
  intros (G & NT & KL) H. destruct (op_good T w w' G NT H) as [G' D]. split; [|exact D]. split; [exact G'|]. split; [eapply none_twice_step; [apply G|exact NT|exact D]|eapply kept_log_step; [apply G|exact KL|exact D]].
Qed.
Theorem ops_sound (T : tame) w w' : sound w -> ops w w' -> sound w'.
Proof. intros HS H. induction H as [|w1 w2 w3 H IH O]; [exact HS|]. apply (op_sound T w2 w3); [apply IH, HS|exact O]. Qed.
Corollary reachable_sound (T : tame) w : reachable w -> sound w.
Proof. intros [s H]. eapply ops_sound; [exact T|apply empty_sound|exact H]. Qed.
(** an object of the world stays until it is destroyed *)
Theorem ops_live (T : tame) w w' i : sound w -> ops w w' -> live w i -> live w' i \/ In i (rels (w_log w')).
Proof.
  intros HS H Hi. induction H as [|w1 w2 w3 H IH O]; [auto|]. destruct (op_sound T w2 w3 (ops_sound T w1 w2 HS H) O) as [_ D]. destruct (dl_ev _ _ D) as (ev & E & _ & _ & _ & _ & _ & R2). rewrite E, rels_app, in_app_iff.
  destruct (IH HS Hi) as [L|L]; [|auto]. destruct (R2 i L); auto.
Qed.
(** destroying calls come in the log in the order in which they happen *)
Theorem ops_log (T : tame) w w' : sound w -> ops w w' -> exists l, w_log w' = w_log w ++ l.
Proof.
  intros HS H. induction H as [|w1 w2 w3 H IH O]; [exists []; rewrite app_nil_r; reflexivity|]. destruct (IH HS) as [l El]. destruct (op_sound T w2 w3 (ops_sound T w1 w2 HS H) O) as [_ D]. destruct (dl_ev _ _ D) as (ev & E & _). exists (l ++ ev). rewrite E, El, app_assoc. reflexivity.
Qed.
End Hist.
