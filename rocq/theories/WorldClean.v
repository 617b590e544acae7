(** What cleanup does to a world. *)
From Coq Require Import ZArith List Bool Lia Permutation.
From Verif Require Import Num Outcome Box Mat Geom Transform Body Constraint World WorldHoare WorldInv WorldFrame WorldIsland WorldOps WorldCols.
Import ListNotations.

Section Clean.
Context {N : Num} {TR : Trig N} {BH : Behaviour N}.

Lemma existsb_ext {A} (f g : A -> bool) l : (forall x, In x l -> f x = g x) -> existsb f l = existsb g l.
Proof. induction l as [|x l IH]; intros H; cbn; [reflexivity|]. rewrite (H x (or_introl eq_refl)), IH; [reflexivity|]. intros y Hy. apply H. right. exact Hy. Qed.
(** ** Dead objects *)
Definition bdead (die : id -> bool) (w : world) (i : id) : bool := match w_bh w i with Some y => wb_killed y || die i | None => false end.
Definition cdead (die : id -> bool) (w : world) (c : id) : bool :=
  match w_ch w c with Some x => c_killed x || die c || existsb (bdead die w) (con_bodies x) | None => false end.
Definition fdead (die : id -> bool) (w : world) (f : id) : bool := match w_fh w f with Some x => f_killed x || die f | None => false end.
Lemma body_dead_eq die i w : (exists y, w_bh w i = Some y) -> body_dead die i w = Ok (bdead die w i) w.
Proof. intros [y E]. unfold body_dead, bind, body_at, deref, bdead. rewrite E. reflexivity. Qed.
Lemma force_dead_eq die i w : (exists y, w_fh w i = Some y) -> force_dead die i w = Ok (fdead die w i) w.
Proof. intros [y E]. unfold force_dead, bind, force_at, deref, fdead. rewrite E. reflexivity. Qed.
Lemma any_dead_eq die l w : (forall b, In b l -> exists y, w_bh w b = Some y) -> any_dead die l w = Ok (existsb (bdead die w) l) w.
Proof.
  induction l as [|b l IH]; intros H; cbn [any_dead existsb]; [reflexivity|]. unfold bind at 1. rewrite body_dead_eq by (apply H; left; reflexivity).
  destruct (bdead die w b); [reflexivity|]. cbn [orb]. apply IH. intros j Hj. apply H. right. exact Hj.
Qed.
Lemma con_dead_eq die c x w : w_ch w c = Some x -> (forall b, In b (con_bodies x) -> exists y, w_bh w b = Some y) -> con_dead die c w = Ok (cdead die w c) w.
Proof.
  intros E H. unfold con_dead, bind, con_at, deref, cdead. rewrite E. destruct (c_killed x || die c); [reflexivity|]. cbn [orb]. apply any_dead_eq, H.
Qed.
Lemma filt_pure {A} (f : A -> M bool) g l w : (forall x, In x l -> f x w = Ok (g x) w) -> filt f l w = Ok (filter g l) w.
Proof.
  induction l as [|x l IH]; intros H; cbn [filt filter]; [reflexivity|]. unfold bind at 1. rewrite (H x (or_introl eq_refl)). unfold bind. rewrite IH by (intros y Hy; apply H; right; exact Hy). destruct (g x); reflexivity.
Qed.

(** ** Removing a set of constraints and contacts *)
Definition erase_all (L l : list id) : list id := filter (fun j => negb (existsb (Nat.eqb j) L)) l.
Lemma in_erase_all L l j : In j (erase_all L l) <-> In j l /\ ~ In j L.
Proof. unfold erase_all. rewrite filter_In, negb_true_iff, existsb_notin. reflexivity. Qed.
Lemma erase_all_nil l : erase_all [] l = l.
Proof. apply filter_all. reflexivity. Qed.
Lemma erase_all_snoc L c l : erase_all (L ++ [c]) l = erase_id c (erase_all L l).
Proof.
  unfold erase_all, erase_id, World.id in *. induction l as [|j l IH]; cbn; [reflexivity|]. rewrite existsb_app. cbn. rewrite orb_false_r. destruct (existsb (Nat.eqb j) L); cbn; [exact IH|]. destruct (Nat.eqb j c); cbn; [exact IH|f_equal; exact IH].
Qed.
Lemma erase_all_cons (c : id) (L l : list id) : erase_all (c :: L) l = erase_all L (erase_id c l).
Proof.
  unfold erase_all, erase_id, World.id in *. induction l as [|j l IH]; cbn; [reflexivity|]. destruct (Nat.eqb j c); cbn; [exact IH|]. destruct (existsb (Nat.eqb j) L); cbn; [exact IH|f_equal; exact IH].
Qed.
Lemma erase_id_none c l : ~ In c l -> erase_id c l = l.
Proof. intros H. apply filter_all. intros j Hj. apply negb_true_iff, Nat.eqb_neq. intros ->. contradiction. Qed.
Lemma erase_all_app L L' l : erase_all L' (erase_all L l) = erase_all (L ++ L') l.
Proof.
  unfold erase_all, World.id in *. induction l as [|j l IH]; cbn; [reflexivity|]. rewrite existsb_app. destruct (existsb (Nat.eqb j) L); cbn; [exact IH|]. destruct (existsb (Nat.eqb j) L'); cbn; [exact IH|f_equal; exact IH].
Qed.
Lemma erase_all_none L l : (forall c, In c L -> ~ In c l) -> erase_all L l = l.
Proof. intros H. apply filter_all. intros j Hj. apply negb_true_iff, existsb_notin. intros Hn. apply (H j Hn Hj). Qed.
Definition touched (w : world) (L : list id) (b : id) : bool :=
  existsb (fun c => match w_ch w c with Some x => existsb (Nat.eqb b) (con_bodies x) | None => false end) L.
Definition roused (t : bool) (x : body) : body := if t then set_asleep false x else x.
Definition survivor (w : world) (L : list id) (b : id) (y : wbody) : wbody :=
  WB (roused (touched w L b) (wb y)) (wb_killed y) (wb_proxy y) (erase_all L (wb_cs y)) (erase_all L (wb_cts y)).
(** the constraints and contacts of [L] are gone *)
Record cut (w : world) (L : list id) (w' : world) : Prop := {
  ct_b : forall b, w_bh w' b = option_map (survivor w L b) (w_bh w b);
  ct_c : forall c, w_ch w' c = if existsb (Nat.eqb c) L then None else w_ch w c;
  ct_f : w_fh w' = w_fh w; ct_k : w_kh w' = w_kh w; ct_bodies : w_bodies w' = w_bodies w; ct_cons : w_cons w' = erase_all L (w_cons w);
  ct_cts : w_cts w' = filter (fun e => negb (existsb (Nat.eqb (e_con e)) L)) (w_cts w);
  ct_forces : w_forces w' = w_forces w; ct_tree : w_tree w' = w_tree w; ct_set : w_set w' = w_set w; ct_next : w_next w' = w_next w }.
Lemma roused_cols t x : b_colliders (roused t x) = b_colliders x. Proof. destruct t; reflexivity. Qed.
Lemma map_econ_filter (L : list id) es : map e_con (filter (fun e => negb (existsb (Nat.eqb (e_con e)) L)) es) = erase_all L (map e_con es).
Proof. unfold erase_all. induction es as [|e es IH]; cbn; [reflexivity|]. destruct (existsb (Nat.eqb (e_con e)) L); cbn; [exact IH|f_equal; exact IH]. Qed.
Lemma erase_all_cat L a b : erase_all L (a ++ b) = erase_all L a ++ erase_all L b. Proof. apply filter_app. Qed.
Lemma links_cut bh ch bh' ch' ids L sel : links bh ch ids sel -> (forall c, ch' c = if existsb (Nat.eqb c) L then None else ch c) ->
  (forall b y', bh' b = Some y' -> exists y, bh b = Some y /\ sel y' = erase_all L (sel y)) -> links bh' ch' (erase_all L ids) sel.
Proof.
  intros HL HC HB b y' E'. destruct (HB b y' E') as (y & E & ->). destruct (HL b y E) as [A1 A2]. split; [apply NoDup_filter, A1|]. intros c. rewrite !in_erase_all, A2, (HC c).
  destruct (existsb (Nat.eqb c) L) eqn:EX; [apply existsb_in in EX; split; [tauto|intros [_ (? & ? & _)]; discriminate]|]. apply existsb_notin in EX. tauto.
Qed.
Lemma cut_good w L w' : SInv w -> cut w L w' -> SInv w'.
Proof.
  intros [B C F E L1 L2 K Tc Z] [HB HC Hf Hk Hbs Hcs Hct Hfs Htr Hset Hn].
  assert (HBS : forall b y', w_bh w' b = Some y' -> exists y, w_bh w b = Some y /\ y' = survivor w L b y) by (intros b y' E'; rewrite HB in E'; destruct (w_bh w b) as [y|]; [injection E' as <-; eauto|discriminate]).
  assert (HLV : forall b, (exists y, w_bh w b = Some y) <-> (exists y, w_bh w' b = Some y)) by (intros b; rewrite HB; destruct (w_bh w b); cbn; split; intros [? ?]; try discriminate; eauto).
  assert (HCS : forall c x, w_ch w' c = Some x -> w_ch w c = Some x /\ ~ In c L) by (intros c x; rewrite HC; destruct (existsb (Nat.eqb c) L) eqn:EX; [discriminate|]; apply existsb_notin in EX; auto).
  constructor; rewrite ?Hf, ?Hk, ?Hbs, ?Hcs, ?Hct, ?Hfs, ?Htr, ?Hn, ?map_econ_filter; auto.
  - split; [apply B|]. intros i. rewrite <- HLV. apply B.
  - rewrite <- erase_all_cat. split; [apply NoDup_filter, C|]. intros i. rewrite in_erase_all, (proj2 C i), HC. destruct (existsb (Nat.eqb i) L) eqn:EX; [apply existsb_in in EX; split; [tauto|intros [? ?]; discriminate]|]. apply existsb_notin in EX. tauto.
  - intros c x Ex b Hb. apply HLV. destruct (HCS c x Ex). eauto.
  - eapply links_cut; [exact L1|exact HC|]. intros b y' E'. destruct (HBS b y' E') as (y & Ey & ->). exists y. auto.
  - eapply links_cut; [exact L2|exact HC|]. intros b y' E'. destruct (HBS b y' E') as (y & Ey & ->). exists y. auto.
  - eapply cols_keep; [exact K| |intros b; apply HLV]. intros b y' E'. destruct (HBS b y' E') as (y & Ey & ->). exists y. split; [exact Ey|apply roused_cols].
  - eapply contacts_sub; [exact Tc|intros e He; apply filter_In in He; tauto|]. intros e He. apply filter_In in He. destruct He as [_ He]. apply negb_true_iff in He. rewrite HC, He. reflexivity.
  - intros i Hi. destruct (Z i Hi) as (Z1 & Z2 & Z3 & Z4). rewrite HB, HC, Z1, Z2. destruct (existsb _ _); auto.
Qed.
Lemma cut_idle w L w' : idle w -> cut w L w' -> idle w'.
Proof.
  intros (I1 & I2 & I3) [HB HC Hf Hk Hbs Hcs Hct Hfs Htr Hset Hn]. split; [|split].
  - intros b y' E'. rewrite HB in E'. destruct (w_bh w b) as [y|] eqn:E; [|discriminate]. injection E' as <-. apply (I1 b y E).
  - intros c x. rewrite HC. destruct (existsb _ _); [discriminate|]. apply I2.
  - rewrite Hct. intros e He. apply filter_In in He. apply I3, He.
Qed.

(** the effect on one body of erasing one constraint from its lists *)
Definition drop1 (ct : bool) (c : id) (y : wbody) : wbody := if ct then with_cts y (erase_id c (wb_cts y)) else with_cs y (erase_id c (wb_cs y)).
Lemma drop_step (ct : bool) w L (h h' : heap wbody) c x : SInv w -> w_ch w c = Some x -> (if ct then In c (map e_con (w_cts w)) else In c (w_cons w)) ->
  (forall b, h b = option_map (survivor w L b) (w_bh w b)) -> bmap (con_bodies x) (fun y => wakeup (drop1 ct c y)) h h' ->
  forall b, h' b = option_map (survivor w (L ++ [c]) b) (w_bh w b).
Proof.
  intros S Ex Hc H Hm b. rewrite (Hm b), (H b). destruct (w_bh w b) as [y|] eqn:Ey; [|destruct (existsb _ _); reflexivity]. cbn [option_map].
  assert (ND := proj1 (i_cons _ S)). apply nodup_app in ND. destruct ND as (_ & _ & ND).
  assert (Hcs : In c (wb_cs y) -> ct = false /\ In b (con_bodies x)).
  { intros Hi. apply (i_cs _ S b y Ey) in Hi. destruct Hi as [Hi (z & Ez & Hz)]. rewrite Ex in Ez. injection Ez as <-. split; [|exact Hz]. destruct ct; [destruct (ND c Hi Hc)|reflexivity]. }
  assert (Hct : In c (wb_cts y) -> ct = true /\ In b (con_bodies x)).
  { intros Hi. apply (i_cts _ S b y Ey) in Hi. destruct Hi as [Hi (z & Ez & Hz)]. rewrite Ex in Ez. injection Ez as <-. split; [|exact Hz]. destruct ct; [reflexivity|destruct (ND c Hc Hi)]. }
  unfold survivor. rewrite !erase_all_snoc. unfold touched. rewrite existsb_app. cbn [existsb]. rewrite Ex, orb_false_r.
  assert (HE : forall l, (In c l -> False) -> erase_id c (erase_all L l) = erase_all L l) by (intros l Hl; apply erase_id_none; intros Hi; apply in_erase_all in Hi; tauto).
  destruct (existsb (Nat.eqb b) (con_bodies x)) eqn:EX.
  - rewrite orb_true_r. cbn [roused]. unfold wakeup, drop1, with_cts, with_cs, with_wb. destruct ct; cbn [option_map].
    + rewrite (HE (wb_cs y)) by (intros Hi; apply Hcs in Hi; destruct Hi; discriminate). cbn. f_equal. f_equal. unfold roused. destruct (existsb _ L); reflexivity.
    + rewrite (HE (wb_cts y)) by (intros Hi; apply Hct in Hi; destruct Hi; discriminate). cbn. f_equal. f_equal. unfold roused. destruct (existsb _ L); reflexivity.
  - rewrite orb_false_r. apply existsb_notin in EX. rewrite !HE; [reflexivity|intros Hi; apply Hct in Hi; tauto|intros Hi; apply Hcs in Hi; tauto].
Qed.
Lemma survivor_nil (w : world) (h : heap wbody) : (forall b, h b = w_bh w b) -> forall b, h b = option_map (survivor w [] b) (w_bh w b).
Proof. intros H b. rewrite H. destruct (w_bh w b) as [[]|]; [|reflexivity]. cbn. unfold survivor. rewrite !erase_all_nil. reflexivity. Qed.
Lemma survivor_live w L (h : heap wbody) : (forall b, h b = option_map (survivor w L b) (w_bh w b)) -> forall b, (exists y, w_bh w b = Some y) -> exists y, h b = Some y.
Proof. intros H b [y E]. rewrite H, E. cbn. eauto. Qed.

(** ** The contacts *)
(** only bodies, constraints and the log change *)
Definition patch (w : world) (h : heap wbody) (g : heap wcon) (l : list event) : world := set_log (set_ch (set_bh w h) g) l.
Definition deads (die : id -> bool) (w : world) (es : list entry) : list id := map e_con (filter (fun e => cdead die w (e_con e)) es).
Lemma clean_contacts die w : SInv w -> forall es2 es1 (h : heap wbody) (g : heap wcon) l, w_cts w = es1 ++ es2 ->
  (forall b, h b = option_map (survivor w (deads die w es1) b) (w_bh w b)) -> (forall c, g c = if existsb (Nat.eqb c) (deads die w es1) then None else w_ch w c) ->
  exists h' g', filt (clean_contact die) es2 (patch w h g l) = Ok (filter (fun e => negb (cdead die w (e_con e))) es2) (patch w h' g' (l ++ map Released (deads die w es2))) /\
    (forall b, h' b = option_map (survivor w (deads die w (es1 ++ es2)) b) (w_bh w b)) /\ (forall c, g' c = if existsb (Nat.eqb c) (deads die w (es1 ++ es2)) then None else w_ch w c).
Proof.
  intros HS. induction es2 as [|e es2 IH]; intros es1 h g l Ees Hh Hg; cbn [filt filter].
  - exists h, g. rewrite app_nil_r. cbn. rewrite app_nil_r. auto.
  - assert (He : In e (w_cts w)) by (rewrite Ees; apply in_or_app; right; left; reflexivity).
    destruct (ent_live w e HS He) as [x Ex]. pose proof (i_ends _ HS _ _ Ex) as HE.
    assert (NE : ~ In (e_con e) (deads die w es1)).
    { intros Hi. unfold deads in Hi. apply in_map_iff in Hi. destruct Hi as (e' & E' & Hi). apply filter_In in Hi. destruct Hi as [Hi _].
      assert (ND := proj1 (i_cons _ HS)). apply nodup_app in ND. destruct ND as (_ & ND & _). rewrite Ees, map_app in ND. apply nodup_app in ND. destruct ND as (_ & _ & ND). apply (ND (e_con e')); [apply in_map, Hi|rewrite E'; left; reflexivity]. }
    assert (Eg : g (e_con e) = Some x) by (rewrite Hg, (proj2 (existsb_notin _ _) NE); exact Ex).
    assert (HEh : forall b, In b (con_bodies x) -> exists y, h b = Some y) by (intros b Hb; eapply survivor_live; eauto).
    assert (HD : cdead die (patch w h g l) (e_con e) = cdead die w (e_con e)).
    { unfold cdead. cbn [patch w_ch set_log set_ch set_bh]. rewrite Eg, Ex. f_equal. apply existsb_ext. intros b Hb. unfold bdead. cbn. rewrite Hh. destruct (w_bh w b); reflexivity. }
    assert (HC : con_dead die (e_con e) (patch w h g l) = Ok (cdead die w (e_con e)) (patch w h g l)) by (rewrite <- HD; apply (con_dead_eq die (e_con e) x); [exact Eg|exact HEh]).
    assert (EesX : w_cts w = (es1 ++ [e]) ++ es2) by (rewrite Ees, <- app_assoc; reflexivity).
    destruct (cdead die w (e_con e)) eqn:EC; cbn [negb].
    + destruct (touch_spec (fun y => with_cts y (erase_id (e_con e) (wb_cts y))) (con_bodies x) (patch w h g l) (con_bodies_nd x) HEh) as (h1 & Et & Hm).
      assert (EQ : clean_contact die e (patch w h g l) = Ok false (patch w h1 (del g (e_con e)) (l ++ [Released (e_con e)]))).
      { unfold clean_contact, bind at 1. rewrite HC. unfold bind at 1, con_at, deref. cbn [patch w_ch set_log set_ch set_bh]. rewrite Eg. unfold bind at 1. rewrite Et. reflexivity. }
      assert (DE : deads die w (es1 ++ [e]) = deads die w es1 ++ [e_con e]) by (unfold deads; rewrite filter_app, map_app; cbn; rewrite EC; reflexivity).
      destruct (IH (es1 ++ [e]) h1 (del g (e_con e)) (l ++ [Released (e_con e)]) EesX) as (h' & g' & E' & Hh' & Hg').
      * rewrite DE. apply (drop_step true w (deads die w es1) h h1 (e_con e) x); auto. apply in_map, He.
      * rewrite DE. intros c. rewrite existsb_app. cbn. rewrite orb_false_r. unfold del. rewrite Hg. destruct (Nat.eqb c (e_con e)); [rewrite orb_true_r; reflexivity|rewrite orb_false_r; reflexivity].
      * exists h', g'. unfold bind at 1. rewrite EQ. unfold bind at 1. rewrite E'. rewrite <- app_assoc in Hh', Hg'. split; [|auto]. unfold ret. f_equal. unfold deads. cbn [filter]. rewrite EC. cbn [map]. rewrite <- app_assoc. reflexivity.
    + assert (EQ : clean_contact die e (patch w h g l) = Ok true (patch w h g l)) by (unfold clean_contact, bind at 1; rewrite HC; reflexivity).
      assert (DE : deads die w (es1 ++ [e]) = deads die w es1) by (unfold deads; rewrite filter_app, map_app; cbn; rewrite EC; cbn; rewrite app_nil_r; reflexivity).
      destruct (IH (es1 ++ [e]) h g l EesX) as (h' & g' & E' & Hh' & Hg').
      * rewrite DE. exact Hh.
      * rewrite DE. exact Hg.
      * exists h', g'. unfold bind at 1. rewrite EQ. unfold bind at 1. rewrite E'. rewrite <- app_assoc in Hh', Hg'. split; [|auto]. unfold ret. f_equal. unfold deads. cbn [filter]. rewrite EC. reflexivity.
Qed.

(** ** The constraints *)
Lemma detach_all w : SInv w -> forall l2 l1 (h : heap wbody), incl l2 (w_cons w) -> (forall b, h b = option_map (survivor w l1 b) (w_bh w b)) ->
  exists h', iter detach_con l2 (set_bh w h) = Ok tt (set_bh w h') /\ forall b, h' b = option_map (survivor w (l1 ++ l2) b) (w_bh w b).
Proof.
  intros HS. induction l2 as [|c l2 IH]; intros l1 h HI Hh; cbn [iter].
  - exists h. rewrite app_nil_r. auto.
  - assert (Hc : In c (w_cons w)) by (apply HI; left; reflexivity). assert (Hx : exists x, w_ch w c = Some x) by (apply (i_cons _ HS), in_or_app; auto). destruct Hx as [x Ex].
    assert (HE : forall b, In b (con_bodies x) -> exists y, w_bh (set_bh w h) b = Some y) by (intros b Hb; cbn; eapply survivor_live; [exact Hh|]; eapply (i_ends _ HS); eassumption).
    destruct (touch_spec (fun y => with_cs y (erase_id c (wb_cs y))) (con_bodies x) (set_bh w h) (con_bodies_nd x) HE) as (h1 & Et & Hm).
    destruct (IH (l1 ++ [c]) h1) as (h' & E' & Hh'); [intros j Hj; apply HI; right; exact Hj|apply (drop_step false w l1 h h1 c x); auto|].
    exists h'. rewrite <- app_assoc in Hh'. split; [|exact Hh']. unfold bind at 1. unfold detach_con at 1. unfold bind at 1, con_at, deref. cbn [w_ch set_bh]. rewrite Ex, Et. exact E'.
Qed.
Lemma iter_log (f : id -> event) (l : list id) : forall w, iter (fun i => log (f i)) l w = Ok tt (set_log w (w_log w ++ map f l)).
Proof. induction l as [|i l IH]; intros w; cbn [iter map]; [rewrite app_nil_r; destruct w; reflexivity|]. unfold bind, log, modify in *. rewrite IH. cbn. rewrite <- app_assoc. reflexivity. Qed.
Lemma release_cons (l : list id) : forall w, exists g, iter release_con l w = Ok tt (set_log (set_cons (set_ch w g) (erase_all l (w_cons w))) (w_log w ++ map Released l)) /\ forall c, g c = if existsb (Nat.eqb c) l then None else w_ch w c.
Proof.
  induction l as [|i l IH]; intros w; cbn [iter map].
  - exists (w_ch w). rewrite erase_all_nil, app_nil_r. split; [destruct w; reflexivity|reflexivity].
  - unfold bind at 1. unfold release_con at 1. unfold bind at 1, modify at 1, log, modify. cbv beta iota. set (w1 := set_log _ _). destruct (IH w1) as (g & E & Hg). exists g. rewrite E. split.
    + f_equal. unfold w1. cbn [w_log w_cons set_log set_cons set_ch]. rewrite <- app_assoc, erase_all_cons. reflexivity.
    + intros c. rewrite Hg. cbn. unfold del. destruct (Nat.eqb c i); cbn; [destruct (existsb _ _); reflexivity|reflexivity].
Qed.
Lemma release_forces (l : list id) : forall w, exists g, iter release_force l w = Ok tt (set_log (set_forces (set_fh w g) (erase_all l (w_forces w))) (w_log w ++ map Released l)) /\ forall c, g c = if existsb (Nat.eqb c) l then None else w_fh w c.
Proof.
  induction l as [|i l IH]; intros w; cbn [iter map].
  - exists (w_fh w). rewrite erase_all_nil, app_nil_r. split; [destruct w; reflexivity|reflexivity].
  - unfold bind at 1. unfold release_force at 1. unfold bind at 1, modify at 1, log, modify. cbv beta iota. set (w1 := set_log _ _). destruct (IH w1) as (g & E & Hg). exists g. rewrite E. split.
    + f_equal. unfold w1. cbn [w_log w_forces set_log set_forces set_fh]. rewrite <- app_assoc, erase_all_cons. reflexivity.
    + intros c. rewrite Hg. cbn. unfold del. destruct (Nat.eqb c i); cbn; [destruct (existsb _ _); reflexivity|reflexivity].
Qed.
Lemma SInv_forces w (g : heap wforce) l k : SInv w -> (forall c, g c = if existsb (Nat.eqb c) l then None else w_fh w c) -> SInv (set_log (set_forces (set_fh w g) (erase_all l (w_forces w))) k).
Proof.
  intros [B C F E L1 L2 K Tc Z] Hg. constructor; cbn; auto.
  - split; [apply NoDup_filter, F|]. intros i. rewrite in_erase_all, (proj2 F i), Hg. destruct (existsb (Nat.eqb i) l) eqn:EX; [apply existsb_in in EX; split; [tauto|intros [? ?]; discriminate]|]. apply existsb_notin in EX. tauto.
  - intros i Hi. destruct (Z i Hi) as (Z1 & Z2 & Z3 & Z4). rewrite Hg, Z3. destruct (existsb _ _); auto.
Qed.

(** ** The bodies *)
Lemma con_same_eq x x' : con_same x x' -> c_px x' = c_px x -> c_st x' = c_st x -> c_killed x' = c_killed x -> x' = x.
Proof. intros [] H1 H2 H3. destruct x, x'. cbn in *. congruence. Qed.
Definition keep_cols (w : world) (l : list id) (k : id) : option wcol := match w_kh w k with Some x => if existsb (Nat.eqb (k_body x)) l then None else Some x | None => None end.
Record buried (w : world) (l : list id) (w' : world) : Prop := {
  bu_b : forall j, w_bh w' j = if existsb (Nat.eqb j) l then None else w_bh w j;
  bu_c : forall c, w_ch w' c = w_ch w c; bu_f : w_fh w' = w_fh w; bu_k : forall k, w_kh w' k = keep_cols w l k;
  bu_bodies : w_bodies w' = erase_all l (w_bodies w); bu_cons : w_cons w' = w_cons w; bu_cts : w_cts w' = w_cts w; bu_forces : w_forces w' = w_forces w;
  bu_set : w_set w' = w_set w; bu_next : w_next w' = w_next w; bu_log : w_log w' = w_log w ++ map Released l }.
Lemma release_one w b y : SInv w -> w_bh w b = Some y -> (forall c x, w_ch w c = Some x -> ~ In b (con_bodies x)) ->
  exists w', release_body false b w = Ok tt w' /\ SInv w' /\ buried w [b] w'.
Proof.
  intros HS Ey HN. destruct (destroy_body_spec b y w (i_cols _ HS) Ey) as (w1 & SP & ED).
  { destruct (i_cts _ HS b y Ey) as [A1 A2]. split; [exact A1|]. intros t Ht. apply A2 in Ht. destruct Ht as [_ (x & Ex & Hx)]. exists x. split; [exact Ex|]. apply in_bodies, Hx. }
  unfold release_body, bind at 1. rewrite ED. unfold modify. eexists. split; [reflexivity|].
  set (w' := set_bodies _ _). destruct SP as [(y' & E' & HI & Hcs & Hct) SO SC SK SH SF Sb Sc St Sf Ss Sn Sl].
  assert (BU : buried w [b] w').
  { constructor; cbn; rewrite ?SF, ?Sb, ?Sc, ?St, ?Sf, ?Ss, ?Sn; auto.
    - intros j. rewrite orb_false_r. unfold del. destruct (Nat.eqb_spec j b) as [->|n]; [reflexivity|apply SO, n].
    - intros c. specialize (SC c). destruct (w_ch w c) as [x|] eqn:Ex, (w_ch w1 c) as [x'|]; try contradiction; [|reflexivity]. destruct SC as (S1 & S2 & S3 & S4). f_equal. apply con_same_eq; auto.
      destruct S4 as [S4|S4]; [exact S4|]. exfalso. apply (HN c x Ex). apply in_bodies. destruct S4; auto.
    - intros k. unfold keep_cols. cbn. rewrite SH. destruct (w_kh w k); [|reflexivity]. rewrite orb_false_r. reflexivity.
    - rewrite (erase_all_snoc [] b), erase_all_nil. reflexivity. }
  split; [|exact BU]. destruct BU as [Bb Bc Bf Bk Bbs Bcs Bct Bfs Bset Bn Bl].
  assert (HBS : forall j z, w_bh w' j = Some z -> j <> b /\ w_bh w j = Some z) by (intros j z; rewrite Bb; cbn; rewrite orb_false_r; destruct (Nat.eqb_spec j b); [discriminate|auto]).
  destruct HS as [B C F E L1 L2 K Tc Z]. constructor; rewrite ?Bcs, ?Bct, ?Bf, ?Bfs, ?Bn; auto.
  - rewrite Bbs, (erase_all_snoc [] b), erase_all_nil. split; [apply nodup_erase, B|]. intros j. rewrite in_erase, (proj2 B j), Bb. cbn. rewrite orb_false_r. destruct (Nat.eqb_spec j b); [split; [tauto|intros [? ?]; discriminate]|tauto].
  - split; [apply C|]. intros i. rewrite Bc. apply C.
  - intros c x Ex j Hj. rewrite Bc in Ex. destruct (E c x Ex j Hj) as [z Ez]. exists z. rewrite Bb. cbn. rewrite orb_false_r. destruct (Nat.eqb_spec j b) as [->|]; [|exact Ez]. destruct (HN c x Ex Hj).
  - eapply links_ext; [exact L1|intros j z Ez; apply HBS in Ez; exists z; tauto|]. intros c _ j. rewrite Bc. reflexivity.
  - eapply links_ext; [exact L2|intros j z Ez; apply HBS in Ez; exists z; tauto|]. intros c _ j. rewrite Bc. reflexivity.
  - destruct SK as (K1 & K2 & K3 & K4 & K5). cbn. split; [exact K1|]. split; [exact K2|]. split; [|split; [|exact K5]].
    + intros k x Ex. destruct (K3 k x Ex) as [z Ez]. exists z. apply del_some. split; [|exact Ez]. intros Hb. rewrite SH in Ex. destruct (w_kh w k) as [x0|]; [|discriminate]. destruct (Nat.eqb_spec (k_body x0) b); [discriminate|]. injection Ex as <-. contradiction.
    + intros j z Ez. apply del_some in Ez. apply (K4 j z), Ez.
  - destruct Tc as ((A & T1 & T2) & T3 & T4). split; [|split; [|exact T4]].
    + exists A. split; [intros k x; rewrite Bk; unfold keep_cols; destruct (w_kh w k) as [x0|] eqn:Ek; [|discriminate]; destruct (existsb _ _); [discriminate|]; intros Eq; injection Eq as <-; eauto|].
      intros e He. destruct (T2 e He) as (x & q0 & q1 & X1 & X2 & X3 & X4 & X5). exists x, q0, q1. rewrite Bc. split; [exact X1|]. split; [exact X2|]. split; [exact X3|]. split; [exact X4|].
      intros Hk. destruct (X5 Hk) as [(z0 & O0 & P0) (z1 & O1 & P1)]. unfold owned. rewrite !Bk. unfold keep_cols. rewrite O0, O1. cbn. rewrite !orb_false_r.
      assert (H0 : ~ In b (con_bodies x)) by (apply (HN _ _ X1)). rewrite in_bodies in H0. rewrite P0, P1. destruct (Nat.eqb_spec (c_b0 x) b); [exfalso; auto|]. destruct (Nat.eqb_spec (c_b1 x) b); [exfalso; auto|]. split; [exists z0|exists z1]; auto.
    + intros e q0 q1 x He Ex. rewrite Bc in Ex. apply (T3 e q0 q1 x He Ex).
  - intros i Hi. destruct (Z i Hi) as (Z1 & Z2 & Z3 & Z4). rewrite Bb, Bc, Bk. unfold keep_cols. rewrite Z1, Z4. destruct (existsb _ _); auto.
Qed.
Lemma release_bodies l : forall w, SInv w -> NoDup l -> (forall b, In b l -> exists y, w_bh w b = Some y) -> (forall b c x, In b l -> w_ch w c = Some x -> ~ In b (con_bodies x)) ->
  exists w', iter (release_body false) l w = Ok tt w' /\ SInv w' /\ buried w l w'.
Proof.
  induction l as [|b l IH]; intros w HS ND HL HN; cbn [iter].
  - exists w. split; [reflexivity|]. split; [exact HS|]. constructor; auto; [|rewrite erase_all_nil; reflexivity|rewrite app_nil_r; reflexivity]. intros k. unfold keep_cols. cbn. destruct (w_kh w k); reflexivity.
  - apply NoDup_cons_iff in ND. destruct ND as [Hb ND]. destruct (HL b (or_introl eq_refl)) as [y Ey].
    destruct (release_one w b y HS Ey) as (w1 & E1 & S1 & B1); [intros c x Ex; apply (HN b c x (or_introl eq_refl) Ex)|]. destruct B1 as [Bb Bc Bf Bk Bbs Bcs Bct Bfs Bset Bn Bl].
    destruct (IH w1 S1 ND) as (w2 & E2 & S2 & B2).
    + intros j Hj. rewrite Bb. cbn. rewrite orb_false_r. destruct (Nat.eqb_spec j b) as [->|]; [contradiction|]. apply HL. right. exact Hj.
    + intros j c x Hj Ex. rewrite Bc in Ex. apply (HN j c x (or_intror Hj) Ex).
    + exists w2. unfold bind. rewrite E1. split; [exact E2|]. split; [exact S2|]. destruct B2 as [Cb Cc Cf Ck Cbs Ccs Cct Cfs Cset Cn Cl]. constructor; try congruence.
      * intros j. rewrite Cb, Bb. cbn. rewrite orb_false_r. destruct (Nat.eqb j b); cbn; [destruct (existsb _ _); reflexivity|reflexivity].
      * intros k. rewrite Ck. unfold keep_cols. rewrite Bk. unfold keep_cols. cbn. destruct (w_kh w k) as [x|]; [|reflexivity]. rewrite orb_false_r. destruct (Nat.eqb (k_body x) b); cbn; reflexivity.
      * rewrite Cbs, Bbs, erase_all_app. reflexivity.
      * rewrite Cl, Bl, <- app_assoc. reflexivity.
Qed.

(** ** cleanup *)
Definition removed_cons (die : id -> bool) (w : world) : list id := map e_con (filter (fun e => cdead die w (e_con e)) (w_cts w)) ++ filter (cdead die w) (w_cons w).
Record cleaned (die : id -> bool) (w w' : world) : Prop := {
  cl_bodies : w_bodies w' = filter (fun b => negb (bdead die w b)) (w_bodies w);
  cl_cons : w_cons w' = filter (fun c => negb (cdead die w c)) (w_cons w);
  cl_cts : w_cts w' = filter (fun e => negb (cdead die w (e_con e))) (w_cts w);
  cl_forces : w_forces w' = filter (fun f => negb (fdead die w f)) (w_forces w);
  cl_b : forall b, w_bh w' b = if bdead die w b then None else option_map (survivor w (removed_cons die w) b) (w_bh w b);
  cl_c : forall c, w_ch w' c = if cdead die w c then None else w_ch w c;
  cl_f : forall f, w_fh w' f = if fdead die w f then None else w_fh w f;
  cl_k : forall k, w_kh w' k = match w_kh w k with Some x => if bdead die w (k_body x) then None else Some x | None => None end;
  cl_set : w_set w' = w_set w; cl_next : w_next w' = w_next w;
  cl_log : let dt := map e_con (filter (fun e => cdead die w (e_con e)) (w_cts w)) in let dc := filter (cdead die w) (w_cons w) in
           let df := filter (fdead die w) (w_forces w) in let db := filter (bdead die w) (w_bodies w) in
    w_log w' = w_log w ++ map Released dt ++ map Notified (dc ++ df ++ db) ++ map Released (dc ++ df ++ db) }.
Lemma erase_dead (f : id -> bool) l : NoDup l -> erase_all (filter f l) l = filter (fun x => negb (f x)) l.
Proof.
  intros _. unfold erase_all. apply filter_ext_in. intros j Hj. f_equal. destruct (f j) eqn:E.
  - apply existsb_in, filter_In. auto.
  - apply existsb_notin. intros H. apply filter_In in H. destruct H. congruence.
Qed.
Lemma existsb_filter_in (f : id -> bool) l j : In j l -> existsb (Nat.eqb j) (filter f l) = f j.
Proof.
  intros Hj. destruct (f j) eqn:E; [apply existsb_in, filter_In; auto|]. apply existsb_notin. intros H. apply filter_In in H. destruct H. congruence.
Qed.
Theorem cleanup_spec die w : SInv w -> idle w -> exists w', cleanup false die w = Ok tt w' /\ SInv w' /\ idle w' /\ cleaned die w w'.
Proof.
  intros HS HI. set (Dt := deads die w (w_cts w)).
  destruct (clean_contacts die w HS (w_cts w) [] (w_bh w) (w_ch w) (w_log w) eq_refl) as (h1 & g1 & E1 & Hh1 & Hg1); [apply survivor_nil; reflexivity|reflexivity|]. cbn [app] in Hh1, Hg1. fold Dt in E1, Hh1, Hg1.
  set (es' := filter (fun e => negb (cdead die w (e_con e))) (w_cts w)) in *. set (w1 := set_cts (patch w h1 g1 (w_log w ++ map Released Dt)) es').
  assert (NDc := proj1 (i_cons _ HS)). apply nodup_app in NDc. destruct NDc as (NDc & NDt & NDx).
  assert (Hdt : forall e, In e (w_cts w) -> existsb (Nat.eqb (e_con e)) Dt = cdead die w (e_con e)).
  { intros e He. destruct (cdead die w (e_con e)) eqn:EC; [apply existsb_in, in_map, filter_In; auto|]. apply existsb_notin. intros Hi. apply in_map_iff in Hi. destruct Hi as (e' & Ee & Hi). apply filter_In in Hi. rewrite Ee in Hi. destruct Hi. congruence. }
  assert (Hdc : forall c, In c (w_cons w) -> ~ In c Dt).
  { intros c Hc Hi. apply in_map_iff in Hi. destruct Hi as (e' & Ee & Hi). apply filter_In in Hi. apply (NDx c Hc). rewrite <- Ee. apply in_map, Hi. }
  assert (CT1 : cut w Dt w1).
  { constructor; cbn; auto.
    - symmetry. apply erase_all_none. intros c H1 H2. apply (Hdc c H2 H1).
    - unfold es'. apply filter_ext_in. intros e He. f_equal. symmetry. apply Hdt, He. }
  pose proof (cut_good _ _ _ HS CT1) as S1. pose proof (cut_idle _ _ _ HI CT1) as I1.
  assert (BD1 : forall b, bdead die w1 b = bdead die w b) by (intros b; unfold bdead; rewrite (ct_b _ _ _ CT1); destruct (w_bh w b); reflexivity).
  assert (CD1 : forall c, ~ In c Dt -> cdead die w1 c = cdead die w c).
  { intros c Hc. unfold cdead. rewrite (ct_c _ _ _ CT1), (proj2 (existsb_notin _ _) Hc). destruct (w_ch w c) as [x|]; [|reflexivity]. f_equal. apply existsb_ext. intros b _. apply BD1. }
  set (dc := filter (cdead die w) (w_cons w)). set (df := filter (fdead die w) (w_forces w)). set (db := filter (bdead die w) (w_bodies w)).
  assert (E2 : filt (con_dead die) (w_cons w1) w1 = Ok dc w1).
  { rewrite (filt_pure _ (cdead die w1)).
    - f_equal. apply filter_ext_in. intros c Hc. apply CD1, Hdc, Hc.
    - intros c Hc. assert (Hx : exists x, w_ch w1 c = Some x) by (apply (i_cons _ S1), in_or_app; auto). destruct Hx as [x Ex]. eapply con_dead_eq; [exact Ex|]. apply (i_ends _ S1 c x Ex). }
  assert (E3 : filt (force_dead die) (w_forces w1) w1 = Ok df w1) by (change df with (filter (fdead die w1) (w_forces w1)); apply filt_pure; intros f Hf; apply force_dead_eq, (i_forces _ S1), Hf).
  assert (E4 : filt (body_dead die) (w_bodies w1) w1 = Ok db w1).
  { rewrite (filt_pure _ (bdead die w1)); [f_equal; apply filter_ext; intros b; apply BD1|]. intros b Hb. apply body_dead_eq, (i_bodies _ S1), Hb. }
  destruct (detach_all w1 S1 dc [] (w_bh w1)) as (h2 & E5 & Hh2); [intros c Hc; apply filter_In in Hc; apply Hc|apply survivor_nil; reflexivity|]. cbn [app] in Hh2.
  set (w2 := set_bh w1 h2). set (w3 := set_log w2 (w_log w2 ++ map Notified (dc ++ df ++ db))).
  destruct (release_cons dc w3) as (g4 & E6 & Hg4). set (w4 := set_log (set_cons (set_ch w3 g4) (erase_all dc (w_cons w3))) (w_log w3 ++ map Released dc)) in *.
  assert (Hnc : forall e, In e es' -> ~ In (e_con e) dc) by (intros e He Hc; apply filter_In in Hc; apply filter_In in He; apply (NDx (e_con e)); [apply Hc|apply in_map, He]).
  assert (CT2 : cut w1 dc w4).
  { constructor; cbn; auto. symmetry. apply filter_all. intros e He. apply negb_true_iff, existsb_notin, Hnc, He. }
  pose proof (cut_good _ _ _ S1 CT2) as S4. pose proof (cut_idle _ _ _ I1 CT2) as I4.
  destruct (release_forces df w4) as (g5 & E7 & Hg5). set (w5 := set_log (set_forces (set_fh w4 g5) (erase_all df (w_forces w4))) (w_log w4 ++ map Released df)) in *.
  assert (S5 : SInv w5) by (apply SInv_forces; assumption).
  assert (HCH : forall c, w_ch w5 c = if cdead die w c then None else w_ch w c).
  { intros c. change (w_ch w5 c) with (w_ch w4 c). rewrite (ct_c _ _ _ CT2), (ct_c _ _ _ CT1). destruct (w_ch w c) as [x|] eqn:Ex.
    - pose proof (in_w_cons w c x HS Ex) as Hin. apply in_app_iff in Hin. destruct Hin as [Hin|Hin].
      + unfold dc. rewrite (existsb_filter_in _ _ _ Hin), (proj2 (existsb_notin _ _) (Hdc c Hin)). reflexivity.
      + apply in_map_iff in Hin. destruct Hin as (e & <- & He). rewrite (Hdt e He). destruct (cdead die w (e_con e)); [destruct (existsb (Nat.eqb (e_con e)) dc); reflexivity|].
        destruct (existsb (Nat.eqb (e_con e)) dc) eqn:EX; [|reflexivity]. apply existsb_in, filter_In in EX. destruct EX as [EX _]. destruct (NDx _ EX (in_map e_con _ _ He)).
    - destruct (existsb (Nat.eqb c) dc), (existsb (Nat.eqb c) Dt), (cdead die w c); reflexivity. }
  assert (HBH : forall b, w_bh w5 b = option_map (survivor w (Dt ++ dc) b) (w_bh w b)).
  { intros b. change (w_bh w5 b) with (w_bh w4 b). rewrite (ct_b _ _ _ CT2), (ct_b _ _ _ CT1). destruct (w_bh w b) as [y|]; [|reflexivity]. cbn [option_map]. f_equal. unfold survivor. cbn [wb wb_killed wb_proxy wb_cs wb_cts]. rewrite !erase_all_app. f_equal.
    assert (HT : touched w (Dt ++ dc) b = touched w Dt b || touched w1 dc b).
    { unfold touched. rewrite existsb_app. f_equal. apply existsb_ext. intros c Hc. rewrite (ct_c _ _ _ CT1). apply filter_In in Hc. rewrite (proj2 (existsb_notin _ _) (Hdc c (proj1 Hc))). reflexivity. }
    rewrite HT. destruct (touched w Dt b), (touched w1 dc b); reflexivity. }
  destruct (release_bodies db w5 S5) as (w6 & E8 & S6 & BU).
  - apply NoDup_filter, (i_bodies _ HS).
  - intros b Hb. apply filter_In in Hb. destruct Hb as [Hb _]. apply (i_bodies _ HS) in Hb. destruct Hb as [y Ey]. rewrite HBH, Ey. cbn. eauto.
  - intros b c x Hb Ex Hx. apply filter_In in Hb. destruct Hb as [_ Hb]. rewrite HCH in Ex. destruct (cdead die w c) eqn:EC; [discriminate|]. unfold cdead in EC. rewrite Ex in EC. apply orb_false_iff in EC. destruct EC as [_ EC].
    assert (existsb (bdead die w) (con_bodies x) = true) by (apply existsb_exists; eauto). congruence.
  - exists w6. split; [|split; [exact S6|split]].
    + unfold cleanup, bind at 1, get at 1. cbv beta iota. unfold bind at 1. replace (filt (clean_contact die) (w_cts w) w) with (filt (clean_contact die) (w_cts w) (patch w (w_bh w) (w_ch w) (w_log w))) by (destruct w; reflexivity). rewrite E1.
      unfold bind at 1, modify at 1. cbv beta iota. change (set_cts (patch w h1 g1 (w_log w ++ map Released Dt)) es') with w1.
      unfold bind at 1, get at 1. cbv beta iota. unfold bind at 1. rewrite E2. unfold bind at 1, get at 1. cbv beta iota. unfold bind at 1. rewrite E3. unfold bind at 1, get at 1. cbv beta iota. unfold bind at 1. rewrite E4.
      unfold bind at 1. replace (iter detach_con dc w1) with (iter detach_con dc (set_bh w1 (w_bh w1))) by reflexivity. rewrite E5. fold w2.
      unfold bind at 1. rewrite iter_log. unfold bind at 1. rewrite iter_log. unfold bind at 1. rewrite iter_log. unfold bind at 1.
      match goal with |- match iter release_con dc ?v with _ => _ end = _ => replace v with w3 by (unfold w3, set_log; cbn; rewrite !map_app, !app_assoc; reflexivity) end.
      rewrite E6. fold w4. unfold bind at 1. rewrite E7. fold w5. exact E8.
    + destruct I4 as (J1 & J2 & J3). split; [|split].
      * intros b y Ey. rewrite (bu_b _ _ _ BU) in Ey. destruct (existsb _ _); [discriminate|]. apply (J1 b y Ey).
      * intros c x Ex. rewrite (bu_c _ _ _ BU) in Ex. apply (J2 c x Ex).
      * rewrite (bu_cts _ _ _ BU). exact J3.
    + destruct BU as [Bb Bc Bf Bk Bbs Bcs Bct Bfs Bset Bn Bl].
      assert (HBD : forall b y, w_bh w b = Some y -> existsb (Nat.eqb b) db = bdead die w b) by (intros b y Ey; apply existsb_filter_in, (i_bodies _ HS); eauto).
      constructor.
      * rewrite Bbs. apply erase_dead, (i_bodies _ HS).
      * rewrite Bcs. apply erase_dead, NDc.
      * rewrite Bct. reflexivity.
      * rewrite Bfs. apply erase_dead, (i_forces _ HS).
      * intros b. rewrite Bb, HBH. destruct (w_bh w b) as [y|] eqn:Ey; [rewrite (HBD b y Ey); reflexivity|]. cbn. destruct (existsb (Nat.eqb b) db), (bdead die w b); reflexivity.
      * intros c. rewrite Bc. apply HCH.
      * intros f. rewrite Bf. change (w_fh w5 f) with (g5 f). rewrite Hg5. change (w_fh w4 f) with (w_fh w f). destruct (w_fh w f) as [x|] eqn:Ex; [|destruct (existsb (Nat.eqb f) df), (fdead die w f); reflexivity].
        unfold df. rewrite existsb_filter_in; [reflexivity|]. apply (i_forces _ HS). eauto.
      * intros k. rewrite Bk. unfold keep_cols. change (w_kh w5 k) with (w_kh w k). destruct (w_kh w k) as [x|] eqn:Ex; [|reflexivity]. destruct (i_cols _ HS) as (_ & _ & K3 & _). destruct (K3 k x Ex) as [y Ey]. rewrite (HBD _ y Ey). reflexivity.
      * rewrite Bset. reflexivity.
      * rewrite Bn. reflexivity.
      * cbv zeta. fold Dt dc df db. rewrite Bl. unfold w5, w4, w3, w2, w1. cbn. rewrite !map_app, !app_assoc. reflexivity.
Qed.
End Clean.
