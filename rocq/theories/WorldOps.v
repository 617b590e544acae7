(** Creating and removing objects keeps the invariant of the world. *)
From Coq Require Import ZArith List Bool Lia Permutation.
From Verif Require Import Num Outcome Box Mat Geom Transform Body Constraint World WorldHoare WorldInv WorldFrame WorldIsland.
Import ListNotations.

Section Ops.
Context {N : Num} {TR : Trig N} {BH : Behaviour N}.

Lemma con_bodies_nd (x : wcon) : NoDup (con_bodies x).
Proof. unfold con_bodies. destruct (Nat.eqb_spec (c_b0 x) (c_b1 x)); repeat constructor; cbn; intuition. Qed.
Definition wakeup (y : wbody) : wbody := with_wb y (set_asleep false (wb y)).
(** the bodies of [l] are changed by [f] *)
Definition bmap (l : list id) (f : wbody -> wbody) (h h' : heap wbody) : Prop :=
  forall b, h' b = if existsb (Nat.eqb b) l then option_map f (h b) else h b.
Lemma touch_spec f l : forall w, NoDup l -> (forall b, In b l -> exists y, w_bh w b = Some y) ->
  exists h', iter (fun b => mod_body b f ;;; wake b) l w = Ok tt (set_bh w h') /\ bmap l (fun y => wakeup (f y)) (w_bh w) h'.
Proof.
  induction l as [|i l IH]; intros w ND HL; cbn [iter].
  - exists (w_bh w). split; [destruct w; reflexivity|]. intros b. reflexivity.
  - apply NoDup_cons_iff in ND. destruct ND as [Hi ND]. destruct (HL i (or_introl eq_refl)) as [y E].
    unfold wake. unfold bind at 1, bind at 1, mod_body at 1, bind at 1, body_at, deref. rewrite E. unfold put_body at 1, modify at 1. cbv beta iota.
    unfold mod_body at 1, bind at 1, body_at, deref. cbn [w_bh set_bh]. rewrite put_eq. unfold put_body at 1, modify at 1. cbv beta iota.
    set (w1 := set_bh _ _). destruct (IH w1 ND) as (h' & E' & Hh).
    + intros b Hb. cbn. unfold put. destruct (Nat.eqb b i); [eauto|]. apply HL. right. exact Hb.
    + exists h'. split; [exact E'|]. intros b. rewrite (Hh b). cbn [existsb w1 set_bh w_bh]. unfold put. destruct (Nat.eqb_spec b i) as [->|n]; [|reflexivity].
      rewrite (proj2 (existsb_notin i l) Hi), E. reflexivity.
Qed.
Lemma bmap_some l f h h' b y' : bmap l f h h' -> h' b = Some y' -> exists y, h b = Some y /\ y' = if existsb (Nat.eqb b) l then f y else y.
Proof. intros H E. rewrite (H b) in E. destruct (existsb _ _); [|eauto]. destruct (h b); [|discriminate]. injection E as <-. eauto. Qed.
Lemma bmap_live l f h h' b : bmap l f h h' -> (exists y, h b = Some y) <-> (exists y, h' b = Some y).
Proof. intros H. rewrite (H b). destruct (existsb _ _); [|reflexivity]. destruct (h b); cbn; split; intros [? E]; try discriminate; eauto. Qed.
Lemma bmap_none l f h h' b : bmap l f h h' -> h b = None -> h' b = None.
Proof. intros H E. rewrite (H b), E. destruct (existsb _ _); reflexivity. Qed.

(** ** The parts of the invariant *)
Lemma links_attach bh bh' ch ids ids' sel i x : links bh ch ids sel -> ch i = None ->
  (forall c, In c ids' <-> In c ids \/ c = i) -> (forall c, In c ids -> exists z, ch c = Some z) ->
  (forall b y', bh' b = Some y' -> exists y, bh b = Some y /\ sel y' = if existsb (Nat.eqb b) (con_bodies x) then sel y ++ [i] else sel y) ->
  links bh' (put ch i x) ids' sel.
Proof.
  intros L Hi Hids Hlive HB b y' E'. destruct (HB b y' E') as (y & E & Es). destruct (L b y E) as [A1 A2].
  assert (Hn : ~ In i (sel y)) by (intros H; apply A2 in H; destruct H as [_ (z & Hz & _)]; congruence).
  assert (HP : forall c, c <> i -> (exists z, put ch i x c = Some z /\ In b (con_bodies z)) <-> (exists z, ch c = Some z /\ In b (con_bodies z))) by (intros c Hc; rewrite put_ne by exact Hc; reflexivity).
  split.
  - rewrite Es. destruct (existsb _ _); [apply nodup_snoc; assumption|exact A1].
  - intros c. rewrite Es. destruct (Nat.eq_dec c i) as [->|ne].
    + destruct (existsb (Nat.eqb b) (con_bodies x)) eqn:EX.
      * split; [intros _|intros _; apply in_snoc; auto]. split; [apply Hids; auto|]. exists x. rewrite put_eq. split; [reflexivity|]. apply existsb_in, EX.
      * split; [intros H; contradiction|]. intros [_ (z & Ez & Hz)]. rewrite put_eq in Ez. injection Ez as <-. apply existsb_notin in EX. contradiction.
    + rewrite (HP c ne). rewrite Hids. destruct (existsb _ _); rewrite ?in_snoc, A2; intuition congruence.
Qed.
Lemma links_other bh bh' ch ids sel i x : links bh ch ids sel -> ~ In i ids ->
  (forall b y', bh' b = Some y' -> exists y, bh b = Some y /\ sel y' = sel y) -> links bh' (put ch i x) ids sel.
Proof.
  intros L Hi HB b y' E'. destruct (HB b y' E') as (y & E & Es). destruct (L b y E) as [A1 A2]. rewrite Es. split; [exact A1|].
  intros c. rewrite A2. split; intros [H1 H2]; (split; [exact H1|]); [rewrite put_ne|rewrite put_ne in H2]; auto; congruence.
Qed.
Lemma links_ext bh bh' ch ch' ids sel : links bh ch ids sel -> (forall b y', bh' b = Some y' -> exists y, bh b = Some y /\ sel y' = sel y) ->
  (forall c, In c ids -> forall b, (exists x, ch' c = Some x /\ In b (con_bodies x)) <-> (exists x, ch c = Some x /\ In b (con_bodies x))) -> links bh' ch' ids sel.
Proof.
  intros L HB HC b y' E'. destruct (HB b y' E') as (y & E & Es). destruct (L b y E) as [A1 A2]. rewrite Es. split; [exact A1|].
  intros c. rewrite A2. split; intros [H1 H2]; (split; [exact H1|]); [apply (HC c H1 b)|apply (HC c H1 b) in H2]; exact H2.
Qed.
Lemma cols_keep bh bh' kh tree : cols_ok bh kh tree -> (forall b y', bh' b = Some y' -> exists y, bh b = Some y /\ b_colliders (wb y') = b_colliders (wb y)) ->
  (forall b, (exists y, bh b = Some y) -> exists y, bh' b = Some y) -> cols_ok bh' kh tree.
Proof.
  intros (K1 & K2 & K3 & K4 & K5) HB HL. split; [exact K1|]. split; [exact K2|]. split; [intros k x E; apply HL; eauto|]. split; [|exact K5].
  intros b y' E'. destruct (HB b y' E') as (y & E & Es). unfold ids_of. rewrite Es. apply (K4 b y E).
Qed.
(** the keys of live contacts only use addresses of colliders made before *)
Lemma contacts_more n n' ch ch' kh es : contacts_ok n ch kh es -> n <= n' -> (forall e, In e es -> ch' (e_con e) = ch (e_con e)) -> contacts_ok n' ch' kh es.
Proof.
  intros ((A & T1 & T2) & T3 & T4) Hn HC. split; [|split; [|exact T4]].
  - exists A. split; [exact T1|]. intros e He. destruct (T2 e He) as (x & k0 & k1 & X1 & X). exists x, k0, k1. rewrite (HC e He). auto.
  - intros e k0 k1 x He. rewrite (HC e He). intros E1 E2. destruct (T3 e k0 k1 x He E1 E2). lia.
Qed.
Lemma contacts_sub n ch ch' kh es es' : contacts_ok n ch kh es -> incl es' es -> (forall e, In e es' -> ch' (e_con e) = ch (e_con e)) -> contacts_ok n ch' kh es'.
Proof.
  intros ((A & T1 & T2) & T3 & T4) Hn HC. split; [|split].
  - exists A. split; [exact T1|]. intros e He. destruct (T2 e (Hn e He)) as (x & k0 & k1 & X1 & X). exists x, k0, k1. rewrite (HC e He). auto.
  - intros e k0 k1 x He. rewrite (HC e He). apply T3, Hn, He.
  - intros e e' He He'. apply T4; auto.
Qed.
Lemma in_w_cons w c x : SInv w -> w_ch w c = Some x -> In c (w_cons w ++ map e_con (w_cts w)).
Proof. intros S E. apply (i_cons _ S). eauto. Qed.
Lemma ent_live w e : SInv w -> In e (w_cts w) -> exists x, w_ch w (e_con e) = Some x.
Proof. intros S He. apply (i_cons _ S). apply in_or_app. right. apply in_map, He. Qed.
Lemma fresh_con w e : SInv w -> In e (w_cts w) -> e_con e <> w_next w.
Proof. intros S He Hn. destruct (ent_live w e S He) as [x E]. rewrite Hn in E. destruct (i_fresh _ S (w_next w) (le_n _)) as (_ & H & _). congruence. Qed.

(** ** makeBody *)
Lemma make_body_spec p r d w : SInv w -> idle w -> exists w', make_body p r d w = Ok (w_next w) w' /\ SInv w' /\ idle w' /\
  w_bodies w' = w_bodies w ++ [w_next w] /\ w_ch w' = w_ch w /\ w_cons w' = w_cons w /\ w_cts w' = w_cts w /\ w_fh w' = w_fh w /\ w_forces w' = w_forces w /\ w_kh w' = w_kh w /\ w_tree w' = w_tree w /\ w_log w' = w_log w /\
  forall b, w_bh w' b = if Nat.eqb b (w_next w) then Some (WB (new_body p r d) false None [] []) else w_bh w b.
Proof.
  intros S I. destruct S as [B C F E L1 L2 K Tc Z]. destruct (Z (w_next w) (le_n _)) as (Z1 & Z2 & Z3 & Z4).
  eexists. split; [reflexivity|]. split; [|split; [|repeat split; reflexivity]].
  - assert (HE : forall c x, w_ch w c = Some x -> ~ In (w_next w) (con_bodies x)) by (intros c x Ec Hi; destruct (E c x Ec (w_next w) Hi) as [y Ey]; congruence).
    assert (LK : forall ids sel, (forall y, sel (with_wb y (wb y)) = sel y) -> sel (WB (new_body p r d) false None [] []) = [] -> links (w_bh w) (w_ch w) ids sel ->
              links (put (w_bh w) (w_next w) (WB (new_body p r d) false None [] [])) (w_ch w) ids sel).
    { intros ids sel _ Hs L b y Ey. apply put_some in Ey. destruct Ey as [[-> ->]|[n Ey]]; [|apply (L b y Ey)]. rewrite Hs. split; [constructor|]. intros c. split; [intros []|].
      intros [_ (x & Ex & Hb)]. destruct (HE c x Ex Hb). }
    constructor; cbn.
    + split; [apply nodup_snoc; [apply B|]|].
      * intros Hi. apply B in Hi. destruct Hi as [y Ey]. congruence.
      * intros j. rewrite in_snoc. unfold put. destruct (Nat.eqb_spec j (w_next w)) as [->|n]; [split; eauto|]. rewrite (proj2 B j). tauto.
    + exact C.
    + exact F.
    + intros c x Ex b Hb. unfold put. destruct (Nat.eqb b (w_next w)); eauto.
    + apply LK; auto.
    + apply LK; auto.
    + destruct K as (K1 & K2 & K3 & K4 & K5). split; [exact K1|]. split; [exact K2|]. split; [intros k x Ek; unfold put; destruct (Nat.eqb _ (w_next w)); eauto|]. split; [|exact K5].
      intros b y Ey. apply put_some in Ey. destruct Ey as [[-> ->]|[n Ey]]; [|apply (K4 b y Ey)]. cbn. split; [constructor|]. split; [|intros c []]. intros k. split; [intros []|].
      intros (x & Ex & Hx). destruct (K3 k x Ex) as [y Ey]. congruence.
    + eapply contacts_more; [exact Tc|lia|reflexivity].
    + intros j Hj. destruct (Z j ltac:(lia)) as (A1 & A2 & A3 & A4). unfold put. destruct (Nat.eqb_spec j (w_next w)); [lia|auto].
  - destruct I as (I1 & I2 & I3). split; [|split; [exact I2|exact I3]]. intros b y Ey. cbn in Ey. apply put_some in Ey. destruct Ey as [[_ ->]|[_ Ey]]; [reflexivity|eauto].
Qed.

(** ** makeConstraint *)
Lemma new_con_ok b0 b1 doms dis cols st w x w' : new_con b0 b1 doms dis cols st w = Ok x w' ->
  w' = w /\ c_b0 x = b0 /\ c_b1 x = b1 /\ c_dis x = dis /\ c_cols x = cols /\ c_killed x = false /\ c_px x = false /\ c_st x = st /\
  exists y0 y1, w_bh w b0 = Some y0 /\ w_bh w b1 = Some y1 /\ (c_m0 x, c_I0 x, c_m1 x, c_I1 x) = bodies_masses (wb y0) (wb y1) doms.
Proof.
  unfold new_con, bind at 1, body_at, deref. destruct (w_bh w b0) as [y0|] eqn:E0; [|discriminate]. unfold bind at 1. destruct (w_bh w b1) as [y1|] eqn:E1; [|discriminate].
  destruct (bodies_masses (wb y0) (wb y1) doms) as [[[m0 I0] m1] I1] eqn:EM. set (c := WC _ _ _ _ _ _ _ _ _ _ _). unfold bind, lift.
  destruct (structural_in c b0); try discriminate. destruct (structural_in c b1); try discriminate. destruct (a && (Nat.eqb b0 b1 || a0)); [discriminate|].
  intros H. injection H as <- <-. cbn. repeat split. exists y0, y1. auto.
Qed.
Lemma new_con_calm b0 b1 doms dis cols st w : (exists y, w_bh w b0 = Some y) -> (exists y, w_bh w b1 = Some y) ->
  match new_con b0 b1 doms dis cols st w with Ok _ w' => w' = w | Thrown w' => w' = w | _ => False end.
Proof.
  intros [y0 E0] [y1 E1]. unfold new_con, bind at 1, body_at, deref. rewrite E0. unfold bind at 1. rewrite E1. destruct (bodies_masses (wb y0) (wb y1) doms) as [[[m0 I0] m1] I1].
  set (c := WC _ _ _ _ _ _ _ _ _ _ _). unfold bind, lift. destruct (structural_ret c b0 (in_b0 c)) as [s0 ->]. destruct (structural_ret c b1 (in_b1 c)) as [s1 ->]. destruct (s0 && _); reflexivity.
Qed.
(** a constraint with live ends is attached; its bodies wake up *)
Definition attached (w w' : world) (i : id) (x : wcon) (cons' : list id) (cts' : list entry) (f : wbody -> wbody) : Prop :=
  w_ch w' = put (w_ch w) i x /\ bmap (con_bodies x) (fun y => wakeup (f y)) (w_bh w) (w_bh w') /\ w_bodies w' = w_bodies w /\ w_cons w' = cons' /\ w_cts w' = cts' /\
  w_fh w' = w_fh w /\ w_forces w' = w_forces w /\ w_kh w' = w_kh w /\ w_tree w' = w_tree w /\ w_set w' = w_set w /\ w_next w' = S (w_next w) /\ w_log w' = w_log w.
Lemma SInv_con w w' x : SInv w -> idle w -> attached w w' (w_next w) x (w_cons w ++ [w_next w]) (w_cts w) (fun y => with_cs y (wb_cs y ++ [w_next w])) ->
  (forall b, In b (con_bodies x) -> exists y, w_bh w b = Some y) -> c_px x = false -> SInv w' /\ idle w'.
Proof.
  intros [B C F E L1 L2 K Tc Z] I (A1 & A2 & A3 & A4 & A5 & A6 & A7 & A8 & A9 & A10 & A11 & A12) HL HP.
  destruct (Z (w_next w) (le_n _)) as (Z1 & Z2 & Z3 & Z4). set (i := w_next w) in *.
  assert (NI : ~ In i (w_cons w ++ map e_con (w_cts w))) by (intros H; apply C in H; destruct H; congruence).
  assert (NI1 : ~ In i (w_cons w)) by (intros H; apply NI, in_or_app; auto). assert (NI2 : ~ In i (map e_con (w_cts w))) by (intros H; apply NI, in_or_app; auto).
  split.
  - constructor; rewrite ?A1, ?A3, ?A4, ?A5, ?A6, ?A7, ?A8, ?A9, ?A11.
    + split; [apply B|]. intros j. rewrite <- (bmap_live _ _ _ _ _ A2). apply B.
    + split; [apply nodup_mid; [apply C|exact NI]|]. intros j. rewrite !in_app_iff. cbn [In]. unfold put. destruct (Nat.eqb_spec j i) as [->|n].
      * split; [eauto|]. intros _. auto.
      * rewrite <- (proj2 C j), in_app_iff. intuition congruence.
    + exact F.
    + intros c z Ez b Hb. rewrite <- (bmap_live _ _ _ _ _ A2). apply put_some in Ez. destruct Ez as [[_ ->]|[_ Ez]]; eauto.
    + apply (links_attach (w_bh w) _ _ (w_cons w)); auto.
      * intros c. apply in_snoc.
      * intros c Hc. apply C. apply in_or_app. auto.
      * intros b y' E'. destruct (bmap_some _ _ _ _ _ _ A2 E') as (y & Ey & ->). exists y. split; [exact Ey|]. destruct (existsb _ _); reflexivity.
    + apply (links_other (w_bh w)); auto. intros b y' E'. destruct (bmap_some _ _ _ _ _ _ A2 E') as (y & Ey & ->). exists y. split; [exact Ey|]. destruct (existsb _ _); reflexivity.
    + eapply cols_keep; [exact K| |].
      * intros b y' E'. destruct (bmap_some _ _ _ _ _ _ A2 E') as (y & Ey & ->). exists y. split; [exact Ey|]. destruct (existsb _ _); reflexivity.
      * intros b. apply (bmap_live _ _ _ _ _ A2).
    + eapply contacts_more; [exact Tc|lia|]. intros e He. apply put_ne. intros H. apply NI2. rewrite <- H. apply in_map, He.
    + intros j Hj. destruct (Z j ltac:(lia)) as (B1 & B2 & B3 & B4). rewrite put_ne by lia. rewrite (bmap_none _ _ _ _ _ A2 B1). auto.
  - destruct I as (I1 & I2 & I3). split; [|split].
    + intros b y' E'. destruct (bmap_some _ _ _ _ _ _ A2 E') as (y & Ey & ->). destruct (existsb _ _); apply (I1 b y Ey).
    + rewrite A1. intros c z Ez. apply put_some in Ez. destruct Ez as [[_ ->]|[_ Ez]]; eauto.
    + rewrite A5. exact I3.
Qed.
Lemma make_con_spec b0 b1 doms dis st w : SInv w -> idle w -> (exists y, w_bh w b0 = Some y) -> (exists y, w_bh w b1 = Some y) ->
  match make_con b0 b1 doms dis st w with
  | Ok i w' => i = w_next w /\ SInv w' /\ idle w' /\ exists x, attached w w' i x (w_cons w ++ [i]) (w_cts w) (fun y => with_cs y (wb_cs y ++ [i])) /\
      new_con b0 b1 doms dis None st w = Ok x w
  | Thrown w' => w' = w
  | _ => False
  end.
Proof.
  intros S I H0 H1. unfold make_con, bind at 1. pose proof (new_con_calm b0 b1 doms dis None st w H0 H1) as HC. destruct (new_con b0 b1 doms dis None st w) as [x w1|w1| |] eqn:EC; try contradiction; [subst w1|exact HC].
  destruct (new_con_ok _ _ _ _ _ _ _ _ _ EC) as (_ & E0 & E1 & _ & _ & _ & EP & _).
  assert (HL : forall b, In b (con_bodies x) -> exists y, w_bh w b = Some y) by (intros b Hb; apply in_bodies in Hb; rewrite E0, E1 in Hb; destruct Hb as [->| ->]; assumption).
  unfold bind at 1, fresh. cbv beta iota. unfold bind at 1, modify. cbv beta iota. set (w1 := set_cons _ _).
  destruct (touch_spec (fun y => with_cs y (wb_cs y ++ [w_next w])) (con_bodies x) w1 (con_bodies_nd x)) as (h' & Et & Hh); [exact HL|].
  unfold bind at 1. rewrite Et. unfold ret. split; [reflexivity|].
  assert (AT : attached w (set_bh w1 h') (w_next w) x (w_cons w ++ [w_next w]) (w_cts w) (fun y => with_cs y (wb_cs y ++ [w_next w]))) by (repeat split; exact Hh).
  destruct (SInv_con w _ x S I AT HL EP) as [S' I']. split; [exact S'|]. split; [exact I'|]. exists x. auto.
Qed.

(** ** makeForceField *)
Lemma same_idle w w' : idle w -> same w w' -> (forall b y y', w_bh w b = Some y -> w_bh w' b = Some y' -> wb_proxy y' = wb_proxy y) -> (forall c x x', w_ch w c = Some x -> w_ch w' c = Some x' -> c_px x' = c_px x) -> idle w'.
Proof.
  intros (I1 & I2 & I3) S HB HC. split; [|split].
  - intros b y' E'. destruct (hrel_some' _ _ _ _ _ (sa_b _ _ S) E') as (y & E & _). rewrite (HB b y y' E E'). eauto.
  - intros c x' E'. destruct (hrel_some' _ _ _ _ _ (sa_c _ _ S) E') as (x & E & _). rewrite (HC c x x' E E'). eauto.
  - rewrite (sa_cts _ _ S). exact I3.
Qed.
(** changes that keep the structure and take no object into a solve *)
Definition calm_step (w w' : world) : Prop := same w w' /\ (forall b, option_map wb_proxy (w_bh w' b) = option_map wb_proxy (w_bh w b)) /\ (forall c, option_map c_px (w_ch w' c) = option_map c_px (w_ch w c)).
Lemma calm_refl w : calm_step w w. Proof. split; [apply same_refl|auto]. Qed.
Lemma calm_trans a b c : calm_step a b -> calm_step b c -> calm_step a c.
Proof. intros (A1 & A2 & A3) (B1 & B2 & B3). split; [eapply same_trans; eassumption|]. split; intros i; [rewrite B2, A2|rewrite B3, A3]; reflexivity. Qed.
Lemma calm_good w w' : SInv w -> idle w -> calm_step w w' -> SInv w' /\ idle w'.
Proof.
  intros S I (A1 & A2 & A3). split; [eapply SInv_same; eassumption|]. eapply same_idle; [exact I|exact A1| |].
  - intros b y y' E E'. specialize (A2 b). rewrite E, E' in A2. injection A2 as ->. reflexivity.
  - intros c x x' E E'. specialize (A3 c). rewrite E, E' in A3. injection A3 as ->. reflexivity.
Qed.
Lemma calm_body w i y y' : w_bh w i = Some y -> body_same y y' -> wb_proxy y' = wb_proxy y -> calm_step w (set_bh w (put (w_bh w) i y')).
Proof.
  intros E H HP. split; [eapply same_put_body; eassumption|]. split; [|reflexivity]. intros b. cbn. unfold put. destruct (Nat.eqb_spec b i) as [->|]; [rewrite E; cbn; congruence|reflexivity].
Qed.
Lemma calm_con w i x x' : w_ch w i = Some x -> con_same x x' -> c_px x' = c_px x -> calm_step w (set_ch w (put (w_ch w) i x')).
Proof.
  intros E H HP. split; [eapply same_put_con; eassumption|]. split; [reflexivity|]. intros c. cbn. unfold put. destruct (Nat.eqb_spec c i) as [->|]; [rewrite E; cbn; congruence|reflexivity].
Qed.
Lemma fc_mod_body i f : (forall y, body_same y (f y) /\ wb_proxy (f y) = wb_proxy y) -> frame calm_step (mod_body i f).
Proof. intros H. apply fr_mod_body. intros w y E. eapply calm_body; [exact E|apply H|apply H]. Qed.
Lemma fc_mod_con i f : (forall y, con_same y (f y) /\ c_px (f y) = c_px y) -> frame calm_step (mod_con i f).
Proof. intros H. apply fr_mod_con. intros w y E. eapply calm_con; [exact E|apply H|apply H]. Qed.
Lemma fc_wake i : frame calm_step (wake i).
Proof. apply fc_mod_body. intros y. split; [apply body_same_wb; reflexivity|reflexivity]. Qed.
Lemma fc_kill_body i : frame calm_step (kill_body i).
Proof. apply fc_mod_body. intros y. split; [constructor; auto|reflexivity]. Qed.
Lemma fc_kill_con i : frame calm_step (kill_con i).
Proof. apply fc_mod_con. intros y. split; [constructor; auto|reflexivity]. Qed.
Lemma fc_kill_force i : frame calm_step (kill_force i).
Proof.
  intros w. pose proof (fs_kill_force i w) as H. unfold kill_force, force_at, bind, deref, modify in *. destruct (w_fh w i); [|exact I]. split; [exact H|]. split; reflexivity.
Qed.
Lemma fc_set_velocity i v a : frame calm_step (set_velocity i v a).
Proof. apply fc_mod_body. intros y. split; [apply body_same_wb; reflexivity|reflexivity]. Qed.
Lemma wake_ok i w : (exists y, w_bh w i = Some y) -> exists w', wake i w = Ok tt w' /\ calm_step w w'.
Proof. intros [y E]. pose proof (fc_wake i w) as H. unfold wake, mod_body, bind, body_at, deref, put_body, modify in *. rewrite E in *. eauto. Qed.
Lemma iter_wake_ok l : forall w, (forall b, In b l -> exists y, w_bh w b = Some y) -> exists w', iter wake l w = Ok tt w' /\ calm_step w w'.
Proof.
  induction l as [|i l IH]; intros w HL; cbn [iter]; [exists w; split; [reflexivity|apply calm_refl]|].
  destruct (wake_ok i w (HL i (or_introl eq_refl))) as (w1 & E1 & C1). destruct (IH w1) as (w2 & E2 & C2).
  - intros b Hb. apply (hrel_live _ _ _ _ (sa_b _ _ (proj1 C1))), HL. right. exact Hb.
  - exists w2. unfold bind. rewrite E1. split; [exact E2|eapply calm_trans; eassumption].
Qed.
Lemma SInv_force w f : SInv w -> idle w -> let i := w_next w in let w' := set_forces (set_fh (set_next w (S i)) (put (w_fh w) i f)) (w_forces w ++ [i]) in SInv w' /\ idle w'.
Proof.
  intros S I i w'. split; [|exact I]. destruct S as [B C F E L1 L2 K Tc Z]. destruct (Z i (le_n _)) as (Z1 & Z2 & Z3 & Z4). constructor; cbn; auto.
  - split; [apply nodup_snoc; [apply F|]|].
    + intros Hi. apply F in Hi. destruct Hi. congruence.
    + intros j. rewrite in_snoc. unfold put. destruct (Nat.eqb_spec j i) as [->|n]; [split; eauto|]. rewrite (proj2 F j). tauto.
  - eapply contacts_more; [exact Tc|lia|reflexivity].
  - intros j Hj. destruct (Z j ltac:(lia)) as (B1 & B2 & B3 & B4). rewrite put_ne by lia. auto.
Qed.
Lemma make_force_spec region apply_ found w : SInv w -> idle w -> exists w', make_force region apply_ found w = Ok (w_next w) w' /\ SInv w' /\ idle w'.
Proof.
  intros S I. unfold make_force, bind at 1, fresh. cbv beta iota. unfold bind at 1, modify. cbv beta iota. set (w1 := set_forces _ _).
  destruct (SInv_force w (WF region apply_ false) S I) as [S1 I1]. change (SInv w1) in S1. change (idle w1) in I1.
  assert (H : exists w2, (if region then iter (fun k => w <- get w_tree ;; if existsb (Nat.eqb k) w then x <- col_at k ;; wake (k_body x) else ret tt) found else bs <- get w_bodies ;; iter wake bs) w1 = Ok tt w2 /\ calm_step w1 w2).
  { destruct region.
    - assert (G : forall l w2, SInv w2 -> exists w3, iter (fun k => w <- get w_tree ;; if existsb (Nat.eqb k) w then x <- col_at k ;; wake (k_body x) else ret tt) l w2 = Ok tt w3 /\ calm_step w2 w3).
      { induction l as [|k l IH]; intros w2 S2; cbn [iter]; [exists w2; split; [reflexivity|apply calm_refl]|].
        assert (H : exists w3, (w <- get w_tree ;; if existsb (Nat.eqb k) w then x <- col_at k ;; wake (k_body x) else ret tt) w2 = Ok tt w3 /\ calm_step w2 w3).
        { unfold bind at 1, get. destruct (existsb (Nat.eqb k) (w_tree w2)) eqn:EX; [|exists w2; split; [reflexivity|apply calm_refl]].
          apply existsb_in in EX. destruct (i_cols _ S2) as (_ & K2 & K3 & _). apply K2 in EX. destruct EX as [x Ex]. unfold bind, col_at, deref. rewrite Ex. apply wake_ok. eauto. }
        destruct H as (w3 & E3 & C3). destruct (IH w3) as (w4 & E4 & C4); [eapply SInv_same; [exact S2|apply C3]|]. exists w4. unfold bind at 1. rewrite E3. split; [exact E4|eapply calm_trans; eassumption]. }
      apply G, S1.
    - unfold bind, get. apply iter_wake_ok. intros b Hb. apply (i_bodies _ S1), Hb. }
  destruct H as (w2 & E2 & C2). unfold bind at 1. rewrite E2. exists w2. split; [reflexivity|]. apply (calm_good w1 w2 S1 I1 C2).
Qed.
End Ops.
