(** Adding and removing colliders, and destroying a body, in the world. *)
From Coq Require Import ZArith List Bool Lia Permutation.
From Verif Require Import Num Outcome Box Mat Geom Transform Body Constraint World WorldHoare WorldInv WorldFrame WorldIsland WorldOps.
Import ListNotations.

Section Cols.
Context {N : Num} {TR : Trig N} {BH : Behaviour N}.

Lemma filter_all {A} (f : A -> bool) l : (forall x, In x l -> f x = true) -> filter f l = l.
Proof. induction l as [|x l IH]; intros H; cbn; [reflexivity|]. rewrite (H x (or_introl eq_refl)), IH; [reflexivity|]. intros y Hy. apply H. right. exact Hy. Qed.
(** ** Addresses *)
Lemma mem_addr_spec w a : mem_addr w a = false -> forall k x, k < w_next w -> w_kh w k = Some x -> k_addr x <> a.
Proof.
  intros H k x Hk E Ha. unfold mem_addr in H. assert (F : existsb (fun i => match w_kh w i with Some k => Nat.eqb (k_addr k) a | None => false end) (seq 0 (w_next w)) = true); [|congruence].
  apply existsb_exists. exists k. split; [apply in_seq; lia|]. rewrite E. apply Nat.eqb_eq, Ha.
Qed.
Lemma mem_addr_true w a : mem_addr w a = true -> exists k x, In k (seq 0 (w_next w)) /\ w_kh w k = Some x /\ k_addr x = a.
Proof.
  intros H. apply existsb_exists in H. destruct H as (k & Hk & H). destruct (w_kh w k) as [x|] eqn:E; [|discriminate]. exists k, x. split; [exact Hk|]. split; [exact E|apply Nat.eqb_eq, H].
Qed.
Lemma pick_cases w fuel : forall a, mem_addr w (pick w a fuel) = false \/ forall j, j < fuel -> mem_addr w (a + j) = true.
Proof.
  induction fuel as [|n IH]; intros a; cbn [pick]; [right; lia|]. destruct (mem_addr w a) eqn:E; [|left; exact E].
  destruct (IH (S a)) as [H|H]; [left; exact H|]. right. intros [|j] Hj; [rewrite Nat.add_0_r; exact E|]. rewrite <- Nat.add_succ_comm. apply H. lia.
Qed.
Lemma pick_fresh w a : mem_addr w (pick w a (S (w_next w))) = false.
Proof.
  destruct (pick_cases w (S (w_next w)) a) as [H|H]; [exact H|]. exfalso.
  assert (G : forall m, m <= S (w_next w) -> exists l, length l = m /\ NoDup l /\ incl l (seq 0 (w_next w)) /\ (forall k, In k l -> exists x j, w_kh w k = Some x /\ k_addr x = a + j /\ j < m)).
  { induction m as [|m IH]; intros Hm; [exists []; split; [reflexivity|]; split; [constructor|]; split; [intros x []|intros k []]|].
    destruct IH as (l & L1 & L2 & L3 & L4); [lia|]. destruct (mem_addr_true _ _ (H m ltac:(lia))) as (k & x & K1 & K2 & K3).
    exists (k :: l). split; [cbn; congruence|]. split; [constructor; [|exact L2]|split].
    - intros Hk. destruct (L4 k Hk) as (x' & j & E' & Ea & Hj). rewrite K2 in E'. injection E' as <-. lia.
    - intros i [<-|Hi]; auto.
    - intros i [<-|Hi]; [exists x, m; split; [exact K2|]; split; [exact K3|lia]|]. destruct (L4 i Hi) as (x' & j & E' & Ea & Hj). exists x', j. split; [exact E'|]. split; [exact Ea|lia]. }
  destruct (G (S (w_next w)) (le_n _)) as (l & L1 & L2 & L3 & _). pose proof (NoDup_incl_length L2 L3) as HL. rewrite seq_length in HL. lia.
Qed.

(** ** addCollider *)
Lemma SInv_new_col w b y y' k a : SInv w -> idle w -> k = w_next w -> w_bh w b = Some y -> mem_addr w a = false ->
  wb_cs y' = wb_cs y -> wb_cts y' = wb_cts y -> wb_proxy y' = wb_proxy y ->
  ids_of y' = ids_of y ++ [k] -> (forall c, In c (b_colliders (wb y')) -> exists p, c_props c = Ret p) ->
  let w' := set_tree (set_bh (set_kh (set_next w (S k)) (put (w_kh w) k (WK b a))) (put (w_bh w) b y')) (w_tree w ++ [k]) in SInv w' /\ idle w'.
Proof.
  intros [B C F E L1 L2 K Tc Z] I -> Ey Ha H1 H2 H3 HI HP w'. destruct (Z (w_next w) (le_n _)) as (Z1 & Z2 & Z3 & Z4).
  assert (HB : forall j z, w_bh w' j = Some z -> exists z0, w_bh w j = Some z0 /\ wb_cs z = wb_cs z0 /\ wb_cts z = wb_cts z0 /\ wb_proxy z = wb_proxy z0).
  { intros j z Ez. cbn in Ez. apply put_some in Ez. destruct Ez as [[-> ->]|[_ Ez]]; eauto 6. }
  assert (HL : forall j, (exists z, w_bh w j = Some z) <-> (exists z, w_bh w' j = Some z)).
  { intros j. cbn. unfold put. destruct (Nat.eqb_spec j b) as [->|]; [split; eauto|reflexivity]. }
  split.
  - constructor; cbn [w' w_bodies w_cons w_cts w_forces w_ch w_fh w_kh w_tree w_next set_tree set_bh set_kh set_next].
    + split; [apply B|]. intros j. rewrite (proj2 B j). apply HL.
    + exact C.
    + exact F.
    + intros c x Ex j Hj. apply HL. eauto.
    + eapply links_ext; [exact L1| |reflexivity]. intros j z Ez. destruct (HB j z Ez) as (z0 & E0 & -> & _). eauto.
    + eapply links_ext; [exact L2| |reflexivity]. intros j z Ez. destruct (HB j z Ez) as (z0 & E0 & _ & -> & _). eauto.
    + destruct K as (K1 & K2 & K3 & K4 & K5). assert (NK : ~ In (w_next w) (w_tree w)) by (intros Hk; apply K2 in Hk; destruct Hk; congruence).
      split; [apply nodup_snoc; assumption|]. split; [|split; [|split]].
      * intros k. rewrite in_snoc, K2. unfold put. destruct (Nat.eqb_spec k (w_next w)) as [->|n]; [split; [eauto|tauto]|]. intuition congruence.
      * intros k x Ex. apply HL. apply put_some in Ex. destruct Ex as [[_ ->]|[_ Ex]]; [exists y; exact Ey|apply (K3 k x Ex)].
      * intros j z Ez. apply put_some in Ez. destruct Ez as [[-> ->]|[n Ez]].
        -- destruct (K4 b y Ey) as (A1 & A2 & A3). rewrite HI. split; [apply nodup_snoc; [exact A1|]|split; [|exact HP]].
           ++ rewrite A2. intros (x & Ex & _). congruence.
           ++ intros k. rewrite in_snoc, A2. unfold owned, put. destruct (Nat.eqb_spec k (w_next w)) as [->|nk]; [split; [intros _; exists (WK b a); auto|tauto]|]. intuition congruence.
        -- destruct (K4 j z Ez) as (A1 & A2 & A3). split; [exact A1|]. split; [|exact A3]. intros k. rewrite A2. unfold owned, put. destruct (Nat.eqb_spec k (w_next w)) as [->|nk]; [|reflexivity].
           split; [intros (x & Ex & _); congruence|]. intros (x & Ex & Hx). injection Ex as <-. cbn in Hx. congruence.
      * intros k k' x x' Ex Ex' Hx. apply put_some in Ex, Ex'.
        assert (HF : forall i z, w_kh w i = Some z -> k_addr z <> a).
        { intros i z Ez. apply (mem_addr_spec _ _ Ha i z); [|exact Ez]. destruct (le_lt_dec (w_next w) i) as [Hi|Hi]; [|exact Hi]. destruct (Z i Hi) as (_ & _ & _ & Hn). congruence. }
        destruct Ex as [[-> ->]|[n Ex]], Ex' as [[-> ->]|[n' Ex']]; auto; cbn in Hx.
        -- exfalso. apply (HF _ _ Ex'). auto.
        -- exfalso. apply (HF _ _ Ex). auto.
        -- eauto.
    + destruct Tc as ((A & T1 & T2) & T3 & T4). split; [|split].
      * exists (fun k => if Nat.eqb k (w_next w) then a else A k). split.
        -- intros k x Ex. apply put_some in Ex. destruct Ex as [[-> ->]|[n Ex]]; [rewrite Nat.eqb_refl; reflexivity|]. destruct (Nat.eqb_spec k (w_next w)); [contradiction|auto].
        -- intros e He. destruct (T2 e He) as (x & q0 & q1 & X1 & X2 & X3 & X4 & X5). destruct (T3 e q0 q1 x He X1 X2) as [Q0 Q1]. exists x, q0, q1.
           split; [exact X1|]. split; [exact X2|]. split; [|split; [exact X4|]].
           ++ destruct (Nat.eqb_spec q0 (w_next w)); [lia|]. destruct (Nat.eqb_spec q1 (w_next w)); [lia|]. exact X3.
           ++ intros Hk. destruct (X5 Hk) as [(z0 & O0 & O0') (z1 & O1 & O1')]. split; [exists z0|exists z1]; rewrite put_ne by lia; auto.
      * intros e q0 q1 x He Ex Hc. destruct (T3 e q0 q1 x He Ex Hc). lia.
      * exact T4.
    + intros j Hj. destruct (Z j ltac:(lia)) as (B1 & B2 & B3 & B4). rewrite (put_ne (w_kh w)) by lia. split; [|auto]. cbn. unfold put. destruct (Nat.eqb_spec j b); [subst; congruence|exact B1].
  - destruct I as (I1 & I2 & I3). split; [|auto]. intros j z Ez. destruct (HB j z Ez) as (z0 & E0 & _ & _ & ->). eauto.
Qed.
Lemma recentre_cols b o : map static (b_colliders (recentre b o)) = map static (b_colliders b).
Proof. unfold recentre. rewrite static_update. reflexivity. Qed.
Lemma recentre_dom b o : b_dominance (recentre b o) = b_dominance b. Proof. reflexivity. Qed.
(** what addCollider does to a world when it returns, and that it throws otherwise *)
Lemma add_col_spec b l d hint w y : SInv w -> idle w -> w_bh w b = Some y ->
  match add_col b l d hint w with
  | Ok k w' => k = w_next w /\ SInv w' /\ idle w' /\ w_log w' = w_log w /\ w_ch w' = w_ch w /\ w_fh w' = w_fh w /\ w_bodies w' = w_bodies w /\ w_cons w' = w_cons w /\ w_cts w' = w_cts w /\ w_forces w' = w_forces w /\
      (exists x', add_collider (wb y) (Coll k l d l) = Ret x' /\ w_bh w' = put (w_bh w) b (with_wb y x'))
  | Thrown _ => add_collider (wb y) (Coll (w_next w) l d l) = Throw
  | _ => False
  end.
Proof.
  intros HS I Ey. unfold add_col, bind at 1, body_at, deref. rewrite Ey. unfold bind at 1, fresh. cbv beta iota. unfold bind at 1, new_addr, get. cbv beta iota. unfold bind at 1, modify at 1. cbv beta iota.
  unfold add_collider. destruct (add_collider_full (wb y) (Coll (w_next w) l d l)) as [x' ok] eqn:EA. unfold bind at 1, put_body, modify at 1. cbv beta iota.
  unfold add_collider_full, colliders_add in EA. destruct (c_props (Coll (w_next w) l d l)) as [q| | |] eqn:EQ; injection EA as <- <-; unfold throw; try reflexivity.
  unfold bind at 1, modify. cbv beta iota. split; [reflexivity|].
  set (bx := recentre _ _). set (y' := with_wb y bx).
  assert (HC : map static (b_colliders bx) = map static (b_colliders (wb y) ++ [Coll (w_next w) l d l])) by apply recentre_cols.
  destruct (SInv_new_col w b y y' (w_next w) (pick (set_next w (S (w_next w))) hint (S (w_next (set_next w (S (w_next w)))))) HS I eq_refl Ey) as [S' I']; try reflexivity.
  - pose proof (pick_fresh (set_next w (S (w_next w))) hint) as HP. unfold mem_addr in HP |- *. cbn [w_kh w_next set_next] in HP |- *.
    apply not_true_iff_false. apply not_true_iff_false in HP. intros HE. apply HP. apply existsb_exists in HE. destruct HE as (z & Hz & HE). apply existsb_exists. exists z. split; [|exact HE].
    apply in_seq in Hz. apply in_seq. lia.
  - unfold ids_of. cbn [y' wb with_wb]. rewrite (static_ids _ _ HC), map_app. reflexivity.
  - apply (static_props _ _ HC). intros c Hc. apply in_snoc in Hc. destruct Hc as [Hc| ->]; [|eauto]. apply (i_cols _ HS) in Ey. apply Ey, Hc.
  - split; [exact S'|]. split; [exact I'|]. repeat split. exists bx. split; [|reflexivity]. unfold add_collider_full, colliders_add. rewrite EQ. reflexivity.
Qed.

(** ** removeCollider *)
Lemma erase_first_ids k cs : NoDup (map c_id cs) -> map c_id (erase_first (fun c => Nat.eqb (c_id c) k) cs) = erase_id k (map c_id cs).
Proof.
  induction cs as [|c cs IH]; intros ND; [reflexivity|]. cbn in ND. apply NoDup_cons_iff in ND. destruct ND as [Hc ND]. cbn [erase_first map]. unfold erase_id. cbn [filter]. destruct (Nat.eqb_spec (c_id c) k) as [<-|n]; cbn [negb].
  - symmetry. apply filter_all. intros j Hj. apply negb_true_iff, Nat.eqb_neq. intros ->. contradiction.
  - cbn [map]. f_equal. apply IH, ND.
Qed.
Lemma erase_first_incl f cs : incl (erase_first f cs) cs.
Proof. induction cs as [|c cs IH]; cbn; [apply incl_refl|]. destruct (f c); [apply incl_tl, incl_refl|]. intros x [<-|Hx]; [left; reflexivity|right; apply IH, Hx]. Qed.
Lemma sum_props_ret cs : forall acc, (forall c, In c cs -> exists p, c_props c = Ret p) -> exists p, sum_props cs acc = Ret p.
Proof.
  induction cs as [|c cs IH]; intros acc HP; cbn [sum_props]; [eauto|]. destruct (HP c (or_introl eq_refl)) as [p ->]. cbn [obind]. apply IH. intros c' Hc. apply HP. right. exact Hc.
Qed.
Lemma remove_collider_ret x k : NoDup (map c_id (b_colliders x)) -> (forall c, In c (b_colliders x) -> exists p, c_props c = Ret p) ->
  exists x', remove_collider x k = Ret x' /\ map c_id (b_colliders x') = erase_id k (map c_id (b_colliders x)) /\ (forall c, In c (b_colliders x') -> exists p, c_props c = Ret p) /\ b_dominance x' = b_dominance x.
Proof.
  intros ND HP. unfold remove_collider. set (cs := erase_first _ _). assert (HP' : forall c, In c cs -> exists p, c_props c = Ret p) by (intros c Hc; apply HP; eapply erase_first_incl; exact Hc).
  destruct (sum_props_ret cs mp_zero HP') as [p ->]. cbn [obind]. pose proof (erase_first_ids k (b_colliders x) ND) as HE. fold cs in HE.
  destruct cs as [|c0 cs0] eqn:EC.
  - eexists. split; [reflexivity|]. cbn. split; [exact HE|]. split; [intros c []|reflexivity].
  - eexists. split; [reflexivity|]. set (b1 := set_colliders x (c0 :: cs0) p). assert (HC : map static (b_colliders (recentre b1 (b_centroid x))) = map static (c0 :: cs0)) by apply (recentre_cols b1).
    split; [rewrite (static_ids _ _ HC); exact HE|]. split; [apply (static_props _ _ HC HP')|reflexivity].
Qed.
(** the contacts of a body that touch collider [k] are killed *)
Definition touches (k : id) (x : wcon) : bool := match c_cols x with Some (k0, k1) => Nat.eqb k0 k || Nat.eqb k1 k | None => false end.
Lemma kill_touching k l : forall w, NoDup l -> (forall t, In t l -> exists x, w_ch w t = Some x) ->
  exists h, iter (fun t => c <- con_at t ;; match c_cols c with Some (k0, k1) => if Nat.eqb k0 k || Nat.eqb k1 k then kill_con t else ret tt | None => ret tt end) l w = Ok tt (set_ch w h) /\
    forall t, h t = if existsb (Nat.eqb t) l then option_map (fun x => if touches k x then con_kill x else x) (w_ch w t) else w_ch w t.
Proof.
  induction l as [|t l IH]; intros w ND HL; cbn [iter].
  - exists (w_ch w). split; [destruct w; reflexivity|reflexivity].
  - apply NoDup_cons_iff in ND. destruct ND as [Ht ND]. destruct (HL t (or_introl eq_refl)) as [x E].
    assert (H1 : exists w1, (c <- con_at t ;; match c_cols c with Some (k0, k1) => if Nat.eqb k0 k || Nat.eqb k1 k then kill_con t else ret tt | None => ret tt end) w = Ok tt w1 /\
      w1 = set_ch w (w_ch w1) /\ forall t', w_ch w1 t' = if Nat.eqb t' t then option_map (fun x => if touches k x then con_kill x else x) (w_ch w t') else w_ch w t').
    { unfold bind, con_at, deref. rewrite E. assert (HN : forall t', w_ch w t' = if Nat.eqb t' t then option_map (fun x0 : wcon => x0) (w_ch w t') else w_ch w t') by (intros t'; destruct (Nat.eqb t' t); destruct (w_ch w t'); reflexivity).
      destruct (c_cols x) as [[k0 k1]|] eqn:EC.
      - destruct (Nat.eqb k0 k || Nat.eqb k1 k) eqn:EK.
        + unfold kill_con, mod_con, bind, con_at, deref. rewrite E. eexists. split; [reflexivity|]. split; [reflexivity|]. intros t'. cbn. unfold put. destruct (Nat.eqb_spec t' t) as [->|]; [|reflexivity]. rewrite E. cbn. unfold touches. rewrite EC, EK. reflexivity.
        + exists w. split; [reflexivity|]. split; [destruct w; reflexivity|]. intros t'. destruct (Nat.eqb_spec t' t) as [->|]; [|reflexivity]. rewrite E. cbn. unfold touches. rewrite EC, EK. reflexivity.
      - exists w. split; [reflexivity|]. split; [destruct w; reflexivity|]. intros t'. destruct (Nat.eqb_spec t' t) as [->|]; [|reflexivity]. rewrite E. cbn. unfold touches. rewrite EC. reflexivity. }
    destruct H1 as (w1 & E1 & W1 & H1). destruct (IH w1 ND) as (h & E2 & H2).
    + intros t' Ht'. rewrite H1. destruct (HL t' (or_intror Ht')) as [x' E']. rewrite E'. destruct (Nat.eqb t' t); cbn; eauto.
    + exists h. unfold bind at 1. rewrite E1. split.
      * rewrite E2. f_equal. rewrite W1. reflexivity.
      * intros t'. rewrite H2, H1. cbn [existsb]. destruct (Nat.eqb_spec t' t) as [->|n]; [|reflexivity]. cbn [orb]. rewrite (proj2 (existsb_notin t l) Ht). reflexivity.
Qed.
Definition killed_by (k : id) (l : list id) (h h' : heap wcon) : Prop :=
  forall t, h' t = if existsb (Nat.eqb t) l then option_map (fun x => if touches k x then con_kill x else x) (h t) else h t.
Lemma killed_same k l h h' : killed_by k l h h' -> hrel con_same h h'.
Proof.
  intros H t. rewrite (H t). destruct (existsb _ _); destruct (h t) as [x|]; cbn; auto; try apply con_same_refl. destruct (touches k x); [constructor; auto|apply con_same_refl].
Qed.
(** the state after removeCollider *)
Record removed (b k : id) (y : wbody) (w w' : world) : Prop := {
  rm_body : exists x', remove_collider (wb y) k = Ret x' /\ w_bh w' = put (w_bh w) b (with_wb y x') /\ map c_id (b_colliders x') = erase_id k (ids_of y) /\
    (forall c, In c (b_colliders x') -> exists p, c_props c = Ret p) /\ b_dominance x' = b_dominance (wb y);
  rm_con : killed_by k (wb_cts y) (w_ch w) (w_ch w'); rm_kh : w_kh w' = del (w_kh w) k; rm_tree : w_tree w' = erase_id k (w_tree w);
  rm_fh : w_fh w' = w_fh w; rm_bodies : w_bodies w' = w_bodies w; rm_cons : w_cons w' = w_cons w; rm_cts : w_cts w' = w_cts w; rm_forces : w_forces w' = w_forces w;
  rm_set : w_set w' = w_set w; rm_next : w_next w' = w_next w; rm_log : w_log w' = w_log w }.
Lemma remove_col_spec b k y w : cols_ok (w_bh w) (w_kh w) (w_tree w) -> w_bh w b = Some y -> In k (ids_of y) -> NoDup (wb_cts y) -> (forall t, In t (wb_cts y) -> exists x, w_ch w t = Some x) ->
  exists w', remove_col b k w = Ok tt w' /\ removed b k y w w'.
Proof.
  intros (K1 & K2 & K3 & K4 & K5) Ey Hk ND HT. destruct (K4 b y Ey) as (A1 & A2 & A3). destruct (proj1 (A2 k) Hk) as (x & Ex & Hx).
  unfold remove_col, world_remove, bind at 1, bind at 1, col_at, deref. rewrite Ex. unfold bind at 1, get. cbv beta iota.
  assert (Ht : existsb (Nat.eqb k) (w_tree w) = true) by (apply existsb_in, K2; eauto). rewrite Ht. unfold bind at 1, modify at 1. cbv beta iota. unfold bind at 1, body_at, deref. cbn [w_bh set_tree]. rewrite Hx, Ey.
  destruct (kill_touching k (wb_cts y) (set_tree w (erase_id k (w_tree w))) ND HT) as (h & -> & Hh).
  unfold bind at 1. cbn [w_bh set_tree set_ch]. rewrite Ey. destruct (remove_collider_ret (wb y) k A1 A3) as (x' & E' & I1 & I2 & I3). unfold bind at 1, lift. rewrite E'. unfold bind at 1, put_body, modify. cbv beta iota.
  eexists. split; [reflexivity|]. constructor; try reflexivity; [|exact Hh]. exists x'. repeat split; auto.
Qed.
Lemma removed_cols b k y w w' : cols_ok (w_bh w) (w_kh w) (w_tree w) -> w_bh w b = Some y -> In k (ids_of y) -> removed b k y w w' -> cols_ok (w_bh w') (w_kh w') (w_tree w').
Proof.
  intros (K1 & K2 & K3 & K4 & K5) Ey Hk [(x' & E' & Hb & I1 & I2 & I3) _ Hkh Htr _ _ _ _ _ _ _ _]. destruct (K4 b y Ey) as (A1 & A2 & A3). destruct (proj1 (A2 k) Hk) as (xk & Exk & Hxk).
  rewrite Hb, Hkh, Htr. split; [apply nodup_erase, K1|]. split; [|split; [|split]].
  - intros j. rewrite in_erase, K2. unfold del. destruct (Nat.eqb_spec j k) as [->|n]; [split; [tauto|intros [? ?]; discriminate]|tauto].
  - intros j x Ex. apply del_some in Ex. destruct Ex as [_ Ex]. unfold put. destruct (Nat.eqb _ _); eauto.
  - intros j z Ez. apply put_some in Ez. destruct Ez as [[-> ->]|[n Ez]].
    + unfold ids_of. cbn [wb with_wb]. rewrite I1. split; [apply nodup_erase, A1|]. split; [|exact I2]. intros i. rewrite in_erase, A2. unfold owned, del. destruct (Nat.eqb_spec i k) as [->|ni]; [|tauto].
      split; [tauto|intros (? & ? & _); discriminate].
    + destruct (K4 j z Ez) as (B1 & B2 & B3). split; [exact B1|]. split; [|exact B3]. intros i. rewrite B2. unfold owned, del. destruct (Nat.eqb_spec i k) as [->|ni]; [|reflexivity].
      split; [intros (x & Ex & Hx); congruence|intros (? & ? & _); discriminate].
  - intros i j x z Ex Ex'. apply del_some in Ex, Ex'. destruct Ex as [_ Ex], Ex' as [_ Ex']. eauto.
Qed.
Lemma removed_good b k y w w' : SInv w -> w_bh w b = Some y -> In k (ids_of y) -> removed b k y w w' -> SInv w'.
Proof.
  intros S Ey Hk R. pose proof (removed_cols b k y w w' (i_cols _ S) Ey Hk R) as HK. destruct R as [(x' & E' & Hb & I1 & I2 & I3) Hc Hkh Htr Hfh Hbs Hcs Hct Hfs Hset Hn Hl].
  destruct S as [B C F E L1 L2 K Tc Z]. pose proof (killed_same _ _ _ _ Hc) as HS.
  assert (HBB : forall j z, w_bh w' j = Some z -> exists z0, w_bh w j = Some z0 /\ wb_cs z = wb_cs z0 /\ wb_cts z = wb_cts z0) by (intros j z Ez; rewrite Hb in Ez; apply put_some in Ez; destruct Ez as [[-> ->]|[_ Ez]]; eauto).
  assert (HL : forall j, (exists z, w_bh w j = Some z) <-> (exists z, w_bh w' j = Some z)) by (intros j; rewrite Hb; unfold put; destruct (Nat.eqb_spec j b) as [->|]; [split; eauto|reflexivity]).
  assert (HX : forall c b', (exists x, w_ch w' c = Some x /\ In b' (con_bodies x)) <-> (exists x, w_ch w c = Some x /\ In b' (con_bodies x))).
  { intros c b'. pose proof (HS c) as H. destruct (w_ch w c) as [x|], (w_ch w' c) as [z|]; try contradiction; [|split; intros (? & ? & _); discriminate].
    pose proof (con_same_bodies _ _ H) as Hcb. split; intros (q & Eq & Hq); injection Eq as <-; eexists; (split; [reflexivity|]); congruence. }
  constructor; rewrite ?Hbs, ?Hcs, ?Hct, ?Hfs, ?Hfh, ?Hn; auto.
  - split; [apply B|]. intros j. rewrite (proj2 B j). apply HL.
  - split; [apply C|]. intros j. rewrite (proj2 C j). apply (hrel_live _ _ _ _ HS).
  - intros c z Ez j Hj. apply HL. destruct (hrel_some' _ _ _ _ _ HS Ez) as (x & Ex & Hxz). rewrite (con_same_bodies _ _ Hxz) in Hj. eauto.
  - eapply links_ext; [exact L1| |intros; apply HX]. intros j z Ez. destruct (HBB j z Ez) as (z0 & E0 & -> & _). eauto.
  - eapply links_ext; [exact L2| |intros; apply HX]. intros j z Ez. destruct (HBB j z Ez) as (z0 & E0 & _ & ->). eauto.
  - destruct Tc as ((A & T1 & T2) & T3 & T4). split; [|split; [|exact T4]].
    + exists A. split; [intros i x Ex; rewrite Hkh in Ex; apply del_some in Ex; apply T1, Ex|]. intros e He. destruct (T2 e He) as (x & q0 & q1 & X1 & X2 & X3 & X4 & X5).
      destruct (hrel_some _ _ _ _ _ HS X1) as (z & Ez & Hz). exists z, q0, q1. rewrite (cs_cols _ _ Hz), (cs_b0 _ _ Hz), (cs_b1 _ _ Hz). split; [exact Ez|]. split; [exact X2|]. split; [exact X3|]. split; [exact X4|].
      intros HKz. assert (HKx : c_killed x = false) by (destruct (c_killed x) eqn:EK; [rewrite (cs_killed _ _ Hz EK) in HKz; discriminate|reflexivity]).
      destruct (X5 HKx) as [O0 O1]. rewrite Hkh.
      assert (HNK : touches k x = false).
      { destruct (touches k x) eqn:ET; [|reflexivity]. exfalso. assert (Hin : In (e_con e) (wb_cts y)).
        { apply (L2 b y Ey). split; [apply in_map, He|]. exists x. split; [exact X1|]. apply in_bodies. unfold touches in ET. rewrite X2 in ET. apply orb_true_iff in ET.
          destruct K as (_ & _ & _ & K4 & _). destruct (K4 b y Ey) as (_ & A2 & _). apply A2 in Hk. destruct Hk as (xk & Exk & Hxk).
          destruct ET as [ET|ET]; apply Nat.eqb_eq in ET; subst; [left; destruct O0 as (z0 & Ez0 & Hz0)|right; destruct O1 as (z0 & Ez0 & Hz0)]; congruence. }
        rewrite (Hc (e_con e)), (proj2 (existsb_in _ _) Hin), X1 in Ez. cbn in Ez. rewrite ET in Ez. injection Ez as <-. discriminate. }
      unfold touches in HNK. rewrite X2 in HNK. apply orb_false_iff in HNK. destruct HNK as [N0 N1]. apply Nat.eqb_neq in N0, N1.
      split; [destruct O0 as (z0 & ? & ?); exists z0|destruct O1 as (z0 & ? & ?); exists z0]; rewrite del_ne by congruence; auto.
    + intros e q0 q1 z He Ez. destruct (hrel_some' _ _ _ _ _ HS Ez) as (x & Ex & Hz). rewrite (cs_cols _ _ Hz). apply (T3 e q0 q1 x He Ex).
  - intros j Hj. destruct (Z j Hj) as (B1 & B2 & B3 & B4). rewrite Hkh, Hb. split; [unfold put; destruct (Nat.eqb_spec j b); [subst; congruence|exact B1]|]. split; [apply (hrel_none _ _ _ _ HS), B2|].
    split; [exact B3|]. unfold del. destruct (Nat.eqb j k); auto.
Qed.
Lemma cts_live w b y : SInv w -> w_bh w b = Some y -> NoDup (wb_cts y) /\ forall t, In t (wb_cts y) -> exists x, w_ch w t = Some x.
Proof. intros S E. destruct (i_cts _ S b y E) as [A1 A2]. split; [exact A1|]. intros t Ht. apply A2 in Ht. destruct Ht as [_ (x & Ex & _)]. eauto. Qed.
Lemma cs_live w b y : SInv w -> w_bh w b = Some y -> NoDup (wb_cs y) /\ forall t, In t (wb_cs y) -> exists x, w_ch w t = Some x.
Proof. intros S E. destruct (i_cs _ S b y E) as [A1 A2]. split; [exact A1|]. intros t Ht. apply A2 in Ht. destruct Ht as [_ (x & Ex & _)]. eauto. Qed.
(** the flags of the solver are not touched *)
Lemma removed_idle b k y w w' : idle w -> w_bh w b = Some y -> removed b k y w w' -> idle w'.
Proof.
  intros (I1 & I2 & I3) Ey [(x' & _ & Hb & _) Hc _ _ _ _ _ Hct _ _ _ _]. split; [|split].
  - intros j z Ez. rewrite Hb in Ez. apply put_some in Ez. destruct Ez as [[-> ->]|[_ Ez]]; [apply (I1 b y Ey)|eauto].
  - intros c z Ez. rewrite (Hc c) in Ez. destruct (existsb _ _); [|eauto]. destruct (w_ch w c) as [x|] eqn:E; [|discriminate]. injection Ez as <-. destruct (touches k x); apply (I2 c x E).
  - rewrite Hct. exact I3.
Qed.
Theorem remove_col_good b k y w : SInv w -> idle w -> w_bh w b = Some y -> In k (ids_of y) ->
  exists w', remove_col b k w = Ok tt w' /\ removed b k y w w' /\ SInv w' /\ idle w'.
Proof.
  intros S I Ey Hk. destruct (cts_live w b y S Ey) as [ND HL]. destruct (remove_col_spec b k y w (i_cols _ S) Ey Hk ND HL) as (w' & E & R). exists w'. split; [exact E|]. split; [exact R|].
  split; [eapply removed_good; eassumption|eapply removed_idle; eassumption].
Qed.

(** ** ~Body (with erased list nodes readable) *)
(** all the colliders of the body are removed *)
Record stripped (b : id) (y : wbody) (w w' : world) : Prop := {
  sp_body : exists y', w_bh w' b = Some y' /\ ids_of y' = [] /\ wb_cs y' = wb_cs y /\ wb_cts y' = wb_cts y;
  sp_other : forall j, j <> b -> w_bh w' j = w_bh w j;
  sp_con : hrel (fun x x' => con_same x x' /\ c_px x' = c_px x /\ c_st x' = c_st x /\ (c_killed x' = c_killed x \/ b = c_b0 x \/ b = c_b1 x)) (w_ch w) (w_ch w');
  sp_cols : cols_ok (w_bh w') (w_kh w') (w_tree w');
  sp_kh : forall k, w_kh w' k = match w_kh w k with Some x => if Nat.eqb (k_body x) b then None else Some x | None => None end;
  sp_fh : w_fh w' = w_fh w; sp_bodies : w_bodies w' = w_bodies w; sp_cons : w_cons w' = w_cons w; sp_cts : w_cts w' = w_cts w; sp_forces : w_forces w' = w_forces w;
  sp_set : w_set w' = w_set w; sp_next : w_next w' = w_next w; sp_log : w_log w' = w_log w }.
Definition cts_ok (w : world) (b : id) (y : wbody) : Prop := NoDup (wb_cts y) /\ forall t, In t (wb_cts y) -> exists x, w_ch w t = Some x /\ (b = c_b0 x \/ b = c_b1 x).
Definition strip (b : id) (l : list id) : M unit := iter (fun k => remove_col b k ;;; ret tt) l.
Lemma strip_spec b l : forall w y, cols_ok (w_bh w) (w_kh w) (w_tree w) -> w_bh w b = Some y -> cts_ok w b y -> ids_of y = l ->
  exists w', strip b l w = Ok tt w' /\ stripped b y w w'.
Proof.
  induction l as [|k l IH]; intros w y HK Ey [ND HT] Hl; unfold strip; cbn [iter].
  - exists w. split; [reflexivity|]. constructor; auto; [eauto| |].
    + apply hrel_refl. intros a. split; [apply con_same_refl|auto].
    + intros k. destruct (w_kh w k) as [x|] eqn:E; [|reflexivity]. destruct (Nat.eqb_spec (k_body x) b) as [Hb|]; [|reflexivity]. exfalso.
      destruct HK as (_ & _ & _ & K4 & _). destruct (K4 b y Ey) as (_ & A2 & _). rewrite Hl in A2. apply (A2 k). exists x. auto.
  - assert (HT' : forall t, In t (wb_cts y) -> exists x, w_ch w t = Some x) by (intros t Ht; destruct (HT t Ht) as (x & Ex & _); eauto).
    destruct (remove_col_spec b k y w HK Ey) as (w1 & E1 & R1); [rewrite Hl; left; reflexivity|exact ND|exact HT'|].
    pose proof (removed_cols b k y w w1 HK Ey ltac:(rewrite Hl; left; reflexivity) R1) as HK1. destruct R1 as [(x' & E' & Hb & I1 & I2 & I3) Hc Hkh Htr Hfh Hbs Hcs Hct Hfs Hset Hn Hlog].
    destruct HK as (K1 & K2 & K3 & K4 & K5). destruct (K4 b y Ey) as (A1 & A2 & A3).
    destruct (IH w1 (with_wb y x') HK1) as (w2 & E2 & SP).
    + rewrite Hb. apply put_eq.
    + split; [exact ND|]. intros t Ht. destruct (HT t Ht) as (x & Ex & Hx). pose proof (killed_same _ _ _ _ Hc t) as Hs. rewrite Ex in Hs. destruct (w_ch w1 t) as [z|]; [|contradiction]. exists z. split; [reflexivity|].
      rewrite (cs_b0 _ _ Hs), (cs_b1 _ _ Hs). exact Hx.
    + unfold ids_of at 1. cbn [wb with_wb]. rewrite I1, Hl. unfold erase_id. cbn [filter]. rewrite Nat.eqb_refl. cbn [negb]. apply filter_all. intros j Hj. rewrite Hl in A1. apply NoDup_cons_iff in A1.
      apply negb_true_iff, Nat.eqb_neq. intros ->. tauto.
    + exists w2. split; [unfold bind at 1; unfold bind at 1; rewrite E1; exact E2|]. destruct SP as [SB SO SC SK SH SF Sb Sc St Sf Ss Sn Sl]. constructor; try congruence; auto.
      * intros j Hj. rewrite (SO j Hj), Hb. apply put_ne, Hj.
      * eapply hrel_trans; [| |exact SC].
        -- intros p q r (P1 & P2 & P3 & P4) (Q1 & Q2 & Q3 & Q4). split; [eapply con_same_trans; eassumption|]. split; [congruence|]. split; [congruence|]. rewrite (cs_b0 _ _ P1), (cs_b1 _ _ P1) in Q4.
           destruct Q4 as [Q4|Q4]; [|auto]. rewrite Q4. exact P4.
        -- intros t. rewrite (Hc t). destruct (existsb (Nat.eqb t) (wb_cts y)) eqn:EX.
           ++ apply existsb_in in EX. destruct (HT t EX) as (x & Ex & Hx). rewrite Ex. cbn. destruct (touches k x); (split; [constructor; auto|auto]).
           ++ destruct (w_ch w t); [|exact I]. split; [apply con_same_refl|auto].
      * intros j. rewrite SH, Hkh. unfold del. destruct (Nat.eqb_spec j k) as [->|]; [|reflexivity]. destruct (proj1 (A2 k) ltac:(rewrite Hl; left; reflexivity)) as (xk & Exk & Hxk). rewrite Exk, Hxk, Nat.eqb_refl. reflexivity.
Qed.
Lemma iter_ext {A} (f g : A -> M unit) l : (forall x w, f x w = g x w) -> forall w, iter f l w = iter g l w.
Proof. intros H. induction l as [|x l IH]; intros w; cbn [iter]; [reflexivity|]. unfold bind. rewrite H. destruct (g x w); auto. Qed.
Lemma iter_map {A B} (f : B -> M unit) (g : A -> B) l : forall w, iter f (map g l) w = iter (fun x => f (g x)) l w.
Proof. induction l as [|x l IH]; intros w; cbn [iter map]; [reflexivity|]. unfold bind. destruct (f (g x) w); auto. Qed.
Lemma destroy_body_spec b y w : cols_ok (w_bh w) (w_kh w) (w_tree w) -> w_bh w b = Some y -> cts_ok w b y ->
  exists w1, stripped b y w w1 /\ destroy_body false b w = Ok tt (set_log (set_bh w1 (del (w_bh w1) b)) (w_log w ++ [Released b])).
Proof.
  intros HK Ey HT. destruct (strip_spec b (ids_of y) w y HK Ey HT eq_refl) as (w1 & E1 & SP). exists w1. split; [exact SP|].
  unfold destroy_body, bind at 1, body_at, deref. rewrite Ey. unfold bind at 1, noexcept. unfold strip, ids_of in E1. rewrite iter_map in E1. unfold strip in E1.
  change (iter (fun c => remove_col b (c_id c) ;;; (if false then bad else ret tt)) (b_colliders (wb y)) w) with (iter (fun x : collider => remove_col b (c_id x) ;;; ret tt) (b_colliders (wb y)) w).
  rewrite E1.
  unfold bind, modify, log. cbn. rewrite <- (sp_log _ _ _ _ SP). reflexivity.
Qed.
End Cols.
