(** Proofs about the allocator (C02-C04). *)
From Coq Require Import ZArith List Bool Lia Permutation.
From Verif Require Import Outcome Alloc.
Import ListNotations.
Local Open Scope Z_scope.

Definition ind (s e x : Z) : Z := if (s <=? x) && (x <? e) then 1 else 0.
Ltac indr := unfold ind in *; repeat match goal with
  | |- context [(?a <=? ?b)] => destruct (Z.leb_spec a b)
  | |- context [(?a <? ?b)] => destruct (Z.ltb_spec a b)
  | H : context [(?a <=? ?b)] |- _ => destruct (Z.leb_spec a b)
  | H : context [(?a <? ?b)] |- _ => destruct (Z.ltb_spec a b)
  end; cbn [andb] in *; try lia.
Fixpoint cnt (l : list range) (x : Z) : Z := match l with [] => 0 | (s, e) :: l => ind s e x + cnt l x end.
Fixpoint cntl (l : list alloc) (x : Z) : Z := match l with [] => 0 | a :: l => ind (al_p a) (al_end a) x + cntl l x end.
Lemma ind_nonneg s e x : 0 <= ind s e x. Proof. indr. Qed.
Lemma cnt_nonneg l x : 0 <= cnt l x.
Proof. induction l as [|[s e] l IH]; cbn; [lia|]. pose proof (ind_nonneg s e x). lia. Qed.
Lemma cntl_nonneg l x : 0 <= cntl l x.
Proof. induction l as [|a l IH]; cbn; [lia|]. pose proof (ind_nonneg (al_p a) (al_end a) x). lia. Qed.
Lemma cnt_app l l' x : cnt (l ++ l') x = cnt l x + cnt l' x.
Proof. induction l as [|[s e] l IH]; cbn; [lia|rewrite IH; lia]. Qed.
Lemma cntl_app l l' x : cntl (l ++ l') x = cntl l x + cntl l' x.
Proof. induction l as [|a l IH]; cbn; [lia|rewrite IH; lia]. Qed.

(** sorted, non-empty, never touching, between lo (excluded) and hi *)
Fixpoint fok (lo : Z) (l : list range) (hi : Z) : Prop :=
  match l with [] => True | (s, e) :: l => lo < s /\ s < e /\ e <= hi /\ fok e l hi end.
Fixpoint lend (lo : Z) (l : list range) : Z := match l with [] => lo | (_, e) :: l => lend e l end.
Lemma fok_app l : forall lo l' hi, fok lo (l ++ l') hi <-> fok lo l hi /\ fok (lend lo l) l' hi.
Proof. induction l as [|[s e] l IH]; intros lo l' hi; cbn; [tauto|]. rewrite IH. tauto. Qed.
Lemma fok_weaken lo lo' l hi : lo' <= lo -> fok lo l hi -> fok lo' l hi.
Proof. destruct l as [|[s e] l]; cbn; [tauto|intros; intuition lia]. Qed.
Lemma fok_below lo l hi x : fok lo l hi -> x <= lo -> cnt l x = 0.
Proof.
  revert lo. induction l as [|[s e] l IH]; intros lo F L; cbn in *; [reflexivity|]. destruct F as (A & B & C & F).
  rewrite (IH e F) by lia. indr.
Qed.
Lemma fok_above lo l hi x : fok lo l hi -> hi <= x -> cnt l x = 0.
Proof.
  revert lo. induction l as [|[s e] l IH]; intros lo F L; cbn in *; [reflexivity|]. destruct F as (A & B & C & F).
  rewrite (IH e F) by lia. indr.
Qed.
Lemma align_spec al m s sp p : 0 < al -> std_align al m s sp = Some p -> p mod al = 0 /\ s <= p /\ p + m <= s + sp.
Proof.
  intros A. unfold std_align. set (q := (s + al - 1) / al * al). destruct (Z.leb_spec (q - s + m) sp) as [L|L]; [|discriminate].
  intros [= <-]. split; [unfold q; apply Z.mod_mul; lia|]. split; [|lia].
  unfold q. pose proof (Z.div_mod (s + al - 1) al ltac:(lia)). pose proof (Z.mod_pos_bound (s + al - 1) al A). lia.
Qed.
Lemma align_fits al m s sp : 0 < al -> m + al - 1 <= sp -> exists p, std_align al m s sp = Some p.
Proof.
  intros A L. unfold std_align. set (q := (s + al - 1) / al * al).
  assert (q <= s + al - 1) by (unfold q; pose proof (Z.div_mod (s + al - 1) al ltac:(lia)); pose proof (Z.mod_pos_bound (s + al - 1) al A); lia).
  destruct (Z.leb_spec (q - s + m) sp) as [L'|L']; [eauto|lia].
Qed.
Lemma free_allocate_ok al m : 0 < al -> 0 < m -> forall l lo hi p l', fok lo l hi -> free_allocate al m l = Some (p, l') ->
  fok lo l' hi /\ p mod al = 0 /\ (lo < p /\ p + m <= hi) /\ forall x, cnt l x = cnt l' x + ind p (p + m) x.
Proof.
  intros A M. induction l as [|[s e] l IH]; intros lo hi p l' F H; cbn [free_allocate] in H; [discriminate|].
  cbn [fok] in F. destruct F as (F1 & F2 & F3 & F). destruct (std_align al m s (e - s)) as [q|] eqn:E.
  - injection H as <- <-. apply align_spec in E as (E1 & E2 & E3); [|exact A]. split; [|split; [exact E1|split; [lia|]]].
    + destruct (Z.eqb_spec q s), (Z.eqb_spec (q + m) e); cbn [app fok]; repeat split; try lia; try exact F;
      try (eapply fok_weaken; [|exact F]; lia).
    + intros x. cbn [cnt]. rewrite !cnt_app. destruct (Z.eqb_spec q s), (Z.eqb_spec (q + m) e); cbn [cnt]; indr.
  - destruct (free_allocate al m l) as [[q l2]|] eqn:G; [|discriminate]. injection H as <- <-.
    destruct (IH e hi q l2 F eq_refl) as (I1 & I2 & I3 & I4). split; [cbn; auto|]. split; [exact I2|]. split; [lia|].
    intros x. cbn [cnt]. rewrite I4. lia.
Qed.

Lemma split_spec start l : let '(a, b) := split_at start l in
  l = a ++ b /\ Forall (fun r => fst r <= start) a /\ match b with [] => True | (s, _) :: _ => start < s end.
Proof.
  induction l as [|[s e] l IH]; cbn [split_at]; [repeat split; constructor|].
  destruct (Z.ltb_spec start s) as [L|L]; [repeat split; [constructor|exact L]|].
  destruct (split_at start l) as [a b]. destruct IH as (-> & F & G). repeat split; [constructor; [cbn; lia|exact F]|exact G].
Qed.
Lemma last_range_app l r : last_range (l ++ [r]) = Some r.
Proof. destruct l as [|a l]; cbn; [reflexivity|]. rewrite last_last. reflexivity. Qed.
Lemma lend_snoc lo l s e : lend lo (l ++ [(s, e)]) = e.
Proof. revert lo. induction l as [|[a b] l IH]; intros lo; cbn; [reflexivity|apply IH]. Qed.
(** no free byte in [start, fin): the range before ends at or before start, the range after starts at or after fin *)
Lemma free_insert_ok start fin l lo hi : fok lo l hi -> start < fin -> fin <= hi -> lo < start -> (forall x, start <= x < fin -> cnt l x = 0) ->
  fok lo (free_insert start fin l) hi /\ forall x, cnt (free_insert start fin l) x = cnt l x + ind start fin x.
Proof.
  intros F SF FH LS Z0. unfold free_insert. pose proof (split_spec start l) as SP. destruct (split_at start l) as [pre next].
  destruct SP as (-> & FP & FN). apply fok_app in F as [F1 F2].
  assert (NX : match next with [] => True | (s, e) :: _ => fin <= s end).
  { destruct next as [|[s e] next]; [exact I|]. cbn in F2. destruct (Z.le_gt_cases fin s) as [L|L]; [exact L|].
    assert (C : cnt (pre ++ (s, e) :: next) s = 0) by (apply Z0; lia). rewrite cnt_app in C. cbn in C.
    pose proof (cnt_nonneg pre s). pose proof (cnt_nonneg next s). exfalso. assert (ind s e s = 1) by indr. lia. }
  assert (NP : pre = [] \/ exists pre' ps pe, pre = pre' ++ [(ps, pe)] /\ pe <= start).
  { destruct pre as [|r0 pre0] eqn:EP; [left; reflexivity|]. right. rewrite <- EP in *. destruct (exists_last (l := pre)) as (pre' & [ps pe] & ->); [congruence|].
    exists pre', ps, pe. split; [reflexivity|]. destruct (Z.le_gt_cases pe start) as [L|L]; [exact L|exfalso].
    apply Forall_app in FP as [_ FP]. inversion FP as [|? ? FPP ?]; subst. cbn in FPP. clear EP.
    assert (C : cnt ((pre' ++ [(ps, pe)]) ++ next) start = 0) by (apply Z0; lia). rewrite !cnt_app in C. cbn in C.
    pose proof (cnt_nonneg pre' start). pose proof (cnt_nonneg next start). assert (ind ps pe start = 1) by indr. lia. }
  clear FP. destruct NP as [->|(pre' & ps & pe & -> & PE)].
  - cbn [last_range lend app] in *. destruct next as [|[s e] next]; [cbn; split; [lia|intros; lia]|].
    cbn [fok] in F2. destruct (Z.eqb_spec fin s) as [->|NE]; cbn [fok cnt]; (split; [repeat split; try lia; try tauto|intros x; indr]).
  - rewrite last_range_app, removelast_last. rewrite lend_snoc in F2. apply fok_app in F1 as [F1 F3]. cbn [fok] in F3.
    destruct next as [|[s e] next].
    + destruct (Z.eqb_spec pe start) as [->|NE]; rewrite ?fok_app, ?lend_snoc, ?cnt_app; cbn [fok].
      * split; [repeat split; try lia; assumption|]. intros x. rewrite !cnt_app. cbn [cnt]. indr.
      * split; [repeat split; try lia; assumption|]. intros x. rewrite !cnt_app. cbn [cnt]. lia.
    + cbn [fok] in F2. destruct F2 as (G1 & G2 & G3 & G4). destruct (Z.eqb_spec pe start) as [->|NE], (Z.eqb_spec fin s) as [->|NE'];
      rewrite ?fok_app, ?lend_snoc; cbn [fok]; (split; [repeat split; try lia; try assumption; try (eapply fok_weaken; [|eassumption]; lia)|]);
      intros x; rewrite !cnt_app; cbn [cnt]; rewrite ?cnt_app; cbn [cnt]; indr.
Qed.
(** a block without live allocation is one free range *)
Lemma full_one data hi l : data < hi -> fok (data - 1) l hi -> (forall x, data <= x < hi -> cnt l x = 1) -> l = [(data, hi)].
Proof.
  intros D F C. destruct l as [|[s e] l]; [specialize (C data ltac:(lia)); cbn in C; lia|]. cbn [fok] in F. destruct F as (F1 & F2 & F3 & F4).
  assert (s = data).
  { specialize (C data ltac:(lia)). cbn [cnt] in C. rewrite (fok_below e l hi data F4) in C by lia. indr. }
  subst s. assert (e = hi).
  { destruct (Z.eq_dec e hi) as [E|NE]; [exact E|]. specialize (C e ltac:(lia)). cbn [cnt] in C. rewrite (fok_below e l hi e F4) in C by lia. indr. }
  subst e. destruct l as [|[s e] l]; [reflexivity|]. cbn in F4. lia.
Qed.

(** ** blocks and their live allocations *)
Definition al_ok (a : alloc) : Prop := good_request (al_sz a) (al_al a) (al_n a) /\ al_p a mod al_al a = 0.
Definition bok (bl : block * list alloc) : Prop := let '(b, ls) := bl in
  0 < bk_data b /\ 0 < bk_sz b /\ bk_data b + bk_sz b < W /\
  fok (bk_data b - 1) (bk_free b) (bk_data b + bk_sz b) /\
  (forall x, cnt (bk_free b) x + cntl ls x = ind (bk_data b) (bk_data b + bk_sz b) x) /\ Forall al_ok ls.
Definition apart (b1 b2 : block) : Prop := bk_data b1 + bk_sz b1 <= bk_data b2 \/ bk_data b2 + bk_sz b2 <= bk_data b1.
Definition inv (st : list block) (live : list alloc) : Prop := exists bls : list (block * list alloc),
  st = map fst bls /\ Permutation live (concat (map snd bls)) /\ Forall bok bls /\ Forall (fun bl => snd bl <> []) bls /\ ForallOrdPairs apart st.

Lemma al_ext a : al_ok a -> al_p a < al_end a /\ 0 < al_n a * al_sz a < W.
Proof. intros ((A & B & C & D) & _). unfold al_end. nia. Qed.
Lemma cntl_perm l l' x : Permutation l l' -> cntl l x = cntl l' x.
Proof. induction 1; cbn; lia. Qed.
Lemma bok_live b ls a : bok (b, ls) -> In a ls -> bk_data b <= al_p a /\ al_end a <= bk_data b + bk_sz b.
Proof.
  intros (A & B & _ & F & C & OK) I. rewrite Forall_forall in OK. destruct (al_ext a (OK a I)) as [L _]. apply in_split in I as (l1 & l2 & ->).
  assert (G : forall x, al_p a <= x < al_end a -> bk_data b <= x < bk_data b + bk_sz b).
  { intros x X. specialize (C x). rewrite cntl_app in C. cbn [cntl] in C. pose proof (cnt_nonneg (bk_free b) x). pose proof (cntl_nonneg l1 x). pose proof (cntl_nonneg l2 x).
    assert (ind (al_p a) (al_end a) x = 1) by indr. indr. }
  pose proof (G (al_p a) ltac:(lia)). pose proof (G (al_end a - 1) ltac:(lia)). lia.
Qed.
Lemma block_allocate_ok sz al n b ls p b' : bok (b, ls) -> good_request sz al n -> block_allocate sz al n b = Some (p, b') ->
  bok (b', Al p n sz al :: ls) /\ bk_data b' = bk_data b /\ bk_sz b' = bk_sz b.
Proof.
  intros (A & B & C & F & D & OK) G H. pose proof G as (G1 & G2 & G3 & G4). unfold block_allocate in H. destruct (Z.eqb_spec n 0); [lia|].
  assert (0 < n * sz) by nia. rewrite Z.mod_small in H by lia.
  destruct (free_allocate al (n * sz) (bk_free b)) as [[q l]|] eqn:E; [|discriminate]. injection H as <- <-.
  destruct (free_allocate_ok al (n * sz) G3 ltac:(lia) _ _ _ _ _ F E) as (E1 & E2 & E3 & E4). split; [|split; reflexivity].
  unfold bok. cbn [bk_data bk_sz bk_free]. repeat split; try assumption; try tauto.
  - intros x. rewrite <- D. cbn [cntl al_p al_end]. unfold al_end. cbn [al_p al_n al_sz]. rewrite E4. lia.
  - constructor; [|exact OK]. split; [exact G|exact E2].
Qed.
Lemma apart_dims b1 b1' b2 : bk_data b1' = bk_data b1 -> bk_sz b1' = bk_sz b1 -> apart b1 b2 -> apart b1' b2.
Proof. unfold apart. intros -> ->. auto. Qed.
Lemma apart_sym b1 b2 : apart b1 b2 -> apart b2 b1.
Proof. unfold apart. tauto. Qed.
Lemma try_blocks_ok sz al n : good_request sz al n -> forall bls p st', Forall bok bls ->
  try_blocks sz al n (map fst bls) = Some (p, st') -> exists bls', st' = map fst bls' /\ Forall bok bls' /\
  Permutation (concat (map snd bls')) (Al p n sz al :: concat (map snd bls)) /\
  Forall2 (fun b b' => bk_data b' = bk_data b /\ bk_sz b' = bk_sz b) (map fst bls) st' /\
  (Forall (fun bl => snd bl <> []) bls -> Forall (fun bl => snd bl <> []) bls').
Proof.
  intros G. induction bls as [|[b ls] bls IH]; intros p st' F H; cbn in H; [discriminate|].
  inversion F as [|? ? FB FR]; subst. destruct (block_allocate sz al n b) as [[q b']|] eqn:E.
  - injection H as <- <-. destruct (block_allocate_ok _ _ _ _ _ _ _ FB G E) as (B1 & B2 & B3).
    exists ((b', Al q n sz al :: ls) :: bls). cbn. split; [reflexivity|]. split; [constructor; assumption|]. split; [reflexivity|].
    split; [constructor; [auto|]; clear; induction bls; constructor; auto|]. intros NE. inversion NE; subst. constructor; [discriminate|assumption].
  - destruct (try_blocks sz al n (map fst bls)) as [[q st2]|] eqn:T; [|discriminate]. injection H as <- <-.
    destruct (IH q st2 FR eq_refl) as (bls' & -> & F' & P & D & N). exists ((b, ls) :: bls'). cbn. split; [reflexivity|]. split; [constructor; assumption|].
    split; [|split].
    + apply Permutation_sym. eapply Permutation_trans; [apply Permutation_middle|]. apply Permutation_app_head. apply Permutation_sym. exact P.
    + constructor; auto.
    + intros NE. inversion NE; subst. constructor; auto.
Qed.
Lemma apart_all st st' : Forall2 (fun b b' => bk_data b' = bk_data b /\ bk_sz b' = bk_sz b) st st' -> ForallOrdPairs apart st -> ForallOrdPairs apart st'.
Proof.
  intros F. induction F as [|b b' st st' [D S] F IH]; intros O; [constructor|]. inversion O as [|? ? A O']; subst. constructor; [|auto].
  clear -D S F A. induction F as [|c c' st st' [D' S'] F IH]; [constructor|]. inversion A; subst. constructor; [|auto].
  apply (apart_dims b); [exact D|exact S|]. apply apart_sym. apply (apart_dims c); [exact D'|exact S'|]. apply apart_sym. assumption.
Qed.
Lemma apart_snoc st b : ForallOrdPairs apart st -> Forall (apart b) st -> ForallOrdPairs apart (st ++ [b]).
Proof.
  intros O. induction O as [|c st A O IH]; intros F; cbn; [constructor; constructor|]. inversion F; subst. constructor; [|auto].
  apply Forall_app. split; [exact A|]. constructor; [apply apart_sym; assumption|constructor].
Qed.
Lemma fresh_block sz al n B base : good_request sz al n -> 0 < base -> base + alloc_size B sz al n < W -> bok (mk_block base (alloc_size B sz al n), []) /\
  exists p b', block_allocate sz al n (mk_block base (alloc_size B sz al n)) = Some (p, b').
Proof.
  intros (G1 & G2 & G3 & G4) HB HW. assert (0 < n * sz) by nia.
  assert (S : n * sz + al - 1 <= alloc_size B sz al n) by (unfold alloc_size; rewrite (Z.mod_small (n * sz + al - 1)) by lia; lia).
  set (size := alloc_size B sz al n) in *. split.
  - unfold bok, mk_block. cbn [bk_data bk_sz bk_free fok cnt cntl]. repeat split; try lia; constructor.
  - unfold block_allocate. destruct (Z.eqb_spec n 0); [lia|]. rewrite Z.mod_small by lia. cbn [mk_block bk_free free_allocate].
    destruct (align_fits al (n * sz) base (base + size - base) G3 ltac:(lia)) as (q & ->). eauto.
Qed.

Lemma alloc_inv B sz al n base st live : inv st live -> good_request sz al n -> fresh st (alloc_size B sz al n) base ->
  exists p st', allocate B sz al n (Some base) st = Ret (Some p, st') /\ inv st' (Al p n sz al :: live).
Proof.
  intros (bls & -> & P & F & NE & O) G (B0 & BW & FR). pose proof G as (G1 & _). unfold allocate. destruct (Z.eqb_spec n 0); [lia|].
  destruct (try_blocks sz al n (map fst bls)) as [[p st']|] eqn:T.
  - destruct (try_blocks_ok sz al n G bls p st' F T) as (bls' & -> & F' & P' & D & N). eexists _, _. split; [reflexivity|].
    exists bls'. split; [reflexivity|]. split; [|split; [exact F'|split; [exact (N NE)|exact (apart_all _ _ D O)]]].
    apply Permutation_sym. eapply Permutation_trans; [exact P'|]. constructor. apply Permutation_sym. exact P.
  - destruct (fresh_block sz al n B base G B0 BW) as (BK & q & b' & E). rewrite E. eexists _, _. split; [reflexivity|].
    destruct (block_allocate_ok _ _ _ _ _ _ _ BK G E) as (B1 & B2 & B3).
    exists (bls ++ [(b', [Al q n sz al])]). rewrite !map_app, concat_app. cbn [map concat fst snd app]. split; [reflexivity|]. split.
    { apply Permutation_sym. eapply Permutation_trans; [apply Permutation_app_comm|]. cbn. constructor. apply Permutation_sym. exact P. }
    split; [apply Forall_app; auto|]. split; [apply Forall_app; split; [exact NE|constructor; [discriminate|constructor]]|].
    apply apart_snoc; [exact O|]. rewrite Forall_forall in FR |- *. intros c I. specialize (FR c I). unfold apart. rewrite B2, B3. cbn [mk_block bk_data bk_sz]. tauto.
Qed.

Lemma perm_remove (l1 l2 : list alloc) a ls : Permutation (l1 ++ a :: l2) ls -> In a ls.
Proof. intros P. eapply Permutation_in; [exact P|]. apply in_or_app. right. left. reflexivity. Qed.
(** freeing [a], live in the block *)
Lemma block_deallocate_ok b l1 a l2 : bok (b, l1 ++ a :: l2) -> exists b', block_deallocate (al_sz a) (al_p a) (al_n a) b = Some b' /\
  bok (b', l1 ++ l2) /\ bk_data b' = bk_data b /\ bk_sz b' = bk_sz b.
Proof.
  intros BK. pose proof (bok_live b _ a BK ltac:(apply in_or_app; right; left; reflexivity)) as [P1 P2].
  destruct BK as (A & B & C & F & D & OK). apply Forall_app in OK as [OK1 OK2]. inversion OK2 as [|? ? OA OK3]; subst.
  destruct (al_ext a OA) as [E1 E2]. unfold block_deallocate.
  destruct (Z.ltb_spec (al_p a) (bk_data b)); [lia|]. rewrite Z.geb_leb. destruct (Z.leb_spec (bk_data b + bk_sz b) (al_p a)); [lia|]. cbn [orb].
  rewrite Z.mod_small by lia. fold (al_end a). eexists. split; [reflexivity|].
  destruct (free_insert_ok (al_p a) (al_end a) (bk_free b) _ _ F E1 P2 ltac:(lia)) as [I1 I2].
  { intros x X. specialize (D x). rewrite cntl_app in D. cbn [cntl] in D. pose proof (cntl_nonneg l1 x). pose proof (cntl_nonneg l2 x). pose proof (cnt_nonneg (bk_free b) x).
    assert (ind (al_p a) (al_end a) x = 1) by indr. unfold ind in D at 2. destruct (_ && _); lia. }
  split; [|split; reflexivity]. unfold bok. cbn [bk_data bk_sz bk_free]. repeat split; try assumption.
  - intros x. rewrite I2, <- D, !cntl_app. cbn [cntl]. lia.
  - apply Forall_app. auto.
Qed.
Lemma bok_empty b : bok (b, []) -> block_isEmpty b = true.
Proof.
  intros (A & B & C & F & D & _). unfold block_isEmpty. rewrite (full_one (bk_data b) (bk_data b + bk_sz b) (bk_free b)); [|lia|exact F|].
  - apply Z.eqb_eq. lia.
  - intros x X. specialize (D x). cbn in D. indr.
Qed.
Lemma bok_nonempty b ls : bok (b, ls) -> ls <> [] -> block_isEmpty b = false.
Proof.
  intros (A & B & C & F & D & OK) NE. destruct ls as [|a ls]; [congruence|]. unfold block_isEmpty. destruct (bk_free b) as [|[s e] [|]]; try reflexivity.
  apply Z.eqb_neq. intros E. inversion OK as [|? ? OA ?]; subst. destruct (al_ext a OA) as [L _]. specialize (D (al_p a)). cbn [fok cnt cntl] in *.
  pose proof (cntl_nonneg ls (al_p a)). indr.
Qed.
Lemma skip_block b ls a b2 ls2 : bok (b, ls) -> bok (b2, ls2) -> In a ls2 -> apart b b2 -> block_deallocate (al_sz a) (al_p a) (al_n a) b = None.
Proof.
  intros B1 B2 I AP. pose proof (bok_live b2 ls2 a B2 I) as [P1 P2]. destruct B2 as (_ & S & _ & _ & _ & OK). rewrite Forall_forall in OK.
  destruct (al_ext a (OK a I)) as [L _]. unfold block_deallocate. rewrite Z.geb_leb.
  destruct (Z.ltb_spec (al_p a) (bk_data b)); [reflexivity|]. destruct (Z.leb_spec (bk_data b + bk_sz b) (al_p a)); [reflexivity|]. unfold apart in AP. lia.
Qed.
Lemma dealloc_ok a : forall bls, Forall bok bls -> Forall (fun bl => snd bl <> []) bls -> ForallOrdPairs apart (map fst bls) -> In a (concat (map snd bls)) ->
  exists bls', deallocate (al_sz a) (al_p a) (al_n a) (map fst bls) = map fst bls' /\ Forall bok bls' /\ Forall (fun bl => snd bl <> []) bls' /\
  ForallOrdPairs apart (map fst bls') /\ Permutation (concat (map snd bls)) (a :: concat (map snd bls')) /\
  (forall c, Forall (apart c) (map fst bls) -> Forall (apart c) (map fst bls')).
Proof.
  induction bls as [|[b ls] bls IH]; intros F NE O I; [destruct I|]. inversion F as [|? ? FB FR]; subst. inversion NE as [|? ? NB NR]; subst. cbn [map fst snd] in *.
  inversion O as [|? ? OB OR]; subst. cbn [concat] in I. apply in_app_or in I as [I|I].
  - apply in_split in I as (l1 & l2 & ->). destruct (block_deallocate_ok b l1 a l2 FB) as (b' & E & B1 & B2 & B3). cbn [deallocate]. rewrite E.
    destruct (l1 ++ l2) as [|a0 l0] eqn:EL.
    + rewrite (bok_empty b' B1). exists bls. apply app_eq_nil in EL as [-> ->]. cbn. repeat split; try assumption; [apply Permutation_refl|].
      intros c FC. inversion FC; subst. assumption.
    + rewrite <- EL in B1. rewrite (bok_nonempty b' (l1 ++ l2) B1) by congruence. exists ((b', l1 ++ l2) :: bls). cbn [map fst snd concat].
      split; [reflexivity|]. split; [constructor; assumption|]. split; [constructor; [cbn; congruence|assumption]|]. split; [|split].
      * constructor; [|exact OR]. eapply Forall_impl; [|exact OB]. intros c. apply apart_dims; assumption.
      * change (a :: (l1 ++ l2) ++ concat (map snd bls)) with ((a :: l1 ++ l2) ++ concat (map snd bls)). apply Permutation_app_tail. apply Permutation_sym. apply Permutation_middle.
      * intros c FC. inversion FC; subst. constructor; [|assumption]. apply apart_sym. apply (apart_dims b); [assumption..|]. apply apart_sym. assumption.
  - destruct (IH FR NR OR I) as (bls' & E & F' & N' & O' & P' & Q). cbn [deallocate].
    assert (SK : block_deallocate (al_sz a) (al_p a) (al_n a) b = None).
    { apply in_concat in I as (ls2 & IL & IA). apply in_map_iff in IL as ([b2 ls3] & E3 & I3). cbn in E3. subst ls3.
      rewrite Forall_forall in FR. apply (skip_block b ls a b2 ls2 FB (FR _ I3) IA). rewrite Forall_forall in OB. apply OB. apply in_map_iff. exists (b2, ls2). auto. }
    rewrite SK, E. exists ((b, ls) :: bls'). cbn [map fst snd concat]. split; [reflexivity|]. split; [constructor; assumption|]. split; [constructor; assumption|].
    split; [constructor; [apply Q; exact OB|exact O']|]. split.
    + eapply Permutation_trans; [apply Permutation_app_head; exact P'|]. apply Permutation_sym. apply Permutation_middle.
    + intros c FC. inversion FC; subst. constructor; [assumption|auto].
Qed.
Lemma free_inv st l1 a l2 : inv st (l1 ++ a :: l2) -> inv (deallocate (al_sz a) (al_p a) (al_n a) st) (l1 ++ l2).
Proof.
  intros (bls & -> & P & F & NE & O). destruct (dealloc_ok a bls F NE O (perm_remove _ _ _ _ P)) as (bls' & E & F' & N' & O' & P' & _).
  exists bls'. rewrite E. repeat split; try assumption. apply (Permutation_cons_inv (a := a)).
  eapply Permutation_trans; [apply Permutation_middle|]. eapply Permutation_trans; [exact P|exact P'].
Qed.
Lemma reach_inv B st live : reach B st live -> inv st live.
Proof.
  induction 1 as [|st live sz al n base p st' _ IH G F H|st l1 a l2 _ IH].
  - exists []. cbn. repeat split; constructor.
  - destruct (alloc_inv B sz al n base st live IH G F) as (q & st2 & E & I). rewrite H in E. injection E as <- <-. exact I.
  - apply free_inv. exact IH.
Qed.

(** ** C02 *)
Definition inside_block (st : list block) (a : alloc) : Prop :=
  exists b, In b st /\ bk_data b <= al_p a /\ al_p a + al_n a * al_sz a <= bk_data b + bk_sz b.
Definition holds_byte (a : alloc) (x : Z) : Prop := al_p a <= x < al_p a + al_n a * al_sz a.
Lemma disjoint_of_cnt live : Forall al_ok live -> (forall x, cntl live x <= 1) -> ForallOrdPairs (fun a b => forall x, ~ (holds_byte a x /\ holds_byte b x)) live.
Proof.
  induction live as [|a live IH]; intros F C; [constructor|]. inversion F; subst. constructor.
  - apply Forall_forall. intros b I x [HA HB]. specialize (C x). cbn [cntl] in C. apply in_split in I as (l1 & l2 & ->). rewrite cntl_app in C. cbn [cntl] in C.
    pose proof (cntl_nonneg l1 x). pose proof (cntl_nonneg l2 x). unfold holds_byte in *.
    assert (ind (al_p a) (al_end a) x = 1) by (unfold al_end; indr). assert (ind (al_p b) (al_end b) x = 1) by (unfold al_end; indr). lia.
  - apply IH; [assumption|]. intros x. specialize (C x). cbn [cntl] in C. pose proof (ind_nonneg (al_p a) (al_end a) x). lia.
Qed.
Lemma blocks_cnt : forall bls x, Forall bok bls -> ForallOrdPairs apart (map fst bls) ->
  cntl (concat (map snd bls)) x <= 1 /\ (0 < cntl (concat (map snd bls)) x -> exists b, In b (map fst bls) /\ bk_data b <= x < bk_data b + bk_sz b).
Proof.
  induction bls as [|[b ls] bls IH]; intros x F O; [cbn; split; [lia|lia]|]. inversion F as [|? ? FB FR]; subst. cbn [map fst snd concat] in *. inversion O as [|? ? OB OR]; subst.
  destruct (IH x FR OR) as [I1 I2]. rewrite cntl_app. destruct FB as (A & B & C & FF & D & OK). specialize (D x). pose proof (cnt_nonneg (bk_free b) x).
  pose proof (cntl_nonneg ls x). pose proof (cntl_nonneg (concat (map snd bls)) x).
  destruct (Z.eq_dec (cntl (concat (map snd bls)) x) 0) as [Z0|NZ].
  - rewrite Z0. split; [unfold ind in D; destruct (_ && _); lia|]. intros P. exists b. split; [left; reflexivity|]. indr.
  - destruct I2 as (b2 & IB & X); [lia|]. rewrite Forall_forall in OB. pose proof (OB b2 IB) as AP. unfold apart in AP.
    assert (Z1 : ind (bk_data b) (bk_data b + bk_sz b) x = 0) by indr. split; [lia|]. intros _. exists b2. split; [right; exact IB|exact X].
Qed.
Lemma inv_safe st live : inv st live ->
  Forall (fun a => al_p a mod al_al a = 0 /\ 0 < al_p a /\ inside_block st a) live /\
  ForallOrdPairs (fun a b => forall x, ~ (holds_byte a x /\ holds_byte b x)) live.
Proof.
  intros (bls & -> & P & F & NE & O).
  assert (AO : Forall al_ok live).
  { apply Forall_forall. intros a I. apply (Permutation_in _ P) in I. apply in_concat in I as (ls & IL & IA). apply in_map_iff in IL as ([b ls'] & E & IB). cbn in E. subst ls'.
    rewrite Forall_forall in F. destruct (F _ IB) as (_ & _ & _ & _ & _ & OK). rewrite Forall_forall in OK. auto. }
  split.
  - apply Forall_forall. intros a I. pose proof AO as AO'. rewrite Forall_forall in AO'. split; [apply AO'; exact I|]. apply (Permutation_in _ P) in I. apply in_concat in I as (ls & IL & IA).
    apply in_map_iff in IL as ([b ls'] & E & IB). cbn in E. subst ls'. rewrite Forall_forall in F. pose proof (F _ IB) as BK. pose proof (bok_live b ls a BK IA) as [P1 P2].
    destruct BK as (B0 & _). split; [lia|]. exists b. split; [apply in_map_iff; exists (b, ls); auto|]. split; [exact P1|exact P2].
  - apply disjoint_of_cnt; [exact AO|]. intros x. rewrite (cntl_perm _ _ x P). apply blocks_cnt; assumption.
Qed.
Lemma allocator_safe B st live : reach B st live ->
  Forall (fun a => al_p a mod al_al a = 0 /\ 0 < al_p a /\ inside_block st a) live /\
  ForallOrdPairs (fun a b => forall x, ~ (holds_byte a x /\ holds_byte b x)) live.
Proof. intros H. exact (inv_safe _ _ (reach_inv B st live H)). Qed.
(** the blocks themselves are disjoint memory in the address space *)
Lemma blocks_safe B st live : reach B st live -> ForallOrdPairs apart st /\ Forall (fun b => 0 < bk_data b /\ 0 < bk_sz b /\ bk_data b + bk_sz b < W) st.
Proof.
  intros H. destruct (reach_inv B st live H) as (bls & -> & _ & F & _ & O). split; [exact O|]. apply Forall_forall. intros b I. apply in_map_iff in I as ([b' ls] & E & I). cbn in E. subst b'.
  rewrite Forall_forall in F. destruct (F _ I) as (A & B1 & C & _). auto.
Qed.
(** ** C03 *)
Lemma allocator_returns_all B st : reach B st [] -> st = [].
Proof.
  intros H. destruct (reach_inv B st [] H) as (bls & -> & P & _ & NE & _). apply Permutation_nil in P. destruct bls as [|[b ls] bls]; [reflexivity|].
  inversion NE as [|? ? N _]; subst. cbn in P. apply app_eq_nil in P as [P _]. contradiction.
Qed.
(** every block held serves a live allocation *)
Lemma blocks_used B st live b : reach B st live -> In b st -> exists a, In a live /\ bk_data b <= al_p a /\ al_p a + al_n a * al_sz a <= bk_data b + bk_sz b.
Proof.
  intros H I. destruct (reach_inv B st live H) as (bls & -> & P & F & NE & _). apply in_map_iff in I as ([b' ls] & E & I). cbn in E. subst b'.
  rewrite Forall_forall in F, NE. pose proof (NE _ I) as N. cbn in N. destruct ls as [|a ls]; [congruence|]. exists a.
  split; [apply (Permutation_in _ (Permutation_sym P)); apply in_concat; exists (a :: ls); split; [apply in_map_iff; exists (b, a :: ls); auto|left; reflexivity]|].
  exact (bok_live b _ a (F _ I) (or_introl eq_refl)).
Qed.
(** ** C04 *)
Lemma allocator_progress B st live sz al n base : reach B st live -> good_request sz al n -> fresh st (alloc_size B sz al n) base ->
  exists p st', allocate B sz al n (Some base) st = Ret (Some p, st') /\ reach B st' (Al p n sz al :: live).
Proof.
  intros H G F. destruct (alloc_inv B sz al n base st live (reach_inv B st live H) G F) as (p & st' & E & _). exists p, st'. split; [exact E|].
  econstructor; eassumption.
Qed.
(** a request that wraps is served as one for the wrapped number of bytes *)
Lemma wrapped_same B sz al n nr st : let m := n * sz mod W in n <> 0 -> m <> 0 ->
  allocate B sz al n nr st = allocate B 1 al m nr st.
Proof.
  intros m N M. assert (EB : forall b, block_allocate sz al n b = block_allocate 1 al m b).
  { intros b. unfold block_allocate. destruct (Z.eqb_spec n 0); [contradiction|]. destruct (Z.eqb_spec m 0); [contradiction|].
    rewrite Z.mul_1_r. unfold m. rewrite Z.mod_mod by discriminate. reflexivity. }
  assert (ET : try_blocks sz al n st = try_blocks 1 al m st) by (induction st as [|b st IH]; cbn [try_blocks]; [reflexivity|rewrite EB, IH; reflexivity]).
  assert (ES : alloc_size B sz al n = alloc_size B 1 al m).
  { unfold alloc_size, m. f_equal. rewrite Z.mul_1_r. rewrite <- !Z.add_sub_assoc. rewrite Zplus_mod_idemp_l. reflexivity. }
  unfold allocate. destruct (Z.eqb_spec n 0); [contradiction|]. destruct (Z.eqb_spec m 0); [contradiction|]. rewrite ET, ES. destruct (try_blocks 1 al m st) as [[p st']|]; [reflexivity|]. destruct nr as [base|]; [|reflexivity]. rewrite EB. reflexivity.
Qed.
Lemma wrapped_short B st live sz al n base : reach B st live -> 0 < sz -> 0 < al -> W <= n * sz -> let m := n * sz mod W in
  0 < m -> m + al - 1 < W -> fresh st (alloc_size B sz al n) base ->
  exists p st', allocate B sz al n (Some base) st = Ret (Some p, st') /\ m < n * sz /\ reach B st' (Al p m 1 al :: live).
Proof.
  intros H S A L m M MA F. assert (N : n <> 0) by (intros ->; cbn in L; unfold W in L; lia).
  assert (ES : alloc_size B sz al n = alloc_size B 1 al m).
  { unfold alloc_size, m. f_equal. rewrite Z.mul_1_r. rewrite <- !Z.add_sub_assoc. rewrite Zplus_mod_idemp_l. reflexivity. }
  rewrite (wrapped_same B sz al n (Some base) st N) by (fold m; lia). fold m. rewrite ES in F.
  destruct (allocator_progress B st live 1 al m base H) as (p & st' & E & R); [unfold good_request; lia|exact F|].
  exists p, st'. split; [exact E|]. split; [|exact R]. pose proof (Z.mod_pos_bound (n * sz) W ltac:(reflexivity)). unfold m. lia.
Qed.
(** a request whose alignment slack wraps: null, and an unused block is kept *)
Lemma free_allocate_big al m : 0 < al -> forall l lo hi, fok lo l hi -> 0 <= lo -> hi < W -> W < al + m -> free_allocate al m l = None.
Proof.
  intros A. induction l as [|[s e] l IH]; intros lo hi F L H M; [reflexivity|]. cbn [fok free_allocate] in *. destruct F as (F1 & F2 & F3 & F4).
  destruct (std_align al m s (e - s)) as [q|] eqn:E.
  - exfalso. apply align_spec in E as (E1 & E2 & E3); [|exact A].
    assert (al <= q) by (apply Z.mod_divide in E1 as (k & ->); [|lia]; assert (0 < k) by nia; nia). lia.
  - rewrite (IH e hi F4) by lia. reflexivity.
Qed.
Lemma slack_wraps B st live sz al n base : reach B st live -> 0 < n -> 0 < sz -> 0 < al -> al < W -> n * sz < W -> W <= n * sz + al - 1 ->
  fresh st (alloc_size B sz al n) base -> 0 < alloc_size B sz al n ->
  allocate B sz al n (Some base) st = Ret (None, st ++ [mk_block base (alloc_size B sz al n)]).
Proof.
  intros H N S A AW NS L (F1 & F2 & F3) P. destruct (reach_inv B st live H) as (bls & -> & _ & F & _ & _). unfold allocate. destruct (Z.eqb_spec n 0); [lia|].
  assert (BN : forall b ls, bok (b, ls) -> block_allocate sz al n b = None).
  { intros b ls (B1 & B2 & B3 & B4 & _). unfold block_allocate. destruct (Z.eqb_spec n 0); [lia|]. rewrite Z.mod_small by (split; [apply Z.mul_nonneg_nonneg; lia|lia]).
    rewrite (free_allocate_big al (n * sz) A _ _ _ B4) by lia. reflexivity. }
  assert (T : try_blocks sz al n (map fst bls) = None).
  { clear F3 H. induction F as [|[b ls] bls FB F IH]; cbn [try_blocks map fst]; [reflexivity|]. rewrite (BN b ls FB), IH. reflexivity. }
  rewrite T. rewrite (BN _ []); [reflexivity|]. set (size := alloc_size B sz al n) in *. unfold bok, mk_block. cbn [bk_data bk_sz bk_free fok cnt cntl]. repeat split; try lia; constructor.
Qed.
(** requests for nothing *)
Lemma null_requests B sz al nr st : allocate B sz al 0 nr st = Ret (None, st).
Proof. reflexivity. Qed.
Lemma null_free B st live sz n : reach B st live -> deallocate sz 0 n st = st.
Proof.
  intros H. destruct (blocks_safe B st live H) as [_ F]. clear H. induction F as [|b st (A & C & D) F IH]; cbn; [reflexivity|].
  unfold block_deallocate. destruct (Z.ltb_spec 0 (bk_data b)); [|lia]. cbn. rewrite IH. reflexivity.
Qed.

(** ** examples *)
Definition B0 : Z := 32 * 1024.
(** three allocations of different types, the middle one freed, then a small one
    that takes part of the gap *)
Lemma ex_reach : exists st, reach B0 st [Al 4098 3 1 1; Al 4144 2 16 16; Al 4096 1 2 2] /\ length st = 1%nat.
Proof.
  assert (G : forall sz al n, (0 <? n) && (0 <? sz) && (0 <? al) && (n * sz + al - 1 <? W) = true -> good_request sz al n).
  { intros sz al n HG. rewrite !andb_true_iff, !Z.ltb_lt in HG. unfold good_request. tauto. }
  assert (F : forall sz al n, (alloc_size B0 sz al n <? W - 4096) = true -> fresh [] (alloc_size B0 sz al n) 4096).
  { intros sz al n HF. apply Z.ltb_lt in HF. unfold fresh. repeat split; [lia|constructor]. }
  assert (R1 : exists st, reach B0 st [Al 4096 1 2 2] /\ st = [Blk 4096 32768 [(4098, 36864)]]).
  { eexists. split; [eapply (reach_alloc B0 [] [] 2 2 1 4096 4096); [constructor|apply G; reflexivity|apply F; reflexivity|reflexivity]|reflexivity]. }
  destruct R1 as (s1 & R1 & E1).
  assert (FB : forall l sz al n, (alloc_size B0 sz al n <? W - 65536) = true -> fresh [Blk 4096 32768 l] (alloc_size B0 sz al n) 65536).
  { intros l sz al n HF. apply Z.ltb_lt in HF. unfold fresh. repeat split; [lia|constructor; [right; cbn; lia|constructor]]. }
  subst s1. assert (R2 : reach B0 [Blk 4096 32768 [(4138, 36864)]] [Al 4098 40 1 1; Al 4096 1 2 2])
    by (eapply (reach_alloc B0 _ _ 1 1 40 65536); [exact R1|apply G; reflexivity|apply FB; reflexivity|reflexivity]).
  assert (R3 : reach B0 [Blk 4096 32768 [(4138, 4144); (4176, 36864)]] [Al 4144 2 16 16; Al 4098 40 1 1; Al 4096 1 2 2])
    by (eapply (reach_alloc B0 _ _ 16 16 2 65536); [exact R2|apply G; reflexivity|apply FB; reflexivity|reflexivity]).
  pose proof (reach_free B0 _ [Al 4144 2 16 16] (Al 4098 40 1 1) [Al 4096 1 2 2] R3) as R4. vm_compute in R4. fold B0 in R4. 
  eexists. split; [eapply (reach_alloc B0 _ _ 1 1 3 65536); [exact R4|apply G; reflexivity|apply FB; reflexivity|reflexivity]|reflexivity].
Qed.
Definition huge : Z := 2 ^ 61 + 1.
Lemma wrap_overlap : exists p st1 q st2, allocate B0 8 8 huge (Some 4096) [] = Ret (Some p, st1) /\
  allocate B0 1 1 8 (Some 65536) st1 = Ret (Some q, st2) /\ holds_byte (Al p huge 8 8) q /\ holds_byte (Al q 8 1 1) q.
Proof. exists 4096, [Blk 4096 32768 [(4104, 36864)]], 4104, [Blk 4096 32768 [(4112, 36864)]]. split; [vm_compute; reflexivity|]. split; [vm_compute; reflexivity|]. unfold holds_byte. vm_compute. repeat split; discriminate. Qed.
Lemma ex_slack : let al := 8 in let n := 2 ^ 64 - 4 in 0 < n /\ n * 1 < W /\ W <= n * 1 + al - 1 /\ fresh [] (alloc_size B0 1 al n) 4096 /\
  allocate B0 1 al n (Some 4096) [] = Ret (None, [mk_block 4096 32768]).
Proof. cbv zeta. split; [reflexivity|]. split; [reflexivity|]. split; [vm_compute; discriminate|]. split; [|vm_compute; reflexivity]. repeat split; constructor. Qed.
Lemma ex_freed : exists st a, reach B0 st [a] /\ st <> [] /\ reach B0 (deallocate (al_sz a) (al_p a) (al_n a) st) [].
Proof.
  assert (R1 : reach B0 [Blk 4096 32768 [(4098, 36864)]] [Al 4096 1 2 2]).
  { eapply (reach_alloc B0 [] [] 2 2 1 4096 4096); [constructor|repeat split; vm_compute; reflexivity|repeat split; constructor|reflexivity]. }
  eexists _, _. split; [exact R1|]. split; [discriminate|]. exact (reach_free B0 _ [] _ [] R1).
Qed.
