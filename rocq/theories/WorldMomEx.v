(** A world over the reals that meets the hypotheses of C80: two squares of mass 4
    joined by a hinge, one of them moving.  [step_shown]: the world is reachable, the
    hinge pushes its two bodies apart with equal and opposite impulses, and the step
    returns. *)
From Coq Require Import ZArith List Bool Lia Reals Lra.
From Verif Require Import Num Outcome Box Mat MatFacts MatSolve Geom Transform TransformFacts Body BodyFacts BodyMore Constraint ConstraintFacts ConstraintThm Contact World WorldHoare WorldInv WorldFrame WorldIsland WorldSolve WorldComp WorldSleep WorldOps WorldCols WorldClean WorldKill WorldStep WorldStrict WorldHist WorldThm WorldMass WorldReal WorldLib WorldDemo WorldMove WorldMomentum WorldMomLib.
Import ListNotations.
Local Open Scope R_scope.
Local Existing Instance RTrig.
Local Existing Instance LibB.
Definition rset : @settings RNum := @Set_ RNum 1 0 true false 1 1 1.
Definition rrot : @rotation RNum := @Rot RNum 0 1 0.
Definition rhinge : @CS RNum LibB := LEq (hinge_fun (rv 1 0) (rv (-1) 0)) (new_eqsolver (hinge_fun (rv 1 0) (rv (-1) 0)) (fun _ => 0) (fun _ => 0)).
Definition sq : list Rv := square (-1) (-1) 2.
Definition rhinged : list (@cmd RNum LibB) := [DBody (rv 0 0) rrot 1; DAdd 0%nat sq 1 0%nat; DBody (rv 2 0) rrot 1; DAdd 2%nat sq 1 7%nat; DCon 0%nat 2%nat None true rhinge; DVel 0%nat (rv 3 1) 0].
Lemma mp_add_none (m i x y : R) : m <> 0 -> mp_add (N := RNum) mp_zero (@MP RNum m i (rv x y)) = @MP RNum m i (rv x y).
Proof.
  intros H. unfold mp_add. cbv zeta. cbn [mp_zero mp_m mp_c mp_I]. change (@kadd RNum k0 m) with (0 + m)%R. unfold k0. cbn [keqb kofZ RNum]. destruct (Reqb_spec (0 + m) 0) as [e|_]; [exfalso; apply H; lra|].
  unfold vdivs, vadd, vscale, vnormsq, vdot. cbn [vx vy kadd kmul kdiv ksub RNum rv].
  apply (f_equal3 (@MP RNum)); [cbn; lra| |apply (f_equal2 (@V2 RNum))]; cbn; field; lra.
Qed.
Lemma sq_props : mp_of (N := RNum) sq 1 = Ret (@MP RNum 4 (8/3) (rv 0 0)).
Proof. unfold sq. rewrite square_props by lra. f_equal. apply (f_equal3 (@MP RNum)); [cbn; lra|cbn; lra|apply (f_equal2 (@V2 RNum)); cbn; lra]. Qed.
Lemma add_sq (x : R) k : exists cs, add_collider_full (new_body (rv x 0) rrot 1) (@Coll RNum k sq 1 sq) = (@Body RNum (@Pos RNum (rv x 0) rrot (rv 0 0)) (rv 0 0) 0 cs (@MP RNum 4 (8/3) (rv 0 0)) 1 false 0, true).
Proof.
  unfold add_collider_full, colliders_add, c_props. cbn [c_density c_local c_id]. rewrite sq_props. change (b_props (new_body (rv x 0) rrot 1)) with (@mp_zero RNum). rewrite mp_add_none by lra. 
  assert (E1 : forall a b (c : R) d e (f : R) g (h : R) a' b' d' (c' : R), a = a' -> b = b' -> c' = c -> d = d' -> @Body RNum a b c d e f g h = @Body RNum a' b' c' d' e f g h) by congruence.
  eexists. apply (f_equal2 pair); [|reflexivity]. unfold recentre, b_update, set_lc, set_vel, set_colliders. cbv zeta. cbn [b_pos b_vel b_ang b_colliders b_props b_dominance b_asleep b_immobile new_body mp_c p_off p_rot p_lc]. apply E1.
  - reflexivity.
  - unfold vscale, vadd. cbn [kmul kadd k0 kofZ RNum vx vy]. apply (f_equal2 (@V2 RNum)); rcbn; ring.
  - reflexivity.
  - reflexivity.
Qed.

Lemma Reqb_f a b : a <> b -> Reqb a b = false. Proof. destruct (Reqb_spec a b); congruence. Qed.
Lemma Rltb_t a b : a < b -> Rltb a b = true. Proof. destruct (Rltb_spec a b); [reflexivity|contradiction]. Qed.
Lemma Rltb_f a b : ~ a < b -> Rltb a b = false. Proof. destruct (Rltb_spec a b); [contradiction|reflexivity]. Qed.
Lemma Rleb_t a b : a <= b -> Rleb a b = true. Proof. destruct (Rleb_spec a b); [reflexivity|contradiction]. Qed.
Lemma Rleb_f a b : ~ a <= b -> Rleb a b = false. Proof. destruct (Rleb_spec a b); [contradiction|reflexivity]. Qed.
Lemma Reqb_t a b : a = b -> Reqb a b = true. Proof. destruct (Reqb_spec a b); [reflexivity|contradiction]. Qed.
Ltac num := lra || nra || (field_simplify; lra).
Ltac dec := match goal with
  | |- context [Reqb ?a ?b] => first [rewrite (Reqb_f a b) by (apply Rlt_not_eq; num) | rewrite (Reqb_f a b) by (apply Rgt_not_eq; num) | rewrite (Reqb_t a b) by num]
  | |- context [Rltb ?a ?b] => first [rewrite (Rltb_t a b) by num | rewrite (Rltb_f a b) by num]
  | |- context [Rleb ?a ?b] => first [rewrite (Rleb_t a b) by num | rewrite (Rleb_f a b) by num]
  end.


Definition add_w (w : @world RNum LibB) (b : id) (y : wbody) (h : nat) (x' : @body RNum) : @world RNum LibB :=
  let k := w_next w in let w1 := set_next w (S k) in
  W (put (w_bh w) b (with_wb y x')) (w_ch w) (w_fh w) (put (w_kh w) k (WK b (pick w1 h (S (S k))))) (w_bodies w) (w_cons w) (w_cts w) (w_forces w) (w_tree w ++ [k]) (w_set w) (S k) (w_log w).
Lemma add_ok (w : @world RNum LibB) b y (l : list Rv) (d : R) h x' : w_bh w b = Some y -> add_collider_full (wb y) (@Coll RNum (w_next w) l d l) = (x', true) -> act1 (DAdd b l d h) w = Some (add_w w b y h x').
Proof.
  intros E A. unfold act1. rewrite E. cbn [is_some]. unfold add_col, bind at 1, body_at, deref. rewrite E. unfold fresh, new_addr, get, bind, modify, put_body. 
  change (@K RNum) with R in *. rewrite A. reflexivity.
Qed.
Definition con_w (w : @world RNum LibB) (b0 b1 : id) (x0 x1 : wbody) (c : wcon) : @world RNum LibB :=
  let i := w_next w in
  W (put (put (put (put (w_bh w) b0 (with_cs x0 (wb_cs x0 ++ [i]))) b0 (with_wb (with_cs x0 (wb_cs x0 ++ [i])) (set_asleep false (wb x0)))) b1 (with_cs x1 (wb_cs x1 ++ [i]))) b1 (with_wb (with_cs x1 (wb_cs x1 ++ [i])) (set_asleep false (wb x1))))
    (put (w_ch w) i c) (w_fh w) (w_kh w) (w_bodies w) (w_cons w ++ [i]) (w_cts w) (w_forces w) (w_tree w) (w_set w) (S i) (w_log w).
Lemma put_eq {A} (h : heap A) i a : put h i a i = Some a. Proof. unfold put. rewrite Nat.eqb_refl. reflexivity. Qed.
Lemma put_ne {A} (h : heap A) i j a : j <> i -> put h i a j = h j. Proof. intros H. unfold put. destruct (Nat.eqb_spec j i); [contradiction|reflexivity]. Qed.
Lemma con_ok (w : @world RNum LibB) b0 b1 x0 x1 doms dis st (m0 I0 m1 I1 : R) : w_bh w b0 = Some x0 -> w_bh w b1 = Some x1 -> b0 <> b1 -> bodies_masses (wb x0) (wb x1) doms = (m0, I0, m1, I1) -> m0 <> 0 ->
  act1 (DCon b0 b1 doms dis st) w = Some (con_w w b0 b1 x0 x1 (@WC RNum LibB b0 b1 m0 I0 m1 I1 dis false false None st)).
Proof.
  intros E0 E1 ND HM HZ. unfold act1. rewrite E0, E1. cbn [is_some andb]. unfold make_con, new_con, bind, body_at, deref. rewrite E0. cbn iota beta. rewrite E1. cbn iota beta. rewrite HM. cbn iota beta zeta.
  unfold structural_in. cbn [c_b0 c_b1 c_m0 c_m1]. rewrite Nat.eqb_refl. destruct (Nat.eqb_spec b1 b0) as [e|_]; [congruence|]. rewrite Nat.eqb_refl. cbn [lift].
  assert (Z : @keqb RNum m0 k0 = false) by (cbn; unfold k0; cbn; destruct (Reqb_spec m0 0); [contradiction|reflexivity]).
  unfold lift, bind, ret. rewrite Z. cbn [andb]. unfold fresh, modify, con_bodies. cbn [c_b0 c_b1]. destruct (Nat.eqb_spec b0 b1) as [e|_]; [contradiction|].
  cbn [iter]. unfold bind, mod_body, wake, mod_body, bind, put_body, modify, body_at, deref. cbn [w_bh set_bh set_next set_cons set_ch w_ch].
  rewrite E0. cbn [w_bh set_bh]. rewrite put_eq. cbn [w_bh set_bh]. rewrite !put_ne by congruence. cbn [w_bh set_bh set_next set_cons set_ch w_ch]. rewrite E1. cbn [w_bh set_bh]. rewrite put_eq. reflexivity.
Qed.
Definition body_w (w : @world RNum LibB) (p : Rv) r (d : R) : @world RNum LibB :=
  let i := w_next w in W (put (w_bh w) i (WB (new_body (N := RNum) p r d) false None [] [])) (w_ch w) (w_fh w) (w_kh w) (w_bodies w ++ [i]) (w_cons w) (w_cts w) (w_forces w) (w_tree w) (w_set w) (S i) (w_log w).
Lemma body_ok (w : @world RNum LibB) p r d : act1 (DBody p r d) w = Some (body_w w p r d). Proof. reflexivity. Qed.
Definition vel_w (w : @world RNum LibB) (b : id) y (v : Rv) (a : R) : @world RNum LibB :=
  W (put (w_bh w) b (with_wb y (set_ang (N := RNum) (set_vel (wb y) v) a))) (w_ch w) (w_fh w) (w_kh w) (w_bodies w) (w_cons w) (w_cts w) (w_forces w) (w_tree w) (w_set w) (w_next w) (w_log w).
Lemma vel_ok (w : @world RNum LibB) b y v a : w_bh w b = Some y -> act1 (DVel b v a) w = Some (vel_w w b y v a).
Proof. intros E. unfold act1, set_velocity, mod_body, bind, body_at, deref. rewrite E. reflexivity. Qed.
Lemma play_cons c l (w w1 : @world RNum LibB) : act1 c w = Some w1 -> play (c :: l) w = play l w1. Proof. intros E. cbn [play]. rewrite E. reflexivity. Qed.
Lemma masses_eq (x0 x1 : Rv) v0 v1 cs0 cs1 p0 p1 : bodies_masses (@Body RNum p0 v0 0 cs0 (@MP RNum 4 (8/3) x0) 1 false 0) (@Body RNum p1 v1 0 cs1 (@MP RNum 4 (8/3) x1) 1 false 0) None = (1 * (1/4), 1 * (1/(8/3)), 1*(1/4), 1*(1/(8/3)))%R.
Proof. unfold bodies_masses. cbn -[Reqb Rltb IZR Rmult Rdiv]. repeat (dec; cbn -[Reqb Rltb IZR Rmult Rdiv]). reflexivity. Qed.
Definition sqb (x : R) (cs : list (@collider RNum)) : @body RNum := @Body RNum (@Pos RNum (rv x 0) rrot (rv 0 0)) (rv 0 0) 0 cs (@MP RNum 4 (8/3) (rv 0 0)) 1 false 0.
Definition e0 : @world RNum LibB := empty_world rset.
Definition e1 := body_w e0 (rv 0 0) rrot 1.
Definition wb0 x : @wbody RNum := WB (new_body (N := RNum) (rv x 0) rrot 1) false None [] [].
Definition wb1 x cs : @wbody RNum := WB (sqb x cs) false None [] [].
Section Play.
Variables cs0 cs1 : list (@collider RNum).
Definition e2 := add_w e1 0%nat (wb0 0) 0%nat (sqb 0 cs0).
Definition e3 := body_w e2 (rv 2 0) rrot 1.
Definition e4 := add_w e3 2%nat (wb0 2) 7%nat (sqb 2 cs1).
Definition hc : @wcon RNum LibB := @WC RNum LibB 0%nat 2%nat (1 * (1/4)) (1 * (1/(8/3))) (1*(1/4)) (1*(1/(8/3))) true false false None rhinge.
Definition e5 := con_w e4 0%nat 2%nat (wb1 0 cs0) (wb1 2 cs1) hc.
Definition wb2 x cs : @wbody RNum := WB (sqb x cs) false None [4%nat] [].
Definition e6 := vel_w e5 0%nat (wb2 0 cs0) (rv 3 1) 0.
Lemma play_e : add_collider_full (new_body (N := RNum) (rv 0 0) rrot 1) (@Coll RNum 1%nat sq 1 sq) = (sqb 0 cs0, true) -> add_collider_full (new_body (N := RNum) (rv 2 0) rrot 1) (@Coll RNum 3%nat sq 1 sq) = (sqb 2 cs1, true) ->
  play rhinged (empty_world rset) = Some e6.
Proof.
  intros A0 A1. unfold rhinged.
  rewrite (play_cons _ _ _ e1) by reflexivity.
  rewrite (play_cons _ _ _ e2) by (apply (add_ok e1 0%nat (wb0 0)); [reflexivity|exact A0]).
  rewrite (play_cons _ _ _ e3) by reflexivity.
  rewrite (play_cons _ _ _ e4) by (apply (add_ok e3 2%nat (wb0 2)); [reflexivity|exact A1]).
  rewrite (play_cons _ _ _ e5) by (apply (con_ok e4 0%nat 2%nat (wb1 0 cs0) (wb1 2 cs1)); [reflexivity|reflexivity|discriminate|apply masses_eq|lra]).
  rewrite (play_cons _ _ _ e6) by (apply (vel_ok e5 0%nat (wb2 0 cs0)); reflexivity).
  reflexivity.
Qed.
Definition flat : @world RNum LibB :=
  W (put (put (put (put (put (put (put (put (put (fun _ => None) 0%nat (wb0 0)) 0%nat (wb1 0 cs0)) 2%nat (wb0 2)) 2%nat (wb1 2 cs1)) 0%nat (wb2 0 cs0)) 0%nat (wb2 0 cs0)) 2%nat (wb2 2 cs1)) 2%nat (wb2 2 cs1)) 0%nat (with_wb (wb2 0 cs0) (set_ang (N := RNum) (set_vel (sqb 0 cs0) (rv 3 1)) 0)))
    (put (fun _ => None) 4%nat hc) (fun _ => None) (put (put (fun _ => None) 1%nat (WK 0%nat 0%nat)) 3%nat (WK 2%nat 7%nat)) [0%nat; 2%nat] [4%nat] [] [] [1%nat; 3%nat] rset 5%nat [].
Lemma flat_e : e6 = flat. Proof. reflexivity. Qed.
Lemma even_e : all_G lib_even e6.
Proof.
  assert (PE : lib_even rhinge) by (apply pairing_even; constructor).
  intros c x E. change (put (fun _ => None) 4%nat hc c = Some x) in E. unfold put in E. destruct (Nat.eqb c 4); [injection E as <-; exact PE|discriminate].
Qed.
Lemma closed_e : closed_group (fun _ => true) e6.
Proof.
  intros c x E. change (put (fun _ => None) 4%nat hc c = Some x) in E. unfold put in E. destruct (Nat.eqb c 4); [injection E as <-|discriminate].
  split; [reflexivity|]. intros _. split; [discriminate|]. change (1 * (1/4) * 4 = 1 /\ 1 * (1/4) * 4 = 1)%R. split; field.
Qed.
Lemma weighty_e : weighty e6.
Proof.
  intros c x E. change (put (fun _ => None) 4%nat hc c = Some x) in E. unfold put in E. destruct (Nat.eqb c 4); [injection E as <-|discriminate].
  split; intros H; exfalso; change (Reqb (1 * (1/4)) 0 = true) in H; rewrite Reqb_f in H by lra; discriminate.
Qed.
Lemma motion_e0 : motion_at e6 0%nat = Some (@Pos RNum (rv 0 0) rrot (rv 0 0), @Vel RNum (rv 3 1) 0). Proof. reflexivity. Qed.
Lemma motion_e2 : motion_at e6 2%nat = Some (@Pos RNum (rv 2 0) rrot (rv 0 0), @Vel RNum (rv 0 0) 0). Proof. reflexivity. Qed.
End Play.

Lemma acts_false (w : @world RNum LibB) i y c x : w_bh w i = Some y -> wb_cs y = [c] -> wb_cts y = [] -> w_ch w c = Some x -> structural_in x i = Ret false -> acts_structural i w = Ok false w.
Proof.
  intros E E1 E2 E3 E4. unfold acts_structural, bind, body_at, deref. rewrite E, E1, E2. cbn [all_structural]. destruct (at_rest _); [|reflexivity]. unfold bind, con_at, deref, lift. rewrite E3, E4. reflexivity.
Qed.
Lemma hc_moves i (x : @wcon RNum LibB) : (i = 0 \/ i = 2)%nat -> c_b0 x = 0%nat -> c_b1 x = 2%nat -> c_m0 x = 1 * (1/4) -> c_m1 x = 1 * (1/4) -> structural_in x i = Ret false.
Proof.
  intros [-> | ->] A B C D; unfold structural_in; rewrite A, B; cbn [Nat.eqb]; [rewrite C|rewrite D]; f_equal; apply Reqb_f; cbn; lra.
Qed.

Section Init.
Variables (w : @world RNum LibB) (y0 y2 : @wbody RNum).
Hypotheses (H0 : w_bh w 0%nat = Some y0) (H2 : w_bh w 2%nat = Some y2) (HC : w_ch w 4%nat = Some hc) (C0 : wb_cs y0 = [4%nat]) (C2 : wb_cs y2 = [4%nat]) (T0 : wb_cts y0 = []) (T2 : wb_cts y2 = []) (P0 : wb_proxy y0 = None) (P2 : wb_proxy y2 = None).
Definition il1 : @island RNum := Isl [2%nat] [] [] [b_pos (wb y2)] [vel_of (wb y2)] (negb (b_asleep (wb y2))).
Definition il2 : @island RNum := Isl [2%nat; 0%nat] [4%nat] [] [b_pos (wb y2); b_pos (wb y0)] [vel_of (wb y2); vel_of (wb y0)] (negb (b_asleep (wb y2)) || negb (b_asleep (wb y0))).
Definition i1 := set_bh w (put (w_bh w) 2%nat (with_proxy y2 (Some 0%nat))).
Definition i2 := set_bh i1 (put (w_bh i1) 0%nat (with_proxy y0 (Some 1%nat))).
Definition i3 := set_ch i2 (put (w_ch i2) 4%nat (con_px true hc)).
Definition i4 := set_ch i3 (put (w_ch i3) 4%nat (con_st rhinge (con_px true hc))).
Lemma i1_0 : w_bh i1 0%nat = Some y0. Proof. unfold i1. cbn [w_bh set_bh]. rewrite put_ne by discriminate. exact H0. Qed.
Lemma i1_2 : w_bh i1 2%nat = Some (with_proxy y2 (Some 0%nat)). Proof. apply put_eq. Qed.
Lemma i2_0 : w_bh i2 0%nat = Some (with_proxy y0 (Some 1%nat)). Proof. apply put_eq. Qed.
Lemma i2_2 : w_bh i2 2%nat = Some (with_proxy y2 (Some 0%nat)). Proof. unfold i2. cbn [w_bh set_bh]. rewrite put_ne by discriminate. exact i1_2. Qed.
Lemma i3_4 : w_ch i3 4%nat = Some (con_px true hc). Proof. apply put_eq. Qed.
Lemma add_first : add_body (Isl [] [] [] [] [] false) 2%nat w = Ok (il1, true) i1.
Proof. unfold add_body, bind, body_at, deref. rewrite H2. cbn iota beta. rewrite P2. reflexivity. Qed.
Lemma add_hinge : add_con false il1 4%nat i1 = Ok il2 i4.
Proof.
  unfold add_con, bind, con_at, body_at, deref. change (w_ch i1 4%nat) with (w_ch w 4%nat). rewrite HC. cbn [c_px hc c_b0 c_b1]. rewrite i1_0. cbn iota beta. rewrite i1_2. cbn iota beta.
  unfold add_body at 1, bind, body_at, deref. rewrite i1_0. cbn iota beta. rewrite P0. 
  change (Z.ltb _ _) with true. cbn iota beta. change (put_body 0%nat (with_proxy y0 (Some (length (is_pos il1)))) i1) with (Ok tt i2). cbn iota beta. cbn [fst snd].
  unfold add_body, bind, body_at, deref, ret. rewrite i2_2. cbn iota beta. cbn [wb_proxy with_proxy fst snd].
  unfold start_solve, bind, con_at, body_at, deref. change (w_ch i2 4%nat) with (w_ch w 4%nat). rewrite HC. cbn [c_b0 c_b1 hc]. rewrite i2_0, i2_2. cbn [wb_proxy with_proxy].
  change (put_con 4%nat (con_px true hc) i2) with (Ok tt i3). cbn iota beta. unfold ret. cbn iota beta. reflexivity.
Qed.
Lemma again : add_con false il2 4%nat i4 = Ok il2 i4.
Proof. unfold add_con, bind, con_at, deref. change (w_ch i4 4%nat) with (Some (con_st rhinge (con_px true hc))). reflexivity. Qed.
Lemma init_e : init_island 2 (Isl [] [] [] [] [] false) 2%nat w = Ok il2 i4.
Proof.
  unfold init_island, bind. rewrite add_first. cbn [fst]. cbn [grow]. change (nth_error (is_bodies il1) 0) with (Some 2%nat). unfold bind. cbn iota beta.
  rewrite (acts_false i1 2%nat (with_proxy y2 (Some 0%nat)) 4%nat hc i1_2 C2 T2 HC ltac:(apply hc_moves; auto)).
  unfold body_at, deref. rewrite i1_2. cbn iota beta. change (wb_cs (with_proxy y2 (Some 0%nat))) with (wb_cs y2). change (wb_cts (with_proxy y2 (Some 0%nat))) with (wb_cts y2). rewrite C2, T2.
  cbn [foldm]. unfold bind. rewrite add_hinge. unfold ret. cbn iota beta. change (nth_error (is_bodies il2) 1) with (Some 0%nat). cbn iota beta.
  rewrite (acts_false i4 0%nat (with_proxy y0 (Some 1%nat)) 4%nat (con_st rhinge (con_px true hc)) i2_0 C0 T0 eq_refl ltac:(apply hc_moves; auto)).
  change (w_bh i4 0%nat) with (Some (with_proxy y0 (Some 1%nat))). cbn iota beta. change (wb_cs (with_proxy y0 (Some 1%nat))) with (wb_cs y0). change (wb_cts (with_proxy y0 (Some 1%nat))) with (wb_cts y0). rewrite C0, T0.
  cbn [foldm]. unfold bind. rewrite again. reflexivity.
Qed.
End Init.

Record Inv (st : @CS RNum LibB) (w : @world RNum LibB) : Prop := {
  iv_0 : exists y, w_bh w 0%nat = Some y /\ wb_proxy y = Some 1%nat; iv_2 : exists y, w_bh w 2%nat = Some y /\ wb_proxy y = Some 0%nat;
  iv_4 : exists x, w_ch w 4%nat = Some x /\ c_px x = true /\ c_b0 x = 0%nat /\ c_b1 x = 2%nat /\ c_m0 x = 1 * (1/4) /\ c_I0 x = 1 * (1/(8/3)) /\ c_m1 x = 1 * (1/4) /\ c_I1 x = 1 * (1/(8/3)) /\ c_st x = st;
  iv_w : w_bodies w = [0%nat; 2%nat] /\ w_cons w = [4%nat] /\ w_cts w = [] /\ w_forces w = [] /\ w_set w = rset }.
Lemma put_body_inv st (w : @world RNum LibB) i y : Inv st w -> (i = 0%nat /\ wb_proxy y = Some 1%nat \/ i = 2%nat /\ wb_proxy y = Some 0%nat) -> Inv st (set_bh w (put (w_bh w) i y)).
Proof.
  intros [A B C D] [[-> P]|[-> P]]; split; try exact C; try exact D; cbn [w_bh set_bh].
  - exists y. split; [apply put_eq|exact P].
  - rewrite put_ne by discriminate. exact B.
  - rewrite put_ne by discriminate. exact A.
  - exists y. split; [apply put_eq|exact P].
Qed.
Lemma wake_inv st (w : @world RNum LibB) i : Inv st w -> (i = 0 \/ i = 2)%nat -> exists w', wake i w = Ok tt w' /\ Inv st w'.
Proof.
  intros H Hi. unfold wake, mod_body, bind, body_at, deref, put_body, modify.
  destruct (iv_0 _ _ H) as (y0 & E0 & P0). destruct (iv_2 _ _ H) as (y2 & E2 & P2).
  destruct Hi as [-> | ->]; [rewrite E0|rewrite E2]; eexists; split; try reflexivity; apply put_body_inv; auto.
Qed.
Lemma refresh_inv st (w : @world RNum LibB) p0 p1 v0 v1 a : Inv st w -> exists w' p0' p1' v0' v1', refresh (@Isl RNum [2%nat; 0%nat] [4%nat] [] [p0; p1] [v0; v1] a) w = Ok (@Isl RNum [2%nat; 0%nat] [4%nat] [] [p0'; p1'] [v0'; v1'] a) w' /\ Inv st w'.
Proof.
  intros H. destruct (iv_0 _ _ H) as (y0 & E0 & P0). destruct (iv_2 _ _ H) as (y2 & E2 & P2). destruct (iv_4 _ _ H) as (x & E4 & PX & B0 & B1 & M).
  unfold refresh, bind. cbn [is_bodies is_cons is_cts foldm app iter]. unfold refresh_body, proxy_of, bind, body_at, deref. do 2 (rewrite E2; cbn iota beta). rewrite P2. cbn -[start_solve]. do 2 (rewrite E0; cbn iota beta). rewrite P0. cbn -[start_solve].
  unfold start_solve, bind, con_at, body_at, deref. rewrite E4, B0, B1, E0, E2. cbn iota beta. rewrite P0, P2. unfold put_con, modify, ret. cbn iota beta.
  eexists _, _, _, _, _. split; [reflexivity|]. split; try apply H. exists (con_px true x). split; [apply put_eq|]. cbn. tauto.
Qed.
Lemma call_inv (f : @CS RNum LibB -> @proxies RNum -> @store RNum -> outcome (@CS RNum LibB * @store RNum)) st (w : @world RNum LibB) p0 p1 v0 v1 a st' s' : Inv st w ->
  f st (@Prox RNum 1 0 (1 * (1/4)) (1 * (1/(8/3))) (1 * (1/4)) (1 * (1/(8/3)))) (store_of (@Isl RNum [2%nat; 0%nat] [4%nat] [] [p0; p1] [v0; v1] a) p1 v1) = Ret (st', s') ->
  exists w', call f (@Isl RNum [2%nat; 0%nat] [4%nat] [] [p0; p1] [v0; v1] a) 4%nat w = Ok (@Isl RNum [2%nat; 0%nat] [4%nat] [] [s_pos s' 0%nat; s_pos s' 1%nat] [s_vel s' 0%nat; s_vel s' 1%nat] a) w' /\ Inv st' w'.
Proof.
  intros H EF. destruct (iv_0 _ _ H) as (y0 & E0 & P0). destruct (iv_2 _ _ H) as (y2 & E2 & P2). destruct (iv_4 _ _ H) as (x & E4 & PX & B0 & B1 & M0 & J0 & M1 & J1 & SX).
  unfold call, get_proxies, bind, con_at, body_at, deref. rewrite E4. cbn iota beta. rewrite PX, B0, B1, E0. cbn iota beta. rewrite E2. cbn iota beta. rewrite P0, P2, M0, J0, M1, J1. unfold ret. cbn iota beta. rewrite E4. cbn iota beta.
  unfold lift at 1. cbn [view nth_error is_pos is_vel px_i0 px_i1]. rewrite SX. unfold lift. rewrite EF. cbn iota beta. unfold put_con, modify. cbn iota beta.
  eexists. split; [reflexivity|]. split; try apply H. exists (con_st st' x). split; [apply put_eq|]. cbn. tauto.
Qed.
Lemma init_inv st (w : @world RNum LibB) p0 p1 v0 v1 a st' : Inv st w ->
  bh_init st (@Prox RNum 1 0 (1 * (1/4)) (1 * (1/(8/3))) (1 * (1/4)) (1 * (1/(8/3)))) (store_of (@Isl RNum [2%nat; 0%nat] [4%nat] [] [p0; p1] [v0; v1] a) p1 v1) = Ret st' ->
  exists w', call_init (@Isl RNum [2%nat; 0%nat] [4%nat] [] [p0; p1] [v0; v1] a) 4%nat w = Ok tt w' /\ Inv st' w'.
Proof.
  intros H EF. destruct (iv_0 _ _ H) as (y0 & E0 & P0). destruct (iv_2 _ _ H) as (y2 & E2 & P2). destruct (iv_4 _ _ H) as (x & E4 & PX & B0 & B1 & M0 & J0 & M1 & J1 & SX).
  unfold call_init, get_proxies, bind, con_at, body_at, deref. rewrite E4. cbn iota beta. rewrite PX, B0, B1, E0. cbn iota beta. rewrite E2. cbn iota beta. rewrite P0, P2, M0, J0, M1, J1. unfold ret. cbn iota beta. rewrite E4. cbn iota beta.
  unfold lift at 1. cbn [view nth_error is_pos is_vel px_i0 px_i1]. rewrite SX. unfold lift. rewrite EF. cbn iota beta. unfold put_con, modify.
  eexists. split; [reflexivity|]. split; try apply H. exists (con_st st' x). split; [apply put_eq|]. cbn. tauto.
Qed.

Record Fin (w : @world RNum LibB) : Prop := {
  fn_0 : exists y, w_bh w 0%nat = Some y; fn_2 : exists y, w_bh w 2%nat = Some y; fn_4 : exists x, w_ch w 4%nat = Some x;
  fn_w : w_bodies w = [0%nat; 2%nat] /\ w_cons w = [4%nat] /\ w_cts w = [] /\ w_forces w = [] /\ w_set w = rset }.
Definition hf := hinge_fun (N := RNum) (rv 1 0) (rv (-1) 0).
Lemma velocities_inv (w : @world RNum LibB) p0 p1 v0 v1 a : Inv rhinge w ->
  exists st w' q0 q1 u0 u1, solve_velocities rset 1 (@Isl RNum [2%nat; 0%nat] [4%nat] [] [p0; p1] [v0; v1] a) w = Ok (@Isl RNum [2%nat; 0%nat] [4%nat] [] [q0; q1] [u0; u1] a) w' /\ Inv st w'.
Proof.
  intros H. unfold solve_velocities. cbn [all_of is_cons is_cts app iter foldm rset s_warm s_nvel repeatm]. unfold bind.
  set (px := @Prox RNum 1 0 (1 * (1/4)) (1 * (1/(8/3))) (1 * (1/4)) (1 * (1/(8/3)))).
  set (s0 := store_of (@Isl RNum [2%nat; 0%nat] [4%nat] [] [p0; p1] [v0; v1] a) p1 v1).
  set (eq0 := new_eqsolver hf (fun _ => 0) (fun _ => 0)).
  destruct (hinge_solvable (rv 1 0) (rv (-1) 0) px s0 eq0 ltac:(cbn; lra) ltac:(cbn; lra) ltac:(cbn; lra) ltac:(intros; reflexivity)) as [e EI].
  destruct (init_inv rhinge w p0 p1 v0 v1 a (LEq hf e) H) as (w1 & E1 & H1).
  { change (obind (eq_init eq0 hf px s0) (fun e' => Ret (LEq hf e')) = Ret (LEq hf e)). unfold hf at 1. rewrite EI. reflexivity. }
  rewrite E1. unfold ret. cbn iota beta.
  assert (EW : exists l s1, eq_warmstart e hf px s0 1 = Ret (eq_at e l, s1) /\ s_pos s1 = s_pos s0) by (eexists _, _; split; reflexivity).
  destruct EW as (l & s1 & EW & PS1).
  destruct (call_inv (fun c px st => bh_warm c px st 1) (LEq hf e) w1 p0 p1 v0 v1 a (LEq hf (eq_at e l)) s1 H1) as (w2 & E2 & H2).
  { change (obind (eq_warmstart e hf px s0 1) (fun r => Ret (LEq hf (fst r), snd r)) = Ret (LEq hf (eq_at e l), s1)). rewrite EW. reflexivity. }
  change (@bh_warm RNum LibB) with (@lib_warm RNum) in E2 |- *. rewrite E2. cbn iota beta. rewrite PS1. change (s_pos s0 0%nat) with p0. change (s_pos s0 1%nat) with p1.
  set (s2 := store_of (@Isl RNum [2%nat; 0%nat] [4%nat] [] [p0; p1] [s_vel s1 0%nat; s_vel s1 1%nat] a) p1 (s_vel s1 1%nat)).
  destruct (hinge_together (rv 1 0) (rv (-1) 0) px s0 eq0 e l s2 1 ltac:(cbn; discriminate) EI eq_refl ltac:(intros; reflexivity) ltac:(intros; reflexivity)) as (e' & s' & EV & _ & _).
  destruct (call_inv (fun c px st => bh_vel c px st 1) (LEq hf (eq_at e l)) w2 p0 p1 (s_vel s1 0%nat) (s_vel s1 1%nat) a (LEq hf e') s' H2) as (w3 & E3 & H3).
  { change (obind (eq_velocity (eq_at e l) hf px s2 1) (fun r => Ret (LEq hf (fst r), snd r)) = Ret (LEq hf e', s')). unfold hf at 1. rewrite EV. reflexivity. }
  change (@bh_vel RNum LibB) with (@lib_vel RNum) in E3 |- *. unfold ret. cbn [repeatm foldm all_of is_cons is_cts app s_nvel rset]. unfold bind, ret. rewrite E3. eexists _, _, _, _, _, _. split; [reflexivity|exact H3].
Qed.
Lemma finish_inv st (w : @world RNum LibB) p0 p1 v0 v1 a : Inv st w -> exists w', finish (@Isl RNum [2%nat; 0%nat] [4%nat] [] [p0; p1] [v0; v1] a) w = Ok tt w' /\ Fin w'.
Proof.
  intros H. destruct (iv_0 _ _ H) as (y0 & E0 & P0). destruct (iv_2 _ _ H) as (y2 & E2 & P2). destruct (iv_4 _ _ H) as (x & E4 & _).
  unfold finish, bind. cbn [is_bodies is_cons is_cts all_of app iter]. unfold finish_body, proxy_of, bind, body_at, deref. do 2 (rewrite E2; cbn iota beta). rewrite P2. unfold ret. cbn iota beta. cbn [nth_error is_pos is_vel]. cbn iota beta.
  unfold put_body, modify. cbn iota beta. cbn [w_bh set_bh]. rewrite put_ne by discriminate. rewrite E0. cbn iota beta. cbn [w_bh set_bh]. rewrite put_ne by discriminate. rewrite E0. cbn iota beta. rewrite P0. cbn iota beta. cbn [nth_error is_pos is_vel]. cbn iota beta.
  unfold end_solve, mod_con, bind, con_at, deref, put_con, modify. cbn [w_ch set_bh]. rewrite E4. cbn iota beta.
  eexists. split; [reflexivity|]. split; try apply H; cbn [w_bh w_ch set_ch set_bh].
  - eexists. apply put_eq.
  - rewrite put_ne by discriminate. eexists. apply put_eq.
  - eexists. apply put_eq.
Qed.
Lemma post_ok (w : @world RNum LibB) : Fin w -> update_bodies (plain [] rhinge) 1 w = Ok tt (set_cts w []) /\ post_step (set_cts w []) = Ok tt (set_cts w []).
Proof.
  intros H. destruct (fn_0 _ H) as [y0 E0]. destruct (fn_2 _ H) as [y2 E2]. destruct (fn_4 _ H) as [x E4]. destruct (fn_w _ H) as (B & C & T & F & S).
  split.
  - unfold update_bodies, bind, get. rewrite S. cbn [rset s_sleep]. unfold ret. cbn iota beta. cbn [plain o_pairs iter]. unfold ret. rewrite T. cbn [iter]. unfold ret, modify. rewrite T. reflexivity.
  - unfold post_step, bind, get, body_at, con_at, deref, force_at.
    repeat (cbn [w_bodies w_cons w_cts w_forces set_cts w_bh w_ch iter]; try unfold bind; try unfold ret; cbn iota beta; cbn [w_bodies w_cons w_cts w_forces set_cts w_bh w_ch]; first [rewrite B|rewrite E0|rewrite E2|rewrite C|rewrite E4|rewrite F]). reflexivity.
Qed.
Lemma step_e cs0 cs1 : exists w', step false 2 (plain [] rhinge) 1 (flat cs0 cs1) = Ok tt w'.
Proof.
  assert (ES : exists y0 y2, exists w1, w_bh w1 0%nat = Some y0 /\ w_bh w1 2%nat = Some y2 /\ w_ch w1 4%nat = Some hc /\ wb_cs y0 = [4%nat] /\ wb_cs y2 = [4%nat] /\ wb_cts y0 = [] /\ wb_cts y2 = [] /\ wb_proxy y0 = None /\ wb_proxy y2 = None /\
    b_asleep (wb y0) = false /\ b_asleep (wb y2) = false /\ (w_bodies w1 = [0%nat; 2%nat] /\ w_cons w1 = [4%nat] /\ w_cts w1 = [] /\ w_forces w1 = [] /\ w_set w1 = rset) /\
    step false 2 (plain [] rhinge) 1 (flat cs0 cs1) = bind (if @kltb RNum k0 1 then advance 2 (plain [] rhinge) 1 else ret tt) (fun _ => post_step) w1).
  { eexists _, _, _. repeat split. 13: { reflexivity. } all: reflexivity. }
  destruct ES as (y0 & y2 & w1 & H0 & H2 & HC & C0 & C2 & T0 & T2 & P0 & P2 & S0 & S2 & (WB & WC & WT & WF & WS) & ->).
  assert (L : @kltb RNum k0 1 = true) by (apply Rltb_t; cbn; lra). rewrite L. clear L.
  unfold bind at 1, advance, bind at 1, apply_forces, bind at 1, get at 1. rewrite WF. cbn [iter]. unfold ret at 1. unfold bind, get. rewrite WS, WB. 
  assert (I4 : Inv rhinge (i4 w1 y0 y2)).
  { split; [exists (with_proxy y0 (Some 1%nat)); split; [apply i2_0|reflexivity]|exists (with_proxy y2 (Some 0%nat)); split; [apply i2_2|reflexivity]|exists (con_st rhinge (con_px true hc)); split; [apply put_eq|repeat split]|repeat split; assumption]. }
  assert (SO : exists w', solve_one 2 rset 1 false [0%nat; 2%nat] 2%nat w1 = Ok ([], true) w' /\ Fin w').
  { unfold solve_one, bind. rewrite (init_e w1 y0 y2 H0 H2 HC C0 C2 T0 T2 P0 P2). cbn iota beta zeta. unfold il2. cbn [is_awake]. rewrite S0, S2. cbn [negb orb]. cbn [is_bodies iter]. unfold bind, ret.
    destruct (wake_inv _ _ 2%nat I4 (or_intror eq_refl)) as (w2 & -> & I5). cbn iota beta. destruct (wake_inv _ _ 0%nat I5 (or_introl eq_refl)) as (w3 & -> & I6). cbn iota beta.
    destruct (refresh_inv _ _ (b_pos (wb y2)) (b_pos (wb y0)) (vel_of (wb y2)) (vel_of (wb y0)) true I6) as (w4 & q0 & q1 & u0 & u1 & -> & I7). cbn iota beta. cbn [all_of is_cons is_cts app].
    destruct (velocities_inv w4 q0 q1 u0 u1 true I7) as (st & w5 & r0 & r1 & t0 & t1 & -> & I8). cbn iota beta. unfold integrate. cbn [combine map is_pos is_vel is_bodies is_cons is_cts is_awake]. cbn [solve_positions repeatm rset s_npos]. unfold ret. cbn iota beta.
    match goal with |- context [finish (Isl _ _ _ [?a; ?b] [?c; ?d] _) _] => destruct (finish_inv st w5 a b c d true I8) as (w6 & -> & FI) end. cbn iota beta. unfold log, modify. cbn iota beta. cbn [filter existsb is_bodies].
    eexists. split; [reflexivity|]. split; apply FI. }
  destruct SO as (w2 & ES & FI). cbn [solve_islands rev app]. unfold bind. rewrite ES. cbn iota beta. cbn [fst snd solve_islands rev]. unfold ret. cbn iota beta.
  destruct (post_ok w2 FI) as [U P]. rewrite U, P. eexists. reflexivity.
Qed.
Lemma step_shown : exists w w', reachable w /\ all_G lib_even w /\ closed_group (fun _ => true) w /\ weighty w /\ shuffles (plain [] rhinge) /\ w_forces w = [] /\ w_bodies w = [0%nat; 2%nat] /\ w_cons w = [4%nat] /\ step false (length (w_bodies w)) (plain [] rhinge) 1 w = Ok tt w' /\
  motion_at w 0%nat = Some (@Pos RNum (rv 0 0) rrot (rv 0 0), @Vel RNum (rv 3 1) 0) /\ motion_at w 2%nat = Some (@Pos RNum (rv 2 0) rrot (rv 0 0), @Vel RNum (rv 0 0) 0).
Proof.
  destruct (add_sq 0 1%nat) as [cs0 A0]. destruct (add_sq 2 3%nat) as [cs1 A1]. destruct (step_e cs0 cs1) as [w' E]. exists (e6 cs0 cs1), w'.
  split; [eapply play_reachable, (play_e cs0 cs1 A0 A1)|]. split; [apply even_e|]. split; [apply closed_e|]. split; [apply weighty_e|]. split; [apply plain_shuffles|]. split; [reflexivity|]. split; [reflexivity|]. split; [reflexivity|]. split; [rewrite flat_e; exact E|]. split; reflexivity.
Qed.
