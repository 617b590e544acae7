(** Playback, panning, mouse position and orientation slider (C74-C78). *)
From Coq Require Import ZArith List Bool Reals Lra Psatz Lia.
From Flocq Require Import BinarySingleNaN.
From Verif Require Import Num Outcome Box Mat MatFacts MatSolve Geom GeomClosest Transform TransformFacts Scene.
Import ListNotations.
Local Open Scope R_scope.

Notation Rscene := (@scene RNum).
Notation Revent := (@event RNum).

(** ** play speed *)
Lemma speed_event {N : Num} s e : (k0 <? sc_speed s)%num = true -> (k0 <? sc_speed (on_event s e))%num = true.
Proof.
  intros H. assert (S : forall v, (k0 <? sc_speed (set_speed s v))%num = true).
  { intros v. unfold set_speed. destruct (k0 <? v)%num eqn:E; cbn; assumption. }
  destruct e as [h dt|h k a|v| | |o]; cbn; auto. destruct a, k; cbn; auto; destruct (sc_paused s); cbn; auto.
Qed.
Lemma speed_positive {N : Num} : (k0 <? k1)%num = true -> forall es, (k0 <? sc_speed (play es new_scene))%num = true.
Proof.
  intros H es. unfold play. assert (G : forall s, (k0 <? sc_speed s)%num = true -> (k0 <? sc_speed (fold_left on_event es s))%num = true).
  { induction es as [|e es IH]; intros s Hs; [exact Hs|]. apply IH. apply speed_event. exact Hs. }
  apply G. exact H.
Qed.

(** presses of [=] less presses of [-]; [set_by_hand]: setPlaySpeed is called *)
Definition notches (e : Revent) : Z :=
  match e with EKey _ KeyEqual Press => 1 | EKey _ KeyMinus Press => -1 | _ => 0 end.
Definition set_by_hand (e : Revent) : Prop := match e with ESpeed _ => True | _ => False end.
Definition total_notches (es : list Revent) : Z := fold_right (fun e n => (notches e + n)%Z) 0%Z es.
Lemma speed_notches es (s : Rscene) : 0 < sc_speed s -> (forall e, In e es -> ~ set_by_hand e) ->
  sc_speed (play es s) = sc_speed s * powerRZ 2 (total_notches es).
Proof.
  revert s. induction es as [|e es IH]; intros s P H.
  - cbn. rring.
  - cbn [play fold_left total_notches fold_right]. fold (play es (on_event s e)).
    assert (E : sc_speed (on_event s e) = (sc_speed s * powerRZ 2 (notches e))).
    { assert (NH := H e (or_introl eq_refl)).
      assert (Q : forall v : R, 0 < v -> sc_speed (@set_speed RNum s v) = v).
      { intros v Hv. unfold set_speed. cbn [kltb RNum]. change (@k0 RNum) with 0. rewrite (proj2 (Rltb_iff 0 v) Hv). reflexivity. }
      assert (I1 : sc_speed s = (sc_speed s * powerRZ 2 0)) by (cbn; rring).
      destruct e as [h dt|h k a|v| | |o]; try exact I1; [|exfalso; apply NH; exact Logic.I].
      destruct a, k; try exact I1; cbn [on_event on_key fst notches]; try (destruct (sc_paused s); exact I1).
      - assert (E := Q (sc_speed s / 2) ltac:(lra)). etransitivity; [exact E|]. cbn [powerRZ pow Pos.to_nat Pos.iter_op Init.Nat.add]. change (Pos.to_nat 1) with 1%nat. cbn [pow]. rfield.
      - assert (E := Q (sc_speed s * 2) ltac:(lra)). etransitivity; [exact E|]. cbn [powerRZ]. change (Pos.to_nat 1) with 1%nat. cbn [pow]. rring. }
    rewrite IH.
    + rewrite E. fold (total_notches es). rewrite powerRZ_add by lra. rring.
    + rewrite E. apply Rmult_lt_0_compat; [exact P|]. apply powerRZ_lt. lra.
    + intros x Hx. apply H. right. exact Hx.
Qed.
Lemma speed_keys es : (forall e, In e es -> ~ set_by_hand e) ->
  sc_speed (play es (@new_scene RNum)) = powerRZ 2 (total_notches es).
Proof. intros H. rewrite speed_notches; [cbn; rring|cbn; lra|exact H]. Qed.

(** ** the time given to the world *)
Lemma fzero : fofZ 0 = B754_zero false.
Proof. reflexivity. Qed.
Definition no_time_f (x : f32) : Prop := match x with B754_zero _ => True | B754_nan => True | _ => False end.
Lemma mul_no_time x y : no_time_f y -> no_time_f (fmul x y).
Proof. destruct x, y; cbn; tauto. Qed.
Lemma paused_F (s : @scene F32) dt : sc_paused s = true -> (k0 <? given s dt)%num = false.
Proof.
  intros P. unfold given. rewrite P.
  assert (Z : no_time_f (@kmul F32 (kmin dt sixtieth) (kmul (sc_speed s) k0))).
  { cbn [kmul F32]. apply mul_no_time, mul_no_time. exact Logic.I. }
  revert Z. generalize (@kmul F32 (kmin dt sixtieth) (kmul (sc_speed s) k0)). intros x.
  cbn [kltb F32]. unfold k0. cbn [kofZ F32]. rewrite fzero. destruct x; cbn; tauto.
Qed.
Lemma paused_R (s : Rscene) dt : sc_paused s = true -> given s dt = 0.
Proof. intros P. unfold given. rewrite P. rring. Qed.

Definition total (s : Rscene) : R := fold_right Rplus 0 (sc_given s).
Lemma total_app l (x : R) : fold_right Rplus 0 (l ++ [x]) = fold_right Rplus 0 l + x.
Proof. induction l as [|a l IH]; cbn; [ring|]. rewrite IH. ring. Qed.
(** wall-clock time of an event as far as the scene counts it: at most a 60th of a
    second for a frame, a 60th of a second for a single step *)
Definition elapsed (e : Revent) : R :=
  match e with
  | EFrame _ dt => Rmin dt (1 / 60)
  | EKey _ KeyS Release => 0
  | EKey _ KeyS _ => 1 / 60
  | _ => 0
  end.
Definition single_steps (e : Revent) : R := match e with EFrame _ _ => 0 | _ => elapsed e end.
Definition sum (f : Revent -> R) (es : list Revent) : R := fold_right (fun e t => f e + t) 0 es.
Definition forward (e : Revent) : Prop := match e with EFrame _ dt => 0 <= dt | _ => True end.
Definition speed_change (e : Revent) : Prop :=
  match e with ESpeed _ | EKey _ KeyMinus Press | EKey _ KeyEqual Press => True | _ => False end.
Definition pause_change (e : Revent) : Prop :=
  match e with EPause | EResume | EKey _ KeyP Press => True | _ => False end.

Lemma given_run (s : Rscene) dt : given s dt = Rmin dt (1 / 60) * (sc_speed s * (if sc_paused s then 0 else 1)).
Proof.
  unfold given, kmin, sixtieth. cbn [kltb RNum]. change (@k0 RNum) with 0. change (@k1 RNum) with 1. unfold Rmin.
  cbn [kmul kdiv kofZ RNum]. destruct (sc_paused s); (destruct (Rltb_spec (1 / 60) dt) as [L|L], (Rle_dec dt (1 / 60)) as [M|M]; try reflexivity; try lra; assert (dt = 1 / 60) by lra; subst; reflexivity).
Qed.
Lemma event_total (s : Rscene) e : 
  total (on_event s e) = total s + sc_speed s * (if sc_paused s then single_steps e else elapsed e) /\
  (~ speed_change e -> sc_speed (on_event s e) = sc_speed s) /\
  (~ pause_change e -> sc_paused (on_event s e) = sc_paused s).
Proof.
  assert (Z : forall q, total s = total s + sc_speed s * (if q : bool then 0 else 0)).
  { intros []; rring. }
  assert (G : forall v, sc_given (@set_speed RNum s v) = sc_given s /\ sc_paused (@set_speed RNum s v) = sc_paused s).
  { intros v. unfold set_speed. destruct (_ <? _)%num; auto. }
  assert (W : forall v, total (@set_speed RNum s v) = total s) by (intros v; unfold total; rewrite (proj1 (G v)); reflexivity).
  assert (S60 : @sixtieth RNum = 1 / 60) by reflexivity.
  assert (M60 : Rmin (1 / 60) (1 / 60) = 1 / 60) by (apply Rmin_left; lra).
  destruct e as [h dt|h k a|v| | |o].
  - cbn [on_event scene_step sc_speed sc_paused sc_given single_steps elapsed]. split; [|auto].
    unfold total at 1. cbn [sc_given scene_step]. rewrite total_app, given_run. fold (total s). destruct (sc_paused s); rring.
  - assert (Q : sc_paused s = sc_paused s /\ total s = total s + sc_speed s * (if sc_paused s then 0 else 0)) by auto.
    destruct a, k; cbn [on_event on_key fst single_steps elapsed speed_change pause_change];
      try (split; [apply Z|split; intros; auto; tauto]);
      try (split; [rewrite W; apply Z|split; intros; [tauto|apply G]]).
    all: split; [|destruct (sc_paused s) eqn:P; cbn [set_paused scene_step sc_speed sc_paused]; auto].
    all: destruct (sc_paused s) eqn:P; unfold total at 1; cbn [set_paused scene_step sc_given sc_speed sc_paused sc_cam]; rewrite total_app, given_run; fold (total s); cbn [set_paused sc_speed sc_paused]; try rewrite P; rewrite S60, M60; rring.
  - cbn [on_event single_steps elapsed speed_change pause_change]. split; [rewrite W; apply Z|]. split; [tauto|]. intros _. apply G.
  - cbn. split; [apply Z|tauto].
  - cbn. split; [apply Z|tauto].
  - cbn. split; [apply Z|tauto].
Qed.
Lemma steps_bounds e : forward e -> 0 <= single_steps e <= elapsed e.
Proof.
  destruct e as [h dt|h k a|v| | |o]; cbn; intros F; try lra; [|destruct k, a; lra].
  unfold Rmin. destruct (Rle_dec dt (1 / 60)); lra.
Qed.
Lemma play_total es : forall (s : Rscene), 0 < sc_speed s ->
  (forall e, In e es -> ~ speed_change e) ->
  let d := total (play es s) - total s in
  ((forall e, In e es -> forward e) -> sc_speed s * sum single_steps es <= d <= sc_speed s * sum elapsed es) /\
  ((forall e, In e es -> ~ pause_change e) -> d = sc_speed s * (if sc_paused s then sum single_steps es else sum elapsed es)).
Proof.
  induction es as [|e es IH]; intros s P S; cbv zeta.
  - cbn. split; intros; [split|]; try rlra. destruct (sc_paused s); rlra.
  - cbn [play fold_left sum fold_right]. fold (play es (on_event s e)) (sum single_steps es) (sum elapsed es).
    destruct (event_total s e) as (T & V & Q). rewrite <- (V (S e (or_introl eq_refl))) in *.
    assert (S' : forall x, In x es -> ~ speed_change x) by (intros x Hx; apply S; right; exact Hx).
    destruct (IH (on_event s e) P S') as [A B]. clear IH. cbv zeta in A, B. set (v := sc_speed (on_event s e)) in *. clearbody v. change (@K RNum) with R in *.
    split.
    + intros F. assert (A' := A (fun x Hx => F x (or_intror Hx))). pose proof (steps_bounds e (F e (or_introl eq_refl))) as SB.
      destruct (sc_paused s); nra.
    + intros F. assert (B' := B (fun x Hx => F x (or_intror Hx))). rewrite (Q (F e (or_introl eq_refl))) in B'.
      destruct (sc_paused s); nra.
Qed.
(** the time simulated during [es], after any history *)
Lemma playback es0 es : let s := play es0 (@new_scene RNum) in
  (forall e, In e es -> ~ speed_change e) ->
  let d := total (play es s) - total s in
  ((forall e, In e es -> forward e) -> sc_speed s * sum single_steps es <= d <= sc_speed s * sum elapsed es) /\
  ((forall e, In e es -> ~ pause_change e) -> d = sc_speed s * (if sc_paused s then sum single_steps es else sum elapsed es)).
Proof.
  cbv zeta. apply play_total. pose proof (@speed_positive RNum ltac:(cbn; apply Rltb_iff; lra) es0) as H. cbn [kltb RNum] in H. apply Rltb_iff in H. exact H.
Qed.

(** ** the pause button: [Click] or anything else *)
Inductive gui_event {N : Num} := Click | Other (e : @event N).
Definition on_gui {N : Num} (p : bool * scene) (g : gui_event) : bool * scene :=
  match g with Click => button (fst p) (snd p) | Other e => (fst p, on_event (snd p) e) end.
Definition play_gui {N : Num} (gs : list gui_event) : bool * scene := fold_left on_gui gs (false, new_scene).
Definition pauses {N : Num} (e : @event N) : Prop := match e with EPause | EResume | EKey _ KeyP Press => True | _ => False end.
Lemma pauses_event {N : Num} (s : scene) e : ~ pauses e -> sc_paused (on_event s e) = sc_paused s.
Proof.
  destruct e as [h dt|h k a|v| | |o]; cbn; intros H; try reflexivity; try tauto.
  - destruct a, k; cbn; try tauto; try reflexivity; try (destruct (sc_paused s) eqn:E; cbn; try rewrite E; reflexivity);
      unfold set_speed; destruct (_ <? _)%num; reflexivity.
  - unfold set_speed; destruct (_ <? _)%num; reflexivity.
Qed.
Lemma gui_sync {N : Num} gs : (forall e, In (Other e) gs -> ~ pauses e) -> sc_paused (snd (play_gui gs)) = fst (play_gui gs).
Proof.
  unfold play_gui. assert (G : forall p, sc_paused (snd p) = fst p -> (forall e, In (Other e) gs -> ~ pauses e) ->
    sc_paused (snd (fold_left on_gui gs p)) = fst (fold_left on_gui gs p)).
  { induction gs as [|g gs IH]; intros p E H; [exact E|]. apply IH.
    - destruct g as [|e]; cbn; [reflexivity|]. rewrite pauses_event; [exact E|]. apply H. left. reflexivity.
    - intros e He. apply H. right. exact He. }
  apply G. reflexivity.
Qed.

(** ** panning and the mouse: where a scene point is in the window, in pixels from
    the top left corner.  The transform of the camera takes what is visible to
    [-1, 1] x [-1, 1]. *)
Definition pixel (wz : Rv) (c : Rcam) (v : Rv) : Rv :=
  let n := mat_apply (cam_transform c) v in rv ((vx n + 1) / 2 * vx wz) ((1 - vy n) / 2 * vy wz).
Lemma cam_ok_event {N : Num} (s : scene) e : cam_ok (sc_cam s) -> cam_ok (sc_cam (on_event s e)).
Proof.
  intros H. assert (M : forall h dt c, cam_ok c -> cam_ok (move_camera h dt c)).
  { intros h dt c Hc. unfold move_camera. destruct (_ || _); [|exact Hc]. exact Hc. }
  destruct e as [h dt|h k a|v| | |o]; cbn; auto.
  - destruct a, k; cbn; auto; try (destruct (sc_paused s); cbn; auto); unfold set_speed; destruct (_ <? _)%num; exact H.
  - unfold set_speed; destruct (_ <? _)%num; exact H.
  - apply cam_ok_step. exact H.
Qed.
Lemma cam_ok_play (es : list Revent) : cam_ok (sc_cam (play es new_scene)).
Proof.
  unfold play. assert (G : forall s, cam_ok (sc_cam s) -> cam_ok (sc_cam (fold_left on_event es s))).
  { induction es as [|e es IH]; intros s Hs; [exact Hs|]. apply IH, cam_ok_event, Hs. }
  apply G. exact cam_ok_init_R.
Qed.
Definition b2R (b : bool) : R := if b then 1 else 0.
Definition head_x (h : arrows) : R := b2R (a_right h) - b2R (a_left h).
Definition head_y (h : arrows) : R := b2R (a_up h) - b2R (a_down h).
Lemma pan_dir_at h : @pan_dir RNum h = rv (head_x h) (head_y h).
Proof.
  destruct h as [[] [] [] []]; unfold pan_dir, head_x, head_y, b2R; cbn [a_left a_right a_up a_down]; ung; f_equal; rring.
Qed.
Lemma pan_pixels es (wz : Rv) h (dt : R) (v : Rv) : let s := play es (@new_scene RNum) in
  0 < cam_pixel (sc_cam s) -> 0 < vx wz -> 0 < vy wz -> cam_dim (sc_cam s) = vscale (cam_pixel (sc_cam s)) wz ->
  let p := pixel wz (sc_cam s) v in let p' := pixel wz (sc_cam (@scene_step RNum h dt s)) v in
  let x := head_x h in let y := head_y h in
  (x = 0 -> y = 0 -> p' = p) /\
  (x <> 0 \/ y <> 0 -> p' = rv (vx p - 500 * Rmin dt (1 / 60) * (x / sqrt (x * x + y * y)))
                               (vy p + 500 * Rmin dt (1 / 60) * (y / sqrt (x * x + y * y)))).
Proof.
  cbv zeta. intros PX WX WY D. pose proof (cam_ok_play es) as OK. set (s := play es new_scene) in *. clearbody s.
  assert (MN : @kmin RNum dt sixtieth = Rmin dt (1 / 60)).
  { unfold kmin, sixtieth, Rmin. cbn [kltb RNum]. change (@kdiv RNum k1 (kofZ 60)) with (1 / 60).
    destruct (Rltb_spec (1 / 60) dt), (Rle_dec dt (1 / 60)); try reflexivity; try lra. }
  unfold scene_step. cbn [sc_cam]. rewrite MN. clear MN. set (m := Rmin dt (1 / 60)). clearbody m. set (c := sc_cam s) in *. clearbody c. clear s.
  unfold move_camera. rewrite pan_dir_at. set (x := head_x h). set (y := head_y h). clearbody x y.
  cbn [keqb RNum rv vx vy]. change (@k0 RNum) with 0. split.
  - intros -> ->. destruct (Reqb_spec 0 0); [|tauto]. reflexivity.
  - intros NZ. assert (Q : (negb (Reqb x 0) || negb (Reqb y 0))%bool = true).
    { destruct (Reqb_spec x 0), (Reqb_spec y 0); cbn; try reflexivity; tauto. }
    rewrite Q. clear Q.
    assert (N : vnorm (rv x y : Rv) = sqrt (x * x + y * y)).
    { unfold vnorm, vnormsq, vdot. cbn [ksqrt RNum]. f_equal. unfold rv. cbn [vx vy]. rcbn. rring. }
    unfold vnormalized. rewrite N. assert (SP : 0 < sqrt (x * x + y * y)) by (apply sqrt_lt_R0; nra).
    set (q := sqrt (x * x + y * y)) in *. clearbody q. unfold pixel.
    assert (OK' : cam_ok (cam_pan c (vscale (N := RNum) m (vscale (kofZ 500 * cam_pixel c / cam_zoom c)%num (vdivs (rv x y) q))))) by exact OK.
    rewrite !cam_transform_at by assumption. clear OK'. destruct OK as (Z & _). cbn [kltb RNum] in Z. change (@k0 RNum) with 0 in Z. apply Rltb_iff in Z.
    unfold cam_pan. cbn [cam_center cam_zoom cam_dim]. rewrite D. destruct c as [ce d z px]. cbn [cam_center cam_zoom cam_dim cam_pixel] in *. co. ung.
    f_equal; rfield; repeat split; lra.
Qed.
Lemma window_at (c : Rcam) (wz p : Rv) : cam_ok c -> 0 < vx wz -> 0 < vy wz ->
  window_to_scene wz c p = mat_apply (cam_invTransform c) (rv (2 * vx p / vx wz - 1) (1 - 2 * vy p / vy wz)).
Proof.
  intros (Z & X & Y) WX WY. cbn [kltb RNum] in *. change (@k0 RNum) with 0 in *. apply Rltb_iff in Z, X, Y.
  unfold window_to_scene, screen_to_ndc, flip_y, cam_invTransform, mdiagonal, vec3, mat_apply. und. destruct c as [ce d z px]. cbn [cam_zoom cam_dim cam_center] in *. rcbn. co.
  f_equal; rfield; lra.
Qed.
Lemma click es (wz : Rv) : let c := sc_cam (play es (@new_scene RNum)) in 0 < vx wz -> 0 < vy wz ->
  (forall p, pixel wz c (window_to_scene wz c p) = p) /\ (forall v, window_to_scene wz c (pixel wz c v) = v).
Proof.
  cbv zeta. intros WX WY. pose proof (cam_ok_play es) as OK. set (c := sc_cam (play es new_scene)) in *. clearbody c.
  split; intros u; unfold pixel; rewrite !window_at by assumption; rewrite ?cam_transform_at, ?cam_inv_at by exact OK;
    destruct OK as (Z & X & Y); cbn [kltb RNum] in *; change (@k0 RNum) with 0 in *; apply Rltb_iff in Z, X, Y; destruct c as [ce d z px]; cbn [cam_zoom cam_dim cam_center] in *; co; ung;
    f_equal; rfield; repeat split; lra.
Qed.

(** ** the orientation slider *)
(** the orientation that the slider gives for [d] degrees, and what it shows [n + 1]
    frames after [d] was chosen when the user leaves it alone *)
Definition radians {N : Num} {RD : Rounding N} (d : Z) : K := (kofZ d * kpi / kofZ 180)%num.
Fixpoint shows {N : Num} {RD : Rounding N} (n : nat) (o : K) : outcome Z :=
  (let* r := slider o None in match n with O => Ret (fst r) | S n => shows n (snd r) end)%out.

Lemma slider_chosen {N : Num} {RD : Rounding N} o d : match slider o (Some d) with Ret r => snd r = radians d | _ => slider o (Some d) = UB \/ slider o (Some d) = Throw \/ slider o (Some d) = Fuel end.
Proof. unfold slider, radians. destruct (ktrunc _); cbn; auto. Qed.
Lemma int_part_unique (x : R) z : IZR z <= x < IZR z + 1 -> Int_part x = z.
Proof.
  intros [A B]. destruct (base_Int_part x) as [C D]. assert (IZR (Int_part x) < IZR z + 1) by lra. assert (IZR z < IZR (Int_part x) + 1) by lra.
  rewrite <- plus_IZR in *. apply lt_IZR in H, H0. lia.
Qed.
Lemma slider_R (d : Z) : (-180 <= d <= 180)%Z ->
  let d' := (if d <? 0 then d + 180 else d)%Z in @slider RNum RRound (radians d) None = Ret (d', radians d').
Proof.
  intros B. cbv zeta. assert (P := PI_RGT_0).
  assert (BR : -180 <= IZR d <= 180) by (split; apply IZR_le; lia).
  unfold slider, radians. cbn [kfloor ktrunc kpi RRound kmul kdiv ksub kofZ RNum]. change (@k2 RNum) with 2.
  assert (F : Int_part (IZR d * PI / 180 / (2 * PI)) = if (d <? 0)%Z then (-1)%Z else 0%Z).
  { replace (IZR d * PI / 180 / (2 * PI)) with (IZR d / 360) by (field; lra). apply int_part_unique.
    destruct (d <? 0)%Z eqn:E; [apply Z.ltb_lt in E; assert (IZR d <= -1) by (apply IZR_le; lia)|apply Z.ltb_ge in E; assert (0 <= IZR d) by (apply IZR_le; lia)]; lra. }
  rewrite F. set (d' := (if d <? 0 then d + 180 else d)%Z).
  assert (E : 180 * (IZR d * PI / 180 - IZR (if (d <? 0)%Z then (-1) else 0) * PI) / PI = IZR d').
  { unfold d'. destruct (d <? 0)%Z; [rewrite plus_IZR|]; field; lra. }
  rewrite E. assert (D' : (0 <= d' <= 180)%Z).
  { unfold d'. destruct (d <? 0)%Z eqn:L; [apply Z.ltb_lt in L|apply Z.ltb_ge in L]; lia. }
  assert (T : Rtrunc (IZR d') = d').
  { unfold Rtrunc. destruct (Rltb_spec (IZR d') 0) as [L|L]; [exfalso; apply lt_IZR in L; lia|]. apply int_part_unique. lra. }
  rewrite T. unfold int_outcome. replace ((-2147483648 <=? d')%Z && (d' <=? 2147483647)%Z)%bool with true by (symmetry; apply andb_true_iff; split; apply Z.leb_le; lia).
  reflexivity.
Qed.
Lemma shows_R n : forall d, (-180 <= d <= 180)%Z -> @shows RNum RRound n (radians d) = Ret (if d <? 0 then d + 180 else d)%Z.
Proof.
  induction n as [|n IH]; intros d B; cbn [shows]; rewrite slider_R by exact B; cbn [obind fst snd]; [reflexivity|].
  rewrite IH; destruct (d <? 0)%Z eqn:L; try (apply Z.ltb_lt in L); try (apply Z.ltb_ge in L); try lia; [|].
  - replace (d + 180 <? 0)%Z with false by (symmetry; apply Z.ltb_ge; lia). reflexivity.
  - replace (d <? 0)%Z with false by (symmetry; apply Z.ltb_ge; lia). reflexivity.
Qed.

(** binary32: at most two degrees are lost, however many frames are drawn *)
Definition next_shown (d : Z) : outcome Z := (let* r := @slider F32 FRound (radians d) None in Ret (fst r))%out.
Definition settings : list Z := map (fun n => (Z.of_nat n - 180)%Z) (seq 0 361).
Lemma in_settings d : (-180 <= d <= 180)%Z -> In d settings.
Proof.
  intros B. unfold settings. apply in_map_iff. exists (Z.to_nat (d + 180)). split; [lia|]. apply in_seq. lia.
Qed.
Definition near (d x : Z) : bool := let t := if (d <? 0)%Z then (d + 180)%Z else d in ((t - 2 <=? x) && (x <=? t) && (0 <=? x) && (x <=? 180))%Z%bool.
Definition stable : bool := forallb (fun d =>
  match next_shown d with
  | Ret a => near d a && match next_shown a with
             | Ret b => near d b && match next_shown b with Ret c => Z.eqb c b | _ => false end
             | _ => false end
  | _ => false end) settings.
Lemma stable_ok : stable = true.
Proof. vm_compute. reflexivity. Qed.
Lemma shows_S n d a : next_shown d = Ret a -> @shows F32 FRound (S n) (radians d) = @shows F32 FRound n (radians a).
Proof.
  unfold next_shown. cbn [shows]. unfold slider at 1 2. destruct (ktrunc _) as [z| | |]; cbn; try discriminate. intros E. injection E as <-. reflexivity.
Qed.
Lemma shows_O d a : next_shown d = Ret a -> @shows F32 FRound 0 (radians d) = Ret a.
Proof. unfold next_shown. cbn [shows]. destruct (slider _ _) as [z| | |]; cbn; try discriminate. auto. Qed.
Lemma shows_F n d : (-180 <= d <= 180)%Z -> exists x, @shows F32 FRound n (radians d) = Ret x /\ near d x = true.
Proof.
  intros B. pose proof (proj1 (forallb_forall _ _) stable_ok d (in_settings d B)) as H. cbv beta in H.
  destruct (next_shown d) as [a| | |] eqn:A; try discriminate. apply andb_true_iff in H as [NA H].
  destruct (next_shown a) as [b| | |] eqn:Bq; try discriminate. apply andb_true_iff in H as [NB H].
  destruct (next_shown b) as [c| | |] eqn:C; try discriminate. apply Z.eqb_eq in H. subst c.
  destruct n as [|n]; [exists a; split; [apply shows_O; exact A|exact NA]|]. rewrite (shows_S _ _ _ A). exists b. split; [|exact NB].
  assert (F : forall m, @shows F32 FRound m (radians b) = Ret b).
  { induction m as [|m IH]; [apply shows_O; exact C|]. rewrite (shows_S _ _ _ C). exact IH. }
  destruct n as [|n]; [apply shows_O; exact Bq|]. rewrite (shows_S _ _ _ Bq). apply F.
Qed.
Definition kept_all : bool := forallb (fun c => match @colour F32 FRound c with Ret z => Z.eqb z c | _ => false end) (map Z.of_nat (seq 0 256)).
Lemma kept_all_ok : kept_all = true.
Proof. vm_compute. reflexivity. Qed.
Lemma colour_kept c : (0 <= c <= 255)%Z -> @colour F32 FRound c = Ret c.
Proof.
  intros B. assert (I : In c (map Z.of_nat (seq 0 256))).
  { apply in_map_iff. exists (Z.to_nat c). split; [lia|]. apply in_seq. lia. }
  pose proof (proj1 (forallb_forall _ _) kept_all_ok c I) as H. cbv beta in H.
  destruct (colour c); try discriminate. apply Z.eqb_eq in H. subst. reflexivity.
Qed.
