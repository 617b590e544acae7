(** Properties C74-C78: playback, panning, mouse position and box spawner.
    [play es new_scene]: a scene after the frames, keys and calls [es];
    [sc_given]: the times given to World::step so far, [total] their sum. *)
From Coq Require Import ZArith List Bool Reals Lra Lia.
From Flocq Require Import BinarySingleNaN.
From Verif Require Import Num Outcome Box Mat MatSolve Geom GeomClosest Transform TransformFacts Scene SceneFacts.
Import ListNotations.
Local Open Scope R_scope.

Definition hands_off : arrows := Ar false false false false.
Definition presses {N : Num} (n : nat) (k : key) : list (@event N) := repeat (EKey hands_off k Press) n.

(** C74: the play speed, binary32 included *)
Theorem C74_speed : forall N : Num, (k0 <? k1)%num = true -> forall es, (k0 <? sc_speed (play es new_scene))%num = true.
Proof. exact @speed_positive. Qed.
Print Assumptions C74_speed.
Example C74_speed_example : (@kltb F32 k0 k1 && negb (@kltb F32 k0 (fdiv (sc_speed (play (presses 149 KeyMinus) (@new_scene F32))) (fofZ 2))) = true)%bool.
Proof. vm_compute. reflexivity. Qed.
(** every [=] doubles it and every [-] halves it *)
Theorem C74_notches : forall es, (forall e, In e es -> ~ set_by_hand e) ->
  sc_speed (play es (@new_scene RNum)) = powerRZ 2 (total_notches es).
Proof. exact speed_keys. Qed.
Print Assumptions C74_notches.
Example C74_notches_example : total_notches (presses 3 KeyEqual ++ presses 1 KeyMinus) = 2%Z /\
  (forall e, In e (@presses RNum 3 KeyEqual ++ presses 1 KeyMinus) -> ~ set_by_hand e).
Proof. split; [reflexivity|]. cbn. intuition subst; cbn in *; auto. Qed.
(** not in binary32: 150 times [-], then 150 times [=], plays twice as fast *)
Theorem C74_notches_refuted : exists es, (forall e, In e es -> e = EKey hands_off KeyMinus Press \/ e = EKey hands_off KeyEqual Press) /\
  length (filter (fun e => match e with EKey _ KeyMinus _ => true | _ => false end) es) = 150%nat /\ length es = 300%nat /\
  (sc_speed (play es (@new_scene F32)) =? fofZ 2)%num = true.
Proof.
  exists (presses 150 KeyMinus ++ presses 150 KeyEqual). split; [|vm_compute; auto].
  intros e H. apply in_app_or in H as [H|H]; apply repeat_spec in H; auto.
Qed.
Print Assumptions C74_notches_refuted.
(** a paused scene gives no time to the world, whatever the frame time and speed are *)
Theorem C74_paused : forall (s : @scene F32) dt, sc_paused s = true -> (k0 <? given s dt)%num = false.
Proof. exact paused_F. Qed.
Print Assumptions C74_paused.
Example C74_paused_example : sc_paused (play (presses 128 KeyEqual ++ [EPause]) (@new_scene F32)) = true.
Proof. vm_compute. reflexivity. Qed.
(** but that is not always the number 0: after 128 times [=] it is NaN *)
Theorem C74_zero_refuted : exists es, let s := play es (@new_scene F32) in
  sc_paused s = true /\ (given s (fdiv (fofZ 1) (fofZ 60)) =? given s (fdiv (fofZ 1) (fofZ 60)))%num = false.
Proof. exists (presses 128 KeyEqual ++ [EPause]). vm_compute. auto. Qed.
Print Assumptions C74_zero_refuted.
(** the time simulated while the speed is left alone: at most speed times the time
    elapsed, and exactly that, or exactly the single steps, while the scene keeps
    running or paused *)
Theorem C74_time : forall es0 es, let s := play es0 (@new_scene RNum) in
  (forall e, In e es -> ~ speed_change e) ->
  let d := total (play es s) - total s in
  ((forall e, In e es -> forward e) -> sc_speed s * sum single_steps es <= d <= sc_speed s * sum elapsed es) /\
  ((forall e, In e es -> ~ pause_change e) -> d = sc_speed s * (if sc_paused s then sum single_steps es else sum elapsed es)).
Proof. exact playback. Qed.
Print Assumptions C74_time.
Example C74_time_example : let es0 := [@ESpeed RNum 3; EPause] in let es := [@EFrame RNum hands_off 1; EKey hands_off KeyS Press; @EFrame RNum hands_off (1 / 100)] in
  (forall e, In e es -> ~ speed_change e /\ ~ pause_change e /\ forward e) /\ sc_paused (play es0 (@new_scene RNum)) = true /\
  sum single_steps es = 1 / 60.
Proof.
  cbv zeta. split; [|split].
  - cbn. intros e [<-|[<-|[<-|[]]]]; cbn; repeat split; auto; lra.
  - reflexivity.
  - cbn. lra.
Qed.

(** C75: [shows n (radians d)]: what the slider shows [n + 1] frames after the user
    has chosen [d] degrees.  In exact arithmetic: *)
Theorem C75_exact : forall n d, (0 <= d <= 180)%Z -> @shows RNum RRound n (radians d) = Ret d.
Proof. intros n d H. rewrite (shows_R n d) by lia. replace (d <? 0)%Z with false by (symmetry; apply Z.ltb_ge; lia). reflexivity. Qed.
Print Assumptions C75_exact.
(** every negative choice is turned by half a turn one frame later *)
Theorem C75_negative_refuted : forall n d, (-180 <= d < 0)%Z -> @shows RNum RRound n (radians d) = Ret (d + 180)%Z.
Proof. intros n d H. rewrite (shows_R n d) by lia. replace (d <? 0)%Z with true by (symmetry; apply Z.ltb_lt; lia). reflexivity. Qed.
Print Assumptions C75_negative_refuted.
(** binary32: no more than two degrees are lost in any number of frames, *)
Theorem C75_float : forall n d, (-180 <= d <= 180)%Z -> exists x, @shows F32 FRound n (radians d) = Ret x /\
  let t := (if d <? 0 then d + 180 else d)%Z in (t - 2 <= x <= t /\ 0 <= x <= 180)%Z.
Proof.
  intros n d H. destruct (shows_F n d H) as (x & E & NE). exists x. split; [exact E|]. unfold near in NE. cbv zeta in *.
  repeat (apply andb_true_iff in NE as [NE ?]). repeat match goal with Q : (_ <=? _)%Z = true |- _ => apply Z.leb_le in Q end. lia.
Qed.
Print Assumptions C75_float.
(** and 23 degrees become 22, 163 become 161 after two frames *)
Theorem C75_float_refuted : @shows F32 FRound 0 (radians 23) = Ret 22%Z /\ @shows F32 FRound 1 (radians 163) = Ret 161%Z.
Proof. vm_compute. auto. Qed.
Print Assumptions C75_float_refuted.
(** the colour survives, in binary32 *)
Theorem C75_colour : forall c, (0 <= c <= 255)%Z -> @colour F32 FRound c = Ret c.
Proof. exact colour_kept. Qed.
Print Assumptions C75_colour.
Example C75_example : (0 <= 90 <= 180)%Z /\ (-180 <= -90 < 0)%Z /\ (0 <= 225 <= 255)%Z /\ @shows F32 FRound 0 (radians (-90)) = Ret 90%Z.
Proof. repeat split; try lia. Qed.

(** C76: [pixel wz c v]: where [v] is drawn in a window of [wz] pixels.  Holding the
    arrow keys moves the picture by 500 pixels per second of (capped) frame time *)
Theorem C76_pan : forall es (wz : Rv) h (dt : R) (v : Rv), let s := play es (@new_scene RNum) in
  0 < cam_pixel (sc_cam s) -> 0 < vx wz -> 0 < vy wz -> cam_dim (sc_cam s) = vscale (cam_pixel (sc_cam s)) wz ->
  let p := pixel wz (sc_cam s) v in let p' := pixel wz (sc_cam (@scene_step RNum h dt s)) v in
  let x := head_x h in let y := head_y h in
  (x = 0 -> y = 0 -> p' = p) /\
  (x <> 0 \/ y <> 0 -> p' = rv (vx p - 500 * Rmin dt (1 / 60) * (x / sqrt (x * x + y * y)))
                               (vy p + 500 * Rmin dt (1 / 60) * (y / sqrt (x * x + y * y)))).
Proof. exact pan_pixels. Qed.
Print Assumptions C76_pan.
Example C76_example : let s := play [ECam (@CPixel RNum (1 / 2)); ECam (CScreen (rv 800 600)); ECam (@CZoom RNum 3); EPause] (@new_scene RNum) in
  cam_pixel (sc_cam s) = 1 / 2 /\ cam_dim (sc_cam s) = vscale (cam_pixel (sc_cam s)) (rv 800 600) /\
  head_x (Ar true false true true) = -1 /\ head_y (Ar true false true true) = 0.
Proof.
  cbv zeta.
  assert (E : play [ECam (@CPixel RNum (1 / 2)); ECam (CScreen (rv 800 600)); ECam (@CZoom RNum 3); EPause] (@new_scene RNum)
            = @Sc RNum 1 true (@Cam RNum (rv 0 0) (@vscale RNum (1 / 2) (rv 800 600)) 3 (1 / 2)) []).
  { unfold play. cbn [fold_left on_event cam_step set_paused sc_speed sc_paused sc_cam sc_given]. unfold new_scene, mk_camera. cbn [sc_speed sc_paused sc_cam sc_given].
    unfold cam_setPixelSize, cam_setDimensionsFromScreen, cam_setViewDimensions, cam_setZoom. cbn [cam_center cam_dim cam_zoom cam_pixel].
    ung. cbn [kltb RNum]. rcmp; try lra; cbn; try lra. reflexivity. }
  rewrite E. cbn [sc_cam cam_pixel cam_dim]. repeat split; unfold head_x, head_y, b2R; cbn; lra.
Qed.

(** C77: the scene point under the cursor is the one drawn there *)
Theorem C77_cursor : forall es (wz : Rv), let c := sc_cam (play es (@new_scene RNum)) in 0 < vx wz -> 0 < vy wz ->
  (forall p, pixel wz c (window_to_scene wz c p) = p) /\ (forall v, window_to_scene wz c (pixel wz c v) = v).
Proof. exact click. Qed.
Print Assumptions C77_cursor.
Example C77_example : 0 < vx (rv 800 600) /\ 0 < vy (rv 800 600) /\
  pixel (rv 800 600) (sc_cam (play [] (@new_scene RNum))) (rv 0 0) = rv 400 300.
Proof.
  split; [cbn; lra|]. split; [cbn; lra|]. unfold pixel. rewrite cam_transform_at by exact (cam_ok_play []).
  cbn. f_equal; field.
Qed.

(** C78: the pause button ([fst] of [play_gui]: its label is "Play (P)"): as long as
    nothing else pauses or resumes, the label is right and a click toggles *)
Theorem C78_button : forall (N : Num) gs, (forall e, In (Other e) gs -> ~ pauses e) ->
  let p := play_gui gs in sc_paused (snd p) = fst p /\ sc_paused (snd (on_gui p Click)) = negb (sc_paused (snd p)).
Proof. intros N gs H p. pose proof (gui_sync gs H) as E. split; [exact E|]. unfold p in *. rewrite E. reflexivity. Qed.
Print Assumptions C78_button.
Example C78_example : forall e, In (Other e) [Click; Other (EKey hands_off KeyS Press); @Click F32] -> ~ pauses e.
Proof. cbn. intros e [|[H|[|[]]]]; try discriminate. injection H as <-. cbn. auto. Qed.
(** after P the button says "Pause (P)" in a paused scene and a click does nothing;
    the next one says "Play (P)" *)
Theorem C78_key_refuted : forall N : Num, let p := play_gui [Other (EKey hands_off KeyP Press)] in
  sc_paused (snd p) = true /\ fst p = false /\ sc_paused (snd (@on_gui N p Click)) = true.
Proof. intros N. cbn. auto. Qed.
Print Assumptions C78_key_refuted.
