(** Properties C88-C90: the scenes of an application.  [reached z es a]: the
    events es lead from a new application, with a window of size z, to a;
    [shown a i]: scene i is the current one. *)
From Coq Require Import ZArith List Bool Arith.
From Verif Require Import Num Outcome Box Mat Geom Transform Scene App AppFacts.
Import ListNotations.

(** C88 *)
Theorem C88_attached : forall (N : Num) z es (a : app N), reached z es a -> forall i s, ap_scenes a i = Some s ->
  (as_app s = true <-> shown a i) /\ as_rend s = as_app s /\ (shown a i -> as_init s = true) /\ as_tool s < length (as_tools s).
Proof. exact @shown_spec. Qed.
Print Assumptions C88_attached.
Theorem C88_some : forall (N : Num) z es (a : app N), reached z es a -> 0 < ap_next a -> exists i s, shown a i /\ ap_scenes a i = Some s.
Proof. exact @some_shown. Qed.
Print Assumptions C88_some.
(** [permitted]: no use of a destroyed scene, no step or reset of a hidden one, no
    unknown tool *)
Theorem C88_safe : forall (N : Num) z es (a : app N) e, reached z es a -> permitted a e -> exists a', on_aevent e a = Ret a'.
Proof. exact @safe_spec. Qed.
Print Assumptions C88_safe.
Theorem C88_hidden_undefined : forall (N : Num) z es (a : app N) i s h dt, reached z es a -> ap_scenes a i = Some s -> ~ shown a i ->
  on_aevent (AUse i (UStep h dt)) a = UB /\ on_aevent (AUse i UReset) a = UB.
Proof. exact @hidden_undefined. Qed.
Print Assumptions C88_hidden_undefined.
Theorem C88_select : forall (N : Num) z es (a : app N) n i si, reached z es a -> named n (ap_names a) = Some i -> ap_scenes a i = Some si -> ~ shown a i ->
  exists a' s', on_aevent (ASelect n) a = Ret a' /\ shown a' i /\ ap_scenes a' i = Some s' /\
    as_log s' = as_log si ++ [WClear; WInit] /\ as_set s' = as_set si /\ as_tool s' = as_tool si /\ as_tools s' = as_tools si /\
    sc_speed (as_play s') = sc_speed (as_play si) /\ sc_paused (as_play s') = sc_paused (as_play si) /\
    sc_cam (as_play s') = cam_setDimensionsFromScreen (sc_cam (as_play si)) (ap_size a) /\
    (forall j t, j <> i -> ap_scenes a j = Some t -> (exists m, In (m, j) (ap_names a)) -> exists t', ap_scenes a' j = Some t' /\
       as_play t' = as_play t /\ as_log t' = as_log t /\ as_set t' = as_set t /\ as_tool t' = as_tool t).
Proof. exact @select_spec. Qed.
Print Assumptions C88_select.
(** 0, 1, 2 are clear, init and step *)
Example C88_example : match run_app ex_events (new_app ex_size) with
  | Ret a => match ap_cur a, ap_scenes a 0, ap_scenes a 1 with
             | Some 0, Some s, Some s2 => as_tool s = 1 /\ kinds (as_log s) = [0; 1; 2; 0; 1] /\ kinds (as_log s2) = [0; 1; 2] /\ as_app s2 = false
             | _, _, _ => False end
  | _ => False end.
Proof. exact ex_return. Qed.

(** C89.  [leaves_alone i es a]: no event of es selects, replaces or uses scene i *)
Theorem C89_frozen : forall (N : Num) z es0 (a : app N) es a' i s, reached z es0 a -> ap_scenes a i = Some s -> ~ shown a i -> leaves_alone i es a -> run_app es a = Ret a' ->
  ap_scenes a' i = Some s /\ ~ shown a' i.
Proof. exact @frozen_spec. Qed.
Print Assumptions C89_frozen.
Theorem C89_input : forall (N : Num) z es (a : app N) gui used h k x i s, reached z es a -> shown a i -> ap_scenes a i = Some s ->
  (gui || used = true -> on_aevent (AKey gui used h k x) a = Ret a) /\
  (gui || used = false -> exists a' s', on_aevent (AKey gui used h k x) a = Ret a' /\ ascene_key h k x s = Ret s' /\ ap_scenes a' i = Some s' /\
     (forall j, j <> i -> ap_scenes a' j = ap_scenes a j) /\ (ap_closed a' = true <-> ap_closed a = true \/ (x = Press /\ k = KeyEscape))).
Proof. exact @input_spec. Qed.
Print Assumptions C89_input.
Theorem C89_frame : forall (N : Num) z es (a : app N) h dt i s, reached z es a -> shown a i -> ap_scenes a i = Some s -> exists a' s',
  on_aevent (AFrame h dt) a = Ret a' /\ ap_scenes a' i = Some s' /\ (forall j, j <> i -> ap_scenes a' j = ap_scenes a j) /\ shown a' i /\
  as_log s' = as_log s ++ [WStep (given (as_play s) dt)] /\ sc_cam (as_play s') = move_camera h (kmin dt sixtieth) (sc_cam (as_play s)) /\
  sc_speed (as_play s') = sc_speed (as_play s) /\ sc_paused (as_play s') = sc_paused (as_play s) /\ as_set s' = as_set s /\ as_tool s' = as_tool s.
Proof. exact @frame_spec. Qed.
Print Assumptions C89_frame.
(** [only_camera a i s c a']: a' is a, except that the camera of the shown scene i is c *)
Theorem C89_camera : forall (N : Num) (a : app N) gui used y w i s, shown a i -> ap_scenes a i = Some s ->
  (gui || used = true -> on_aevent (AScroll gui used y) a = Ret a) /\
  (gui || used = false -> exists a', on_aevent (AScroll gui used y) a = Ret a' /\ only_camera a i s (scroll_zoom (sc_cam (as_play s)) y) a') /\
  (exists a', on_aevent (AResize w) a = Ret a' /\ ap_size a' = w /\ only_camera a i s (cam_setDimensionsFromScreen (sc_cam (as_play s)) w) a').
Proof. exact @camera_spec. Qed.
Print Assumptions C89_camera.
Theorem C89_tool : forall (N : Num) n (s : ascene N), (~ In n (as_tools s) -> use_tool n s = Throw) /\
  (In n (as_tools s) -> exists s', use_tool n s = Ret s' /\ nth_error (as_tools s) (as_tool s') = Some n /\ (forall j, j < as_tool s' -> nth_error (as_tools s) j <> Some n) /\
     as_tools s' = as_tools s /\ as_play s' = as_play s /\ as_log s' = as_log s).
Proof. exact @tool_spec. Qed.
Print Assumptions C89_tool.
Example C89_example : exists a s a', reached ex_size [ARegister 1 [5]; ARegister 2 []] a /\ ap_scenes a 1 = Some s /\ ~ shown a 1 /\ leaves_alone 1 ex_hidden a /\ run_app ex_hidden a = Ret a'.
Proof. exact ex_frozen. Qed.

(** C90 *)
Theorem C90_window : forall (N : Num) z es (a : app N) v p w i s, reached z es a -> shown a i -> ap_scenes a i = Some s -> exists a' s', on_aevent (ASettings v p w) a = Ret a' /\ ap_scenes a' i = Some s' /\
  as_set s' = ap_set a' /\ g_vel (as_set s') = Z.modulo v 4294967296 /\ g_pos (as_set s') = Z.modulo p 4294967296 /\ g_warm (as_set s') = w /\ g_sleep (as_set s') = false /\ as_play s' = as_play s /\
  as_log s' = as_log s ++ (if g_sleep (as_set s) then [WWakeAll] else []) /\ (forall j, j <> i -> ap_scenes a' j = ap_scenes a j).
Proof. exact @settings_spec. Qed.
Print Assumptions C90_window.
Theorem C90_never_sleeps : forall (N : Num) z es (a : app N), reached z es a -> g_sleep (ap_set a) = false.
Proof. exact @never_sleeps_gen. Qed.
Print Assumptions C90_never_sleeps.
(** a window left alone changes the settings of the scene *)
Theorem C90_harmless_refuted : exists (a : app F32) s a' s', reached ex_size [ARegister 1 []; AUse 0 (USettings sleepy)] a /\ shown a 0 /\ ap_scenes a 0 = Some s /\ g_sleep (as_set s) = true /\
  on_aevent (ASettings (g_vel (as_set s)) (g_pos (as_set s)) (g_warm (as_set s))) a = Ret a' /\ ap_scenes a' 0 = Some s' /\
  g_sleep (as_set s') = false /\ as_log s' = as_log s ++ [WWakeAll].
Proof. exact window_disables. Qed.
Print Assumptions C90_harmless_refuted.
