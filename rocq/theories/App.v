(** Application and the scenes it shows: Application.hpp:47-57, Application.cpp:217-282,
    355-366, 424-447, 501-512 and 551-645, Scene.hpp:48-105 and 162-200,
    Scene.cpp:54-148.
    Simplifications: one application with one window; GLFW and the GUI library are
    the source of the events.  A world is the list of the calls made to it (and
    its settings): [WInit] stands for the user's Scene::init, which only acts on
    the world and the renderer.  Tools are names; what a tool does with an input it uses is left out.  Scenes are
    numbered in the order of their construction; a destroyed scene is [None].
    Drawing is left out, the renderer of a scene is a flag (null or not). *)
From Coq Require Import ZArith List Bool Arith.
From Verif Require Import Num Outcome Box Mat Geom Transform Scene.
Import ListNotations.
Local Open Scope num_scope.

Section Model.
Context {N : Num}.

(** World::Settings, World.hpp:262-286; the counts are 32-bit *)
Record settings := Settings { g_vel : Z; g_pos : Z; g_warm : bool; g_sleep : bool; g_delay : K; g_vth : K; g_ath : K }.
Definition default_settings : settings := Settings 8 2 true false k1 (k1 / kofZ 1000) (k1 / kofZ 1000).

(** the calls made to a world *)
Inductive wcall := WClear | WInit | WStep (dt : K) | WWakeAll.

(** Scene, Scene.hpp:189-200.  [as_app], [as_rend]: app_ and renderer_ are not null *)
Record ascene := AS { as_play : @scene N; as_app : bool; as_rend : bool; as_init : bool;
  as_tools : list nat; as_tool : nat; as_set : settings; as_log : list wcall }.
(** the constructor, Scene.hpp:48-61, followed by the tools registered in the
    user's constructor; tool 0 of the list is NoTool, its name is 0 *)
Definition new_ascene (tools : list nat) : ascene := AS new_scene false false false (0%nat :: tools) 0 default_settings [].

Definition with_link (s : ascene) (b : bool) : ascene :=
  AS (as_play s) b b (as_init s) (as_tools s) (as_tool s) (as_set s) (as_log s).
(** new play state; the times it gives to World::step are calls *)
Definition with_play (s : ascene) (p : @scene N) : ascene :=
  AS p (as_app s) (as_rend s) (as_init s) (as_tools s) (as_tool s) (as_set s)
     (as_log s ++ map WStep (skipn (length (sc_given (as_play s))) (sc_given p))).
Definition with_cam (s : ascene) (o : @cam_op N) : ascene := with_play s (on_event (as_play s) (ECam o)).

(** Scene::reset, Scene.hpp:67-71: renderer_ is dereferenced *)
Definition scene_reset (s : ascene) : outcome ascene :=
  if as_rend s then Ret (AS (as_play s) (as_app s) (as_rend s) (as_init s) (as_tools s) (as_tool s) (as_set s) (as_log s ++ [WClear; WInit]))
  else UB.
(** Scene::init with the application, Scene.cpp:118-126; the renderer of an application is never null *)
Definition scene_init (s : ascene) : outcome ascene :=
  (let* s := scene_reset (with_link s true) in
   Ret (AS (as_play s) (as_app s) (as_rend s) true (as_tools s) (as_tool s) (as_set s) (as_log s)))%out.
(** Scene::step called on a scene, Scene.hpp:85-103: renderer_-> must not be null *)
Definition ascene_step (h : arrows) (dt : K) (s : ascene) : outcome ascene :=
  if as_rend s then Ret (with_play s (scene_step h dt (as_play s))) else UB.
(** useTool, Scene.hpp:162-175 *)
Fixpoint find_tool (n : nat) (l : list nat) : option nat :=
  match l with [] => None | m :: l => if Nat.eqb m n then Some 0%nat else option_map S (find_tool n l) end.
Definition use_tool (n : nat) (s : ascene) : outcome ascene :=
  match find_tool n (as_tools s) with
  | Some i => Ret (AS (as_play s) (as_app s) (as_rend s) (as_init s) (as_tools s) i (as_set s) (as_log s))
  | None => Throw
  end.
(** World::updateSettings, World.hpp:293-300 *)
Definition update_settings (g : settings) (s : ascene) : ascene :=
  AS (as_play s) (as_app s) (as_rend s) (as_init s) (as_tools s) (as_tool s) g
     (as_log s ++ if negb (g_sleep g) && g_sleep (as_set s) then [WWakeAll] else []).
(** Scene::onKeypress, Scene.cpp:54-108, with R *)
Definition ascene_key (h : arrows) (k : key) (a : action) (s : ascene) : outcome ascene :=
  match a, k with
  | Press, KeyR => scene_reset s
  | Release, _ => Ret s
  | _, KeyS => if as_rend s then Ret (with_play s (fst (on_key h k a (as_play s)))) else UB
  | _, _ => Ret (with_play s (fst (on_key h k a (as_play s))))
  end.

(** Application.hpp:90-94, the size of the window, the static settings of doGui
    (Application.cpp:304) and glfwWindowShouldClose *)
Record app := App { ap_scenes : nat -> option ascene; ap_next : nat; ap_names : list (nat * nat); ap_cur : option nat;
  ap_size : vec2; ap_set : settings; ap_closed : bool }.
Definition new_app (size : vec2) : app := App (fun _ => None) 0 [] None size default_settings false.

Definition put (m : nat -> option ascene) (i : nat) (s : option ascene) : nat -> option ascene :=
  fun j => if Nat.eqb j i then s else m j.
Definition with_scenes (a : app) (m : nat -> option ascene) : app :=
  App m (ap_next a) (ap_names a) (ap_cur a) (ap_size a) (ap_set a) (ap_closed a).
(** scenes_: the scene registered under a name *)
Fixpoint named (n : nat) (l : list (nat * nat)) : option nat :=
  match l with [] => None | (m, i) :: l => if Nat.eqb m n then Some i else named n l end.
Definition is_named (i : nat) (l : list (nat * nat)) : bool := existsb (fun p => Nat.eqb (snd p) i) l.
(** a use of a scene through a pointer *)
Definition on_scene (i : nat) (f : ascene -> outcome ascene) (a : app) : outcome app :=
  match ap_scenes a i with
  | None => UB
  | Some s => (let* s' := f s in Ret (with_scenes a (put (ap_scenes a) i (Some s'))))%out
  end.
Definition on_current (f : ascene -> outcome ascene) (a : app) : outcome app :=
  match ap_cur a with None => Ret a | Some i => on_scene i f a end.
(** the last reference to a scene which is no longer registered goes away *)
Definition release (i : nat) (a : app) : app :=
  if is_named i (ap_names a) then a else with_scenes a (put (ap_scenes a) i None).

(** windowResizeCallback, Application.cpp:551-564 *)
Definition resize (a : app) : outcome app :=
  on_current (fun s => Ret (with_cam s (CScreen (ap_size a)))) a.
(** changeScene, Application.cpp:257-282, to a scene (null is never passed) *)
Definition change_scene (next : nat) (a : app) : outcome app :=
  let cur := ap_cur a in
  if match cur with Some i => Nat.eqb i next | None => false end then Ret a
  else
    let a := App (ap_scenes a) (ap_next a) (ap_names a) (Some next) (ap_size a) (ap_set a) (ap_closed a) in
    (let* a := match cur with None => Ret a | Some i => on_scene i (fun s => Ret (with_link s false)) a end in
     let* a := on_scene next (fun s => if negb (as_init s) || negb (as_app s) then scene_init s else Ret s) a in
     let* a := resize a in
     Ret (match cur with None => a | Some i => release i a end))%out.
(** registerScene, Application.hpp:47-54 *)
Fixpoint bind (n i : nat) (l : list (nat * nat)) : list (nat * nat) :=
  match l with [] => [(n, i)] | (m, j) :: l => if Nat.eqb m n then (m, i) :: l else (m, j) :: bind n i l end.
Definition register (n : nat) (tools : list nat) (a : app) : outcome app :=
  let i := ap_next a in
  let old := named n (ap_names a) in
  let a1 := App (put (ap_scenes a) i (Some (new_ascene tools))) (S i) (bind n i (ap_names a)) (ap_cur a) (ap_size a) (ap_set a) (ap_closed a) in
  let a2 := match old with
            | Some j => if match ap_cur a with Some c => Nat.eqb c j | None => false end then a1 else release j a1
            | None => a1 end in
  match ap_cur a with None => change_scene i a2 | Some _ => Ret a2 end.

(** what the "Engine Settings" window of doGui does in one frame,
    Application.cpp:424-447; [v], [p], [w]: the values left by the sliders and
    the box.  They are ints, the settings are Uint32. *)
Definition as_uint32 (z : Z) : Z := Z.modulo z 4294967296.
Definition settings_window (v p : Z) (w : bool) (a : app) : outcome app :=
  let g := ap_set a in
  let g := Settings (as_uint32 v) (as_uint32 p) w (g_sleep g) (g_delay g) (g_vth g) (g_ath g) in
  on_current (fun s => Ret (update_settings g s)) (App (ap_scenes a) (ap_next a) (ap_names a) (ap_cur a) (ap_size a) g (ap_closed a)).

(** Application::close *)
Definition close (a : app) : app := App (ap_scenes a) (ap_next a) (ap_names a) (ap_cur a) (ap_size a) (ap_set a) true.

(** What happens to an application.  [used]: the current tool uses the input;
    [gui]: the GUI library wants it for itself. *)
Inductive use := UStep (h : arrows) (dt : K) | UReset | UPlay (e : @event N) | USettings (g : settings).
Inductive aevent :=
| ARegister (name : nat) (tools : list nat)          (* registerScene *)
| ASelect (name : nat)                               (* "Scene selection" window *)
| ATool (name : nat)                                 (* "Tool selection" window *)
| ASettings (v p : Z) (w : bool)                     (* the "Engine Settings" window is open *)
| AFrame (h : arrows) (dt : K)                       (* the end of a frame of run *)
| AKey (gui used : bool) (h : arrows) (k : key) (a : action)
| AScroll (gui used : bool) (y : K)
| AResize (size : vec2)
| AUse (i : nat) (u : use).                          (* public members of a scene called by the user *)

(** changes of the play state by the user that are not steps *)
Definition user_play (e : @event N) (s : ascene) : ascene :=
  match e with EFrame _ _ | EKey _ _ _ => s | _ => with_play s (on_event (as_play s) e) end.
Definition use_scene (u : use) (s : ascene) : outcome ascene :=
  match u with
  | UStep h dt => ascene_step h dt s
  | UReset => scene_reset s
  | UPlay e => Ret (user_play e s)
  | USettings g => Ret (update_settings g s)
  end.
Definition on_aevent (e : aevent) (a : app) : outcome app :=
  match e with
  | ARegister n tools => register n tools a
  | ASelect n => match named n (ap_names a) with Some i => change_scene i a | None => Ret a end
  | ATool n => on_current (use_tool n) a
  | ASettings v p w => settings_window v p w a
  | AFrame h dt => on_current (ascene_step h dt) a
  | AKey gui used h k act =>
      if gui || used then Ret a
      else (let* a' := on_current (ascene_key h k act) a in
            Ret (match act, k, ap_cur a with Press, KeyEscape, Some _ => close a' | _, _, _ => a' end))%out
  | AScroll gui used y =>
      if gui || used then Ret a else on_current (fun s => Ret (with_cam s (CScroll y))) a
  | AResize size => resize (App (ap_scenes a) (ap_next a) (ap_names a) (ap_cur a) size (ap_set a) (ap_closed a))
  | AUse i u => on_scene i (use_scene u) a
  end.
Fixpoint run_app (es : list aevent) (a : app) : outcome app :=
  match es with [] => Ret a | e :: es => (let* a' := on_aevent e a in run_app es a')%out end.
End Model.
Arguments app N : clear implicits.
Arguments ascene N : clear implicits.
