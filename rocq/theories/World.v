(** Model of the world: include/Simu/physics/{World, Island, PhysicsObject,
    ConstraintInterfaces, Bodies}.hpp, src/Simu/physics/{World, Body}.cpp and the
    Grabber of src/Simu/app/Tool.cpp.

    Objects live in heaps indexed by identities.  An identity is never reused, so
    using a destroyed object is always seen as undefined behaviour ([Bad]).  The
    addresses of colliders, which are compared in the keys of the contact map, are
    kept apart ([k_addr]) and may be reused.

    Simplifications:
    - The R-tree is the list of its elements ([w_tree]); P_RTree.v relates the
      tree to its elements.  The pairs reported by updateAndCollide and the
      elements found in a region are oracles, restricted to elements of the tree.
    - The contact map is the list of its entries in iteration order; insertion
      may reorder it arbitrarily (oracle [o_shuffle]).
    - A constraint is its base class (bodies, masses, flags) and a private state
      of type [CS] on which its virtual functions act (class [Behaviour]); they
      can write only the two positions and velocities of its proxies.
    - The virtual functions onConstruction, preStep, postStep, onKill of user
      classes do nothing; shouldDie of user classes is an oracle which is constant
      during one cleanup; the rule "always consider Base::shouldDie" is assumed.
    - The profiler and the allocators are left out (Body.v, Alloc.v). *)
From Coq Require Import ZArith List Bool.
From Verif Require Import Num Outcome Box Mat Geom Transform Body Constraint.
Import ListNotations.

(** the virtual functions of a constraint, ConstraintInterfaces.hpp:82-88; [bh_pre] is
    preStep *)
Class Behaviour (N : Num) := {
  CS : Type;
  bh_pre : CS -> CS;
  bh_active : CS -> @proxies N -> @store N -> outcome (CS * bool);
  bh_init : CS -> @proxies N -> @store N -> outcome CS;
  bh_warm : CS -> @proxies N -> @store N -> @K N -> outcome (CS * @store N);
  bh_vel : CS -> @proxies N -> @store N -> @K N -> outcome (CS * @store N);
  bh_pos : CS -> @proxies N -> @store N -> outcome (CS * @store N) }.

Section World.
Context {N : Num} {TR : Trig N} {BH : Behaviour N}.
Local Open Scope num_scope.

Definition id := nat.
(** Body, Body.hpp:192-431: [wb] holds the members modelled in Body.v *)
Record wbody := WB { wb : body; wb_killed : bool; wb_proxy : option nat; wb_cs : list id; wb_cts : list id }.
(** Constraint and Bodies; [c_cols] are the colliders of a contact (its
    manifold); [c_px]: hasProxies() *)
Record wcon := WC { c_b0 : id; c_b1 : id; c_m0 : K; c_I0 : K; c_m1 : K; c_I1 : K; c_dis : bool; c_killed : bool; c_px : bool;
  c_cols : option (id * id); c_st : CS }.
(** ForceField; [f_apply] is the virtual apply *)
Record wforce := WF { f_region : bool; f_apply : K -> body -> collider -> outcome body; f_killed : bool }.
(** the world's view of a collider *)
Record wcol := WK { k_body : id; k_addr : nat }.
(** an entry of the contact map; a null existingContact cannot occur: in World.cpp:282
    the right operand is evaluated before the map is accessed *)
Record entry := EN { e_key : nat * nat; e_con : id; e_hit : bool }.
(** World::Settings, World.hpp:262-285 *)
Record settings := Set_ { s_nvel : nat; s_npos : nat; s_warm : bool; s_sleep : bool; s_delay : K; s_vt : K; s_at : K }.
(** ghost history *)
Inductive event := Notified (i : id) | Released (i : id) | Solved (bs cs cts : list id) | Forced (f b : id).

Definition heap (A : Type) := id -> option A.
Definition put {A} (h : heap A) (i : id) (a : A) : heap A := fun j => if Nat.eqb j i then Some a else h j.
Definition del {A} (h : heap A) (i : id) : heap A := fun j => if Nat.eqb j i then None else h j.

Record world := W {
  w_bh : heap wbody; w_ch : heap wcon; w_fh : heap wforce; w_kh : heap wcol;
  w_bodies : list id; w_cons : list id; w_cts : list entry; w_forces : list id; w_tree : list id;
  w_set : settings; w_next : id; w_log : list event }.

(** ** Computations: a result and a state, an exception with the state it leaves,
    undefined behaviour (or std::terminate), or a loop which used up its fuel *)
Inductive res (A : Type) := Ok (a : A) (w : world) | Thrown (w : world) | Bad | Hang.
Arguments Ok {A}. Arguments Thrown {A}. Arguments Bad {A}. Arguments Hang {A}.
Definition M (A : Type) := world -> res A.
Definition ret {A} (a : A) : M A := fun w => Ok a w.
Definition bind {A B} (m : M A) (f : A -> M B) : M B := fun w =>
  match m w with Ok a w' => f a w' | Thrown w' => Thrown w' | Bad => Bad | Hang => Hang end.
Definition throw {A} : M A := fun w => Thrown w.
Definition bad {A} : M A := fun _ => Bad.
Definition get {A} (f : world -> A) : M A := fun w => Ok (f w) w.
Definition modify (f : world -> world) : M unit := fun w => Ok tt (f w).
Definition lift {A} (o : outcome A) : M A := fun w =>
  match o with Ret a => Ok a w | Throw => Thrown w | UB => Bad | Fuel => Hang end.
Notation "x <- m ;; k" := (bind m (fun x => k)) (at level 90, m at level 80, k at level 90, right associativity).
Notation "m ;;; k" := (bind m (fun _ => k)) (at level 90, k at level 90, right associativity).
Fixpoint iter {A} (f : A -> M unit) (l : list A) : M unit :=
  match l with [] => ret tt | x :: l => f x ;;; iter f l end.
Fixpoint filt {A} (f : A -> M bool) (l : list A) : M (list A) :=
  match l with [] => ret [] | x :: l => b <- f x ;; r <- filt f l ;; ret (if b then x :: r else r) end.
Fixpoint foldm {S A} (f : S -> A -> M S) (s : S) (l : list A) : M S :=
  match l with [] => ret s | x :: l => s' <- f s x ;; foldm f s' l end.
Fixpoint times (n : nat) (m : M unit) : M unit := match n with O => ret tt | S n => m ;;; times n m end.

(** ** Access *)
Definition set_bh (w : world) h := W h (w_ch w) (w_fh w) (w_kh w) (w_bodies w) (w_cons w) (w_cts w) (w_forces w) (w_tree w) (w_set w) (w_next w) (w_log w).
Definition set_ch (w : world) h := W (w_bh w) h (w_fh w) (w_kh w) (w_bodies w) (w_cons w) (w_cts w) (w_forces w) (w_tree w) (w_set w) (w_next w) (w_log w).
Definition set_fh (w : world) h := W (w_bh w) (w_ch w) h (w_kh w) (w_bodies w) (w_cons w) (w_cts w) (w_forces w) (w_tree w) (w_set w) (w_next w) (w_log w).
Definition set_kh (w : world) h := W (w_bh w) (w_ch w) (w_fh w) h (w_bodies w) (w_cons w) (w_cts w) (w_forces w) (w_tree w) (w_set w) (w_next w) (w_log w).
Definition set_bodies (w : world) l := W (w_bh w) (w_ch w) (w_fh w) (w_kh w) l (w_cons w) (w_cts w) (w_forces w) (w_tree w) (w_set w) (w_next w) (w_log w).
Definition set_cons (w : world) l := W (w_bh w) (w_ch w) (w_fh w) (w_kh w) (w_bodies w) l (w_cts w) (w_forces w) (w_tree w) (w_set w) (w_next w) (w_log w).
Definition set_cts (w : world) l := W (w_bh w) (w_ch w) (w_fh w) (w_kh w) (w_bodies w) (w_cons w) l (w_forces w) (w_tree w) (w_set w) (w_next w) (w_log w).
Definition set_forces (w : world) l := W (w_bh w) (w_ch w) (w_fh w) (w_kh w) (w_bodies w) (w_cons w) (w_cts w) l (w_tree w) (w_set w) (w_next w) (w_log w).
Definition set_tree (w : world) l := W (w_bh w) (w_ch w) (w_fh w) (w_kh w) (w_bodies w) (w_cons w) (w_cts w) (w_forces w) l (w_set w) (w_next w) (w_log w).
Definition set_settings (w : world) s := W (w_bh w) (w_ch w) (w_fh w) (w_kh w) (w_bodies w) (w_cons w) (w_cts w) (w_forces w) (w_tree w) s (w_next w) (w_log w).
Definition set_next (w : world) n := W (w_bh w) (w_ch w) (w_fh w) (w_kh w) (w_bodies w) (w_cons w) (w_cts w) (w_forces w) (w_tree w) (w_set w) n (w_log w).
Definition set_log (w : world) l := W (w_bh w) (w_ch w) (w_fh w) (w_kh w) (w_bodies w) (w_cons w) (w_cts w) (w_forces w) (w_tree w) (w_set w) (w_next w) l.

(** dereferencing a pointer to a destroyed object is undefined *)
Definition deref {A} (h : world -> heap A) (i : id) : M A := fun w => match h w i with Some a => Ok a w | None => Bad end.
Definition body_at : id -> M wbody := deref w_bh.
Definition con_at : id -> M wcon := deref w_ch.
Definition force_at : id -> M wforce := deref w_fh.
Definition col_at : id -> M wcol := deref w_kh.
Definition put_body (i : id) (b : wbody) : M unit := modify (fun w => set_bh w (put (w_bh w) i b)).
Definition put_con (i : id) (c : wcon) : M unit := modify (fun w => set_ch w (put (w_ch w) i c)).
Definition mod_body (i : id) (f : wbody -> wbody) : M unit := b <- body_at i ;; put_body i (f b).
Definition mod_con (i : id) (f : wcon -> wcon) : M unit := c <- con_at i ;; put_con i (f c).
Definition log (e : event) : M unit := modify (fun w => set_log w (w_log w ++ [e])).
Definition fresh : M id := fun w => Ok (w_next w) (set_next w (S (w_next w))).
(** operator new: the requested address unless a live collider has it *)
Definition mem_addr (w : world) (a : nat) : bool :=
  existsb (fun i => match w_kh w i with Some k => Nat.eqb (k_addr k) a | None => false end) (seq 0 (w_next w)).
Fixpoint pick (w : world) (a fuel : nat) : nat :=
  match fuel with O => a | S n => if mem_addr w a then pick w (S a) n else a end.
Definition new_addr (hint : nat) : M nat := get (fun w => pick w hint (S (w_next w))).

Definition with_wb (b : wbody) (x : body) : wbody := WB x (wb_killed b) (wb_proxy b) (wb_cs b) (wb_cts b).
Definition with_killed (b : wbody) : wbody := WB (wb b) true (wb_proxy b) (wb_cs b) (wb_cts b).
Definition with_proxy (b : wbody) (p : option nat) : wbody := WB (wb b) (wb_killed b) p (wb_cs b) (wb_cts b).
Definition with_cs (b : wbody) (l : list id) : wbody := WB (wb b) (wb_killed b) (wb_proxy b) l (wb_cts b).
Definition with_cts (b : wbody) (l : list id) : wbody := WB (wb b) (wb_killed b) (wb_proxy b) (wb_cs b) l.
Definition set_asleep (a : bool) (b : body) : body :=
  Body (b_pos b) (b_vel b) (b_ang b) (b_colliders b) (b_props b) (b_dominance b) a (b_immobile b).
(** Body::wake, Body.hpp:352 *)
Definition wake (i : id) : M unit := mod_body i (fun b => with_wb b (set_asleep false (wb b))).
Definition con_kill (c : wcon) : wcon :=
  WC (c_b0 c) (c_b1 c) (c_m0 c) (c_I0 c) (c_m1 c) (c_I1 c) (c_dis c) true (c_px c) (c_cols c) (c_st c).
Definition con_px (p : bool) (c : wcon) : wcon :=
  WC (c_b0 c) (c_b1 c) (c_m0 c) (c_I0 c) (c_m1 c) (c_I1 c) (c_dis c) (c_killed c) p (c_cols c) (c_st c).
Definition con_st (s : CS) (c : wcon) : wcon :=
  WC (c_b0 c) (c_b1 c) (c_m0 c) (c_I0 c) (c_m1 c) (c_I1 c) (c_dis c) (c_killed c) (c_px c) (c_cols c) s.
(** iteration over Bodies visits one body when both are the same, Bodies.hpp:186-205 *)
Definition con_bodies (c : wcon) : list id := if Nat.eqb (c_b0 c) (c_b1 c) then [c_b0 c] else [c_b0 c; c_b1 c].
Definition erase_id (i : id) (l : list id) : list id := filter (fun j => negb (Nat.eqb j i)) l.

(** Bodies::isBodyStructural, Bodies.inl.hpp:98-108 *)
Definition structural_in (c : wcon) (i : id) : outcome bool :=
  if Nat.eqb i (c_b0 c) then Ret (c_m0 c =? k0)
  else if Nat.eqb i (c_b1 c) then Ret (c_m1 c =? k0) else Throw.

(** ** Creation *)
(** makeBody, World.hpp:186-201; the body is created awake without velocity *)
Definition make_body (pos : vec2) (rot : rotation) (dominance : K) : M id :=
  i <- fresh ;;
  modify (fun w => set_bodies (set_bh w (put (w_bh w) i (WB (new_body pos rot dominance) false None [] []))) (w_bodies w ++ [i])) ;;;
  ret i.
(** the constructors of Bodies (Bodies.inl.hpp:74-95) and Constraint
    (ConstraintInterfaces.hpp:62-78) *)
Definition new_con (b0 b1 : id) (doms : option (K * K)) (dis : bool) (cols : option (id * id)) (st : CS) : M wcon :=
  x0 <- body_at b0 ;; x1 <- body_at b1 ;;
  let '(m0, I0, m1, I1) := bodies_masses (wb x0) (wb x1) doms in
  let c := WC b0 b1 m0 I0 m1 I1 dis false false cols st in
  s0 <- lift (structural_in c b0) ;; s1 <- lift (structural_in c b1) ;;
  if s0 && (Nat.eqb b0 b1 || s1) then throw else ret c.
(** makeConstraint, World.hpp:208-224 *)
Definition make_con (b0 b1 : id) (doms : option (K * K)) (dis : bool) (st : CS) : M id :=
  c <- new_con b0 b1 doms dis None st ;;
  i <- fresh ;;
  modify (fun w => set_cons (set_ch w (put (w_ch w) i c)) (w_cons w ++ [i])) ;;;
  iter (fun b => mod_body b (fun x => with_cs x (wb_cs x ++ [i])) ;;; wake b) (con_bodies c) ;;;
  ret i.
(** makeForceField, World.hpp:231-250: wakes every body, or the bodies of the
    colliders found in the region *)
Definition make_force (region : bool) (apply : K -> body -> collider -> outcome body) (found : list id) : M id :=
  i <- fresh ;;
  modify (fun w => set_forces (set_fh w (put (w_fh w) i (WF region apply false))) (w_forces w ++ [i])) ;;;
  (if region then iter (fun k => w <- get w_tree ;; if existsb (Nat.eqb k) w then x <- col_at k ;; wake (k_body x) else ret tt) found
   else bs <- get w_bodies ;; iter wake bs) ;;;
  ret i.
(** kill, PhysicsObject.hpp:68-72 *)
Definition kill_body (i : id) : M unit := mod_body i with_killed.
Definition kill_con (i : id) : M unit := mod_con i con_kill.
Definition kill_force (i : id) : M unit := f <- force_at i ;; modify (fun w => set_fh w (put (w_fh w) i (WF (f_region f) (f_apply f) true))).
(** setVelocity and setAngularVelocity, Body.hpp:255-282 *)
Definition set_velocity (i : id) (v : vec2) (a : K) : M unit := mod_body i (fun b => with_wb b (set_ang (set_vel (wb b) v) a)).

(** ** Colliders *)
(** Body::addCollider, Body.cpp:45-66, and World::addCollider, World.hpp:323-328.  When
    the descriptor is rejected the collider stays in the body, outside the tree
    (property C59). *)
Definition add_col (b : id) (local : list vec2) (density : K) (hint : nat) : M id :=
  x <- body_at b ;;
  k <- fresh ;;
  a <- new_addr hint ;;
  modify (fun w => set_kh w (put (w_kh w) k (WK b a))) ;;;
  let '(x', ok) := add_collider_full (wb x) (Coll k local density local) in
  put_body b (with_wb x x') ;;;
  if ok : bool then modify (fun w => set_tree w (w_tree w ++ [k])) ;;; ret k else throw.
(** World::removeCollider, World.cpp:172-182.  An iterator of a collider that is
    not in the tree is invalid. *)
Definition world_remove (k : id) : M unit :=
  x <- col_at k ;;
  t <- get w_tree ;;
  if existsb (Nat.eqb k) t then
    modify (fun w => set_tree w (erase_id k (w_tree w))) ;;;
    b <- body_at (k_body x) ;;
    iter (fun t => c <- con_at t ;;
            match c_cols c with
            | Some (k0, k1) => if Nat.eqb k0 k || Nat.eqb k1 k then kill_con t else ret tt
            | None => ret tt
            end) (wb_cts b)
  else bad.
(** Body::removeCollider, Body.cpp:68-87 *)
Definition remove_col (b k : id) : M unit :=
  world_remove k ;;;
  x <- body_at b ;;
  x' <- lift (remove_collider (wb x) k) ;;
  put_body b (with_wb x x') ;;;
  modify (fun w => set_kh w (del (w_kh w) k)).
(** ~Body, Body.hpp:213-217, and the release of its storage.  The range-for
    increments an iterator whose list node removeCollider has erased: undefined
    when [strict]; with [strict] off the erased node can still be read, as with
    common implementations of std::list over the free-list allocator, which does
    not write to released memory.  An exception leaving the destructor terminates
    the program. *)
Definition noexcept {A} (m : M A) : M A := fun w => match m w with Thrown _ => Bad | r => r end.
Definition destroy_body (strict : bool) (b : id) : M unit :=
  x <- body_at b ;;
  noexcept (iter (fun c => remove_col b (c_id c) ;;; if strict then bad else ret tt) (b_colliders (wb x))) ;;;
  modify (fun w => set_bh w (del (w_bh w) b)) ;;; log (Released b).

(** ** cleanup, World.cpp:184-226 *)
Definition body_dead (die : id -> bool) (i : id) : M bool := b <- body_at i ;; ret (wb_killed b || die i).
(** isDead and Constraint::shouldDie, ConstraintInterfaces.hpp:98-105: short-circuit *)
Fixpoint any_dead (die : id -> bool) (l : list id) : M bool :=
  match l with [] => ret false | b :: l => d <- body_dead die b ;; if d : bool then ret true else any_dead die l end.
Definition con_dead (die : id -> bool) (i : id) : M bool :=
  c <- con_at i ;; if c_killed c || die i then ret true else any_dead die (con_bodies c).
Definition force_dead (die : id -> bool) (i : id) : M bool := f <- force_at i ;; ret (f_killed f || die i).
Definition clean_contact (die : id -> bool) (e : entry) : M bool :=
  d <- con_dead die (e_con e) ;;
  if d : bool then
    c <- con_at (e_con e) ;;
    iter (fun b => mod_body b (fun x => with_cts x (erase_id (e_con e) (wb_cts x))) ;;; wake b) (con_bodies c) ;;;
    modify (fun w => set_ch w (del (w_ch w) (e_con e))) ;;; log (Released (e_con e)) ;;; ret false
  else ret true.
Definition detach_con (i : id) : M unit :=
  c <- con_at i ;; iter (fun b => mod_body b (fun x => with_cs x (erase_id i (wb_cs x))) ;;; wake b) (con_bodies c).
Definition release_con (i : id) : M unit :=
  modify (fun w => set_cons (set_ch w (del (w_ch w) i)) (erase_id i (w_cons w))) ;;; log (Released i).
Definition release_force (i : id) : M unit :=
  modify (fun w => set_forces (set_fh w (del (w_fh w) i)) (erase_id i (w_forces w))) ;;; log (Released i).
Definition release_body (strict : bool) (i : id) : M unit :=
  destroy_body strict i ;;; modify (fun w => set_bodies w (erase_id i (w_bodies w))).
Definition cleanup (strict : bool) (die : id -> bool) : M unit :=
  es <- get w_cts ;; es' <- filt (clean_contact die) es ;; modify (fun w => set_cts w es') ;;;
  cs <- get w_cons ;; dc <- filt (con_dead die) cs ;;
  fs <- get w_forces ;; df <- filt (force_dead die) fs ;;
  bs <- get w_bodies ;; db <- filt (body_dead die) bs ;;
  iter detach_con dc ;;;
  iter (fun i => log (Notified i)) dc ;;; iter (fun i => log (Notified i)) df ;;; iter (fun i => log (Notified i)) db ;;;
  iter release_con dc ;;; iter release_force df ;;; iter (release_body strict) db.

(** ** Forces, World.cpp:99-135.  apply may change the motion of the collider's
    body, and wakes it. *)
Definition set_motion (b : body) (p : position) (v : vec2) (a : K) (s : bool) : body :=
  Body p v a (b_colliders b) (b_props b) (b_dominance b) s (b_immobile b).
Definition find_col (b : body) (k : id) : option collider := find (fun c => Nat.eqb (c_id c) k) (b_colliders b).
Definition apply_one (f : id) (dt : K) (k : id) : M unit :=
  x <- col_at k ;; b <- body_at (k_body x) ;;
  if negb (b_asleep (wb b)) && negb (b_structural (wb b)) then
    ff <- force_at f ;;
    match find_col (wb b) k with
    | None => bad
    | Some c =>
        b' <- lift (f_apply ff dt (wb b) c) ;;
        put_body (k_body x) (with_wb b (set_motion (wb b) (b_pos b') (b_vel b') (b_ang b') (b_asleep b'))) ;;; log (Forced f (k_body x))
    end
  else ret tt.
Definition apply_forces (dt : K) (region : id -> list id) : M unit :=
  fs <- get w_forces ;;
  iter (fun f =>
    ff <- force_at f ;; t <- get w_tree ;;
    iter (apply_one f dt) (if f_region ff then filter (fun k => existsb (Nat.eqb k) t) (region f) else t)) fs.

(** ** Island, Island.hpp *)
Record island := Isl { is_bodies : list id; is_cons : list id; is_cts : list id; is_pos : list position; is_vel : list velocity; is_awake : bool }.
Definition vel_of (b : body) : velocity := Vel (b_vel b) (b_ang b).
(** interactsAsStructural, Body.cpp:32-43 *)
Fixpoint all_structural (i : id) (l : list id) (s : bool) : M bool :=
  match l with
  | [] => ret s
  | c :: l => if s then x <- con_at c ;; s' <- lift (structural_in x i) ;; all_structural i l s' else all_structural i l false
  end.
Definition at_rest (b : body) : bool := (vx (b_vel b) =? k0) && (vy (b_vel b) =? k0) && (b_ang b =? k0).
Definition acts_structural (i : id) : M bool :=
  b <- body_at i ;; s <- all_structural i (wb_cs b) (at_rest (wb b)) ;; all_structural i (wb_cts b) s.
(** addBody, lines 186-207 *)
Definition add_body (il : island) (i : id) : M (island * bool) :=
  b <- body_at i ;;
  match wb_proxy b with
  | Some _ => ret (il, false)
  | None =>
      let n := length (is_pos il) in
      if Z.ltb (Z.of_nat n) 2147483647 then
        put_body i (with_proxy b (Some n)) ;;;
        ret (Isl (is_bodies il ++ [i]) (is_cons il) (is_cts il) (is_pos il ++ [b_pos (wb b)]) (is_vel il ++ [vel_of (wb b)])
                 (is_awake il || negb (b_asleep (wb b))), true)
      else throw
  end.
Definition drop_body (il : island) : island :=
  Isl (removelast (is_bodies il)) (is_cons il) (is_cts il) (removelast (is_pos il)) (removelast (is_vel il)) (is_awake il).
(** startSolve, Bodies.hpp:233-247 *)
Definition start_solve (c : id) : M proxies :=
  x <- con_at c ;; b0 <- body_at (c_b0 x) ;; b1 <- body_at (c_b1 x) ;;
  match wb_proxy b0, wb_proxy b1 with
  | Some i0, Some i1 => put_con c (con_px true x) ;;; ret (Prox i0 i1 (c_m0 x) (c_I0 x) (c_m1 x) (c_I1 x))
  | _, _ => throw
  end.
Definition end_solve (c : id) : M unit := mod_con c (con_px false).
(** the arrays as seen through the proxies; an index outside is undefined *)
Definition store_of (il : island) (p0 : position) (v0 : velocity) : store :=
  Store (fun i => nth i (is_pos il) p0) (fun i => nth i (is_vel il) v0).
Definition view (il : island) (px : proxies) : outcome store :=
  match nth_error (is_pos il) (px_i0 px), nth_error (is_vel il) (px_i0 px), nth_error (is_pos il) (px_i1 px), nth_error (is_vel il) (px_i1 px) with
  | Some p, Some v, Some _, Some _ => Ret (store_of il p v)
  | _, _, _, _ => UB
  end.
Definition upd_nth {A} (i : nat) (x : A) (l : list A) : list A := firstn i l ++ match skipn i l with [] => [] | _ :: r => x :: r end.
Definition write (il : island) (px : proxies) (s : store) : island :=
  Isl (is_bodies il) (is_cons il) (is_cts il)
    (upd_nth (px_i1 px) (s_pos s (px_i1 px)) (upd_nth (px_i0 px) (s_pos s (px_i0 px)) (is_pos il)))
    (upd_nth (px_i1 px) (s_vel s (px_i1 px)) (upd_nth (px_i0 px) (s_vel s (px_i0 px)) (is_vel il)))
    (is_awake il).
(** addConstraint, lines 209-249 *)
Definition add_con (contact : bool) (il : island) (c : id) : M island :=
  x <- con_at c ;;
  if c_px x then ret il else
  x0 <- body_at (c_b0 x) ;; x1 <- body_at (c_b1 x) ;;
  let index0 := wb_proxy x0 in let index1 := wb_proxy x1 in
  r1 <- add_body il (c_b0 x) ;;
  r2 <- add_body (fst r1) (c_b1 x) ;;
  let il2 := fst r2 in
  px <- start_solve c ;;
  s <- lift (view il2 px) ;;
  y <- con_at c ;;
  a <- lift (bh_active (c_st y) px s) ;;
  put_con c (con_st (fst a) y) ;;;
  if snd a : bool then
    ret (Isl (is_bodies il2) (if contact then is_cons il2 else is_cons il2 ++ [c]) (if contact then is_cts il2 ++ [c] else is_cts il2)
             (is_pos il2) (is_vel il2) (is_awake il2))
  else
    il3 <- (if snd r2 : bool then mod_body (c_b1 x) (fun b => with_proxy b index1) ;;; ret (drop_body il2) else ret il2) ;;
    il4 <- (if snd r1 : bool then mod_body (c_b0 x) (fun b => with_proxy b index0) ;;; ret (drop_body il3) else ret il3) ;;
    end_solve c ;;; ret il4.
(** init, lines 55-79 *)
Fixpoint grow (fuel cur : nat) (il : island) : M island :=
  match nth_error (is_bodies il) cur with
  | None => ret il
  | Some r =>
      match fuel with
      | O => fun _ => Hang
      | S n =>
          s <- acts_structural r ;;
          il' <- (if s : bool then ret il else
            b <- body_at r ;;
            il1 <- foldm (add_con false) il (wb_cs b) ;;
            foldm (add_con true) il1 (wb_cts b)) ;;
          grow n (S cur) il'
      end
  end.
Definition init_island (fuel : nat) (il : island) (root : id) : M island :=
  r <- add_body il root ;; grow fuel 0 (fst r).
(** refreshProxies, lines 100-122 *)
Definition proxy_of (i : id) : M nat := b <- body_at i ;; match wb_proxy b with Some n => ret n | None => bad end.
Definition refresh_body (il : island) (i : id) : M island :=
  b <- body_at i ;; n <- proxy_of i ;;
  if Nat.ltb n (length (is_pos il)) && Nat.ltb n (length (is_vel il)) then
    ret (Isl (is_bodies il) (is_cons il) (is_cts il) (upd_nth n (b_pos (wb b)) (is_pos il)) (upd_nth n (vel_of (wb b)) (is_vel il)) (is_awake il))
  else bad.
Definition refresh (il : island) : M island :=
  il' <- foldm refresh_body il (is_bodies il) ;;
  iter (fun c => _ <- start_solve c ;; ret tt) (is_cons il ++ is_cts il) ;;; ret il'.
(** getProxies, Bodies.hpp:253-257.  The proxies point to the elements at the bodies'
    indices, which do not change between refreshProxies and endSolve. *)
Definition get_proxies (c : id) : M proxies :=
  x <- con_at c ;;
  if c_px x then
    b0 <- body_at (c_b0 x) ;; b1 <- body_at (c_b1 x) ;;
    match wb_proxy b0, wb_proxy b1 with
    | Some i0, Some i1 => ret (Prox i0 i1 (c_m0 x) (c_I0 x) (c_m1 x) (c_I1 x))
    | _, _ => bad
    end
  else throw.
Definition call_init (il : island) (c : id) : M unit :=
  px <- get_proxies c ;; x <- con_at c ;; s <- lift (view il px) ;;
  st <- lift (bh_init (c_st x) px s) ;; put_con c (con_st st x).
Definition call (f : CS -> proxies -> store -> outcome (CS * store)) (il : island) (c : id) : M island :=
  px <- get_proxies c ;; x <- con_at c ;; s <- lift (view il px) ;;
  r <- lift (f (c_st x) px s) ;; put_con c (con_st (fst r) x) ;;; ret (write il px (snd r)).
(** applyVelocityConstraints, lines 124-149 *)
Fixpoint repeatm {A} (n : nat) (f : A -> M A) (a : A) : M A := match n with O => ret a | S n => b <- f a ;; repeatm n f b end.
Definition all_of (il : island) : list id := is_cons il ++ is_cts il.
Definition solve_velocities (s : settings) (dt : K) (il : island) : M island :=
  iter (call_init il) (all_of il) ;;;
  il1 <- (if s_warm s then foldm (call (fun c px st => bh_warm c px st dt)) il (all_of il) else ret il) ;;
  repeatm (s_nvel s) (fun il => foldm (call (fun c px st => bh_vel c px st dt)) il (all_of il)) il1.
(** integrateBodies, lines 151-157 *)
Definition integrate (dt : K) (il : island) : island :=
  Isl (is_bodies il) (is_cons il) (is_cts il)
    (map (fun pv => pos_advance (fst pv) (vscale dt (v_lin (snd pv))) (v_ang (snd pv) * dt)) (combine (is_pos il) (is_vel il)))
    (is_vel il) (is_awake il).
(** applyPositionConstraints, lines 159-168 *)
Definition solve_positions (s : settings) (il : island) : M island :=
  repeatm (s_npos s) (fun il => foldm (call bh_pos) il (all_of il)) il.
(** endSolve, lines 170-183 *)
Definition finish_body (il : island) (i : id) : M unit :=
  b <- body_at i ;; n <- proxy_of i ;;
  match nth_error (is_pos il) n, nth_error (is_vel il) n with
  | Some p, Some v => put_body i (with_proxy (with_wb b (b_update (set_motion (wb b) p (v_lin v) (v_ang v) (b_asleep (wb b))))) None)
  | _, _ => bad
  end.
Definition finish (il : island) : M unit := iter (finish_body il) (is_bodies il) ;;; iter end_solve (all_of il).
(** solveIslands, lines 265-333.  clear (lines 81-88) does not reset isAwake_: the
    flag of one island is the initial flag of the next. *)
Definition solve_one (fuel : nat) (s : settings) (dt : K) (awake : bool) (todo : list id) (root : id) : M (list id * bool) :=
  il <- init_island fuel (Isl [] [] [] [] [] awake) root ;;
  let todo' := filter (fun i => negb (existsb (Nat.eqb i) (is_bodies il))) todo in
  (if is_awake il then iter wake (is_bodies il) else ret tt) ;;;
  il1 <- refresh il ;;
  il2 <- (match all_of il1 with
          | [] => ret (integrate dt il1)
          | _ => il' <- solve_velocities s dt il1 ;; solve_positions s (integrate dt il')
          end) ;;
  finish il2 ;;; log (Solved (is_bodies il) (is_cons il) (is_cts il)) ;;;
  ret (todo', is_awake il).
Fixpoint solve_islands (fuel1 fuel2 : nat) (s : settings) (dt : K) (awake : bool) (todo : list id) : M unit :=
  match rev todo with
  | [] => ret tt
  | root :: _ =>
      match fuel1 with
      | O => fun _ => Hang
      | S n => r <- solve_one fuel2 s dt awake todo root ;; solve_islands n fuel2 s dt (snd r) (fst r)
      end
  end.

(** ** updateBodies, World.cpp:228-312 *)
Record oracle := Or {
  o_die : id -> bool;
  o_region : id -> list id;
  o_pairs : list (id * id);
  o_shuffle : nat -> list entry -> list entry;
  o_state : id -> id -> CS (* the state of a new contact *) }.
Definition find_entry (w : world) (k : nat * nat) : option entry :=
  find (fun e => Nat.eqb (fst (e_key e)) (fst k) && Nat.eqb (snd (e_key e)) (snd k)) (w_cts w).
(** inContacts, World.hpp:401-410 *)
Definition in_contacts (w : world) (k : nat * nat) : option entry :=
  match find_entry w k with Some e => Some e | None => find_entry w (snd k, fst k) end.
Fixpoint blocked (l : list id) (b1 : id) : M bool :=
  match l with
  | [] => ret false
  | c :: l => x <- con_at c ;; if c_dis x && (Nat.eqb (c_b0 x) b1 || Nat.eqb (c_b1 x) b1) then ret true else blocked l b1
  end.
(** makeContactConstraint, World.cpp:82-97 *)
Definition make_contact (o : oracle) (k0 k1 : id) : M id :=
  x0 <- col_at k0 ;; x1 <- col_at k1 ;;
  c <- new_con (k_body x0) (k_body x1) None false (Some (k0, k1)) (o_state o k0 k1) ;;
  i <- fresh ;; put_con i c ;;;
  iter (fun b => mod_body b (fun x => with_cts x (wb_cts x ++ [i])) ;;; wake b) (con_bodies c) ;;;
  ret i.
Definition same_key (a b : nat * nat) : bool := Nat.eqb (fst a) (fst b) && Nat.eqb (snd a) (snd b).
Definition register (o : oracle) (p : id * id) : M unit :=
  t <- get w_tree ;;
  if existsb (Nat.eqb (fst p)) t && existsb (Nat.eqb (snd p)) t then
    x0 <- col_at (fst p) ;; x1 <- col_at (snd p) ;;
    if Nat.eqb (k_body x0) (k_body x1) then ret tt else
    b0 <- body_at (k_body x0) ;;
    d <- blocked (wb_cs b0) (k_body x1) ;;
    if d : bool then ret tt else
    let key := (k_addr x0, k_addr x1) in
    e <- get (fun w => in_contacts w key) ;;
    match e with
    | None => i <- make_contact o (fst p) (snd p) ;;
              modify (fun w => set_cts w (o_shuffle o (length (w_cts w)) (w_cts w ++ [EN key i true])))
    | Some e => modify (fun w => set_cts w (map (fun e' => if same_key (e_key e') (e_key e) then EN (e_key e') (e_con e') true else e') (w_cts w)))
    end
  else ret tt.
Definition sleep_one (s : settings) (dt : K) (i : id) : M unit :=
  mod_body i (fun b => with_wb b (sleep_step (wb b) dt (s_vt s) (s_at s) (s_delay s))).
Definition settle (e : entry) : M unit := if e_hit e then ret tt else kill_con (e_con e).
Definition update_bodies (o : oracle) (dt : K) : M unit :=
  s <- get w_set ;; bs <- get w_bodies ;;
  (if s_sleep s then iter (sleep_one s dt) bs else ret tt) ;;;
  iter (register o) (o_pairs o) ;;;
  es <- get w_cts ;; iter settle es ;;;
  modify (fun w => set_cts w (map (fun e => EN (e_key e) (e_con e) false) (w_cts w))).

(** ** step, World.cpp:39-94.  preStep of a contact (ContactConstraint::preStep,
    Constraint.hpp:204) reads its two colliders. *)
Definition pre_contact (e : entry) : M unit :=
  c <- con_at (e_con e) ;;
  match c_cols c with
  | Some (k0, k1) => _ <- col_at k0 ;; _ <- col_at k1 ;; put_con (e_con e) (con_st (bh_pre (c_st c)) c)
  | None => put_con (e_con e) (con_st (bh_pre (c_st c)) c)
  end.
Definition pre_step : M unit :=
  bs <- get w_bodies ;; iter (fun i => _ <- body_at i ;; ret tt) bs ;;;
  cs <- get w_cons ;; iter (fun i => _ <- con_at i ;; ret tt) cs ;;;
  es <- get w_cts ;; iter pre_contact es ;;;
  fs <- get w_forces ;; iter (fun i => _ <- force_at i ;; ret tt) fs.
Definition post_step : M unit :=
  bs <- get w_bodies ;; iter (fun i => _ <- body_at i ;; ret tt) bs ;;;
  cs <- get w_cons ;; iter (fun i => _ <- con_at i ;; ret tt) cs ;;;
  es <- get w_cts ;; iter (fun e => _ <- con_at (e_con e) ;; ret tt) es ;;;
  fs <- get w_forces ;; iter (fun i => _ <- force_at i ;; ret tt) fs.
Definition advance (fuel : nat) (o : oracle) (dt : K) : M unit :=
  apply_forces dt (o_region o) ;;;
  s <- get w_set ;; bs <- get w_bodies ;;
  solve_islands fuel fuel s dt false bs ;;;
  update_bodies o dt.
Definition step (strict : bool) (fuel : nat) (o : oracle) (dt : K) : M unit :=
  cleanup strict (o_die o) ;;;
  pre_step ;;;
  (if k0 <? dt then advance fuel o dt else ret tt) ;;;
  post_step.

(** ** Other operations *)
(** setContactFactory, World.hpp:133-137: destroys the contacts *)
Definition set_factory : M unit :=
  es <- get w_cts ;;
  iter (fun e => modify (fun w => set_ch w (del (w_ch w) (e_con e))) ;;; log (Released (e_con e))) es ;;;
  modify (fun w => set_cts w []).
(** clear, World.hpp:124-131; colliderTree_.clear() finds the tree empty after the bodies
    are gone, otherwise the remaining elements are dropped *)
Definition clear (strict : bool) : M unit :=
  bs <- get w_bodies ;; iter (destroy_body strict) bs ;;; modify (fun w => set_bodies w []) ;;;
  fs <- get w_forces ;; iter (fun i => modify (fun w => set_fh w (del (w_fh w) i)) ;;; log (Released i)) fs ;;; modify (fun w => set_forces w []) ;;;
  set_factory ;;;
  cs <- get w_cons ;; iter (fun i => modify (fun w => set_ch w (del (w_ch w) i)) ;;; log (Released i)) cs ;;; modify (fun w => set_cons w []) ;;;
  modify (fun w => set_tree w []).
(** updateSettings, World.hpp:291-298 *)
Definition update_settings (s : settings) : M unit :=
  old <- get w_set ;; bs <- get w_bodies ;;
  (if negb (s_sleep s) && s_sleep old then iter wake bs else ret tt) ;;;
  modify (fun w => set_settings w s).

Definition empty_world (s : settings) : world :=
  W (fun _ => None) (fun _ => None) (fun _ => None) (fun _ => None) [] [] [] [] [] s 0 [].

(** ** Grabber, src/Simu/app/Tool.cpp:36-87.  [st b pos] is the state of a new
    mouse constraint on a single body with dominances 1; [under] lists the
    bodies found by forEachAt; [move] is updateMousePos. *)
Definition press (st : id -> CS) (under : list id) (mc : option id) : M (option id) :=
  foldm (fun mc b =>
    x <- body_at b ;;
    if b_structural (wb x) then ret mc else
    (match mc with Some c => kill_con c | None => ret tt end) ;;;
    c <- make_con b b (Some (k1, k1)) false (st b) ;; ret (Some c)) mc under.
Definition release (mc : option id) : M (option id) :=
  match mc with Some c => kill_con c ;;; ret None | None => ret None end.
Definition move (f : CS -> CS) (mc : option id) : M (option id) :=
  match mc with Some c => mod_con c (fun x => con_st (f (c_st x)) x) ;;; ret mc | None => ret None end.
End World.
Arguments Ok {N BH A}. Arguments Thrown {N BH A}. Arguments Bad {N BH A}. Arguments Hang {N BH A}.
Notation "x <- m ;; k" := (bind m (fun x => k)) (at level 90, m at level 80, k at level 90, right associativity).
Notation "m ;;; k" := (bind m (fun _ => k)) (at level 90, k at level 90, right associativity).
