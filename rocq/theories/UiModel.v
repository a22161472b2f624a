(** The window's event handlers and display loop: src/sdl_handler.c,
    src/sdl_ui.c, src/amino_sdl.c 62-127, 477-557 (built without spacenav).
    Times are nanoseconds; the timespec functions of time.h are this arithmetic
    (C18).  What the outside does at each turn of a loop is an input: the clock,
    what SDL_WaitEventTimeout gives, and what the display function, the handler
    and the camera code ask for. *)
From Coq Require Import ZArith List Bool.
Import ListNotations.
Open Scope Z_scope.

(** SDL_Event: its type and, for a key press, the key *)
Record ev := mkEv { etype : Z; ekey : Z }.
Definition SDL_KEYDOWN : Z := 768.
Definition SDL_QUIT : Z := 256.

(** A handler function with its context is a number. *)
Inductive bind := BindEvent (t : Z) (h : Z) | BindKey (k : Z) (h : Z).

(** sdl_handler.c 80-100: the two vectors; each element is a type or a key
    with its handler *)
Record registry := mkReg { events : list (Z * Z); keys : list (Z * Z) }.
(** sdl_handler.c 102-139: aa_sdl_bind_event, aa_sdl_bind_key *)
Definition do_bind (r : registry) (b : bind) : registry :=
  match b with
  | BindEvent t h => mkReg (events r ++ [(t, h)]) (keys r)
  | BindKey k h => mkReg (events r) (keys r ++ [(k, h)])
  end.
(** 150-163: for( i = 0; !r && i < size; i++ ) if( k == h->key ) r = h; *)
Fixpoint search (l : list (Z * Z)) (k : Z) : option Z :=
  match l with
  | [] => None
  | (k', h) :: l' => if k =? k' then Some h else search l' k
  end.
(** 141-172: the handler aa_sdl_handle_event calls *)
Definition handler_for (r : registry) (e : ev) : option Z :=
  if etype e =? SDL_KEYDOWN then search (keys r) (ekey e) else search (events r) (etype e).

(** sdl_ui.c 99-108: aa_sdl_ui_setup, run once by aa_sdl_init *)
Definition H_EASTER := 1. Definition H_FULLSCREEN := 2. Definition H_QUIT := 3.
Definition SDLK_BACKQUOTE := 96. Definition SDLK_F11 := 1073741892.
Definition ui_setup : list bind :=
  [BindKey SDLK_BACKQUOTE H_EASTER; BindKey SDLK_F11 H_FULLSCREEN; BindEvent SDL_QUIT H_QUIT].

(** struct aa_sdl_display_params, amino_sdl.c 62-75.  The event pointer: never
    set; pointing at the loop's event; pointing at a block that was left. *)
Inductive evref := Unset | Live (e : ev) | Dead.
Record params := mkP {
  p_now : Z; p_init : Z; p_last : Z; p_event : evref;
  p_update : bool; p_quit : bool; p_first : bool }.

(** What can be observed *)
Record shown := mkShown {
  d_first : bool; d_update : bool; d_event : evref; d_now : Z; d_init : Z; d_last : Z;
  d_asks : bool;        (* the display function calls set_update *)
  d_quits : bool }.     (* the display function calls set_quit *)
Record taken := mkTaken {
  t_ev : ev; t_seen : evref; t_handler : option Z; t_result : Z; t_camera : bool;
  t_asks : bool; t_quits : bool }.
Inductive obs :=
  | OBind (b : bind)
  | ODisplay (d : shown)
  | OSwap
  | OClean
  | OWait (at_ ms : Z)      (* SDL_WaitEventTimeout called at this time *)
  | OEvent (t : taken).

Record input := mkI {
  i_time : Z; i_ev : option ev;
  i_asks : bool; i_quits : bool; i_binds : list bind;   (* display function or handler *)
  i_result : Z; i_cam : bool }.   (* handler's result; camera asks for an update *)

Inductive at_ := ATop | AWait (next timeout : Z) | ADone.
Record st := mkSt { s_at : at_; s_p : params; s_reg : registry }.

Section LOOP.
(** aa_tm_sec2timespec(1/fps), in nanoseconds *)
Variable delta : Z.

(** 494-496 and 521, 555: where the inner loop's test leads *)
Definition inner (p : params) (next timeout : Z) : at_ :=
  if negb (p_quit p) && (0 <? timeout) then AWait next timeout
  else if p_quit p then ADone else ATop.

(** time.h 141-144 on a normalised timespec *)
Definition msec (ns : Z) : Z := ns / 1000000.

(** 494-510: times, display, swap, cleanup *)
Definition cycle (s : st) (i : input) : st * list obs :=
  let p := s_p s in
  let now := i_time i in
  let next := now + delta in
  let d := mkShown (p_first p) (p_update p) (p_event p) now (p_init p) (p_now p) (i_asks i) (i_quits i) in
  let upd := p_update p || i_asks i in
  let p' := mkP now (p_init p) (p_now p) (p_event p) false (p_quit p || i_quits i) false in
  (mkSt (inner p' next 1) p' (fold_left do_bind (i_binds i) (s_reg s)),
   ODisplay d :: map OBind (i_binds i) ++ (if upd then [OSwap] else []) ++ [OClean]).

(** 512-531: one turn of the wait loop *)
Definition turn (s : st) (next : Z) (i : input) : st * list obs :=
  let p := s_p s in
  let timeout := msec (next - i_time i) in
  let w := OWait (i_time i) (if timeout <? 0 then 0 else timeout) in
  match i_ev i with
  | None =>
      let p' := mkP (p_now p) (p_init p) (p_last p) Dead (p_update p) (p_quit p) (p_first p) in
      (mkSt (inner p' next timeout) p' (s_reg s), [w])
  | Some e =>
      let h := handler_for (s_reg s) e in
      (* aa_sdl_handle_event: the handler's result, or -1 *)
      let r := match h with Some _ => i_result i | None => -1 end in
      let called := match h with Some _ => true | None => false end in
      let cam := negb (r =? 0) in
      let asks := (called && i_asks i) || (cam && i_cam i) in
      let quits := called && i_quits i in
      let binds := if called then i_binds i else [] in
      let p' := mkP (p_now p) (p_init p) (p_last p) Dead
                    (p_update p || asks) (p_quit p || quits) (p_first p) in
      (mkSt (inner p' next timeout) p' (fold_left do_bind binds (s_reg s)),
       w :: OEvent (mkTaken e (Live e) h r cam asks quits) :: map OBind binds)
  end.

Definition step (s : st) (i : input) : st * list obs :=
  match s_at s with
  | ATop => cycle s i
  | AWait next _ => turn s next i
  | ADone => (s, [])
  end.
Fixpoint steps (s : st) (l : list input) : st * list obs :=
  match l with
  | [] => (s, [])
  | i :: r => let (s1, o1) := step s i in let (s2, o2) := steps s1 r in (s2, o1 ++ o2)
  end.

(** 483-492: the state before the loop, entered at time [t0] with the handlers
    bound so far *)
Definition start (t0 : Z) (binds : list bind) : st :=
  mkSt ATop (mkP t0 t0 0 Unset true false true) (fold_left do_bind binds (mkReg [] [])).
(** Everything that happened: earlier binds, then the loop *)
Definition loop (t0 : Z) (binds : list bind) (l : list input) : list obs :=
  map OBind binds ++ snd (steps (start t0 binds) l).
End LOOP.
