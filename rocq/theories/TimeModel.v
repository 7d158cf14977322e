(* Model of /repo/src/gutil_timenotify.c with a client which may call anything at any time, also from
   inside its handlers, and a main loop which handlers may run. One thread. *)
From Verif Require Import Base.

(* struct gutil_time_notify, lines 60-64, with the reference count and the handlers of the GObject.
   t_watch is io_watch_id: 0 or one more than the number of the source. t_live: not freed yet. *)
Record notify : Type := Notify { t_refs : Z; t_chan : option nat; t_watch : nat; t_handlers : list nat; t_live : bool }.
(* What is made by gutil_time_notify_init, lines 171-200, if timerfd_create succeeds: a file, a
   GIOChannel (i_refs, close_on_unref in i_close, i_live: not freed yet) and a GSource (i_on: in the
   main loop, i_running: its callback is running, i_obj: user_data). The source has a reference to the
   channel until it is destroyed and not running. *)
Record io : Type := Io { i_obj : nat; i_open : bool; i_refs : Z; i_close : bool; i_live : bool; i_on : bool; i_running : bool }.
(* gutil_time_notify_callback running for the source f_src, at line 165: handlers which have not been called yet *)
Record frame : Type := Frame { f_src : nat; f_obj : nat; f_todo : list nat }.

Inductive event : Type :=
| ENew (o : nat)                     (* the object is created *)
| EGot (o : nat)                     (* gutil_time_notify_new returns it *)
| ERef (o : nat) | EUnref (o : nat)  (* by the client *)
| EFinal (o : nat)                   (* it is freed *)
| EOpen (c : nat) | EClose (c : nat) (* its file *)
| EBadClose (c : nat)                (* close of a file which is not open *)
| EFree (c : nat)                    (* its channel is freed *)
| EAttach (c : nat) | EDestroy (c : nat) | EBadRemove (c : nat) (* its source; g_source_remove of a source which is not there *)
| EError (c : nat)                   (* the main loop finds an error of its file *)
| EAdd (o h : nat) | ERemove (o h : nat)
| EFire (o : nat)                    (* the callback emits the signal *)
| ECall (o h : nat)                  (* a handler is called *)
| EEnd (o : nat).                    (* the callback returns *)

(* s_inst: the static variable of line 87. s_next: the number of handlers ever connected. The last event first. *)
Record state : Type := State { s_inst : option nat; s_objs : list notify; s_io : list io; s_frames : list frame; s_next : nat; s_trace : list event }.
Definition start : state := State None [] [] [] 0 [].

Definition obj (s : state) (o : nat) : res notify :=
  match nth_error (s_objs s) o with Some x => if t_live x then Ok x else Fail UseAfterFree | None => Fail OobRead end.
Definition chan (s : state) (c : nat) : res io :=
  match nth_error (s_io s) c with Some x => if i_live x then Ok x else Fail UseAfterFree | None => Fail OobRead end.
Definition source (s : state) (c : nat) : res io := match nth_error (s_io s) c with Some x => Ok x | None => Fail OobRead end.
Definition set_obj (s : state) (o : nat) (x : notify) : state := State (s_inst s) (upd (s_objs s) o x) (s_io s) (s_frames s) (s_next s) (s_trace s).
Definition set_io (s : state) (c : nat) (x : io) : state := State (s_inst s) (s_objs s) (upd (s_io s) c x) (s_frames s) (s_next s) (s_trace s).
Definition set_inst (s : state) (p : option nat) : state := State p (s_objs s) (s_io s) (s_frames s) (s_next s) (s_trace s).
Definition set_frames (s : state) (l : list frame) : state := State (s_inst s) (s_objs s) (s_io s) l (s_next s) (s_trace s).
Definition emit (s : state) (e : event) : state := State (s_inst s) (s_objs s) (s_io s) (s_frames s) (s_next s) (e :: s_trace s).

Definition set_refs (x : notify) (n : Z) : notify := Notify n (t_chan x) (t_watch x) (t_handlers x) (t_live x).
Definition set_watch (x : notify) (n : nat) : notify := Notify (t_refs x) (t_chan x) n (t_handlers x) (t_live x).
Definition set_handlers (x : notify) (l : list nat) : notify := Notify (t_refs x) (t_chan x) (t_watch x) l (t_live x).

(* close *)
Definition close (s : state) (c : nat) : res state :=
  do y <- source s c;
  if i_open y then Ok (emit (set_io s c (Io (i_obj y) false (i_refs y) (i_close y) (i_live y) (i_on y) (i_running y))) (EClose c)) else Ok (emit s (EBadClose c)).

(* g_io_channel_unref *)
Definition chan_unref (s : state) (c : nat) : res state :=
  do y <- chan s c;
  if i_refs y =? 1 then
    do s1 <- (if i_close y then close s c else Ok s);
    do z <- source s1 c;
    Ok (emit (set_io s1 c (Io (i_obj z) (i_open z) 0 (i_close z) false (i_on z) (i_running z))) (EFree c))
  else Ok (set_io s c (Io (i_obj y) (i_open y) (i_refs y - 1) (i_close y) true (i_on y) (i_running y))).

(* g_io_channel_shutdown: the file is closed and will not be closed by the last unref *)
Definition chan_shutdown (s : state) (c : nat) : res state :=
  do y <- chan s c;
  close (set_io s c (Io (i_obj y) (i_open y) (i_refs y) false true (i_on y) (i_running y))) c.

(* g_source_remove *)
Definition source_remove (s : state) (c : nat) : res state :=
  do y <- source s c;
  if i_on y then
    let s1 := emit (set_io s c (Io (i_obj y) (i_open y) (i_refs y) (i_close y) (i_live y) false (i_running y))) (EDestroy c) in
    if i_running y then Ok s1 else chan_unref s1 c
  else Ok (emit s (EBadRemove c)).

(* gutil_source_remove, /repo/src/gutil_misc.c:84-94 *)
Definition gutil_source_remove (s : state) (id : nat) : res state := match id with O => Ok s | S c => source_remove s c end.

(* gutil_time_notify_finalize, lines 203-216; then the object is freed *)
Definition finalize (s : state) (o : nat) : res state :=
  do x <- obj s o;
  do s1 <- match t_chan x with
           | Some c => do s1 <- gutil_source_remove s (t_watch x); do s2 <- chan_shutdown s1 c; chan_unref s2 c
           | None => Ok s
           end;
  do x <- obj s1 o;
  Ok (emit (set_obj s1 o (Notify 0 (t_chan x) (t_watch x) [] false)) (EFinal o)).

(* g_object_unref: the last one clears the weak pointer (line 93) and finalizes *)
Definition unref (s : state) (o : nat) : res state :=
  do x <- obj s o;
  if t_refs x =? 1 then finalize (set_inst s (match s_inst s with Some p => if Nat.eqb p o then None else Some p | None => None end)) o
  else Ok (set_obj s o (set_refs x (t_refs x - 1))).
(* g_object_ref *)
Definition ref (s : state) (o : nat) : res state := do x <- obj s o; Ok (set_obj s o (set_refs x (t_refs x + 1))).

(* g_object_new with gutil_time_notify_init, lines 171-200. ok: whether timerfd_create succeeds. The
   result of timerfd_settime does not matter here. *)
Definition create (s : state) (ok : bool) : state :=
  let o := length (s_objs s) in
  let c := length (s_io s) in
  if ok then State (s_inst s) (s_objs s ++ [Notify 1 (Some c) (S c) [] true]) (s_io s ++ [Io o true 2 true true true false]) (s_frames s) (s_next s)
               (EAttach c :: EOpen c :: ENew o :: s_trace s)
  else State (s_inst s) (s_objs s ++ [Notify 1 None 0 [] true]) (s_io s) (s_frames s) (s_next s) (ENew o :: s_trace s).

(* gutil_time_notify_new, lines 83-97 *)
Definition time_notify_new (s : state) (ok : bool) : res state :=
  match s_inst s with
  | Some o => do s1 <- ref s o; Ok (emit s1 (EGot o))
  | None => let o := length (s_objs s) in Ok (emit (set_inst (create s ok) (Some o)) (EGot o))
  end.
(* gutil_time_notify_ref, lines 99-107 *)
Definition time_notify_ref (s : state) (self : option nat) : res state := match self with Some o => do s1 <- ref s o; Ok (emit s1 (ERef o)) | None => Ok s end.
(* gutil_time_notify_unref, lines 109-116 *)
Definition time_notify_unref (s : state) (self : option nat) : res state := match self with Some o => unref (emit s (EUnref o)) o | None => Ok s end.
(* gutil_time_notify_add_handler, lines 118-126. fn is never NULL here. *)
Definition add_handler (s : state) (self : option nat) : res state :=
  match self with
  | Some o =>
      do x <- obj s o;
      let h := s_next s in
      let s1 := set_obj s o (set_handlers x (t_handlers x ++ [h])) in
      Ok (State (s_inst s1) (s_objs s1) (s_io s1) (s_frames s1) (S h) (EAdd o h :: s_trace s1))
  | None => Ok s
  end.
(* gutil_time_notify_remove_handler, lines 128-136 *)
Definition remove_handler (s : state) (self : option nat) (h : nat) : res state :=
  match self with
  | Some o => do x <- obj s o; Ok (emit (set_obj s o (set_handlers x (filter (fun g => negb (Nat.eqb g h)) (t_handlers x)))) (ERemove o h))
  | None => Ok s
  end.

(* gutil_time_notify_callback, lines 138-169, called by the main loop for the source c *)
(* lines 147-149: an error. The main loop destroys the source. *)
Definition callback_error (s : state) (c : nat) : res state :=
  do y <- source s c;
  do x <- obj s (i_obj y);
  let s1 := set_obj s (i_obj y) (set_watch x 0) in
  chan_unref (emit (emit (set_io s1 c (Io (i_obj y) (i_open y) (i_refs y) (i_close y) (i_live y) false (i_running y))) (EError c)) (EDestroy c)) c.
(* lines 151-165, until the first handler is called. What is read does not matter. *)
Definition callback_begin (s : state) (c : nat) : res state :=
  do y <- source s c;
  do s1 <- ref s (i_obj y);
  do x <- obj s1 (i_obj y);
  do _ <- match t_chan x with Some d => do z <- chan s1 d; if i_open z then Ok tt else Fail UseAfterFree | None => Fail NullDeref end;
  let s2 := set_io s1 c (Io (i_obj y) (i_open y) (i_refs y) (i_close y) (i_live y) (i_on y) true) in
  Ok (emit (set_frames s2 (Frame c (i_obj y) (t_handlers x) :: s_frames s2)) (EFire (i_obj y))).
(* g_signal_emit: the next handler, if it has not been disconnected *)
Definition emission (s : state) : res state :=
  match s_frames s with
  | Frame c o (h :: l) :: fs =>
      do x <- obj s o;
      let s1 := set_frames s (Frame c o l :: fs) in
      if existsb (Nat.eqb h) (t_handlers x) then Ok (emit s1 (ECall o h)) else Ok s1
  | _ => Ok s
  end.
(* lines 166-167; the main loop drops its reference to the source, which may have been destroyed *)
Definition callback_end (s : state) : res state :=
  match s_frames s with
  | Frame c o [] :: fs =>
      do s1 <- unref (emit (set_frames s fs) (EEnd o)) o;
      do y <- source s1 c;
      let s2 := set_io s1 c (Io (i_obj y) (i_open y) (i_refs y) (i_close y) (i_live y) (i_on y) false) in
      if i_on y then Ok s2 else chan_unref s2 c
  | _ => Ok s
  end.

Inductive action : Type :=
| ANew (ok : bool) | ARef (o : option nat) | AUnref (o : option nat) | AAdd (o : option nat) | ARemove (o : option nat) (h : nat)  (* the client *)
| AError (c : nat) | ABegin (c : nat) | AEmit | AEnd.                                                                            (* the main loop *)

Definition step (s : state) (a : action) : res state :=
  match a with
  | ANew ok => time_notify_new s ok
  | ARef o => time_notify_ref s o
  | AUnref o => time_notify_unref s o
  | AAdd o => add_handler s o
  | ARemove o h => remove_handler s o h
  | AError c => callback_error s c
  | ABegin c => callback_begin s c
  | AEmit => emission s
  | AEnd => callback_end s
  end.

Fixpoint run (s : state) (l : list action) : res state := match l with [] => Ok s | a :: l => do s <- step s a; run s l end.
