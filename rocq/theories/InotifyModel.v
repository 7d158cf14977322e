(* Model of /repo/src/gutil_inotify.c with the inotify files of the kernel, a main loop and a client
   which may call anything at any time, also from inside its handlers. One thread uses the library;
   other threads of the process open and close files. *)
From Verif Require Import Base.

(* Blocks allocated so far; None if freed. An address is never used again. *)
Definition get {A} (h : list (option A)) (a : nat) : res A :=
  match nth_error h a with Some (Some x) => Ok x | Some None => Fail UseAfterFree | None => Fail OobRead end.
Definition put {A} (h : list (option A)) (a : nat) (x : A) : res (list (option A)) := do _ <- get h a; Ok (upd h a (Some x)).
Definition release {A} (h : list (option A)) (a : nat) : res (list (option A)) := do _ <- get h a; Ok (upd h a None).

(* ---------------- kernel ---------------- *)

(* An inotify file: the objects (inodes) being watched with their watch descriptors, and the last
   watch descriptor given out. Masks are left out: they only decide which events there are. *)
Record kfile : Type := KFile { k_last : Z; k_list : list (nat * Z) }.
(* An open file: of inotify, or another one *)
Inductive file : Type := IFile (k : kfile) | OFile.

(* The file descriptors of the process; None if not open. A new file gets the lowest one. *)
Fixpoint lowest (l : list (option file)) : nat := match l with [] | None :: _ => O | Some _ :: l => S (lowest l) end.
Definition open_file (l : list (option file)) (f : file) : list (option file) :=
  if Nat.ltb (lowest l) (length l) then upd l (lowest l) (Some f) else l ++ [Some f].

(* inotify_add_watch for a path which leads to the object n: the descriptor is the old one if the
   object is being watched already. None stands for -1. *)
Definition kadd (l : list (option file)) (fd n : nat) : option (list (option file) * Z) :=
  match nth_error l fd with
  | Some (Some (IFile k)) =>
      match find (fun x => Nat.eqb (fst x) n) (k_list k) with
      | Some (_, wd) => Some (l, wd)
      | None => Some (upd l fd (Some (IFile (KFile (k_last k + 1) ((n, k_last k + 1) :: k_list k)))), k_last k + 1)
      end
  | _ => None
  end.
(* inotify_rm_watch; the result is ignored by the library *)
Definition krm (l : list (option file)) (fd : nat) (wd : Z) : list (option file) :=
  match nth_error l fd with
  | Some (Some (IFile k)) => upd l fd (Some (IFile (KFile (k_last k) (filter (fun x => negb (snd x =? wd)) (k_list k)))))
  | _ => l
  end.
(* the object goes away *)
Definition kdrop (l : list (option file)) (fd n : nat) : list (option file) :=
  match nth_error l fd with
  | Some (Some (IFile k)) => upd l fd (Some (IFile (KFile (k_last k) (filter (fun x => negb (Nat.eqb (fst x) n)) (k_list k)))))
  | _ => l
  end.

(* ---------------- state ---------------- *)

(* lines 52-59: io_watch_id is 0 if there is no source *)
Record instance : Type := Inst { i_refs : Z; i_fd : nat; i_watches : list (Z * nat); i_src : nat; i_buf : list (option Z) }.
(* lines 64-71, and the handlers connected to the GObject, in the order of connection. parent, mask
   and path are not used. *)
Record watch : Type := Watch { w_refs : Z; w_inst : nat; w_wd : Z; w_handlers : list nat }.

Definition set_refs (q : instance) (n : Z) : instance := Inst n (i_fd q) (i_watches q) (i_src q) (i_buf q).
Definition set_table (q : instance) (t : list (Z * nat)) : instance := Inst (i_refs q) (i_fd q) t (i_src q) (i_buf q).
Definition set_src (q : instance) (n : nat) : instance := Inst (i_refs q) (i_fd q) (i_watches q) n (i_buf q).
Definition set_buf (q : instance) (b : list (option Z)) : instance := Inst (i_refs q) (i_fd q) (i_watches q) (i_src q) b.
Definition set_wrefs (x : watch) (n : Z) : watch := Watch n (w_inst x) (w_wd x) (w_handlers x).
Definition set_wd (x : watch) (n : Z) : watch := Watch (w_refs x) (w_inst x) n (w_handlers x).
Definition set_handlers (x : watch) (l : list nat) : watch := Watch (w_refs x) (w_inst x) (w_wd x) l.

(* what a handler is given: the name is NULL or a string *)
Record iev : Type := IEv { e_wd : Z; e_mask : Z; e_cookie : Z; e_name : option (list Z) }.

(* Functions in progress. The client runs only if there is none or if it has been called by the
   innermost one (FHandler). *)
Inductive frame : Type :=
| FClose (i : nat)                         (* in front of line 125: gutil_inotify_unref *)
| FLoop (i : nat) (next nbytes : Z)        (* in front of line 152; next is an index *)
| FEmit (i w : nat) (wd mask cookie : Z) (path : option Z) (last max : nat)
                                           (* in g_signal_emit, line 167: handlers up to last have been called *)
| FHandler (w id : nat)                    (* in a handler *)
| FEnd (sid : nat) (ok : bool).            (* gutil_inotify_callback has returned to the main loop *)

Inductive event : Type :=
| EInit (i fd : nat)                                   (* inotify_init *)
| ENew (w i n : nat) (wd : Z) | ENone                  (* gutil_inotify_watch_new has returned a watch, NULL *)
| ERef (w : nat) | EUnref (w : nat) | EDestroy (w : nat)
| EStop (w i : nat) (wd : Z) | EGone (w : nat) | EGoneInst (i : nat)
| EConnect (w id : nat) | EDisconnect (w id : nat)
| ERead (i : nat) (data : list Z) | EReadEnd (i : nat)
| ELook (i : nat) (wd : Z) (o : option nat)            (* the watch found for an event *)
| ECall (w id : nat) (e : iev) | EReturn
| ESource (sid i : nat) | EUnsource (sid : nat) | EBadRemove (sid : nat)
| EClose (fd : nat) (f : file) | EBadClose (fd : nat). (* closed, and what it was; closed but was not open *)

Record state : Type := State {
  s_fds : list (option file); s_insts : list (option instance); s_var : option nat;
  s_srcs : list (nat * nat * bool);   (* the sources: number, instance, whether the main loop is inside the call *)
  s_nsrc : nat; s_watches : list (option watch); s_nid : nat; s_stack : list frame; s_trace : list event }.
(* the last event first *)
Definition start : state := State [] [] None [] 1 [] 1 [] [].

Definition set_fds (s : state) l : state := State l (s_insts s) (s_var s) (s_srcs s) (s_nsrc s) (s_watches s) (s_nid s) (s_stack s) (s_trace s).
Definition set_insts (s : state) l : state := State (s_fds s) l (s_var s) (s_srcs s) (s_nsrc s) (s_watches s) (s_nid s) (s_stack s) (s_trace s).
Definition set_var (s : state) v : state := State (s_fds s) (s_insts s) v (s_srcs s) (s_nsrc s) (s_watches s) (s_nid s) (s_stack s) (s_trace s).
Definition set_srcs (s : state) l n : state := State (s_fds s) (s_insts s) (s_var s) l n (s_watches s) (s_nid s) (s_stack s) (s_trace s).
Definition set_watches (s : state) l : state := State (s_fds s) (s_insts s) (s_var s) (s_srcs s) (s_nsrc s) l (s_nid s) (s_stack s) (s_trace s).
Definition set_nid (s : state) n : state := State (s_fds s) (s_insts s) (s_var s) (s_srcs s) (s_nsrc s) (s_watches s) n (s_stack s) (s_trace s).
Definition set_stack (s : state) k : state := State (s_fds s) (s_insts s) (s_var s) (s_srcs s) (s_nsrc s) (s_watches s) (s_nid s) k (s_trace s).
Definition emit (s : state) (e : event) : state := State (s_fds s) (s_insts s) (s_var s) (s_srcs s) (s_nsrc s) (s_watches s) (s_nid s) (s_stack s) (e :: s_trace s).

Definition put_inst (s : state) (i : nat) (q : instance) : res state := do l <- put (s_insts s) i q; Ok (set_insts s l).
Definition put_watch (s : state) (w : nat) (x : watch) : res state := do l <- put (s_watches s) w x; Ok (set_watches s l).

(* close *)
Definition close (s : state) (fd : nat) : state :=
  match nth_error (s_fds s) fd with
  | Some (Some f) => emit (set_fds s (upd (s_fds s) fd None)) (EClose fd f)
  | _ => emit s (EBadClose fd)
  end.

(* g_source_remove *)
Definition source (s : state) (sid : nat) : option (nat * nat * bool) := find (fun x => Nat.eqb (fst (fst x)) sid) (s_srcs s).
Definition without (l : list (nat * nat * bool)) (sid : nat) : list (nat * nat * bool) := filter (fun x => negb (Nat.eqb (fst (fst x)) sid)) l.
Definition remove_source (s : state) (sid : nat) : state :=
  match source s sid with
  | Some _ => emit (set_srcs s (without (s_srcs s) sid) (s_nsrc s)) (EUnsource sid)
  | None => emit s (EBadRemove sid)
  end.

(* ---------------- GUtilInotify ---------------- *)

(* gutil_inotify_ref, lines 101-109 *)
Definition ref_inst (s : state) (i : nat) : res state := do q <- get (s_insts s) i; put_inst s i (set_refs q (i_refs q + 1)).

(* gutil_inotify_unref, lines 111-131, up to line 124. g_io_channel_shutdown closes the file
   descriptor of the channel. *)
Definition unref_inst (s : state) (i : nat) : res state :=
  do q <- get (s_insts s) i;
  do s <- put_inst s i (set_refs q (i_refs q - 1));
  if i_refs q - 1 =? 0 then
    let s := if Nat.eqb (i_src q) 0 then s else remove_source s (i_src q) in
    let s := close s (i_fd q) in
    Ok (set_stack s (FClose i :: s_stack s))
  else Ok s.
(* lines 125-129 *)
Definition close_end (s : state) (i : nat) : res state :=
  do q <- get (s_insts s) i;
  let s := close s (i_fd q) in
  do l <- release (s_insts s) i;
  let s := set_insts s l in
  let s := match s_var s with Some j => if Nat.eqb i j then set_var s None else s | None => s end in
  Ok (emit s (EGoneInst i)).

(* gutil_inotify_create, lines 203-227, and gutil_inotify_new, lines 229-249; g_io_channel_unix_new
   does not return NULL *)
Definition new_inst (s : state) : res (state * nat) :=
  match s_var s with
  | Some i => do s <- ref_inst s i; Ok (s, i)
  | None =>
      let fd := lowest (s_fds s) in
      let i := length (s_insts s) in
      let sid := s_nsrc s in
      let s := emit (set_fds s (open_file (s_fds s) (IFile (KFile 0 [])))) (EInit i fd) in
      let s := emit (set_srcs s ((sid, i, false) :: s_srcs s) (S sid)) (ESource sid i) in
      let s := set_insts s (s_insts s ++ [Some (Inst 1 fd [] sid (repeat None 272))]) in
      Ok (set_var s (Some i), i)
  end.

(* the hash table *)
Definition t_lookup (t : list (Z * nat)) (wd : Z) : option nat :=
  match find (fun x => fst x =? wd) t with Some (_, w) => Some w | None => None end.
Definition t_remove (t : list (Z * nat)) (wd : Z) : list (Z * nat) := filter (fun x => negb (fst x =? wd)) t.
Definition t_insert (t : list (Z * nat)) (wd : Z) (w : nat) : list (Z * nat) := (wd, w) :: t_remove t wd.

(* ---------------- GUtilInotifyWatch ---------------- *)

(* gutil_inotify_watch_new, lines 274-305, with gutil_inotify_add_watch, lines 251-259. n is the
   object the path leads to, if any. *)
Definition watch_new (s : state) (n : option nat) : res state :=
  do (s, i) <- new_inst s;
  do q <- get (s_insts s) i;
  match (match n with Some n => match kadd (s_fds s) (i_fd q) n with Some (l, wd) => Some (l, wd, n) | None => None end | None => None end) with
  | Some (l, wd, n) =>
      let w := length (s_watches s) in
      let s := set_watches (set_fds s l) (s_watches s ++ [Some (Watch 1 i wd [])]) in
      do s <- put_inst s i (set_table q (t_insert (i_watches q) wd w));
      Ok (emit s (ENew w i n wd))
  | None => do s <- unref_inst s i; Ok (emit s ENone)
  end.

(* gutil_inotify_watch_stop, lines 307-316, with gutil_inotify_remove_watch, lines 261-269 *)
Definition watch_stop (s : state) (w : nat) : res state :=
  do x <- get (s_watches s) w;
  if w_wd x >=? 0 then
    do q <- get (s_insts s) (w_inst x);
    do s <- put_inst s (w_inst x) (set_table q (t_remove (i_watches q) (w_wd x)));
    let s := set_fds s (krm (s_fds s) (i_fd q) (w_wd x)) in
    do s <- put_watch s w (set_wd x (-1));
    Ok (emit s (EStop w (w_inst x) (w_wd x)))
  else Ok s.

(* gutil_inotify_watch_unref, lines 341-348: GObject calls gutil_inotify_watch_finalize (lines
   378-390) when the last reference goes. Simplified: the object is freed before, not after
   gutil_inotify_unref. *)
Definition watch_unref (s : state) (w : nat) : res state :=
  do x <- get (s_watches s) w;
  do s <- put_watch s w (set_wrefs x (w_refs x - 1));
  if w_refs x - 1 =? 0 then
    do s <- watch_stop s w;
    do l <- release (s_watches s) w;
    unref_inst (emit (set_watches s l) (EGone w)) (w_inst x)
  else Ok s.

(* What the client may do: the public functions of lines 274-368. CNewFail: inotify_init fails. *)
Inductive call : Type :=
| CNew (n : option nat) | CNewFail
| CRef (w : nat) | CUnref (w : nat) | CDestroy (w : nat) | CConnect (w : nat) | CDisconnect (w id : nat).

Definition do_call (s : state) (c : call) : res state :=
  match c with
  | CNew n => watch_new s n
  | CNewFail => match s_var s with None => Ok (emit s ENone) | Some _ => Ok s end
  | CRef w => do x <- get (s_watches s) w; do s <- put_watch s w (set_wrefs x (w_refs x + 1)); Ok (emit s (ERef w))
  | CUnref w => watch_unref (emit s (EUnref w)) w
  | CDestroy w => do s <- watch_stop (emit s (EDestroy w)) w; watch_unref s w
  | CConnect w =>
      do x <- get (s_watches s) w;
      do s <- put_watch s w (set_handlers x (w_handlers x ++ [s_nid s]));
      Ok (emit (set_nid s (S (s_nid s))) (EConnect w (s_nid s)))
  | CDisconnect w id =>
      do x <- get (s_watches s) w;
      do s <- put_watch s w (set_handlers x (filter (fun j => negb (Nat.eqb j id)) (w_handlers x)));
      Ok (emit s (EDisconnect w id))
  end.

(* ---------------- events ---------------- *)

Definition rd_byte (b : list (option Z)) (i : Z) : res Z :=
  do c <- rd b i; match c with Some c => Ok c | None => Fail UninitRead end.
(* a 32 bit field of struct inotify_event, little endian; buf is at the offset 28 of GUtilInotify *)
Definition rd_u32 (b : list (option Z)) (i : Z) : res Z :=
  if (28 + i) mod 4 =? 0 then
    do b0 <- rd_byte b i; do b1 <- rd_byte b (i + 1); do b2 <- rd_byte b (i + 2); do b3 <- rd_byte b (i + 3);
    Ok (b0 + 2^8 * b1 + 2^16 * b2 + 2^24 * b3)
  else Fail Misaligned.
(* the string at the beginning of the memory *)
Fixpoint cstr (b : list (option Z)) : res (list Z) :=
  match b with
  | [] => Fail OobRead
  | None :: _ => Fail UninitRead
  | Some c :: b => if c =? 0 then Ok [] else do s <- cstr b; Ok (c :: s)
  end.

(* gutil_inotify_read, line 176, and gutil_inotify_callback, line 198 *)
Definition loop_end (s : state) (i : nat) : res state := unref_inst (emit s (EReadEnd i)) i.

(* One turn of the loop of gutil_inotify_read, lines 152-175 *)
Definition loop (s : state) (i : nat) (next nbytes : Z) (k : list frame) : res state :=
  do q <- get (s_insts s) i;
  if nbytes >? 0 then
    do l <- rd_u32 (i_buf q) (next + 12);
    let n := 16 + l in
    let path := if l =? 0 then None else Some (next + 16) in
    if n >? nbytes then loop_end (set_stack s k) i
    else
      do wd <- rd_u32 (i_buf q) next;
      let k := FLoop i (next + n) (nbytes - n) :: k in
      match t_lookup (i_watches q) (s32 wd) with
      | Some w =>
          do x <- get (s_watches s) w;
          do s <- put_watch s w (set_wrefs x (w_refs x + 1));
          do mask <- rd_u32 (i_buf q) (next + 4);
          do cookie <- rd_u32 (i_buf q) (next + 8);
          Ok (set_stack (emit s (ELook i (s32 wd) (Some w))) (FEmit i w (s32 wd) mask cookie path 0 (s_nid s) :: k))
      | None => Ok (set_stack (emit s (ELook i (s32 wd) None)) k)
      end
  else loop_end (set_stack s k) i.

(* g_signal_emit: the handlers connected when it was called and not disconnected since are called in
   the order of connection. Then line 170. *)
Definition emission (s : state) (i w : nat) (wd mask cookie : Z) (path : option Z) (last max : nat) (k : list frame) : res state :=
  do x <- get (s_watches s) w;
  match find (fun j => Nat.ltb last j && Nat.ltb j max) (w_handlers x) with
  | Some id =>
      do name <- match path with
                 | None => Ok None
                 | Some p => do q <- get (s_insts s) i; do t <- cstr (skipn (Z.to_nat p) (i_buf q)); Ok (Some t)
                 end;
      Ok (set_stack (emit s (ECall w id (IEv wd mask cookie name))) (FHandler w id :: FEmit i w wd mask cookie path id max :: k))
  | None => watch_unref (set_stack s k) w
  end.

(* the main loop gets back the result of gutil_inotify_callback *)
Definition dispatch_end (s : state) (sid : nat) (ok : bool) : state :=
  match source s sid with
  | Some (_, i, _) =>
      if ok then set_srcs s (map (fun x => if Nat.eqb (fst (fst x)) sid then (fst x, false) else x) (s_srcs s)) (s_nsrc s)
      else remove_source s sid
  | None => s
  end.

(* Why the main loop calls gutil_inotify_callback, lines 180-201: an error or hangup, an error when
   reading, or data. A read returns no more than fits into the buffer. *)
Inductive reason : Type := RHup | RError | RData (data : list Z).
Definition dispatch (s : state) (sid : nat) (r : reason) : res state :=
  match source s sid with
  | Some (_, i, false) =>
      do q <- get (s_insts s) i;
      let busy := set_srcs s (map (fun x => if Nat.eqb (fst (fst x)) sid then (fst x, true) else x) (s_srcs s)) (s_nsrc s) in
      match r with
      | RHup => do s <- put_inst s i (set_src q 0); Ok (remove_source s sid)
      | RError =>
          do s <- put_inst busy i (set_refs (set_src q 0) (i_refs q + 1));
          unref_inst (set_stack s (FEnd sid false :: s_stack s)) i
      | RData data =>
          if len data <=? 272 then
            do s <- put_inst busy i (set_refs (set_buf q (map Some data ++ skipn (length data) (i_buf q))) (i_refs q + 1));
            Ok (set_stack (emit s (ERead i data)) (FLoop i 0 (len data) :: FEnd sid true :: s_stack s))
          else Ok s
      end
  | _ => Ok s
  end.

(* What may happen: the client does something, a handler returns, the innermost function goes on, the
   main loop (which may also be run by a handler) calls a source, an object goes away, another thread
   opens or closes a file. *)
Inductive action : Type :=
| ACall (c : call) | AReturn | AGo | ADispatch (sid : nat) (r : reason)
| ADrop (fd n : nat) | AOpen | AClose (fd : nat).

Definition callable (k : list frame) : bool := match k with [] | FHandler _ _ :: _ => true | _ => false end.

Definition step (s : state) (a : action) : res state :=
  match a with
  | ACall c => if callable (s_stack s) then do_call s c else Ok s
  | ADispatch sid r => if callable (s_stack s) then dispatch s sid r else Ok s
  | AReturn => match s_stack s with FHandler _ _ :: k => Ok (emit (set_stack s k) EReturn) | _ => Ok s end
  | AGo =>
      match s_stack s with
      | FClose i :: k => close_end (set_stack s k) i
      | FLoop i next n :: k => loop s i next n k
      | FEmit i w wd mask cookie path last max :: k => emission s i w wd mask cookie path last max k
      | FEnd sid ok :: k => Ok (dispatch_end (set_stack s k) sid ok)
      | _ => Ok s
      end
  | ADrop fd n => Ok (set_fds s (kdrop (s_fds s) fd n))
  | AOpen => Ok (set_fds s (open_file (s_fds s) OFile))
  | AClose fd => match nth_error (s_fds s) fd with Some (Some OFile) => Ok (set_fds s (upd (s_fds s) fd None)) | _ => Ok s end
  end.

Fixpoint run (s : state) (l : list action) : res state :=
  match l with [] => Ok s | a :: l => do s <- step s a; run s l end.
