(* gutil_inotify_watch_callback_new and gutil_inotify_watch_callback_free (gutil_inotify.c, lines 408-436), on top of the model of
   the watches. *)
From Verif Require Import Base InotifyModel.

(* lines 73-76 *)
Record cb : Set := Cb { c_watch : nat; c_id : nat }.
(* The watches and the callbacks allocated so far, None if freed. An address is never used again. *)
Record bstate : Type := BState { b_base : state; b_cbs : list (option cb) }.

(* gutil_inotify_watch_new returns a watch or NULL *)
Definition new_watch (s : state) (s' : state) : option nat :=
  if Nat.ltb (length (s_watches s)) (length (s_watches s')) then Some (length (s_watches s)) else None.

(* gutil_inotify_watch_callback_new, lines 408-424; n is the object the path leads to, if any *)
Definition callback_new (b : bstate) (n : option nat) : res bstate :=
  do s <- do_call (b_base b) (CNew n);
  match new_watch (b_base b) s with
  | Some w =>
      let id := s_nid s in
      do s <- do_call s (CConnect w);
      Ok (BState s (b_cbs b ++ [Some (Cb w id)]))
  | None => Ok (BState s (b_cbs b))
  end.
(* gutil_inotify_watch_callback_free, lines 426-435. gutil_inotify_watch_remove_handler (lines 361-368) does nothing if the id is 0,
   which it is not. Simplified: the structure is freed before gutil_inotify_unref has closed the file, which may be called by
   gutil_inotify_watch_unref. *)
Definition callback_free (b : bstate) (c : option nat) : res bstate :=
  match c with
  | None => Ok b
  | Some c =>
      do x <- get (b_cbs b) c;
      do s <- do_call (b_base b) (CDisconnect (c_watch x) (c_id x));
      do s <- do_call s (CUnref (c_watch x));
      do l <- release (b_cbs b) c;
      Ok (BState s l)
  end.

(* What may happen: anything that may happen to watches, and the two functions called by the client. BNewFail: inotify_init fails. *)
Inductive baction : Type := BDo (a : action) | BNew (n : option nat) | BNewFail | BFree (c : option nat).
Definition bstep (b : bstate) (x : baction) : res bstate :=
  match x with
  | BDo a => do s <- step (b_base b) a; Ok (BState s (b_cbs b))
  | BNew n => if callable (s_stack (b_base b)) then callback_new b n else Ok b
  | BNewFail => do s <- step (b_base b) (ACall CNewFail); Ok (BState s (b_cbs b))
  | BFree c => if callable (s_stack (b_base b)) then callback_free b c else Ok b
  end.
Fixpoint brun (b : bstate) (l : list baction) : res bstate :=
  match l with [] => Ok b | x :: l => do b <- bstep b x; brun b l end.
Definition bstart : bstate := BState start [].
