(* Model of /repo/src/gutil_idlequeue.c: one queue, the main loop and a client which may call anything at any time,
   also from inside the callbacks. *)
From Verif Require Import Base.

(* lines 44-51. Callbacks are only known to be NULL or not; what they do is up to the client, see action. *)
Record item : Type := Item {
  it_next : option nat; it_tag : Z; it_data : Z; it_run : bool; it_destroy : bool; it_completed : bool }.

(* lines 53-58 *)
Record queue : Type := Queue { q_refs : Z; q_source : nat; q_first : option nat; q_last : option nat }.

(* The items allocated so far; None if freed. An address is never used again. *)
Definition heap := list (option item).
Definition get (h : heap) (a : nat) : res item :=
  match nth_error h a with Some (Some it) => Ok it | Some None => Fail UseAfterFree | None => Fail OobRead end.
Definition put (h : heap) (a : nat) (it : item) : res heap := do _ <- get h a; Ok (upd h a (Some it)).
Definition release (h : heap) (a : nat) : res heap := do _ <- get h a; Ok (upd h a None).

Definition set_next (it : item) (n : option nat) : item := Item n (it_tag it) (it_data it) (it_run it) (it_destroy it) (it_completed it).
Definition set_completed (it : item) : item := Item (it_next it) (it_tag it) (it_data it) (it_run it) (it_destroy it) true.
Definition set_ends (q : queue) (f l : option nat) : queue := Queue (q_refs q) (q_source q) f l.
Definition set_source (q : queue) (n : nat) : queue := Queue (q_refs q) n (q_first q) (q_last q).
Definition set_refs (q : queue) (n : Z) : queue := Queue n (q_source q) (q_first q) (q_last q).

(* Who called gutil_idle_queue_cancel_all: the client, gutil_idle_queue_free (line 138), gutil_idle_queue_unref (line 160) *)
Inductive caller : Set := ByClient | ByFree | ByUnref.

(* Functions in progress, the innermost first. Each either runs (the first two) or waits for a callback. *)
Inductive frame : Type :=
| FRunLoop (sid : nat) (done : option nat)            (* gutil_idle_queue_run in front of line 92; the local variable done *)
| FAllLoop (w : caller)                               (* gutil_idle_queue_cancel_all in front of line 305 *)
| FRunCb (sid : nat) (done : option nat) (a : nat)    (* line 105, in the run callback of item a *)
| FRunDestroyCb (sid : nat) (done : option nat)       (* line 109, in the destroy callback *)
| FAllCb (a : nat) (w : caller)                       (* lines 306 and 67, in the destroy callback *)
| FTagFirstCb (a : nat) (tag : Z)                     (* lines 269 and 67 *)
| FTagMidCb (a : nat) (tag : Z)                       (* lines 287 and 67 *)
| FNullCb.                                            (* line 227: the queue is NULL *)

(* An item as the client has added it. The identifier tells items apart which are otherwise equal. *)
Record entry : Type := Entry { e_id : nat; e_tag : Z; e_data : Z; e_run : bool; e_destroy : bool }.

(* What happens. ETake and ECancel mark the moments when an item leaves the queue in order to be run or to be cancelled,
   EAll and EAllEnd the begin and the end of gutil_idle_queue_cancel_all, EZero and EGone the number of references becoming
   zero and the queue being freed; the others are visible to the client or to the main loop. *)
Inductive event : Type :=
| EAdd (e : entry)
| ETake (i : nat) | ECancel (i : nat)
| ERun (i : nat) (data : Z) | EDestroy (i : nat) (data : Z) | ENullDestroy (data : Z) | EReturn
| EPass (sid : nat) | EPassEnd (sid : nat) (again : bool)
| EAll | EAllEnd
| ETag (tag : Z) | ETagEnd (tag : Z) (b : bool) | EContains (tag : Z) (b : bool)
| ESource (sid : nat) | EUnsource (sid : nat) | EBadUnsource (sid : nat)
| ERef | EUnref | EFree | EZero | EGone.

(* Everything. The sources are those of the main loop which call gutil_idle_queue_run for this queue, and whether the main
   loop is inside the call. The events are listed the last one first. *)
Record state : Type := State {
  s_heap : heap; s_queue : option queue; s_srcs : list (nat * bool); s_next : nat; s_stack : list frame; s_trace : list event }.

Definition set_heap (s : state) (h : heap) : state := State h (s_queue s) (s_srcs s) (s_next s) (s_stack s) (s_trace s).
Definition set_queue (s : state) (q : option queue) : state := State (s_heap s) q (s_srcs s) (s_next s) (s_stack s) (s_trace s).
Definition set_stack (s : state) (k : list frame) : state := State (s_heap s) (s_queue s) (s_srcs s) (s_next s) k (s_trace s).
Definition emit (s : state) (e : event) : state :=
  State (s_heap s) (s_queue s) (s_srcs s) (s_next s) (s_stack s) (e :: s_trace s).

(* access to the queue structure *)
Definition the_queue (s : state) : res queue := match s_queue s with Some q => Ok q | None => Fail UseAfterFree end.

(* g_idle_add: a new source with an identifier which is not zero and never used again *)
Definition idle_add (s : state) : state * nat :=
  let id := s_next s in
  (emit (State (s_heap s) (s_queue s) (s_srcs s ++ [(id, false)]) (S id) (s_stack s) (s_trace s)) (ESource id), id).
(* g_source_remove *)
Definition without (l : list (nat * bool)) (id : nat) : list (nat * bool) := filter (fun x => negb (Nat.eqb (fst x) id)) l.
Definition source_remove (s : state) (id : nat) : state :=
  if existsb (fun x => Nat.eqb (fst x) id) (s_srcs s)
  then emit (State (s_heap s) (s_queue s) (without (s_srcs s) id) (s_next s) (s_stack s) (s_trace s)) (EUnsource id)
  else emit s (EBadUnsource id).
(* gutil_source_clear(&q->source_id), /repo/src/gutil_misc.c:96-108 *)
Definition source_clear (s : state) : res state :=
  do q <- the_queue s;
  if Nat.eqb (q_source q) 0 then Ok s
  else let s := source_remove s (q_source q) in Ok (set_queue s (Some (set_source q 0))).

(* the loops at lines 88-90 and 302-304; the number of items allocated is enough fuel unless the list is circular *)
Fixpoint mark (fuel : nat) (h : heap) (p : option nat) : res heap :=
  match p with
  | None => Ok h
  | Some a =>
      match fuel with
      | O => Fail NoFuel
      | S fuel => do it <- get h a; do h <- put h a (set_completed it); mark fuel h (it_next it)
      end
  end.

(* g_slice_free_chain(GUtilIdleQueueItem, done, next), line 114 *)
Fixpoint free_chain (fuel : nat) (h : heap) (p : option nat) : res heap :=
  match p with
  | None => Ok h
  | Some a =>
      match fuel with
      | O => Fail NoFuel
      | S fuel => do it <- get h a; do h <- release h a; free_chain fuel h (it_next it)
      end
  end.

(* lines 94-97 and 252-255: remove the first item *)
Definition pop (s : state) (q : queue) (it : item) : state :=
  set_queue s (Some (set_ends q (it_next it) (match it_next it with None => None | Some _ => q_last q end))).

(* lines 108-110 and back to line 92 *)
Definition after_run (s : state) (sid : nat) (done : option nat) (a : nat) (k : list frame) : res state :=
  do it <- get (s_heap s) a;
  if it_destroy it then Ok (set_stack (emit s (EDestroy a (it_data it))) (FRunDestroyCb sid done :: k))
  else Ok (set_stack s (FRunLoop sid done :: k)).

(* lines 114-122. The main loop removes the source, or may call it again. *)
Definition run_end (s : state) (sid : nat) (done : option nat) (k : list frame) : res state :=
  do h <- free_chain (length (s_heap s)) (s_heap s) done;
  let s := set_heap s h in
  do q <- the_queue s;
  match q_first q with
  | Some _ =>
      let srcs := map (fun x => if Nat.eqb (fst x) sid then (fst x, false) else x) (s_srcs s) in
      Ok (emit (State h (s_queue s) srcs (s_next s) k (s_trace s)) (EPassEnd sid true))
  | None =>
      Ok (emit (State h (Some (set_source q 0)) (without (s_srcs s) sid) (s_next s) k (s_trace s)) (EPassEnd sid false))
  end.

(* lines 92-110 *)
Definition run_loop (s : state) (sid : nat) (done : option nat) (k : list frame) : res state :=
  do q <- the_queue s;
  match q_first q with
  | Some a =>
      do it <- get (s_heap s) a;
      if it_completed it then
        let s := pop s q it in
        do h <- put (s_heap s) a (set_next it done);
        let s := emit (set_heap s h) (ETake a) in
        if it_run it then Ok (set_stack (emit s (ERun a (it_data it))) (FRunCb sid (Some a) a :: k))
        else after_run s sid (Some a) a k
      else run_end s sid done k
  | None => run_end s sid done k
  end.

(* The main loop calls gutil_idle_queue_run, lines 72-90. It does not call a source from inside itself (no G_SOURCE_CAN_RECURSE). *)
Definition dispatch (s : state) (sid : nat) : res state :=
  if existsb (fun x => Nat.eqb (fst x) sid && negb (snd x)) (s_srcs s) then
    let srcs := map (fun x => if Nat.eqb (fst x) sid then (fst x, true) else x) (s_srcs s) in
    let s := emit (State (s_heap s) (s_queue s) srcs (s_next s) (s_stack s) (s_trace s)) (EPass sid) in
    do q <- the_queue s;
    do h <- mark (length (s_heap s)) (s_heap s) (q_first q);
    Ok (set_stack (set_heap s h) (FRunLoop sid None :: s_stack s))
  else Ok s.

(* lines 296-304 *)
Definition cancel_all (s : state) (w : caller) (k : list frame) : res state :=
  do q <- the_queue s;
  do h <- mark (length (s_heap s)) (s_heap s) (q_first q);
  Ok (set_stack (emit (set_heap s h) EAll) (FAllLoop w :: k)).

(* lines 158-162 *)
Definition drop (s : state) (k : list frame) : res state :=
  do q <- the_queue s;
  let s := set_stack (set_queue s (Some (set_refs q (q_refs q - 1)))) k in
  if q_refs q - 1 =? 0 then cancel_all (emit s EZero) ByUnref k else Ok s.

(* lines 308-310 and what the caller does then: lines 139, 161 *)
Definition all_end (s : state) (w : caller) (k : list frame) : res state :=
  do q <- the_queue s;
  do s <- match q_first q with None => source_clear s | Some _ => Ok s end;
  let s := set_stack (emit s EAllEnd) k in
  match w with
  | ByClient => Ok s
  | ByFree => drop s k
  | ByUnref => do _ <- the_queue s; Ok (emit (set_queue s None) EGone)
  end.

(* lines 305-307, 247-258 and 64-69 *)
Definition all_loop (s : state) (w : caller) (k : list frame) : res state :=
  do q <- the_queue s;
  match q_first q with
  | Some a =>
      do it <- get (s_heap s) a;
      if it_completed it then
        let s := emit (pop s q it) (ECancel a) in
        if it_destroy it then Ok (set_stack (emit s (EDestroy a (it_data it))) (FAllCb a w :: k))
        else do h <- release (s_heap s) a; Ok (set_heap s h)
      else all_end s w k
  | None => all_end s w k
  end.

(* lines 271-274 *)
Definition tag_first_end (s : state) (tag : Z) (k : list frame) : res state :=
  do q <- the_queue s;
  do s <- match q_first q with None => source_clear s | Some _ => Ok s end;
  Ok (set_stack (emit s (ETagEnd tag true)) k).

(* the loop at lines 277-290: the item found and the one in front of it *)
Fixpoint find_tag (fuel : nat) (h : heap) (prev : nat) (p : option nat) (tag : Z) : res (option (nat * nat)) :=
  match p with
  | None => Ok None
  | Some a =>
      match fuel with
      | O => Fail NoFuel
      | S fuel => do it <- get h a; if it_tag it =? tag then Ok (Some (prev, a)) else find_tag fuel h a (it_next it) tag
      end
  end.

(* lines 260-294 *)
Definition cancel_tag (s : state) (tag : Z) : res state :=
  let s := emit s (ETag tag) in
  let k := s_stack s in
  do q <- the_queue s;
  match q_first q with
  | None => Ok (emit s (ETagEnd tag false))
  | Some a =>
      do it <- get (s_heap s) a;
      if it_tag it =? tag then
        do h <- put (s_heap s) a (set_completed it);
        let s := emit (pop (set_heap s h) q it) (ECancel a) in
        if it_destroy it then Ok (set_stack (emit s (EDestroy a (it_data it))) (FTagFirstCb a tag :: k))
        else do h <- release (s_heap s) a; tag_first_end (set_heap s h) tag k
      else
        do found <- find_tag (length (s_heap s)) (s_heap s) a (it_next it) tag;
        match found with
        | None => Ok (emit s (ETagEnd tag false))
        | Some (prev, b) =>
            do it <- get (s_heap s) b;
            do pr <- get (s_heap s) prev;
            do h <- put (s_heap s) prev (set_next pr (it_next it));
            let s := set_heap s h in
            let s := match it_next it with
                     | Some _ => s
                     | None => set_queue s (Some (set_ends q (q_first q) (Some prev)))
                     end in
            do h <- put h b (set_completed it);
            let s := emit (set_heap s h) (ECancel b) in
            if it_destroy it then Ok (set_stack (emit s (EDestroy b (it_data it))) (FTagMidCb b tag :: k))
            else do h <- release (s_heap s) b; Ok (emit (set_heap s h) (ETagEnd tag true))
        end
  end.

(* lines 235-244 *)
Fixpoint has_tag (fuel : nat) (h : heap) (p : option nat) (tag : Z) : res bool :=
  match p with
  | None => Ok false
  | Some a =>
      match fuel with
      | O => Fail NoFuel
      | S fuel => do it <- get h a; if it_tag it =? tag then Ok true else has_tag fuel h (it_next it) tag
      end
  end.

(* lines 203-225 *)
Definition add (s : state) (tag data : Z) (run destroy : bool) : res state :=
  let a := length (s_heap s) in
  let s := emit (set_heap s (s_heap s ++ [Some (Item None tag data run destroy false)])) (EAdd (Entry a tag data run destroy)) in
  do q <- the_queue s;
  do (s, q) <- match q_last q with
               | Some l =>
                   do it <- get (s_heap s) l;
                   do h <- put (s_heap s) l (set_next it (Some a));
                   Ok (set_heap s h, set_ends q (q_first q) (Some a))
               | None => Ok (s, set_ends q (Some a) (Some a))
               end;
  if Nat.eqb (q_source q) 0 then
    let (s, id) := idle_add s in Ok (set_queue s (Some (set_source q id)))
  else Ok (set_queue s (Some q)).

(* The functions of the API *)
Inductive call : Type :=
| CAdd (tag data : Z) (run destroy : bool)   (* gutil_idle_queue_add_tag_full *)
| CContains (tag : Z) | CCancelTag (tag : Z) | CCancelAll | CRef | CUnref | CFree.
(* lines 166-193 *)
Definition c_add (run : bool) (data : Z) : call := CAdd 0 data run false.
Definition c_add_full (run : bool) (data : Z) (destroy : bool) : call := CAdd 0 data run destroy.
Definition c_add_tag (tag : Z) (run : bool) (data : Z) : call := CAdd tag data run false.

Definition do_call (s : state) (c : call) : res state :=
  let k := s_stack s in
  match c with
  | CAdd tag data run destroy => add s tag data run destroy
  | CContains tag =>
      do q <- the_queue s;
      do b <- has_tag (length (s_heap s)) (s_heap s) (q_first q) tag;
      Ok (emit s (EContains tag b))
  | CCancelTag tag => cancel_tag s tag
  | CCancelAll => cancel_all s ByClient k
  | CRef => do q <- the_queue s; Ok (emit (set_queue s (Some (set_refs q (q_refs q + 1)))) ERef)     (* lines 142-151 *)
  | CUnref => drop (emit s EUnref) k                                                                (* lines 153-164 *)
  | CFree => cancel_all (emit s EFree) ByFree k                                                     (* lines 134-140 *)
  end.

(* The same with a NULL queue: lines 146, 157, 226-228, 235, 264, 300. Nothing is returned which is not NULL or FALSE. *)
Definition null_call (s : state) (c : call) : res state :=
  match c with
  | CAdd _ data _ true => Ok (set_stack (emit s (ENullDestroy data)) (FNullCb :: s_stack s))
  | _ => Ok s
  end.

(* The callback returns to the function which has called it *)
Definition resume (s : state) (f : frame) (k : list frame) : res state :=
  let s := emit s EReturn in
  match f with
  | FRunCb sid done a => after_run s sid done a k
  | FRunDestroyCb sid done => Ok (set_stack s (FRunLoop sid done :: k))
  | FAllCb a w => do h <- release (s_heap s) a; Ok (set_stack (set_heap s h) (FAllLoop w :: k))
  | FTagFirstCb a tag => do h <- release (s_heap s) a; tag_first_end (set_heap s h) tag k
  | FTagMidCb a tag => do h <- release (s_heap s) a; Ok (set_stack (emit (set_heap s h) (ETagEnd tag true)) k)
  | FNullCb => Ok (set_stack s k)
  | FRunLoop _ _ | FAllLoop _ => Ok s
  end.

(* What happens next. The client may do anything except AStep when nothing is in progress or when it has been called. *)
Inductive action : Type :=
| AStep                  (* one more round of the loop in progress *)
| ACall (c : call)       (* the client calls a function *)
| ANull (c : call)       (* the same with a NULL queue *)
| AReturn                (* the callback returns *)
| ADispatch (sid : nat). (* the main loop, possibly run by a callback, calls a source *)

Definition step (s : state) (a : action) : res state :=
  match s_stack s with
  | FRunLoop sid done :: k => match a with AStep => run_loop s sid done k | _ => Ok s end
  | FAllLoop w :: k => match a with AStep => all_loop s w k | _ => Ok s end
  | k =>
      match a with
      | AStep => Ok s
      | ACall c => do_call s c
      | ANull c => null_call s c
      | AReturn => match k with [] => Ok s | f :: k => resume s f k end
      | ADispatch sid => dispatch s sid
      end
  end.

Fixpoint run (s : state) (l : list action) : res state :=
  match l with [] => Ok s | a :: l => do s <- step s a; run s l end.

(* lines 125-132: the client has one reference *)
Definition start : state := State [] (Some (Queue 1 0 None None)) [] 1 [] [].
