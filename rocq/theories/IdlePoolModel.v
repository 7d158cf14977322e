(* Model of /repo/src/gutil_idlepool.c: one pool, the main loops of any number of threads and a client which may call
   anything at any time, also from inside the destroy callbacks. *)
From Verif Require Import Base.

(* What gutil_idle_pool_add has been given: a function of the client, or gutil_idle_pool_unref_1 and the pool itself, line 93 *)
Inductive kind : Set := KClient | KSelf.

(* lines 45-49 *)
Record item : Type := Item { it_next : option nat; it_data : Z; it_kind : kind }.

(* lines 51-58. The thread which has created the pool is number 0. *)
Record pool : Type := Pool { p_refs : Z; p_idle : nat; p_first : option nat; p_last : option nat; p_shared : bool }.

(* The items allocated so far; None if freed. An address is never used again. *)
Definition heap := list (option item).
Definition get (h : heap) (a : nat) : res item :=
  match nth_error h a with Some (Some it) => Ok it | Some None => Fail UseAfterFree | None => Fail OobRead end.
Definition put (h : heap) (a : nat) (it : item) : res heap := do _ <- get h a; Ok (upd h a (Some it)).
Definition release (h : heap) (a : nat) : res heap := do _ <- get h a; Ok (upd h a None).

Definition set_next (it : item) (n : option nat) : item := Item n (it_data it) (it_kind it).
Definition set_ends (q : pool) (f l : option nat) : pool := Pool (p_refs q) (p_idle q) f l (p_shared q).
Definition set_idle (q : pool) (n : nat) : pool := Pool (p_refs q) n (p_first q) (p_last q) (p_shared q).
Definition set_refs (q : pool) (n : Z) : pool := Pool n (p_idle q) (p_first q) (p_last q) (p_shared q).

(* Who called gutil_idle_pool_drain: the client, gutil_idle_pool_destroy (line 152), gutil_idle_pool_idle (line 212) called by
   the given source, gutil_idle_pool_unref (line 141) *)
Inductive caller : Set := WClient | WDestroy | WIdle (sid : nat) | WFinal.

(* Functions in progress. The client runs only if there is none or if it has been called by the innermost one (FCb). *)
Inductive frame : Type :=
| FLoop (w : caller)                                      (* in front of line 165 *)
| FBatch (items : nat) (item : option nat) (w : caller)   (* in front of line 170; the local variables *)
| FCb (items : nat) (item : nat) (w : caller)             (* line 171, in the function of the client *)
| FSelf (items : nat) (item : nat) (w : caller)           (* line 171, in gutil_idle_pool_unref_1 *)
| FRemove (id : nat) (w : caller)                         (* in front of line 180; the local variable *)
| FRemoved (w : caller)                                   (* line 180, in gutil_idle_pool_unref_1 *)
| FOther (sid : nat).                                     (* in front of line 214: gutil_idle_pool_idle on a wrong thread *)

(* The variable passed to gutil_idle_pool_get: it points to this pool or to another one created later *)
Inductive variable : Set := VNull | VThis | VOther.

(* What happens. The threads are those on which it happens. *)
Inductive event : Type :=
| ENew | EShared                                    (* lines 60-69; lines 88-95 *)
| EAdd (i : nat) (data : Z) (k : kind)
| EBatch (t : nat) | EBatchEnd (t : nat)            (* line 169: the items leave the pool; line 174: they have been destroyed *)
| EDestroy (t i : nat) (data : Z) (k : kind) | EReturn (t : nat)
| EDrain (t : nat) | EDrained (t : nat) (w : caller)
| EIdle (t sid : nat) | EIdleEnd (t sid : nat)      (* the main loop has called the source; it has removed it *)
| ESource (sid : nat) | EUnsource (sid : nat) | EBadRemove (sid : nat)
| ERef | EUnref | EKill                             (* gutil_idle_pool_ref, _unref, _destroy called by the client *)
| EZero | EGone.

(* Everything. The sources are those which call gutil_idle_pool_idle for this pool, and whether a main loop is inside the call.
   There is one stack of functions for each thread, the innermost first. The events are listed the last one first. *)
Record state : Type := State {
  s_heap : heap; s_pool : option pool; s_var : variable; s_srcs : list (nat * bool); s_next : nat;
  s_stacks : list (list frame); s_trace : list event }.

Definition set_heap (s : state) (h : heap) : state := State h (s_pool s) (s_var s) (s_srcs s) (s_next s) (s_stacks s) (s_trace s).
Definition set_pool (s : state) (q : option pool) : state := State (s_heap s) q (s_var s) (s_srcs s) (s_next s) (s_stacks s) (s_trace s).
Definition set_var (s : state) (v : variable) : state := State (s_heap s) (s_pool s) v (s_srcs s) (s_next s) (s_stacks s) (s_trace s).
Definition set_srcs (s : state) (l : list (nat * bool)) : state := State (s_heap s) (s_pool s) (s_var s) l (s_next s) (s_stacks s) (s_trace s).
Definition set_stack (s : state) (t : nat) (k : list frame) : state :=
  State (s_heap s) (s_pool s) (s_var s) (s_srcs s) (s_next s) (upd (s_stacks s) t k) (s_trace s).
Definition emit (s : state) (e : event) : state :=
  State (s_heap s) (s_pool s) (s_var s) (s_srcs s) (s_next s) (s_stacks s) (e :: s_trace s).

(* access to the pool structure *)
Definition the_pool (s : state) : res pool := match s_pool s with Some q => Ok q | None => Fail UseAfterFree end.

(* g_source_attach, line 250: an identifier which is not zero and never used again *)
Definition attach (s : state) : state * nat :=
  let id := s_next s in
  (emit (State (s_heap s) (s_pool s) (s_var s) (s_srcs s ++ [(id, false)]) (S id) (s_stacks s) (s_trace s)) (ESource id), id).
Definition without (l : list (nat * bool)) (id : nat) : list (nat * bool) := filter (fun x => negb (Nat.eqb (fst x) id)) l.

(* g_slice_free_chain, line 174; the number of items allocated is enough fuel unless the list is circular *)
Fixpoint free_chain (fuel : nat) (h : heap) (p : option nat) : res heap :=
  match p with
  | None => Ok h
  | Some a =>
      match fuel with
      | O => Fail NoFuel
      | S fuel => do it <- get h a; do h <- release h a; free_chain fuel h (it_next it)
      end
  end.

(* lines 138-141, on thread t with k waiting *)
Definition drop (s : state) (t : nat) (k : list frame) : res state :=
  do q <- the_pool s;
  let s := set_pool s (Some (set_refs q (p_refs q - 1))) in
  if p_refs q - 1 =? 0 then
    let s := if p_shared q then set_var s VNull else s in
    Ok (set_stack (emit s EZero) t (FLoop WFinal :: k))
  else Ok (set_stack s t k).

(* Line 216: the main loop destroys the source and calls gutil_idle_pool_unref_1 *)
Definition idle_end (s : state) (t sid : nat) (k : list frame) : res state :=
  drop (emit (set_srcs s (without (s_srcs s) sid)) (EIdleEnd t sid)) t k.

(* The end of gutil_idle_pool_drain and what the caller does then: lines 153, 216, 142 *)
Definition drain_end (s : state) (t : nat) (w : caller) (k : list frame) : res state :=
  let s := emit s (EDrained t w) in
  match w with
  | WClient => Ok (set_stack s t k)
  | WDestroy => drop s t k
  | WIdle sid => idle_end s t sid k
  | WFinal =>
      match s_pool s with
      | Some _ => Ok (set_stack (emit (set_pool s None) EGone) t k)
      | None => Fail DoubleFree
      end
  end.

(* lines 165-169, 176-179 *)
Definition loop (s : state) (t : nat) (w : caller) (k : list frame) : res state :=
  do q <- the_pool s;
  match p_first q with
  | Some a => Ok (set_stack (emit (set_pool s (Some (set_ends q None None))) (EBatch t)) t (FBatch a (Some a) w :: k))
  | None =>
      if Nat.eqb (p_idle q) 0 then drain_end s t w k
      else Ok (set_stack (set_pool s (Some (set_idle q 0))) t (FRemove (p_idle q) w :: k))
  end.

(* lines 170-171, 174 *)
Definition batch (s : state) (t items : nat) (item : option nat) (w : caller) (k : list frame) : res state :=
  match item with
  | None =>
      do h <- free_chain (length (s_heap s)) (s_heap s) (Some items);
      Ok (set_stack (emit (set_heap s h) (EBatchEnd t)) t (FLoop w :: k))
  | Some a =>
      do it <- get (s_heap s) a;
      let s := emit s (EDestroy t a (it_data it) (it_kind it)) in
      match it_kind it with
      | KClient => Ok (set_stack s t (FCb items a w :: k))
      | KSelf => drop s t (FSelf items a w :: k)
      end
  end.

(* line 172 *)
Definition next_item (s : state) (t items a : nat) (w : caller) (k : list frame) : res state :=
  do it <- get (s_heap s) a; Ok (set_stack s t (FBatch items (it_next it) w :: k)).

(* Line 180. If the main loop (of another thread) is inside the call, gutil_idle_pool_unref_1 is called when it has returned. *)
Definition remove (s : state) (t id : nat) (w : caller) (k : list frame) : res state :=
  match find (fun x => Nat.eqb (fst x) id) (s_srcs s) with
  | None => Ok (set_stack (emit s (EBadRemove id)) t (FRemoved w :: k))
  | Some (_, true) => Ok (set_stack s t (FRemoved w :: k))
  | Some (_, false) => drop (emit (set_srcs s (without (s_srcs s) id)) (EUnsource id)) t (FRemoved w :: k)
  end.

(* The main loop calls gutil_idle_pool_idle, lines 184-215. It does not call a source from inside itself (no G_SOURCE_CAN_RECURSE). *)
Definition dispatch (s : state) (t sid : nat) (k : list frame) : res state :=
  if existsb (fun x => Nat.eqb (fst x) sid && negb (snd x)) (s_srcs s) then
    let srcs := map (fun x => if Nat.eqb (fst x) sid then (fst x, true) else x) (s_srcs s) in
    let s := emit (set_srcs s srcs) (EIdle t sid) in
    do q <- the_pool s;
    let s := set_pool s (Some (set_idle q 0)) in
    Ok (set_stack s t ((if Nat.eqb t 0 then FLoop (WIdle sid) else FOther sid) :: k))
  else Ok s.

(* lines 225-254. Nothing happens if there is no function. *)
Definition add (s : state) (data : Z) (kd : kind) : res state :=
  let a := length (s_heap s) in
  let s := emit (set_heap s (s_heap s ++ [Some (Item None data kd)])) (EAdd a data kd) in
  do q <- the_pool s;
  do (s, q) <- match p_last q with
               | Some l =>
                   do it <- get (s_heap s) l;
                   do h <- put (s_heap s) l (set_next it (Some a));
                   Ok (set_heap s h, set_ends q (p_first q) (Some a))
               | None => Ok (s, set_ends q (Some a) (Some a))
               end;
  if Nat.eqb (p_idle q) 0 then
    let q := set_refs q (p_refs q + 1) in
    let (s, id) := attach s in Ok (set_pool s (Some (set_idle q id)))
  else Ok (set_pool s (Some q)).

(* The functions of the API, given this pool *)
Inductive call : Set := CAdd (data : Z) | CRef | CUnref | CDrain | CDestroy.
Definition do_call (s : state) (t : nat) (c : call) (k : list frame) : res state :=
  match c with
  | CAdd data => add s data KClient
  | CRef => do q <- the_pool s; Ok (emit (set_pool s (Some (set_refs q (p_refs q + 1)))) ERef)    (* lines 121-130 *)
  | CUnref => drop (emit s EUnref) t k                                                           (* lines 132-145 *)
  | CDrain => Ok (set_stack (emit s (EDrain t)) t (FLoop WClient :: k))                          (* lines 157-165 *)
  | CDestroy => Ok (set_stack (emit s EKill) t (FLoop WDestroy :: k))                            (* lines 147-152 *)
  end.

(* What happens next, on the given thread *)
Inductive action : Type :=
| AStep                  (* the function in progress goes on *)
| ACall (c : call)       (* the client calls a function *)
| AReturn                (* the function of the client returns *)
| ADispatch (sid : nat)  (* the main loop, possibly run by a callback, calls a source *)
| AGet                   (* gutil_idle_pool_get, lines 83-96: another pool is created if there is none *)
| AOtherGone.            (* that pool is finalised, line 140 *)

Definition step (s : state) (x : nat * action) : res state :=
  let (t, a) := x in
  match nth_error (s_stacks s) t with
  | None => Ok s
  | Some (FLoop w :: k) => match a with AStep => loop s t w k | _ => Ok s end
  | Some (FBatch items item w :: k) => match a with AStep => batch s t items item w k | _ => Ok s end
  | Some (FSelf items item w :: k) => match a with AStep => next_item s t items item w k | _ => Ok s end
  | Some (FRemove id w :: k) => match a with AStep => remove s t id w k | _ => Ok s end
  | Some (FRemoved w :: k) => match a with AStep => drain_end s t w k | _ => Ok s end
  | Some (FOther sid :: k) => match a with AStep => idle_end s t sid k | _ => Ok s end
  | Some k =>
      match a with
      | AStep => Ok s
      | ACall c => do_call s t c k
      | AReturn => match k with FCb items item w :: k => next_item (emit s (EReturn t)) t items item w k | _ => Ok s end
      | ADispatch sid => dispatch s t sid k
      | AGet => Ok (match s_var s with VNull => set_var s VOther | _ => s end)
      | AOtherGone => Ok (match s_var s with VOther => set_var s VNull | _ => s end)
      end
  end.

Fixpoint run (s : state) (l : list (nat * action)) : res state :=
  match l with [] => Ok s | a :: l => do s <- step s a; run s l end.

(* Lines 60-69: the client has one reference. There are n other threads. *)
Definition start_new (n : nat) : state := State [] (Some (Pool 1 0 None None false)) VNull [] 1 (repeat [] (S n)) [ENew].
(* Lines 88-95: gutil_idle_pool_get has created the pool *)
Definition start_shared (n : nat) : res state :=
  do s <- add (State [] (Some (Pool 1 0 None None true)) VNull [] 1 (repeat [] (S n)) [EShared]) 0 KSelf;
  Ok (set_var s VThis).
