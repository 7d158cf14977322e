(* Model of /repo/src/gutil_idlepool.c: the default pools of threads (a NULL pool, gutil_idle_pool_get_default) with any number of threads and
   main contexts. The list of items is a list here; see IdlePoolModel.v for the pointers. *)
From Verif Require Import Base.

(* lines 51-58. p_thread is the address of the GThread structure of the thread which has created the pool. *)
Record pool : Type := Pool { p_refs : Z; p_idle : nat; p_thread : nat; p_items : list (nat * Z) }.

(* A source of a main context: the number of the context (0 is g_main_context_default()), the identifier in the context, the pool which
   gutil_idle_pool_idle gets or None if the source has nothing to do with pools, and whether it is waiting, being called, or being called and
   destroyed already *)
Inductive status : Set := SIdle | SRun | SGone.
Record src : Type := Src { c_ctx : nat; c_id : nat; c_owner : option nat; c_stat : status }.

(* Who called gutil_idle_pool_drain: the client, gutil_idle_pool_idle (line 212) called by the given source, gutil_idle_pool_unref (line 141) *)
Inductive caller : Set := WClient | WIdle (c id : nat) | WFinal.

(* Functions in progress *)
Inductive frame : Type :=
| FLoop (p : nat) (w : caller)                         (* in front of line 165 *)
| FBatch (p : nat) (l : list (nat * Z)) (w : caller)   (* in front of line 170: the items to be destroyed *)
| FCb (p : nat) (l : list (nat * Z)) (w : caller)      (* line 171, in the function of the client; the items after that one *)
| FRemove (p id : nat) (w : caller)                    (* in front of line 180; the local variable *)
| FRemoved (p : nat) (w : caller)                      (* line 180, g_source_remove is about to return *)
| FOther (p c id : nat)                                (* in front of line 216: gutil_idle_pool_idle on a wrong thread *)
| FExit (n : nat)                                      (* the thread exits, n more rounds of destructors are possible *)
| FClose (c : nat).                                    (* g_main_context_unref has begun to destroy the sources *)

Inductive life : Set := Unborn | Alive | Exiting | Dead.
(* A thread: the address of its GThread, its thread-default context (0 if there is none), the value of thread_pool (line 109) *)
Record thread : Type := Thread { t_self : nat; t_life : life; t_ctx : nat; t_slot : option nat; t_stack : list frame }.

(* What happens, on the thread t *)
Inductive event : Type :=
| EStart (t : nat) | EExit (t : nat) | EDead (t : nat)
| ENew (t p : nat) | EDefault (t p : nat)              (* gutil_idle_pool_get_default has created a pool; has returned p *)
| EAdd (t p i : nat) (d : Z)
| EBatch (t p : nat) | EDestroy (t p i : nat) (d : Z) | EReturn (t : nat)
| EDrain (t p : nat) | EDrained (t p : nat) (w : caller)
| ESource (c id : nat) (o : option nat)                (* a source has been attached *)
| EUnsource (t p id : nat) (c : nat) (o : option nat)  (* a drain of p has removed the source id of c, which belongs to o *)
| EBad (t p id : nat)                                  (* there is no such source *)
| EIdle (t c id p : nat) | EIdleEnd (t c id p : nat)   (* the source of p is called; it is removed because it has returned *)
| EClient (t c id : nat)                               (* another source is called *)
| EClosed (c id : nat) (o : option nat)                (* a source is destroyed together with its context *)
| ERef (p : nat) | EUnref (p : nat) | EZero (p : nat) | EGone (p : nat).

(* The contexts have the next identifier and a flag whether they exist. Events are listed the last one first. *)
Record state : Type := State { s_pools : list (option pool); s_srcs : list src; s_ctxs : list (nat * bool); s_threads : list thread; s_items : nat; s_trace : list event }.

Definition set_pools (s : state) l : state := State l (s_srcs s) (s_ctxs s) (s_threads s) (s_items s) (s_trace s).
Definition set_srcs (s : state) l : state := State (s_pools s) l (s_ctxs s) (s_threads s) (s_items s) (s_trace s).
Definition set_ctxs (s : state) l : state := State (s_pools s) (s_srcs s) l (s_threads s) (s_items s) (s_trace s).
Definition set_threads (s : state) l : state := State (s_pools s) (s_srcs s) (s_ctxs s) l (s_items s) (s_trace s).
Definition set_items (s : state) n : state := State (s_pools s) (s_srcs s) (s_ctxs s) (s_threads s) n (s_trace s).
Definition emit (s : state) (e : event) : state := State (s_pools s) (s_srcs s) (s_ctxs s) (s_threads s) (s_items s) (e :: s_trace s).

Definition set_pool (s : state) (p : nat) (q : option pool) : state := set_pools s (upd (s_pools s) p q).
Definition the_pool (s : state) (p : nat) : res pool :=
  match nth_error (s_pools s) p with Some (Some q) => Ok q | Some None => Fail UseAfterFree | None => Fail OobRead end.

Definition with_stack (th : thread) (k : list frame) : thread := Thread (t_self th) (t_life th) (t_ctx th) (t_slot th) k.
Definition with_slot (th : thread) (o : option nat) : thread := Thread (t_self th) (t_life th) (t_ctx th) o (t_stack th).
Definition with_ctx (th : thread) (c : nat) : thread := Thread (t_self th) (t_life th) c (t_slot th) (t_stack th).
Definition with_life (th : thread) (l : life) : thread := Thread (t_self th) l (t_ctx th) (t_slot th) (t_stack th).
Definition on_thread (s : state) (t : nat) (f : thread -> thread) : state :=
  match nth_error (s_threads s) t with Some th => set_threads s (upd (s_threads s) t (f th)) | None => s end.
Definition push (s : state) (t : nat) (f : frame) : state := on_thread s t (fun th => with_stack th (f :: t_stack th)).
Definition pop (s : state) (t : nat) : state := on_thread s t (fun th => with_stack th (tl (t_stack th))).
Definition swap (s : state) (t : nat) (f : frame) : state := push (pop s t) t f.

Definition is_src (c id : nat) (x : src) : bool := Nat.eqb (c_ctx x) c && Nat.eqb (c_id x) id.
Definition live (x : src) : bool := match c_stat x with SGone => false | _ => true end.
Definition without (l : list src) (c id : nat) : list src := filter (fun x => negb (is_src c id x)) l.
Definition mark (l : list src) (c id : nat) (st : status) : list src :=
  map (fun x => if is_src c id x then Src (c_ctx x) (c_id x) (c_owner x) st else x) l.

(* g_source_attach: each context has its own identifiers, which are not zero *)
Definition attach (s : state) (c : nat) (o : option nat) : res (state * nat) :=
  match nth_error (s_ctxs s) c with
  | Some (id, true) => Ok (emit (set_ctxs (set_srcs s (s_srcs s ++ [Src c id o SIdle])) (upd (s_ctxs s) c (S id, true))) (ESource c id o), id)
  | Some (_, false) => Fail UseAfterFree
  | None => Fail OobRead
  end.

(* lines 132-145, on thread t. line 142 is in drain_end. The default pools are not shared ones (line 140). *)
Definition drop (s : state) (t p : nat) : res state :=
  do q <- the_pool s p;
  let s := set_pool s p (Some (Pool (p_refs q - 1) (p_idle q) (p_thread q) (p_items q))) in
  if p_refs q - 1 =? 0 then Ok (push (emit s (EZero p)) t (FLoop p WFinal)) else Ok s.

(* lines 106-118, 61-69 *)
Definition get_default (s : state) (t : nat) (th : thread) : state * nat :=
  match t_slot th with
  | Some p => (emit s (EDefault t p), p)
  | None =>
      let p := length (s_pools s) in
      let s := emit (set_pools s (s_pools s ++ [Some (Pool 1 0 (t_self th) [])])) (ENew t p) in
      (emit (on_thread s t (fun th => with_slot th (Some p))) (EDefault t p), p)
  end.

(* lines 219-257 with a NULL pool. Nothing happens if there is no function. *)
Definition add (s : state) (t : nat) (th : thread) (d : Z) : res state :=
  let (s, p) := get_default s t th in
  let i := s_items s in
  let s := emit (set_items s (S i)) (EAdd t p i d) in
  do q <- the_pool s p;
  let items := p_items q ++ [(i, d)] in
  if Nat.eqb (p_idle q) 0 then
    do (s, id) <- attach s (t_ctx th) (Some p);
    Ok (set_pool s p (Some (Pool (p_refs q + 1) id (p_thread q) items)))
  else Ok (set_pool s p (Some (Pool (p_refs q) (p_idle q) (p_thread q) items))).

(* Line 216: the main loop destroys the source and calls gutil_idle_pool_unref_1 *)
Definition idle_end (s : state) (t p c id : nat) : res state :=
  drop (emit (set_srcs s (without (s_srcs s) c id)) (EIdleEnd t c id p)) t p.

(* The end of gutil_idle_pool_drain and what the caller does then: lines 216, 142 *)
Definition drain_end (s : state) (t p : nat) (w : caller) : res state :=
  let s := emit (pop s t) (EDrained t p w) in
  match w with
  | WClient => Ok s
  | WIdle c id => idle_end s t p c id
  | WFinal =>
      match nth_error (s_pools s) p with
      | Some (Some _) => Ok (emit (set_pool s p None) (EGone p))
      | _ => Fail DoubleFree
      end
  end.

(* lines 165-169, 176-179 *)
Definition loop (s : state) (t p : nat) (w : caller) : res state :=
  do q <- the_pool s p;
  match p_items q with
  | [] =>
      if Nat.eqb (p_idle q) 0 then drain_end s t p w
      else Ok (swap (set_pool s p (Some (Pool (p_refs q) 0 (p_thread q) []))) t (FRemove p (p_idle q) w))
  | l => Ok (swap (emit (set_pool s p (Some (Pool (p_refs q) (p_idle q) (p_thread q) []))) (EBatch t p)) t (FBatch p l w))
  end.

(* lines 170-171, 174 *)
Definition batch (s : state) (t p : nat) (l : list (nat * Z)) (w : caller) : res state :=
  match l with
  | [] => Ok (swap s t (FLoop p w))
  | (i, d) :: l => Ok (swap (emit s (EDestroy t p i d)) t (FCb p l w))
  end.

(* Line 180. g_source_remove looks for the identifier in the default context, whatever context the source was attached to in line 250. If the source is
   being called, the reference is dropped when it has returned. *)
Definition remove (s : state) (t p id : nat) (w : caller) : res state :=
  let s := swap s t (FRemoved p w) in
  match find (fun x => is_src 0 id x && live x) (s_srcs s) with
  | None => Ok (emit s (EBad t p id))
  | Some x =>
      let s := emit s (EUnsource t p id 0 (c_owner x)) in
      match c_owner x, c_stat x with
      | None, _ => Ok (set_srcs s (without (s_srcs s) 0 id))
      | Some o, SIdle => drop (set_srcs s (without (s_srcs s) 0 id)) t o
      | Some o, _ => Ok (set_srcs s (mark (s_srcs s) 0 id SGone))
      end
  end.

Definition is_open (s : state) (c : nat) : bool := match nth_error (s_ctxs s) c with Some (_, b) => b | None => false end.
(* A main loop on thread t calls a source. gutil_idle_pool_idle, lines 184-215. It does not call a source from inside itself. *)
Definition dispatch (s : state) (t : nat) (th : thread) (c id : nat) : res state :=
  match find (fun x => is_src c id x) (s_srcs s) with
  | Some x =>
      match c_owner x, c_stat x with
      | None, _ => Ok (emit s (EClient t c id))
      | Some p, SIdle =>
          let s := emit (set_srcs s (mark (s_srcs s) c id SRun)) (EIdle t c id p) in
          do q <- the_pool s p;
          let s := set_pool s p (Some (Pool (p_refs q) 0 (p_thread q) (p_items q))) in
          Ok (push s t (if Nat.eqb (p_thread q) (t_self th) then FLoop p (WIdle c id) else FOther p c id))
      | Some _, _ => Ok s
      end
  | None => Ok s
  end.

(* GPrivate: the value is set to NULL and given to gutil_idle_pool_unref_1 (line 109); if there is a value again then the same is done again, a limited
   number of times (PTHREAD_DESTRUCTOR_ITERATIONS) *)
Definition exit_step (s : state) (t : nat) (th : thread) (n : nat) : res state :=
  match t_slot th, n with
  | Some p, S n => drop (swap (on_thread s t (fun th => with_slot th None)) t (FExit n)) t p
  | _, _ => Ok (emit (on_thread (pop s t) t (fun th => with_ctx (with_life th Dead) 0)) (EDead t))
  end.

(* A context which is freed destroys its sources, one after the other; none of them is being called *)
Definition close_step (s : state) (t c : nat) : res state :=
  match find (fun x => Nat.eqb (c_ctx x) c && match c_stat x with SIdle => true | _ => false end) (s_srcs s) with
  | None => Ok (pop s t)
  | Some x =>
      let s := emit (set_srcs s (without (s_srcs s) c (c_id x))) (EClosed c (c_id x) (c_owner x)) in
      match c_owner x with Some p => drop s t p | None => Ok s end
  end.

(* The functions of the API, given a NULL pool or, CUnref, a pool a reference of which the client has *)
Inductive call : Set := CGet | CAdd (d : Z) | CDrain | CRef | CUnref (p : nat).
Definition do_call (s : state) (t : nat) (th : thread) (c : call) : res state :=
  match c with
  | CGet => Ok (fst (get_default s t th))
  | CAdd d => add s t th d
  | CDrain => let (s, p) := get_default s t th in Ok (push (emit s (EDrain t p)) t (FLoop p WClient))            (* lines 157-165 *)
  | CRef =>                                                                                                    (* lines 120-129 *)
      let (s, p) := get_default s t th in
      do q <- the_pool s p;
      Ok (emit (set_pool s p (Some (Pool (p_refs q + 1) (p_idle q) (p_thread q) (p_items q)))) (ERef p))
  | CUnref p => drop (emit s (EUnref p)) t p
  end.

(* What happens next, on the given thread *)
Inductive action : Type :=
| AStep                     (* the function in progress goes on *)
| AStart                    (* the thread begins; two threads which exist have different GThreads *)
| ACall (c : call)          (* the client calls a function *)
| AReturn                   (* the function of the client returns *)
| ADispatch (c id : nat)    (* a main loop calls a source *)
| APush (c : nat)           (* the thread-default context is changed *)
| ASource (c : nat)         (* the client attaches a source of its own *)
| AClose (c : nat)          (* a context is freed, which no thread uses *)
| AExit (b : bool) (n : nat).   (* the thread exits; b: the thread-default context is forgotten first; n rounds of destructors are possible *)

Definition exists_thread (th : thread) : bool := match t_life th with Alive | Exiting => true | _ => false end.
Definition unused (s : state) (c : nat) : bool :=
  negb (Nat.eqb c 0) && is_open s c && forallb (fun th => negb (Nat.eqb (t_ctx th) c)) (s_threads s) &&
  forallb (fun x => negb (Nat.eqb (c_ctx x) c) || match c_stat x with SIdle => true | _ => false end) (s_srcs s).

(* The client runs on thread t *)
Definition client (s : state) (t : nat) (th : thread) (a : action) : res state :=
  match a with
  | ACall c => do_call s t th c
  | ADispatch c id => if is_open s c then dispatch s t th c id else Ok s
  | APush c => Ok (if is_open s c then on_thread s t (fun th => with_ctx th c) else s)
  | ASource c => if is_open s c then do (s, _) <- attach s c None; Ok s else Ok s
  | AClose c => Ok (if unused s c then push (set_ctxs s (upd (s_ctxs s) c (0%nat, false))) t (FClose c) else s)
  | _ => Ok s
  end.

Definition step (s : state) (x : nat * action) : res state :=
  let (t, a) := x in
  match nth_error (s_threads s) t with
  | None => Ok s
  | Some th =>
      match t_stack th with
      | FLoop p w :: _ => match a with AStep => loop s t p w | _ => Ok s end
      | FBatch p l w :: _ => match a with AStep => batch s t p l w | _ => Ok s end
      | FRemove p id w :: _ => match a with AStep => remove s t p id w | _ => Ok s end
      | FRemoved p w :: _ => match a with AStep => drain_end s t p w | _ => Ok s end
      | FOther p c id :: _ => match a with AStep => idle_end (pop s t) t p c id | _ => Ok s end
      | FExit n :: _ => match a with AStep => exit_step s t th n | _ => Ok s end
      | FClose c :: _ => match a with AStep => close_step s t c | _ => Ok s end
      | FCb p l w :: _ => match a with AReturn => Ok (swap (emit s (EReturn t)) t (FBatch p l w)) | _ => client s t th a end
      | [] =>
          match t_life th with
          | Unborn =>
              match a with
              | AStart => if existsb (fun x => exists_thread x && Nat.eqb (t_self x) (t_self th)) (s_threads s) then Ok s
                          else Ok (emit (on_thread s t (fun th => with_life th Alive)) (EStart t))
              | _ => Ok s
              end
          | Alive =>
              match a with
              | AExit b n => Ok (emit (push (on_thread s t (fun th => with_ctx (with_life th Exiting) (if b then 0 else t_ctx th)%nat)) t (FExit n)) (EExit t))
              | _ => client s t th a
              end
          | _ => Ok s
          end
      end
  end.

Fixpoint run (s : state) (l : list (nat * action)) : res state :=
  match l with [] => Ok s | a :: l => do s <- step s a; run s l end.

(* No thread has begun; the addresses of their GThreads are given. There are n contexts besides the default one. *)
Definition start (selfs : list nat) (n : nat) : state :=
  State [] [] (repeat (1%nat, true) (S n)) (map (fun a => Thread a Unborn 0 None []) selfs) 0 [].
