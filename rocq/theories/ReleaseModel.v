(* Model of gutil_disconnect_handlers and gutil_source_clear, /repo/src/gutil_misc.c:45-61 and 96-108, where removing a
   source or a handler calls a destroy notification of the client. Both do the same thing to an array of identifiers:
     if (ids[i]) { remove(ids[i]); ids[i] = 0; }
   and gutil_source_clear is the case of one of them. *)
From Verif Require Import Base.

(* A call in progress: about to look at ids[i], or in the destroy notification of ids[i]; e is where it stops *)
Inductive frame : Set := FLoop (i e : nat) | FNotify (i e : nat).

(* What happens: the client connects a handler (or attaches a source) and keeps its identifier in a cell; an identifier is
   removed; GLib is asked to remove one which is not there and complains; the memory is released *)
Inductive event : Set := EStore (k id : nat) | ERelease (id : nat) | EBad (id : nat) | EFree.

(* The array (None: it has been freed), what is connected, the next identifier (GLib does not use 0), calls in progress (innermost first),
   and what has happened (newest first). Identifiers do not repeat; GLib's wrap after 2^32 sources or 2^64 handlers is not modelled. *)
Record state := St { s_cells : option (list nat); s_alive : list nat; s_next : nat; s_stack : list frame; s_trace : list event }.
Definition start (n : nat) : state := St (Some (repeat 0%nat n)) [] 1 [] [].

Inductive action : Set :=
| ACall (k m : nat)   (* the client calls gutil_disconnect_handlers(object, ids + k, m), or gutil_source_clear(ids + k) with m = 1 *)
| AStore (k : nat)    (* the client connects something and stores the identifier in ids[k] *)
| AFree               (* the client frees the array *)
| AStep (notify : bool)  (* a function goes on; if that removes something, its destroy notification is called now or not at all (there may be none, or it
                         comes later because the handler is running) *)
| AReturn.            (* the destroy notification returns *)

Definition mem (x : nat) (l : list nat) : bool := existsb (Nat.eqb x) l.
Definition drop (x : nat) (l : list nat) : list nat := filter (fun y => negb (Nat.eqb x y)) l.

(* ids[i] = 0, lines 57 and 103; the loop goes on *)
Definition clear (s : state) (i e : nat) (st : list frame) : res state :=
  match s_cells s with
  | None => Fail UseAfterFree
  | Some c => if Nat.ltb i (length c) then Ok (St (Some (upd c i 0%nat)) (s_alive s) (s_next s) (FLoop (S i) e :: st) (s_trace s)) else Fail OobWrite
  end.

(* Lines 54-56, 101-102. GLib: removing what is not connected is a warning. *)
Definition loop (s : state) (i e : nat) (st : list frame) (notify : bool) : res state :=
  if Nat.ltb i e then
    match s_cells s with
    | None => Fail UseAfterFree
    | Some c =>
        match nth_error c i with
        | None => Fail OobRead
        | Some 0%nat => Ok (St (s_cells s) (s_alive s) (s_next s) (FLoop (S i) e :: st) (s_trace s))
        | Some x =>
            if mem x (s_alive s) then
              let s := St (s_cells s) (drop x (s_alive s)) (s_next s) (s_stack s) (ERelease x :: s_trace s) in
              if notify then Ok (St (s_cells s) (s_alive s) (s_next s) (FNotify i e :: st) (s_trace s)) else clear s i e st
            else clear (St (s_cells s) (s_alive s) (s_next s) (s_stack s) (EBad x :: s_trace s)) i e st
        end
    end
  else Ok (St (s_cells s) (s_alive s) (s_next s) st (s_trace s)).

(* The client runs, outside of any call or inside of a destroy notification *)
Definition client (s : state) (a : action) : res state :=
  match a with
  | ACall k m => Ok (St (s_cells s) (s_alive s) (s_next s) (FLoop k (k + m) :: s_stack s) (s_trace s))
  | AStore k =>
      match s_cells s with
      | None => Fail UseAfterFree
      | Some c =>
          if Nat.ltb k (length c) then
            Ok (St (Some (upd c k (s_next s))) (s_next s :: s_alive s) (S (s_next s)) (s_stack s) (EStore k (s_next s) :: s_trace s))
          else Fail OobWrite
      end
  | AFree => match s_cells s with None => Fail UseAfterFree | Some _ => Ok (St None (s_alive s) (s_next s) (s_stack s) (EFree :: s_trace s)) end
  | AStep _ => Ok s
  | AReturn => match s_stack s with FNotify i e :: st => clear s i e st | _ => Ok s end
  end.

Definition step (s : state) (a : action) : res state :=
  match s_stack s with
  | FLoop i e :: st => match a with AStep b => loop s i e st b | _ => Ok s end
  | _ => client s a
  end.
Fixpoint run (s : state) (l : list action) : res state := match l with [] => Ok s | a :: l => do s <- step s a; run s l end.
