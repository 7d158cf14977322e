(* Logging with the client inside of its log functions: gutil_log.c:388-551 step by step. Between two lines of a dump the client may log,
   dump, change modules and log functions, write to memory and free it. Deciding where a message goes is that of LogModel. *)
From Coq Require Import String Ascii List.
From Verif Require Import Base HexModel LogModel DescModel.
Import ListNotations.
Open Scope Z_scope.

(* The conversion %d of printf, digits from the last one; ten of them are enough for an int *)
Fixpoint dec_digits (fuel : nat) (v : Z) (acc : str) : str :=
  match fuel with
  | O => acc
  | S fuel => if v <? 10 then (48 + v) :: acc else dec_digits fuel (v / 10) ((48 + v mod 10) :: acc)
  end.
Definition fmt_int (v : Z) : str := if v <? 0 then 45 :: dec_digits 10 (- v) [] else dec_digits 10 v [].

(* gutil_log_assert, gutil_log.c:458-467: the text of the message *)
Definition assert_message (expr file : str) (line : Z) : str := lit "Assert " ++ expr ++ lit " failed at " ++ file ++ lit ":" ++ fmt_int line.

(* What happened, with the time (the number of labels before) *)
Inductive event : Type :=
| EMsg (dump : option nat) (m : option nat) (level : Z) (text : str)   (* gutil_log is called: by a dump or by the client *)
| ECall (o : out)                                                      (* a log function is called *)
| EDump (id : nat) (m : option nat) (level : Z) (prefix : option str) (b : nat) (size : Z) (on : bool)   (* a dump begins, enabled or not *)
| EDone (id : nat).                                                    (* a dump which was enabled returns *)

(* What is going on: a log function called for a message of the client, or a dump (gutil_log_dump2, 504-523) whose log function is running or not *)
Inductive frame : Type :=
| FLog
| FDump (id : nat) (running : bool) (m : option nat) (level : Z) (prefix : str) (b : nat) (off size : Z).

(* The state: configuration, blocks of memory (None: freed), what is going on (innermost first), number of dumps so far, time, events (newest first) *)
Record state := RState { r_conf : conf; r_mem : list (option (list Z)); r_stack : list frame; r_ids : nat; r_time : nat; r_trace : list (nat * event) }.
Definition r_start (c : conf) (mem : list (option (list Z))) : state := RState c mem [] 0 0 [].

(* What the client does, at top level or inside of a log function; LReturn: the log function returns; LGo: the innermost dump goes on *)
Inductive label : Type :=
| LLog (m : option nat) (level : Z) (text : str)                                     (* gutil_log, gutil_logv *)
| LAssert (m : option nat) (level : Z) (expr file : str) (line : Z)                  (* gutil_log_assert *)
| LDump (m : option nat) (level : Z) (prefix : option str) (b : nat) (size : Z)      (* gutil_log_dump *)
| LDumpBytes (m : option nat) (level : Z) (prefix : option str) (b : option nat)     (* gutil_log_dump_bytes, of all bytes of the block or NULL *)
| LModule (m : nat) (x : module)                                                     (* fields of a module are assigned; gutil_log_parse_option, gutil_log_set_type *)
| LFunc (f : option func)                                                            (* gutil_log_func is assigned; gutil_log_set_type *)
| LFunc2 (p : option proc)                                                           (* gutil_log_func2 is assigned *)
| LPoke (b : nat) (i : Z) (v : Z)                                                    (* a byte is written *)
| LFree (b : nat)                                                                    (* a block is freed, or the last reference to a GBytes is dropped *)
| LReturn
| LGo.

(* Do log functions of the client run? g_logv calls the handlers of the client *)
Definition client (o : out) : bool :=
  match o with OProc (PClient _) _ _ _ | OProc PGlib2 _ _ _ | OFunc (FClient _) _ _ _ | OFunc FGlib _ _ _ => true | _ => false end.

Definition note (s : state) (e : event) : state := RState (r_conf s) (r_mem s) (r_stack s) (r_ids s) (r_time s) ((r_time s, e) :: r_trace s).
Definition set_stack (s : state) (l : list frame) : state := RState (r_conf s) (r_mem s) l (r_ids s) (r_time s) (r_trace s).
Definition set_conf (s : state) (c : conf) : state := RState c (r_mem s) (r_stack s) (r_ids s) (r_time s) (r_trace s).
Definition set_mem (s : state) (m : list (option (list Z))) : state := RState (r_conf s) m (r_stack s) (r_ids s) (r_time s) (r_trace s).
Definition tick (s : state) : state := RState (r_conf s) (r_mem s) (r_stack s) (r_ids s) (S (r_time s)) (r_trace s).

(* gutil_log, lines 404-456: the log function found is called, and runs until it returns if it is one of the client *)
Definition message (fuel : nat) (s : state) (dump : option nat) (m : option nat) (level : Z) (text : str) : res (state * bool) :=
  do o <- logv fuel (r_conf s) m level text;
  let s := note s (EMsg dump m level text) in
  Ok (match o with Some o => (note s (ECall o), client o) | None => (s, false) end).

Definition say (fuel : nat) (s : state) (m : option nat) (level : Z) (text : str) : res state :=
  do (s, run) <- message fuel s None m level text;
  Ok (if (run : bool) then set_stack s (FLog :: r_stack s) else s).

(* a block which has not been freed *)
Definition the_block (s : state) (b : nat) : res (list Z) := match nth_error (r_mem s) b with Some (Some l) => Ok l | _ => Fail UseAfterFree end.

(* gutil_log_dump and gutil_log_dump_bytes, 525-551, up to the loop; the size is the one given, or that of the GBytes which is asked for it *)
Definition begin_dump (fuel : nat) (s : state) (m : option nat) (level : Z) (prefix : option str) (b : nat) (size : option Z) : res state :=
  do on <- enabled fuel (r_conf s) m level;
  do size <- (match size with Some n => Ok n | None => if (on : bool) then do data <- the_block s b; Ok (len data) else Ok 0 end);
  let id := r_ids s in
  let s := note s (EDump id m level prefix b size on) in
  let s := RState (r_conf s) (r_mem s) (r_stack s) (S id) (r_time s) (r_trace s) in
  Ok (if (on : bool) then set_stack s (FDump id false m level (match prefix with Some p => p | None => [] end) b 0 size :: r_stack s) else s).

(* one turn of the loop, 515-522, of a dump which is innermost *)
Definition turn (fuel : nat) (d : dialect) (isp : Z -> bool) (s : state) (id : nat) (m : option nat) (level : Z) (prefix : str) (b : nat) (off size : Z) (rest : list frame) : res state :=
  if size >? 0 then
    do data <- the_block s b;
    do (consumed, buf) <- hexdump d isp (malloc 70) (skipn (Z.to_nat off) data) (u32 size);
    do line <- cstr buf;
    do (s, run) <- message fuel s (Some id) m level (prefix ++ fmt_X 8 4 off [] ++ [58; 32] ++ line);
    Ok (set_stack s (FDump id run m level prefix b (u32 (off + consumed)) (u64 (size - consumed)) :: rest))
  else Ok (set_stack (note s (EDone id)) rest).

(* Is the client to act? *)
Definition in_control (s : state) : bool := match r_stack s with FDump _ false _ _ _ _ _ _ :: _ => false | _ => true end.

(* None: this label is not possible now *)
Definition act (fuel : nat) (d : dialect) (isp : Z -> bool) (l : label) (s : state) : option (res state) :=
  match l with
  | LGo => match r_stack s with FDump id false m lv p b off size :: rest => Some (turn fuel d isp s id m lv p b off size rest) | _ => None end
  | LReturn =>
      match r_stack s with
      | FLog :: rest => Some (Ok (set_stack s rest))
      | FDump id true m lv p b off size :: rest => Some (Ok (set_stack s (FDump id false m lv p b off size :: rest)))
      | _ => None
      end
  | _ =>
      if in_control s then
        match l with
        | LLog m lv text => Some (say fuel s m lv text)
        | LAssert m lv e f n => Some (say fuel s m lv (assert_message e f n))
        | LDump m lv p b size => Some (begin_dump fuel s m lv p b (Some size))
        | LDumpBytes m lv p (Some b) => Some (begin_dump fuel s m lv p b None)
        | LDumpBytes m lv p None => Some (Ok s)
        | LModule m x => if (m <? length (c_mods (r_conf s)))%nat then Some (Ok (set_conf s (set_mods (r_conf s) (upd (c_mods (r_conf s)) m x)))) else None
        | LFunc f => Some (Ok (set_conf s (set_func (r_conf s) f)))
        | LFunc2 p => Some (Ok (set_conf s (Conf (c_mods (r_conf s)) (c_func (r_conf s)) p)))
        | LPoke b i v =>
            match nth_error (r_mem s) b with
            | Some (Some l) => if (0 <=? i) && (i <? len l) then Some (Ok (set_mem s (upd (r_mem s) b (Some (upd l (Z.to_nat i) v))))) else None
            | _ => None
            end
        | LFree b => match nth_error (r_mem s) b with Some (Some _) => Some (Ok (set_mem s (upd (r_mem s) b None))) | _ => None end
        | _ => None
        end
      else None
  end.

Definition step (fuel : nat) (d : dialect) (isp : Z -> bool) (l : label) (s : state) : option (res state) :=
  match act fuel d isp l s with Some r => Some (do s <- r; Ok (tick s)) | None => None end.

Fixpoint run (fuel : nat) (d : dialect) (isp : Z -> bool) (s : state) (ls : list label) : option (res state) :=
  match ls with
  | [] => Some (Ok s)
  | l :: ls =>
      match step fuel d isp l s with
      | Some (Ok s) => run fuel d isp s ls
      | Some (Fail f) => Some (Fail f)
      | None => None
      end
  end.
